(* C51, C114, C115: ObjectArrays. *)
From Verif Require Import Prelude ObjModel ObjSpec ObjProofs ObjProofs2.

Section THEOREMS.
Context {X E : Type}.
Variable freeze : X -> result E.
Variable kept : X -> bool.
Implicit Types st : state E.
Notation step := (step freeze kept).
Notation session := (session freeze kept).
Notation reachable := (reachable freeze kept).

(* C51: if no array contains a writable array, then nothing that a program does which gets hold of read-only arrays only (and of what it
   can obtain from these: elements, slices, selections, views, copies, and arrays of its own) changes any array which was there before. *)
Theorem C51_read_only_partial st av st' av' :
  reachable st -> no_writable_inside st -> (forall h, In h av -> read_only st h) -> session st av st' av' ->
  forall h p e, h < length (arrs st) -> (holds st' h p e <-> holds st h p e) /\ len st' h = len st h.
Proof.
  intros R Hin Hro S h p e Lh. pose proof (reachable_inv freeze kept st R) as (_ & I2 & I3).
  assert (I : inv freeze (length (stores st)) st).
  { split; auto. split; auto. intros s l x El Hx. pose proof (I3 s l x El Hx) as Ox. destruct x as [|v|y]; cbn in *; auto. destruct (Hin s l y El Hx) as (a & Ea & Ra). exists a. auto. }
  destruct (session_inv freeze kept _ _ _ _ _ S I) as (_ & (G & _ & Fs) & _).
  - intros x Hx. destruct (Hro x Hx) as (a & Ea & Ra). exists a. auto.
  - destruct (nth_some _ _ Lh) as [a Ea]. pose proof (grows_nth _ _ _ _ G Ea) as Ea'. unfold holds, len, cell. rewrite Ea, Ea'. split; [|reflexivity].
    destruct (I2 h a Ea) as (l & El & _). assert (Es : nth_error (stores st') (a_store a) = nth_error (stores st) (a_store a)) by (apply Fs; eapply nth_lt; eauto).
    split; intros (s & i & k & A & B & C); exists s, i, k; (split; [exact A|]; split; [|exact C]); destruct (nth_error (a_indices a) p); try discriminate; cbn in A; injection A as <- <-; congruence.
Qed.

(* attempts to write to a read-only array are rejected and change nothing *)
Theorem C51_rejected st h i xs : read_only st h -> ((exists z, i = At z) -> length xs = 1) -> step st (Set_ h i xs) = (st, Err ValueError).
Proof.
  intros (a & Ea & Ra) Hx. destruct i as [z|x y s|l]; cbn.
  - specialize (Hx (ex_intro _ z eq_refl)). destruct xs as [|x [|]]; try discriminate Hx. unfold set_int. rewrite Ea, Ra. reflexivity.
  - unfold set_many. rewrite Ea, Ra. reflexivity.
  - unfold set_many. rewrite Ea, Ra. reflexivity.
Qed.

(* reading: indices from -n to n-1, counted from the end if they are negative *)
Theorem C51_read st h n i : reachable st -> len st h = Some n ->
  ((- Z.of_nat n <= i < Z.of_nat n)%Z -> exists e, step st (Get h (At i)) = (st, Ok (OElem e)) /\ holds st h (Z.to_nat (i mod Z.of_nat n)) e) /\
  (~ (- Z.of_nat n <= i < Z.of_nat n)%Z -> step st (Get h (At i)) = (st, Err IndexError)).
Proof.
  intros R Hl. unfold len in Hl. destruct (nth_error (arrs st) h) as [a|] eqn:Ea; [|discriminate]. injection Hl as <-. cbn. unfold get_int. rewrite Ea. split; intros Hi.
  - rewrite int_index_ok by auto. cbn [bind]. destruct (holds_ex freeze st h a (Z.to_nat (i mod Z.of_nat (length (a_indices a))))) as (e & Ef & He); [eapply reachable_inv; eauto|exact Ea|apply int_index_mod; auto|].
    exists e. rewrite Ef. auto.
  - rewrite int_index_err by auto. reflexivity.
Qed.

(* a slice is a window onto the cells of the original array; it is read-only if and only if the original is *)
Theorem C51_slice st h n start stop stp : len st h = Some n -> (0 < match stp with None => 1 | Some z => z end)%Z ->
  exists st' v ps, step st (Get h (Slice start stop stp)) = (st', Ok (OHandle v)) /\ sliced n start stop (match stp with None => 1 | Some z => z end)%Z ps /\
    len st v = None /\ len st' v = Some (length ps) /\ (forall k p, nth_error ps k = Some p -> cell st' v k = cell st h p) /\ (read_only st' v <-> read_only st h) /\
    stores st' = stores st /\ (forall h' p, h' < length (arrs st) -> cell st' h' p = cell st h' p).
Proof.
  intros Hl Hs. unfold len in *. destruct (nth_error (arrs st) h) as [a|] eqn:Ea; [|discriminate]. injection Hl as <-.
  destruct (slice_positions_ok (length (a_indices a)) start stop stp Hs) as (ps & Ep & Sp). cbn [step]. unfold get_many. rewrite Ea. cbn [positions]. rewrite Ep.
  eexists. exists (length (arrs st)), ps. split; [reflexivity|]. split; [exact Sp|]. cbn [arrs stores].
  pose proof (slice_positions_lt _ _ _ _ _ Ep) as F.
  assert (En : nth_error (arrs st ++ [Arr (select (a_indices a) ps) (a_store a) (a_ro a)]) (length (arrs st)) = Some (Arr (select (a_indices a) ps) (a_store a) (a_ro a))) by (rewrite nth_error_app2, Nat.sub_diag by auto; reflexivity).
  split; [rewrite (proj2 (nth_error_None _ _)); auto|]. rewrite En. cbn [option_map a_indices]. split; [unfold select; rewrite map_length; reflexivity|]. split; [|split; [|split; [reflexivity|]]].
  - intros k p Hk. unfold cell. cbn [arrs]. rewrite En, Ea. cbn [a_indices a_store]. unfold select. rewrite nth_error_map, Hk. cbn.
    assert (Lp : p < length (a_indices a)) by (rewrite Forall_forall in F; apply F; eapply nth_error_In; eauto). rewrite (nth_error_nth' _ 0 Lp). reflexivity.
  - unfold read_only. cbn [arrs]. rewrite En, Ea. split; intros (b & Eb & Rb); injection Eb as <-; eexists; split; eauto.
  - intros h' p L. unfold cell. cbn [arrs]. rewrite nth_error_app1 by auto. reflexivity.
Qed.
(* a read-only view is a window onto all cells *)
Theorem C51_view st h n : len st h = Some n ->
  exists st' v, step st (View h) = (st', Ok (OHandle v)) /\ len st v = None /\ len st' v = Some n /\ (forall k, cell st' v k = cell st h k) /\ read_only st' v /\
    stores st' = stores st /\ (forall h' p, h' < length (arrs st) -> cell st' h' p = cell st h' p).
Proof.
  intros Hl. unfold len in *. destruct (nth_error (arrs st) h) as [a|] eqn:Ea; [|discriminate]. injection Hl as <-.
  cbn [ObjModel.step]. unfold read_only_view, get_many. rewrite Ea. cbn [positions]. rewrite slice_all, select_seq. cbn [arrs stores].
  rewrite nth_error_app2, Nat.sub_diag by auto. cbn [nth_error]. rewrite upd_last. cbn [a_indices a_store].
  assert (En : nth_error (arrs st ++ [Arr (a_indices a) (a_store a) true]) (length (arrs st)) = Some (Arr (a_indices a) (a_store a) true)) by (rewrite nth_error_app2, Nat.sub_diag by auto; reflexivity).
  eexists. exists (length (arrs st)). split; [reflexivity|]. cbn [arrs stores]. split; [rewrite (proj2 (nth_error_None _ _)); auto|]. rewrite En. split; [reflexivity|]. split; [|split; [|split; [reflexivity|]]].
  - intros k. unfold cell. cbn [arrs]. rewrite En, Ea. reflexivity.
  - eexists. split; [exact En|reflexivity].
  - intros h' p L. unfold cell. cbn [arrs]. rewrite nth_error_app1 by auto. reflexivity.
Qed.

(* writing through a window: exactly the places which are windows onto the same cell change, whatever array they belong to *)
Theorem C51_write st h n i x st' u : reachable st -> len st h = Some n -> step st (Set_ h (At i) [x]) = (st', Ok u) ->
  (- Z.of_nat n <= i < Z.of_nat n)%Z /\ writable st h /\
  exists e, match x with IVal _ y => exists w, freeze y = Ok w /\ e = EVal w | IArr h' => e = EArr h' /\ (h' = h \/ read_only st h') end /\
    (forall h' q, cell st' h' q = cell st h' q) /\
    (forall h' q e', holds st' h' q e' <->
       (cell st h' q = cell st h (Z.to_nat (i mod Z.of_nat n)) /\ e' = e) \/ (cell st h' q <> cell st h (Z.to_nat (i mod Z.of_nat n)) /\ holds st h' q e')).
Proof.
  intros R Hl Es. unfold len in Hl. destruct (nth_error (arrs st) h) as [a|] eqn:Ea; [|discriminate]. injection Hl as <-. cbn in Es. unfold set_int in Es. rewrite Ea in Es.
  destruct (a_ro a) eqn:Ro; [discriminate|]. destruct (int_index _ i) as [p|] eqn:Ei; [|discriminate].
  assert (Hi : (- Z.of_nat (length (a_indices a)) <= i < Z.of_nat (length (a_indices a)))%Z).
  { unfold int_index in Ei. destruct (_ || _) eqn:Eo; [discriminate|]. lia. }
  rewrite int_index_ok in Ei by auto. injection Ei as Ei. pose proof (int_index_mod _ _ Hi) as Lp. rewrite Ei in *.
  destruct (as_item X E freeze kept st h [] x) as [[m e]|] eqn:Ex; [|discriminate]. injection Es as <- <-. split; auto. split; [exists a; auto|]. exists e. split; [|split].
  - unfold as_item in Ex. destruct x as [id y|h'].
    + cbn in Ex. destruct (freeze y) as [w|]; [|discriminate]. cbn in Ex. injection Ex as <- <-. eauto.
    + destruct (Nat.eqb_spec h' h) as [->|]; [injection Ex as <- <-; auto|]. destruct (nth_error (arrs st) h') as [b|] eqn:Eb; [|discriminate]. destruct (a_ro b) eqn:Rb; [|discriminate]. injection Ex as <- <-. split; auto. right. exists b. auto.
  - intros h' q. apply cell_same. apply arrs_put.
  - intros h' q e'. destruct (nth_some _ _ Lp) as [j Ej]. rewrite (cell_nth st h a p j Ea Ej), (nth_error_nth _ _ _ Ej).
    destruct (array_store freeze st h a (reachable_inv freeze kept st R) Ea) as (l & El & F). apply (put_holds _ _ _ _ _ _ _ l); auto. rewrite Forall_forall in F. apply F. eapply nth_error_In; eauto.
Qed.

(* a selection by a list of integers is a copy: it holds the same elements, in cells of its own *)
Theorem C51_selection st h n l : reachable st -> len st h = Some n -> Forall (fun i => (- Z.of_nat n <= i < Z.of_nat n)%Z) l ->
  exists st' v, step st (Get h (Fancy l)) = (st', Ok (OHandle v)) /\ len st v = None /\ len st' v = Some (length l) /\
    (forall k i e, nth_error l k = Some i -> holds st' v k e <-> holds st h (Z.to_nat (i mod Z.of_nat n)) e) /\
    (forall h' k q, h' <> v -> k < length l -> cell st' v k <> cell st' h' q) /\
    (forall h' p e, h' < length (arrs st) -> holds st' h' p e <-> holds st h' p e).
Proof.
  intros R Hl F. pose proof (reachable_inv freeze kept st R) as I. unfold len in *. destruct (nth_error (arrs st) h) as [a|] eqn:Ea; [|discriminate]. injection Hl as <-. cbn [ObjModel.step]. unfold get_many. rewrite Ea. cbn [positions].
  assert (Ep : sequence (map (int_index (length (a_indices a))) l) = Ok (map (fun i => Z.to_nat (i mod Z.of_nat (length (a_indices a)))) l)).
  { clear - F. induction F as [|i l Hi F IH]; cbn; auto. rewrite int_index_ok by auto. cbn. rewrite IH. reflexivity. }
  rewrite Ep. set (ps := map _ l). assert (Fp : Forall (fun p => p < length (a_indices a)) ps).
  { apply Forall_forall. intros p Hp. apply in_map_iff in Hp. destruct Hp as (i & <- & Hi). apply int_index_mod. rewrite Forall_forall in F. auto. }
  destruct (array_store freeze st h a I Ea) as (lst & El & Fl).
  destruct (fetch_all st (a_store a) lst (select (a_indices a) ps) El (select_lt _ ps _ Fl Fp)) as (es & Es & Les & Hes). rewrite Es.
  assert (Lps : length (select (a_indices a) ps) = length l) by (unfold select, ps; rewrite !map_length; reflexivity). rewrite Lps in *.
  eexists. exists (length (arrs st)). split; [reflexivity|]. cbn [arrs stores]. split; [rewrite (proj2 (nth_error_None _ _)); auto|].
  assert (En : forall x, nth_error (arrs st ++ [x]) (length (arrs st)) = Some x) by (intros x; rewrite nth_error_app2, Nat.sub_diag by auto; reflexivity).
  rewrite En. cbn [option_map a_indices]. split; [rewrite seq_length; reflexivity|]. split; [|split].
  - intros k i e Hk. pose proof (nth_lt _ _ _ Hk) as Lk. unfold holds, cell. cbn [arrs stores]. rewrite En, Ea. cbn [a_indices a_store].
    rewrite (nth_error_nth' (seq 0 (length l)) 0) by (rewrite seq_length; auto). rewrite seq_nth by auto. cbn [option_map plus].
    assert (Hp : nth_error ps k = Some (Z.to_nat (i mod Z.of_nat (length (a_indices a))))) by (unfold ps; rewrite nth_error_map, Hk; reflexivity).
    assert (Lp : Z.to_nat (i mod Z.of_nat (length (a_indices a))) < length (a_indices a)) by (apply int_index_mod; rewrite Forall_forall in F; apply F; eapply nth_error_In; eauto).
    destruct (nth_some _ _ Lp) as [j Ej]. rewrite Ej. cbn [option_map].
    assert (Hj : nth_error es k = nth_error lst j) by (apply Hes; unfold select; rewrite nth_error_map, Hp; cbn; f_equal; apply nth_error_nth; auto).
    split; intros (s & c & m & A & B & C); injection A as <- <-.
    + rewrite nth_error_app2, Nat.sub_diag in B by auto. injection B as <-. exists (a_store a), j, lst. split; auto. split; auto. congruence.
    + exists (length (stores st)), k, es. split; auto. split; [rewrite nth_error_app2, Nat.sub_diag by auto; reflexivity|]. congruence.
  - intros h' k q Hn Lk. unfold cell. cbn [arrs]. rewrite En. cbn [a_indices a_store]. rewrite (nth_error_nth' (seq 0 (length l)) 0) by (rewrite seq_length; auto). cbn [option_map].
    destruct (nth_error (arrs st ++ _) h') as [b|] eqn:Eb; [|discriminate]. destruct (Nat.lt_ge_cases h' (length (arrs st))) as [L|L].
    + rewrite nth_error_app1 in Eb by auto. destruct (array_store freeze st h' b I Eb) as (lb & Elb & _). apply nth_lt in Elb. destruct (nth_error (a_indices b) q); [|discriminate]. cbn. intros Q. injection Q as Q _. lia.
    + rewrite nth_error_app2 in Eb by auto. destruct (h' - length (arrs st)) as [|[|]] eqn:Q; try discriminate. lia.
  - intros h' p e L. unfold holds, cell. cbn [arrs stores]. rewrite nth_error_app1 by auto. destruct (nth_some _ _ L) as [b Eb]. rewrite Eb. destruct (array_store freeze st h' b I Eb) as (lb & Elb & _). apply nth_lt in Elb.
    split; intros (s & c & m & A & B & C); exists s, c, m; (split; [exact A|]; split; [|exact C]); destruct (nth_error (a_indices b) p); try discriminate; injection A as <- <-; [rewrite nth_error_app1 in B|rewrite nth_error_app1]; auto.
Qed.

(* the copy which copy.copy and copy.deepcopy make of an array, read-only or not, without arrays inside: the same elements, in cells of its own, which can be written to *)
Theorem C51_copy st h m : reachable st -> len st h = Some m -> (forall p x, ~ holds st h p (EArr x)) ->
  exists st' v, step st (Clone h) = (st', Ok (OHandle v)) /\ len st v = None /\ len st' v = Some m /\ writable st' v /\
    (forall k e, k < m -> holds st' v k e <-> holds st h k e) /\
    (forall h' k q, h' <> v -> k < m -> cell st' v k <> cell st' h' q) /\
    (forall h' p e, h' < length (arrs st) -> holds st' h' p e <-> holds st h' p e).
Proof.
  intros R Hl Hro. pose proof (reachable_inv freeze kept st R) as I. unfold len in *. destruct (nth_error (arrs st) h) as [a|] eqn:Ea; [|discriminate]. injection Hl as <-.
  destruct (array_store freeze st h a I Ea) as (l & El & Fl). destruct (fetch_all st (a_store a) l (a_indices a) El Fl) as (es & Es & Les & Hes).
  cbn [ObjModel.step]. unfold clone, elements. rewrite Ea, Es, Les. set (N := length (a_indices a)) in *. destruct (new_inv freeze 0 st N I) as (_ & _ & _ & E1 & E2).
  destruct (new_array E N false st) as [st1 new] eqn:En. cbn [fst] in *. assert (new = length (arrs st)) by (injection En as _ <-; auto). subst new.
  assert (A1 : arrs st1 = arrs st ++ [Arr (seq 0 N) (length (stores st)) false]) by (injection En as <-; reflexivity).
  assert (S1 : stores st1 = stores st ++ [repeat ENone N]) by (injection En as <-; reflexivity).
  assert (Hno : forall x, ~ In (EArr x) es).
  { intros x Hin. apply In_nth_error in Hin. destruct Hin as [p Ep]. assert (Lp : p < length (a_indices a)) by (fold N; rewrite <- Les; eapply nth_lt; eauto).
    destruct (nth_some _ _ Lp) as [i Ei]. rewrite (Hes p i Ei) in Ep. apply (Hro p x). exists (a_store a), i, l. split; [apply (cell_nth _ _ a); auto|auto]. }
  assert (Ec : sequence (map (clone_elem E h (length (arrs st))) es) = Ok es).
  { clear - Hno. induction es as [|e es IH]; cbn; auto. assert (He : clone_elem E h (length (arrs st)) e = Ok e) by (destruct e as [|w|x]; auto; exfalso; apply (Hno x); left; auto).
    rewrite He. cbn. rewrite IH; [reflexivity|]. intros x Hx. apply (Hno x). right. auto. }
  rewrite Ec, (put_elems_all (length (arrs st)) (length (stores st)) es 0 st1).
  2:{ intros e x Hin ->. exfalso. eapply Hno; eauto. }
  rewrite Les. eexists. exists (length (arrs st)). split; [reflexivity|]. split; [rewrite (proj2 (nth_error_None _ _)); auto|]. rewrite put_all_arrs, E1. split; [cbn; rewrite seq_length; reflexivity|].
  split; [eexists; split; [rewrite put_all_arrs; exact E1|reflexivity]|].
  assert (PA : forall h' q x, holds (put_all st1 (length (stores st)) (seq 0 N) es) h' q x <-> (exists k i, nth_error (seq 0 N) k = Some i /\ cell st1 h' q = Some (length (stores st), i) /\ nth_error es k = Some x) \/
     ((forall i, In i (seq 0 N) -> cell st1 h' q <> Some (length (stores st), i)) /\ holds st1 h' q x)).
  { intros h' q x. apply put_all_holds with (l := repeat ENone N); auto using seq_NoDup; [apply Forall_forall; intros i Hi; apply in_seq in Hi; rewrite repeat_length; lia|rewrite seq_length; auto]. }
  assert (Cv : forall k, k < N -> cell st1 (length (arrs st)) k = Some (length (stores st), k)) by (intros k Hk; unfold cell; rewrite E1; cbn; rewrite (nth_error_nth' _ 0) by (rewrite seq_length; auto); rewrite seq_nth by auto; reflexivity).
  assert (Co : forall h' q, h' < length (arrs st) -> cell st1 h' q = cell st h' q) by (intros h' q L; unfold cell; rewrite A1, nth_error_app1; auto).
  assert (Cs : forall h' q s j, cell st h' q = Some (s, j) -> s < length (stores st)).
  { intros h' q s j C. unfold cell in C. destruct (nth_error (arrs st) h') as [b|] eqn:Eb; [|discriminate]. destruct (nth_error (a_indices b) q); [|discriminate]. injection C as <- _.
    destruct (array_store freeze st h' b I Eb) as (lb & Elb & _). eapply nth_lt; eauto. }
  split; [|split].
  - intros k e Hk. rewrite PA, Cv by auto. destruct (nth_some (a_indices a) k Hk) as [i Ei]. pose proof (Hes k i Ei) as Hc. split.
    + intros [(k' & i' & A & B & C)|[A _]].
      * injection B as <-. assert (k' = k) by (apply nth_error_nth with (d := 0) in A as A'; apply nth_lt in A; rewrite seq_length in A; rewrite seq_nth in A' by auto; lia). subst k'.
        exists (a_store a), i, l. split; [apply (cell_nth _ _ a); auto|]. split; auto. congruence.
      * exfalso. apply (A k); [apply in_seq; lia|auto].
    + intros (s & j & l' & A & B & C). rewrite (cell_nth st h a _ i Ea Ei) in A. injection A as <- <-. left. exists k, k. split; [rewrite (nth_error_nth' _ 0) by (rewrite seq_length; auto); rewrite seq_nth; auto|]. split; auto. congruence.
  - intros h' k q Hn Lk. assert (Cp : forall x y, cell (put_all st1 (length (stores st)) (seq 0 N) es) x y = cell st1 x y) by (intros x y; apply cell_same; apply put_all_arrs). rewrite !Cp, Cv by auto.
    destruct (Nat.lt_ge_cases h' (length (arrs st))) as [L|L].
    + rewrite Co by auto. intros Q. symmetry in Q. apply Cs in Q. lia.
    + unfold cell. rewrite A1, nth_error_app2 by auto. destruct (h' - length (arrs st)) as [|[|]] eqn:Q; try discriminate. lia.
  - intros h' p e L. rewrite PA, Co by auto. split.
    + intros [(k' & i' & _ & B & _)|[_ (s & j & l' & A & B & C)]]; [apply Cs in B; lia|]. rewrite Co in A by auto. exists s, j, l'. split; auto. split; auto. rewrite S1, nth_error_app1 in B; auto. eapply Cs; eauto.
    + intros (s & j & l' & A & B & C). right. split; [intros i _ Q; apply Cs in Q; lia|]. exists s, j, l'. rewrite Co by auto. split; auto. split; auto. rewrite S1, nth_error_app1; auto. eapply Cs; eauto.
Qed.

(* an ObjectArray made of the objects of a numpy array has an immutable copy of each of them, in its place *)
Theorem C51_from_objects st xs ws : reachable st -> Forall2 (fun x w => exists id y, x = IVal id y /\ freeze y = Ok w) xs ws ->
  exists st' v, step st (FromNumpy xs) = (st', Ok (OHandle v)) /\ len st v = None /\ len st' v = Some (length ws) /\ writable st' v /\
    (forall k w, nth_error ws k = Some w -> holds st' v k (EVal w)).
Proof.
  intros R F. pose proof (reachable_inv freeze kept st R) as I. assert (Ll : length xs = length ws) by (clear - F; induction F; cbn; auto).
  cbn [ObjModel.step]. unfold from_numpy. rewrite Ll. set (N := length ws) in *. destruct (new_inv freeze 0 st N I) as (_ & _ & _ & E1 & E2).
  destruct (new_array E N false st) as [st1 new] eqn:En. cbn [fst] in *. assert (new = length (arrs st)) by (injection En as _ <-; auto). subst new.
  assert (PE : forall self s xs ws i st, Forall2 (fun x w => exists id y, x = IVal id y /\ freeze y = Ok w) xs ws -> put_each X E freeze kept st self s i xs = put_elems E st self s i (map EVal ws)).
  { clear. intros self s xs ws i st F. revert i st. induction F as [|x w xs ws (id & y & -> & Ey) F IH]; intros i st; cbn; auto. rewrite Ey. cbn. apply IH. }
  rewrite (PE _ _ xs ws 0 st1 F), (put_elems_all (length (arrs st)) (length (stores st)) (map EVal ws) 0 st1).
  2:{ intros e x Hin ->. apply in_map_iff in Hin. destruct Hin as (w & Q & _). discriminate. }
  rewrite map_length. fold N. eexists. exists (length (arrs st)). split; [reflexivity|]. unfold len. split; [rewrite (proj2 (nth_error_None _ _)); auto|]. rewrite put_all_arrs, E1. split; [cbn; rewrite seq_length; reflexivity|].
  split; [eexists; split; [rewrite put_all_arrs; exact E1|reflexivity]|].
  intros k w Hk. assert (Lk : k < N) by (eapply nth_lt; eauto).
  apply put_all_holds with (l := repeat ENone N); auto using seq_NoDup; [apply Forall_forall; intros i Hi; apply in_seq in Hi; rewrite repeat_length; lia|rewrite seq_length, map_length; auto|].
  left. exists k, k. split; [rewrite (nth_error_nth' _ 0) by (rewrite seq_length; auto); rewrite seq_nth; auto|]. split; [|rewrite nth_error_map, Hk; reflexivity].
  unfold cell. rewrite E1. cbn. rewrite (nth_error_nth' _ 0) by (rewrite seq_length; auto). rewrite seq_nth by auto. reflexivity.
Qed.

(* whatever an array holds is None, an immutable copy of something, or an array *)
Theorem C51_immutable st h p w : reachable st -> holds st h p (EVal w) -> exists x, freeze x = Ok w.
Proof.
  intros R (s & i & l & _ & B & C). pose proof (reachable_inv freeze kept st R) as (_ & _ & I3). exact (I3 s l (EVal w) B (nth_error_In _ _ C)).
Qed.

(* C51 is false for an array which contains itself (which set_item allows: it is stored as it is, not as a read-only view): the array can be
   obtained from its read-only view, and then changed. *)
Theorem C51_refuted av st a n i y w :
  session empty [] st av -> In a av -> writable st a -> len st a = Some n -> 1 <= i < n -> freeze y = Ok w -> ~ holds st a i (EVal w) ->
  exists st2 v, reachable st2 /\ read_only st2 v /\ ~ holds st2 v i (EVal w) /\
    exists st3 av3, session st2 [v] st3 av3 /\ holds st3 v i (EVal w).
Proof.
  intros S Hav (b & Eb & Rb) Hl Hi Ey Hno. assert (R : reachable st) by (exists av; auto).
  assert (Ln : length (a_indices b) = n) by (unfold len in Hl; rewrite Eb in Hl; injection Hl as Hl; exact Hl).
  assert (Hset : forall st0 b0 x j m e, nth_error (arrs st0) a = Some b0 -> a_ro b0 = false -> length (a_indices b0) = n -> j < n -> as_item X E freeze kept st0 a [] x = Ok (m, e) ->
     exists st0', step st0 (Set_ a (At (Z.of_nat j)) [x]) = (st0', Ok OUnit)).
  { intros st0 b0 x j m e E0 R0 L0 Hj Ex. cbn. unfold set_int. rewrite E0, R0, L0, int_index_ok by lia. rewrite Ex. eauto. }
  assert (Hmod : forall j, j < n -> Z.to_nat (Z.of_nat j mod Z.of_nat n) = j) by (intros j Hj; rewrite Z.mod_small by lia; lia).
  destruct (Hset st b (IArr a) 0 [] (EArr a) Eb Rb Ln ltac:(lia)) as [st1 E1]; [cbn; rewrite Nat.eqb_refl; reflexivity|].
  destruct (C51_write st a n _ _ st1 _ R Hl E1) as (_ & _ & e1 & [He1 _] & C1 & H1). rewrite Hmod in H1 by lia. subst e1.
  assert (S1 : session empty [] st1 av) by (apply (session_step freeze kept _ _ st av (Set_ a (At (Z.of_nat 0)) [IArr a]) st1 (Ok OUnit) S); [cbn; intros h [<-|[<-|[]]]; auto|auto]).
  assert (A1 : arrs st1 = arrs st).
  { cbn in E1. unfold set_int in E1. rewrite Eb, Rb in E1. destruct (int_index _ _); [|discriminate]. cbn in E1. rewrite Nat.eqb_refl in E1. injection E1 as <-. apply arrs_put. }
  assert (L1 : len st1 a = Some n) by (unfold len; rewrite A1; exact Hl).
  destruct (C51_view st1 a n L1) as (st2 & v & E2 & N2 & L2 & C2 & Ro2 & S2 & O2).
  assert (SS2 : session empty [] st2 (v :: av)) by (apply (session_step freeze kept _ _ st1 av (View a) st2 (Ok (OHandle v)) S1); [cbn; intros h [<-|[]]; auto|auto]).
  assert (R2 : reachable st2) by (eexists; exact SS2).
  assert (Hh2 : forall k e, holds st2 v k e <-> holds st1 a k e) by (intros k e; unfold holds; rewrite C2, S2; tauto).
  assert (D : distinct_cells st1) by (eapply reachable_distinct; exists av; exact S1).
  assert (Cd : cell st a i <> cell st a 0).
  { unfold cell. rewrite Eb. destruct (nth_some (a_indices b) i ltac:(lia)) as [x Ex]. destruct (nth_some (a_indices b) 0 ltac:(lia)) as [z Ez]. rewrite Ex, Ez. cbn. intros Q. injection Q as ->.
    assert (NDb : NoDup (a_indices b)) by (apply (D a); rewrite A1; exact Eb). assert (i = 0) by (apply (proj1 (NoDup_nth_error (a_indices b)) NDb); [lia|congruence]). lia. }
  exists st2, v. split; auto. split; auto. split.
  { rewrite Hh2, H1. intros [[Q _]|[_ Q]]; auto. }
  (* v[0] is the array itself *)
  assert (V0 : holds st2 v 0 (EArr a)) by (rewrite Hh2; apply H1; auto).
  destruct (C51_read st2 v n 0 R2 L2) as [G _]. destruct (G ltac:(lia)) as (e0 & E3 & He0). rewrite Z.mod_0_l in He0 by lia.
  assert (e0 = EArr a) by (eapply holds_fun; [exact He0|exact V0]). subst e0.
  assert (S3 : session st2 [v] st2 [a; v]) by (apply (session_step freeze kept _ _ st2 [v] (Get v (At 0)) st2 (Ok (OElem (EArr a))) (session_start _ _ _ _)); [cbn; auto|exact E3]).
  assert (La : a < length (arrs st1)) by (rewrite A1; apply nth_lt in Eb; exact Eb).
  assert (G2 : exists t, arrs st2 = arrs st1 ++ t).
  { destruct (step_inv freeze kept 0 st1 (View a) st2 (Ok (OHandle v))) as (_ & (G2 & _) & _); auto. eapply reachable_inv; exists av; exact S1. intros h [<-|[]]. exists b. rewrite A1. split; [auto|right; lia]. }
  destruct G2 as [t G2]. assert (Eb2 : nth_error (arrs st2) a = Some b) by (rewrite G2, nth_error_app1, A1; auto).
  assert (L2a : len st2 a = Some n) by (unfold len; rewrite Eb2; cbn; congruence).
  destruct (Hset st2 b (IVal 0 y) i (if kept y then [] else [(0, w)]) (EVal w) Eb2 Rb Ln ltac:(lia)) as [st3 E4]; [cbn; rewrite Ey; cbn; destruct (kept y); reflexivity|].
  destruct (C51_write st2 a n _ _ st3 _ R2 L2a E4) as (_ & _ & e4 & (w' & Ew' & He4) & C4 & H4). rewrite Hmod in H4 by lia. assert (w' = w) by congruence. subst w' e4.
  exists st3, [a; v]. split.
  - apply (session_step freeze kept _ _ st2 [a; v] (Set_ a (At (Z.of_nat i)) [IVal 0 y]) st3 (Ok OUnit) S3); [cbn; intros h [<-|[]]; auto|exact E4].
  - apply H4. left. split; auto. rewrite C2. symmetry. apply O2. exact La.
Qed.

(* C114: an assignment to a slice puts an immutable copy of each of the given objects into its place, and changes nothing else, if the ids
   of these objects tell them apart (as those of the items of a list do) *)
Theorem C114_slice_assignment_partial st h n start stop stp xs :
  reachable st -> writable st h -> len st h = Some n -> (0 < match stp with None => 1 | Some z => z end)%Z -> ids_identify xs ->
  Forall (fun x => exists id y w, x = IVal id y /\ freeze y = Ok w) xs ->
  exists ps, sliced n start stop (match stp with None => 1 | Some z => z end)%Z ps /\
    (length xs <> length ps -> step st (Set_ h (Slice start stop stp) xs) = (st, Err TypeError)) /\
    (length xs = length ps -> exists st', step st (Set_ h (Slice start stop stp) xs) = (st', Ok OUnit) /\
       (forall k p id y w, nth_error ps k = Some p -> nth_error xs k = Some (IVal id y) -> freeze y = Ok w -> holds st' h p (EVal w)) /\
       (forall h' q e, (forall p, In p ps -> cell st h' q <> cell st h p) -> holds st' h' q e <-> holds st h' q e)).
Proof.
  intros R (a & Ea & Ra) Hl Hs Hid F. pose proof (reachable_inv freeze kept st R) as I. unfold len in Hl. rewrite Ea in Hl. cbn in Hl. injection Hl as <-.
  destruct (slice_positions_ok (length (a_indices a)) start stop stp Hs) as (ps & Ep & Sp). exists ps. split; auto. cbn [ObjModel.step]. unfold set_many. rewrite Ea, Ra. cbn [positions]. rewrite Ep.
  split; [intros Hn; destruct (Nat.eqb_spec (length xs) (length ps)); [contradiction|reflexivity]|]. intros Ll. rewrite Ll, Nat.eqb_refl.
  assert (Fx : exists es, Forall2 (fun x e => exists id v w, x = IVal id v /\ freeze v = Ok w /\ e = EVal w) xs es).
  { clear - F. induction F as [|x xs (id & y & w & -> & Ew) F [es IH]]; [exists []; constructor|]. exists (EVal w :: es). constructor; auto. exists id, y, w. auto. }
  destruct Fx as [es Fe]. assert (Le : length xs = length es) by (clear - Fe; induction Fe; cbn; auto).
  assert (Ls : length (select (a_indices a) ps) = length ps) by (unfold select; apply map_length).
  rewrite (put_items_all freeze kept h (a_store a) xs Hid (select (a_indices a) ps) xs es st []) by (auto; try congruence; intros; discriminate).
  eexists. split; [reflexivity|]. destruct (array_store freeze st h a I Ea) as (l & El & Fl). pose proof (slice_positions_lt _ _ _ _ _ Ep) as Fp.
  assert (ND : NoDup (select (a_indices a) ps)) by (apply nodup_map_nth; auto; [exact (reachable_distinct freeze kept st R h a Ea)|eapply slice_positions_nodup; eauto]).
  assert (PA : forall h' q x, holds (put_all st (a_store a) (select (a_indices a) ps) es) h' q x <-> (exists k i, nth_error (select (a_indices a) ps) k = Some i /\ cell st h' q = Some (a_store a, i) /\ nth_error es k = Some x) \/
     ((forall i, In i (select (a_indices a) ps) -> cell st h' q <> Some (a_store a, i)) /\ holds st h' q x)).
  { intros h' q x. apply put_all_holds with (l := l); auto; [apply select_lt; auto|congruence]. }
  assert (Hc : forall p, p < length (a_indices a) -> cell st h p = Some (a_store a, nth p (a_indices a) 0)) by (intros p Lp; apply cell_nth; auto; apply nth_error_nth'; auto).
  rewrite Forall_forall in Fp. split.
  - intros k p id y w Hk Hx Hw. apply PA. left. exists k, (nth p (a_indices a) 0). split; [unfold select; rewrite nth_error_map, Hk; reflexivity|]. split; [apply Hc; apply Fp; eapply nth_error_In; eauto|].
    clear - Fe Hx Hw. revert k Hx. induction Fe as [|x e xs es (id' & v & w' & -> & Ew & ->) Fe IH]; intros [|k] Hx; try discriminate; [cbn in Hx; injection Hx as <- <-; cbn; congruence|]. apply (IH k Hx).
  - intros h' q e Hd. rewrite PA. split.
    + intros [(k & i & A & B & _)|[_ B]]; auto. exfalso. unfold select in A. rewrite nth_error_map in A. destruct (nth_error ps k) as [p|] eqn:Ek; [|discriminate]. injection A as <-.
      pose proof (nth_error_In _ _ Ek) as Hp. apply (Hd p Hp). rewrite B, Hc; auto.
    + intros B. right. split; auto. intros i Hin Q. apply in_map_iff in Hin. destruct Hin as (p & <- & Hp). apply (Hd p Hp). rewrite Q, Hc; auto.
Qed.
(* Without that, C114 is false: the objects which an array of numbers gives, row by row, live only for a while; if the third row gets the id
   which the first one had, the copy of the first row is put into the third place. *)
Theorem C114_id_reuse_refuted x y z wx wy wz :
  freeze x = Ok wx -> freeze y = Ok wy -> freeze z = Ok wz -> kept x = false -> wx <> wz ->
  exists st1 st2, step empty (New 3) = (st1, Ok (OHandle 0)) /\ step st1 (Set_ 0 (Slice None None None) [IVal 10 x; IVal 20 y; IVal 10 z]) = (st2, Ok OUnit) /\
    holds st2 0 2 (EVal wx) /\ ~ holds st2 0 2 (EVal wz).
Proof.
  intros Ex Ey Ez Kx Hn. eexists. eexists. split; [reflexivity|]. cbn [ObjModel.step]. unfold set_many. cbn [arrs app nth_error a_ro positions a_indices empty]. rewrite slice_all. cbn. rewrite Ex. cbn. rewrite Kx. cbn. rewrite Ey. cbn. destruct (kept y); cbn.
  - split; [reflexivity|]. split; [do 3 eexists; repeat split; reflexivity|]. intros (s & i & l & A & B & C). cbn in A. injection A as <- <-. cbn in B. injection B as <-. cbn in C. congruence.
  - split; [reflexivity|]. split; [do 3 eexists; repeat split; reflexivity|]. intros (s & i & l & A & B & C). cbn in A. injection A as <- <-. cbn in B. injection B as <-. cbn in C. congruence.
Qed.

(* C115: repeat((n,)) gives a new array with the contents n times, one after the other *)
Theorem C115_repeat_partial st h m n t : reachable st -> len st h = Some m -> (forall p x, holds st h p (EArr x) -> read_only st x) ->
  exists st' v, step st (Repeat h (STuple (n :: t))) = (st', Ok (OHandle v)) /\ len st v = None /\ len st' v = Some (n * m) /\ writable st' v /\
    (forall k e, k < n * m -> holds st' v k e <-> holds st h (k mod m) e).
Proof.
  intros R Hl Hro. pose proof (reachable_inv freeze kept st R) as I. unfold len in *. destruct (nth_error (arrs st) h) as [a|] eqn:Ea; [|discriminate]. injection Hl as <-.
  destruct (array_store freeze st h a I Ea) as (l & El & Fl). destruct (fetch_all st (a_store a) l (a_indices a) El Fl) as (es & Es & Les & Hes).
  cbn [ObjModel.step]. unfold repeat_array, elements. rewrite Ea, Es, Les. set (N := n * length (a_indices a)). destruct (new_inv freeze 0 st N I) as (_ & _ & _ & E1 & E2).
  destruct (new_array E N false st) as [st1 new] eqn:En. cbn [fst] in *. assert (new = length (arrs st)) by (injection En as _ <-; auto). subst new.
  assert (A1 : arrs st1 = arrs st ++ [Arr (seq 0 N) (length (stores st)) false]) by (injection En as <-; reflexivity).
  assert (Lc : length (cycle E es es N) = N).
  { apply cycle_length. destruct es as [|e0 es]; [right; unfold N; cbn in Les; lia|left; discriminate]. }
  rewrite (put_elems_all (length (arrs st)) (length (stores st)) (cycle E es es N) 0 st1).
  2:{ intros e x Hin ->. right. apply cycle_in in Hin. assert (Hin' : In (EArr x) es) by tauto. apply In_nth_error in Hin'. destruct Hin' as [p Ep].
      assert (Lp : p < length (a_indices a)) by (rewrite <- Les; eapply nth_lt; eauto). destruct (nth_some _ _ Lp) as [i Ei]. rewrite (Hes p i Ei) in Ep.
      destruct (Hro p x) as (b & Eb & Rb); [exists (a_store a), i, l; split; [apply (cell_nth _ _ a); auto|auto]|]. exists b. split; auto. rewrite A1, nth_error_app1; auto. apply nth_lt in Eb. auto. }
  rewrite Lc. eexists. exists (length (arrs st)). split; [reflexivity|]. split; [rewrite (proj2 (nth_error_None _ _)); auto|]. rewrite put_all_arrs, E1. split; [cbn; rewrite seq_length; reflexivity|].
  split; [eexists; split; [rewrite put_all_arrs; exact E1|reflexivity]|].
  intros k e Hk. rewrite (put_all_holds (length (stores st)) (seq 0 N) (cycle E es es N) st1 (repeat ENone N)); auto using seq_NoDup; [|apply Forall_forall; intros i Hi; apply in_seq in Hi; rewrite repeat_length; lia|rewrite seq_length; auto].
  assert (Cv : cell st1 (length (arrs st)) k = Some (length (stores st), k)) by (unfold cell; rewrite E1; cbn; rewrite (nth_error_nth' _ 0) by (rewrite seq_length; auto); rewrite seq_nth by auto; reflexivity).
  assert (Hne : es <> []) by (intros ->; cbn in Les; unfold N in Hk; rewrite <- Les in Hk; lia).
  assert (Hm : length (a_indices a) <> 0) by (destruct es; [congruence|cbn in Les; lia]).
  assert (Hc : nth_error (cycle E es es N) k = nth_error es (k mod length (a_indices a))) by (rewrite (cycle_nth N es es [] k) by auto; rewrite Les; reflexivity).
  assert (Lk : k mod length (a_indices a) < length (a_indices a)) by (apply Nat.mod_upper_bound; auto).
  destruct (nth_some _ _ Lk) as [i Ei]. rewrite (Hes _ _ Ei) in Hc. split.
  - intros [(k' & i' & A & B & C)|[A _]].
    + rewrite Cv in B. injection B as <-. assert (k' = k) by (apply nth_error_nth with (d := 0) in A as A'; apply nth_lt in A; rewrite seq_length in A; rewrite seq_nth in A' by auto; lia). subst k'.
      exists (a_store a), i, l. split; [apply (cell_nth _ _ a); auto|]. split; auto. congruence.
    + exfalso. apply (A k); [apply in_seq; lia|auto].
  - intros (s & j & l' & A & B & C). rewrite (cell_nth st h a _ i Ea Ei) in A. injection A as <- <-. left. exists k, k. split; [rewrite (nth_error_nth' _ 0) by (rewrite seq_length; auto); rewrite seq_nth; auto|]. split; auto. congruence.
Qed.
(* repeat(n), which the documentation gives as its example, always fails *)
Theorem C115_integer_refuted st h n : step st (Repeat h (SInt n)) = (st, Err TypeError).
Proof. reflexivity. Qed.
End THEOREMS.
Print Assumptions C51_read_only_partial.
Print Assumptions C51_rejected.
Print Assumptions C51_read.
Print Assumptions C51_slice.
Print Assumptions C51_view.
Print Assumptions C51_write.
Print Assumptions C51_selection.
Print Assumptions C51_immutable.
Print Assumptions C51_copy.
Print Assumptions C51_from_objects.
Print Assumptions C51_refuted.
Print Assumptions C114_slice_assignment_partial.
Print Assumptions C114_id_reuse_refuted.
Print Assumptions C115_repeat_partial.
Print Assumptions C115_integer_refuted.

(* ---- examples: objects are numbers ---- *)
Definition fz (z : Z) : result Z := Ok z.
Definition kp (z : Z) : bool := false.
Fixpoint play (st : state Z) (av : list nat) (os : list (op Z)) : option (state Z * list nat) :=
  match os with
  | [] => Some (st, av)
  | o :: t => if forallb (fun h => existsb (Nat.eqb h) av) (handles o) then let '(st1, r) := step fz kp st o in play st1 (gained r ++ av) t else None
  end.
Lemma play_session : forall os st0 av0 st av st' av', session fz kp st0 av0 st av -> play st av os = Some (st', av') -> session fz kp st0 av0 st' av'.
Proof.
  induction os as [|o os IH]; intros st0 av0 st av st' av' S P; cbn [play] in P; [injection P as <- <-; exact S|].
  destruct (forallb _ _) eqn:F; [|discriminate]. destruct (step fz kp st o) as [st1 r] eqn:Es. apply (IH _ _ st1 (gained r ++ av) _ _); auto.
  apply (session_step fz kp _ _ st av o st1 r S); auto. intros h Hh. rewrite forallb_forall in F. apply F in Hh. apply existsb_exists in Hh. destruct Hh as (x & Hx & Q). apply Nat.eqb_eq in Q. congruence.
Qed.
(* a = ObjectArray(3); a[1] = 7; v = a.get_read_only_view() *)
Definition st_a : state Z := St [[ENone; EVal 7%Z; ENone]] [Arr [0; 1; 2] 0 false; Arr [0; 1; 2] 0 true].
Lemma st_a_session : session fz kp empty [] st_a [1; 0].
Proof. apply (play_session [New 3; Set_ 0 (At 1) [IVal 5 7%Z]; View 0] _ _ empty []); [constructor|reflexivity]. Qed.
Lemma st_a_reachable : reachable fz kp st_a.
Proof. eexists. exact st_a_session. Qed.
Lemma st_a_no_writable : no_writable_inside st_a.
Proof.
  intros s l h El Hin. destruct s as [|[|]]; try discriminate. vm_compute in El. injection El as <-. cbn in Hin. repeat destruct Hin as [Hin|Hin]; try discriminate; contradiction.
Qed.
(* v[-2:] is read-only; writing to it fails; v.repeat((2,)) can be written to; a is as before *)
Example C51_example :
  exists st' av', session fz kp st_a [1] st' av' /\ step fz kp st_a (Get 1 (Slice (Some (-2)%Z) None None)) = (St (stores st_a) (arrs st_a ++ [Arr [1; 2] 0 true]), Ok (OHandle 2)) /\
    holds st' 0 1 (EVal 7%Z) /\ holds st' 3 4 (EVal 8%Z) /\ ~ holds st' 0 1 (EVal 8%Z).
Proof.
  set (os := [Get 1 (Slice (Some (-2)%Z) None None); Repeat 1 (STuple [2]); Set_ 3 (At 4) [IVal 6 8%Z]; Set_ 2 (At 0) [IVal 6 8%Z]] : list (op Z)).
  destruct (play st_a [1] os) as [[st' av]|] eqn:Ep; [|vm_compute in Ep; discriminate].
  assert (S : session fz kp st_a [1] st' av) by (apply (play_session os _ _ st_a [1]); [constructor|exact Ep]). exists st', av. split; auto.
  assert (P : forall p e, holds st' 0 p e <-> holds st_a 0 p e).
  { intros p e. apply (C51_read_only_partial fz kp st_a [1] st' av st_a_reachable st_a_no_writable); auto; [|cbn; lia]. intros h [<-|[]]. eexists. split; reflexivity. }
  split; [reflexivity|]. vm_compute in Ep. injection Ep as <- <-. split; [|split].
  - apply P. exists 0, 1, [ENone; EVal 7%Z; ENone]. repeat split.
  - exists 1, 4, [ENone; EVal 7%Z; ENone; ENone; EVal 8%Z; ENone]. repeat split.
  - rewrite P. intros (s & i & l & A & B & C). vm_compute in A. injection A as <- <-. vm_compute in B. injection B as <-. vm_compute in C. discriminate.
Qed.
Example C51_write_example : exists st', step fz kp st_a (Set_ 0 (At (-1)) [IVal 3 9%Z]) = (st', Ok OUnit) /\ holds st' 1 2 (EVal 9%Z).
Proof.
  eexists. split; [reflexivity|]. destruct (C51_write fz kp st_a 0 3 (-1)%Z (IVal 3 9%Z) _ OUnit st_a_reachable eq_refl eq_refl) as (_ & _ & e & (w & Ew & ->) & _ & H).
  apply H. left. split; [reflexivity|]. injection Ew as <-. reflexivity.
Qed.
Example C51_refuted_example : exists st2 v, reachable fz kp st2 /\ read_only st2 v /\ ~ holds st2 v 2 (EVal 4%Z) /\ exists st3 av3, session fz kp st2 [v] st3 av3 /\ holds st3 v 2 (EVal 4%Z).
Proof.
  apply (C51_refuted fz kp [1; 0] st_a 0 3 2 4%Z 4%Z st_a_session); auto; [cbn; auto|eexists; split; reflexivity|].
  intros (s & i & l & A & B & C). vm_compute in A. injection A as <- <-. vm_compute in B. injection B as <-. discriminate C.
Qed.
Example C114_example : exists st', step fz kp st_a (Set_ 0 (Slice None None (Some 2%Z)) [IVal 1 5%Z; IVal 2 6%Z]) = (st', Ok OUnit) /\ holds st' 0 0 (EVal 5%Z) /\ holds st' 0 2 (EVal 6%Z) /\ holds st' 0 1 (EVal 7%Z).
Proof.
  destruct (C114_slice_assignment_partial fz kp st_a 0 3 None None (Some 2%Z) [IVal 1 5%Z; IVal 2 6%Z]) as (ps & Sp & _ & H); auto using st_a_reachable.
  - eexists. split; reflexivity.
  - lia.
  - intros id x y [A|[A|[]]] [B|[B|[]]]; congruence.
  - repeat constructor; do 3 eexists; split; reflexivity.
  - eexists. split; [reflexivity|]. repeat split; do 3 eexists; repeat split; reflexivity.
Qed.
Example C114_id_reuse_example : exists st1 st2, step fz kp empty (New 3) = (st1, Ok (OHandle 0)) /\
  step fz kp st1 (Set_ 0 (Slice None None None) [IVal 10 1%Z; IVal 20 2%Z; IVal 10 3%Z]) = (st2, Ok OUnit) /\ holds st2 0 2 (EVal 1%Z) /\ ~ holds st2 0 2 (EVal 3%Z).
Proof. apply (C114_id_reuse_refuted fz kp 1%Z 2%Z 3%Z 1%Z 2%Z 3%Z); auto. lia. Qed.
Example C115_example : exists st' v, step fz kp st_a (Repeat 1 (STuple [2])) = (st', Ok (OHandle v)) /\ holds st' v 4 (EVal 7%Z).
Proof.
  destruct (C115_repeat_partial fz kp st_a 1 3 2 [] st_a_reachable eq_refl) as (st' & v & Es & _ & _ & _ & H).
  - intros p x (s & i & l & A & B & C). unfold cell in A. cbn in A. destruct (nth_error [0; 1; 2] p); [|discriminate]. injection A as <- <-. vm_compute in B. injection B as <-. apply nth_error_In in C. cbn in C. intuition discriminate.
  - exists st', v. split; auto. apply H; [lia|]. exists 0, 1, [ENone; EVal 7%Z; ENone]. repeat split.
Qed.
Example C51_copy_example : exists st' v, step fz kp st_a (Clone 1) = (st', Ok (OHandle v)) /\ writable st' v /\ holds st' v 1 (EVal 7%Z).
Proof.
  destruct (C51_copy fz kp st_a 1 3 st_a_reachable eq_refl) as (st' & v & Es & _ & _ & W & H & _).
  - intros p x (s & i & l & A & B & C). unfold cell in A. cbn in A. destruct (nth_error [0; 1; 2] p); [|discriminate]. injection A as <- <-. vm_compute in B. injection B as <-. apply nth_error_In in C. cbn in C. intuition discriminate.
  - exists st', v. split; auto. split; auto. apply H; [lia|]. exists 0, 1, [ENone; EVal 7%Z; ENone]. repeat split.
Qed.
Example C51_from_objects_example : exists st' v, step fz kp st_a (FromNumpy [IVal 1 5%Z; IVal 1 6%Z]) = (st', Ok (OHandle v)) /\ holds st' v 1 (EVal 6%Z).
Proof.
  destruct (C51_from_objects fz kp st_a [IVal 1 5%Z; IVal 1 6%Z] [5%Z; 6%Z] st_a_reachable) as (st' & v & Es & _ & _ & _ & H).
  - repeat constructor; do 2 eexists; split; reflexivity.
  - exists st', v. split; auto.
Qed.

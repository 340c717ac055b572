(* C234: assigning one ObjectArray to a slice of another, which may be the same. *)
From Verif Require Import Prelude ObjModel ObjSpec ObjProofs ObjProofs2.

Section OVL.
Context {X E : Type}.
Variable freeze : X -> result E.
Variable kept : X -> bool.
Notation step := (step freeze kept).
Notation reachable := (reachable freeze kept).
Notation state := (state E).

(* the plain values of an array: its elements are not arrays themselves *)
Definition plain (e : elem E) : Prop := forall x, e <> EArr x.

Lemma get_holds (st : state) h q e : holds st h q e -> get_int st h (Z.of_nat q) = Ok e.
Proof using.
  intros (s & i & l & C & Es & El). unfold cell in C. unfold get_int. destruct (nth_error (arrs st) h) as [a|]; [|discriminate].
  destruct (nth_error (a_indices a) q) as [j|] eqn:Ej; [|discriminate]. cbn in C. injection C as -> ->. pose proof (nth_lt _ _ _ Ej) as L.
  rewrite int_index_ok by lia. cbn [bind]. rewrite Z.mod_small, Nat2Z.id by lia. rewrite (nth_error_nth _ _ 0 Ej). unfold fetch. rewrite Es, El. reflexivity.
Qed.
Lemma given_plain (st : state) self src whole e : plain e -> as_given E st self src whole e = Ok e.
Proof using. intros P. destruct e as [|v|h]; try reflexivity. exfalso. apply (P h). reflexivity. Qed.

(* every item is read before something is written to its cell: the items are copied *)
Lemma copy_all self s src whole : forall is es st q l, nth_error (stores st) s = Some l -> Forall (fun i => i < length l) is -> length es = length is ->
  (forall j e, nth_error es j = Some e -> plain e /\ holds st src (q + j) e) ->
  (forall j j' i, j < j' -> j' < length is -> nth_error is j = Some i -> cell st src (q + j') <> Some (s, i)) ->
  copy_items E st self s src whole q is = (put_all st s is es, Ok OUnit).
Proof using.
  induction is as [|i is IH]; intros [|e es] st q l Es F L H N; try discriminate L; cbn [copy_items put_all]; [reflexivity|].
  destruct (H 0 e eq_refl) as [P Hh]. rewrite Nat.add_0_r in Hh. rewrite (get_holds st src q e Hh), (given_plain st self src whole e P).
  inversion F as [|? ? Fi F']; subst. destruct (put_store_length st s i e s l Es) as (l' & El' & Ll).
  apply (IH es (put E st s i e) (S q) l'); [exact El'|rewrite Ll; exact F'|cbn [length] in L; lia| |].
  - intros j e' Ej. destruct (H (S j) e' Ej) as [P' H']. split; [exact P'|]. replace (S q + j) with (q + S j) by lia. apply (put_holds st s i e src (q + S j) e' l Es Fi). right. split; [|exact H'].
    apply (N 0 (S j) i); [lia| |reflexivity]. cbn [length] in *. pose proof (nth_lt _ _ _ Ej). lia.
  - intros j j' i' Lj Lj' Ei'. rewrite (cell_same st) by apply arrs_put. replace (S q + j') with (q + S j') by lia. apply (N (S j) (S j') i'); [lia|cbn [length]; lia|exact Ei'].
Qed.
(* every cell is written to just before it is read: the first item spreads *)
Lemma copy_smear self s src whole e0 : plain e0 -> forall is st q l, nth_error (stores st) s = Some l -> Forall (fun i => i < length l) is -> holds st src q e0 ->
  (forall j i, S j < length is -> nth_error is j = Some i -> cell st src (q + S j) = Some (s, i)) ->
  copy_items E st self s src whole q is = (put_all st s is (repeat e0 (length is)), Ok OUnit).
Proof using.
  intros P. induction is as [|i is IH]; intros st q l Es F Hh C; cbn [copy_items put_all length repeat]; [reflexivity|]. rewrite (get_holds st src q e0 Hh), (given_plain st self src whole e0 P).
  inversion F as [|? ? Fi F']; subst. destruct (put_store_length st s i e0 s l Es) as (l' & El' & Ll). destruct is as [|i2 is]; [reflexivity|].
  apply (IH (put E st s i e0) (S q) l' El'); [rewrite Ll; exact F'| |].
  - apply (put_holds st s i e0 src (S q) e0 l Es Fi). left. split; [|reflexivity]. replace (S q) with (q + 1) by lia. apply (C 0 i); [cbn [length]; lia|reflexivity].
  - intros j i' Lj Ei'. rewrite (cell_same st) by apply arrs_put. replace (S q + S j) with (q + S (S j)) by lia. apply (C (S j) i'); [cbn [length] in *; lia|exact Ei'].
Qed.

(* The elements of the given array are found in the slice afterwards, and nothing else has changed, if no cell of the slice is the cell of a later
   element of the given array.  This is so if the two arrays share no cells, and also if both are the same window. *)
Theorem C234_copy_partial (st : state) h n start stop stp src :
  reachable st -> writable st h -> len st h = Some n -> (0 < match stp with None => 1 | Some z => z end)%Z -> (forall p x, ~ holds st src p (EArr x)) ->
  exists ps, sliced n start stop (match stp with None => 1 | Some z => z end)%Z ps /\
    (forall m, len st src = Some m -> m <> length ps -> step st (SetFrom h (Slice start stop stp) src) = (st, Err TypeError)) /\
    (len st src = Some (length ps) -> (forall j j' p, j < j' -> nth_error ps j = Some p -> j' < length ps -> cell st src j' <> cell st h p) ->
     exists st', step st (SetFrom h (Slice start stop stp) src) = (st', Ok OUnit) /\
       (forall k p e, nth_error ps k = Some p -> holds st src k e -> holds st' h p e) /\
       (forall h' q e, (forall p, In p ps -> cell st h' q <> cell st h p) -> holds st' h' q e <-> holds st h' q e)).
Proof using.
  intros R (a & Ea & Ra) Hl Hs NA. pose proof (reachable_inv freeze kept st R) as I. unfold len in Hl. rewrite Ea in Hl. cbn in Hl. injection Hl as <-.
  destruct (slice_positions_ok (length (a_indices a)) start stop stp Hs) as (ps & Ep & Sp). exists ps. split; [exact Sp|]. cbn [ObjModel.step]. unfold set_from. rewrite Ea, Ra. cbn [positions]. rewrite Ep.
  assert (Ls : length (select (a_indices a) ps) = length ps) by (unfold select; apply map_length). rewrite Ls. unfold len. destruct (nth_error (arrs st) src) as [b|] eqn:Eb; [|split; [intros m Q; discriminate|intros Q; discriminate]].
  cbn [option_map]. split; [intros m Q Hm; injection Q as <-; destruct (Nat.eqb_spec (length (a_indices b)) (length ps)); [contradiction|reflexivity]|]. intros Q Ov. injection Q as Lb. rewrite Lb, Nat.eqb_refl.
  assert (Fe : exists es, length es = length ps /\ forall k, k < length ps -> exists e, nth_error es k = Some e /\ plain e /\ holds st src k e).
  { assert (G : forall m, m <= length ps -> exists es, length es = m /\ forall k, k < m -> exists e, nth_error es k = Some e /\ plain e /\ holds st src k e).
    { induction m as [|m IH]; intros Lm; [exists []; split; [reflexivity|intros k Lk; lia]|]. destruct (IH ltac:(lia)) as (es & Le & He). destruct (holds_ex freeze st src b m I Eb ltac:(lia)) as (e & _ & Hm).
      exists (es ++ [e]). split; [rewrite app_length; cbn; lia|]. intros k Lk. destruct (Nat.eq_dec k m) as [->|Nk].
      - exists e. split; [rewrite nth_error_app2, Le, Nat.sub_diag by lia; reflexivity|]. split; [intros x ->; exact (NA _ _ Hm)|exact Hm].
      - destruct (He k ltac:(lia)) as (e' & A & B). exists e'. rewrite nth_error_app1 by lia. auto. }
    exact (G _ (le_n _)). }
  destruct Fe as (es & Le & He). destruct (array_store freeze st h a I Ea) as (l & El & Fl). pose proof (slice_positions_lt _ _ _ _ _ Ep) as Fp.
  assert (Fs : Forall (fun i => i < length l) (select (a_indices a) ps)) by (apply select_lt; auto).
  assert (Hc : forall p, p < length (a_indices a) -> cell st h p = Some (a_store a, nth p (a_indices a) 0)) by (intros p Lp; apply cell_nth; auto; apply nth_error_nth'; auto).
  rewrite Forall_forall in Fp.
  rewrite (copy_all h (a_store a) src _ (select (a_indices a) ps) es st 0 l El Fs); [|congruence| |].
  2: { intros j e Ej. cbn [Nat.add]. destruct (He j) as (e' & A & B); [pose proof (nth_lt _ _ _ Ej); lia|]. rewrite Ej in A. injection A as <-. exact B. }
  2: { intros j j' i Lj Lj' Ei. cbn [Nat.add]. unfold select in Ei. rewrite nth_error_map in Ei. destruct (nth_error ps j) as [p|] eqn:Ej; [|discriminate]. injection Ei as <-.
       rewrite <- (Hc p) by (apply Fp; eapply nth_error_In; eauto). apply (Ov j j' p Lj Ej). lia. }
  eexists. split; [reflexivity|].
  assert (ND : NoDup (select (a_indices a) ps)) by (apply nodup_map_nth; auto; [exact (reachable_distinct freeze kept st R h a Ea)|eapply slice_positions_nodup; eauto|apply Forall_forall; exact Fp]).
  assert (PA : forall h' q x, holds (put_all st (a_store a) (select (a_indices a) ps) es) h' q x <-> (exists k i, nth_error (select (a_indices a) ps) k = Some i /\ cell st h' q = Some (a_store a, i) /\ nth_error es k = Some x) \/
     ((forall i, In i (select (a_indices a) ps) -> cell st h' q <> Some (a_store a, i)) /\ holds st h' q x)).
  { intros h' q x. apply put_all_holds with (l := l); auto. congruence. }
  split.
  - intros k p e Hk Hx. apply PA. left. exists k, (nth p (a_indices a) 0). split; [unfold select; rewrite nth_error_map, Hk; reflexivity|]. split; [apply Hc; apply Fp; eapply nth_error_In; eauto|].
    destruct (He k) as (e' & A & _ & B); [pose proof (nth_lt _ _ _ Hk); lia|]. rewrite A. f_equal. exact (holds_fun st src k _ _ B Hx).
  - intros h' q e Hd. rewrite PA. split.
    + intros [(k & i & A & B & _)|[_ B]]; auto. exfalso. unfold select in A. rewrite nth_error_map in A. destruct (nth_error ps k) as [p|] eqn:Ek; [|discriminate]. injection A as <-.
      pose proof (nth_error_In _ _ Ek) as Hp. apply (Hd p Hp). rewrite B, Hc; auto.
    + intros B. right. split; auto. intros i Hin Q. apply in_map_iff in Hin. destruct Hin as (p & <- & Hp). apply (Hd p Hp). rewrite Q, Hc; auto.
Qed.
(* a read-only array refuses *)
Theorem C234_rejected (st : state) h i src : read_only st h -> step st (SetFrom h i src) = (st, Err ValueError).
Proof using.
  intros (a & Ea & Ra). cbn [ObjModel.step]. destruct i as [z|? ? ?|l]; unfold set_int, set_from; rewrite Ea, Ra; reflexivity.
Qed.
(* Otherwise it is false.  a[1:] = a[:-1] should move every element up by one place; it fills the array with the first one. *)
Lemma shifted_from n : slice_positions (S (S n)) (Some 1%Z) None None = Ok (seq 1 (S n)).
Proof using.
  unfold slice_positions, clip_bound. change (1 <=? 0)%Z with false. change (1 <? 0)%Z with false. cbn iota.
  replace (Z.max 0 (Z.min (Z.of_nat (S (S n))) 1)) with 1%Z by lia. rewrite Z.div_1_r. replace (Z.to_nat (Z.of_nat (S (S n)) - 1 + 1 - 1)) with (S n) by lia. f_equal.
  rewrite <- seq_shift. apply map_ext. intros k. lia.
Qed.
Lemma all_but_last n : slice_positions (S (S n)) None (Some (-1)%Z) None = Ok (seq 0 (S n)).
Proof using.
  unfold slice_positions, clip_bound. change (1 <=? 0)%Z with false. change (-1 <? 0)%Z with true. cbn iota.
  replace (Z.max 0 (Z.min (Z.of_nat (S (S n))) (-1 + Z.of_nat (S (S n))))) with (Z.of_nat (S n)) by lia. rewrite Z.div_1_r. replace (Z.to_nat (Z.of_nat (S n) - 0 + 1 - 1)) with (S n) by lia. f_equal.
  rewrite <- (map_id (seq 0 (S n))) at 2. apply map_ext. intros k. lia.
Qed.
Theorem C234_shift_refuted (st : state) h n e0 : reachable st -> writable st h -> len st h = Some (S (S n)) -> plain e0 -> holds st h 0 e0 ->
  exists st1 v st2, step st (Get h (Slice None (Some (-1)%Z) None)) = (st1, Ok (OHandle v)) /\
    step st1 (SetFrom h (Slice (Some 1%Z) None None) v) = (st2, Ok OUnit) /\
    (forall p, p < S (S n) -> holds st2 h p e0) /\
    (forall p e, S p < S (S n) -> holds st h p e -> e <> e0 -> ~ holds st2 h (S p) e).
Proof using.
  intros R (a & Ea & Ra) Hl P H0. pose proof (reachable_inv freeze kept st R) as I. unfold len in Hl. rewrite Ea in Hl. cbn in Hl. injection Hl as Ln.
  cbn [ObjModel.step]. unfold get_many. rewrite Ea. cbn [positions]. rewrite Ln, all_but_last.
  set (st1 := St (stores st) (arrs st ++ [Arr (select (a_indices a) (seq 0 (S n))) (a_store a) (a_ro a)])). set (v := length (arrs st)).
  assert (Ea1 : nth_error (arrs st1) h = Some a) by (unfold st1; cbn [arrs]; rewrite nth_error_app1; [exact Ea|exact (nth_lt _ _ _ Ea)]).
  assert (Ev : nth_error (arrs st1) v = Some (Arr (select (a_indices a) (seq 0 (S n))) (a_store a) (a_ro a))) by (unfold st1, v; cbn [arrs]; rewrite nth_error_app2, Nat.sub_diag by lia; reflexivity).
  destruct (array_store freeze st h a I Ea) as (l & El & Fl). assert (El1 : nth_error (stores st1) (a_store a) = Some l) by exact El.
  assert (Hc : forall p, p < S (S n) -> cell st1 h p = Some (a_store a, nth p (a_indices a) 0)) by (intros p Lp; apply cell_nth; auto; apply nth_error_nth'; lia).
  assert (Hv : forall q, q < S n -> cell st1 v q = Some (a_store a, nth q (a_indices a) 0)).
  { intros q Lq. apply (cell_nth st1 v _ q (nth q (a_indices a) 0) Ev). cbn [a_indices]. unfold select. rewrite nth_error_map, (nth_error_nth' (seq 0 (S n)) 0) by (rewrite seq_length; lia). rewrite seq_nth by lia. reflexivity. }
  assert (Fs : Forall (fun i => i < length l) (select (a_indices a) (seq 1 (S n)))) by (apply select_lt; auto; apply Forall_forall; intros p Hp; apply in_seq in Hp; lia).
  assert (Ls : length (select (a_indices a) (seq 1 (S n))) = S n) by (unfold select; rewrite map_length, seq_length; reflexivity).
  exists st1, v. assert (G : step st1 (SetFrom h (Slice (Some 1%Z) None None) v) = (put_all st1 (a_store a) (select (a_indices a) (seq 1 (S n))) (repeat e0 (S n)), Ok OUnit)).
  { cbn [ObjModel.step]. unfold set_from. rewrite Ea1, Ra. cbn [positions]. rewrite Ln, shifted_from, Ev. cbn [a_indices]. rewrite Ls. replace (length (select (a_indices a) (seq 0 (S n)))) with (S n) by (unfold select; rewrite map_length, seq_length; reflexivity). rewrite Nat.eqb_refl.
    rewrite (copy_smear h (a_store a) v _ e0 P (select (a_indices a) (seq 1 (S n))) st1 0 l El1 Fs); [rewrite Ls; reflexivity| |].
    - destruct H0 as (s & i & l0 & A & B & C). unfold cell in A. rewrite Ea in A. destruct (nth_error (a_indices a) 0) as [i0|] eqn:E0; [|discriminate]. cbn in A. injection A as <- <-. exists (a_store a), i0, l0. split; [|split; [exact B|exact C]]. rewrite Hv by lia. do 2 f_equal. apply (nth_error_nth _ _ 0 E0).
    - intros j i Lj Ei. cbn [Nat.add]. rewrite Ls in Lj. rewrite Hv by lia. unfold select in Ei. rewrite nth_error_map, (nth_error_nth' (seq 1 (S n)) 0) in Ei by (rewrite seq_length; lia). rewrite seq_nth in Ei by lia. cbn in Ei. injection Ei as <-. reflexivity. }
  eexists. split; [reflexivity|]. split; [exact G|].
  assert (ND : NoDup (select (a_indices a) (seq 1 (S n)))) by (apply nodup_map_nth; [exact (reachable_distinct freeze kept st R h a Ea)|apply seq_NoDup|apply Forall_forall; intros p Hp; apply in_seq in Hp; lia]).
  assert (PA : forall p, p < S (S n) -> holds (put_all st1 (a_store a) (select (a_indices a) (seq 1 (S n))) (repeat e0 (S n))) h p e0).
  { intros p Lp. apply (put_all_holds (a_store a) (select (a_indices a) (seq 1 (S n))) (repeat e0 (S n)) st1 l h p e0 El1 Fs ND); [rewrite repeat_length; exact Ls|]. destruct p as [|p].
    - right. split.
      + intros i Hin Q. rewrite Hc in Q by lia. injection Q as Q. unfold select in Hin. apply in_map_iff in Hin. destruct Hin as (p & Hp & Hi). apply in_seq in Hi.
        pose proof (proj1 (NoDup_nth (a_indices a) 0) (reachable_distinct freeze kept st R h a Ea) 0 p ltac:(lia) ltac:(lia) ltac:(congruence)). lia.
      + destruct H0 as (s & i & l0 & A & B & C). exists s, i, l0. split; [|split; [exact B|exact C]]. rewrite Hc by lia. rewrite <- A. symmetry. apply cell_nth; auto. apply nth_error_nth'. lia.
    - left. exists p, (nth (S p) (a_indices a) 0). split; [unfold select; rewrite nth_error_map, (nth_error_nth' (seq 1 (S n)) 0) by (rewrite seq_length; lia); rewrite seq_nth by lia; reflexivity|]. split; [apply Hc; lia|].
      rewrite (nth_error_nth' (repeat e0 (S n)) e0) by (rewrite repeat_length; lia). rewrite nth_repeat. reflexivity. }
  split; [exact PA|]. intros p e Lp He Ne Hh. apply Ne. exact (holds_fun _ h (S p) _ _ Hh (PA (S p) Lp)).
Qed.
End OVL.
Print Assumptions C234_copy_partial.
Print Assumptions C234_rejected.
Print Assumptions C234_shift_refuted.

(* a = ObjectArray(3); a[:] = [7, 8, 9]; b = ObjectArray(2) *)
Definition freeze_z (z : Z) : result Z := Ok z.
Definition kept_z (z : Z) : bool := true.
Definition start_z : state Z := St [[EVal 7%Z; EVal 8%Z; EVal 9%Z]; [ENone; ENone]] [Arr [0; 1; 2] 0 false; Arr [0; 1] 1 false].
Lemma start_reachable : reachable freeze_z kept_z start_z.
Proof.
  exists [1; 0]. apply (session_step freeze_z kept_z _ _ (St [[EVal 7%Z; EVal 8%Z; EVal 9%Z]] [Arr [0; 1; 2] 0 false]) [0] (New 2) start_z (Ok (OHandle 1))); [|intros h []|reflexivity].
  apply (session_step freeze_z kept_z _ _ (St [[ENone; ENone; ENone]] [Arr [0; 1; 2] 0 false]) [0] (Set_ 0 (Slice None None None) [IVal 1 7%Z; IVal 2 8%Z; IVal 3 9%Z]) _ (Ok OUnit)); [|intros h [<-|[]]; left; reflexivity|reflexivity].
  apply (session_step freeze_z kept_z _ _ empty [] (New 3) _ (Ok (OHandle 0))); [constructor|intros h []|reflexivity].
Qed.
(* a[1:] = b overwrites the last two elements *)
Example C234_copy_example : exists st', step freeze_z kept_z start_z (SetFrom 0 (Slice (Some 1%Z) None None) 1) = (st', Ok OUnit) /\ holds st' 0 2 ENone /\ holds st' 0 0 (EVal 7%Z).
Proof.
  destruct (C234_copy_partial freeze_z kept_z start_z 0 3 (Some 1%Z) None None 1 start_reachable ltac:(eexists; split; reflexivity) eq_refl ltac:(lia)) as (ps & Sp & _ & H).
  { intros p x (s & i & l & A & B & C). destruct p as [|[|[|p]]]; try discriminate; vm_compute in A; injection A as <- <-; vm_compute in B; injection B as <-; discriminate. }
  assert (In2 : In 2 ps) by (apply Sp; cbn; lia). assert (In1 : In 1 ps) by (apply Sp; cbn; lia). assert (Mono := proj1 Sp).
  assert (Eps : ps = [1; 2]).
  { assert (A : forall p, In p ps -> p = 1 \/ p = 2) by (intros p Hp; apply Sp in Hp; cbn in Hp; lia). destruct ps as [|p [|q [|r t]]]; [contradiction| | |].
    - cbn in In1, In2. lia.
    - pose proof (Mono 0 1 p q ltac:(lia) eq_refl eq_refl). pose proof (A p ltac:(cbn; auto)). pose proof (A q ltac:(cbn; auto)). f_equal; [lia|f_equal; lia].
    - pose proof (Mono 0 1 p q ltac:(lia) eq_refl eq_refl). pose proof (Mono 1 2 q r ltac:(lia) eq_refl eq_refl). pose proof (A p ltac:(cbn; auto)). pose proof (A r ltac:(cbn; auto)). lia. }
  subst ps. destruct (H eq_refl) as (st' & E1 & E2 & E3).
  { intros j j' p Lj Ej Lj'. cbn in Lj'. assert (j = 0 /\ j' = 1) as [-> ->] by lia. injection Ej as <-. discriminate. }
  exists st'. split; [exact E1|]. split.
  - apply (E2 1 2 ENone eq_refl). exists 1, 1, [ENone; ENone]. repeat split.
  - apply E3; [intros p [<-|[<-|[]]]; discriminate|]. exists 0, 0, [EVal 7%Z; EVal 8%Z; EVal 9%Z]. repeat split.
Qed.
(* a[1:] = a[:-1] gives 7, 7, 7 *)
Example C234_shift_example : exists st1 v st2, step freeze_z kept_z start_z (Get 0 (Slice None (Some (-1)%Z) None)) = (st1, Ok (OHandle v)) /\
  step freeze_z kept_z st1 (SetFrom 0 (Slice (Some 1%Z) None None) v) = (st2, Ok OUnit) /\ holds st2 0 2 (EVal 7%Z) /\ ~ holds st2 0 2 (EVal 8%Z).
Proof.
  destruct (C234_shift_refuted freeze_z kept_z start_z 0 1 (EVal 7%Z) start_reachable) as (st1 & v & st2 & E1 & E2 & E3 & E4); [eexists; split; reflexivity|reflexivity|intros x; discriminate|exists 0, 0, [EVal 7%Z; EVal 8%Z; EVal 9%Z]; repeat split|].
  exists st1, v, st2. split; [exact E1|]. split; [exact E2|]. split; [apply E3; lia|]. apply (E4 1); [lia| |discriminate]. exists 0, 1, [EVal 7%Z; EVal 8%Z; EVal 9%Z]. repeat split.
Qed.

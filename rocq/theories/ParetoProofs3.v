From Coq Require Import QArith Qminmax Sorted Lqa.
From Verif Require Import Prelude FloatLib SortLib BatchModel BatchSpec BatchProofs ParetoModel ParetoSpec ParetoProofs ParetoProofs2 WorkSpec WorkProofs CMemProofs.
Close Scope Q_scope.
Open Scope nat_scope.

Lemma add_fold : forall ixs ds, NoDup (map fst ixs) ->
  length (fold_left add_at ixs ds) = length ds /\
  (forall i q, In (i, q) ixs -> nth_error (fold_left add_at ixs ds) i = option_map (fun d => dadd d q) (nth_error ds i)) /\
  (forall i, ~ In i (map fst ixs) -> nth_error (fold_left add_at ixs ds) i = nth_error ds i).
Proof.
  induction ixs as [|(j, q0) ixs IH]; intros ds HN; cbn [fold_left map fst] in *.
  - split; [auto|]. split; [intros ? ? []|auto].
  - inversion HN as [|? ? Hj HN']; subst. destruct (IH (add_at ds (j, q0)) HN') as (L & A & B).
    assert (La : length (add_at ds (j, q0)) = length ds).
    { unfold add_at. cbn. destruct (nth_error ds j); auto. apply upd_length. }
    assert (Na : forall i, nth_error (add_at ds (j, q0)) i = if Nat.eqb i j then option_map (fun d => dadd d q0) (nth_error ds i) else nth_error ds i).
    { intros i. unfold add_at. cbn. destruct (nth_error ds j) as [d|] eqn:E.
      - destruct (Nat.eqb_spec i j) as [->|Hne]. + rewrite upd_same, E; auto. apply nth_error_Some. congruence. + apply upd_other; auto.
      - destruct (Nat.eqb_spec i j) as [->|Hne]; auto. rewrite E. reflexivity. }
    split; [lia|]. split.
    + intros i q [H|H].
      * injection H as -> ->. rewrite B by auto. rewrite Na, Nat.eqb_refl. reflexivity.
      * rewrite (A i q H), Na. destruct (Nat.eqb_spec i j) as [->|]; auto. exfalso. apply Hj. apply (in_map fst) in H. exact H.
    + intros i H. rewrite B by (intros C; apply H; right; exact C). rewrite Na.
      destruct (Nat.eqb_spec i j) as [->|]; auto. exfalso. apply H. left. reflexivity.
Qed.

Lemma zmax_fold l : forall d, (forall x, In x l -> x <= fold_right Z.max d l)%Z /\ (fold_right Z.max d l = d \/ In (fold_right Z.max d l) l) /\ (d <= fold_right Z.max d l)%Z.
Proof.
  induction l as [|y l IH]; intros d; cbn.
  - split; [intros ? []|split; [auto|lia]].
  - destruct (IH d) as (A & B & C). split; [|split].
    + intros x [->|Hx]; [lia|]. specialize (A x Hx). lia.
    + destruct (Z.max_spec y (fold_right Z.max d l)) as [[_ ->]|[_ ->]]; tauto.
    + lia.
Qed.
Lemma zmin_fold l : forall d, (forall x, In x l -> fold_right Z.min d l <= x)%Z /\ (fold_right Z.min d l = d \/ In (fold_right Z.min d l) l) /\ (fold_right Z.min d l <= d)%Z.
Proof.
  induction l as [|y l IH]; intros d; cbn.
  - split; [intros ? []|split; [auto|lia]].
  - destruct (IH d) as (A & B & C). split; [|split].
    + intros x [->|Hx]; [lia|]. specialize (A x Hx). lia.
    + destruct (Z.min_spec y (fold_right Z.min d l)) as [[_ ->]|[_ ->]]; tauto.
    + lia.
Qed.
Lemma zmax_ok l : l <> [] -> In (zmax l) l /\ forall x, In x l -> (x <= zmax l)%Z.
Proof.
  intros H. unfold zmax. destruct l as [|y l]; [congruence|]. destruct (zmax_fold (y :: l) y) as (A & [B|B] & C); split; auto.
  cbn [hd]. rewrite B. left; auto.
Qed.
Lemma zmin_ok l : l <> [] -> In (zmin l) l /\ forall x, In x l -> (zmin l <= x)%Z.
Proof.
  intros H. unfold zmin. destruct l as [|y l]; [congruence|]. destruct (zmin_fold (y :: l) y) as (A & [B|B] & C); split; auto.
  cbn [hd]. rewrite B. left; auto.
Qed.

Section Crowd.
Variable zsorter : list Z -> list nat.
Variable tol : Q.
Hypothesis sorts : zargsort_ok zsorter.
Variable us : list (list Z).
Notation n := (length us).

Definition denom (col : list Z) : Q :=
  let range := inject_Z (zmax col - zmin col) in if Qle_bool tol range then range else tol.
Definition obj_add (order : list nat) (col : list Z) (ds : list dist) : list dist :=
  let sorted := map (fun i => nth i col 0%Z) order in
  let low := firstn (length sorted - 2) sorted in
  let high := skipn 2 sorted in
  fold_left add_at (combine (removelast (tl order)) (map2 (fun h l => (inject_Z (h - l) / denom col)%Q) high low)) ds.
Definition ord (k : nat) : list nat := zsorter (zcol us k).

Lemma ord_perm k : Permutation (ord k) (seq 0 n).
Proof. unfold ord. destruct (sorts (zcol us k)) as [H _]. unfold zcol in H at 2. rewrite map_length in H. exact H. Qed.
Lemma ord_length k : length (ord k) = n.
Proof. rewrite (Permutation_length (ord_perm k)). apply seq_length. Qed.
Lemma ord_nodup k : NoDup (ord k).
Proof. apply (Permutation_NoDup (Permutation_sym (ord_perm k))), seq_NoDup. Qed.

Lemma removelast_nth {A} (l : list A) m : nth_error (removelast l) m = if Nat.ltb (S m) (length l) then nth_error l m else None.
Proof.
  rewrite removelast_firstn_len, nth_error_firstn'. destruct (Nat.ltb_spec m (pred (length l))), (Nat.ltb_spec (S m) (length l)); auto; lia.
Qed.
Lemma tl_nth {A} (l : list A) m : nth_error (tl l) m = nth_error l (S m).
Proof. destruct l; cbn; auto. destruct m; auto. Qed.

Lemma pairs_nth order col m : nth_error (combine (removelast (tl order))
   (map2 (fun h l => (inject_Z (h - l) / denom col)%Q) (skipn 2 (map (fun i => nth i col 0%Z) order))
      (firstn (length (map (fun i => nth i col 0%Z) order) - 2) (map (fun i => nth i col 0%Z) order)))) m =
   match nth_error order m, nth_error order (S m), nth_error order (S (S m)) with
   | Some a, Some i, Some c => Some (i, (inject_Z (nth c col 0%Z - nth a col 0%Z) / denom col)%Q)
   | _, _, _ => None end.
Proof.
  rewrite combine_nth_error, removelast_nth, tl_nth, map2_nth_error, nth_error_skipn', nth_error_firstn', map_length.
  rewrite !nth_error_map. replace (2 + m) with (S (S m)) by lia.
  assert (LT : length (tl order) = length order - 1) by (destruct order; cbn; lia). rewrite LT.
  destruct (nth_error order (S (S m))) as [c|] eqn:Ec.
  - assert (S (S m) < length order) by (apply nth_error_Some; congruence).
    destruct (Nat.ltb_spec (S m) (length order - 1)); [|lia]. destruct (Nat.ltb_spec m (length order - 2)); [|lia].
    destruct (nth_error order (S m)) as [i|] eqn:Ei; [|apply nth_error_None in Ei; lia].
    destruct (nth_error order m) as [a|] eqn:Ea; [|apply nth_error_None in Ea; lia]. reflexivity.
  - cbn [option_map]. apply nth_error_None in Ec. destruct (Nat.ltb_spec (S m) (length order - 1)); [lia|].
    destruct (nth_error order m); auto. destruct (nth_error order (S m)); auto.
Qed.

Lemma obj_add_ok k ds : length ds = n ->
  length (obj_add (ord k) (zcol us k) ds) = n /\
  (forall i g, neighbour_gap (ord k) (fun x => nth x (zcol us k) 0%Z) i g ->
     nth_error (obj_add (ord k) (zcol us k) ds) i = option_map (fun d => dadd d (inject_Z g / denom (zcol us k))%Q) (nth_error ds i)) /\
  (forall i, nth_error ds i = Some DInf -> nth_error (obj_add (ord k) (zcol us k) ds) i = Some DInf).
Proof.
  intros Hl. unfold obj_add. cbv zeta.
  set (ps := combine _ _).
  assert (PN : forall m, nth_error ps m = match nth_error (ord k) m, nth_error (ord k) (S m), nth_error (ord k) (S (S m)) with
     | Some a, Some i, Some c => Some (i, (inject_Z (nth c (zcol us k) 0%Z - nth a (zcol us k) 0%Z) / denom (zcol us k))%Q) | _, _, _ => None end).
  { intros m. unfold ps. apply pairs_nth. }
  assert (ND : NoDup (map fst ps)).
  { apply NoDup_nth_error. intros x y Hx He. rewrite map_length in Hx. rewrite !nth_error_map, !PN in He.
    assert (Hsx : nth_error ps x <> None) by (apply nth_error_Some; auto). rewrite PN in Hsx.
    destruct (nth_error (ord k) x) as [a|]; [|congruence]. destruct (nth_error (ord k) (S x)) as [i|] eqn:Ex; [|congruence].
    destruct (nth_error (ord k) (S (S x))) as [c|]; [|congruence]. cbn [option_map fst] in He.
    destruct (nth_error (ord k) y) as [a'|]; [|cbn in He; congruence]. destruct (nth_error (ord k) (S y)) as [i'|] eqn:Ey; [|cbn in He; congruence].
    destruct (nth_error (ord k) (S (S y))) as [c'|]; [|cbn in He; congruence]. cbn [option_map fst] in He. injection He as He'. subst i'.
    assert (S x = S y); [|lia]. apply (proj1 (NoDup_nth_error (ord k)) (ord_nodup k)); [apply nth_error_Some; congruence|congruence]. }
  destruct (add_fold ps ds ND) as (L & A & B). split; [lia|]. split.
  - intros i g (m & a & c & Ha & Hi & Hc & ->). apply A. apply nth_error_In with m. rewrite PN, Ha, Hi, Hc. reflexivity.
  - intros i Hi. destruct (in_dec Nat.eq_dec i (map fst ps)) as [Hin|Hout].
    + apply in_map_iff in Hin. destruct Hin as ((i', q) & <- & Hin). cbn. rewrite (A i' q Hin). cbn in Hi. rewrite Hi. reflexivity.
    + rewrite B; auto.
Qed.

Lemma inf_fold l : forall ds, (forall i, In i l -> i < length ds) -> length (fold_left set_inf l ds) = length ds /\
  (forall i, In i l -> nth_error (fold_left set_inf l ds) i = Some DInf) /\
  (forall i, ~ In i l -> nth_error (fold_left set_inf l ds) i = nth_error ds i) /\
  (forall i, nth_error ds i = Some DInf -> nth_error (fold_left set_inf l ds) i = Some DInf).
Proof.
  induction l as [|j l IH]; intros ds Hd; cbn [fold_left].
  - split; [auto|]. split; [intros i []|auto].
  - destruct (IH (set_inf ds j)) as (L & A & B & C). { intros i Hi. unfold set_inf. rewrite upd_length. apply Hd. right; auto. }
    assert (LS : length (set_inf ds j) = length ds) by apply upd_length. rewrite LS in L.
    assert (J : nth_error (set_inf ds j) j = Some DInf) by (apply upd_same, Hd; left; auto).
    assert (O : forall i, i <> j -> nth_error (set_inf ds j) i = nth_error ds i) by (intros; apply upd_other; auto).
    split; [auto|]. split; [|split].
    + intros i [->|Hi]; auto.
    + intros i Hi. rewrite B by (intros H; apply Hi; right; auto). apply O. intros ->. apply Hi. left; auto.
    + intros i Hi. apply C. destruct (Nat.eq_dec i j) as [->|]; auto. rewrite O; auto.
Qed.

Lemma hd_error_hd (l : list nat) : l <> [] -> hd_error l = Some (hd 0 l).
Proof. destruct l; [congruence|reflexivity]. Qed.
Lemma last_rev (l : list nat) : l <> [] -> hd_error (rev l) = Some (last l 0).
Proof.
  intros H. destruct (exists_last H) as (l' & x & ->). rewrite rev_app_distr. cbn. rewrite last_last. reflexivity.
Qed.

Lemma interior_position (o : list nat) i : Permutation o (seq 0 n) -> i < n -> ~ at_end o i ->
  exists m a c, nth_error o m = Some a /\ nth_error o (S m) = Some i /\ nth_error o (S (S m)) = Some c.
Proof.
  intros HP Hi HE. assert (Hin : In i o) by (apply (Permutation_in _ (Permutation_sym HP)), in_seq; lia).
  apply In_nth_error in Hin. destruct Hin as (p & Hp). destruct p as [|m].
  - exfalso. apply HE. left. destruct o; [discriminate|exact Hp].
  - destruct (nth_error o (S (S m))) as [c|] eqn:Ec.
    + assert (m < length o) by (assert (S m < length o) by (apply nth_error_Some; congruence); lia).
      destruct (nth_error o m) as [a|] eqn:Ea; [|apply nth_error_None in Ea; lia]. eauto 8.
    + exfalso. apply HE. right. apply nth_error_None in Ec. assert (S m < length o) by (apply nth_error_Some; congruence).
      rewrite last_rev by (intros ->; cbn in *; lia). f_equal. destruct (exists_last (l := o)) as (o' & x & ->); [intros ->; cbn in *; lia|].
      rewrite last_last. rewrite app_length in *. cbn [length] in *. rewrite nth_error_app2 in Hp by lia.
      replace (S m - length o') with 0 in Hp by lia. cbn in Hp. congruence.
Qed.

Lemma crowding_unfold m : crowding zsorter tol m us =
  fold_left (fun ds k => obj_add (ord k) (zcol us k) ds) (seq 0 m)
   (fold_left set_inf (map (fun k => last (ord k) 0) (seq 0 m)) (fold_left set_inf (map (fun k => hd 0 (ord k)) (seq 0 m)) (map (fun _ => DFin 0) us))).
Proof.
  unfold crowding. cbv zeta. rewrite !map_map.
  assert (E : forall l ds, (forall k, In k l -> k < m) ->
    fold_left (fun ds k => fold_left add_at (combine (removelast (tl (nth k (map (fun k => zsorter (zcol us k)) (seq 0 m)) [])))
      (map2 (fun h l => (inject_Z (h - l) / (if Qle_bool tol (inject_Z (zmax (zcol us k) - zmin (zcol us k))) then inject_Z (zmax (zcol us k) - zmin (zcol us k)) else tol))%Q)
        (skipn 2 (map (fun i => nth i (zcol us k) 0%Z) (nth k (map (fun k => zsorter (zcol us k)) (seq 0 m)) [])))
        (firstn (length (map (fun i => nth i (zcol us k) 0%Z) (nth k (map (fun k => zsorter (zcol us k)) (seq 0 m)) [])) - 2)
            (map (fun i => nth i (zcol us k) 0%Z) (nth k (map (fun k => zsorter (zcol us k)) (seq 0 m)) []))))) ds) l ds =
    fold_left (fun ds k => obj_add (ord k) (zcol us k) ds) l ds).
  { induction l as [|k l IH]; intros ds Hl; cbn [fold_left]; auto. rewrite IH by (intros; apply Hl; right; auto). f_equal.
    assert (Hk : k < m) by (apply Hl; left; auto). pose proof (tab_nth m (fun k => zsorter (zcol us k)) k [] Hk) as TN. unfold tab in TN. rewrite TN.
    unfold obj_add, denom, ord. reflexivity. }
  rewrite E. - reflexivity. - intros k Hk. apply in_seq in Hk. lia.
Qed.

Theorem crowding_ok m : us <> [] -> length (crowding zsorter tol m us) = n /\ forall i, i < n ->
  ((exists k, k < m /\ at_end (ord k) i) -> nth_error (crowding zsorter tol m us) i = Some DInf) /\
  ((forall k, k < m -> ~ at_end (ord k) i) ->
     exists gaps q, nth_error (crowding zsorter tol m us) i = Some (DFin q) /\ (q == qsum gaps)%Q /\ length gaps = m /\
       forall k gap, nth_error gaps k = Some gap ->
         exists g r, neighbour_gap (ord k) (fun x => nth x (zcol us k) 0%Z) i g /\ clamped_range tol (zcol us k) r /\ (gap == inject_Z g / r)%Q).
Proof.
  intros Hne. rewrite crowding_unfold. set (hds := map (fun k => hd 0 (ord k)) (seq 0 m)). set (lsts := map (fun k => last (ord k) 0) (seq 0 m)).
  set (d0 := map (fun _ => DFin 0) us). assert (L0 : length d0 = n) by apply map_length.
  assert (One : forall k, ord k <> []). { intros k H. pose proof (ord_length k) as L. rewrite H in L. destruct us; [congruence|discriminate]. }
  assert (Hh : forall k, In (hd 0 (ord k)) (ord k)). { intros k. specialize (One k). destruct (ord k); [congruence|left; auto]. }
  assert (Hlst : forall k, In (last (ord k) 0) (ord k)). { intros k. destruct (exists_last (One k)) as (l' & x & ->). rewrite last_last. apply in_or_app. right; left; auto. }
  assert (Bd : forall k x, In x (ord k) -> x < n). { intros k x Hx. apply (Permutation_in _ (ord_perm k)) in Hx. apply in_seq in Hx. lia. }
  destruct (inf_fold hds d0) as (L1 & A1 & B1 & C1). { intros i Hi. apply in_map_iff in Hi. destruct Hi as (k & <- & _). rewrite L0. eauto. }
  set (d1 := fold_left set_inf hds d0) in *.
  destruct (inf_fold lsts d1) as (L2 & A2 & B2 & C2). { intros i Hi. apply in_map_iff in Hi. destruct Hi as (k & <- & _). rewrite L1, L0. eauto. }
  set (d2 := fold_left set_inf lsts d1) in *.
  assert (FL : forall t, length (fold_left (fun ds k => obj_add (ord k) (zcol us k) ds) (seq 0 t) d2) = n).
  { induction t as [|t IH]; [cbn; lia|]. rewrite seq_S, fold_left_app. cbn [fold_left]. apply obj_add_ok. auto. }
  assert (ENDS : forall k i, at_end (ord k) i <-> hd 0 (ord k) = i \/ last (ord k) 0 = i).
  { intros k i. unfold at_end. rewrite (hd_error_hd _ (One k)), (last_rev _ (One k)). split; intros [H|H]; try (injection H as H); subst; auto. }
  split; [apply FL|]. intros i Hi. split.
  - intros (k & Hk & He). apply ENDS in He.
    assert (I2 : nth_error d2 i = Some DInf).
    { destruct He as [He|He].
      - apply C2, A1. unfold hds. apply in_map_iff. exists k. split; auto. apply in_seq. lia.
      - apply A2. unfold lsts. apply in_map_iff. exists k. split; auto. apply in_seq. lia. }
    assert (G : forall t, nth_error (fold_left (fun ds k => obj_add (ord k) (zcol us k) ds) (seq 0 t) d2) i = Some DInf).
    { induction t as [|t IH]; [exact I2|]. rewrite seq_S, fold_left_app. cbn [fold_left]. apply (obj_add_ok t _ (FL t)); auto. }
    apply G.
  - intros HE.
    assert (I2 : nth_error d2 i = Some (DFin 0)).
    { rewrite B2, B1. - unfold d0. rewrite nth_error_map. destruct (nth_error us i) eqn:E; auto. apply nth_error_None in E. lia.
      - intros H. apply in_map_iff in H. destruct H as (k & He & Hk). apply in_seq in Hk. apply (HE k); [lia|]. apply ENDS. auto.
      - intros H. apply in_map_iff in H. destruct H as (k & He & Hk). apply in_seq in Hk. apply (HE k); [lia|]. apply ENDS. auto. }
    assert (G : forall t, t <= m -> exists gaps q, nth_error (fold_left (fun ds k => obj_add (ord k) (zcol us k) ds) (seq 0 t) d2) i = Some (DFin q) /\ (q == qsum gaps)%Q /\ length gaps = t /\
       forall k gap, nth_error gaps k = Some gap ->
         exists g r, neighbour_gap (ord k) (fun x => nth x (zcol us k) 0%Z) i g /\ clamped_range tol (zcol us k) r /\ (gap == inject_Z g / r)%Q).
    { induction t as [|t IH]; intros Ht.
      - exists [], 0%Q. split; [exact I2|]. split; [reflexivity|]. split; [reflexivity|]. intros [|k] gap; discriminate.
      - destruct IH as (gaps & q & E & Hq & Lg & Hg); [lia|].
        destruct (interior_position (ord t) i (ord_perm t) Hi) as (p & a & c & Ha & Hi' & Hc); [apply HE; lia|].
        rewrite seq_S, fold_left_app. cbn [fold_left Nat.add].
        destruct (obj_add_ok t _ (FL t)) as (_ & OA & _).
        rewrite (OA i _ (ex_intro _ p (ex_intro _ a (ex_intro _ c (conj Ha (conj Hi' (conj Hc eq_refl))))))). rewrite E. cbn [option_map dadd].
        set (g := (nth c (zcol us t) 0 - nth a (zcol us t) 0)%Z).
        exists (gaps ++ [(inject_Z g / denom (zcol us t))%Q]). eexists. split; [reflexivity|]. split; [|split].
        + rewrite Hq. clear. induction gaps as [|x l IH]; cbn [app qsum fold_right]; [ring|]. unfold qsum in *. rewrite <- IH. ring.
        + rewrite app_length. cbn. lia.
        + intros k gap Hk. destruct (Nat.lt_ge_cases k t).
          * rewrite nth_error_app1 in Hk by lia. auto.
          * rewrite nth_error_app2 in Hk by lia. destruct (k - length gaps) as [|z] eqn:Ez; [|destruct z; discriminate].
            cbn in Hk. injection Hk as <-. assert (k = t) by lia. subst k. exists g, (denom (zcol us t)). split; [|split; [|reflexivity]].
            -- exists p, a, c. auto.
            -- assert (zcol us t <> []) by (unfold zcol; destruct us; [congruence|discriminate]).
               destruct (zmax_ok (zcol us t)) as [M1 M2]; auto. destruct (zmin_ok (zcol us t)) as [N1 N2]; auto.
               exists (zmax (zcol us t)), (zmin (zcol us t)). split; auto. split; auto. split; [intros x Hx; split; auto|].
               unfold denom. destruct (Qle_bool tol _) eqn:Eb.
               ++ apply Qle_bool_iff in Eb. rewrite Q.max_r; [reflexivity|exact Eb].
               ++ rewrite Q.max_l; [reflexivity|]. destruct (Qlt_le_dec tol (inject_Z (zmax (zcol us t) - zmin (zcol us t)))) as [C|C]; auto.
                  apply Qlt_le_weak, Qle_bool_iff in C. congruence. }
    apply G. lia.
Qed.
End Crowd.

(* ------------------------------------------------------------------ crowding in selection *)
Lemma sorted_front_desc {V} (dists : list (list fl) -> list dist) dsorter (b : batch V) :
  (forall l, length (dists l) = length l) -> dargsort_desc_ok dsorter -> wf b -> all_no_nan b -> b_len b <> 0 ->
  exists fronts ranks, arg_pareto_sort (fun l => dsorter (dists l)) b true = Ok (fronts, ranks) /\
    front_numbers (b_desc b) (rows b) ranks /\
    Permutation (concat fronts) (seq 0 (b_len b)) /\
    forall k front, nth_error fronts k = Some front ->
      exists base ds, (forall i, In i front <-> nth_error ranks i = Some k) /\ Permutation front base /\ NoDup base /\
        ds = dists (map (fun i => uvec b (nth i (b_ev b) [])) base) /\
        (forall x y i j p q, x < y -> nth_error front x = Some i -> nth_error front y = Some j ->
           nth_error base p = Some i -> nth_error base q = Some j -> dle (nth q ds (DFin 0)) (nth p ds (DFin 0)) = true).
Proof.
  intros HL HD Hwf HN Hne.
  assert (HR : reordering (fun l => dsorter (dists l))). { intros l. rewrite <- (HL l). apply HD. }
  destruct (pareto_sort_ok (fun l => dsorter (dists l)) b true Hwf HN Hne HR) as (fronts & ranks & E & FN & P & F & C & _).
  exists fronts, ranks. split; auto. split; auto. split; auto. intros k front Hf. destruct (F k front Hf) as [_ IN].
  destruct (C eq_refl k front Hf) as [Lf Nf]. exists (front_of ranks k), (dists (map (fun i => uvec b (nth i (b_ev b) [])) (front_of ranks k))).
  split; [exact IN|]. 
  set (o := dsorter (dists (map (fun i => uvec b (nth i (b_ev b) [])) (front_of ranks k)))) in *.
  destruct (HD (dists (map (fun i => uvec b (nth i (b_ev b) [])) (front_of ranks k)))) as [HP HS]. fold o in HP, HS.
  rewrite HL, map_length in HP.
  assert (NDf : NoDup front).
  { apply NoDup_nth_error. intros x y Hx He.
    assert (Lo : length o = length front) by (rewrite (Permutation_length HP), seq_length; lia).
    destruct (nth_error o x) as [p|] eqn:Ep; [|apply nth_error_None in Ep; lia].
    assert (Hy : y < length front) by (apply nth_error_Some; rewrite <- He; apply nth_error_Some; auto).
    destruct (nth_error o y) as [q|] eqn:Eq; [|apply nth_error_None in Eq; lia].
    rewrite (Nf x p Ep), (Nf y q Eq) in He.
    assert (p = q).
    { apply (proj1 (NoDup_nth_error (front_of ranks k)) (front_nodup ranks k)); auto.
      apply nth_error_In in Ep. apply (Permutation_in _ HP) in Ep. apply in_seq in Ep. lia. }
    subst q. assert (NDo : NoDup o) by (apply (Permutation_NoDup (Permutation_sym HP)), seq_NoDup).
    apply (proj1 (NoDup_nth_error o) NDo); [apply nth_error_Some; congruence|congruence]. }
  split. { apply NoDup_Permutation; auto using front_nodup. intros i. rewrite IN, front_in. reflexivity. }
  split; [apply front_nodup|]. split; [reflexivity|].
  intros x y i j p q Hxy Hi Hj Hp Hq.
  assert (POS : forall x i p, nth_error front x = Some i -> nth_error (front_of ranks k) p = Some i -> nth_error o x = Some p).
  { intros x0 i0 p0 H1 H2. assert (Lo : length o = length front) by (rewrite (Permutation_length HP), seq_length; lia).
    destruct (nth_error o x0) as [p'|] eqn:Ep. 2:{ apply nth_error_None in Ep. assert (x0 < length front) by (apply nth_error_Some; congruence). lia. }
    f_equal. rewrite (Nf x0 p' Ep) in H1. apply (proj1 (NoDup_nth_error (front_of ranks k)) (front_nodup ranks k)); [apply nth_error_Some; congruence|congruence]. }
  apply (sorted_nth _ o x y p q HS Hxy); eauto.
Qed.

(* When the crowding order of every front is its own inverse, take_best keeps the least crowded. *)
Lemma take_best_least_crowded {V} (dists : list (list fl) -> list dist) dsorter qsorter (b : batch V) n :
  (forall l, length (dists l) = length l) -> dargsort_desc_ok dsorter -> qargsort_ok qsorter -> wf b -> all_no_nan b ->
  (forall l p m, nth_error (dsorter (dists l)) p = Some m -> nth_error (dsorter (dists l)) m = Some p) ->
  exists b' ranks kept dropped, take_best_multi (fun l => dsorter (dists l)) qsorter b n = Ok b' /\
    front_numbers (b_desc b) (rows b) ranks /\
    Permutation (kept ++ dropped) (seq 0 (b_len b)) /\ length kept = Nat.min n (b_len b) /\ length (rows b') = length kept /\
    (forall k i, nth_error kept k = Some i -> nth_error (rows b') k = nth_error (rows b) i) /\
    (forall k, exists base, (forall i, In i base <-> nth_error ranks i = Some k) /\ NoDup base /\
       forall i j p q, In i kept -> In j dropped -> nth_error base p = Some i -> nth_error base q = Some j ->
         let ds := dists (map (fun i => uvec b (nth i (b_ev b) [])) base) in
         dle (nth q ds (DFin 0)) (nth p ds (DFin 0)) = true).
Proof.
  intros HL HD HQ Hwf HN HI.
  assert (HR : reordering (fun l => dsorter (dists l))). { intros l. rewrite <- (HL l). apply HD. }
  destruct (take_best_multi_ok (fun l => dsorter (dists l)) qsorter b n Hwf HN HR HQ) as
    (b' & ranks & kept & dropped & E & FN & P & LK & LB & NB & RK & cs & ECS & CSO).
  exists b', ranks, kept, dropped. split; auto. split; auto. split; auto. split; auto. split; auto. split; auto.
  intros k. exists (front_of ranks k). split; [intros; apply front_in|]. split; [apply front_nodup|].
  intros i j p q Hi Hj Hp Hq ds.
  assert (HLen : forall l, length (dsorter (dists l)) = length l). { intros l. rewrite (Permutation_length (HR l)). apply seq_length. }
  destruct (ranks_front_numbers (fun l => dsorter (dists l)) b true Hwf HN HLen) as (ranks' & cs' & E' & _ & _ & CS).
  rewrite ECS in E'. injection E' as <- <-.
  assert (Ri : nth_error ranks i = Some k) by (apply front_in; eapply nth_error_In; eauto).
  assert (Rj : nth_error ranks j = Some k) by (apply front_in; eapply nth_error_In; eauto).
  specialize (CS eq_refl k (ex_intro _ i Ri)). fold ds in CS.
  assert (Op : nth_error (dsorter ds) p = Some (nth i cs 0)) by (rewrite <- CS, nth_error_map, Hp; reflexivity).
  assert (Oq : nth_error (dsorter ds) q = Some (nth j cs 0)) by (rewrite <- CS, nth_error_map, Hq; reflexivity).
  apply HI in Op, Oq. assert (Hle : nth i cs 0 <= nth j cs 0).
  { apply CSO; auto. rewrite (nth_error_nth _ _ 0 Ri), (nth_error_nth _ _ 0 Rj). reflexivity. }
  destruct (HD ds) as [_ HS]. destruct (Nat.eq_dec (nth i cs 0) (nth j cs 0)) as [Eq|Ne].
  - rewrite Eq in Op. fold ds in Op, Oq. rewrite Op in Oq. injection Oq as ->. destruct (nth q ds (DFin 0)); cbn; auto. apply Qle_bool_iff. apply Qle_refl.
  - apply (sorted_nth _ (dsorter ds) (nth i cs 0) (nth j cs 0) p q HS); auto. lia.
Qed.

Lemma dle_total a b : dle a b = true \/ dle b a = true.
Proof.
  destruct a as [x|], b as [y|]; cbn; auto. rewrite !Qle_bool_iff. destruct (Qlt_le_dec x y); [left; apply Qlt_le_weak; auto|auto].
Qed.
Lemma dle_trans a b c : dle a b = true -> dle b c = true -> dle a c = true.
Proof. destruct a as [x|], b as [y|], c as [z|]; cbn; auto; try discriminate. rewrite !Qle_bool_iff. apply Qle_trans. Qed.
Lemma dstable_ok : dargsort_desc_ok dstable_desc.
Proof.
  intros c. split; [symmetry; apply isort_perm|]. unfold dstable_desc.
  apply (isort_sorted (fun i j => dle (nth j c (DFin 0)) (nth i c (DFin 0)))).
  - intros x y. apply dle_total. - intros x y z H1 H2. eapply dle_trans; eauto.
Qed.
Lemma qstable_ok : qargsort_ok qstable.
Proof.
  intros c. split; [symmetry; apply isort_perm|]. unfold qstable.
  assert (S : StronglySorted (fun i j => Qle_bool (nth i c 0%Q) (nth j c 0%Q) = true) (isort (fun i j => Qle_bool (nth i c 0%Q) (nth j c 0%Q)) (seq 0 (length c)))).
  { apply (isort_sorted (fun i j => Qle_bool (nth i c 0%Q) (nth j c 0%Q))).
    - intros x y. rewrite !Qle_bool_iff. destruct (Qlt_le_dec (nth x c 0%Q) (nth y c 0%Q)); [left; apply Qlt_le_weak; auto|auto].
    - intros x y z. rewrite !Qle_bool_iff. apply Qle_trans. }
  clear -S. induction S as [|x l HS IH HF]; constructor; auto. eapply Forall_impl; [|exact HF]. intros y. apply Qle_bool_iff.
Qed.
Lemma zstable_ok : zargsort_ok zstable.
Proof.
  intros c. split; [symmetry; apply isort_perm|]. unfold zstable.
  assert (S : StronglySorted (fun i j => (nth i c 0 <=? nth j c 0)%Z = true) (isort (fun i j => (nth i c 0 <=? nth j c 0)%Z) (seq 0 (length c)))).
  { apply (isort_sorted (fun i j => (nth i c 0 <=? nth j c 0)%Z)); intros; lia. }
  clear -S. induction S as [|x l HS IH HF]; constructor; auto. eapply Forall_impl; [|exact HF]. cbn. intros y. lia.
Qed.

(* Bags of narrow integers. *)
From Verif Require Import Prelude StructModel StructSpec SortLib CListProofs CListRefine CListLanes CBagModel CBagSpec CBagProofs StructExtra NarModel.
Open Scope Z_scope.

(* the generator yields, for every bag, numbers below its capacity (the result of an argsort) *)
Definition below_capacity (M : nat) (o : cb_op) : Prop :=
  match o with CbPop noise _ => Forall (Forall (fun z => z < Z.of_nat M)) noise | _ => True end.

Lemma wrap_small bits x : 1 <= bits -> - 2 ^ (bits - 1) <= x < 2 ^ (bits - 1) -> wrap bits x = x.
Proof.
  intros B H. unfold wrap. assert (E : 2 ^ bits = 2 * 2 ^ (bits - 1)) by (rewrite <- Z.pow_succ_r by lia; f_equal; lia).
  rewrite Z.mod_small by lia. lia.
Qed.

Lemma all_equal (v : Z) l : Forall (eq v) l -> l = repeat v (length l).
Proof. induction 1; cbn; congruence. Qed.

Lemma run_after {S O R} (step : S -> O -> S * R) os os' : forall s,
  snd (run step s (os ++ os')) = snd (run step s os) ++ snd (run step (fst (run step s os)) os').
Proof.
  induction os as [|o os IH]; intros s; [reflexivity|]. cbn [app run]. destruct (step s o) as [s1 r]. specialize (IH s1).
  destruct (run step s1 (os ++ os')). destruct (run step s1 os). cbn [fst snd] in *. rewrite IH. reflexivity.
Qed.

Section Nar.
Variables (bits : Z) (D : dops Z) (M : nat) (low high fallback : Z) (n : nat).
Hypothesis HB : 1 <= bits.
Hypothesis HM : (2 <= M)%nat.
Hypothesis Hlow : low <= 1.
Hypothesis laws : unit_laws D.
Notation nstep := (narrow_step bits D M low high true fallback 1).
Notation wstep := (cb_step D M low high true fallback 1).

Section Fits.
Hypothesis Hfit : Z.of_nat M * (high - low + 1) <= 2 ^ (bits - 1).
Hypothesis Hmin : - 2 ^ (bits - 1) <= low - 1.

Lemma narrow_row_same l q nz : fill M low high l q -> length nz = M -> forallb (fun z => 0 <=? z) nz = true -> Forall (fun z => z < Z.of_nat M) nz ->
  narrow_row bits low high (lbuf l) nz = shuffle_row low high (lbuf l) nz.
Proof.
  intros HF L N B. unfold narrow_row, shuffle_row. f_equal. f_equal. rewrite (fill_buf M HM low high l q HF).
  pose proof (f_dom M low high _ _ HF) as HD. assert (HD2 : Forall (fun x => low - 1 <= x /\ (x = low - 1 \/ low <= x < high)) (q ++ repeat (empty low) (M - length q))).
  { apply Forall_app. split; [eapply Forall_impl; [|exact HD]; unfold in_dom; cbn; lia|]. apply Forall_forall. intros x Hx. apply repeat_spec in Hx. subst. unfold empty. lia. }
  revert nz L N B. generalize (q ++ repeat (empty low) (M - length q)) HD2. clear HF HD HD2 q. intros buf HB2.
  intros nz _ N B. revert nz N B. induction HB2 as [|x buf Hx HB2 IH]; intros [|z nz] N B; cbn [map2]; auto.
  cbn [forallb] in N. apply andb_true_iff in N. destruct N as [N1 N2]. inversion B as [|? ? B1 B2]; subst. f_equal; [|apply IH; auto].
  apply wrap_small; auto. unfold empty. destruct (Z.eqb_spec x (low - 1)); cbn [negb].
  - assert (0 < 2 ^ (bits - 1)) by (apply Z.pow_pos_nonneg; lia). lia.
  - rewrite (shift_val M HM low Hlow). unfold bignum in *. assert (x < high) by lia. assert (0 <= z < Z.of_nat M) by lia.
    assert (0 <= z * (high - low + 1)) by (apply Z.mul_nonneg_nonneg; lia).
    assert ((z + 1) * (high - low + 1) <= Z.of_nat M * (high - low + 1)) by (apply Z.mul_le_mono_nonneg_r; lia). nia.
Qed.
Lemma step_same s b o : binv M low high n s b -> bag_covered M n low high o = true -> below_capacity M o -> nstep s o = wstep s o.
Proof.
  intros [Hn _ (qs & _ & Hqs)] Hc B. destruct o as [v w|noise w| |]; auto. cbn [narrow_step cb_step Nat.eqb]. destruct (cb_sampling s); auto.
  cbn [bag_covered] in Hc. apply andb_true_iff in Hc. destruct Hc as [_ Hc]. unfold noise_ok in Hc. apply andb_true_iff in Hc. destruct Hc as [_ Hc].
  assert (E : narrow_shuffle bits low high (cb_lanes s) noise = shuffle low high (cb_lanes s) noise); [|rewrite E; auto].
  cbn [below_capacity] in B. unfold narrow_shuffle, shuffle. clear Hn. revert noise Hc B. induction Hqs as [|l q ls qs HF H IH]; intros [|nz noise] Hc B; cbn [map2]; auto.
  cbn [forallb] in Hc. apply andb_true_iff in Hc. destruct Hc as [H1 H2]. apply andb_true_iff in H1. destruct H1 as [H0 H1]. apply Nat.eqb_eq in H0.
  pose proof (Forall_inv B). pose proof (Forall_inv_tail B). f_equal; [|apply IH; auto]. f_equal. apply narrow_row_same with (q := q); auto.
Qed.
Lemma run_same os : forall s b, binv M low high n s b -> forallb (bag_covered M n low high) os = true -> Forall (below_capacity M) os ->
  run nstep s os = run wstep s os.
Proof.
  induction os as [|o os IH]; intros s b HI Hc B; cbn [run]; auto. cbn [forallb] in Hc. apply andb_true_iff in Hc. destruct Hc as [H1 H2]. inversion B; subst.
  rewrite (step_same s b o) by auto. destruct (bag_step_ok D M HM low high Hlow fallback laws n s b o HI H1) as (b' & _ & HI').
  destruct (wstep s o) as [s' r]. cbn [fst snd] in *. rewrite (IH s' b'); auto.
Qed.
End Fits.

(* ---- too many *)
Lemma pushes v k : low <= v < high -> forall s q, cb_sampling s = false -> (exists l, cb_lanes s = [l] /\ fill M low high l q) -> (length q + k <= M)%nat -> q = repeat v (length q) ->
  let r := run nstep s (repeat (CbPush (Sc v) None) k) in
  cb_sampling (fst r) = false /\ (exists l, cb_lanes (fst r) = [l] /\ fill M low high l (repeat v (length q + k))) /\ length (snd r) = k.
Proof.
  intros Hv. induction k as [|k IH]; intros s q Sm (l & El & HF) L Eq; cbn [repeat run].
  { cbn. rewrite Nat.add_0_r, <- Eq. eauto. }
  assert (HI : binv M low high 1 s (false, [q])).
  { constructor; cbn [fst snd]; auto; [rewrite El; auto|]. exists [q]. rewrite Sm, El. auto. }
  assert (Hc : bag_covered M 1 low high (CbPush (Sc v) None) = true).
  { cbn. rewrite andb_true_r. apply andb_true_iff. split; lia. }
  change (nstep s (CbPush (Sc v) None)) with (wstep s (CbPush (Sc v) None)).
  destruct (bag_step_ok D M HM low high Hlow fallback laws 1 s (false, [q]) _ HI Hc) as (b' & Ck & [Hn' Hph' (qs' & HP & HQ)]).
  assert (Sm' : cb_sampling (fst (wstep s (CbPush (Sc v) None))) = false).
  { cbn [cb_step]. rewrite Sm. destruct (cl_step _ _ _ _ _ _). reflexivity. }
  destruct (wstep s (CbPush (Sc v) None)) as [s1 r1]. cbn [fst snd] in *.
  rewrite Sm' in HQ. cbn [bag_check fst snd length arg_of mask_of repeat map3] in Ck.
  assert (LT : Nat.ltb (length q) M = true) by (apply Nat.ltb_lt; lia).
  unfold push_one in Ck. rewrite LT in Ck. cbn [all_some] in Ck.
  assert (Eb : b' = (false, [v :: q])) by (destruct r1 as [[]|[]]; cbn in Ck; congruence). subst b'. cbn [snd] in HP.
  inversion HP as [|? q1 ? ? P1 P2]; subst. inversion P2; subst. inversion HQ as [|l1 ? ? ? F1 F2]; subst. inversion F2; subst.
  assert (Q1 : q1 = repeat v (S (length q))).
  { assert (L1 : length q1 = S (length q)) by (apply Permutation_length in P1; cbn in P1; lia). rewrite <- L1.
    apply all_equal. apply Forall_forall. intros x Hx. apply (Permutation_in _ (Permutation_sym P1)) in Hx. destruct Hx as [|Hx]; auto.
    rewrite Eq in Hx. apply repeat_spec in Hx. auto. }
  specialize (IH s1 q1 Sm'). destruct IH as (I1 & (l2 & I2 & I3) & I4).
  - exists l1. auto.
  - rewrite Q1, repeat_length. lia.
  - rewrite Q1 at 1. rewrite Q1, repeat_length. reflexivity.
  - destruct (run nstep s1 _) as [s2 rs]. cbn [fst snd length] in *. split; auto. split; [|lia]. exists l2. split; auto. rewrite Q1, repeat_length in I3.
    replace (length q + S k)%nat with (S (length q) + k)%nat by lia. auto.
Qed.
Lemma pop_last s l q x : cb_sampling s = true -> cb_lanes s = [l] -> rep M l (q ++ [x]) ->
  exists l', nstep s (CbPop [] None) = (mkBag [l'] true, Ok (COVals [x])) /\ rep M l' q.
Proof.
  intros Sm El HR. cbn [narrow_step]. rewrite Sm, El.
  destruct (step_refines D M HM true fallback laws [l] [q ++ [x]] (ClPop None) ltac:(auto) eq_refl (or_introl eq_refl)) as [E1 E2].
  cbn [q_step length mask_of repeat map2 map] in E1, E2. assert (G : q_get (q ++ [x]) (-1) = Some x).
  { pose proof (last_or_split M HM fallback (q ++ [x]) ltac:(destruct q; discriminate)) as E. rewrite removelast_last in E. apply app_inj_tail in E. destruct E as [_ E].
    unfold last_or in E. destruct (q_get (q ++ [x]) (-1)) eqn:Q; [congruence|]. exfalso. unfold q_get, py_index in Q. rewrite app_length in Q. cbn [length] in Q.
    replace ((0 <=? -1) && (-1 <? Z.of_nat (length q + 1))) with false in Q by lia. replace ((- Z.of_nat (length q + 1) <=? -1) && (-1 <? 0)) with true in Q by lia.
    apply nth_error_None in Q. rewrite app_length in Q. cbn in Q. lia. }
  rewrite G in E1. unfold q_pop in E1, E2. destruct (q ++ [x]) eqn:Eq; [destruct q; discriminate|]. rewrite <- Eq, removelast_last in E2. rewrite <- Eq in E1. unfold commit in E1, E2. cbn [all_some option_map fst snd] in E1, E2.
  destruct (cl_step D M true fallback [l] (ClPop None)) as [ls r]. cbn [fst snd] in *. subst r. inversion E2 as [|l' ? ? ? H1 H2]; subst. inversion H2; subst. eauto.
Qed.
Lemma pops q : forall s l, cb_sampling s = true -> cb_lanes s = [l] -> rep M l q ->
  snd (run nstep s (repeat (CbPop [] None) (length q))) = map (fun x => Ok (COVals [x])) (rev q).
Proof.
  induction q as [|x q IH] using rev_ind; intros s l Sm El HR; [reflexivity|]. rewrite app_length, Nat.add_comm, rev_app_distr. cbn [length Nat.add repeat run rev app map].
  destruct (pop_last s l q x Sm El HR) as (l' & -> & HR'). specialize (IH (mkBag [l'] true) l' eq_refl eq_refl HR').
  destruct (run nstep _ _) as [s2 rs]. cbn [snd] in *. rewrite IH. reflexivity.
Qed.

(* the first number of noise whose sum leaves the range *)
Hypothesis Hrange : low < high.
Hypothesis Hbig : high - low + 1 < 2 ^ (bits - 1).
Hypothesis Hover : 2 ^ (bits - 1) < Z.of_nat M * (high - low + 1).
Hypothesis Hdiv : 2 ^ bits mod (high - low + 1) <> 0.
Lemma some_row_changes : exists x, In x (narrow_row bits low high (repeat (high - 1) M) (map Z.of_nat (seq 0 M))) /\ x <> high - 1.
Proof.
  set (b := high - low + 1) in *. set (h := 2 ^ (bits - 1)) in *. assert (E2 : 2 ^ bits = 2 * h) by (unfold h; rewrite <- Z.pow_succ_r by lia; f_equal; lia).
  set (t := h / b). assert (Ht : b * t <= h < b * t + b) by (unfold t; pose proof (Z.mul_div_le h b ltac:(lia)); pose proof (Z.mul_succ_div_gt h b ltac:(lia)); lia).
  assert (T : 0 <= t < Z.of_nat M) by nia.
  assert (NE : b * t <> h). { intros E. apply Hdiv. rewrite E2, <- E. replace (2 * (b * t)) with (2 * t * b) by ring. apply Z.mod_mul. lia. }
  set (y := wrap bits (high - 1 + (shift low + t * bignum low high))).
  assert (Y : y = b * t + b - 1 - 2 * h).
  { unfold y, wrap. rewrite (shift_val M HM low Hlow). unfold bignum. fold b h. rewrite E2. replace (high - 1 + (1 - low + t * b) + h) with (b * t + b - 1 - h + 1 * (2 * h)) by (unfold b; ring).
    rewrite Z.mod_add by lia. rewrite Z.mod_small by lia. ring. }
  exists (y mod bignum low high - shift low). split.
  - unfold narrow_row. apply in_map_iff. exists y. split; auto. apply (Permutation_in _ (isort_perm _ _)).
    apply nth_error_In with (n := Z.to_nat t). rewrite map2_nth_error, (nth_error_repeat (high - 1)) by lia. rewrite nth_error_map.
    rewrite (nth_error_nth' (seq 0 M) 0%nat) by (rewrite seq_length; lia). rewrite seq_nth by lia. cbn [option_map]. f_equal. unfold y.
    replace (Z.of_nat (0 + Z.to_nat t)) with t by lia. unfold empty. destruct (Z.eqb_spec (high - 1) (low - 1)); [lia|]. reflexivity.
  - rewrite Y, (shift_val M HM low Hlow). unfold bignum. fold b. intros E. apply Hdiv. rewrite E2.
    replace (b * t + b - 1 - 2 * h) with (- (1 + 2 * h) + (t + 1) * b) in E by ring. rewrite Z.mod_add in E by lia.
    assert (E' : (- (1 + 2 * h)) mod b = b - 1) by (unfold b in *; lia).
    apply Z.mod_divide; [lia|]. exists (- ((- (1 + 2 * h)) / b) - 1). pose proof (Z.div_mod (- (1 + 2 * h)) b ltac:(lia)). nia.
Qed.
Lemma overflow : let os := repeat (CbPush (Sc (high - 1)) None) M ++ CbPop [map Z.of_nat (seq 0 M)] None :: repeat (CbPop [] None) (M - 1) in
  let outs := snd (run nstep (cb_new M low 1) os) in exists i x, nth_error outs i = Some (Ok (COVals [x])) /\ x <> high - 1.
Proof.
  cbv zeta. rewrite run_after. pose proof (pushes (high - 1) M ltac:(lia) (cb_new M low 1) [] eq_refl) as P.
  destruct P as (Sm & (l & El & HF) & Lo).
  { pose proof (bag_new_inv M HM low high 1) as [_ _ (qs & HP & HQ)]. cbn in HQ, HP. inversion HQ as [|l q ? ? F1 F2]; subst. inversion F2; subst. inversion HP as [|? ? ? ? P1 P2]; subst.
    apply Permutation_nil in P1. subst q. eexists. split; [reflexivity|]. exact F1. }
  { cbn. lia. } { reflexivity. }
  destruct (run nstep (cb_new M low 1) (repeat _ M)) as [s rs]. cbn [fst snd length Nat.add] in *.
  destruct some_row_changes as (x & Ix & Nx). set (nz := map Z.of_nat (seq 0 M)) in *.
  set (row := narrow_row bits low high (repeat (high - 1) M) nz) in *.
  assert (LR : length row = M).
  { unfold row, narrow_row. rewrite map_length, <- (Permutation_length (isort_perm _ _)), map2_length, repeat_length. unfold nz. rewrite map_length, seq_length. lia. }
  assert (BU : lbuf l = repeat (high - 1) M). { rewrite (fill_buf M HM low high l _ HF), repeat_length, Nat.sub_diag. cbn [repeat]. apply app_nil_r. }
  set (l' := mkLane row (lbeg l) (lend l)).
  assert (HR : rep M l' row).
  { pose proof (f_rep _ _ _ _ _ HF) as R0. assert (NN : repeat (high - 1) M <> []) by (destruct M; [lia|discriminate]).
    assert (NR : row <> []) by (intros E; rewrite E in LR; cbn in LR; lia).
    constructor; cbn [lbuf lbeg lend l']; auto; try lia; try (intros; contradiction).
    - intros _. pose proof (rep_pos _ _ _ R0 NN) as RP. rewrite repeat_length in RP. rewrite LR. exact RP.
    - intros i Hi. rewrite (f_beg _ _ _ _ _ HF NN). f_equal. rewrite Z.add_0_l, Z.mod_small by lia. lia. }
  set (s0 := mkBag [l'] true).
  assert (EQ : run nstep s (CbPop [nz] None :: repeat (CbPop [] None) (M - 1)) = run nstep s0 (repeat (CbPop [] None) (length row))).
  { rewrite LR. replace M with (S (M - 1)) at 4 by lia. cbn [repeat run].
    assert (F : nstep s (CbPop [nz] None) = nstep s0 (CbPop [] None)); [|rewrite F; reflexivity].
    cbn [narrow_step]. rewrite Sm, El. cbn [Nat.eqb narrow_shuffle map2]. rewrite BU. reflexivity. }
  rewrite EQ. pose proof (pops row s0 l' eq_refl eq_refl HR) as PP. destruct (run nstep s0 _) as [s2 rs2]. cbn [snd] in *. subst rs2.
  apply in_rev in Ix. apply In_nth_error in Ix. destruct Ix as [i Hi]. exists (length rs + i)%nat, x. split; auto.
  rewrite nth_error_app2 by lia. replace (length rs + i - length rs)%nat with i by lia. rewrite nth_error_map, Hi. reflexivity.
Qed.
End Nar.

(* As long as the products of the shuffle fit into the dtype, a bag of that dtype is a bag. *)
Theorem C213_narrow_partial : forall bits (D : dops Z) (M : nat) (low high fallback : Z) (n : nat),
  1 <= bits -> (2 <= M)%nat -> low <= 1 -> unit_laws D -> Z.of_nat M * (high - low + 1) <= 2 ^ (bits - 1) -> - 2 ^ (bits - 1) <= low - 1 ->
  forall os, forallb (bag_covered M n low high) os = true -> Forall (below_capacity M) os ->
  let outs := snd (run (narrow_step bits D M low high true fallback 1) (cb_new M low n) os) in
  exists b, bag_history M (false, repeat [] n) os outs = Some b /\
    forall i, (i < n)%nat -> exists bag, nth_error (snd b) i = Some bag /\
      let lg := ledger n i ([], []) os outs in Permutation (fst lg) (snd lg ++ bag).
Proof.
  intros bits D M low high fb n HB HM HL laws Hf Hm os Hc B. cbv zeta.
  rewrite (run_same bits D M low high fb n HB HM HL laws Hf Hm os _ _ (bag_new_inv M HM low high n) Hc B).
  exact (bag_conserves D M low high fb n HM HL laws os Hc).
Qed.
(* Otherwise (unless the number of values plus one is a power of two) a full bag of equal values hands out another value, already
   with the noise 0, 1, 2, ... *)
Theorem C213_overflow_refuted : forall bits (D : dops Z) (M : nat) (low high fallback : Z),
  1 <= bits -> (2 <= M)%nat -> low <= 1 -> unit_laws D -> low < high -> high - low + 1 < 2 ^ (bits - 1) ->
  2 ^ (bits - 1) < Z.of_nat M * (high - low + 1) -> 2 ^ bits mod (high - low + 1) <> 0 ->
  let os := repeat (CbPush (Sc (high - 1)) None) M ++ CbPop [map Z.of_nat (seq 0 M)] None :: repeat (CbPop [] None) (M - 1) in
  let outs := snd (run (narrow_step bits D M low high true fallback 1) (cb_new M low 1) os) in
  forallb (bag_covered M 1 low high) (repeat (CbPush (Sc (high - 1)) None) M ++ [CbPop [map Z.of_nat (seq 0 M)] None]) = true /\
  exists i x, nth_error outs i = Some (Ok (COVals [x])) /\ x <> high - 1.
Proof.
  intros bits D M low high fb HB HM HL laws HR Hb Ho Hd. cbv zeta. split.
  - rewrite forallb_app. apply andb_true_iff. split.
    + apply forallb_forall. intros o Ho'. apply repeat_spec in Ho'. subst o. cbn. rewrite andb_true_r. apply andb_true_iff. split; lia.
    + cbn. unfold noise_ok. cbn. rewrite !andb_true_r. rewrite map_length, seq_length, Nat.eqb_refl. cbn. apply forallb_forall. intros z Hz. apply in_map_iff in Hz. destruct Hz as (k & <- & _). lia.
  - apply overflow; auto.
Qed.
Print Assumptions C213_narrow_partial.
Print Assumptions C213_overflow_refuted.

(* int16 bags with the default range: 180 elements fit, 181 do not *)
Example C213_example : unit_laws zops /\ (Z.of_nat 180 * (180 - 0 + 1) <= 2 ^ (16 - 1)) /\ (2 ^ (16 - 1) < Z.of_nat 181 * (181 - 0 + 1)) /\ 2 ^ 16 mod (181 - 0 + 1) <> 0 /\
  (* a small dtype of 4 bits: three elements, each 2 *)
  snd (run (narrow_step 4 zops 3 0 3 true 0 1) (cb_new 3 0 1) (repeat (CbPush (Sc 2) None) 3 ++ CbPop [[0; 1; 2]] None :: repeat (CbPop [] None) 2)) =
    [Ok COUnit; Ok COUnit; Ok COUnit; Ok (COVals [2]); Ok (COVals [2]); Ok (COVals [2])] /\
  snd (run (narrow_step 4 zops 4 0 4 true 0 1) (cb_new 4 0 1) (repeat (CbPush (Sc 3) None) 4 ++ CbPop [[0; 1; 2; 3]] None :: repeat (CbPop [] None) 3)) =
    [Ok COUnit; Ok COUnit; Ok COUnit; Ok COUnit; Ok (COVals [2]); Ok (COVals [2]); Ok (COVals [2]); Ok (COVals [3])].
Proof.
  split; [exact zops_laws|]. split; [vm_compute; discriminate|]. split; [reflexivity|]. split; [vm_compute; discriminate|]. split; reflexivity.
Qed.

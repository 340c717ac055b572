(* Separable search distributions: properties C76 - C80. *)
From Coq Require Import Reals String Lra.
From Verif Require Import Prelude RankModel CemModel DistModel DistSpec DistProofs.
Open Scope R_scope.

(* C76: weights matter up to a constant only *)
Theorem C76_offset : forall o ranking mu sigma samples weights c,
  ranking <> "centered"%string -> ranking <> "normalized"%string ->
  plain_gradients o ranking mu sigma samples (map (fun x => x + c) weights) = plain_gradients o ranking mu sigma samples weights /\
  symmetric_gradients o ranking mu sigma samples (map (fun x => x + c) weights) = symmetric_gradients o ranking mu sigma samples weights.
Proof.
  intros o r mu sigma s w c H1 H2.
  assert (Hr : is_centering r = false).
  { unfold is_centering. destruct (String.eqb_spec r "centered"); [contradiction|]. destruct (String.eqb_spec r "normalized"); [contradiction|auto]. }
  unfold plain_gradients, symmetric_gradients, gradients_of. rewrite (centered_shift r w c Hr). auto.
Qed.
Print Assumptions C76_offset.
Theorem C76_equal_fitnesses : forall o ranking mu sigma samples c n,
  ranking <> "centered"%string -> ranking <> "normalized"%string ->
  count_option (divide_mu o) n -> count_option (divide_sigma o) n ->
  (exists g, plain_gradients o ranking mu sigma samples (repeat c n) = Ok g /\ zero_gradient (length mu) g) /\
  (exists g, symmetric_gradients o ranking mu sigma samples (repeat c n) = Ok g /\ zero_gradient (length mu) g).
Proof.
  intros o r mu sigma s c n H1 H2 O1 O2.
  assert (Hr : is_centering r = false).
  { unfold is_centering. destruct (String.eqb_spec r "centered"); [contradiction|]. destruct (String.eqb_spec r "normalized"); [contradiction|auto]. }
  split; apply constant_zero; auto; intros.
  - apply wsum_zero; auto.
  - apply wsum_zero; auto.
  - apply (sym_zero w xs m 1); auto.
  - apply sym_zero; auto.
Qed.
Print Assumptions C76_equal_fitnesses.
Example C76_example : count_option (Some "num_solutions"%string) 4 /\ count_option None 4.
Proof. split; [right; left; split; auto; lia|left; auto]. Qed.

(* C77: on mirrored samples the symmetric gradient is half of the plain one, for every division option *)
Theorem C77_half : forall o ranking mu sigma samples weights,
  mirrored_samples mu samples -> length weights = length samples ->
  symmetric_gradients o ranking mu sigma samples weights =
  rmap (times (/ 2)) (plain_gradients o ranking mu sigma samples weights).
Proof. exact symmetric_is_half. Qed.
Print Assumptions C77_half.
Example C77_example : mirrored_samples [1; 2] [[3; 1]; [-1; 3]; [1; 7]; [1; -3]].
Proof.
  split; [reflexivity|]. intros k a b Ha Hb j Hj.
  destruct k as [|[|k]]; cbn in *; inversion Ha; inversion Hb; subst.
  - destruct j as [|[|j]]; cbn; try lia; lra.
  - destruct j as [|[|j]]; cbn; try lia; lra.
  - replace (k + S (S (k + 0)))%nat with (S (S (2 * k))) in Ha by lia. cbn in Ha. destruct (k + (k + 0))%nat; discriminate.
Qed.

(* C78: moving or rescaling the search space moves or rescales the gradients *)
Theorem C78_translation : forall o ranking mu sigma samples weights d,
  rows_of (length mu) samples -> length d = length mu ->
  plain_gradients o ranking (translate d mu) sigma (map (translate d) samples) weights =
    plain_gradients o ranking mu sigma samples weights /\
  symmetric_gradients o ranking (translate d mu) sigma (map (translate d) samples) weights =
    symmetric_gradients o ranking mu sigma samples weights.
Proof.
  intros o r mu sigma s w d R L.
  assert (LT : length mu = length (translate d mu)) by (unfold translate; rewrite map2_length; lia).
  split.
  - transitivity (rmap (times 1) (plain_gradients o r mu sigma s w)); [|apply rmap_times_one].
    apply gradients_scale; auto; intros j Hj; rewrite (column_translate (length mu)), nth_translate, Rmult_1_l by auto; apply (plain_translate _ _ _ _ (nth j sigma 0)).
  - transitivity (rmap (times 1) (symmetric_gradients o r mu sigma s w)); [|apply rmap_times_one].
    apply gradients_scale; auto; intros j Hj; rewrite (column_translate (length mu)), nth_translate, Rmult_1_l by auto; apply (sym_translate _ _ _ _ (nth j sigma 0)).
Qed.
Print Assumptions C78_translation.
Theorem C78_dilation : forall o ranking mu sigma samples weights k, k <> 0 ->
  length sigma = length mu -> Forall (fun s => 0 < s) sigma ->
  plain_gradients o ranking (dilate k mu) (dilate k sigma) (map (dilate k) samples) weights =
    rmap (times k) (plain_gradients o ranking mu sigma samples weights) /\
  symmetric_gradients o ranking (dilate k mu) (dilate k sigma) (map (dilate k) samples) weights =
    rmap (times k) (symmetric_gradients o ranking mu sigma samples weights).
Proof.
  intros o r mu sigma s w k K L P.
  assert (LD : length mu = length (dilate k mu)) by (unfold dilate; rewrite map_length; auto).
  assert (NZ : forall j, (j < length mu)%nat -> nth j sigma 0 <> 0).
  { intros j Hj. assert (Hj' : (j < length sigma)%nat) by lia.
    pose proof (proj1 (Forall_forall _ _) P (nth j sigma 0) (nth_In sigma 0 Hj')) as Q. cbn beta in Q. lra. }
  split; apply gradients_scale; auto; intros j Hj; rewrite column_dilate, !nth_dilate.
  - apply (plain_dilate k _ _ _ 1); auto; lra.
  - apply plain_dilate; auto.
  - apply (sym_dilate k _ _ _ 1); auto; lra.
  - apply sym_dilate; auto.
Qed.
Print Assumptions C78_dilation.
Example C78_example : rows_of 2 [[1; 2]; [3; 4]] /\ Forall (fun s => 0 < s) [1; 2].
Proof. split; repeat constructor; lra. Qed.

(* C79: relative entropy *)
Theorem C79_relative_entropy : forall mu0 sigma0 mu1 sigma1,
  length sigma0 = length mu0 -> length mu1 = length mu0 -> length sigma1 = length mu0 ->
  Forall (fun s => 0 < s) sigma0 -> Forall (fun s => 0 < s) sigma1 ->
  0 <= relative_entropy mu0 sigma0 mu1 sigma1 /\
  (relative_entropy mu0 sigma0 mu1 sigma1 = 0 <-> mu0 = mu1 /\ sigma0 = sigma1).
Proof. exact entropy_nonneg. Qed.
Print Assumptions C79_relative_entropy.

(* C80: standard deviations stay positive with the exponential update, whatever is followed ... *)
Theorem C80_exponential_partial : forall sigma followed, 0 < sigma -> 0 < fold_left exp_new_sigma followed sigma.
Proof.
  intros sigma followed. revert sigma. induction followed as [|f l IH]; intros sigma H; cbn; auto.
  apply IH. unfold exp_new_sigma. apply Rmult_lt_0_compat; auto. apply exp_pos.
Qed.
Print Assumptions C80_exponential_partial.
(* ... but not with the additive update: from every distribution, some samples with weights which sum to zero lead,
   for every positive learning rate, to a standard deviation which is not positive *)
Theorem C80_additive_refuted : forall mu sigma rate, 0 < sigma -> 0 < rate ->
  exists samples weights g s,
    plain_gradients {| divide_mu := None; divide_sigma := None |} "raw" [mu] [sigma] samples weights = Ok g /\
    rsum weights = 0 /\ rows_of 1 samples /\ length weights = length samples /\
    snd g = [Some s] /\ plain_new_sigma sigma (rate * s) < 0.
Proof.
  intros mu sigma rate Hs Hr. set (w := 2 / rate).
  assert (M : rmean [w; - w] = 0) by (unfold rmean, rsum; cbn [fold_right]; unfold Rdiv; ring).
  exists [[mu]; [mu + sigma]], [w; - w]. eexists _, _.
  split; [unfold plain_gradients, gradients_of; cbn [length seq map divide_mu divide_sigma divide_grad sequence bind]; reflexivity|].
  split; [unfold rsum; cbn; ring|]. split; [repeat constructor|]. split; [reflexivity|].
  split; [reflexivity|]. unfold centered_weights. cbn [is_centering String.eqb Ascii.eqb Bool.eqb orb].
  cbn [map]. rewrite M. unfold plain_new_sigma, plain_sigma, wsum, rsum, column. cbn [map map2 fold_right nth].
  replace (sigma + rate * ((w - 0) * (((mu - mu) * (mu - mu) - sigma * sigma) / sigma) + ((- w - 0) * (((mu + sigma - mu) * (mu + sigma - mu) - sigma * sigma) / sigma) + 0))) with (- sigma).
  - lra.
  - unfold w. field. lra.
Qed.
Print Assumptions C80_additive_refuted.

(* `separable=True` of CMAES (algorithms/cmaes.py): the diagonal it adapts, compared with the diagonal of the full matrix. *)
From Coq Require Import Reals Lra Permutation.
From Verif Require Import Prelude MatLib RankModel RankProofs CmaModel CmaSpec CmaProofs CmaProofs2 CmaProofs3 CmaProofs4 CmaProps.
Open Scope R_scope.

(* the same search with separable=True *)
Definition as_separable (P : params) : params :=
  mkPar (p_d P) (p_popsize P) (p_c_m P) (p_c_sigma P) (p_damp P) (p_c_c P) (p_c_1 P) (p_c_mu P) (p_active P) (p_squared P) true (p_min P) (p_max P) (p_freq P).
(* a generation after which the rank-one path is not stalled (stalled) *)
Definition moving (P : params) (before after : state) : Prop := h_sig P (s_p_sigma after) (s_steps before) = 1.
Definition stalled (P : params) (before after : state) : Prop := h_sig P (s_p_sigma after) (s_steps before) = 0.
Definition unlimited (P : params) : Prop := p_min P = None /\ p_max P = None.

Lemma eps_pos : 0 < / 10 ^ 23. Proof. apply Rinv_0_lt_compat, pow_lt. lra. Qed.
Lemma sq_pos x : x <> 0 -> 0 < x ^ 2. Proof. intros N. replace (x ^ 2) with (Rsqr x) by (unfold Rsqr; ring). apply Rsqr_pos_lt. auto. Qed.
Lemma weighted_sq P h : 0 <= p_c_1 P -> 0 <= c1a P h -> weighted_pc P h * weighted_pc P h = p_c_1 P / (c1a P h + / 10 ^ 23).
Proof. intros H1 H2. unfold weighted_pc. apply sqrt_sqrt. pose proof eps_pos. apply Rmult_le_pos; auto. left. apply Rinv_0_lt_compat. lra. Qed.
Lemma diagonal_term (f : vect -> R) c ws : forall ys : list vect, length ws = length ys ->
  rsum (map2 (fun w y => w * (f y - c)) ws ys) = rsum (map2 (fun w y => w * f y) ws ys) - c * rsum ws.
Proof. induction ws as [|w ws IH]; intros [|y ys] L; cbn [length map2] in *; try discriminate; rewrite ?rsum_cons, ?rsum_nil; [lra|]. rewrite IH by lia. ring. Qed.
Lemma gap P C pc zs ys ws h j : p_separable P = false -> length ws = length zs -> length zs = length ys ->
  update_C (as_separable P) C pc zs ys ws h j j - update_C P C pc zs ys ws h j j =
  pc j ^ 2 * (c1a P h - c1a P h * (weighted_pc P h * weighted_pc P h)) + p_c_mu P * C j j * (rsum (weights P) - rsum (reweighted P ws zs)).
Proof.
  intros Sp L1 L2. rewrite (update_at P) by auto. unfold update_C. change (p_separable (as_separable P)) with true. cbv iota zeta. rewrite diagonal_at.
  change (reweighted (as_separable P) ws zs) with (reweighted P ws zs). change (c1a (as_separable P) h) with (c1a P h). change (p_c_mu (as_separable P)) with (p_c_mu P).
  assert (LR : length (reweighted P ws zs) = length ys). { unfold reweighted. destruct (p_active P); [rewrite map2_length|]; lia. }
  rewrite (diagonal_term (fun y => y j ^ 2) (C j j)) by auto.
  rewrite (rsum_map2_ext (fun w y => w * y j ^ 2) (fun w (y : vect) => w * (y j * y j))) by (intros; ring). change (nat -> R) with vect. set (T := rsum (map2 _ _ _)). ring.
Qed.
Lemma step_gap P ch tk s zs idx j : p_separable P = false -> unlimited P -> length zs = p_popsize P -> Permutation idx (seq 0 (p_popsize P)) ->
  let full := cma_step P ch tk s zs idx in let sep := cma_step (as_separable P) ch tk s zs idx in let h := h_sig P (s_p_sigma full) (s_steps s) in
  s_C sep j j - s_C full j j = s_p_c full j ^ 2 * (c1a P h - c1a P h * (weighted_pc P h * weighted_pc P h)) +
    p_c_mu P * s_C s j j * (rsum (weights P) - rsum (reweighted P (assigned P idx) zs)).
Proof.
  intros Sp (U1 & U2) L HP full sep h. unfold full, sep, h, cma_step. cbn [s_C s_p_c s_p_sigma]. unfold limit_C.
  change (p_min (as_separable P)) with (p_min P). change (p_max (as_separable P)) with (p_max P). rewrite U1, U2. apply gap; auto.
  - rewrite (Permutation_length (assigned_perm P idx HP)), weights_len. auto.
  - unfold ys_of. rewrite map_length. auto.
Qed.

(* Everything but the covariance is updated alike, and off the diagonal the separable matrix stays 0. *)
Theorem C212_same_paths : forall P cholesky topk s zs ranking,
  let full := cma_step P cholesky topk s zs ranking in let sep := cma_step (as_separable P) cholesky topk s zs ranking in
  s_m sep = s_m full /\ s_sigma sep = s_sigma full /\ s_p_sigma sep = s_p_sigma full /\ s_p_c sep = s_p_c full /\ xs_of (as_separable P) s zs = xs_of P s zs /\
  (forall i j, i <> j -> s_C sep i j = 0).
Proof.
  intros P ch tk s zs idx full sep. repeat (split; [reflexivity|]). intros i j N. unfold sep, cma_step. cbn [s_C]. unfold limit_C, limit_stdev, update_C.
  change (p_separable (as_separable P)) with true. cbv iota. unfold diagonal. destruct (p_min _), (p_max _); destruct (Nat.eqb_spec i j); auto; contradiction.
Qed.
(* Without `active`, in a generation which is not stalled, the diagonal is the one of the full matrix, up to the constant 1e-23 of the code. *)
Theorem C212_diagonal_partial : forall P cholesky topk s zs ranking j,
  let full := cma_step P cholesky topk s zs ranking in let sep := cma_step (as_separable P) cholesky topk s zs ranking in
  p_separable P = false -> unlimited P -> p_active P = false -> length zs = p_popsize P -> Permutation ranking (seq 0 (p_popsize P)) -> 0 <= p_c_1 P ->
  moving P s full ->
  0 <= s_C sep j j - s_C full j j <= s_p_c full j ^ 2 / 10 ^ 23.
Proof.
  intros P ch tk s zs idx j full sep Sp U Act L HP H1 M. unfold full, sep. rewrite step_gap by auto. fold full. unfold moving in M. rewrite M.
  unfold reweighted. rewrite Act, (rsum_perm _ _ (assigned_perm P idx HP)), (Rminus_diag_eq _ _ (eq_refl (rsum (weights P)))), Rmult_0_r, Rplus_0_r.
  assert (E : c1a P 1 = p_c_1 P) by (unfold c1a; ring). rewrite weighted_sq by (rewrite ?E; auto). rewrite E. pose proof eps_pos as E0.
  set (e := / 10 ^ 23) in *. unfold Rdiv at 2. fold e. set (c := p_c_1 P) in *. set (q := s_p_c full j ^ 2). assert (Q : 0 <= q) by (unfold q; apply pow2_ge_0).
  assert (G : 0 <= c - c * (c / (c + e)) <= e); [|destruct G; split; [apply Rmult_le_pos; auto|apply Rmult_le_compat_l; auto]].
  replace (c - c * (c / (c + e))) with (e * (c / (c + e))) by (field; lra).
  assert (0 <= c / (c + e)) by (apply Rmult_le_pos; auto; left; apply Rinv_0_lt_compat; lra).
  assert (c / (c + e) <= 1) by (apply Rdiv_le_1; lra). split; [apply Rmult_le_pos; lra|]. apply Rle_trans with (e * 1); [apply Rmult_le_compat_l; lra|lra].
Qed.
(* In a stalled generation the full matrix gives its path the weight c_1, the separable one a smaller weight. *)
Theorem C212_stalled_refuted : forall P cholesky topk s zs ranking j,
  let full := cma_step P cholesky topk s zs ranking in let sep := cma_step (as_separable P) cholesky topk s zs ranking in
  p_separable P = false -> unlimited P -> p_active P = false -> length zs = p_popsize P -> Permutation ranking (seq 0 (p_popsize P)) -> 0 <= p_c_1 P ->
  stalled P s full -> p_c_c P <> 1 -> / 10 ^ 23 < p_c_1 P * (p_c_c P * (2 - p_c_c P)) -> s_p_c full j <> 0 ->
  s_C sep j j < s_C full j j.
Proof.
  intros P ch tk s zs idx j full sep Sp U Act L HP H1 M N1 B NP. apply Rminus_lt. unfold full, sep. rewrite step_gap by auto. fold full. unfold stalled in M. rewrite M.
  unfold reweighted. rewrite Act, (rsum_perm _ _ (assigned_perm P idx HP)), (Rminus_diag_eq _ _ (eq_refl (rsum (weights P)))), Rmult_0_r, Rplus_0_r. pose proof eps_pos as E0.
  assert (E : c1a P 0 = p_c_1 P * (1 - p_c_c P) ^ 2) by (unfold c1a; ring).
  assert (C1 : 0 < p_c_1 P) by (destruct H1 as [|Z]; auto; rewrite <- Z in B; lra).
  assert (CA : 0 < c1a P 0). { rewrite E. apply Rmult_lt_0_compat; auto. apply sq_pos. lra. }
  assert (E2 : p_c_1 P - c1a P 0 = p_c_1 P * (p_c_c P * (2 - p_c_c P))) by (rewrite E; ring).
  rewrite weighted_sq by lra. set (e := / 10 ^ 23) in *. set (a := c1a P 0) in *. set (c := p_c_1 P) in *. set (q := s_p_c full j ^ 2).
  assert (Q : 0 < q) by (unfold q; apply sq_pos; auto).
  assert (1 < c / (a + e)) by (apply Rdiv_gt_of; lra).
  assert (a - a * (c / (a + e)) < 0) by nra. nra.
Qed.
(* With `active`, the negative weights are divided by the squared lengths of the draws; the full update goes on subtracting the sum of the weights
   as they were, the separable one the sum of the divided ones. *)
Lemma rw_equal_lengths P r ws : p_active P = true -> 0 < r -> forall zs, length ws = length zs -> Forall (fun z => norm2 P z = r) zs ->
  rsum (reweighted P ws zs) = rsum ws + rsum (map negpart ws) * (1 - INR (p_d P) / r).
Proof.
  intros Act R0. unfold reweighted. rewrite Act. induction ws as [|w ws IH]; intros [|z zs] L F; cbn [length map map2] in *; try discriminate; rewrite ?rsum_cons, ?rsum_nil; [lra|].
  inversion F as [|? ? F1 F2]; subst. rewrite IH by (auto; lia). unfold negpart at 2. destruct (Rlt_dec 0 w); field; lra.
Qed.
Theorem C212_active_refuted : forall P cholesky topk s zs ranking j r,
  let full := cma_step P cholesky topk s zs ranking in let sep := cma_step (as_separable P) cholesky topk s zs ranking in
  p_separable P = false -> unlimited P -> p_active P = true -> rates_ok P -> length zs = p_popsize P -> Permutation ranking (seq 0 (p_popsize P)) ->
  Forall (fun z => norm2 P z = r) zs -> 0 < r -> moving P s full ->
  let difference := p_c_mu P * s_C s j j * alpha (p_d P) (p_popsize P) (p_c_1 P) (p_c_mu P) * (INR (p_d P) / r - 1) in
  difference <= s_C sep j j - s_C full j j <= difference + s_p_c full j ^ 2 / 10 ^ 23.
Proof.
  intros P ch tk s zs idx j r full sep Sp U Act RO L HP F R0 M difference. unfold full, sep. rewrite step_gap by auto. fold full. unfold moving in M. rewrite M.
  pose proof RO as (_ & H2 & H1 & _). destruct (neg_mass_bounds P RO) as (N0 & _).
  assert (LW : length (assigned P idx) = length zs) by (rewrite (Permutation_length (assigned_perm P idx HP)), weights_len; auto).
  rewrite (rw_equal_lengths P r) by auto. rewrite (assigned_negpart P idx H2 N0 HP), (rsum_perm _ _ (assigned_perm P idx HP)).
  assert (NM : neg_mass P = alpha (p_d P) (p_popsize P) (p_c_1 P) (p_c_mu P)) by (unfold neg_mass; rewrite Act; auto). rewrite NM.
  match goal with |- _ <= _ + ?x <= _ => replace x with difference by (unfold difference; ring) end.
  assert (E : c1a P 1 = p_c_1 P) by (unfold c1a; ring). rewrite weighted_sq by (rewrite ?E; auto). rewrite E. pose proof eps_pos as E0.
  replace (s_p_c full j ^ 2 / 10 ^ 23) with (s_p_c full j ^ 2 * / 10 ^ 23) by reflexivity. set (e := / 10 ^ 23) in *. set (c := p_c_1 P) in *. set (q := s_p_c full j ^ 2). assert (Q : 0 <= q) by (unfold q; apply pow2_ge_0).
  assert (G : 0 <= q * (c - c * (c / (c + e))) <= q * e); [|lra].
  assert (G : 0 <= c - c * (c / (c + e)) <= e); [|destruct G; split; [apply Rmult_le_pos; auto|apply Rmult_le_compat_l; auto]].
  replace (c - c * (c / (c + e))) with (e * (c / (c + e))) by (field; lra).
  assert (0 <= c / (c + e)) by (apply Rmult_le_pos; auto; left; apply Rinv_0_lt_compat; lra).
  assert (c / (c + e) <= 1) by (apply Rdiv_le_1; lra). split; [apply Rmult_le_pos; lra|]. apply Rle_trans with (e * 1); [apply Rmult_le_compat_l; lra|lra].
Qed.
Print Assumptions C212_same_paths.
Print Assumptions C212_diagonal_partial.
Print Assumptions C212_stalled_refuted.
Print Assumptions C212_active_refuted.

(* one variable, two solutions: draws of length 3/2 (not stalled) and of length 3 (stalled) *)
Definition sp_params (active : bool) : params := mkPar 1 2 1 1 1 (1/2) (1/4) (1/4) active false false None None 1.
Definition sp_state : state := mkCma (fun _ => 0) 1 mid mid (fun _ => 0) (fun _ => 1) 0.
Definition sp_draws (z : R) : list vect := [fun _ => z; fun _ => - z].
Definition sp_topk (k : nat) (ws : list R) : list nat := seq 0 k.
Lemma sp_mass : mu_eff 2 = 1.
Proof.
  unfold mu_eff, selection_mass. assert (H : 0 < rsum (raw_positive 2)) by (apply raw_positive_sum; lia). unfold raw_positive in *. cbn [mu_of Nat.div Nat.divmod fst seq map] in *.
  change (mu_of 2) with 1%nat in *. cbn [seq map] in *. unfold rsum in *. cbn [fold_right] in *. field. lra.
Qed.
Lemma sp_path a z : s_p_sigma (cma_step (sp_params a) (fun C => C) sp_topk sp_state (sp_draws z) [0; 1]%nat) 0%nat = z.
Proof.
  unfold cma_step. cbn [s_p_sigma]. unfold new_p_sigma, vplus, vscale. cbn [sp_state s_p_sigma p_c_sigma sp_params].
  rewrite displacement_at. change (sp_topk _ _) with [0%nat]. cbn [map]. rewrite rsum_cons, rsum_nil. change (nth 0 (sp_draws z) vzero 0%nat) with z.
  change (nth 0 (assigned (sp_params a) [0; 1]%nat) 0) with (nth 0 (weights (sp_params a)) 0).
  rewrite (weights_head (sp_params a)) by (cbn; lia). change (p_popsize (sp_params a)) with 2%nat. rewrite positive_weights_nth by (cbn; lia).
  assert (H : 0 < rsum (raw_positive 2)) by (apply raw_positive_sum; lia). change (raw_positive 2) with [raw_weight 2 0] in *. rewrite rsum_cons, rsum_nil in *.
  unfold discount. change (p_popsize (sp_params a)) with 2%nat. rewrite sp_mass. replace (1 * (2 - 1) * 1) with 1 by ring. rewrite sqrt_1. field. lra.
Qed.
Lemma sp_h a z : h_sig (sp_params a) (s_p_sigma (cma_step (sp_params a) (fun C => C) sp_topk sp_state (sp_draws z) [0; 1]%nat)) 0 = if Rlt_dec (z * z) 4 then 1 else 0.
Proof.
  unfold h_sig, norm2. cbn [p_d sp_params sumn p_c_sigma]. rewrite sp_path. cbn [INR].
  assert (E : (0 + z * z) / (1 - (1 - 1) ^ (2 * 0 + 1)) / 1 - 1 = z * z - 1) by (cbn [Nat.mul Nat.add pow]; field). rewrite E.
  destruct (Rlt_dec (z * z - 1) (1 + 4 / (1 + 1))), (Rlt_dec (z * z) 4); auto; exfalso; lra.
Qed.
Example C212_example : (forall a, unlimited (sp_params a) /\ rates_ok (sp_params a) /\ p_separable (sp_params a) = false /\
    moving (sp_params a) sp_state (cma_step (sp_params a) (fun C => C) sp_topk sp_state (sp_draws (3/2)) [0; 1]%nat) /\
    stalled (sp_params a) sp_state (cma_step (sp_params a) (fun C => C) sp_topk sp_state (sp_draws 3) [0; 1]%nat) /\
    s_p_c (cma_step (sp_params a) (fun C => C) sp_topk sp_state (sp_draws 3) [0; 1]%nat) 0%nat = 1 / 2 /\
    Forall (fun z => norm2 (sp_params a) z = 9 / 4) (sp_draws (3/2))) /\
  p_active (sp_params true) = true /\ p_active (sp_params false) = false /\ / 10 ^ 23 < 1 / 4 * (1 / 2 * (2 - 1 / 2)).
Proof.
  assert (H0 : forall a, stalled (sp_params a) sp_state (cma_step (sp_params a) (fun C => C) sp_topk sp_state (sp_draws 3) [0; 1]%nat)).
  { intros a. unfold stalled. cbn [sp_state s_steps]. fold sp_state. rewrite sp_h. destruct (Rlt_dec _ _); lra. }
  split; [|split; [reflexivity|split; [reflexivity|]]].
  - intros a. split; [split; reflexivity|]. split; [unfold rates_ok; cbn; repeat split; try lia; lra|]. split; [reflexivity|].
    split; [unfold moving; cbn [sp_state s_steps]; fold sp_state; rewrite sp_h; destruct (Rlt_dec _ _); lra|]. split; [auto|]. split.
    + specialize (H0 a). unfold stalled in H0. unfold cma_step in *. cbn [s_p_sigma s_p_c] in *. cbn [sp_state s_steps s_p_sigma s_p_c] in *. unfold new_p_c, vplus, vscale. rewrite H0. cbn. lra.
    + constructor; [|constructor; [|constructor]]; unfold norm2; cbn; lra.
  - apply Rlt_trans with (/ 10 ^ 1); [|lra]. apply Rinv_lt_contravar; [apply Rmult_lt_0_compat; apply pow_lt; lra|]. apply Rlt_pow; [lra|lia].
Qed.

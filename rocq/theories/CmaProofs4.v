(* Default learning rates of CMAES, the new center, and large populations. *)
From Coq Require Import Reals Lra Permutation.
From Verif Require Import Prelude MatLib RankModel RankProofs CmaModel CmaSpec CmaProofs CmaProofs2 CmaProofs3.
Open Scope R_scope.

Lemma Rdiv_le_1 a b : 0 < b -> a <= b -> a / b <= 1.
Proof. intros H K. apply Rmult_le_reg_r with b; auto. unfold Rdiv. rewrite Rmult_assoc, Rinv_l by lra. lra. Qed.
Lemma Rdiv_le_of a b c : 0 < b -> a <= c * b -> a / b <= c.
Proof. intros H K. apply Rmult_le_reg_r with b; auto. unfold Rdiv. rewrite Rmult_assoc, Rinv_l by lra. lra. Qed.
Lemma Rdiv_lt_of a b c : 0 < b -> a < c * b -> a / b < c.
Proof. intros H K. apply Rmult_lt_reg_r with b; auto. unfold Rdiv. rewrite Rmult_assoc, Rinv_l by lra. lra. Qed.
Lemma Rdiv_gt_of a b c : 0 < b -> c * b < a -> c < a / b.
Proof. intros H K. apply Rmult_lt_reg_r with b; auto. unfold Rdiv. rewrite Rmult_assoc, Rinv_l by lra. lra. Qed.
Lemma inv_range m : 1 <= m -> 0 < 1 / m <= 1.
Proof. intros H. split; [apply Rdiv_lt_0_compat; lra|apply Rdiv_le_1; lra]. Qed.
Lemma m_inv m : 1 <= m -> 2 <= m + 1 / m.
Proof.
  intros H. replace (m + 1 / m) with (2 + (m - 1) * (m - 1) / m) by (field; lra).
  assert (0 <= (m - 1) * (m - 1) / m); [|lra]. apply Rmult_le_pos; [apply Rle_0_sqr|]. left. apply Rinv_0_lt_compat. lra.
Qed.
Lemma sqrt_ge_1 x : 1 <= x -> 1 <= sqrt x.
Proof. intros H. rewrite <- sqrt_1. apply sqrt_le_1_alt. auto. Qed.

(* ---- c_c ---- *)
Lemma default_c_c_range sep d m : (1 <= d)%nat -> 1 <= m -> 0 <= default_c_c sep d m <= 2.
Proof.
  intros HD HM. apply le_INR in HD. cbn [INR] in HD. unfold default_c_c.
  assert (0 < m / INR d) by (apply Rdiv_lt_0_compat; lra). assert (0 < 1 / INR d) by (apply Rdiv_lt_0_compat; lra).
  pose proof (sqrt_ge_1 (INR d) HD). destruct sep.
  - split; [left; apply Rdiv_lt_0_compat; lra|]. apply Rdiv_le_of; lra.
  - replace (2 * m / INR d) with (2 * (m / INR d)) by (field; lra). split; [left; apply Rdiv_lt_0_compat; lra|]. apply Rdiv_le_of; lra.
Qed.
(* ---- full covariance ---- *)
Lemma full_rates d n m : (1 <= d)%nat -> (2 <= n)%nat -> 1 <= m -> m <= (INR d + 2) ^ 2 - 2 ->
  let c1 := default_c_1 false d n m in let cmu := default_c_mu false d m c1 in 0 <= c1 /\ 0 < cmu /\ c1 + cmu < 1.
Proof.
  intros HD HN HM HB. apply le_INR in HD. cbn [INR] in HD. apply le_INR in HN. cbn [INR] in HN. cbn zeta.
  set (c1 := default_c_1 false d n m). set (x := INR d) in *.
  set (X := 2 * ((0.25 + m - 2 + 1 / m) / ((x + 2) ^ 2 + m))).
  assert (D1 : 0 < (x + 1.3) ^ 2 + m) by (pose proof (pow2_ge_0 (x + 1.3)); lra).
  assert (D2 : 0 < (x + 2) ^ 2 + m) by (pose proof (pow2_ge_0 (x + 2)); lra).
  set (f := Rmin 1 (INR n / 6)). assert (F : 0 <= f <= 1). { split; [apply Rmin_glb; lra|apply Rmin_l]. }
  assert (E1 : c1 = f * 2 / ((x + 1.3) ^ 2 + m)) by reflexivity.
  assert (C0 : 0 <= c1). { rewrite E1. apply Rmult_le_pos; [lra|left; apply Rinv_0_lt_compat; auto]. }
  (* c1 ((x+2)^2 + m) <= 3.18 *)
  assert (C1 : c1 * ((x + 2) ^ 2 + m) <= 3.18).
  { rewrite E1. replace (f * 2 / ((x + 1.3) ^ 2 + m) * ((x + 2) ^ 2 + m)) with ((f * 2 * ((x + 2) ^ 2 + m)) / ((x + 1.3) ^ 2 + m)) by (field; lra).
    apply Rdiv_le_of; auto. assert (f * 2 * ((x + 2) ^ 2 + m) <= 1 * 2 * ((x + 2) ^ 2 + m)) by (apply Rmult_le_compat_r; lra).
    assert (2 * ((x + 2) ^ 2 + m) <= 3.18 * ((x + 1.3) ^ 2 + m)); [|lra].
    assert (0 <= 1.18 * (x - 1) * (x - 1)) by nra. assert (0 <= m - 1) by lra. nra. }
  pose proof (inv_range m HM) as [I0 I1]. pose proof (m_inv m HM) as MI.
  assert (X0 : 0 < X). { unfold X. apply Rmult_lt_0_compat; [lra|]. apply Rdiv_lt_0_compat; lra. }
  assert (XL : X < 1 - c1).
  { unfold X. replace (2 * ((0.25 + m - 2 + 1 / m) / ((x + 2) ^ 2 + m))) with ((2 * (0.25 + m - 2 + 1 / m)) / ((x + 2) ^ 2 + m)) by (field; lra).
    apply Rdiv_lt_of; auto. assert (1 / m <= 1) by lra.
    replace ((1 - c1) * ((x + 2) ^ 2 + m)) with ((x + 2) ^ 2 + m - c1 * ((x + 2) ^ 2 + m)) by ring. lra. }
  assert (EM : default_c_mu false d m c1 = X). { unfold default_c_mu. fold x X. apply Rmin_right. lra. }
  rewrite EM. repeat split; lra.
Qed.
(* ---- diagonal covariance ---- *)
Lemma sep_rates d n m : (1 <= d)%nat -> 1 <= m -> m <= INR d + 4 * sqrt (INR d) + 1 ->
  let c1 := default_c_1 true d n m in let cmu := default_c_mu true d m c1 in 0 <= c1 /\ 0 < cmu /\ c1 + cmu < 1.
Proof.
  intros HD HM HB. apply le_INR in HD. cbn [INR] in HD. cbn zeta. unfold default_c_1, default_c_mu. set (x := INR d) in *.
  pose proof (sqrt_ge_1 x HD). assert (0 < m / x) by (apply Rdiv_lt_0_compat; lra). pose proof (inv_range m HM) as [I0 I1]. pose proof (m_inv m HM) as MI.
  assert (1 / (x + 2 * sqrt x + m / x) <= 1 / 3) by (apply Rdiv_le_of; lra).
  assert (0 < 1 / (x + 2 * sqrt x + m / x)) by (apply Rdiv_lt_0_compat; lra).
  assert ((0.25 + m + 1 / m - 2) / (x + 4 * sqrt x + m / 2) < 2 / 3) by (apply Rdiv_lt_of; lra).
  assert (0 < (0.25 + m + 1 / m - 2) / (x + 4 * sqrt x + m / 2)) by (apply Rdiv_lt_0_compat; lra). lra.
Qed.
(* ---- default population size ---- *)
Lemma ln_sqrt_bound x : 1 <= x -> ln x <= 2 * (sqrt x - 1).
Proof.
  intros H. assert (S1 : 1 <= sqrt x) by (apply sqrt_ge_1; auto). rewrite <- (sqrt_sqrt x) at 1 by lra. rewrite ln_mult by lra.
  assert (L : ln (sqrt x) <= sqrt x - 1). { pose proof (exp_ineq1_le (ln (sqrt x))). rewrite exp_ln in H0 by lra. lra. } lra.
Qed.

(* ---- large populations ---- *)
Lemma half_le_ln2 : / 2 <= ln 2.
Proof.
  rewrite <- (ln_exp (/ 2)). assert (exp (/ 2) < 2 \/ exp (/ 2) = 2 \/ 2 < exp (/ 2)) as [L|[E|G]] by lra.
  - left. apply ln_increasing; [apply exp_pos|auto].
  - rewrite E. lra.
  - exfalso. pose proof exp_le_3. assert (exp 1 = exp (/ 2) * exp (/ 2)) by (rewrite <- exp_plus; f_equal; lra). nra.
Qed.
Lemma mu_eff_large n : (4 <= n)%nat -> sqrt (INR n) / 32 <= mu_eff n.
Proof.
  intros H. set (L := ln ((INR n + 1) / 2)). set (h := (mu_of n / 2)%nat).
  assert (H2 : (2 <= n)%nat) by lia. pose proof (raw_positive_sum n H2) as SP. pose proof (raw_square_sum n H2) as SQ.
  assert (N4 : 4 <= INR n) by (apply le_INR in H; cbn [INR] in H; lra).
  assert (L0 : 0 < L). { unfold L. rewrite <- ln_1. apply ln_increasing; lra. }
  (* the squares are at most L times the weights *)
  assert (B1 : rsum (map (fun w => w ^ 2) (raw_positive n)) <= L * rsum (raw_positive n)).
  { rewrite <- (map_id (raw_positive n)) at 2. rewrite <- rsum_scale with (f := fun w => w). apply rsum_le. intros w Hw.
    pose proof (raw_positive_all n w Hw). assert (w <= L); [|nra]. unfold raw_positive in Hw. apply in_map_iff in Hw as (i & <- & Hi).
    unfold raw_weight. fold L. pose proof (pos_INR i). assert (0 <= ln (INR i + 1)); [|lra]. rewrite <- ln_1.
    destruct (Req_dec (INR i + 1) 1) as [->|]; [lra|]. left. apply ln_increasing; lra. }
  (* the first h weights are at least ln 2 *)
  assert (B2 : INR h * ln 2 <= rsum (raw_positive n)).
  { unfold raw_positive. assert (EM : mu_of n = (h + (mu_of n - h))%nat) by (unfold h; lia). rewrite EM, seq_app, map_app, rsum_app.
    assert (G2 : 0 <= rsum (map (raw_weight n) (seq (0 + h) (mu_of n - h)))).
    { apply rsum_nonneg. intros x Hx. apply in_map_iff in Hx as (i & <- & Hi). apply in_seq in Hi. left. apply raw_pos. unfold h in Hi. lia. }
    assert (G1 : rsum (map (fun _ => ln 2) (seq 0 h)) <= rsum (map (raw_weight n) (seq 0 h))).
    { apply rsum_le. intros i Hi. apply in_seq in Hi. unfold raw_weight.
      assert (K : 2 * (INR i + 1) <= (INR n + 1) / 2).
      { assert (Z : (4 * (i + 1) <= n)%nat) by (unfold h, mu_of in Hi; lia). apply le_INR in Z. rewrite mult_INR, plus_INR in Z. cbn [INR] in Z. lra. }
      pose proof (pos_INR i). assert (E : ln 2 + ln (INR i + 1) = ln (2 * (INR i + 1))) by (rewrite ln_mult; lra).
      assert (ln (2 * (INR i + 1)) <= ln ((INR n + 1) / 2)); [|lra]. destruct (Rle_lt_or_eq_dec _ _ K) as [X|X]; [left; apply ln_increasing; lra|rewrite X; lra]. }
    rewrite (rsum_const (ln 2)) in G1 by (intros x Hx; apply in_map_iff in Hx as (? & <- & _); auto). rewrite map_length, seq_length in G1. lra. }
  assert (B3 : INR n / 8 <= INR h).
  { assert (Z : (n <= 8 * h)%nat) by (unfold h, mu_of; lia). apply le_INR in Z. rewrite mult_INR in Z. cbn [INR] in Z. lra. }
  pose proof half_le_ln2. assert (B4 : INR n / 16 <= rsum (raw_positive n)).
  { assert (INR h * / 2 <= INR h * ln 2) by (apply Rmult_le_compat_l; [apply pos_INR|auto]). lra. }
  assert (B5 : L <= 2 * sqrt (INR n)).
  { pose proof (ln_sqrt_bound ((INR n + 1) / 2) ltac:(lra)). fold L in H1. assert (sqrt ((INR n + 1) / 2) <= sqrt (INR n)) by (apply sqrt_le_1_alt; lra). lra. }
  unfold mu_eff, selection_mass. set (S1 := rsum (raw_positive n)) in *. set (Q := rsum (map _ _)) in *.
  assert (SN : sqrt (INR n) * sqrt (INR n) = INR n) by (apply sqrt_sqrt; lra). assert (P0 : 0 < sqrt (INR n)) by (apply sqrt_lt_R0; lra).
  apply Rmult_le_reg_r with Q; auto. replace (S1 ^ 2 / Q * Q) with (S1 * S1) by (field; lra).
  assert (Q <= 2 * sqrt (INR n) * S1) by (eapply Rle_trans; [exact B1|]; apply Rmult_le_compat_r; lra).
  assert (sqrt (INR n) / 32 * Q <= sqrt (INR n) / 32 * (2 * sqrt (INR n) * S1)) by (apply Rmult_le_compat_l; lra).
  replace (sqrt (INR n) / 32 * (2 * sqrt (INR n) * S1)) with (sqrt (INR n) * sqrt (INR n) / 16 * S1) in H3 by field. rewrite SN in H3.
  assert (INR n / 16 * S1 <= S1 * S1) by (apply Rmult_le_compat_r; lra). lra.
Qed.
(* the default c_mu of the separable variant exceeds 1 for large populations *)
Lemma sep_c_mu_large d n c : (1 <= d)%nat -> (4 <= n)%nat -> 32 * (2 * INR d + 8 * sqrt (INR d) + 3.5) < sqrt (INR n) -> 1 < default_c_mu true d (mu_eff n) c.
Proof.
  intros HD HN HB. pose proof (mu_eff_large n HN). pose proof (mu_eff_ge_1 n ltac:(lia)). set (m := mu_eff n) in *. unfold default_c_mu.
  apply le_INR in HD. cbn [INR] in HD. pose proof (sqrt_ge_1 _ HD). pose proof (inv_range m H0) as [I0 _]. apply Rdiv_gt_of; lra.
Qed.

(* ---- the k-th best sample has the k-th weight ---- *)
Lemma assigned_at P idx k : Permutation idx (seq 0 (p_popsize P)) -> (k < p_popsize P)%nat -> nth (nth k idx 0%nat) (assigned P idx) 0 = nth k (weights P) 0.
Proof.
  intros HP HK. assert (L : length idx = p_popsize P) by (apply Permutation_length in HP; rewrite seq_length in HP; auto).
  unfold assigned. rewrite L. pose proof (scatter_ok 0%nat idx (seq 0 (p_popsize P))) as S1. rewrite seq_length in S1. destruct (S1 HP) as [SL SN].
  assert (E : nth_error (scatter 0%nat idx (seq 0 (p_popsize P))) (nth k idx 0%nat) = Some k).
  { apply (SN k). - apply nth_error_nth'. lia. - rewrite (nth_error_nth' (seq 0 (p_popsize P)) 0%nat) by (rewrite seq_length; auto). rewrite seq_nth; auto. }
  apply nth_error_nth with (d := 0). rewrite nth_error_map, E. auto.
Qed.
Lemma rsum_map2_map_nth (f : R -> vect -> R) xs ws idx : rsum (map2 f (pick 0 ws idx) (pick vzero xs idx)) = rsum (map (fun i => f (nth i ws 0) (nth i xs vzero)) idx).
Proof. unfold pick. induction idx; cbn [map map2]; auto. rewrite !rsum_cons, IHidx. auto. Qed.
Lemma nodup_firstn {A} n (l : list A) : NoDup l -> NoDup (firstn n l).
Proof.
  revert n. induction l as [|a l IH]; intros [|n] H; cbn [firstn]; try constructor; inversion H as [|? ? A1 A2]; subst; auto.
  intros I. apply A1. rewrite <- (firstn_skipn n l). apply in_or_app. auto.
Qed.
Lemma topk_is_best P topk idx : topk_ok topk -> (2 <= p_popsize P)%nat -> 0 <= neg_mass P -> Permutation idx (seq 0 (p_popsize P)) ->
  Permutation (topk (mu_of (p_popsize P)) (assigned P idx)) (firstn (mu_of (p_popsize P)) idx).
Proof.
  intros TK H2 N HP. pose proof (mu_of_range _ H2) as MR. set (mu := mu_of (p_popsize P)) in *. set (ws := assigned P idx).
  assert (L : length idx = p_popsize P) by (apply Permutation_length in HP; rewrite seq_length in HP; auto).
  assert (LW : length ws = p_popsize P) by (unfold ws; rewrite (Permutation_length (assigned_perm P idx HP)); apply weights_len).
  destruct (TK mu ws ltac:(lia)) as (T1 & T2 & T3 & T4).
  assert (ND : NoDup idx) by (eapply Permutation_NoDup; [symmetry; exact HP|apply seq_NoDup]).
  assert (NF : NoDup (firstn mu idx)) by (apply nodup_firstn; auto).
  apply NoDup_Permutation_bis; auto.
  { rewrite firstn_length. lia. }
  (* a chosen position outside the best mu would leave out one of them, which has a larger weight *)
  intros i Hi. destruct (in_dec Nat.eq_dec i (firstn mu idx)) as [|NI]; auto. exfalso.
  assert (EX : exists j, In j (firstn mu idx) /\ ~ In j (topk mu ws)).
  { destruct (existsb (fun j => negb (if in_dec Nat.eq_dec j (topk mu ws) then true else false)) (firstn mu idx)) eqn:EB.
    - apply existsb_exists in EB as (j & Hj & B). exists j. split; auto. destruct (in_dec Nat.eq_dec j (topk mu ws)); [discriminate|auto].
    - exfalso. assert (INC : incl (firstn mu idx) (topk mu ws)).
      { intros j Hj. destruct (in_dec Nat.eq_dec j (topk mu ws)) as [|NJ]; auto. exfalso.
        assert (existsb (fun j => negb (if in_dec Nat.eq_dec j (topk mu ws) then true else false)) (firstn mu idx) = true); [|congruence].
        apply existsb_exists. exists j. split; auto. destruct (in_dec Nat.eq_dec j (topk mu ws)); [contradiction|auto]. }
      apply NI. eapply NoDup_length_incl; [exact NF| |exact INC|exact Hi]. rewrite firstn_length. lia. }
  destruct EX as (j & Hj & NJ).
  apply (In_nth _ _ 0%nat) in Hj as (k & Hk & EJ). rewrite firstn_length in Hk. assert (Hk' : (k < mu)%nat) by lia.
  assert (EJ' : nth k idx 0%nat = j). { rewrite <- EJ. rewrite <- (firstn_skipn mu idx) at 1. apply app_nth1. rewrite firstn_length. lia. }
  pose proof (T3 i Hi) as Hi'. rewrite LW in Hi'.
  assert (II : In i idx). { eapply Permutation_in; [symmetry; exact HP|]. apply in_seq. lia. }
  apply (In_nth _ _ 0%nat) in II as (l & Hl & EL). assert (NL : (mu <= l)%nat).
  { destruct (le_lt_dec mu l); auto. exfalso. apply NI. assert (EF : nth l idx 0%nat = nth l (firstn mu idx) 0%nat). { rewrite <- (firstn_skipn mu idx) at 1. apply app_nth1. rewrite firstn_length. lia. }
    rewrite <- EL, EF. apply nth_In. rewrite firstn_length. lia. }
  assert (JB : (j < length ws)%nat).
  { assert (In j idx) by (rewrite <- EJ'; apply nth_In; lia). apply (Permutation_in _ HP) in H. apply in_seq in H. lia. }
  pose proof (T4 i j Hi JB NJ) as LE. rewrite <- EJ', <- EL in LE. unfold ws in LE. rewrite !assigned_at in LE by (auto; lia).
  pose proof (weights_head_pos P k H2 Hk'). pose proof (weights_tail_sign P l H2 N ltac:(fold mu; lia)). lra.
Qed.

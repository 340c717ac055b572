(* Properties of CMAES. *)
From Coq Require Import Reals Lra Permutation.
From Verif Require Import Prelude MatLib RankModel RankProofs CmaModel CmaSpec CmaProofs CmaProofs2 CmaProofs3 CmaProofs4.
Open Scope R_scope.

Lemma ok_inj {A} (a b : A) : Ok a = Ok b -> a = b.
Proof. intros E. injection E. auto. Qed.
Lemma init_fields d n o P : cma_init d n o = Ok P -> p_d P = d /\ p_popsize P = n /\ p_c_m P = o_c_m o /\ p_active P = o_active o /\ p_separable P = o_separable o /\
  p_min P = o_min o /\ p_max P = o_max o /\ p_freq P = decompose_freq (o_limit o) d (p_c_1 P) (p_c_mu P).
Proof. unfold cma_init. destruct (_ && _)%bool; [discriminate|]. intros E. apply ok_inj in E. subst P. cbn. repeat split. Qed.

(* ------------------------------------------------------------------------------- C56 *)
(* the parents: the better half of the population, with the logarithmic weights *)
Theorem C56_weights : forall d popsize o P, cma_init d popsize o = Ok P -> (2 <= popsize)%nat ->
  let w k := nth k (weights P) 0 in
  let log_weight k := ln ((INR popsize + 1) / 2) - ln (INR k + 1) in
  length (weights P) = popsize /\
  (forall k, (k < popsize / 2)%nat -> 0 < w k /\ w k = log_weight k / rsum (map log_weight (seq 0 (popsize / 2)))) /\
  rsum (map w (seq 0 (popsize / 2))) = 1 /\
  (forall k l, (k < l < popsize / 2)%nat -> w l < w k) /\
  (o_active o = false -> forall k, (popsize / 2 <= k < popsize)%nat -> w k = 0) /\
  (rates_ok P -> forall k l, (k <= l < popsize)%nat -> w l <= w k).
Proof.
  intros d n o P E H2. pose proof (init_fields _ _ _ _ E) as (_ & EP & _ & EA & _). cbn zeta.
  split; [rewrite weights_len; auto|]. split.
  { intros k Hk. split; [apply weights_head_pos; rewrite EP; auto|]. rewrite weights_head, EP, positive_weights_nth by (rewrite ?EP; auto). auto. }
  split.
  { rewrite <- (positive_weights_sum n H2). f_equal. apply nth_error_ext. intros k. rewrite nth_error_map. destruct (lt_dec k (mu_of n)) as [K|K].
    - rewrite (nth_error_nth' (seq 0 (n / 2)) 0%nat) by (rewrite seq_length; auto). rewrite seq_nth by auto. cbn [option_map Nat.add].
      rewrite (nth_error_nth' (positive_weights n) 0) by (rewrite positive_weights_len; auto). f_equal. rewrite weights_head, EP by (rewrite EP; auto). auto.
    - rewrite (proj2 (nth_error_None (seq 0 (n / 2)) k)) by (rewrite seq_length; unfold mu_of in K; lia). symmetry. apply nth_error_None. rewrite positive_weights_len. lia. }
  split; [intros; apply weights_head_antitone; rewrite EP; auto|]. split.
  { intros A k Hk. rewrite weights_tail, EA, A by (rewrite EP; auto). auto. }
  intros RO k l Hkl. apply weights_antitone; rewrite ?EP; auto. apply (neg_mass_bounds P RO).
Qed.
Print Assumptions C56_weights.
Theorem C56_symmetric : forall P cholesky topk center stdev hist,
  symmetric (p_d P) (s_C (cma_run P cholesky topk (init_state center stdev) hist)).
Proof.
  intros P ch tk c sd hist. assert (H : symmetric (p_d P) (s_C (init_state c sd))) by apply mid_symmetric.
  revert H. generalize (init_state c sd). induction hist as [|(zs, idx) hist IH]; intros s H; cbn [cma_run]; auto. apply IH, step_symmetric. auto.
Qed.
Print Assumptions C56_symmetric.

(* ------------------------------------------------------------------------------- C97 *)
(* no upper limit; or a positive one with a diagonal covariance that is decomposed in every generation *)
Definition limits_ok (P : params) : Prop :=
  p_max P = None \/ (p_separable P = true /\ p_freq P = 1%nat /\ forall h, p_max P = Some h -> 0 < h).
Theorem C97_positive_definite : forall d popsize o P cholesky topk center stdev hist,
  cma_init d popsize o = Ok P -> rates_ok P -> limits_ok P -> cholesky_ok d cholesky -> 0 < stdev -> Forall (generation_ok P) hist ->
  let s := cma_run P cholesky topk (init_state center stdev) hist in
  proper P s /\ positive_definite d (mmul d (s_A s) (mtr (s_A s))) /\
  ((length hist mod p_freq P = 0)%nat -> meq d (mmul d (s_A s) (mtr (s_A s))) (s_C s)).
Proof.
  intros d n o P ch tk c sd hist E RO LO CH HS HG. pose proof (init_fields _ _ _ _ E) as (ED & _ & _ & _ & _ & _ & _ & EF).
  assert (FK : (1 <= p_freq P)%nat /\ ((2 <= p_freq P)%nat -> 10 * INR (p_d P) * (p_c_1 P + p_c_mu P) * INR (p_freq P) <= 1)).
  { rewrite EF, ED. apply freq_ok. destruct RO as (_ & _ & A & B & _). lra. }
  rewrite <- ED in *. cbn zeta.
  pose proof (run_inv P ch tk RO CH FK LO hist _ (init_inv P FK LO c sd HS) HG) as I.
  assert (ST : forall h s, s_steps (cma_run P ch tk s h) = (s_steps s + length h)%nat).
  { clear. induction h as [|(zs, idx) h IH]; intros s; cbn [cma_run length]; [lia|]. rewrite IH. cbn [cma_step s_steps]. lia. }
  split; [|split].
  - split; [apply (i_sigma _ _ I)|]. split; [apply (i_sym _ _ I)|]. apply (inv_pd P tk RO FK LO). exact I.
  - apply (i_pd _ _ I).
  - intros M. apply (i_fresh _ _ I). rewrite ST. cbn [init_state s_steps Nat.add]. auto.
Qed.
Print Assumptions C97_positive_definite.

(* the default learning rates qualify unless the population is large *)
Theorem C97_default_rates : forall d popsize active separable limit P, cma_init d popsize (default_options active separable limit) = Ok P ->
  (1 <= d)%nat -> (2 <= popsize)%nat ->
  INR popsize <= (if separable : bool then 2 * (INR d + 4 * sqrt (INR d) + 1) else 2 * ((INR d + 2) ^ 2 - 2)) ->
  rates_ok P /\ limits_ok P.
Proof.
  intros d n act sep lim P E HD H2 HB. pose proof (init_fields _ _ _ _ E) as (ED & EP & _ & _ & _ & _ & EM & _). split; [|left; rewrite EM; auto].
  pose proof (mu_eff_ge_1 n H2) as M1. pose proof (mu_eff_le_mu n H2) as M2.
  assert (M3 : INR (mu_of n) <= INR n / 2).
  { assert (Z : (2 * mu_of n <= n)%nat) by (unfold mu_of; lia). apply le_INR in Z. rewrite mult_INR in Z. cbn [INR] in Z. lra. }
  unfold cma_init, default_options in E. cbn [o_c_m o_c_sigma o_c_sigma_ratio o_damp o_damp_ratio o_c_c o_c_c_ratio o_c_1 o_c_1_ratio o_c_mu o_c_mu_ratio o_active o_squared o_min o_max o_separable o_limit rate] in E.
  destruct (_ && _)%bool; [discriminate|]. apply ok_inj in E. subst P. unfold rates_ok. cbn [p_d p_popsize p_c_1 p_c_mu p_c_c]. rewrite !Rmult_1_l.
  pose proof (default_c_c_range sep d (mu_eff n) HD M1) as CC. split; [auto|]. split; [auto|].
  destruct sep; [pose proof (sep_rates d n (mu_eff n) HD M1 ltac:(lra)) as (A & B & C)|pose proof (full_rates d n (mu_eff n) HD H2 M1 ltac:(lra)) as (A & B & C)];
    cbn zeta in *; repeat split; try lra; apply CC.
Qed.
Print Assumptions C97_default_rates.
Theorem C97_default_popsize : forall d, (1 <= d)%nat -> (2 <= default_popsize d)%nat /\
  INR (default_popsize d) <= 2 * (INR d + 4 * sqrt (INR d) + 1) /\ INR (default_popsize d) <= 2 * ((INR d + 2) ^ 2 - 2).
Proof.
  intros d HD. unfold default_popsize. split; [lia|]. rewrite plus_INR. apply le_INR in HD. cbn [INR] in HD. replace (INR 4) with 4 by (cbn [INR]; lra).
  pose proof (ln_sqrt_bound (INR d) HD) as L. pose proof (sqrt_ge_1 _ HD) as S1. assert (S2 : sqrt (INR d) * sqrt (INR d) = INR d) by (apply sqrt_sqrt; lra).
  assert (L0 : 0 <= ln (INR d)). { rewrite <- ln_1. destruct (Req_dec 1 (INR d)) as [<-|]; [lra|]. left. apply ln_increasing; lra. }
  assert (B : INR (Z.to_nat (Int_part (3 * ln (INR d)))) <= 3 * ln (INR d)).
  { destruct (base_Int_part (3 * ln (INR d))) as [B1 B2]. assert (-1 < IZR (Int_part (3 * ln (INR d)))) by lra. apply lt_IZR in H.
    rewrite INR_IZR_INZ, Z2Nat.id by lia. auto. }
  split; nra.
Qed.
Print Assumptions C97_default_popsize.
(* so a search with default arguments keeps a proper distribution forever *)
Theorem C97_defaults : forall d active separable limit cholesky topk center stdev hist P,
  (1 <= d)%nat -> cma_init d (default_popsize d) (default_options active separable limit) = Ok P -> cholesky_ok d cholesky -> 0 < stdev ->
  Forall (generation_ok P) hist -> proper P (cma_run P cholesky topk (init_state center stdev) hist).
Proof.
  intros d act sep lim ch tk c sd hist P HD E CH HS HG. destruct (C97_default_popsize d HD) as (A & B & C).
  destruct (C97_default_rates _ _ _ _ _ _ E HD A) as [RO LO]; [destruct sep; auto|].
  exact (proj1 (C97_positive_definite _ _ _ _ _ tk c _ hist E RO LO CH HS HG)).
Qed.
Print Assumptions C97_defaults.

(* ------------------------------------------------------------------------------- C98 *)
Theorem C98_limits_hold : forall P sigma C i, 0 < sigma -> (i < p_d P)%nat ->
  (forall l h, p_min P = Some l -> p_max P = Some h -> l <= h) -> (forall h, p_max P = Some h -> 0 <= h) ->
  let stdev := sigma * sqrt (limit_C P sigma C i i) in
  (forall l, p_min P = Some l -> l <= stdev) /\ (forall h, p_max P = Some h -> stdev <= h) /\
  (p_min P = None -> p_max P = None -> stdev = sigma * sqrt (C i i)).
Proof.
  intros P s C i HS Hi HLH HH. cbn zeta.
  assert (D : limit_stdev P s C i i = (clamp (p_min P) (p_max P) (s * sqrt (C i i)) / s) ^ 2).
  { unfold limit_stdev. destruct (p_separable P); unfold diagonal; rewrite Nat.eqb_refl; auto. }
  set (x := s * sqrt (C i i)) in *. assert (X : 0 <= x) by (unfold x; pose proof (sqrt_pos (C i i)); apply Rmult_le_pos; lra).
  assert (CP : 0 <= clamp (p_min P) (p_max P) x).
  { unfold clamp. assert (0 <= match p_min P with Some l => Rmax x l | None => x end) by (destruct (p_min P); auto; pose proof (Rmax_l x r); lra).
    destruct (p_max P) as [h|] eqn:EM; auto. apply Rmin_glb; auto. }
  assert (Q : s * sqrt (limit_stdev P s C i i) = clamp (p_min P) (p_max P) x).
  { rewrite D, sqrt_pow2 by (apply Rmult_le_pos; [auto|left; apply Rinv_0_lt_compat; auto]). field. lra. }
  assert (Q' : (p_min P = None /\ p_max P = None) \/ s * sqrt (limit_C P s C i i) = clamp (p_min P) (p_max P) x).
  { unfold limit_C. destruct (p_min P), (p_max P); auto. }
  split; [|split].
  - intros l EL. destruct Q' as [[N _]|Q']; [congruence|]. rewrite Q', EL. unfold clamp. destruct (p_max P) as [h|] eqn:EM; [|apply Rmax_r].
    apply Rmin_glb; [apply Rmax_r|]. apply HLH; auto.
  - intros h EM. destruct Q' as [[_ N]|Q']; [congruence|]. rewrite Q', EM. unfold clamp. apply Rmin_r.
  - intros N1 N2. unfold limit_C. rewrite N1, N2. auto.
Qed.
Print Assumptions C98_limits_hold.
(* limits keep the matrix positive definite when there is no upper limit, or when it is diagonal *)
Theorem C98_limits_keep_positive_definite_partial : forall P sigma C, 0 < sigma -> positive_definite (p_d P) C ->
  p_max P = None \/ (p_separable P = true /\ forall h, p_max P = Some h -> 0 < h) ->
  (p_separable P = true -> diagonal_matrix (p_d P) C) -> positive_definite (p_d P) (limit_C P sigma C).
Proof.
  intros P s C HS PD [N|[Sp HM]] D.
  - intros x Nx. apply Rlt_le_trans with (quad (p_d P) C x); [apply PD; auto|]. apply quad_limit_ge; auto.
  - apply limit_separable_pd; auto.
Qed.
Print Assumptions C98_limits_keep_positive_definite_partial.
(* with a full covariance matrix, an upper limit cuts the diagonal only: for every limit there is a first generation
   that leaves a matrix which is not positive definite (and which cholesky then rejects) *)
Lemma displacement_equal P tk vs ws : (forall v, In v vs -> v 0%nat = v 1%nat) -> displacement P tk vs ws 0%nat = displacement P tk vs ws 1%nat.
Proof.
  intros H. unfold displacement, vsum. set (ks := tk _ _). clearbody ks. f_equal. unfold pick. induction ks as [|i ks IH]; cbn [map map2]; auto. f_equal; auto.
  unfold vscale. f_equal. destruct (lt_dec i (length vs)) as [L|L]; [apply H, nth_In; auto|]. rewrite (nth_overflow vs) by lia. auto.
Qed.
Lemma rw_sum P z ws : (p_active P = false -> forall w, In w ws -> 0 <= w) -> 0 < norm2 P z ->
  rsum (map2 (rw P) ws (repeat z (length ws))) >= rsum ws + rsum (map negpart ws) - rsum (map negpart ws) * (INR (p_d P) / norm2 P z).
Proof.
  intros HI NZ. induction ws as [|w ws IH]; cbn [length repeat map map2]; rewrite ?rsum_cons, ?rsum_nil; [lra|].
  pose proof (IH ltac:(intros; apply HI; auto; right; auto)) as IH'.
  assert (rw P w z >= w + negpart w - negpart w * (INR (p_d P) / norm2 P z)); [|lra]. unfold rw, negpart. pose proof (pos_INR (p_d P)).
  assert (0 <= INR (p_d P) / norm2 P z) by (apply Rmult_le_pos; [auto|left; apply Rinv_0_lt_compat; auto]).
  destruct (p_active P) eqn:Act; destruct (Rlt_dec 0 w); try lra.
  pose proof (HI eq_refl w (or_introl eq_refl)). assert (w = 0) by lra. subst w. lra.
Qed.
Lemma two_coords t n : (2 <= n)%nat -> sumn n (fun i => (if (i <? 2)%nat then t else 0) * (if (i <? 2)%nat then t else 0)) = 2 * (t * t).
Proof.
  destruct n as [|[|n]]; try lia. intros _. induction n as [|k IH]; [cbn [sumn Nat.ltb Nat.leb]; lra|].
  set (f := fun i : nat => _) in *. change (sumn (S (S (S k))) f) with (sumn (S (S k)) f + f (S (S k))). rewrite IH. unfold f. cbn [Nat.ltb Nat.leb]. lra.
Qed.
Lemma difference_coords n f : (2 <= n)%nat -> sumn n (fun i => (if Nat.eqb 0 i then 1 else if Nat.eqb 1 i then -1 else 0) * f i) = f 0%nat - f 1%nat.
Proof.
  destruct n as [|[|n]]; try lia. intros _. induction n as [|k IH]; [cbn [sumn Nat.eqb]; lra|].
  set (g := fun i : nat => _) in *. change (sumn (S (S (S k))) g) with (sumn (S (S k)) g + g (S (S k))). rewrite IH. unfold g. cbn [Nat.eqb]. lra.
Qed.
Lemma update_at P C pc zs ys ws h a b : p_separable P = false -> update_C P C pc zs ys ws h a b =
  C a b + (c1a P h * (weighted_pc P h * pc a * (weighted_pc P h * pc b) - C a b) +
           p_c_mu P * (rsum (map2 (fun w (y : vect) => w * (y a * y b)) (reweighted P ws zs) ys) - rsum (weights P) * C a b)).
Proof.
  intros Sp. unfold update_C. rewrite Sp. unfold madd, mscale, outer, msum, vscale. rewrite rsum_map2_map. cbn beta. ring.
Qed.
Theorem C98_upper_limit_refuted : forall d popsize o P cholesky topk center stdev limit,
  cma_init d popsize o = Ok P -> rates_ok P -> (2 <= d)%nat -> o_separable o = false -> o_max o = Some limit -> 0 <= limit -> 0 < stdev ->
  0 <= p_c_sigma P / p_damp P ->
  exists zs ranking, generation_ok P (zs, ranking) /\
    ~ positive_definite d (s_C (cma_step P cholesky topk (init_state center stdev) zs ranking)).
Proof.
  intros d n o P ch tk c sd M E RO HD Sp EM M0 HS CD. pose proof (init_fields _ _ _ _ E) as (ED & EP & _ & EA & ES & EN & EX & _).
  pose proof RO as (_ & H2 & H1 & HM & HR & HC). destruct (neg_mass_bounds P RO) as (N0 & _ & _ & _).
  set (lo := sd * exp (- (p_c_sigma P / p_damp P))). assert (LO : 0 < lo) by (apply Rmult_lt_0_compat; [auto|apply exp_pos]).
  set (D := INR d). assert (D2 : 2 <= D) by (unfold D; apply (le_INR 2) in HD; cbn [INR] in HD; lra).
  set (tt := neg_mass P * D + (M / lo) ^ 2 / p_c_mu P + 1). 
  assert (ML : 0 <= (M / lo) ^ 2 / p_c_mu P) by (apply Rmult_le_pos; [apply pow2_ge_0|left; apply Rinv_0_lt_compat; auto]).
  assert (ND : 0 <= neg_mass P * D) by (apply Rmult_le_pos; lra).
  assert (T1 : 1 <= tt) by (unfold tt; lra). set (t := sqrt tt). assert (TT : t * t = tt) by (apply sqrt_sqrt; lra). assert (T0 : 0 < t) by (apply sqrt_lt_R0; lra).
  set (z := (fun i => if (i <? 2)%nat then t else 0) : vect).
  assert (Z2 : norm2 P z = 2 * tt).
  { unfold norm2. rewrite ED. unfold z. rewrite two_coords by auto. lra. }
  exists (repeat z n), (seq 0 n).
  assert (GO : generation_ok P (repeat z n, seq 0 n)).
  { split; cbn [fst snd]; [rewrite repeat_length; auto|]. rewrite EP. split; [apply Permutation_refl|].
    apply Forall_forall. intros v Hv. apply repeat_spec in Hv. subst v. exists 0%nat. rewrite ED. split; [lia|]. unfold z. cbn. lra. }
  split; auto. intros PD.
  set (s := init_state c sd) in *. unfold cma_step in PD. cbn [s_C] in PD.
  set (ys := ys_of P s (repeat z n)) in PD. set (ws := assigned P (seq 0 n)) in PD.
  set (ps := new_p_sigma P (s_p_sigma s) (displacement P tk (repeat z n) ws)) in PD.
  set (sg := new_sigma P (s_sigma s) ps) in PD. set (h := h_sig P ps (s_steps s)) in PD. set (pc := new_p_c P _ _ h) in PD.
  set (U := update_C P (s_C s) pc (repeat z n) ys ws h) in PD.
  (* the step size *)
  assert (SG : lo <= sg).
  { unfold sg, new_sigma, lo. cbn [s init_state s_sigma]. apply Rmult_le_compat_l; [lra|].
    set (u := if p_squared P then _ else _). assert (U1 : -1 <= u).
    { unfold u. rewrite ED. fold D. destruct (p_squared P).
      - assert (0 <= norm2 P ps / D) by (apply Rmult_le_pos; [apply dot_self_nonneg|left; apply Rinv_0_lt_compat; lra]). lra.
      - assert (UE : 0 < unbiased_expectation P).
        { unfold unbiased_expectation. rewrite ED. fold D. apply Rmult_lt_0_compat; [apply sqrt_lt_R0; lra|].
          assert (1 / (4 * D) <= 1) by (apply Rdiv_le_of; lra). assert (0 < 1 / (21 * D ^ 2)); [|lra]. apply Rdiv_lt_0_compat; [lra|]. nra. }
        assert (0 <= sqrt (norm2 P ps) / unbiased_expectation P) by (apply Rmult_le_pos; [apply sqrt_pos|left; apply Rinv_0_lt_compat; auto]). lra. }
    assert (LE : - (p_c_sigma P / p_damp P) <= p_c_sigma P / p_damp P * u) by nra.
    destruct (Rle_lt_or_eq_dec _ _ LE) as [L|L]; [left; apply exp_increasing; auto|rewrite <- L; lra]. }
  assert (SG0 : 0 < sg) by lra.
  (* the diagonal *)
  assert (DG : forall i, (i < 2)%nat -> limit_C P sg U i i <= (M / lo) ^ 2).
  { intros i Hi. assert (LS : limit_C P sg U = limit_stdev P sg U). { unfold limit_C. rewrite EX, EM. destruct (p_min P); auto. }
    rewrite LS. unfold limit_stdev. rewrite ES, Sp, Nat.eqb_refl, EX, EM. set (x := sg * sqrt (U i i)).
    assert (0 <= x) by (unfold x; apply Rmult_le_pos; [lra|apply sqrt_pos]).
    assert (CL : 0 <= clamp (p_min P) (Some M) x <= M).
    { unfold clamp. split; [|apply Rmin_r]. apply Rmin_glb; auto. destruct (p_min P); auto. pose proof (Rmax_l x r). lra. }
    apply pow_incr. split; [apply Rmult_le_pos; [lra|left; apply Rinv_0_lt_compat; auto]|].
    apply Rle_trans with (M / sg).
    - apply Rmult_le_compat_r; [left; apply Rinv_0_lt_compat; auto|lra].
    - apply Rmult_le_compat_l; auto. apply Rinv_le_contravar; auto. }
  (* off the diagonal *)
  assert (YZ : ys = repeat (mv d mid z) n). { unfold ys, ys_of. rewrite ED. cbn [s init_state s_A]. clear. induction n; cbn; f_equal; auto. }
  assert (YV : forall i, (i < d)%nat -> mv d mid z i = z i) by (intros; apply mv_id; auto).
  assert (LW : length ws = n). { unfold ws. rewrite (Permutation_length (assigned_perm P (seq 0 n) (proj1 (proj2 GO)))), weights_len. auto. }
  assert (WI : p_active P = false -> forall w, In w ws -> 0 <= w).
  { intros A0 w Hw. apply (inactive_weights_nonneg P); auto. eapply Permutation_in; [apply assigned_perm; apply GO|exact Hw]. }
  assert (OFF : forall a b, (a < 2)%nat -> (b < 2)%nat -> a <> b -> (M / lo) ^ 2 <= limit_C P sg U a b).
  { intros a b Ha Hb Nab. assert (LU : limit_C P sg U a b = U a b).
    { unfold limit_C, limit_stdev. rewrite EX, EM, ES, Sp. destruct (p_min P); destruct (Nat.eqb_spec a b); auto; contradiction. }
    assert (MZ : mid a b = 0) by (unfold mid; destruct (Nat.eqb_spec a b); [contradiction|auto]).
    rewrite LU. unfold U. rewrite update_at by (rewrite ES; auto). cbn [s init_state s_C]. rewrite MZ.
    assert (PE : pc a = pc b).
    { assert (PE : pc 0%nat = pc 1%nat).
      { unfold pc, new_p_c, vplus, vscale. cbn [s init_state s_p_c]. f_equal. f_equal. apply displacement_equal.
        intros v Hv. rewrite YZ in Hv. apply repeat_spec in Hv. subst v. rewrite !YV by lia. auto. }
      destruct a as [|[|a]]; destruct b as [|[|b]]; try lia; auto. }
    assert (O : 0 <= c1a P h * (weighted_pc P h * pc a * (weighted_pc P h * pc b) - 0)).
    { rewrite Rminus_0_r. apply Rmult_le_pos; [apply (c1a_bounds P RO h (h_sig_01 P _ _))|]. rewrite PE. apply Rle_0_sqr. }
    set (S1 := rsum (map2 _ _ _)). assert (SV : (M / lo) ^ 2 <= p_c_mu P * S1).
    { assert (ES1 : S1 = rsum (map2 (rw P) ws (repeat z (length ws))) * tt).
      { unfold S1, ys, ys_of. cbn [s init_state s_A]. rewrite (map2_reweighted P (fun w y => w * (y a * y b)) (mv (p_d P) mid)) by (rewrite repeat_length; auto).
        rewrite LW. rewrite <- rsum_map2_mul. clear - YV TT ED HD Ha Hb.
        generalize (repeat z n) (repeat_spec n z). intros zs HZ. revert zs HZ. induction ws as [|w l IH]; intros [|v zs] HZ; cbn [map2]; auto. rewrite !rsum_cons. f_equal.
        - rewrite (HZ v (or_introl eq_refl)). rewrite ED, !YV by lia. replace (z a) with t by (unfold z; destruct (Nat.ltb_spec a 2); [auto|lia]).
          replace (z b) with t by (unfold z; destruct (Nat.ltb_spec b 2); [auto|lia]). rewrite TT. auto.
        - apply IH. intros; apply HZ; right; auto. }
      pose proof (rw_sum P z ws WI ltac:(lra)) as RS. rewrite Z2 in RS.
      assert (NPW : rsum (map negpart ws) = neg_mass P) by (exact (assigned_negpart P (seq 0 n) H2 N0 (proj1 (proj2 GO)))).
      assert (WSUM : rsum ws = 1 - neg_mass P) by (unfold ws; rewrite (rsum_perm _ _ (assigned_perm P (seq 0 n) (proj1 (proj2 GO)))); apply weights_sum; auto).
      rewrite NPW, WSUM, ED in RS. fold D in RS. rewrite ES1. set (W := rsum (map2 (rw P) _ _)) in *.
      assert (RT : W * tt >= (1 - neg_mass P + neg_mass P - neg_mass P * (D / (2 * tt))) * tt) by (apply Rle_ge, Rmult_le_compat_r; lra).
      replace ((1 - neg_mass P + neg_mass P - neg_mass P * (D / (2 * tt))) * tt) with (tt - neg_mass P * D / 2) in RT by (field; lra).
      assert (RU : (M / lo) ^ 2 / p_c_mu P <= W * tt) by (unfold tt in RT at 2; lra).
      replace ((M / lo) ^ 2) with (p_c_mu P * ((M / lo) ^ 2 / p_c_mu P)) by (field; lra). apply Rmult_le_compat_l; lra. }
    lra. }
  (* the direction (1, -1) *)
  set (x := (fun i => if Nat.eqb 0 i then 1 else if Nat.eqb 1 i then -1 else 0) : vect).
  set (C := limit_C P sg U) in *.
  assert (QX : quad d C x = C 0%nat 0%nat + C 1%nat 1%nat - C 0%nat 1%nat - C 1%nat 0%nat).
  { assert (SX : forall f, sumn d (fun i => x i * f i) = f 0%nat - f 1%nat).
    { intros f. apply difference_coords. auto. }
    unfold quad. rewrite (sumn_ext d _ (fun i => x i * sumn d (fun j => x j * C i j))) by (intros; rewrite <- sumn_mul_l; apply sumn_ext; intros; ring).
    rewrite SX, !SX. ring. }
  assert (NX : nonzero d x) by (exists 0%nat; split; [lia|unfold x; cbn [Nat.eqb]; lra]).
  pose proof (PD x NX) as PX. rewrite QX in PX.
  pose proof (DG 0%nat ltac:(lia)). pose proof (DG 1%nat ltac:(lia)). pose proof (OFF 0%nat 1%nat ltac:(lia) ltac:(lia) ltac:(lia)).
  pose proof (OFF 1%nat 0%nat ltac:(lia) ltac:(lia) ltac:(lia)). lra.
Qed.
Print Assumptions C98_upper_limit_refuted.

(* ------------------------------------------------------------------------------- C99 *)
(* Separable variant with default arguments and a large population: the learning rate c_mu exceeds 1 (and the `active` weights change
   sign), so that the variances become negative already after one generation whose samples are close to the center *)
Lemma sum_top_bound (f : nat -> R) k ks : (forall i, In i ks -> Rabs (f i) <= k) -> Rabs (rsum (map f ks)) <= INR (length ks) * k.
Proof.
  induction ks as [|i ks IH]; intros H; cbn [map length]; rewrite ?rsum_cons, ?rsum_nil; [rewrite Rabs_R0; cbn [INR]; lra|].
  rewrite S_INR. pose proof (H i (or_introl eq_refl)). assert (Rabs (rsum (map f ks)) <= INR (length ks) * k) by (apply IH; intros; apply H; right; auto).
  pose proof (Rabs_triang (f i) (rsum (map f ks))). lra.
Qed.
Lemma nonneg_weights P : (2 <= p_popsize P)%nat -> neg_mass P <= 0 -> forall w, In w (weights P) -> 0 <= w.
Proof.
  intros H2 N w Hw. unfold weights in Hw. apply in_app_or in Hw as [I|I].
  - unfold positive_weights in I. apply in_map_iff in I as (v & <- & Hv). apply raw_positive_all in Hv. pose proof (raw_positive_sum _ H2). left. apply Rdiv_lt_0_compat; auto.
  - unfold negative_weights, neg_mass in *. destruct (p_active P); [|apply in_map_iff in I as (v & <- & _); lra].
    apply in_map_iff in I as (v & <- & Hv). apply raw_negative_all in Hv. rewrite abs_negative_sum. pose proof (raw_negative_sum _ H2).
    apply Rmult_le_pos; [nra|]. left. apply Rinv_0_lt_compat. lra.
Qed.
Lemma in_le_rsum l w : (forall x, In x l -> 0 <= x) -> In w l -> w <= rsum l.
Proof.
  intros H I. apply in_split in I as (a & b & ->). rewrite rsum_app, rsum_cons.
  assert (0 <= rsum a) by (apply rsum_nonneg; intros; apply H, in_or_app; auto). assert (0 <= rsum b) by (apply rsum_nonneg; intros; apply H, in_or_app; cbn; auto). lra.
Qed.
Lemma displacement_at P tk vs ws i : displacement P tk vs ws i = rsum (map (fun k => nth k ws 0 * nth k vs vzero i) (tk (mu_of (p_popsize P)) ws)).
Proof.
  unfold displacement, vsum. set (ks := tk _ _). clearbody ks. unfold pick. induction ks as [|k ks IH]; cbn [map map2]; auto. rewrite !rsum_cons, IH. auto.
Qed.
Theorem C99_separable_large_population_refuted : forall d, (1 <= d)%nat -> exists bound, forall popsize active limit P cholesky topk center stdev,
  (bound <= popsize)%nat -> cma_init d popsize (default_options active true limit) = Ok P -> topk_ok topk ->
  exists eps, 0 < eps /\ forall zs ranking, generation_ok P (zs, ranking) -> (forall z i, In z zs -> (i < d)%nat -> Rabs (z i) <= eps) ->
    forall i, (i < d)%nat -> s_C (cma_step P cholesky topk (init_state center stdev) zs ranking) i i < 0.
Proof.
  intros d HD. set (B := 32 * (2 * INR d + 8 * sqrt (INR d) + 3.5)).
  assert (D1 : 1 <= INR d) by (apply (le_INR 1) in HD; exact HD). pose proof (sqrt_ge_1 _ D1) as SD.
  assert (B0 : 0 < B) by (unfold B; lra). exists (Z.to_nat (up (B * B)) + 4)%nat. intros n act lim P ch tk c sd HB E TK.
  assert (HN : B < sqrt (INR n)).
  { rewrite <- (sqrt_square B) by lra. apply sqrt_lt_1_alt. split; [apply Rle_0_sqr|]. destruct (archimed (B * B)) as [A _].
    apply Rlt_le_trans with (IZR (up (B * B))); [lra|]. assert (0 <= B * B) by apply Rle_0_sqr. assert (Z0 : 0 < IZR (up (B * B))) by lra. apply lt_IZR in Z0.
    rewrite <- (Z2Nat.id (up (B * B))) by lia. rewrite <- INR_IZR_INZ. apply le_INR. lia. }
  pose proof (init_fields _ _ _ _ E) as (ED & EP & _ & EA & ES & EN & EX & _). cbn [default_options o_active o_separable o_min o_max] in EA, ES, EN, EX.
  assert (H2 : (2 <= n)%nat) by lia. pose proof (mu_eff_ge_1 n H2) as M1.
  assert (RT : p_c_mu P = default_c_mu true d (mu_eff n) (p_c_1 P) /\ p_c_1 P = default_c_1 true d n (mu_eff n) /\ p_c_c P = default_c_c true d (mu_eff n)).
  { unfold cma_init, default_options in E. cbn [o_c_m o_c_sigma o_c_sigma_ratio o_damp o_damp_ratio o_c_c o_c_c_ratio o_c_1 o_c_1_ratio o_c_mu o_c_mu_ratio o_active o_squared o_min o_max o_separable o_limit rate] in E.
    destruct (_ && _)%bool; [discriminate|]. apply ok_inj in E. subst P. cbn [p_c_1 p_c_mu p_c_c]. rewrite !Rmult_1_l. auto. }
  destruct RT as (RM & R1 & RC).
  assert (CM : 1 < p_c_mu P) by (rewrite RM; apply sep_c_mu_large; auto; lia).
  assert (C1 : 0 < p_c_1 P).
  { rewrite R1. unfold default_c_1. apply Rdiv_lt_0_compat; [lra|]. assert (0 < mu_eff n / INR d) by (apply Rdiv_lt_0_compat; lra). lra. }
  assert (CC : 0 <= p_c_c P <= 2) by (rewrite RC; apply default_c_c_range; auto).
  assert (NM : neg_mass P <= 0).
  { unfold neg_mass. destruct (p_active P); [|lra]. unfold alpha. eapply Rle_trans; [apply Rmin_r|]. rewrite ED. apply Rdiv_le_of; [apply Rmult_lt_0_compat; lra|]. lra. }
  pose proof (nonneg_weights P ltac:(rewrite EP; auto) NM) as WN.
  set (W := rsum (weights P)). assert (W1 : 1 <= W) by (unfold W; rewrite weights_sum by (rewrite EP; auto); lra).
  set (dc := discount P (p_c_c P)). set (K := (dc * (INR (mu_of n) * W)) ^ 2 * p_c_1 P + p_c_mu P * W).
  assert (K0 : 0 < K). { unfold K. assert (0 <= (dc * (INR (mu_of n) * W)) ^ 2 * p_c_1 P) by (apply Rmult_le_pos; [apply pow2_ge_0|lra]). assert (0 < p_c_mu P * W) by (apply Rmult_lt_0_compat; lra). lra. }
  assert (GW : 1 < p_c_mu P * W) by nra.
  set (e2 := (p_c_mu P * W - 1) / (2 * K)). assert (E2 : 0 < e2) by (unfold e2; apply Rdiv_lt_0_compat; lra).
  exists (sqrt e2). split; [apply sqrt_lt_R0; auto|]. intros zs idx (LZ & HP & NZ) HZ i Hi. cbn [fst snd] in *.
  unfold cma_step. cbn [s_C]. set (s := init_state c sd). set (ws := assigned P idx). set (ps := new_p_sigma P _ _). set (h := h_sig P ps _). set (pc := new_p_c P _ _ h).
  unfold limit_C. rewrite EN, EX. unfold update_C. rewrite ES, diagonal_at. cbn [s init_state s_C]. replace (mid i i) with 1 by (unfold mid; rewrite Nat.eqb_refl; auto).
  pose proof (assigned_perm P idx HP) as AP. assert (WSN : forall w, In w ws -> 0 <= w) by (intros w Hw; apply WN; eapply Permutation_in; eauto).
  assert (WSS : rsum ws = W) by (unfold W; apply rsum_perm; auto).
  assert (LW : length ws = length zs) by (unfold ws; rewrite (Permutation_length AP), weights_len; auto).
  assert (Y : forall z j, (j < d)%nat -> mv d mid z j = z j) by (intros; apply mv_id; auto).
  (* rank-mu term *)
  assert (RMU : rsum (map2 (fun w (y : vect) => w * (y i ^ 2 - 1)) (reweighted P ws zs) (ys_of P s zs)) <= W * (e2 - 1)).
  { unfold ys_of. cbn [s init_state s_A]. rewrite (map2_reweighted P (fun w (y : vect) => w * (y i ^ 2 - 1)) (mv (p_d P) mid)) by auto. rewrite ED, <- WSS.
    clear - WSN LW HZ Y Hi E2 NZ. revert zs LW HZ NZ. induction ws as [|w l IH]; intros [|z zs] LW HZ NZ; cbn [length map2] in *; try discriminate; rewrite ?rsum_cons, ?rsum_nil; [lra|].
    inversion NZ as [|? ? N1 N2]; subst.
    pose proof (IH ltac:(intros; apply WSN; right; auto) zs ltac:(lia) ltac:(intros; apply HZ; [right|]; auto) N2) as IH'.
    assert (0 <= w) by (apply WSN; left; auto). assert (RW : rw P w z = w).
    { unfold rw. destruct (p_active P); auto. destruct (Rlt_dec 0 w); auto. assert (w = 0) by lra. subst w. unfold Rdiv. ring. }
    rewrite RW, Y by auto. pose proof (HZ z i (or_introl eq_refl) Hi) as ZB.
    assert (z i ^ 2 <= e2). { rewrite <- (sqrt_sqrt e2) by lra. rewrite <- pow2_abs. pose proof (Rabs_pos (z i)). nra. }
    nra. }
  (* evolution path *)
  assert (PC : pc i ^ 2 <= (dc * (INR (mu_of n) * W)) ^ 2 * e2).
  { assert (DB : Rabs (displacement P tk (ys_of P s zs) ws i) <= INR (mu_of n) * (W * sqrt e2)).
    { rewrite displacement_at. set (ks := tk (mu_of (p_popsize P)) ws).
      destruct (TK (mu_of (p_popsize P)) ws) as (T1 & _ & T3 & _); [rewrite LW, LZ; unfold mu_of; lia|]. fold ks in T1, T3.
      rewrite <- EP, <- T1. apply sum_top_bound. intros k Hk. rewrite Rabs_mult. pose proof (T3 k Hk) as Kb.
      apply Rmult_le_compat; try apply Rabs_pos.
      - assert (Ik : In (nth k ws 0) ws) by (apply nth_In; auto). rewrite Rabs_pos_eq by auto. rewrite <- WSS. apply in_le_rsum; auto.
      - unfold ys_of. rewrite (nth_indep _ vzero (mv (p_d P) (s_A s) vzero)) by (rewrite map_length; lia). rewrite map_nth. cbn [s init_state s_A]. rewrite ED, Y by auto.
        apply HZ; auto. apply nth_In. lia. }
    unfold pc, new_p_c, vplus, vscale. cbn [s init_state s_p_c]. rewrite Rmult_0_r, Rplus_0_l. fold dc. set (v := displacement _ _ _ _ _) in *.
    assert (V2 : v ^ 2 <= (INR (mu_of n) * W) ^ 2 * e2).
    { rewrite <- pow2_abs. replace ((INR (mu_of n) * W) ^ 2 * e2) with ((INR (mu_of n) * (W * sqrt e2)) ^ 2) by (rewrite <- (sqrt_sqrt e2) at 2 by lra; ring).
      apply pow_incr. split; [apply Rabs_pos|auto]. }
    assert (H01 : h ^ 2 <= 1) by (destruct (h_sig_01 P ps (s_steps s)) as [X|X]; unfold h; rewrite X; lra).
    replace ((h * dc * v) ^ 2) with (h ^ 2 * (dc ^ 2 * v ^ 2)) by ring. assert (0 <= dc ^ 2 * v ^ 2) by (apply Rmult_le_pos; apply pow2_ge_0).
    assert (dc ^ 2 * v ^ 2 <= dc ^ 2 * ((INR (mu_of n) * W) ^ 2 * e2)) by (apply Rmult_le_compat_l; [apply pow2_ge_0|auto]). nra. }
  assert (CA : 0 <= c1a P h <= p_c_1 P).
  { unfold c1a. assert (0 <= p_c_c P * (2 - p_c_c P)) by (apply Rmult_le_pos; lra).
    assert (p_c_c P * (2 - p_c_c P) <= 1) by (pose proof (Rle_0_sqr (1 - p_c_c P)) as SQ; unfold Rsqr in SQ; lra).
    destruct (h_sig_01 P ps (s_steps s)) as [X|X]; fold h in X; rewrite X.
    - replace (1 - (1 - 0 ^ 2) * p_c_c P * (2 - p_c_c P)) with (1 - p_c_c P * (2 - p_c_c P)) by ring. nra.
    - replace (1 - (1 - 1 ^ 2) * p_c_c P * (2 - p_c_c P)) with 1 by ring. lra. }
  set (S1 := rsum (map2 _ _ _)) in *.
  assert (X1 : c1a P h * (pc i ^ 2 - 1) <= p_c_1 P * ((dc * (INR (mu_of n) * W)) ^ 2 * e2)).
  { pose proof (pow2_ge_0 (pc i)). assert (c1a P h * pc i ^ 2 <= p_c_1 P * pc i ^ 2) by (apply Rmult_le_compat_r; lra).
    assert (p_c_1 P * pc i ^ 2 <= p_c_1 P * ((dc * (INR (mu_of n) * W)) ^ 2 * e2)) by (apply Rmult_le_compat_l; lra). lra. }
  assert (X2 : p_c_mu P * S1 <= p_c_mu P * (W * (e2 - 1))) by (apply Rmult_le_compat_l; lra).
  assert (X3 : K * e2 = (p_c_mu P * W - 1) / 2) by (unfold e2; field; lra).
  unfold K in X3. lra.
Qed.
Print Assumptions C99_separable_large_population_refuted.

(* ------------------------------------------------------------------------------- C100 *)
Theorem C100_explicit_rate_refuted : forall d popsize o c, o_c_1 o = Some c \/ o_c_mu o = Some c -> o_limit o = true ->
  cma_init d popsize o = Err AttributeError.
Proof.
  intros d n o c H L. unfold cma_init. rewrite L. unfold c_1_plain, c_mu_plain. destruct H as [-> | ->]; [auto|]. rewrite orb_true_r. auto.
Qed.
Print Assumptions C100_explicit_rate_refuted.
Theorem C100_rates_used_partial : forall d popsize o, o_limit o = false \/ (o_c_1 o = None /\ o_c_mu o = None) ->
  exists P, cma_init d popsize o = Ok P /\
    (forall c, o_c_1 o = Some c -> p_c_1 P = o_c_1_ratio o * c) /\ (forall c, o_c_mu o = Some c -> p_c_mu P = o_c_mu_ratio o * c) /\
    (forall c, o_c_c o = Some c -> p_c_c P = o_c_c_ratio o * c) /\ (forall c, o_c_sigma o = Some c -> p_c_sigma P = o_c_sigma_ratio o * c) /\
    (forall c, o_damp o = Some c -> p_damp P = o_damp_ratio o * c) /\ p_c_m P = o_c_m o /\ p_active P = o_active o /\ p_squared P = o_squared o /\
    p_separable P = o_separable o /\ p_min P = o_min o /\ p_max P = o_max o /\ (o_limit o = false -> p_freq P = 1%nat).
Proof.
  intros d n o H. unfold cma_init.
  assert (F : (o_limit o && (c_1_plain o || c_mu_plain o d n (rate (o_c_1 o) (o_c_1_ratio o) (default_c_1 (o_separable o) d n (mu_eff n)))))%bool = false).
  { destruct H as [-> | [H1 H2]]; [auto|]. assert (CP : c_1_plain o = false) by (unfold c_1_plain; rewrite H1; auto). unfold c_mu_plain. rewrite CP, H2. destruct (o_separable o); cbn [andb orb]; apply andb_false_r. }
  rewrite F. eexists. split; [reflexivity|]. cbn [p_c_1 p_c_mu p_c_c p_c_sigma p_damp p_c_m p_active p_squared p_separable p_min p_max p_freq].
  repeat split; try (intros c ->; reflexivity). intros ->. auto.
Qed.
Print Assumptions C100_rates_used_partial.

(* ------------------------------------------------------------------------------- C101 *)
(* the new center: the weighted mean of the better half of the samples, mixed with the old center for c_m <> 1 *)
Lemma firstn_map_nth {A} (f : nat -> A) l n : (n <= length l)%nat -> map f (firstn n l) = map (fun k => f (nth k l 0%nat)) (seq 0 n).
Proof.
  intros H. apply nth_error_ext. intros k. rewrite !nth_error_map. destruct (lt_dec k n) as [K|K].
  - rewrite (nth_error_nth' (firstn n l) 0%nat) by (rewrite firstn_length; lia). rewrite (nth_error_nth' (seq 0 n) 0%nat) by (rewrite seq_length; lia).
    rewrite seq_nth by lia. cbn [option_map]. f_equal. f_equal. rewrite <- (firstn_skipn n l) at 2. rewrite app_nth1 by (rewrite firstn_length; lia). auto.
  - rewrite (proj2 (nth_error_None (firstn n l) k)) by (rewrite firstn_length; lia). rewrite (proj2 (nth_error_None (seq 0 n) k)) by (rewrite seq_length; lia). auto.
Qed.
Theorem C101_center : forall d popsize o P cholesky topk s zs ranking, cma_init d popsize o = Ok P -> rates_ok P -> topk_ok topk -> generation_ok P (zs, ranking) ->
  let xs := xs_of P s zs in
  forall j, s_m (cma_step P cholesky topk s zs ranking) j =
    (1 - o_c_m o) * s_m s j + o_c_m o * rsum (map (fun k => nth k (weights P) 0 * kth_best xs ranking k j) (seq 0 (popsize / 2))).
Proof.
  intros d n o P ch tk s zs idx E RO TK (LZ & HP & NZ) xs j. cbn [fst snd] in *. pose proof (init_fields _ _ _ _ E) as (ED & EP & EC & _).
  pose proof RO as (_ & H2 & _). destruct (neg_mass_bounds P RO) as (N0 & _). set (mu := (n / 2)%nat).
  assert (EMU : mu_of (p_popsize P) = mu) by (rewrite EP; auto).
  assert (L : length idx = p_popsize P) by (apply Permutation_length in HP; rewrite seq_length in HP; auto).
  unfold cma_step. cbn [s_m]. unfold vplus, vscale. rewrite EC. set (ws := assigned P idx). set (ys := ys_of P s zs).
  assert (MU : (mu < p_popsize P)%nat) by (pose proof (mu_of_range _ H2); lia).
  assert (DD : displacement P tk ys ws j = rsum (map (fun k => nth k (weights P) 0 * kth_best ys idx k j) (seq 0 mu))).
  { rewrite displacement_at. set (ks := tk _ _).
    pose proof (topk_is_best P tk idx TK H2 N0 HP) as TB. fold ws ks in TB. rewrite EMU in TB.
    rewrite (rsum_perm _ _ (Permutation_map _ TB)). rewrite firstn_map_nth by lia. apply rsum_ext. intros k Hk. apply in_seq in Hk.
    unfold ws. rewrite assigned_at by (auto; lia). auto. }
  rewrite DD. assert (SW : rsum (map (fun k => nth k (weights P) 0) (seq 0 mu)) = 1).
  { destruct (C56_weights _ _ _ _ E ltac:(lia)) as (_ & _ & S1 & _). exact S1. }
  assert (XY : rsum (map (fun k => nth k (weights P) 0 * kth_best xs idx k j) (seq 0 mu)) =
               s_m s j + s_sigma s * rsum (map (fun k => nth k (weights P) 0 * kth_best ys idx k j) (seq 0 mu))).
  { rewrite (rsum_ext _ (fun k => s_m s j * nth k (weights P) 0 + s_sigma s * (nth k (weights P) 0 * kth_best ys idx k j))).
    - rewrite rsum_plus, !rsum_scale, SW. ring.
    - intros k Hk. apply in_seq in Hk. unfold kth_best, xs, xs_of. fold ys.
      assert (IB : (nth k idx 0%nat < length ys)%nat).
      { unfold ys, ys_of. rewrite map_length, LZ. assert (I : In (nth k idx 0%nat) idx) by (apply nth_In; lia). apply (Permutation_in _ HP) in I. apply in_seq in I. lia. }
      rewrite (nth_indep _ (fun _ => 0) (vplus (s_m s) (vscale (s_sigma s) (fun _ => 0)))) by (rewrite map_length; auto).
      rewrite (map_nth (fun y => vplus (s_m s) (vscale (s_sigma s) y))). unfold vplus, vscale. ring. }
  rewrite XY. ring.
Qed.
Print Assumptions C101_center.
(* a sample that is ranked better never has a smaller weight *)
Theorem C101_better_ranked_weighs_more : forall d popsize o P ranking k l, cma_init d popsize o = Ok P -> rates_ok P -> Permutation ranking (seq 0 popsize) ->
  (k <= l < popsize)%nat -> nth (nth l ranking 0%nat) (assigned P ranking) 0 <= nth (nth k ranking 0%nat) (assigned P ranking) 0.
Proof.
  intros d n o P r k l E RO HP H. pose proof (init_fields _ _ _ _ E) as (ED & EP & _). rewrite <- EP in HP, H. rewrite !assigned_at by (auto; lia).
  destruct (C56_weights _ _ _ _ E) as (_ & _ & _ & _ & _ & M); [pose proof RO as (_ & H2 & _); lia|]. apply M; auto. lia.
Qed.
Print Assumptions C101_better_ranked_weighs_more.
Theorem C101_step_size_positive : forall P cholesky topk center stdev hist, 0 < stdev -> 0 < s_sigma (cma_run P cholesky topk (init_state center stdev) hist).
Proof.
  intros P ch tk c sd hist H. assert (K : 0 < s_sigma (init_state c sd)) by auto. revert K. generalize (init_state c sd).
  induction hist as [|(zs, idx) hist IH]; intros s K; cbn [cma_run]; auto. apply IH. cbn [cma_step s_sigma]. apply new_sigma_pos. auto.
Qed.
Print Assumptions C101_step_size_positive.

(* ------------------------------------------------------------------------------- examples *)
Definition chol2 (C : mat) : mat := fun i j =>
  match i, j with
  | 0%nat, 0%nat => sqrt (C 0%nat 0%nat)
  | 1%nat, 0%nat => C 1%nat 0%nat / sqrt (C 0%nat 0%nat)
  | 1%nat, 1%nat => sqrt (C 1%nat 1%nat - C 1%nat 0%nat * C 1%nat 0%nat / C 0%nat 0%nat)
  | _, _ => 0
  end.
Example chol2_ok : cholesky_ok 2 chol2.
Proof.
  intros C Sy PD. pose proof (pd_diag_pos 2 C 0 PD ltac:(lia)) as A. pose proof (Sy 0%nat 1%nat ltac:(lia) ltac:(lia)) as S1. unfold mtr in S1.
  assert (D : 0 < C 1%nat 1%nat - C 1%nat 0%nat * C 1%nat 0%nat / C 0%nat 0%nat).
  { set (x := (fun i => match i with O => - C 1%nat 0%nat / C 0%nat 0%nat | _ => 1 end) : vect).
    assert (N : nonzero 2 x) by (exists 1%nat; split; [lia|unfold x; lra]). pose proof (PD x N) as Q. unfold quad in Q. cbn [sumn] in Q. unfold x in Q.
    rewrite S1 in Q. eapply Rlt_le_trans; [exact Q|]. right. field. lra. }
  assert (Q : sqrt (C 0%nat 0%nat) * sqrt (C 0%nat 0%nat) = C 0%nat 0%nat) by (apply sqrt_sqrt; lra).
  assert (Q0 : 0 < sqrt (C 0%nat 0%nat)) by (apply sqrt_lt_R0; auto).
  intros i j Hi Hj. unfold mmul, mtr. cbn [sumn]. destruct i as [|[|i]]; destruct j as [|[|j]]; try lia; cbn [chol2].
  - lra.
  - rewrite S1. field. lra.
  - field. lra.
  - rewrite sqrt_sqrt by lra. rewrite <- Q at 3. field. lra.
Qed.
Definition ex_zs : list vect := map (fun k => (fun i => match i with O => INR k + 1 | _ => 1 end) : vect) (seq 0 6).
Example C97_example : exists P, cma_init 2 6 (default_options true false true) = Ok P /\ rates_ok P /\ limits_ok P /\ cholesky_ok 2 chol2 /\
  Forall (generation_ok P) [(ex_zs, [5; 4; 3; 2; 1; 0]%nat); (ex_zs, [0; 2; 4; 1; 3; 5]%nat)].
Proof.
  destruct (C100_rates_used_partial 2 6 (default_options true false true)) as (P & E & _); [right; auto|]. exists P. split; auto.
  destruct (C97_default_rates _ _ _ _ _ _ E) as [RO LO]; [lia|lia|cbn [INR]; lra|]. pose proof (init_fields _ _ _ _ E) as (ED & EP & _).
  assert (G : forall r, Permutation r (seq 0 6) -> generation_ok P (ex_zs, r)).
  { intros r HP. split; cbn [fst snd]; [rewrite EP; auto|]. rewrite EP. split; auto. rewrite ED. apply Forall_forall. intros v Hv. unfold ex_zs in Hv. apply in_map_iff in Hv as (k & <- & _).
    exists 1%nat. split; [lia|lra]. }
  repeat (split; auto). - apply chol2_ok.
  - constructor; [|constructor; [|constructor]]; apply G; (apply NoDup_Permutation_bis;
      [repeat constructor; cbn; intuition lia|cbn; lia|intros x Hx; cbn in Hx |- *; intuition lia]).
Qed.
(* popsize 6: three parents; popsize 2000 with one dimension is above the limit of C97 and below that of C99 *)
Example C56_example : exists P, cma_init 2 6 (default_options true false true) = Ok P /\ (2 <= 6)%nat /\ length (weights P) = 6%nat.
Proof.
  destruct (C100_rates_used_partial 2 6 (default_options true false true)) as (P & E & _); [right; auto|]. exists P. split; auto. split; [lia|].
  apply (C56_weights _ _ _ _ E). lia.
Qed.
(* an upper limit of 1/2 with six samples in two dimensions *)
Definition ex_limit_options : options := mkOpt 1 None 1 (Some 1) 1 None 1 None 1 None 1 true false None (Some (/ 2)) false true.
Example C98_example : exists P, cma_init 2 6 ex_limit_options = Ok P /\ rates_ok P /\ 0 <= p_c_sigma P / p_damp P.
Proof.
  destruct (C97_example) as (P0 & E0 & RO & _).
  unfold cma_init, ex_limit_options, default_options in *. cbn [o_c_m o_c_sigma o_c_sigma_ratio o_damp o_damp_ratio o_c_c o_c_c_ratio o_c_1 o_c_1_ratio o_c_mu o_c_mu_ratio o_active o_squared o_min o_max o_separable o_limit rate c_1_plain c_mu_plain andb orb] in *.
  eexists. split; [reflexivity|]. apply ok_inj in E0. subst P0. unfold rates_ok in *. cbn [p_d p_popsize p_c_1 p_c_mu p_c_c p_c_sigma p_damp] in *. split; auto.
  pose proof (mu_eff_ge_1 6 ltac:(lia)) as M1.
  assert (S1 : 0 < default_c_sigma 2 (mu_eff 6)) by (unfold default_c_sigma; apply Rdiv_lt_0_compat; cbn [INR]; lra).
  left. apply Rdiv_lt_0_compat; unfold rate; rewrite Rmult_1_l; [exact S1|lra].
Qed.

(* C203, C204: the evolution paths and the step size of CMAES. *)
From Coq Require Import Reals Lra Permutation.
From Verif Require Import Prelude SortLib MatLib RankModel RankProofs CmaModel CmaSpec CmaProofs CmaProofs2 CmaProofs3 CmaProofs4 CmaProps.
Open Scope R_scope.

(* ------------------------------------------------------------------------------- the specification *)
(* double sums over the generations and over the parents *)
Definition total (n mu : nat) (f : nat -> nat -> R) : R := rsum (map (fun g => rsum (map (f g) (seq 0 mu))) (seq 0 n)).
(* the k-th best draw of generation g *)
Definition selected (hist : list (list vect * list nat)) (g k : nat) : vect :=
  let zr := nth g hist ([], []) in kth_best (fst zr) (snd zr) k.
(* the euclidean length *)
Definition size2 (d : nat) (x : vect) : R := sumn d (fun i => x i * x i).

(* ------------------------------------------------------------------------------- proofs *)
Lemma displacement_selected P topk vs ranking j : rates_ok P -> topk_ok topk -> Permutation ranking (seq 0 (p_popsize P)) ->
  displacement P topk vs (assigned P ranking) j = rsum (map (fun k => nth k (weights P) 0 * kth_best vs ranking k j) (seq 0 (p_popsize P / 2))).
Proof.
  intros RO TK HP. pose proof RO as (_ & H2 & _). destruct (neg_mass_bounds P RO) as (N0 & _).
  assert (L : length ranking = p_popsize P) by (apply Permutation_length in HP; rewrite seq_length in HP; auto).
  pose proof (mu_of_range _ H2) as MU. rewrite displacement_at.
  rewrite (rsum_perm _ _ (Permutation_map _ (topk_is_best P topk ranking TK H2 N0 HP))).
  rewrite firstn_map_nth by lia. apply rsum_ext. intros k Hk. apply in_seq in Hk. rewrite assigned_at by (auto; unfold mu_of in *; lia). reflexivity.
Qed.

Lemma run_snoc P ch tk hist : forall s g, cma_run P ch tk s (hist ++ [g]) = cma_step P ch tk (cma_run P ch tk s hist) (fst g) (snd g).
Proof. induction hist as [|(zs, r) hist IH]; intros s [zs' r']; cbn [app cma_run]; auto. Qed.

Lemma mu_eff_weights P : (2 <= p_popsize P)%nat ->
  mu_eff (p_popsize P) * rsum (map (fun k => (nth k (weights P) 0) ^ 2) (seq 0 (p_popsize P / 2))) = 1.
Proof.
  intro H2. set (n := p_popsize P). fold n in H2. pose proof (raw_positive_sum n H2) as S1. pose proof (raw_square_sum n H2) as S2.
  unfold mu_eff, selection_mass.
  assert (E : rsum (map (fun k => (nth k (weights P) 0) ^ 2) (seq 0 (n / 2))) = rsum (map (fun w => w ^ 2) (raw_positive n)) / rsum (raw_positive n) ^ 2).
  { unfold raw_positive at 1. rewrite map_map. unfold Rdiv. rewrite Rmult_comm, <- rsum_scale. apply rsum_ext. intros k Hk. apply in_seq in Hk.
    destruct Hk as [_ Hk]. change (k < mu_of n)%nat in Hk. rewrite weights_head by exact Hk. fold n. rewrite positive_weights_nth by exact Hk. field. lra. }
  rewrite E. field. split; lra.
Qed.

Definition coef (P : params) (n g k : nat) : R :=
  (1 - p_c_sigma P) ^ (n - 1 - g) * (sqrt (p_c_sigma P * (2 - p_c_sigma P) * mu_eff (p_popsize P)) * nth k (weights P) 0).

Lemma total_snoc n mu f : total (S n) mu f = total n mu f + rsum (map (f n) (seq 0 mu)).
Proof. unfold total. rewrite seq_S, map_app, rsum_app. cbn [map Nat.add]. rewrite rsum_cons, rsum_nil. ring. Qed.
Lemma total_scale n mu f a : total n mu (fun g k => a * f g k) = a * total n mu f.
Proof. unfold total. rewrite <- rsum_scale. apply rsum_ext. intros g _. rewrite <- rsum_scale. reflexivity. Qed.
Lemma total_ext n mu f h : (forall g k, (g < n)%nat -> (k < mu)%nat -> f g k = h g k) -> total n mu f = total n mu h.
Proof. intros E. unfold total. apply rsum_ext. intros g Hg. apply in_seq in Hg. apply rsum_ext. intros k Hk. apply in_seq in Hk. apply E; lia. Qed.

Lemma coef_next P n g k : (g < n)%nat -> coef P (S n) g k = (1 - p_c_sigma P) * coef P n g k.
Proof. intros H. unfold coef. replace (S n - 1 - g)%nat with (S (n - 1 - g)) by lia. cbn [pow]. ring. Qed.
Lemma coef_last P n k : coef P (S n) n k = discount P (p_c_sigma P) * nth k (weights P) 0.
Proof. unfold coef, discount. replace (S n - 1 - n)%nat with 0%nat by lia. cbn [pow]. ring. Qed.

Lemma discount_squared P c : (2 <= p_popsize P)%nat -> 0 <= c <= 2 -> discount P c ^ 2 = c * (2 - c) * mu_eff (p_popsize P).
Proof. intros H2 HC. unfold discount. rewrite <- Rsqr_pow2. apply Rsqr_sqrt. pose proof (mu_eff_ge_1 _ H2). apply Rmult_le_pos; nra. Qed.

Lemma coef_squares P n : (2 <= p_popsize P)%nat -> 0 <= p_c_sigma P <= 2 ->
  total n (p_popsize P / 2) (fun g k => coef P n g k ^ 2) = 1 - (1 - p_c_sigma P) ^ (2 * n).
Proof.
  intros H2 HC. induction n as [|n IH]; [cbn; unfold total; cbn; ring|]. rewrite total_snoc.
  rewrite (total_ext _ _ _ (fun g k => (1 - p_c_sigma P) ^ 2 * coef P n g k ^ 2)) by (intros; rewrite coef_next by auto; ring).
  rewrite total_scale, IH.
  rewrite (rsum_ext _ (fun k => discount P (p_c_sigma P) ^ 2 * nth k (weights P) 0 ^ 2)) by (intros; rewrite coef_last; ring).
  rewrite rsum_scale, discount_squared by auto. pose proof (mu_eff_weights P H2) as M.
  replace (2 * S n)%nat with (S (S (2 * n))) by lia. cbn [pow].
  set (W := rsum _) in *. set (m := mu_eff _) in *. replace (p_c_sigma P * (2 - p_c_sigma P) * m * W) with (p_c_sigma P * (2 - p_c_sigma P) * (m * W)) by ring.
  rewrite M. ring.
Qed.

Lemma path_sum P ch tk s0 j : rates_ok P -> topk_ok tk -> s_p_sigma s0 j = 0 -> forall hist, Forall (generation_ok P) hist ->
  s_p_sigma (cma_run P ch tk s0 hist) j = total (length hist) (p_popsize P / 2) (fun g k => coef P (length hist) g k * selected hist g k j).
Proof.
  intros RO TK Z hist. induction hist as [|gen hist IH] using rev_ind; intros G; [exact Z|].
  apply Forall_app in G. destruct G as [G1 G2]. inversion G2 as [|? ? (LZ & HP & NZ) _]; subst. rewrite run_snoc. unfold cma_step. cbn [s_p_sigma].
  unfold new_p_sigma, vplus, vscale. rewrite IH by auto. rewrite displacement_selected by auto. rewrite app_length. cbn [length].
  replace (length hist + 1)%nat with (S (length hist)) by lia. rewrite total_snoc. f_equal.
  - rewrite <- total_scale. apply total_ext. intros g k Hg Hk. rewrite coef_next by auto. unfold selected. rewrite app_nth1 by auto. ring.
  - rewrite <- rsum_scale. apply rsum_ext. intros k Hk. rewrite coef_last. unfold selected. rewrite nth_middle. ring.
Qed.

(* ------------------------------------------------------------------------------- C203 *)
(* After n generations the path is a fixed combination of the draws of the parents.  Under draws with unit variance its components have
   the variance 1 - (1 - c_sigma)^(2n), whatever the population size and the dimension: the squares of the coefficients add up to it. *)
Theorem C203_path : forall d popsize o P n, cma_init d popsize o = Ok P -> rates_ok P -> 0 < p_c_sigma P < 1 ->
  exists a : nat -> nat -> R,
    total n (popsize / 2) (fun g k => a g k ^ 2) = 1 - (1 - p_c_sigma P) ^ (2 * n) /\
    (forall g k, (g < n)%nat -> (k < popsize / 2)%nat -> 0 < a g k) /\
    (* later generations and better solutions count more *)
    (forall g h k, (g < h < n)%nat -> (k < popsize / 2)%nat -> a g k < a h k) /\
    (forall g k l, (g < n)%nat -> (k < l < popsize / 2)%nat -> a g l < a g k) /\
    forall cholesky topk center stdev hist, topk_ok topk -> length hist = n -> Forall (generation_ok P) hist -> forall j,
      s_p_sigma (cma_run P cholesky topk (init_state center stdev) hist) j = total n (popsize / 2) (fun g k => a g k * selected hist g k j).
Proof.
  intros d n0 o P n E RO HC. pose proof (init_fields _ _ _ _ E) as (ED & EP & _). subst n0. pose proof RO as (_ & H2 & _). exists (coef P n).
  pose proof (mu_eff_ge_1 _ H2) as M. set (c := p_c_sigma P) in *.
  assert (D : 0 < sqrt (c * (2 - c) * mu_eff (p_popsize P))) by (apply sqrt_lt_R0; apply Rmult_lt_0_compat; nra).
  split; [apply coef_squares; auto; unfold c in *; lra|].
  assert (PW : forall m, 0 < (1 - c) ^ m) by (intro; apply pow_lt; lra).
  assert (W : forall k, (k < p_popsize P / 2)%nat -> 0 < nth k (weights P) 0) by (intros; apply weights_head_pos; auto).
  split; [|split; [|split]].
  - intros g k _ Hk. unfold coef. fold c. apply Rmult_lt_0_compat; [apply PW|]. apply Rmult_lt_0_compat; auto.
  - intros g h k H Hk. unfold coef. fold c. apply Rmult_lt_compat_r; [apply Rmult_lt_0_compat; auto|].
    replace (n - 1 - g)%nat with ((n - 1 - h) + S (h - g - 1))%nat by lia. rewrite pow_add. rewrite <- (Rmult_1_r ((1 - c) ^ (n - 1 - h))) at 2.
    apply Rmult_lt_compat_l; [apply PW|]. apply pow_lt_1_compat; [lra|lia].
  - intros g k l Hg H. unfold coef. fold c. apply Rmult_lt_compat_l; [apply PW|]. apply Rmult_lt_compat_l; auto. apply weights_head_antitone; auto.
  - intros ch tk ce sd hist TK L G j. subst n. apply path_sum; auto.
Qed.

Lemma expectation_bounds d : (1 <= d)%nat -> let E := sqrt (INR d) * (1 - 1 / (4 * INR d) + 1 / (21 * INR d ^ 2)) in
  0 < E /\ INR d - 1 / 2 + 1 / (8 * INR d) <= E ^ 2 <= INR d - 1 / 2 + 1 / (6 * INR d).
Proof.
  intros HD E. apply (le_INR 1) in HD. cbn [INR] in HD. set (x := INR d) in *. assert (X : 0 < x) by lra.
  assert (I : 0 < / x <= 1). { split; [apply Rinv_0_lt_compat; lra|]. rewrite <- Rinv_1. apply Rinv_le_contravar; lra. }
  set (y := / x) in *. assert (XY : x * y = 1) by (unfold y; field; lra).
  assert (Q : 1 - 1 / (4 * x) + 1 / (21 * x ^ 2) = 1 - y / 4 + y ^ 2 / 21) by (unfold y; field; lra).
  assert (E2 : E ^ 2 = x - 1 / 2 + (1 / 16 + 2 / 21) * y - 2 / 84 * y ^ 2 + 1 / 441 * y ^ 3).
  { unfold E. rewrite Q. replace ((sqrt x * (1 - y / 4 + y ^ 2 / 21)) ^ 2) with (sqrt x * sqrt x * (1 - y / 4 + y ^ 2 / 21) ^ 2) by ring.
    rewrite sqrt_sqrt by lra. replace (x * (1 - y / 4 + y ^ 2 / 21) ^ 2) with
      (x - (x * y) * (1 / 2) + (x * y) * y * (1 / 16 + 2 / 21) - (x * y) * y ^ 2 * (2 / 84) + (x * y) * y ^ 3 * (1 / 441)) by field. rewrite XY. ring. }
  split.
  - unfold E. rewrite Q. apply Rmult_lt_0_compat; [apply sqrt_lt_R0; lra|nra].
  - rewrite E2. replace (1 / (8 * x)) with (y / 8) by (unfold y; field; lra). replace (1 / (6 * x)) with (y / 6) by (unfold y; field; lra).
    assert (0 <= y ^ 2 <= y) by nra. assert (0 <= y ^ 3 <= y) by nra. lra.
Qed.

Lemma exp_factor sigma u : 0 < sigma -> (sigma < sigma * exp u <-> 0 < u) /\ (sigma * exp u < sigma <-> u < 0).
Proof.
  intros S. split; split; intro H.
  - destruct (Rlt_dec 0 u) as [|N]; auto. exfalso. assert (exp u <= 1); [|nra]. rewrite <- exp_0. destruct (Req_dec u 0) as [->|]; [lra|]. left. apply exp_increasing. lra.
  - apply exp_increasing in H. rewrite exp_0 in H. nra.
  - destruct (Rlt_dec u 0) as [|N]; auto. exfalso. assert (1 <= exp u); [|nra]. rewrite <- exp_0 at 1. destruct (Req_dec u 0) as [->|]; [lra|]. left. apply exp_increasing. lra.
  - apply exp_increasing in H. rewrite exp_0 in H. nra.
Qed.
Lemma norm2_nonneg P v : 0 <= norm2 P v. Proof. apply dot_self_nonneg. Qed.

(* The step size grows exactly when the path is longer than a length E, where E^2 is d - 1/2 + (between 1/8 and 1/6)/d, close to the
   expected length of a standard Gaussian vector; with csa_squared exactly when the square of the length exceeds d. *)
Theorem C203_step_size : forall d popsize o P, cma_init d popsize o = Ok P -> (1 <= d)%nat -> 0 < p_c_sigma P / p_damp P ->
  exists E, 0 < E /\ (o_squared o = false -> INR d - 1 / 2 + 1 / (8 * INR d) <= E ^ 2 <= INR d - 1 / 2 + 1 / (6 * INR d)) /\ (o_squared o = true -> E ^ 2 = INR d) /\
  forall cholesky topk s zs ranking, 0 < s_sigma s -> let s' := cma_step P cholesky topk s zs ranking in
    (s_sigma s < s_sigma s' <-> E < sqrt (size2 d (s_p_sigma s'))) /\ (s_sigma s' < s_sigma s <-> sqrt (size2 d (s_p_sigma s')) < E) /\
    (* and by at most the factor exp (c_sigma / damp * (length / E - 1)), or its square root with csa_squared and the square of length / E *)
    s_sigma s' = s_sigma s * exp (p_c_sigma P / p_damp P * (if o_squared o then (size2 d (s_p_sigma s') / E ^ 2 - 1) / 2 else sqrt (size2 d (s_p_sigma s')) / E - 1)).
Proof.
  intros d n o P E HD HR. pose proof (init_fields _ _ _ _ E) as (ED & EP & _).
  assert (ES : p_squared P = o_squared o). { revert E. unfold cma_init. destruct (_ && _)%bool; [discriminate|]. intros E. apply ok_inj in E. subst P. reflexivity. }
  assert (SC : forall u, 0 < p_c_sigma P / p_damp P * u <-> 0 < u).
  { intro u. split; intro H; [|apply Rmult_lt_0_compat; auto]. apply Rmult_lt_reg_l with (p_c_sigma P / p_damp P); auto. lra. }
  assert (SN : forall u, p_c_sigma P / p_damp P * u < 0 <-> u < 0).
  { intro u. specialize (SC (- u)). split; intro H; [assert (0 < - u) by (apply SC; lra); lra|]. assert (0 < p_c_sigma P / p_damp P * - u) by (apply SC; lra). lra. }
  destruct (o_squared o) eqn:SQ.
  - exists (sqrt (INR d)). assert (D1 : 1 <= INR d) by (apply (le_INR 1) in HD; exact HD). assert (D2 : sqrt (INR d) ^ 2 = INR d) by (rewrite <- Rsqr_pow2; apply Rsqr_sqrt; lra).
    split; [apply sqrt_lt_R0; lra|]. split; [discriminate|]. split; [auto|]. intros ch tk s zs r HS. cbn zeta. unfold cma_step. cbn [s_sigma s_p_sigma].
    set (ps := new_p_sigma P (s_p_sigma s) (displacement P tk zs (assigned P r))). unfold new_sigma. rewrite ES, ED, D2. change (norm2 P ps) with (size2 (p_d P) ps). rewrite ED.
    pose proof (norm2_nonneg P ps) as N0. change (norm2 P ps) with (size2 (p_d P) ps) in N0. rewrite ED in N0. set (q := size2 d ps) in *.
    destruct (exp_factor (s_sigma s) (p_c_sigma P / p_damp P * ((q / INR d - 1) / 2)) HS) as [A B]. rewrite A, B, SC, SN. clear A B.
    assert (Z : forall t, t / INR d * INR d = t) by (intro; field; lra). specialize (Z q). split; [|split; [|reflexivity]].
    + split; intro H; [apply sqrt_lt_1; [lra|lra|]|]; [nra|]. apply sqrt_lt_0_alt in H. nra.
    + split; intro H; [apply sqrt_lt_1; [lra|lra|]|]; [nra|]. apply sqrt_lt_0_alt in H. nra.
  - exists (sqrt (INR d) * (1 - 1 / (4 * INR d) + 1 / (21 * INR d ^ 2))). destruct (expectation_bounds d HD) as [E0 EB].
    split; [exact E0|]. split; [intros _; exact EB|]. split; [discriminate|]. intros ch tk s zs r HS. cbn zeta. unfold cma_step. cbn [s_sigma s_p_sigma].
    set (ps := new_p_sigma P (s_p_sigma s) (displacement P tk zs (assigned P r))). unfold new_sigma. rewrite ES. unfold unbiased_expectation. rewrite ED.
    change (norm2 P ps) with (size2 (p_d P) ps). rewrite ED. set (q := sqrt (size2 d ps)). set (e := sqrt (INR d) * _) in *.
    destruct (exp_factor (s_sigma s) (p_c_sigma P / p_damp P * (q / e - 1)) HS) as [A B]. rewrite A, B, SC, SN. clear A B.
    assert (Z : q / e * e = q) by (field; lra). split; [|split; [|reflexivity]]; split; intro H; nra.
Qed.

(* The default rates are rates: c_sigma lies strictly between 0 and 1, the damping is at least 1 + c_sigma, and c_c lies between 0 and 1. *)
Theorem C203_default_rates : forall d popsize active separable limit P, cma_init d popsize (default_options active separable limit) = Ok P ->
  (1 <= d)%nat -> (2 <= popsize)%nat ->
  0 < p_c_sigma P < 1 /\ 1 + p_c_sigma P <= p_damp P /\ 0 < p_c_c P < 1 /\ 0 < p_c_sigma P / p_damp P < 1.
Proof.
  intros d n act sep lim P E HD H2. pose proof (mu_eff_ge_1 n H2) as M. apply (le_INR 1) in HD. cbn [INR] in HD.
  revert E. unfold cma_init. destruct (_ && _)%bool; [discriminate|]. intros E. apply ok_inj in E. subst P. cbn [p_c_sigma p_damp p_c_c default_options o_c_sigma o_c_sigma_ratio o_damp o_damp_ratio o_c_c o_c_c_ratio o_separable].
  unfold rate. rewrite !Rmult_1_l. set (m := mu_eff n) in *. set (x := INR d) in *.
  assert (CS : 0 < default_c_sigma d m < 1).
  { unfold default_c_sigma. fold x. split; [apply Rdiv_lt_0_compat; lra|apply Rdiv_lt_of; lra]. }
  set (c := default_c_sigma d m) in *. assert (DP : 1 + c <= default_damp d m c).
  { unfold default_damp. pose proof (Rmax_l 0 (sqrt ((m - 1) / (INR d + 1)) - 1)). lra. }
  split; [exact CS|]. split; [exact DP|]. split.
  - unfold default_c_c. fold x. assert (Y : 0 < m / x) by (apply Rdiv_lt_0_compat; lra). assert (Y1 : 0 < 1 / x) by (apply Rdiv_lt_0_compat; lra). destruct sep.
    + pose proof (sqrt_ge_1 x HD). split; [apply Rdiv_lt_0_compat; lra|apply Rdiv_lt_of; lra].
    + replace (2 * m / x) with (2 * (m / x)) by (field; lra). split; [apply Rdiv_lt_0_compat; lra|apply Rdiv_lt_of; lra].
  - split; [apply Rdiv_lt_0_compat; lra|apply Rdiv_lt_of; lra].
Qed.

(* ------------------------------------------------------------------------------- C204 *)
(* The path of the rank-one update: either it is continued with the weighted mean of the shaped draws of the parents, or it is stalled
   (only discounted).  A continued path had a length, normalized by the variance 1 - (1 - c_sigma)^(2n) of C203, below the limit. *)
Theorem C204_stall_partial : forall d popsize o P cholesky topk s zs ranking, cma_init d popsize o = Ok P -> rates_ok P -> topk_ok topk ->
  generation_ok P (zs, ranking) -> 0 < p_c_sigma P < 1 ->
  let s' := cma_step P cholesky topk s zs ranking in
  let variance := 1 - (1 - p_c_sigma P) ^ (2 * s_steps s') in
  let long := (2 + 4 / (INR d + 1)) * INR d in
  (long <= size2 d (s_p_sigma s') / variance -> forall j, s_p_c s' j = (1 - p_c_c P) * s_p_c s j) /\
  (* what the code compares is larger by a factor below 2, which tends to 1 *)
  (size2 d (s_p_sigma s') / variance < long / 2 -> forall j, s_p_c s' j = (1 - p_c_c P) * s_p_c s j +
     sqrt (p_c_c P * (2 - p_c_c P) * mu_eff popsize) * rsum (map (fun k => nth k (weights P) 0 * kth_best (ys_of P s zs) ranking k j) (seq 0 (popsize / 2)))).
Proof.
  intros d n o P ch tk s zs r E RO TK (LZ & HP & NZ) HC. pose proof (init_fields _ _ _ _ E) as (ED & EP & _). subst n. cbn zeta. cbn [fst snd] in *.
  unfold cma_step. cbn [s_p_c s_p_sigma s_steps]. set (ps := new_p_sigma _ _ _). set (c := p_c_sigma P) in *. pose proof RO as (HD & _). apply (le_INR 1) in HD. cbn [INR] in HD. rewrite ED in HD.
  set (a := (1 - c) ^ (2 * s_steps s)). assert (A : 0 < a <= 1).
  { unfold a. split; [apply pow_lt; lra|]. apply Rle_trans with (1 ^ (2 * s_steps s)); [apply pow_incr; lra|rewrite pow1; lra]. }
  assert (V1 : 1 - (1 - c) ^ (2 * S (s_steps s)) = 1 - (1 - c) * ((1 - c) * a)) by (unfold a; replace (2 * S (s_steps s))%nat with (S (S (2 * s_steps s))) by lia; reflexivity).
  assert (V2 : 1 - (1 - c) ^ (2 * s_steps s + 1) = 1 - (1 - c) * a) by (unfold a; rewrite Nat.add_1_r; reflexivity).
  rewrite V1. unfold new_p_c, vplus, vscale, h_sig. fold c. rewrite V2. change (norm2 P ps) with (size2 (p_d P) ps). rewrite ED.
  pose proof (norm2_nonneg P ps) as N0. change (norm2 P ps) with (size2 (p_d P) ps) in N0. rewrite ED in N0. set (q := size2 d ps) in *.
  set (v1 := 1 - (1 - c) * ((1 - c) * a)). set (v2 := 1 - (1 - c) * a).
  assert (V : 0 < v2 < v1 /\ v1 < 2 * v2). { unfold v1, v2. assert (0 < (1 - c) * a <= 1 - c) by nra. set (u := (1 - c) * a) in *. assert ((1 + c) * u <= (1 + c) * (1 - c)) by (apply Rmult_le_compat_l; lra). nra. }
  assert (I1 : q / v1 * v1 = q) by (field; lra). assert (I2 : q / v2 * v2 = q) by (field; lra).
  assert (I3 : q / v2 / INR d * INR d = q / v2) by (field; lra). assert (F : 0 < 4 / (INR d + 1)) by (apply Rdiv_lt_0_compat; lra).
  assert (P1 : 0 <= q / v1) by (apply Rmult_le_pos; [auto|left; apply Rinv_0_lt_compat; lra]).
  assert (P2 : 0 <= q / v2) by (apply Rmult_le_pos; [auto|left; apply Rinv_0_lt_compat; lra]).
  split; intros H j.
  - destruct (Rlt_dec _ _) as [L|L]; [|ring]. exfalso. assert (q / v1 <= q / v2) by nra. nra.
  - destruct (Rlt_dec _ _) as [L|L]; [|exfalso; apply L].
    + rewrite displacement_selected by auto. unfold discount. ring.
    + assert (q / v2 <= 2 * (q / v1)) by nra. nra.
Qed.

Lemma kth_constant (z : vect) n ranking k : Permutation ranking (seq 0 n) -> (k < n)%nat -> kth_best (repeat z n) ranking k = z.
Proof.
  intros HP Hk. unfold kth_best. assert (L : length ranking = n) by (apply Permutation_length in HP; rewrite seq_length in HP; auto).
  assert (I : In (nth k ranking 0%nat) (seq 0 n)) by (apply (Permutation_in _ HP), nth_In; lia). apply in_seq in I.
  apply (repeat_spec n z). apply nth_In. rewrite repeat_length. lia.
Qed.
Lemma map_repeat_ {A B} (f : A -> B) x n : map f (repeat x n) = repeat (f x) n.
Proof. induction n; cbn; congruence. Qed.
Lemma size2_axis d a : (1 <= d)%nat -> size2 d (fun i => if Nat.eqb i 0 then a else 0) = a ^ 2.
Proof.
  intro HD. unfold size2. induction d as [|d IH]; [lia|]. cbn [sumn]. destruct d as [|d].
  - cbn. ring.
  - rewrite IH by lia. cbn [Nat.eqb]. ring.
Qed.
Lemma size2_ext d x y : (forall i, (i < d)%nat -> x i = y i) -> size2 d x = size2 d y.
Proof. intros H. unfold size2. apply sumn_ext. intros i Hi. rewrite H by auto. reflexivity. Qed.

(* But the path is stalled too early: there are first generations whose path, normalized by its variance, is below the limit,
   and yet the path of the rank-one update stays zero although the parents have moved the center. *)
Theorem C204_stall_refuted : forall d popsize o P cholesky topk center stdev, cma_init d popsize o = Ok P -> rates_ok P -> topk_ok topk -> 0 < p_c_sigma P < 1 ->
  exists zs ranking, generation_ok P (zs, ranking) /\
  let s' := cma_step P cholesky topk (init_state center stdev) zs ranking in
  size2 d (s_p_sigma s') / (1 - (1 - p_c_sigma P) ^ (2 * s_steps s')) < (2 + 4 / (INR d + 1)) * INR d /\
  (forall j, s_p_c s' j = 0) /\
  exists j, (j < d)%nat /\ rsum (map (fun k => nth k (weights P) 0 * kth_best (ys_of P (init_state center stdev) zs) ranking k j) (seq 0 (popsize / 2))) <> 0.
Proof.
  intros d n o P ch tk ce sd E RO TK HC. pose proof (init_fields _ _ _ _ E) as (ED & EP & _). subst n. pose proof RO as (HD & H2 & _). rewrite ED in HD.
  pose proof (mu_eff_ge_1 _ H2) as M. set (c := p_c_sigma P) in *. set (m := mu_eff (p_popsize P)) in *.
  pose proof (le_INR 1 d HD) as D1. cbn [INR] in D1. set (long := (2 + 4 / (INR d + 1)) * INR d).
  assert (F : 0 < 4 / (INR d + 1)) by (apply Rdiv_lt_0_compat; lra). assert (LO : 0 < long) by (unfold long; nra).
  (* the squared length is long * c: at the limit of the code's test, below the limit of the normalized one *)
  set (a := sqrt (long / ((2 - c) * m))). assert (A2 : a ^ 2 = long / ((2 - c) * m)) by (unfold a; rewrite <- Rsqr_pow2; apply Rsqr_sqrt; left; apply Rdiv_lt_0_compat; nra).
  assert (A0 : 0 < a) by (apply sqrt_lt_R0, Rdiv_lt_0_compat; nra).
  set (z := fun i : nat => if Nat.eqb i 0 then a else 0). exists (repeat z (p_popsize P)), (seq 0 (p_popsize P)).
  assert (HP : Permutation (seq 0 (p_popsize P)) (seq 0 (p_popsize P))) by apply Permutation_refl.
  assert (SW : rsum (map (fun k => nth k (weights P) 0) (seq 0 (p_popsize P / 2))) = 1) by (destruct (C56_weights _ _ _ _ E H2) as (_ & _ & S1 & _); exact S1).
  assert (HALF : (p_popsize P / 2 < p_popsize P)%nat) by (pose proof (mu_of_range _ H2) as K; unfold mu_of in K; lia).
  assert (MEAN : forall (y : vect) j, rsum (map (fun k => nth k (weights P) 0 * kth_best (repeat y (p_popsize P)) (seq 0 (p_popsize P)) k j) (seq 0 (p_popsize P / 2))) = y j).
  { intros y j. rewrite (rsum_ext _ (fun k => y j * nth k (weights P) 0)).
    - rewrite rsum_scale, SW. ring.
    - intros k Hk. apply in_seq in Hk. rewrite kth_constant by (auto; lia). ring. }
  assert (G : generation_ok P (repeat z (p_popsize P), seq 0 (p_popsize P))).
  { split; [apply repeat_length|]. split; [exact HP|]. cbn [fst]. apply Forall_forall. intros x Hx. apply repeat_spec in Hx. subst x. exists 0%nat. rewrite ED. split; [lia|]. unfold z. cbn. lra. }
  split; [exact G|]. cbn zeta. unfold cma_step. cbn [s_p_c s_p_sigma s_steps init_state].
  set (ps := new_p_sigma _ _ _). assert (PS : size2 d ps = long * c).
  { rewrite (size2_ext d ps (fun i => if Nat.eqb i 0 then discount P c * a else 0)).
    - rewrite size2_axis by auto. rewrite Rpow_mult_distr, A2, discount_squared by (auto; lra). fold m. field. split; nra.
    - intros i Hi. unfold ps, new_p_sigma, vplus, vscale. rewrite displacement_selected by auto. rewrite MEAN. fold c. unfold z. destruct (Nat.eqb i 0); ring. }
  rewrite PS. split; [|split].
  - replace (2 * 1)%nat with 2%nat by lia. replace (1 - (1 - c) ^ 2) with (c * (2 - c)) by ring. replace (long * c / (c * (2 - c))) with (long / (2 - c)) by (field; lra).
    apply Rdiv_lt_of; [lra|]. fold long. nra.
  - intros j. unfold new_p_c, vplus, vscale, h_sig. change (norm2 P ps) with (size2 (p_d P) ps). rewrite ED, PS. fold c. replace (2 * 0 + 1)%nat with 1%nat by lia. rewrite pow_1.
    replace (long * c / (1 - (1 - c)) / INR d) with (2 + 4 / (INR d + 1)) by (unfold long; field; repeat split; nra).
    destruct (Rlt_dec _ _) as [L|L]; [exfalso; lra|ring].
  - exists 0%nat. split; [lia|]. unfold ys_of. rewrite map_repeat_. rewrite MEAN. cbn [s_A init_state]. rewrite (mv_id (p_d P) z) by (rewrite ED; lia). unfold z. cbn. lra.
Qed.
Print Assumptions C203_path.
Print Assumptions C203_step_size.
Print Assumptions C203_default_rates.
Print Assumptions C204_stall_partial.
Print Assumptions C204_stall_refuted.

(* the default arguments in two dimensions, with two generations of six solutions *)
Example C203_example : exists P, cma_init 2 6 (default_options true false true) = Ok P /\ rates_ok P /\ 0 < p_c_sigma P < 1 /\ 0 < p_c_sigma P / p_damp P /\
  Forall (generation_ok P) [(ex_zs, [5; 4; 3; 2; 1; 0]%nat); (ex_zs, [0; 2; 4; 1; 3; 5]%nat)].
Proof.
  destruct C97_example as (P & E & RO & _ & _ & G). exists P. destruct (C203_default_rates _ _ _ _ _ _ E) as (A & _ & _ & B); [lia|lia|]. repeat (split; [tauto|]). exact G.
Qed.
(* there is a function as torch.topk is supposed to be *)
Definition weight_ge (ws : list R) (i j : nat) : bool := if Rle_dec (nth j ws 0) (nth i ws 0) then true else false.
Definition topk_by_sorting (k : nat) (ws : list R) : list nat := firstn k (isort (weight_ge ws) (seq 0 (length ws))).
Lemma sorted_parts {A} (le : A -> A -> Prop) l1 : forall l2, Sorted.StronglySorted le (l1 ++ l2) -> forall x y, In x l1 -> In y l2 -> le x y.
Proof.
  induction l1 as [|a l1 IH]; intros l2 S x y X Y; [destruct X|]. cbn in S. inversion S as [|? ? S1 S2]; subst. destruct X as [<-|X]; [|eauto].
  rewrite Forall_forall in S2. apply S2, in_or_app. auto.
Qed.
Example topk_exists : topk_ok topk_by_sorting.
Proof.
  intros k ws Hk. unfold topk_by_sorting. set (l := isort (weight_ge ws) (seq 0 (length ws))).
  assert (PM : Permutation (seq 0 (length ws)) l) by apply isort_perm.
  assert (L : length l = length ws) by (rewrite <- (Permutation_length PM); apply seq_length).
  assert (ND : NoDup l) by (apply (Permutation_NoDup PM), seq_NoDup).
  assert (SO : Sorted.StronglySorted (fun i j => weight_ge ws i j = true) l).
  { apply isort_sorted; unfold weight_ge.
    - intros x y. destruct (Rle_dec (nth y ws 0) (nth x ws 0)); [auto|]. right. destruct (Rle_dec _ _); [auto|lra].
    - intros x y z. destruct (Rle_dec (nth y ws 0) _); [|discriminate]. destruct (Rle_dec (nth z ws 0) (nth y ws 0)); [|discriminate]. intros _ _. destruct (Rle_dec _ _); [auto|lra]. }
  split; [rewrite firstn_length; lia|]. split; [apply nodup_firstn; auto|]. split.
  - intros i Hi. assert (I : In i l) by (rewrite <- (firstn_skipn k l); apply in_or_app; auto). apply (Permutation_in _ (Permutation_sym PM)) in I. apply in_seq in I. lia.
  - intros i j Hi Hj NJ. assert (J : In j (skipn k l)).
    { assert (J : In j l) by (apply (Permutation_in _ PM), in_seq; lia). rewrite <- (firstn_skipn k l) in J. apply in_app_or in J. tauto. }
    rewrite <- (firstn_skipn k l) in SO. pose proof (sorted_parts _ _ _ SO i j Hi J) as W. cbn beta in W. unfold weight_ge in W. destruct (Rle_dec _ _); [auto|discriminate].
Qed.
Example C204_example : exists P, cma_init 2 6 (default_options true false true) = Ok P /\ rates_ok P /\ topk_ok topk_by_sorting /\ 0 < p_c_sigma P < 1 /\
  generation_ok P (ex_zs, [5; 4; 3; 2; 1; 0]%nat).
Proof.
  destruct C203_example as (P & E & RO & A & _ & G). exists P. repeat (split; [first [tauto|apply topk_exists]|]). inversion G; auto.
Qed.

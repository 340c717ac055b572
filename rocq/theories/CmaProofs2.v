(* The covariance matrix of CMAES stays symmetric and positive definite. *)
From Coq Require Import Reals Lra Permutation.
From Verif Require Import Prelude MatLib RankModel RankProofs CmaModel CmaSpec CmaProofs.
Open Scope R_scope.

Definition dot (n : nat) (x y : vect) : R := sumn n (fun i => x i * y i).
Lemma dot_self_nonneg n x : 0 <= dot n x x.
Proof. apply sumn_nonneg. intros. apply Rle_0_sqr. Qed.
Lemma sumn_pos n f : (forall i, (i < n)%nat -> 0 <= f i) -> (exists i, (i < n)%nat /\ 0 < f i) -> 0 < sumn n f.
Proof.
  induction n; intros H (i & Hi & P); [lia|]. cbn [sumn]. pose proof (H n ltac:(lia)).
  destruct (Nat.eq_dec i n) as [->|N].
  - assert (0 <= sumn n f) by (apply sumn_nonneg; auto). lra.
  - assert (0 < sumn n f) by (apply IHn; [auto|exists i; split; [lia|auto]]). lra.
Qed.
Lemma dot_self_pos n x : nonzero n x -> 0 < dot n x x.
Proof. intros (i & Hi & N). apply sumn_pos. - intros; apply Rle_0_sqr. - exists i. split; auto. fold (Rsqr (x i)). apply Rsqr_pos_lt. auto. Qed.
Lemma sumn_le n f g : (forall i, (i < n)%nat -> f i <= g i) -> sumn n f <= sumn n g.
Proof. induction n; intros H; cbn [sumn]; [lra|]. pose proof (H n ltac:(lia)). assert (sumn n f <= sumn n g) by (apply IHn; auto). lra. Qed.
Lemma term_le_sumn n f i : (forall j, (j < n)%nat -> 0 <= f j) -> (i < n)%nat -> f i <= sumn n f.
Proof.
  induction n; intros H Hi; [lia|]. cbn [sumn]. pose proof (H n ltac:(lia)). destruct (Nat.eq_dec i n) as [->|N].
  - assert (0 <= sumn n f) by (apply sumn_nonneg; auto). lra.
  - assert (f i <= sumn n f) by (apply IHn; [auto|lia]). lra.
Qed.
Lemma cauchy_schwarz n a b : dot n a b * dot n a b <= dot n a a * dot n b b.
Proof.
  set (p := dot n a a). set (q := dot n a b). set (r := dot n b b).
  assert (E : forall s t, dot n (fun i => s * a i - t * b i) (fun i => s * a i - t * b i) = s * s * p - 2 * s * t * q + t * t * r).
  { intros s t. unfold p, q, r, dot. rewrite <- !sumn_mul_l, <- sumn_minus, <- sumn_plus. apply sumn_ext. intros. ring. }
  pose proof (dot_self_nonneg n (fun i => r * a i - q * b i)). rewrite E in H.
  pose proof (dot_self_nonneg n b) as Rn. fold r in Rn. destruct (Req_dec r 0) as [Z|Z].
  - assert (q = 0); [|subst; rewrite H0, Z; lra]. destruct (Req_dec q 0) as [|Q]; auto. exfalso.
    pose proof (dot_self_nonneg n (fun i => 1 * a i - ((p + 1) / (2 * q)) * b i)) as K. rewrite E, Z in K.
    replace (1 * 1 * p - 2 * 1 * ((p + 1) / (2 * q)) * q + (p + 1) / (2 * q) * ((p + 1) / (2 * q)) * 0) with (-1) in K by (field; auto). lra.
  - assert (0 < r) by lra. assert (0 <= r * (p * r - q * q)) by nra. assert (0 <= p * r - q * q); [|lra].
    apply Rmult_le_reg_l with r; lra.
Qed.
Lemma dot_mv n A z x : dot n x (mv n A z) = dot n (mv n (mtr A) x) z.
Proof.
  unfold dot, mv, mtr. rewrite (sumn_ext n _ (fun i => sumn n (fun k => x i * (A i k * z k)))) by (intros; rewrite sumn_mul_l; auto).
  rewrite sumn_swap. apply sumn_ext. intros k Hk. rewrite <- sumn_mul_r. apply sumn_ext. intros. ring.
Qed.
Lemma quad_gram n A x : quad n (mmul n A (mtr A)) x = dot n (mv n (mtr A) x) (mv n (mtr A) x).
Proof.
  rewrite <- (dot_mv n A (mv n (mtr A) x) x). unfold quad, dot. apply sumn_ext. intros i Hi.
  rewrite (sumn_ext n _ (fun j => x i * (mmul n A (mtr A) i j * x j))) by (intros; ring). rewrite sumn_mul_l. f_equal.
  exact (mv_mmul n A (mtr A) x i Hi).
Qed.
Lemma quad_msum n ms x : quad n (msum ms) x = rsum (map (fun A => quad n A x) ms).
Proof.
  induction ms as [|M ms IH].
  - cbn [map]. rewrite rsum_nil. unfold quad. apply sumn_zero. intros. apply sumn_zero. intros. unfold msum. cbn [map]. rewrite rsum_nil. ring.
  - cbn [map]. rewrite rsum_cons, <- IH, <- quad_add. apply quad_ext. intros i j _ _. unfold msum, madd. cbn [map]. apply rsum_cons.
Qed.
Lemma quad_diagonal n C x : diagonal_matrix n C -> quad n C x = sumn n (fun i => x i * x i * C i i).
Proof.
  intros D. unfold quad. apply sumn_ext. intros i Hi.
  rewrite (sumn_ext n _ (fun j => (if Nat.eqb i j then 1 else 0) * (x i * x j * C i i))).
  - apply (sumn_delta n i (fun j => x i * x j * C i i)). auto.
  - intros j Hj. destruct (Nat.eqb_spec i j) as [<-|N]; [ring|]. rewrite (D i j Hi Hj N). ring.
Qed.
Lemma diagonal_diag n c : diagonal_matrix n (diagonal c).
Proof. intros i j _ _ N. unfold diagonal. destruct (Nat.eqb_spec i j); [contradiction|auto]. Qed.
Lemma diagonal_at c i : diagonal c i i = c i.
Proof. unfold diagonal. rewrite Nat.eqb_refl. auto. Qed.
Lemma diagonal_symmetric n c : symmetric n (diagonal c).
Proof. intros i j _ _. unfold mtr, diagonal. rewrite Nat.eqb_sym. destruct (Nat.eqb_spec j i); subst; auto. Qed.
Lemma quad_unit n C i : (i < n)%nat -> quad n C (fun k => if Nat.eqb i k then 1 else 0) = C i i.
Proof.
  intros Hi. unfold quad.
  rewrite (sumn_ext n _ (fun k => (if Nat.eqb i k then 1 else 0) * C k i)).
  - apply (sumn_delta n i (fun k => C k i)). auto.
  - intros k Hk. rewrite (sumn_ext n _ (fun j => (if Nat.eqb i j then 1 else 0) * ((if Nat.eqb i k then 1 else 0) * C k j))) by (intros; ring).
    apply (sumn_delta n i (fun j => (if Nat.eqb i k then 1 else 0) * C k j)). auto.
Qed.
Lemma unit_nonzero n i : (i < n)%nat -> nonzero n (fun k => if Nat.eqb i k then 1 else 0).
Proof. intros H. exists i. split; auto. rewrite Nat.eqb_refl. lra. Qed.
Lemma pd_diag_pos n C i : positive_definite n C -> (i < n)%nat -> 0 < C i i.
Proof. intros H Hi. rewrite <- (quad_unit n C i Hi). apply H, unit_nonzero. auto. Qed.
Lemma pd_of_diagonal n C : diagonal_matrix n C -> (forall i, (i < n)%nat -> 0 < C i i) -> positive_definite n C.
Proof.
  intros D H x (i & Hi & N). rewrite quad_diagonal by auto. apply sumn_pos.
  - intros j Hj. apply Rmult_le_pos; [apply Rle_0_sqr|]. left. auto.
  - exists i. split; auto. apply Rmult_lt_0_compat; [fold (Rsqr (x i)); apply Rsqr_pos_lt; auto|auto].
Qed.
Lemma gram_diagonal n A i : diagonal_matrix n A -> (i < n)%nat -> mmul n A (mtr A) i i = A i i * A i i.
Proof.
  intros D Hi. unfold mmul, mtr. rewrite (sumn_ext n _ (fun k => (if Nat.eqb i k then 1 else 0) * (A i i * A i i))).
  - apply (sumn_delta n i (fun _ => A i i * A i i)). auto.
  - intros k Hk. destruct (Nat.eqb_spec i k) as [<-|N]; [ring|]. rewrite (D i k Hi Hk N). ring.
Qed.
Lemma gram_is_diagonal n A : diagonal_matrix n A -> diagonal_matrix n (mmul n A (mtr A)).
Proof.
  intros D i j Hi Hj N. unfold mmul, mtr. apply sumn_zero. intros k Hk.
  destruct (Nat.eq_dec i k) as [<-|N1]; [rewrite (D j i) by auto|rewrite (D i k) by auto]; ring.
Qed.
Lemma quad_nonneg_of_gram n A x : 0 <= quad n (mmul n A (mtr A)) x.
Proof. rewrite quad_gram. apply dot_self_nonneg. Qed.

(* ---- the weights of a generation ---- *)
Lemma assigned_perm P idx : Permutation idx (seq 0 (p_popsize P)) -> Permutation (assigned P idx) (weights P).
Proof.
  intros H. assert (L : length idx = p_popsize P) by (apply Permutation_length in H; rewrite seq_length in H; auto).
  unfold assigned. rewrite L. pose proof (scatter_perm 0%nat idx (seq 0 (p_popsize P))) as S1. rewrite seq_length in S1. specialize (S1 H).
  rewrite (Permutation_map (fun r => nth r (weights P) 0) S1).
  assert (E : map (fun r => nth r (weights P) 0) (seq 0 (p_popsize P)) = weights P).
  { rewrite <- (weights_len P). apply nth_error_ext. intros k. rewrite nth_error_map.
    destruct (lt_dec k (length (weights P))) as [K|K].
    - rewrite (nth_error_nth' (seq 0 (length (weights P))) 0%nat) by (rewrite seq_length; auto). rewrite seq_nth by auto. cbn [option_map].
      rewrite (nth_error_nth' (weights P) 0) by auto. auto.
    - rewrite (proj2 (nth_error_None (seq 0 (length (weights P))) k)) by (rewrite seq_length; lia). rewrite (proj2 (nth_error_None (weights P) k)) by lia. auto. }
  rewrite E. auto.
Qed.
Definition negpart (w : R) : R := if Rlt_dec 0 w then 0 else - w.
Lemma negpart_nonneg w : 0 <= negpart w.
Proof. unfold negpart. destruct (Rlt_dec 0 w); lra. Qed.
Lemma rsum_negpart_weights P : (2 <= p_popsize P)%nat -> 0 <= neg_mass P -> rsum (map negpart (weights P)) = neg_mass P.
Proof.
  intros H N. unfold weights. rewrite map_app, rsum_app.
  assert (E1 : rsum (map negpart (positive_weights (p_popsize P))) = 0).
  { rewrite (rsum_ext _ (fun _ => 0)); [apply rsum_map_zero|]. intros w Hw. unfold positive_weights in Hw. apply in_map_iff in Hw as (v & <- & Hv).
    apply raw_positive_all in Hv. pose proof (raw_positive_sum _ H). unfold negpart. destruct (Rlt_dec 0 (v / rsum (raw_positive (p_popsize P)))); auto.
    exfalso. apply n. apply Rdiv_lt_0_compat; auto. }
  rewrite E1, <- (Ropp_involutive (neg_mass P)), <- (negative_weights_sum P H), <- rsum_opp.
  rewrite (rsum_ext negpart Ropp); [lra|]. intros w Hw. unfold negpart. destruct (Rlt_dec 0 w) as [G|]; auto. exfalso.
  apply (In_nth _ _ 0) in Hw as (k & Hk & E). rewrite negative_weights_len in Hk.
  pose proof (weights_tail_sign P (mu_of (p_popsize P) + k)%nat H N ltac:(lia)) as W. unfold weights in W.
  rewrite app_nth2 in W by (rewrite positive_weights_len; lia). rewrite positive_weights_len in W.
  replace (mu_of (p_popsize P) + k - mu_of (p_popsize P))%nat with k in W by lia. lra.
Qed.
Lemma assigned_negpart P idx : (2 <= p_popsize P)%nat -> 0 <= neg_mass P -> Permutation idx (seq 0 (p_popsize P)) ->
  rsum (map negpart (assigned P idx)) = neg_mass P.
Proof. intros H N HP. rewrite <- (rsum_negpart_weights P H N). apply rsum_perm, Permutation_map, assigned_perm. auto. Qed.
Lemma inactive_weights_nonneg P w : (2 <= p_popsize P)%nat -> p_active P = false -> In w (weights P) -> 0 <= w.
Proof.
  intros H A I. unfold weights in I. apply in_app_or in I as [I|I].
  - unfold positive_weights in I. apply in_map_iff in I as (v & <- & Hv). apply raw_positive_all in Hv. pose proof (raw_positive_sum _ H).
    left. apply Rdiv_lt_0_compat; auto.
  - unfold negative_weights in I. rewrite A in I. apply in_map_iff in I as (v & <- & _). lra.
Qed.

Section Step.
Variable P : params.
Notation d := (p_d P).
Hypothesis RO : rates_ok P.

Lemma c1a_bounds h : h = 0 \/ h = 1 -> 0 <= c1a P h <= p_c_1 P.
Proof.
  destruct RO as (_ & _ & H1 & _ & _ & HC). intros H. unfold c1a.
  assert (0 <= p_c_c P * (2 - p_c_c P)) by (apply Rmult_le_pos; lra). assert (p_c_c P * (2 - p_c_c P) <= 1) by (pose proof (Rle_0_sqr (1 - p_c_c P)) as SQ; unfold Rsqr in SQ; lra).
  destruct H as [-> | ->].
  - replace (1 - (1 - 0 ^ 2) * p_c_c P * (2 - p_c_c P)) with (1 - p_c_c P * (2 - p_c_c P)) by ring. nra.
  - replace (1 - (1 - 1 ^ 2) * p_c_c P * (2 - p_c_c P)) with 1 by ring. lra.
Qed.
Lemma h_sig_01 p n : h_sig P p n = 0 \/ h_sig P p n = 1.
Proof. unfold h_sig. destruct (Rlt_dec _ _); auto. Qed.

(* one reweighted sample *)
Definition rw (w : R) (z : vect) : R := if p_active P then (if Rlt_dec 0 w then w else INR d * w / norm2 P z) else w.
Lemma reweighted_cons w ws z zs : reweighted P (w :: ws) (z :: zs) = rw w z :: reweighted P ws zs \/ (p_active P = false).
Proof. unfold reweighted, rw. destruct (p_active P); auto. Qed.
Lemma term_bound w z t q : nonzero d z -> (p_active P = false -> 0 <= w) -> 0 <= t -> t <= norm2 P z * q -> - (INR d * negpart w * q) <= rw w z * t.
Proof.
  intros NZ HI T B. assert (Z : 0 < norm2 P z) by exact (dot_self_pos _ _ NZ). assert (0 <= q). { destruct (Rle_lt_dec 0 q) as [|G]; auto. exfalso. pose proof (Rmult_lt_compat_l _ _ _ Z G). lra. }
  pose proof (pos_INR d). unfold rw. pose proof (negpart_nonneg w). assert (0 <= INR d * negpart w * q) by (repeat apply Rmult_le_pos; auto).
  destruct (p_active P).
  - unfold negpart in *. destruct (Rlt_dec 0 w).
    + assert (0 <= w * t) by (apply Rmult_le_pos; lra). lra.
    + assert (t / norm2 P z <= q). { apply Rmult_le_reg_r with (norm2 P z); auto. unfold Rdiv. rewrite Rmult_assoc, Rinv_l by lra. lra. }
      replace (INR d * w / norm2 P z * t) with (- (INR d * - w * (t / norm2 P z))) by (field; lra).
      apply Ropp_le_contravar. apply Rmult_le_compat_l; auto. apply Rmult_le_pos; lra.
  - assert (0 <= w * t) by (apply Rmult_le_pos; auto). lra.
Qed.
Lemma terms_bound (f : vect -> R) q ws : forall zs, length ws = length zs -> Forall (nonzero d) zs -> (p_active P = false -> forall w, In w ws -> 0 <= w) ->
  (forall z, 0 <= f z <= norm2 P z * q) ->
  - (INR d * rsum (map negpart ws) * q) <= rsum (map2 (fun w z => rw w z * f z) ws zs).
Proof.
  induction ws as [|w ws IH]; intros [|z zs] L NZ HI HF; cbn [length map map2] in *; try discriminate; rewrite ?rsum_cons, ?rsum_nil; [lra|].
  inversion NZ as [|? ? N1 N2]; subst. pose proof (IH zs ltac:(lia) N2 ltac:(intros; apply HI; auto; right; auto) HF).
  pose proof (term_bound w z (f z) q N1 ltac:(intros; apply HI; auto; left; auto) ltac:(apply HF) ltac:(apply HF)). lra.
Qed.
Lemma map2_reweighted {B} (g : R -> vect -> B) (h : vect -> vect) ws : forall zs, length ws = length zs ->
  map2 g (reweighted P ws zs) (map h zs) = map2 (fun w z => g (rw w z) (h z)) ws zs.
Proof.
  unfold reweighted, rw. destruct (p_active P); induction ws as [|w ws IH]; intros [|z zs] L; cbn [length map map2] in *; try discriminate; auto; f_equal; apply IH; lia.
Qed.
Lemma rsum_map2_map {A B} (f : B -> R) (g : R -> A -> B) ws : forall zs, rsum (map f (map2 g ws zs)) = rsum (map2 (fun w z => f (g w z)) ws zs).
Proof. induction ws; intros [|z zs]; cbn [map2 map]; auto. rewrite !rsum_cons, IHws. auto. Qed.
Lemma rsum_map2_plus {A} (f g : R -> A -> R) ws : forall zs, rsum (map2 (fun w z => f w z + g w z) ws zs) = rsum (map2 f ws zs) + rsum (map2 g ws zs).
Proof. induction ws; intros [|z zs]; cbn [map2]; rewrite ?rsum_cons, ?rsum_nil; try lra. rewrite IHws. lra. Qed.
Lemma rsum_map2_mul {A} (f : R -> A -> R) k ws : forall zs, rsum (map2 (fun w z => f w z * k) ws zs) = rsum (map2 f ws zs) * k.
Proof. induction ws; intros [|z zs]; cbn [map2]; rewrite ?rsum_cons, ?rsum_nil; try lra. rewrite IHws. lra. Qed.
Lemma rsum_map2_ext {A} (f g : R -> A -> R) ws : forall zs, (forall w z, f w z = g w z) -> rsum (map2 f ws zs) = rsum (map2 g ws zs).
Proof. induction ws; intros [|z zs] H; cbn [map2]; auto. rewrite !rsum_cons, H, (IHws zs H). auto. Qed.

(* the sum of the weights in use, in the separable variant *)
Lemma used_sum_bound ws : forall zs, length ws = length zs -> Forall (nonzero d) zs -> (p_active P = false -> forall w, In w ws -> 0 <= w) ->
  rsum (map2 rw ws zs) <= rsum ws + rsum (map negpart ws).
Proof.
  induction ws as [|w ws IH]; intros [|z zs] L NZ HI; cbn [length map map2] in *; try discriminate; rewrite ?rsum_cons, ?rsum_nil; [lra|].
  inversion NZ as [|? ? N1 N2]; subst. pose proof (IH zs ltac:(lia) N2 ltac:(intros; apply HI; auto; right; auto)).
  assert (rw w z <= w + negpart w); [|lra]. unfold rw. pose proof (negpart_nonneg w).
  destruct (p_active P); [|lra]. unfold negpart. destruct (Rlt_dec 0 w); [lra|].
  assert (Z : 0 < norm2 P z) by exact (dot_self_pos _ _ N1). pose proof (pos_INR d).
  assert (INR d * w / norm2 P z <= 0); [|lra]. unfold Rdiv. assert (0 < / norm2 P z) by (apply Rinv_0_lt_compat; auto).
  assert (INR d * w <= 0) by nra. nra.
Qed.
Lemma used_sum_strict ws : p_active P = true -> forall zs, length ws = length zs -> Forall (nonzero d) zs -> (exists w, In w ws /\ w < 0) ->
  rsum (map2 rw ws zs) < rsum ws + rsum (map negpart ws).
Proof.
  intros Act. induction ws as [|w ws IH]; intros [|z zs] L NZ (v & I & V); cbn [length map map2] in *; try discriminate; [contradiction|].
  rewrite !rsum_cons. inversion NZ as [|? ? N1 N2]; subst.
  assert (Z : 0 < norm2 P z) by exact (dot_self_pos _ _ N1). assert (D : 0 < INR d) by (apply lt_0_INR; destruct RO; lia).
  assert (0 < / norm2 P z) by (apply Rinv_0_lt_compat; auto).
  pose proof (used_sum_bound ws zs ltac:(lia) N2 ltac:(congruence)).
  assert (R1 : rw w z <= w + negpart w).
  { unfold rw, negpart. rewrite Act. destruct (Rlt_dec 0 w); [lra|]. unfold Rdiv. assert (INR d * w <= 0) by nra. nra. }
  destruct I as [->|I].
  - assert (rw v z < v + negpart v); [|lra]. unfold rw, negpart. rewrite Act. destruct (Rlt_dec 0 v); [lra|]. unfold Rdiv. assert (INR d * v < 0) by nra. nra.
  - assert (rsum (map2 rw ws zs) < rsum ws + rsum (map negpart ws)); [|lra]. apply IH; [lia|auto|exists v; auto].
Qed.

(* The new matrix, compared with the old one and with the factor the samples were drawn with *)
Lemma update_bound C A p_c zs idx h :
  length zs = p_popsize P -> Permutation idx (seq 0 (p_popsize P)) -> Forall (nonzero d) zs -> h = 0 \/ h = 1 ->
  (forall x, 0 <= quad d C x) -> (p_separable P = true -> diagonal_matrix d C /\ diagonal_matrix d A) ->
  exists e, 0 <= e /\ (p_active P = true -> 0 < e) /\
    forall x, (1 - p_c_1 P - p_c_mu P + e) * quad d C x - INR d * p_c_mu P * neg_mass P * quad d (mmul d A (mtr A)) x
              <= quad d (update_C P C p_c zs (map (mv d A) zs) (assigned P idx) h) x.
Proof.
  intros LZ HP NZ H01 CN HS. pose proof RO as (HD & H2 & H1 & HM & HR & HC). destruct (neg_mass_bounds P RO) as (N0 & _ & _ & NA).
  pose proof (c1a_bounds h H01) as [B1 B2]. pose proof (assigned_negpart P idx H2 N0 HP) as NP.
  pose proof (assigned_perm P idx HP) as AP. assert (AS : rsum (assigned P idx) = 1 - neg_mass P) by (rewrite (rsum_perm _ _ AP); apply weights_sum; auto).
  assert (AL : length (assigned P idx) = length zs). { rewrite (Permutation_length AP), weights_len. auto. }
  assert (AI : p_active P = false -> forall w, In w (assigned P idx) -> 0 <= w).
  { intros A0 w Hw. apply (inactive_weights_nonneg P); auto. eapply Permutation_in; eauto. }
  assert (D0 : 0 < INR d) by (apply lt_0_INR; lia).
  unfold update_C. destruct (p_separable P).
  - destruct (HS eq_refl) as [DC DA]. set (u := rsum (map2 rw (assigned P idx) zs)).
    assert (U : u <= 1) by (pose proof (used_sum_bound (assigned P idx) zs AL NZ AI); unfold u; lra).
    exists (p_c_mu P * (1 - u)). split; [apply Rmult_le_pos; lra|]. split.
    { intros Act. apply Rmult_lt_0_compat; auto. assert (u < 1); [|lra]. unfold u.
      pose proof (used_sum_strict (assigned P idx) Act zs AL NZ) as S1. rewrite AS, NP in S1. replace 1 with (1 - neg_mass P + neg_mass P) by ring.
      apply S1. exists (nth (p_popsize P - 1) (weights P) 0). split; [|apply weights_last_neg; auto].
      eapply Permutation_in; [symmetry; exact AP|]. apply nth_In. rewrite weights_len. lia. }
    intros x. rewrite (quad_diagonal d (diagonal _)) by apply diagonal_diag. rewrite (quad_diagonal d C), (quad_diagonal d (mmul d A (mtr A))) by (auto using gram_is_diagonal).
    rewrite <- !sumn_mul_l, <- sumn_minus. apply sumn_le. intros j Hj. rewrite diagonal_at, (gram_diagonal d A j DA Hj).
    assert (CJ : 0 <= C j j) by (rewrite <- (quad_unit d C j Hj); auto).
    rewrite (map2_reweighted (fun w y => w * (y j ^ 2 - C j j)) (mv d A)) by auto.
    rewrite (rsum_map2_ext _ (fun w z => rw w z * (mv d A z j) ^ 2 + rw w z * - C j j)) by (intros; ring).
    rewrite rsum_map2_plus, (rsum_map2_mul rw). fold u.
    assert (T : - (INR d * rsum (map negpart (assigned P idx)) * (A j j * A j j)) <= rsum (map2 (fun w z => rw w z * (mv d A z j) ^ 2) (assigned P idx) zs)).
    { apply terms_bound with (f := fun z => mv d A z j ^ 2); auto. intros z. split; [apply pow2_ge_0|].
      assert (E : mv d A z j = A j j * z j).
      { unfold mv. rewrite (sumn_ext d _ (fun k => (if Nat.eqb j k then 1 else 0) * (A j j * z k))).
        - apply (sumn_delta d j (fun k => A j j * z k)). auto.
        - intros k Hk. destruct (Nat.eqb_spec j k) as [<-|N]; [ring|]. rewrite (DA j k Hj Hk N). ring. }
      rewrite E. assert (z j * z j <= norm2 P z) by (apply (term_le_sumn d (fun i => z i * z i) j); auto; intros; apply Rle_0_sqr).
      assert (0 <= A j j * A j j) by apply Rle_0_sqr. replace ((A j j * z j) ^ 2) with (z j * z j * (A j j * A j j)) by ring. apply Rmult_le_compat_r; auto. }
    rewrite NP in T. set (S1 := rsum (map2 (fun w z => rw w z * mv d A z j ^ 2) (assigned P idx) zs)) in *.
    set (a := A j j * A j j) in *. set (c := C j j) in *. pose proof (pow2_ge_0 (p_c j)).
    assert (X : 0 <= x j * x j) by apply Rle_0_sqr.
    assert (K : (1 - p_c_1 P - p_c_mu P + p_c_mu P * (1 - u)) * c - INR d * p_c_mu P * neg_mass P * a
                <= c + c1a P h * (p_c j ^ 2 - c) + p_c_mu P * (S1 + u * - c)).
    { assert (p_c_mu P * - (INR d * neg_mass P * a) <= p_c_mu P * S1) by (apply Rmult_le_compat_l; lra).
      assert (0 <= c1a P h * p_c j ^ 2) by (apply Rmult_le_pos; auto). assert (c1a P h * c <= p_c_1 P * c) by (apply Rmult_le_compat_r; auto).
      nra. }
    apply Rmult_le_compat_l with (r := x j * x j) in K; auto. lra.
  - exists (p_c_mu P * neg_mass P). split; [apply Rmult_le_pos; lra|]. split; [intros Act; apply Rmult_lt_0_compat; auto|].
    intros x. rewrite !quad_add, !quad_scale, !quad_add, !quad_scale, quad_msum.
    pose proof (quad_outer_nonneg d (vscale (weighted_pc P h) p_c) x) as O.
    rewrite rsum_map2_map, (rsum_map2_ext _ (fun w y => w * quad d (outer y y) x)) by (intros; apply quad_scale).
    rewrite (map2_reweighted (fun w y => w * quad d (outer y y) x) (mv d A)) by auto.
    set (q := quad d (mmul d A (mtr A)) x).
    assert (T : - (INR d * rsum (map negpart (assigned P idx)) * q) <= rsum (map2 (fun w z => rw w z * quad d (outer (mv d A z) (mv d A z)) x) (assigned P idx) zs)).
    { apply terms_bound with (f := fun z => quad d (outer (mv d A z) (mv d A z)) x); auto. intros z. split; [apply quad_outer_nonneg|].
      rewrite quad_outer. unfold q. rewrite quad_gram. change (sumn d (fun i => x i * mv d A z i)) with (dot d x (mv d A z)). rewrite dot_mv.
      rewrite (Rmult_comm (norm2 P z)). apply cauchy_schwarz. }
    rewrite NP in T. rewrite (weights_sum P H2). set (S1 := rsum (map2 _ _ _)) in T |- *. set (o := quad d (outer _ _) x) in *. set (c := quad d C x). pose proof (CN x) as CX. fold c in CX.
    assert (p_c_mu P * - (INR d * neg_mass P * q) <= p_c_mu P * S1) by (apply Rmult_le_compat_l; lra).
    assert (0 <= c1a P h * o) by (apply Rmult_le_pos; auto). assert (c1a P h * c <= p_c_1 P * c) by (apply Rmult_le_compat_r; auto).
    nra.
Qed.
End Step.

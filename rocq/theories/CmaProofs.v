(* Recombination weights of CMAES. *)
From Coq Require Import Reals Lra Permutation.
From Verif Require Import Prelude MatLib RankModel RankProofs CmaModel CmaSpec.
Open Scope R_scope.

(* ---- sums ---- *)
Lemma rsum_cons a l : rsum (a :: l) = a + rsum l. Proof. auto. Qed.
Lemma rsum_nil : rsum [] = 0. Proof. auto. Qed.
Lemma rsum_app a b : rsum (a ++ b) = rsum a + rsum b.
Proof. induction a as [|x a IH]; cbn [app]; rewrite ?rsum_cons, ?rsum_nil; [lra|]. rewrite IH. lra. Qed.
Lemma rsum_scale {A} (f : A -> R) k l : rsum (map (fun x => k * f x) l) = k * rsum (map f l).
Proof. induction l; cbn [map]; rewrite ?rsum_cons, ?rsum_nil; [lra|]. rewrite IHl. lra. Qed.
Lemma rsum_ext {A} (f g : A -> R) l : (forall x, In x l -> f x = g x) -> rsum (map f l) = rsum (map g l).
Proof. induction l; cbn [map]; rewrite ?rsum_cons; intros H; auto. rewrite H, IHl; cbn; auto. intros; apply H; cbn; auto. Qed.
Lemma rsum_le {A} (f g : A -> R) l : (forall x, In x l -> f x <= g x) -> rsum (map f l) <= rsum (map g l).
Proof.
  induction l; cbn [map]; rewrite ?rsum_cons, ?rsum_nil; intros H; [lra|]. pose proof (H a (or_introl eq_refl)).
  assert (rsum (map f l) <= rsum (map g l)) by (apply IHl; intros; apply H; right; auto). lra.
Qed.
Lemma rsum_pos l : l <> [] -> (forall x, In x l -> 0 < x) -> 0 < rsum l.
Proof.
  destruct l as [|a l]; [congruence|]. intros _ H. rewrite rsum_cons. pose proof (H a (or_introl eq_refl)).
  assert (0 <= rsum l). { apply rsum_nonneg. intros x Hx. pose proof (H x (or_intror Hx)). lra. } lra.
Qed.
Lemma rsum_map_zero {A} (l : list A) : rsum (map (fun _ => 0) l) = 0.
Proof. induction l; cbn [map]; rewrite ?rsum_cons, ?rsum_nil; lra. Qed.
Lemma rsum_plus {A} (f g : A -> R) l : rsum (map (fun x => f x + g x) l) = rsum (map f l) + rsum (map g l).
Proof. induction l; cbn [map]; rewrite ?rsum_cons, ?rsum_nil; [lra|]. rewrite IHl. lra. Qed.

(* ---- raw weights ---- *)
Lemma raw_antitone n i j : (i < j)%nat -> raw_weight n j < raw_weight n i.
Proof.
  intros H. unfold raw_weight. apply lt_INR in H. pose proof (pos_INR i).
  assert (ln (INR i + 1) < ln (INR j + 1)) by (apply ln_increasing; lra). lra.
Qed.
Lemma raw_pos n i : (i < mu_of n)%nat -> 0 < raw_weight n i.
Proof.
  intros H. unfold raw_weight, mu_of in *. pose proof (pos_INR i).
  assert (INR i + 1 < (INR n + 1) / 2).
  { assert (K : (2 * (i + 1) <= n)%nat) by lia. apply le_INR in K. rewrite mult_INR, plus_INR in K. cbn [INR] in K. lra. }
  assert (ln (INR i + 1) < ln ((INR n + 1) / 2)) by (apply ln_increasing; lra). lra.
Qed.
Lemma raw_nonpos n i : (mu_of n <= i)%nat -> raw_weight n i <= 0.
Proof.
  intros H. unfold raw_weight, mu_of in *. pose proof (pos_INR n).
  assert ((INR n + 1) / 2 <= INR i + 1).
  { assert (K : (n <= 2 * i + 1)%nat) by lia. apply le_INR in K. rewrite plus_INR, mult_INR in K. cbn [INR] in K. lra. }
  assert (ln ((INR n + 1) / 2) <= ln (INR i + 1)).
  { destruct (Rle_lt_or_eq_dec _ _ H1) as [L|E]; [left; apply ln_increasing; lra | right; f_equal; auto]. }
  lra.
Qed.
Lemma raw_last_neg n : (2 <= n)%nat -> raw_weight n (n - 1) < 0.
Proof.
  intros H. pose proof (raw_nonpos n (mu_of n) ltac:(lia)). unfold mu_of in *.
  destruct (Nat.eq_dec n 2) as [->|N].
  - unfold raw_weight. change (INR 2) with (1 + 1). change (INR (2 - 1)) with 1. assert (ln ((1 + 1 + 1) / 2) < ln (1 + 1)) by (apply ln_increasing; clear; lra). lra.
  - pose proof (raw_antitone n (n / 2) (n - 1) ltac:(lia)). lra.
Qed.
Lemma mu_of_range n : (2 <= n)%nat -> (1 <= mu_of n < n)%nat.
Proof. unfold mu_of. lia. Qed.
Lemma raw_positive_all n x : In x (raw_positive n) -> 0 < x.
Proof. unfold raw_positive. rewrite in_map_iff. intros (i & <- & Hi). apply in_seq in Hi. apply raw_pos. lia. Qed.
Lemma raw_positive_ne n : (2 <= n)%nat -> raw_positive n <> [].
Proof. intros H E. apply mu_of_range in H. apply (f_equal (@length R)) in E. unfold raw_positive in E. rewrite map_length, seq_length in E. cbn [length] in E. lia. Qed.
Lemma raw_positive_sum n : (2 <= n)%nat -> 0 < rsum (raw_positive n).
Proof. intros H. apply rsum_pos; [apply raw_positive_ne; auto|apply raw_positive_all]. Qed.
Lemma raw_negative_all n x : In x (raw_negative n) -> x <= 0.
Proof. unfold raw_negative. rewrite in_map_iff. intros (i & <- & Hi). apply in_seq in Hi. apply raw_nonpos. lia. Qed.
Lemma abs_negative_sum n : rsum (map Rabs (raw_negative n)) = - rsum (raw_negative n).
Proof.
  rewrite <- rsum_opp. apply rsum_ext. intros x Hx. apply raw_negative_all in Hx. rewrite Rabs_left1; auto.
Qed.
Lemma raw_negative_sum n : (2 <= n)%nat -> rsum (raw_negative n) < 0.
Proof.
  intros H. pose proof (mu_of_range n H). rewrite <- (Ropp_involutive (rsum _)), <- abs_negative_sum.
  enough (0 < rsum (map Rabs (raw_negative n))) by lra.
  assert (I : In (raw_weight n (n - 1)) (raw_negative n)) by (unfold raw_negative; apply in_map; apply in_seq; lia).
  apply in_split in I as (a & b & ->). rewrite map_app, rsum_app. cbn [map]. rewrite rsum_cons.
  assert (forall l, 0 <= rsum (map Rabs l)). { intros l. apply rsum_nonneg. intros x Hx. apply in_map_iff in Hx as (y & <- & _). apply Rabs_pos. }
  pose proof (H1 a). pose proof (H1 b). pose proof (raw_last_neg n H). rewrite (Rabs_left _ H4). lra.
Qed.

(* ---- effective selection mass: 1 <= mu_eff <= mu ---- *)
Lemma square_sum_le l : (forall x, In x l -> 0 <= x) -> rsum (map (fun w => w ^ 2) l) <= (rsum l) ^ 2.
Proof.
  induction l as [|a l IH]; intros H; cbn [map]; rewrite ?rsum_cons, ?rsum_nil; [lra|].
  assert (0 <= rsum l) by (apply rsum_nonneg; intros; apply H; right; auto). pose proof (H a (or_introl eq_refl)).
  assert (rsum (map (fun w => w ^ 2) l) <= rsum l ^ 2) by (apply IH; intros; apply H; right; auto).
  pose proof (Rmult_le_pos _ _ H0 H1). nra.
Qed.
Lemma sum_square_le l : (rsum l) ^ 2 <= INR (length l) * rsum (map (fun w => w ^ 2) l).
Proof.
  set (n := INR (length l)). set (q := rsum (map (fun w => w ^ 2) l)). set (s := rsum l).
  assert (E : forall t, rsum (map (fun w => (w - t) ^ 2) l) = q - 2 * t * s + n * t ^ 2).
  { intros t. unfold q, s, n. clear. induction l as [|a l IH]; cbn [map length]; rewrite ?rsum_cons, ?rsum_nil; [cbn [INR]; lra|].
    rewrite IH, S_INR. ring. }
  assert (Z : forall t, 0 <= q - 2 * t * s + n * t ^ 2).
  { intros t. rewrite <- E. apply rsum_nonneg. intros x Hx. apply in_map_iff in Hx as (y & <- & _). apply pow2_ge_0. }
  destruct (Req_dec n 0) as [N|N].
  - assert (l = []). { destruct l; auto. unfold n in N. cbn [length] in N. rewrite S_INR in N. pose proof (pos_INR (length l)). lra. }
    unfold s, q. subst l. cbn [map length INR]. rewrite ?rsum_nil. lra.
  - assert (0 < n) by (unfold n in *; pose proof (pos_INR (length l)); lra).
    pose proof (Z (s / n)). assert (0 <= n * (q - 2 * (s / n) * s + n * (s / n) ^ 2)) by (apply Rmult_le_pos; lra).
    replace (n * (q - 2 * (s / n) * s + n * (s / n) ^ 2)) with (n * q - s ^ 2) in H1 by (field; auto). lra.
Qed.
Lemma raw_square_sum n : (2 <= n)%nat -> 0 < rsum (map (fun w => w ^ 2) (raw_positive n)).
Proof.
  intros H. apply rsum_pos.
  - intros E. apply map_eq_nil in E. exact (raw_positive_ne n H E).
  - intros x Hx. apply in_map_iff in Hx as (y & <- & Hy). apply raw_positive_all in Hy. apply pow_lt. auto.
Qed.
Lemma mu_eff_ge_1 n : (2 <= n)%nat -> 1 <= mu_eff n.
Proof.
  intros H. unfold mu_eff, selection_mass. pose proof (raw_square_sum n H).
  apply Rmult_le_reg_r with (rsum (map (fun w => w ^ 2) (raw_positive n))); auto. unfold Rdiv. rewrite Rmult_assoc, Rinv_l by lra.
  pose proof (square_sum_le (raw_positive n) (fun x Hx => Rlt_le _ _ (raw_positive_all n x Hx))). lra.
Qed.
Lemma mu_eff_le_mu n : (2 <= n)%nat -> mu_eff n <= INR (mu_of n).
Proof.
  intros H. unfold mu_eff, selection_mass. pose proof (raw_square_sum n H).
  apply Rmult_le_reg_r with (rsum (map (fun w => w ^ 2) (raw_positive n))); auto. unfold Rdiv. rewrite Rmult_assoc, Rinv_l by lra.
  pose proof (sum_square_le (raw_positive n)). unfold raw_positive in H1 at 2. rewrite map_length, seq_length in H1. lra.
Qed.
Lemma negative_mass_nonneg n : 0 <= selection_mass (raw_negative n).
Proof.
  unfold selection_mass. destruct (Req_dec (rsum (map (fun w => w ^ 2) (raw_negative n))) 0) as [E|E].
  - assert (rsum (raw_negative n) = 0).
    { pose proof (sum_square_le (raw_negative n)) as S1. rewrite E, Rmult_0_r in S1. pose proof (pow2_ge_0 (rsum (raw_negative n))).
      nra. }
    rewrite H. unfold Rdiv. rewrite pow_i by lia. lra.
  - assert (0 <= rsum (map (fun w => w ^ 2) (raw_negative n))).
    { apply rsum_nonneg. intros x Hx. apply in_map_iff in Hx as (y & <- & _). apply pow2_ge_0. }
    apply Rmult_le_pos; [apply pow2_ge_0|]. left. apply Rinv_0_lt_compat. lra.
Qed.

(* ---- final weights ---- *)
Lemma positive_weights_len n : length (positive_weights n) = mu_of n.
Proof. unfold positive_weights, raw_positive. rewrite !map_length, seq_length. auto. Qed.
Lemma negative_weights_len P : length (negative_weights P) = (p_popsize P - mu_of (p_popsize P))%nat.
Proof. unfold negative_weights, raw_negative. destruct (p_active P); rewrite !map_length, seq_length; auto. Qed.
Lemma weights_len P : length (weights P) = p_popsize P.
Proof. unfold weights. rewrite app_length, positive_weights_len, negative_weights_len. unfold mu_of. lia. Qed.
Lemma positive_weights_nth n k : (k < mu_of n)%nat -> nth k (positive_weights n) 0 = raw_weight n k / rsum (raw_positive n).
Proof.
  intros H. unfold positive_weights. rewrite (nth_indep _ 0 ((fun w => w / rsum (raw_positive n)) 0)) by (rewrite map_length; unfold raw_positive; rewrite map_length, seq_length; auto).
  rewrite map_nth with (f := fun w => w / rsum (raw_positive n)). f_equal. unfold raw_positive.
  rewrite (nth_indep _ 0 (raw_weight n 0)) by (rewrite map_length, seq_length; auto). rewrite map_nth, seq_nth by auto. auto.
Qed.
Lemma positive_weights_sum n : (2 <= n)%nat -> rsum (positive_weights n) = 1.
Proof.
  intros H. pose proof (raw_positive_sum n H). unfold positive_weights.
  rewrite (rsum_ext _ (fun w => / rsum (raw_positive n) * w)) by (intros; unfold Rdiv; apply Rmult_comm).
  rewrite rsum_scale with (f := fun w => w), map_id. field. lra.
Qed.
Definition neg_mass (P : params) : R := if p_active P then alpha (p_d P) (p_popsize P) (p_c_1 P) (p_c_mu P) else 0.
Lemma negative_weights_sum P : (2 <= p_popsize P)%nat -> rsum (negative_weights P) = - neg_mass P.
Proof.
  intros H. unfold negative_weights, neg_mass. destruct (p_active P).
  - pose proof (raw_negative_sum _ H). rewrite abs_negative_sum. set (a := alpha _ _ _ _).
    rewrite (rsum_ext _ (fun w => a / - rsum (raw_negative (p_popsize P)) * w)) by (intros; field; lra).
    rewrite rsum_scale with (f := fun w => w), map_id. field. lra.
  - rewrite rsum_map_zero. lra.
Qed.
Lemma weights_sum P : (2 <= p_popsize P)%nat -> rsum (weights P) = 1 - neg_mass P.
Proof. intros H. unfold weights. rewrite rsum_app, positive_weights_sum, negative_weights_sum; auto. Qed.
Lemma weights_head P k : (k < mu_of (p_popsize P))%nat -> nth k (weights P) 0 = nth k (positive_weights (p_popsize P)) 0.
Proof. intros H. unfold weights. apply app_nth1. rewrite positive_weights_len. auto. Qed.
Lemma weights_head_pos P k : (2 <= p_popsize P)%nat -> (k < mu_of (p_popsize P))%nat -> 0 < nth k (weights P) 0.
Proof.
  intros H K. rewrite weights_head, positive_weights_nth by auto. apply Rdiv_lt_0_compat; [apply raw_pos; auto|apply raw_positive_sum; auto].
Qed.
Lemma weights_head_antitone P k l : (2 <= p_popsize P)%nat -> (k < l < mu_of (p_popsize P))%nat -> nth l (weights P) 0 < nth k (weights P) 0.
Proof.
  intros H K. rewrite !weights_head, !positive_weights_nth by lia. pose proof (raw_positive_sum _ H).
  apply Rmult_lt_compat_r; [apply Rinv_0_lt_compat; auto|]. apply raw_antitone. lia.
Qed.
Lemma weights_tail P k : (mu_of (p_popsize P) <= k < p_popsize P)%nat ->
  nth k (weights P) 0 = if p_active P then alpha (p_d P) (p_popsize P) (p_c_1 P) (p_c_mu P) * raw_weight (p_popsize P) k / rsum (map Rabs (raw_negative (p_popsize P))) else 0.
Proof.
  intros H. unfold weights. rewrite app_nth2 by (rewrite positive_weights_len; lia). rewrite positive_weights_len. unfold negative_weights.
  set (j := (k - mu_of (p_popsize P))%nat). assert (J : (j < p_popsize P - mu_of (p_popsize P))%nat) by lia.
  assert (L : length (raw_negative (p_popsize P)) = (p_popsize P - mu_of (p_popsize P))%nat) by (unfold raw_negative; rewrite map_length, seq_length; auto).
  destruct (p_active P).
  - set (f := fun w => _). rewrite (nth_indep _ 0 (f 0)) by (rewrite map_length; lia). rewrite map_nth. unfold f. f_equal. f_equal.
    unfold raw_negative. rewrite (nth_indep _ 0 (raw_weight (p_popsize P) 0)) by (rewrite map_length, seq_length; auto).
    rewrite map_nth, seq_nth by auto. f_equal. lia.
  - exact (map_nth (fun _ : R => 0) (raw_negative (p_popsize P)) 0 j).
Qed.
Lemma weights_tail_sign P k : (2 <= p_popsize P)%nat -> 0 <= neg_mass P -> (mu_of (p_popsize P) <= k < p_popsize P)%nat -> nth k (weights P) 0 <= 0.
Proof.
  intros H N K. rewrite weights_tail by auto. unfold neg_mass in N. destruct (p_active P); [|lra].
  rewrite abs_negative_sum. pose proof (raw_negative_sum _ H). pose proof (raw_nonpos _ _ (proj1 K)).
  set (a := alpha _ _ _ _) in *. unfold Rdiv. assert (0 < / - rsum (raw_negative (p_popsize P))) by (apply Rinv_0_lt_compat; lra).
  assert (a * raw_weight (p_popsize P) k <= 0) by nra. nra.
Qed.
Lemma weights_antitone P k l : (2 <= p_popsize P)%nat -> 0 <= neg_mass P -> (k <= l < p_popsize P)%nat -> nth l (weights P) 0 <= nth k (weights P) 0.
Proof.
  intros H N K. destruct (Nat.eq_dec k l) as [->|NE]; [lra|].
  destruct (lt_dec l (mu_of (p_popsize P))); [left; apply weights_head_antitone; auto; lia|].
  destruct (lt_dec k (mu_of (p_popsize P))).
  - pose proof (weights_head_pos P k H ltac:(lia)). pose proof (weights_tail_sign P l H N ltac:(lia)). lra.
  - rewrite !weights_tail by lia. unfold neg_mass in N. destruct (p_active P); [|lra].
    rewrite abs_negative_sum. pose proof (raw_negative_sum _ H). pose proof (raw_antitone (p_popsize P) k l ltac:(lia)).
    set (a := alpha _ _ _ _) in *. unfold Rdiv. apply Rmult_le_compat_r; [left; apply Rinv_0_lt_compat; lra|]. nra.
Qed.
Lemma weights_last_neg P : (2 <= p_popsize P)%nat -> 0 < neg_mass P -> nth (p_popsize P - 1) (weights P) 0 < 0.
Proof.
  intros H N. pose proof (mu_of_range _ H). rewrite weights_tail by lia. unfold neg_mass in N. destruct (p_active P); [|lra].
  rewrite abs_negative_sum. pose proof (raw_negative_sum _ H). pose proof (raw_last_neg _ H).
  set (a := alpha _ _ _ _) in *. unfold Rdiv. assert (0 < / - rsum (raw_negative (p_popsize P))) by (apply Rinv_0_lt_compat; lra).
  assert (a * raw_weight (p_popsize P) (p_popsize P - 1) < 0) by nra. nra.
Qed.
Lemma neg_mass_bounds P : rates_ok P -> 0 <= neg_mass P /\ p_c_mu P * neg_mass P <= p_c_1 P + p_c_mu P /\
  INR (p_d P) * p_c_mu P * neg_mass P <= 1 - p_c_1 P - p_c_mu P /\ (p_active P = true -> 0 < neg_mass P).
Proof.
  intros (HD & HP & H1 & HM & HS & _). apply le_INR in HD. cbn [INR] in HD. unfold neg_mass. destruct (p_active P).
  - unfold alpha. set (a1 := 1 + p_c_1 P / p_c_mu P). set (a2 := 1 + 2 * _ / _). set (a3 := _ / (INR _ * _)).
    assert (A1 : p_c_mu P * a1 = p_c_1 P + p_c_mu P) by (unfold a1; field; lra).
    assert (A3 : INR (p_d P) * p_c_mu P * a3 = 1 - p_c_1 P - p_c_mu P) by (unfold a3; field; lra).
    assert (P1 : 1 <= a1). { unfold a1. assert (0 <= p_c_1 P / p_c_mu P) by (apply Rmult_le_pos; [auto|left; apply Rinv_0_lt_compat; auto]). lra. }
    assert (P2 : 1 <= a2).
    { unfold a2. pose proof (negative_mass_nonneg (p_popsize P)). pose proof (mu_eff_ge_1 _ HP).
      assert (0 <= 2 * selection_mass (raw_negative (p_popsize P)) / (mu_eff (p_popsize P) + 2)) by (apply Rmult_le_pos; [lra|left; apply Rinv_0_lt_compat; lra]). lra. }
    assert (P3 : 0 < a3). { unfold a3. apply Rdiv_lt_0_compat; [lra|]. apply Rmult_lt_0_compat; lra. }
    set (m := Rmin (Rmin a1 a2) a3).
    assert (M1 : m <= a1) by (unfold m; eapply Rle_trans; [apply Rmin_l|apply Rmin_l]).
    assert (M3 : m <= a3) by (unfold m; apply Rmin_r).
    assert (M0 : 0 < m) by (unfold m; repeat apply Rmin_glb_lt; lra).
    assert (0 < INR (p_d P) * p_c_mu P) by (apply Rmult_lt_0_compat; lra).
    repeat split; try lra; nra.
  - repeat split; try lra; try discriminate.
Qed.

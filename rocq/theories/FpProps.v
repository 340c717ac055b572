(* C228: sizes computed with floating point numbers. *)
From Coq Require Import QArith Qround Qpower Qabs ZArith Lqa.
From Verif Require Import Prelude CemModel WorkModel FpModel FpProofs.
Close Scope nat_scope.
Open Scope Q_scope.

(* ---------------------------------------------------------------- specification *)
(* counts which are exact as floats, with room to spare *)
Definition small (n : nat) : Prop := (Z.of_nat n < 2 ^ 51)%Z.
(* the largest integer k with k <= x *)
Definition whole_part (x : Q) (k : Z) : Prop := inject_Z k <= x /\ x < inject_Z (k + 1).
(* the smallest integer k with x <= k *)
Definition rounded_up (x : Q) (k : Z) : Prop := inject_Z (k - 1) < x /\ x <= inject_Z k.
(* the relative precision of floats *)
Definition unit_roundoff : Q := 1 # 9007199254740992.

(* ---------------------------------------------------------------- proofs *)
Lemma unit_is : pow2 (-53) == unit_roundoff. Proof. reflexivity. Qed.
Lemma count_pos n : (1 <= n)%nat -> 1 <= count n.
Proof. intros H. unfold count. change 1 with (inject_Z 1). rewrite <- Zle_Qle. lia. Qed.
Lemma count_nonneg n : 0 <= count n.
Proof. unfold count. change 0 with (inject_Z 0). rewrite <- Zle_Qle. lia. Qed.
Lemma error x : 0 <= x -> - (x * unit_roundoff) <= rnd x - x <= x * unit_roundoff.
Proof. intros H. pose proof (rnd_error x H) as E. rewrite unit_is in E. exact E. Qed.
Lemma rnd_nonneg x : 0 <= x -> 0 <= rnd x.
Proof. intros H. pose proof (rnd_mono 0 x ltac:(lra) H) as M. rewrite rnd_zero in M by lra. exact M. Qed.
Lemma plus1 k : inject_Z (k + 1) == inject_Z k + 1. Proof. rewrite inject_Z_plus. reflexivity. Qed.
Lemma minus1 k : inject_Z (k - 1) == inject_Z k - 1. Proof. unfold Z.sub. rewrite inject_Z_plus. reflexivity. Qed.
Lemma whole_floor x k : whole_part x k -> Qfloor x = k.
Proof. intros [H1 H2]. rewrite plus1 in H2. apply floor_unique; assumption. Qed.
Lemma whole_exists x : whole_part x (Qfloor x).
Proof. destruct (floor_bounds x). split; auto. rewrite plus1. assumption. Qed.
Lemma up_ceiling x k : rounded_up x k -> Qceiling x = k.
Proof. intros [H1 H2]. rewrite minus1 in H1. apply ceiling_unique; assumption. Qed.
Lemma up_exists x : rounded_up x (Qceiling x).
Proof. destruct (ceiling_bounds x). split; auto. rewrite minus1. assumption. Qed.
Lemma Zof_small a : (Z.of_nat a < 2 ^ 53)%Z -> count a * unit_roundoff < 1.
Proof. intros H. unfold count. rewrite Zlt_Qlt in H. unfold unit_roundoff. change (inject_Z (2 ^ 53)) with (9007199254740992 # 1) in H. lra. Qed.
Lemma quotient a b : (1 <= b)%nat -> 0 <= count a / count b /\ count a / count b * count b == count a.
Proof.
  intros H. pose proof (count_pos b H). split; [|field; lra]. apply Qle_shift_div_l; [lra|]. rewrite Qmult_0_l. apply count_nonneg.
Qed.
(* an integer is at most as large as a non-negative number which is at most 2^53: so it is not crossed by rounding *)
Lemma keep_low x k : 0 <= x -> x <= inject_Z (2 ^ 53) -> inject_Z k <= x -> inject_Z k <= rnd x.
Proof.
  intros P H K. destruct (Z_le_gt_dec 0 k) as [Hk|Hk].
  - assert ((k <= 2 ^ 53)%Z) by (rewrite Zle_Qle; lra). rewrite <- (rnd_int k) by lia. apply rnd_mono; auto. change 0 with (inject_Z 0). rewrite <- Zle_Qle. exact Hk.
  - assert (inject_Z k <= 0) by (change 0 with (inject_Z 0); rewrite <- Zle_Qle; lia). pose proof (rnd_nonneg x P). lra.
Qed.
Lemma keep_high x k : 0 <= x -> (k <= 2 ^ 53)%Z -> x <= inject_Z k -> rnd x <= inject_Z k.
Proof.
  intros P H K. assert (Hk : (0 <= k)%Z) by (rewrite Zle_Qle; change (inject_Z 0) with 0; lra). rewrite <- (rnd_int k) by lia. apply rnd_mono; auto.
Qed.
Lemma div_floor a b : (1 <= b)%nat -> (Z.of_nat a < 2 ^ 53)%Z -> Qfloor (fdiv a b) = (Z.of_nat a / Z.of_nat b)%Z.
Proof.
  intros Hb Ha. destruct (quotient a b Hb) as [P E]. unfold fdiv. set (q := count a / count b) in *. pose proof (count_pos b Hb) as PB. pose proof (error q P) as R. pose proof (Zof_small a Ha) as S.
  set (k := (Z.of_nat a / Z.of_nat b)%Z). assert (D1 : (k * Z.of_nat b <= Z.of_nat a)%Z) by (unfold k; nia). assert (D2 : (Z.of_nat a + 1 <= (k + 1) * Z.of_nat b)%Z) by (unfold k; nia).
  rewrite Zle_Qle, inject_Z_mult in D1. rewrite Zle_Qle, inject_Z_mult, !inject_Z_plus in D2. fold (count a) (count b) in D1, D2. change (inject_Z 1) with 1 in D2.
  assert (K0 : (0 <= k)%Z) by (apply Z.div_pos; lia). assert (Kq : inject_Z k <= q) by nra.
  assert (Qb : q <= inject_Z (2 ^ 53)). { apply Zlt_le_weak in Ha. rewrite Zle_Qle in Ha. fold (count a) in Ha. nra. }
  apply floor_unique; [apply keep_low; assumption|]. apply Qnot_le_lt. intros C.
  assert (A1 : (inject_Z k + 1) * count b <= rnd q * count b) by (apply Qmult_le_compat_r; lra).
  assert (A2 : rnd q * count b <= (q + q * unit_roundoff) * count b) by (apply Qmult_le_compat_r; lra).
  assert (A3 : (q + q * unit_roundoff) * count b == count a + count a * unit_roundoff) by (rewrite <- E at 1 2; ring). lra.
Qed.
Lemma div_ceiling a b : (1 <= b)%nat -> (Z.of_nat a < 2 ^ 53)%Z -> rounded_up (count a / count b) (Qceiling (fdiv a b)).
Proof.
  intros Hb Ha. destruct (quotient a b Hb) as [P E]. unfold fdiv. set (q := count a / count b) in *. pose proof (count_pos b Hb) as PB. pose proof (error q P) as R. pose proof (Zof_small a Ha) as S.
  pose proof (up_exists q) as [U1 U2]. set (k := Qceiling q) in *. rewrite minus1 in U1.
  assert (D : ((k - 1) * Z.of_nat b + 1 <= Z.of_nat a)%Z).
  { assert (L : inject_Z ((k - 1) * Z.of_nat b) < count a) by (rewrite inject_Z_mult, minus1; fold (count b); nra). unfold count in L. rewrite <- Zlt_Qlt in L. lia. }
  rewrite Zle_Qle, inject_Z_plus, inject_Z_mult, minus1 in D. fold (count a) (count b) in D. change (inject_Z 1) with 1 in D.
  assert (K : Qceiling (rnd q) = k).
  { apply ceiling_unique.
    - apply Qnot_le_lt. intros C. assert (A1 : rnd q * count b <= (inject_Z k - 1) * count b) by (apply Qmult_le_compat_r; lra).
      assert (A2 : (q - q * unit_roundoff) * count b <= rnd q * count b) by (apply Qmult_le_compat_r; lra).
      assert (A3 : (q - q * unit_roundoff) * count b == count a - count a * unit_roundoff) by (rewrite <- E at 1 2; ring). lra.
    - apply keep_high; auto. assert (Qb : ((k - 1) * 1 < 2 ^ 53)%Z); [|lia]. rewrite Zlt_Qlt, inject_Z_mult, minus1. apply Zlt_le_weak in Ha. rewrite Zle_Qle in Ha. fold (count a) in Ha. change (inject_Z 1) with 1. nra. }
  rewrite K. split; [rewrite minus1|]; assumption.
Qed.
Lemma mul_floor x : 0 <= x -> x < inject_Z (2 ^ 53) -> exists k, whole_part x k /\
  (Qfloor (rnd x) = k \/ Qfloor (rnd x) = (k + 1)%Z /\ inject_Z (k + 1) - x <= x * unit_roundoff).
Proof.
  intros P H. exists (Qfloor x). split; [apply whole_exists|]. destruct (whole_exists x) as [W1 W2]. set (k := Qfloor x) in *.
  assert (K : (k + 1 <= 2 ^ 53)%Z) by (assert (inject_Z k < inject_Z (2 ^ 53)) as L by lra; rewrite <- Zlt_Qlt in L; lia).
  pose proof (keep_low x k P ltac:(lra) W1) as L. pose proof (keep_high x (k + 1) P K ltac:(lra)) as U. pose proof (error x P) as R.
  destruct (Qlt_le_dec (rnd x) (inject_Z (k + 1))) as [C|C].
  - left. apply whole_floor. split; auto.
  - right. assert (E : rnd x == inject_Z (k + 1)) by lra. split; [|lra]. apply whole_floor. split; [lra|]. rewrite plus1. lra.
Qed.

(* C228: counts divided by counts are rounded to integers as exact arithmetic would do it, ... *)
Theorem C228_divisions : forall a b, (1 <= b)%nat -> (Z.of_nat a < 2 ^ 53)%Z ->
  rounded_up (count a / count b) (num_pieces_f a b) /\ cosyne_parents_f a = Z.of_nat (Nat.div a 4) /\ half_f a = Z.of_nat (Nat.div a 2).
Proof.
  intros a b Hb Ha. split; [apply div_ceiling; assumption|]. unfold cosyne_parents_f, half_f. rewrite !div_floor by (auto; lia). split; symmetry; apply Nat2Z.inj_div.
Qed.
(* ... products of counts and ratios too, unless the product lies below an integer by at most the precision of floats: then the integer is taken. *)
Theorem C228_products_partial : forall n ratio, 0 <= ratio -> count n * ratio < inject_Z (2 ^ 53) -> exists k, whole_part (count n * ratio) k /\
  forall size, In size [num_elites_f n ratio; cosyne_elites_f n ratio; ipop_popsize_f ratio n] ->
    (size = k \/ size = (k + 1)%Z /\ inject_Z (k + 1) - count n * ratio <= count n * ratio * unit_roundoff) /\
    (ratio <= 1 -> (size <= Z.of_nat n)%Z).
Proof.
  intros n r P H. pose proof (count_nonneg n) as N. assert (X : 0 <= count n * r) by nra. destruct (mul_floor (count n * r) X H) as [k [W D]]. exists k. split; [exact W|].
  assert (I : Qfloor (fmul r (count n)) = Qfloor (rnd (count n * r))) by (apply Qfloor_comp, rnd_proper; [nra|ring]).
  intros size Hs. assert (size = Qfloor (rnd (count n * r))) as ->.
  { destruct Hs as [<-|[<-|[<-|[]]]]; [reflexivity|reflexivity|exact I]. }
  split; [exact D|]. intros R1. destruct (Z_lt_ge_dec (Z.of_nat n) (2 ^ 53)) as [S|S].
  - assert (Y : rnd (count n * r) <= inject_Z (Z.of_nat n)) by (apply keep_high; [exact X|lia|unfold count; fold (count n); nra]).
    rewrite <- (Qfloor_Z (Z.of_nat n)). apply Qfloor_resp_le. exact Y.
  - assert (inject_Z k <= count n * r) by apply W. assert (L : inject_Z k < inject_Z (2 ^ 53)) by lra. rewrite <- Zlt_Qlt in L. destruct D as [->|[-> _]]; lia.
Qed.
(* A ratio given as k / n may cost one of the k elites ... *)
Theorem C228_fraction_partial : forall n k, (1 <= n)%nat -> small k -> num_elites_f n (fdiv k n) = Z.of_nat k \/ num_elites_f n (fdiv k n) = (Z.of_nat k - 1)%Z.
Proof.
  intros n k Hn Hk. unfold num_elites_f, fmul, fdiv. destruct (quotient k n Hn) as [P E]. set (q := count k / count n) in *. pose proof (error q P) as R. pose proof (count_pos n Hn) as N.
  set (r := rnd q) in *. assert (Pr : 0 <= r) by (apply rnd_nonneg; exact P).
  assert (X1 : count n * r <= count k + count k * unit_roundoff).
  { assert (A : r * count n <= (q + q * unit_roundoff) * count n) by (apply Qmult_le_compat_r; lra). assert (B : (q + q * unit_roundoff) * count n == count k + count k * unit_roundoff) by (rewrite <- E at 1 2; ring). lra. }
  assert (X2 : count k - count k * unit_roundoff <= count n * r).
  { assert (A : (q - q * unit_roundoff) * count n <= r * count n) by (apply Qmult_le_compat_r; lra). assert (B : (q - q * unit_roundoff) * count n == count k - count k * unit_roundoff) by (rewrite <- E at 1 2; ring). lra. }
  set (x := count n * r) in *. assert (Px : 0 <= x) by (unfold x; nra). pose proof (error x Px) as Rx.
  assert (K : count k < 2251799813685248 # 1). { unfold small in Hk. rewrite Zlt_Qlt in Hk. exact Hk. }
  unfold unit_roundoff in *. pose proof (count_nonneg k) as Pk. pose proof (whole_exists (rnd x)) as [W1 W2]. set (f := Qfloor (rnd x)) in *. rewrite plus1 in W2.
  assert (F1 : inject_Z f < inject_Z (Z.of_nat k + 1)) by (rewrite plus1; fold (count k); lra). assert (F2 : inject_Z (Z.of_nat k - 2) < inject_Z f) by (unfold Z.sub; rewrite inject_Z_plus; fold (count k); change (inject_Z (- (2))) with (- (2)); lra).
  rewrite <- Zlt_Qlt in F1, F2. lia.
Qed.
(* ... and does so with 1 / 49 of 49 solutions, of which none is left. *)
Theorem C228_fraction_refuted : ~ forall n k, (1 <= k <= n)%nat -> small n -> num_elites_f n (fdiv k n) = Z.of_nat k.
Proof. intros H. specialize (H 49%nat 1%nat ltac:(lia) ltac:(unfold small; lia)). vm_compute in H. discriminate H. Qed.

(* The quotas of the tasks are never smaller than they should be, and exact unless the exact quota is an integer: then one may be added. *)
Theorem C228_quotas_partial : forall p popsize quota, (1 <= popsize)%nat -> small (p * quota) -> small p ->
  exists k, rounded_up (count (p * quota) / count popsize) k /\ (k <= task_quota_f p popsize quota <= k + 1)%Z /\
    ((p * quota) mod popsize <> 0 -> task_quota_f p popsize quota = k)%nat.
Proof.
  intros p n q Hn Hs Hp. unfold task_quota_f, fmul, fdiv. destruct (quotient p n Hn) as [P E]. set (x := count p / count n) in *. pose proof (error x P) as R. pose proof (count_pos n Hn) as N.
  set (r := rnd x) in *. assert (Pr : 0 <= r) by (apply rnd_nonneg; exact P). pose proof (count_nonneg q) as Pq.
  destruct (quotient (p * q) n Hn) as [Pv Ev]. set (v := count (p * q) / count n) in *. assert (M : count (p * q) == count p * count q) by (unfold count; rewrite Nat2Z.inj_mul, inject_Z_mult; reflexivity).
  assert (V : v == x * count q). { apply (Qmult_inj_r _ _ (count n)); [lra|]. rewrite Ev, M, <- E. ring. }
  set (y := r * count q). assert (Py : 0 <= y) by (unfold y; nra). pose proof (error y Py) as Ry.
  assert (Y1 : y <= v + v * unit_roundoff) by (assert (A : r * count q <= (x + x * unit_roundoff) * count q) by (apply Qmult_le_compat_r; lra); unfold y; rewrite V; lra).
  assert (Y2 : v - v * unit_roundoff <= y) by (assert (A : (x - x * unit_roundoff) * count q <= r * count q) by (apply Qmult_le_compat_r; lra); unfold y; rewrite V; lra).
  assert (K : count (p * q) < 2251799813685248 # 1) by (unfold small in Hs; rewrite Zlt_Qlt in Hs; exact Hs).
  exists (Qceiling v). pose proof (up_exists v) as [U1 U2]. set (k := Qceiling v) in *. split; [split; assumption|]. rewrite minus1 in U1.
  pose proof (up_exists (rnd y)) as [W1 W2]. set (t := Qceiling (rnd y)) in *. rewrite minus1 in W1. fold y.
  assert (D : ((k - 1) * Z.of_nat n + 1 <= Z.of_nat (p * q))%Z).
  { assert (L : inject_Z ((k - 1) * Z.of_nat n) < count (p * q)) by (rewrite inject_Z_mult, minus1; fold (count n); nra). unfold count in L. rewrite <- Zlt_Qlt in L. lia. }
  rewrite Zle_Qle, inject_Z_plus, inject_Z_mult, minus1 in D. fold (count (p * q)) (count n) in D. change (inject_Z 1) with 1 in D.
  assert (Vu : v * count n * unit_roundoff < 1 # 4) by (rewrite Ev; unfold unit_roundoff; lra). unfold unit_roundoff in *.
  assert (G : (v - rnd y) * count n < 1) by nra. assert (G' : (rnd y - v) * count n < 1) by nra.
  assert (T1 : (k <= t)%Z). { assert (A : inject_Z (k - 1) < inject_Z t) by (rewrite minus1; nra). rewrite <- Zlt_Qlt in A. lia. }
  assert (T2 : (t <= k + 1)%Z). { assert (A : inject_Z t < inject_Z (k + 2)) by (rewrite inject_Z_plus; change (inject_Z 2) with 2; nra). rewrite <- Zlt_Qlt in A. lia. }
  split; [lia|]. intros ND. assert (D' : (Z.of_nat (p * q) + 1 <= k * Z.of_nat n)%Z).
  { assert (L : inject_Z (Z.of_nat (p * q)) <= inject_Z (k * Z.of_nat n)) by (rewrite inject_Z_mult; fold (count n) (count (p * q)); nra). rewrite <- Zle_Qle in L.
    destruct (Z.eq_dec (Z.of_nat (p * q)) (k * Z.of_nat n)) as [Q|]; [|lia]. exfalso. apply ND. assert (Z0 : (Z.of_nat (p * q) mod Z.of_nat n = 0)%Z) by (rewrite Q; apply Z_mod_mult). rewrite <- Nat2Z.inj_mod in Z0. apply Nat2Z.inj. exact Z0. }
  rewrite Zle_Qle, inject_Z_plus, inject_Z_mult in D'. fold (count (p * q)) (count n) in D'. change (inject_Z 1) with 1 in D'.
  assert (A : inject_Z t < inject_Z (k + 1)) by (rewrite plus1; nra). rewrite <- Zlt_Qlt in A. lia.
Qed.
Theorem C228_quotas_refuted : ~ forall p popsize quota k, (1 <= p <= popsize)%nat -> small (p * quota) -> rounded_up (count (p * quota) / count popsize) k -> task_quota_f p popsize quota = k.
Proof.
  intros H. specialize (H 7%nat 25%nat 100%nat 28%Z ltac:(lia) ltac:(unfold small; lia)). assert (C : task_quota_f 7 25 100 = 29%Z) by (vm_compute; reflexivity).
  rewrite C in H. assert (rounded_up (count (7 * 100) / count 25) 28) as R by (split; vm_compute; [reflexivity|discriminate]). specialize (H R). discriminate H.
Qed.
(* So the quotas of all tasks together always reach the quota. *)
Theorem C228_quotas_enough : forall tasks popsize quota, (1 <= popsize)%nat -> fold_right Nat.add 0%nat tasks = popsize -> small (popsize * quota) -> small popsize ->
  (Z.of_nat quota <= fold_right Z.add 0 (map (fun p => task_quota_f p popsize quota) tasks))%Z.
Proof.
  intros tasks n q Hn Hsum Hs Hs'. assert (G : forall l, (fold_right Nat.add 0 l <= n)%nat ->
    (Z.of_nat (fold_right Nat.add 0%nat l * q) <= Z.of_nat n * fold_right Z.add 0 (map (fun p => task_quota_f p n q) l))%Z).
  { induction l as [|p l IH]; intros B; cbn [fold_right map]; [lia|]. cbn [fold_right] in B. specialize (IH ltac:(lia)).
    destruct (C228_quotas_partial p n q Hn) as [k [[_ U] [T _]]]; [unfold small in *; nia|unfold small in *; lia|].
    assert (L : (Z.of_nat (p * q) <= k * Z.of_nat n)%Z). { rewrite Zle_Qle, inject_Z_mult. fold (count n) (count (p * q)). destruct (quotient (p * q) n Hn) as [_ Ev]. rewrite <- Ev. apply Qmult_le_compat_r; [exact U|apply count_nonneg]. }
    nia. }
  specialize (G tasks ltac:(lia)). rewrite Hsum in G. nia.
Qed.
(* The number of children for a cross-over rate is always even, and at most one away from the (rounded) product. *)
Theorem C228_tournaments : forall n rate, 0 <= rate -> Z.even (num_tournaments_f n rate) = true /\
  - (1) <= inject_Z (num_tournaments_f n rate) - fmul (count n) rate <= 1.
Proof.
  intros n r _. unfold num_tournaments_f. cbv zeta. set (f := fmul (count n) r). destruct (floor_bounds f) as [F1 F2]. destruct (ceiling_bounds f) as [C1 C2].
  assert (M : forall z, Z.eqb (z mod 2) 0 = Z.even z) by (intros z; rewrite Zmod_even; destruct (Z.even z); reflexivity). rewrite !M.
  destruct (Z.eqb_spec (Qceiling f) (Qfloor f)) as [E|N].
  - destruct (Z.even (Qceiling f)) eqn:V; cbn [negb]; [split; [exact V|lra]|]. rewrite E in *. split; [|rewrite plus1; lra]. rewrite Z.even_add, V. reflexivity.
  - destruct (Z.even (Qceiling f)) eqn:V; [split; [exact V|lra]|]. split; [|lra].
    assert (S : Qceiling f = (Qfloor f + 1)%Z).
    { assert (A : inject_Z (Qceiling f) < inject_Z (Qfloor f + 2)) by (rewrite inject_Z_plus; change (inject_Z 2) with 2; lra). assert (B : inject_Z (Qfloor f) <= inject_Z (Qceiling f)) by lra. rewrite <- Zlt_Qlt in A. rewrite <- Zle_Qle in B. lia. }
    rewrite S, Z.even_add in V. destruct (Z.even (Qfloor f)); [reflexivity|discriminate].
Qed.
(* What the models of other files compute exactly is what the code computes (pieces of a batch), or at most one less (elites, C55; quotas, C54). *)
Theorem C228_models : forall a b ratio, (1 <= b)%nat -> 0 <= ratio <= 1 -> small a ->
  num_pieces_f a b = Z.of_nat (ceil_div a b) /\
  (Z.of_nat (num_elites a ratio) <= num_elites_f a ratio <= Z.of_nat (num_elites a ratio) + 1)%Z.
Proof.
  intros a b r Hb Hr Ha. unfold small in Ha. split.
  - destruct (C228_divisions a b Hb ltac:(lia)) as [[U1 U2] _]. set (k := num_pieces_f a b) in *. destruct (quotient a b Hb) as [P E]. pose proof (count_pos b Hb) as PB. rewrite minus1 in U1.
    assert (L1 : inject_Z ((k - 1) * Z.of_nat b) < inject_Z (Z.of_nat a)) by (rewrite inject_Z_mult, minus1; fold (count b) (count a); rewrite <- E; apply Qmult_lt_r; lra).
    assert (L2 : inject_Z (Z.of_nat a) <= inject_Z (k * Z.of_nat b)) by (rewrite inject_Z_mult; fold (count b) (count a); rewrite <- E; apply Qmult_le_compat_r; lra).
    rewrite <- Zlt_Qlt in L1. rewrite <- Zle_Qle in L2. unfold ceil_div. rewrite Nat2Z.inj_div. apply Zdiv_unique with (r := (Z.of_nat (a + b - 1) - k * Z.of_nat b)%Z); [|lia].
    rewrite Nat2Z.inj_sub, Nat2Z.inj_add by lia. nia.
  - pose proof (count_nonneg a) as N. assert (A1 : count a < inject_Z (2 ^ 53)) by (unfold count; rewrite <- Zlt_Qlt; lia).
    destruct (C228_products_partial a r ltac:(lra) ltac:(nra)) as [k [W D]]. destruct (D (num_elites_f a r) (or_introl eq_refl)) as [D' _].
    unfold num_elites. fold (count a). rewrite (whole_floor _ _ W). assert (K : (-1 < k)%Z) by (destruct W as [_ W]; rewrite Zlt_Qlt; rewrite plus1 in W; change (inject_Z (-1)) with (- (1)); nra).
    rewrite Z2Nat.id by lia. lia.
Qed.
Print Assumptions C228_models.
Print Assumptions C228_divisions.
Print Assumptions C228_products_partial.
Print Assumptions C228_fraction_partial.
Print Assumptions C228_fraction_refuted.
Print Assumptions C228_quotas_partial.
Print Assumptions C228_quotas_refuted.
Print Assumptions C228_quotas_enough.
Print Assumptions C228_tournaments.

(* a ratio of 0.29 (as a float, which is slightly smaller) of 100 solutions gives 28; 3/10 gives all 3 of 10 *)
Example C228_example : rnd (29 # 100) < 29 # 100 /\ num_elites_f 100 (rnd (29 # 100)) = 28%Z /\ num_elites_f 10 (fdiv 3 10) = 3%Z /\ num_pieces_f 10 3 = 4%Z /\ small 100.
Proof. repeat split; vm_compute; reflexivity. Qed.

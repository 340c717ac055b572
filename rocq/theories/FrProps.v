(* C230: rank-based utilities in the dtype of the fitnesses. *)
From Coq Require Import QArith Qround Qpower Qabs ZArith Lqa Permutation.
From Verif Require Import Prelude FloatLib BatchSpec RankSpec RankModel RankProofs FpModel FpProofs FrModel FrProofs.
Close Scope nat_scope.
Open Scope Q_scope.

(* ---------------------------------------------------------------- specification *)
(* two utilities differ by no more than d *)
Definition within (d : Q) (a b : option Q) : Prop := match a, b with Some x, Some y => - d <= x - y <= d | _, _ => False end.
(* better solutions have greater utilities *)
Definition ordered (higher_is_better : bool) (x : list fl) (u : list (option Q)) : Prop :=
  length u = length x /\
  forall i j a b, (i < length x)%nat -> (j < length x)%nat -> better higher_is_better (at_ x j) (at_ x i) ->
    nth_error u i = Some a -> nth_error u j = Some b -> olt a b.
(* two solutions have the same utility *)
Definition shared (u : list (option Q)) : Prop :=
  exists i j a b, i <> j /\ nth_error u i = Some (Some a) /\ nth_error u j = Some (Some b) /\ a == b.

(* the numbers with p significant bits *)
Definition representable (p : Z) (y : Q) : Prop := exists m e, (- 2 ^ p <= m <= 2 ^ p)%Z /\ y == inject_Z m * pow2 e.

(* ---------------------------------------------------------------- proofs *)
Lemma nearest_best q j : Qabs (inject_Z (nearest q) - q) <= Qabs (inject_Z j - q).
Proof.
  pose proof (nearest_error q) as E. destruct (Qlt_le_dec (Qabs (inject_Z j - q)) (1 # 2)) as [H|H].
  - apply Qabs_Qlt_condition in H. assert (A : inject_Z (nearest q) < inject_Z (j + 1)) by (rewrite inject_Z_plus; change (inject_Z 1) with 1; lra). assert (B : inject_Z j < inject_Z (nearest q + 1)) by (rewrite inject_Z_plus; change (inject_Z 1) with 1; lra).
    rewrite <- Zlt_Qlt in A, B. assert (nearest q = j) as -> by lia. apply Qle_refl.
  - eapply Qle_trans; [|exact H]. apply Qabs_Qle_condition. lra.
Qed.
Lemma rnd_up_best p x m e : (1 <= p)%Z -> 0 < x -> (m <= 2 ^ p)%Z -> Qabs (rnd_up p x - x) <= Qabs (inject_Z m * pow2 e - x).
Proof.
  intros Hp P M. unfold rnd_up. set (u := unit_of p x). assert (Pu : 0 < u) by apply unit_pos. destruct (magnitude_spec x P) as [A _].
  assert (G : forall j, Qabs (inject_Z (nearest (x / u)) * u - x) <= Qabs (inject_Z j * u - x)).
  { intros j. setoid_replace (inject_Z (nearest (x / u)) * u - x) with ((inject_Z (nearest (x / u)) - x / u) * u) by (field; lra). setoid_replace (inject_Z j * u - x) with ((inject_Z j - x / u) * u) by (field; lra).
    rewrite !Qabs_Qmult. apply Qmult_le_compat_r; [apply nearest_best|apply Qabs_nonneg]. }
  assert (T : pow2 (magnitude x) == inject_Z (2 ^ (p - 1)) * u) by (unfold u, unit_of; rewrite <- pow2_Z, <- pow2_add by lia; replace (p - 1 + (magnitude x - (p - 1)))%Z with (magnitude x) by lia; reflexivity).
  destruct (Qlt_le_dec (inject_Z m * pow2 e) (pow2 (magnitude x))) as [L|L].
  - eapply Qle_trans; [apply (G (2 ^ (p - 1))%Z)|]. rewrite <- T. rewrite !Qabs_neg by lra. lra.
  - assert (I : exists j, inject_Z m * pow2 e == inject_Z j * u).
    { pose proof (pow2_pos e) as Pe. assert (Pt : (0 < 2 ^ p)%Z) by (apply Z.pow_pos_nonneg; lia). destruct (Z.eq_dec m (2 ^ p)) as [Em|Nm].
      - rewrite Em, <- pow2_Z, <- pow2_add in L by lia. assert (K : (magnitude x <= p + e)%Z).
        { destruct (Z_le_gt_dec (magnitude x) (p + e)) as [|K]; auto. exfalso. pose proof (pow2_le (p + e + 1) (magnitude x) ltac:(lia)) as F. rewrite (pow2_add (p + e) 1) in F. change (pow2 1) with (2#1) in F. pose proof (pow2_pos (p + e)). lra. }
        exists (2 ^ (p + e - (magnitude x - (p - 1))))%Z. rewrite Em, <- !pow2_Z by lia. unfold u, unit_of. rewrite <- !pow2_add. replace (p + e - (magnitude x - (p - 1)) + (magnitude x - (p - 1)))%Z with (p + e)%Z by lia. reflexivity.
      - assert (K : (magnitude x < p + e)%Z). { apply pow2_lt_inv. eapply Qle_lt_trans; [exact L|]. rewrite pow2_add, (pow2_Z p) by lia. apply Qmult_lt_r; auto. rewrite <- Zlt_Qlt. lia. }
        exists (m * 2 ^ (e - (magnitude x - (p - 1))))%Z. rewrite inject_Z_mult, <- pow2_Z, <- Qmult_assoc by lia. unfold u, unit_of. rewrite <- pow2_add. replace (e - (magnitude x - (p - 1)) + (magnitude x - (p - 1)))%Z with e by lia. reflexivity. }
    destruct I as [j Ej]. rewrite Ej. apply G.
Qed.
Lemma rnd_up_representable p x : (1 <= p)%Z -> 0 < x -> exists m e, (0 <= m <= 2 ^ p)%Z /\ rnd_up p x == inject_Z m * pow2 e.
Proof.
  intros Hp P. exists (nearest (x / unit_of p x)), (magnitude x - (p - 1))%Z. split; [|reflexivity]. pose proof (unit_pos p x) as Pu. destruct (magnitude_spec x P) as [A B].
  assert (T : pow2 (magnitude x + 1) == inject_Z (2 ^ p) * unit_of p x) by (unfold unit_of; rewrite <- pow2_Z, <- pow2_add by lia; replace (p + (magnitude x - (p - 1)))%Z with (magnitude x + 1)%Z by lia; reflexivity).
  split; [rewrite <- (nearest_int (inject_Z 0) 0) by reflexivity|rewrite <- (nearest_int (inject_Z (2 ^ p)) (2 ^ p)) by reflexivity]; apply nearest_mono.
  - change (inject_Z 0) with 0. apply Qle_shift_div_l; auto. lra.
  - apply Qle_shift_div_r; auto. rewrite <- T. lra.
Qed.
(* round_to is rounding to a nearest number with p significant bits *)
Theorem C230_rounding : forall p x, (1 <= p)%Z -> representable p (round_to p x) /\ forall y, representable p y -> Qabs (round_to p x - x) <= Qabs (y - x).
Proof.
  intros p x Hp. destruct (Qlt_le_dec 0 x) as [P|P]; [|destruct (Qlt_le_dec x 0) as [L|L]].
  - rewrite round_pos by exact P. split.
    + destruct (rnd_up_representable p x Hp P) as [m [e [M E]]]. exists m, e. split; [lia|exact E].
    + intros y [m [e [M ->]]]. apply rnd_up_best; auto. lia.
  - rewrite round_neg by exact L. split.
    + destruct (rnd_up_representable p (- x) Hp ltac:(lra)) as [m [e [M E]]]. exists (- m)%Z, e. split; [lia|]. rewrite E, inject_Z_opp. ring.
    + intros y [m [e [M ->]]]. pose proof (rnd_up_best p (- x) (- m) e Hp ltac:(lra) ltac:(lia)) as B. rewrite <- (Qabs_opp (- rnd_up p (- x) - x)), <- (Qabs_opp (inject_Z m * pow2 e - x)).
      setoid_replace (- (- rnd_up p (- x) - x)) with (rnd_up p (- x) - - x) by ring. setoid_replace (- (inject_Z m * pow2 e - x)) with (inject_Z (- m) * pow2 e - - x) by (rewrite inject_Z_opp; ring). exact B.
  - assert (Z0 : x == 0) by lra. rewrite round_zero by exact Z0. assert (0 < 2 ^ p)%Z by (apply Z.pow_pos_nonneg; lia). split; [exists 0%Z, 0%Z; split; [lia|reflexivity]|]. intros y _. rewrite Qabs_pos by lra. eapply Qle_trans; [|apply Qabs_nonneg]. lra.
Qed.
Lemma pow2_half e : pow2 e == 2 * pow2 (e - 1).
Proof. replace e with (e - 1 + 1)%Z at 1 by lia. rewrite pow2_add. change (pow2 1) with (2#1). ring. Qed.
Lemma steps_lt (N : nat) (f : nat -> Q) : (forall k, (S k <= N)%nat -> f k < f (S k)) -> forall k l, (k < l)%nat -> (l <= N)%nat -> f k < f l.
Proof. intros H k l L. induction L as [|l L IH]; intros HL; [apply H; lia|]. eapply Qlt_trans; [apply IH; lia|apply H; lia]. Qed.
Section PROOFS.
  Variable p : Z.
  Hypothesis Hp : (1 <= p)%Z.

  Lemma count_le a b : (a <= b)%nat -> count a <= count b.
  Proof using. intros H. unfold count. rewrite <- Zle_Qle. lia. Qed.
  Lemma count_pos a : (0 < a)%nat -> 0 < count a.
  Proof using. intros H. unfold count. change 0 with (inject_Z 0). rewrite <- Zlt_Qlt. lia. Qed.
  Lemma count_S a : count (S a) == count a + 1.
  Proof using. unfold count. rewrite Nat2Z.inj_succ. unfold Z.succ. rewrite inject_Z_plus. reflexivity. Qed.
  Lemma round_count n : (Z.of_nat n <= 2 ^ p)%Z -> round_to p (count n) == count n.
  Proof using Hp. intros H. apply round_int; auto. lia. Qed.

  Definition w (N k : nat) : Q := round_to p (round_to p (count k) / round_to p (count N)).
  Definition c (N k : nat) : Q := round_to p (w N k - (1 # 2)).

  Section FITS.
    Variable N : nat.
    Hypothesis HN : (1 <= N)%nat.
    Hypothesis Hf : (Z.of_nat N < 2 ^ p)%Z.
    Let x (k : nat) : Q := count k / count N.
    Lemma w_exact k : (k <= N)%nat -> w N k == round_to p (x k).
    Proof using Hp Hf HN. intros H. unfold w. apply round_proper. unfold x. rewrite !round_count by lia. reflexivity. Qed.
    Lemma x_range k : (k <= N)%nat -> 0 <= x k <= 1.
    Proof using HN Hf Hp.
      intros H. pose proof (count_pos N HN) as PN. pose proof (count_le k N H) as L. pose proof (count_le 0 k ltac:(lia)) as Z. change (count 0) with 0 in Z. unfold x.
      split; [apply Qle_shift_div_l|apply Qle_shift_div_r]; auto; lra.
    Qed.
    Lemma x_gap k : x k + pow2 (- p) < x (S k).
    Proof using HN Hf Hp.
      pose proof (count_pos N HN) as PN. pose proof (pow2_pos (- p)) as Pp. assert (E : x (S k) == x k + 1 / count N) by (unfold x; rewrite count_S; field; lra).
      assert (G : pow2 (- p) < 1 / count N). { apply Qlt_shift_div_l; auto. setoid_replace 1 with (pow2 (- p) * pow2 p) by (rewrite <- pow2_add; replace (- p + p)%Z with 0%Z by lia; reflexivity). rewrite !(Qmult_comm (pow2 (- p))). apply Qmult_lt_r; auto. unfold count. rewrite pow2_Z, <- Zlt_Qlt by lia. exact Hf. }
      lra.
    Qed.
    Lemma w_error k : (k <= N)%nat -> - pow2 (- p - 1) <= w N k - x k <= pow2 (- p - 1).
    Proof using HN Hf Hp.
      intros H. rewrite (w_exact k H). pose proof (x_range k H). replace (- p - 1)%Z with (0 - p - 1)%Z by lia. apply round_error; auto. change (pow2 0) with 1. lra.
    Qed.
    Lemma w_step k : (S k <= N)%nat -> w N k < w N (S k).
    Proof using HN Hf Hp.
      intros H. pose proof (w_error k ltac:(lia)). pose proof (w_error (S k) H). pose proof (x_gap k). pose proof (pow2_half (- p)). lra.
    Qed.
    Lemma w_range k : (k <= N)%nat -> 0 <= w N k <= 1.
    Proof using HN Hf Hp.
      intros H. rewrite (w_exact k H). destruct (x_range k H) as [A B]. split.
      - rewrite <- (round_zero p 0) by reflexivity. apply round_mono; auto.
      - rewrite <- (round_pow2 p Hp 0). apply round_mono; auto.
    Qed.
    Lemma half_round : round_to p (1 # 2) == 1 # 2. Proof using Hp. apply (round_pow2 p Hp (-1)). Qed.
    Lemma c_step k : (S k <= N)%nat -> c N k < c N (S k).
    Proof using HN Hf Hp.
      intros H. pose proof (w_step k H) as S0. pose proof (w_range k ltac:(lia)) as R1. pose proof (w_range (S k) H) as R2. pose proof (x_range k ltac:(lia)) as X1. pose proof (x_range (S k) H) as X2.
      pose proof (x_gap k) as G. pose proof (pow2_half (- p)) as P1. pose proof (pow2_half (- p - 1)) as P2. pose proof (pow2_pos (- p - 1 - 1)) as P3.
      assert (E : forall y, 0 <= y <= 1 -> - pow2 (- p - 1 - 1) <= round_to p (y - (1 # 2)) - (y - (1 # 2)) <= pow2 (- p - 1 - 1)).
      { intros y Hy. replace (- p - 1 - 1)%Z with (-1 - p - 1)%Z by lia. apply round_error; auto. change (pow2 (-1)) with (1 # 2). lra. }
      unfold c. pose proof (E _ R1) as E1. pose proof (E _ R2) as E2.
      destruct (Qlt_le_dec (x (S k)) (1 # 2)) as [A|A].
      - (* below one half *)
        assert (F : forall j, (j <= N)%nat -> x j <= 1 # 2 -> - pow2 (- p - 1 - 1) <= w N j - x j <= pow2 (- p - 1 - 1)).
        { intros j Hj Hx. rewrite (w_exact j Hj). replace (- p - 1 - 1)%Z with (-1 - p - 1)%Z by lia. apply round_error; auto. pose proof (x_range j Hj). change (pow2 (-1)) with (1 # 2). lra. }
        pose proof (F k ltac:(lia) ltac:(lra)). pose proof (F (S k) H ltac:(lra)). lra.
      - destruct (Qlt_le_dec (x k) (1 # 2)) as [B|B].
        + (* one half is between *)
          assert (W1 : w N k <= 1 # 2) by (rewrite (w_exact k) by lia; rewrite <- half_round; apply round_mono; auto; lra).
          assert (W2 : 1 # 2 <= w N (S k)) by (rewrite (w_exact (S k)) by lia; rewrite <- half_round at 1; apply round_mono; auto).
          destruct (round_sign p Hp (w N k - (1 # 2))) as [_ C1]. destruct (round_sign p Hp (w N (S k) - (1 # 2))) as [C2 _].
          destruct (Qlt_le_dec (w N k) (1 # 2)) as [D|D].
          * specialize (C1 ltac:(lra)). destruct (Qlt_le_dec (1 # 2) (w N (S k))) as [F|F]; [specialize (C2 ltac:(lra)); lra|]. rewrite (round_zero p (w N (S k) - (1 # 2))) by lra. exact C1.
          * specialize (C2 ltac:(lra)). rewrite (round_zero p (w N k - (1 # 2))) by lra. exact C2.
        + (* above one half, on the grid *)
          destruct (round_multiple p Hp (x k) (-1)) as [a Ea]; [change (pow2 (-1)) with (1 # 2); lra|]. destruct (round_multiple p Hp (x (S k)) (-1)) as [b Eb]; [change (pow2 (-1)) with (1 # 2); lra|].
          replace (-1 - (p - 1))%Z with (- p)%Z in Ea, Eb by lia. rewrite <- w_exact in Ea, Eb by lia. pose proof (multiple_gap a b (- p) ltac:(lra)). lra.
    Qed.
    Lemma c_error k : (k <= N)%nat -> - (3 * pow2 (- p - 2)) <= c N k - (x k - (1 # 2)) <= 3 * pow2 (- p - 2).
    Proof using HN Hf Hp.
      intros H. pose proof (w_error k H). pose proof (w_range k H). pose proof (pow2_half (- p - 1)) as P. replace (- p - 1 - 1)%Z with (- p - 2)%Z in P by lia.
      assert (E : - pow2 (- p - 2) <= c N k - (w N k - (1 # 2)) <= pow2 (- p - 2)).
      { unfold c. replace (- p - 2)%Z with (-1 - p - 1)%Z by lia. apply round_error; auto. change (pow2 (-1)) with (1 # 2). lra. }
      lra.
    Qed.
    Lemma c_range k : (k <= N)%nat -> - (1 # 2) <= c N k <= 1 # 2.
    Proof using HN Hf Hp.
      intros H. pose proof (w_range k H). unfold c. split.
      - rewrite <- half_round at 1. rewrite <- round_opp. apply round_mono; auto. lra.
      - rewrite <- half_round at 2. apply round_mono; auto. lra.
    Qed.
  End FITS.
End PROOFS.

Lemma linear_weight_w p n k : (2 <= n)%nat -> linear_weight_f p n k = Some (w p (n - 1) k).
Proof. intros H. unfold linear_weight_f. rewrite (proj2 (Nat.eqb_neq n 1)) by lia. reflexivity. Qed.
Lemma centered_weight_c p n k : (2 <= n)%nat -> centered_weight_f p n k = Some (c p (n - 1) k).
Proof. intros H. unfold centered_weight_f. rewrite linear_weight_w by exact H. reflexivity. Qed.

Section RANKING.
  Variable p : Z.
  Hypothesis Hp : (1 <= p)%Z.
  Variable sorter : bool -> list fl -> list nat.
  Hypothesis Hs : argsort_ok sorter.

Theorem C230_order : forall x hib, no_nan x -> (2 <= length x)%nat -> (Z.of_nat (length x) <= 2 ^ p)%Z ->
    ordered hib x (linear_f p sorter x hib) /\ ordered hib x (centered_f p sorter x hib).
  Proof using Hp Hs.
    intros x hib HN H2 Hl. split.
    - apply (scatter_monotone sorter Hs None (linear_weight_f p (length x)) olt x hib HN). intros k l H. rewrite !linear_weight_w by exact H2. cbn [olt].
      apply (steps_lt (length x - 1)); [|lia|lia]. intros j Hj. apply w_step; auto; lia.
    - apply (scatter_monotone sorter Hs None (centered_weight_f p (length x)) olt x hib HN). intros k l H. rewrite !centered_weight_c by exact H2. cbn [olt].
      apply (steps_lt (length x - 1)); [|lia|lia]. intros j Hj. apply c_step; auto; lia.
  Qed.

  (* utilities are numbers of the dtype, of any population of at least two *)
Theorem C230_in_dtype : forall x hib a, (2 <= length x)%nat -> In a (linear_f p sorter x hib) \/ In a (centered_f p sorter x hib) -> exists q, a = Some q /\ representable p q.
  Proof using Hp Hs.
    intros x hib a H2 [H|H].
    - apply (Permutation_in _ (rank_perm sorter Hs None (linear_weight_f p (length x)) x hib)) in H. apply in_map_iff in H as [k [<- _]]. rewrite linear_weight_w by exact H2. eexists. split; [reflexivity|]. apply (C230_rounding p _ Hp).
    - apply (Permutation_in _ (rank_perm sorter Hs None (centered_weight_f p (length x)) x hib)) in H. apply in_map_iff in H as [k [<- _]]. rewrite centered_weight_c by exact H2. eexists. split; [reflexivity|]. apply (C230_rounding p _ Hp).
  Qed.

  Lemma scatter_forall2 {A B} (R : A -> B -> Prop) dA dB idx n (f : nat -> A) (g : nat -> B) : Permutation idx (seq 0 n) -> (forall k, (k < n)%nat -> R (f k) (g k)) ->
    Forall2 R (scatter dA idx (map f (seq 0 n))) (scatter dB idx (map g (seq 0 n))).
  Proof using.
    intros P H. destruct (scatter_ok dA idx (map f (seq 0 n))) as [L1 N1]; [rewrite map_length, seq_length; exact P|]. destruct (scatter_ok dB idx (map g (seq 0 n))) as [L2 N2]; [rewrite map_length, seq_length; exact P|].
    rewrite map_length, seq_length in L1, L2.
    assert (E : forall i, (i < n)%nat -> exists a b, nth_error (scatter dA idx (map f (seq 0 n))) i = Some a /\ nth_error (scatter dB idx (map g (seq 0 n))) i = Some b /\ R a b).
    { intros i Hi. assert (In i idx) as I0 by (apply (Permutation_in _ (Permutation_sym P)), in_seq; lia). apply In_nth_error in I0 as [k Hk].
      assert (k < n)%nat as K by (rewrite <- (seq_length n 0), <- (Permutation_length P); apply nth_error_Some; congruence).
      assert (S0 : nth_error (seq 0 n) k = Some k) by (rewrite (nth_error_nth' _ 0%nat) by (rewrite seq_length; exact K); rewrite seq_nth by exact K; reflexivity).
      exists (f k), (g k). split; [apply (N1 k); auto; rewrite nth_error_map, S0; reflexivity|]. split; [apply (N2 k); auto; rewrite nth_error_map, S0; reflexivity|]. auto. }
    revert L1 L2 E. generalize (scatter dA idx (map f (seq 0 n))) (scatter dB idx (map g (seq 0 n))). clear. intros l l' L1 L2. rewrite <- L1 in *. clear L1. revert l' L2.
    induction l as [|a l IH]; intros [|b l'] L2 E; cbn [length] in *; try discriminate; constructor.
    - destruct (E 0%nat ltac:(lia)) as [a' [b' [E1 [E2 HR]]]]. cbn in E1, E2. congruence.
    - apply IH; [lia|]. intros i Hi. apply (E (S i)). lia.
  Qed.

Theorem C230_close : forall x hib, (2 <= length x)%nat -> (Z.of_nat (length x) <= 2 ^ p)%Z ->
    Forall2 (within (pow2 (- p - 1))) (linear_f p sorter x hib) (linear sorter x hib) /\
    Forall2 (within (3 * pow2 (- p - 2))) (centered_f p sorter x hib) (centered sorter x hib).
  Proof using Hp Hs.
    intros x hib H2 Hl. destruct (Hs (negb hib) x) as [P _]. unfold linear_f, linear, centered_f, centered. cbv zeta. split; apply scatter_forall2; auto; intros k Hk.
    - rewrite linear_weight_w by exact H2. unfold linear_weight. rewrite (proj2 (Nat.eqb_neq (length x) 1)) by lia. cbn [within]. apply w_error; auto; lia.
    - rewrite centered_weight_c by exact H2. unfold centered_weight, linear_weight. rewrite (proj2 (Nat.eqb_neq (length x) 1)) by lia. cbn [within option_map]. apply c_error; auto; lia.
  Qed.

  Lemma osum_within d l l' : Forall2 (within d) l l' -> - (count (length l) * d) <= osum l - osum l' <= count (length l) * d.
  Proof using.
    induction 1 as [|a b l l' W F IH]; [change (count (length (@nil (option Q)))) with 0; unfold osum; cbn [fold_right]; lra|]. cbn [length]. rewrite count_S. unfold osum in *. cbn [fold_right]. destruct a, b; cbn in W; try contradiction. cbn [oval]. lra.
  Qed.
Theorem C230_sum_partial : forall x hib, (2 <= length x)%nat -> (Z.of_nat (length x) <= 2 ^ p)%Z ->
    Qabs (osum (centered_f p sorter x hib)) <= count (length x) * (3 * pow2 (- p - 2)).
  Proof using Hp Hs.
    intros x hib H2 Hl. destruct (C230_close x hib H2 Hl) as [_ F]. pose proof (osum_within _ _ _ F) as O.
    assert (Z0 : osum (centered sorter x hib) == 0) by (unfold centered; cbv zeta; rewrite (osum_perm _ _ (rank_perm sorter Hs None (centered_weight (length x)) x hib)); apply osum_centered; exact H2).
    assert (L : length (centered_f p sorter x hib) = length x) by (unfold centered_f; cbv zeta; rewrite (Permutation_length (rank_perm sorter Hs None (centered_weight_f p (length x)) x hib)), map_length, seq_length; reflexivity).
    rewrite L in O. apply Qabs_Qle_condition. lra.
  Qed.

Theorem C230_sum_refuted : forall x hib, (2 <= p)%Z -> length x = 4%nat -> ~ osum (centered_f p sorter x hib) == 0.
  Proof using Hp Hs.
    intros x hib P2 L S0. unfold centered_f in S0. cbv zeta in S0. rewrite (osum_perm _ _ (rank_perm sorter Hs None (centered_weight_f p (length x)) x hib)), L in S0.
    cbn [seq map] in S0. rewrite !centered_weight_c in S0 by lia. unfold osum in S0. cbn [fold_right oval Nat.sub] in S0.
    assert (H4 : (2 ^ 2 <= 2 ^ p)%Z) by (apply Z.pow_le_mono_r; lia). change (2 ^ 2)%Z with 4%Z in H4.
    assert (W : forall k, (k <= 3)%nat -> w p 3 k == round_to p (count k / count 3)) by (intros k Hk; apply w_exact; auto; cbn; lia).
    assert (W0 : w p 3 0 == 0) by (rewrite (W 0%nat ltac:(lia)), round_zero; reflexivity).
    assert (W3 : w p 3 3 == 1) by (rewrite (W 3%nat ltac:(lia)); rewrite (round_proper p _ (pow2 0)) by reflexivity; apply round_pow2; auto).
    set (r := round_to p (1 # 3)) in *.
    assert (W1 : w p 3 1 == r) by (rewrite (W 1%nat ltac:(lia)); apply round_proper; reflexivity).
    assert (W2 : w p 3 2 == 2 * r) by (rewrite (W 2%nat ltac:(lia)); unfold r; rewrite <- round_double; apply round_proper; reflexivity).
    destruct (round_multiple p Hp (1 # 3) (-2)) as [m Em]; [discriminate|]. replace (-2 - (p - 1))%Z with (- p - 1)%Z in Em by lia. fold r in Em. set (u := pow2 (- p - 1)) in *.
    assert (Pu : 0 < u) by apply pow2_pos.
    assert (Q4 : 1 # 4 == inject_Z (2 ^ (p - 1)) * u) by (unfold u; rewrite <- pow2_Z, <- pow2_add by lia; replace (p - 1 + (- p - 1))%Z with (-2)%Z by lia; reflexivity).
    assert (Q2 : 1 # 2 == inject_Z (2 ^ p) * u) by (unfold u; rewrite <- pow2_Z, <- pow2_add by lia; replace (p + (- p - 1))%Z with (-1)%Z by lia; reflexivity).
    assert (R : 1 # 4 <= r <= 1 # 2).
    { split; [rewrite <- (round_pow2 p Hp (-2) : round_to p (1 # 4) == 1 # 4)|rewrite <- (round_pow2 p Hp (-1) : round_to p (1 # 2) == 1 # 2)]; apply round_mono; auto; discriminate. }
    destruct R as [R1 R2]. rewrite Em, Q4 in R1. rewrite Em, Q2 in R2. apply Qmult_le_r in R1, R2; auto. rewrite <- Zle_Qle in R1, R2.
    assert (TP : (2 ^ p = 2 * 2 ^ (p - 1))%Z) by (rewrite <- Z.pow_succ_r by lia; f_equal; lia).
    assert (C0 : c p 3 0 == - (1 # 2)).
    { unfold c. rewrite (round_proper p _ (- (1 # 2))) by lra. rewrite round_opp. rewrite (round_pow2 p Hp (-1) : round_to p (1 # 2) == 1 # 2). reflexivity. }
    assert (C3 : c p 3 3 == 1 # 2).
    { unfold c. rewrite (round_proper p _ (1 # 2)) by lra. apply (round_pow2 p Hp (-1)). }
    assert (C1 : c p 3 1 == r - (1 # 2)).
    { unfold c. rewrite (round_proper p _ (- ((1 # 2) - r))) by lra. rewrite round_opp. rewrite (round_grid p Hp (2 ^ p - m) (- p - 1) ((1 # 2) - r)); [lra|lia|]. fold u. unfold Z.sub. rewrite inject_Z_plus, inject_Z_opp, Em, Q2. ring. }
    assert (C2 : c p 3 2 == 2 * r - (1 # 2)).
    { unfold c. rewrite (round_proper p _ (2 * r - (1 # 2))) by lra. rewrite (round_grid p Hp (2 * m - 2 ^ p) (- p - 1) (2 * r - (1 # 2))); [reflexivity|lia|]. fold u. unfold Z.sub. rewrite inject_Z_plus, inject_Z_opp, inject_Z_mult, Em, Q2. change (inject_Z 2) with (2#1). ring. }
    rewrite C0, C1, C2, C3 in S0. assert (T : 3 * r == 2 * (1 # 2)) by lra. rewrite Em, Q2 in T.
    assert (T2 : inject_Z (3 * m) * u == inject_Z (2 * 2 ^ p) * u) by (rewrite !inject_Z_mult; transitivity (3 * (inject_Z m * u)); [ring|]; rewrite T; ring).
    apply Qmult_inj_r in T2; [|lra]. apply (proj1 (inject_Z_injective _ _)) in T2.
    assert (D : (3 | 2 * 2 ^ p)%Z) by (exists m; lia). rewrite <- Z.pow_succ_r in D by lia.
    assert (X : forall k : nat, ~ (3 | 2 ^ Z.of_nat k)%Z).
    { induction k as [|k IH]; [intros [q Hq]; cbn in Hq; lia|]. rewrite Nat2Z.inj_succ, Z.pow_succ_r by lia. intros [q Hq]. apply IH. exists (2 ^ Z.of_nat k - q)%Z. lia. }
    apply (X (Z.to_nat (Z.succ p))). rewrite Z2Nat.id by lia. exact D.
  Qed.

  (* too many ranks for the dtype *)
  Section CROWDED.
    Variable N : nat.
    Hypothesis HN : (2 ^ p + 2 <= Z.of_nat N)%Z.
    Let y (k : nat) : Q := round_to p (count k) / round_to p (count N).
    Lemma N_pos : 0 < round_to p (count N).
    Proof using Hp HN. apply round_sign; auto. apply count_pos. assert (0 < 2 ^ p)%Z by (apply Z.pow_pos_nonneg; lia). lia. Qed.
    Lemma y_half k : (N <= 2 * k)%nat -> 1 # 2 <= y k.
    Proof using Hp HN.
      intros H. pose proof N_pos as P. unfold y. apply Qle_shift_div_l; auto. assert (E : round_to p (count (2 * k)) == 2 * round_to p (count k)).
      { rewrite <- round_double. apply round_proper. unfold count. rewrite Nat2Z.inj_mul, inject_Z_mult. reflexivity. }
      pose proof (round_mono p Hp _ _ (count_le _ _ H)) as M. rewrite E in M. lra.
    Qed.
    Lemma y_mono k : y k <= y (S k).
    Proof using Hp HN. unfold y, Qdiv. apply Qmult_le_r; [apply Qinv_lt_0_compat, N_pos|]. apply round_mono; auto. apply count_le. lia. Qed.
    Lemma w_multiple k : (N <= 2 * k)%nat -> exists m, w p N k == inject_Z m * pow2 (- p).
    Proof using Hp HN. intros H. destruct (round_multiple p Hp (y k) (-1)) as [m Em]; [apply y_half, H|]. exists m. replace (- p)%Z with (-1 - (p - 1))%Z by lia. exact Em. Qed.
    Lemma climbing k0 M : (N <= 2 * k0)%nat -> (exists k, (k0 <= k < k0 + M)%nat /\ w p N k == w p N (S k)) \/ w p N k0 + count M * pow2 (- p) <= w p N (k0 + M).
    Proof using Hp HN.
      intros H. induction M as [|M [[k [K E]]|IH]].
      - right. rewrite Nat.add_0_r. change (count 0) with 0. lra.
      - left. exists k. split; [lia|exact E].
      - replace (k0 + S M)%nat with (S (k0 + M)) by lia. pose proof (round_mono p Hp _ _ (y_mono (k0 + M))) as L. change (w p N (k0 + M) <= w p N (S (k0 + M))) in L.
        destruct (Qlt_le_dec (w p N (k0 + M)) (w p N (S (k0 + M)))) as [G|G]; [|left; exists (k0 + M)%nat; split; [lia|lra]]. right. rewrite count_S.
        destruct (w_multiple (k0 + M) ltac:(lia)) as [a Ea]. destruct (w_multiple (S (k0 + M)) ltac:(lia)) as [b Eb]. pose proof (multiple_gap a b (- p) ltac:(lra)). lra.
    Qed.
    Lemma crowded_w : exists k, (k < N)%nat /\ w p N k == w p N (S k).
    Proof using Hp HN.
      destruct (climbing (N - N / 2) (N / 2)) as [[k [K E]]|G]; [lia|exists k; split; [lia|exact E]|]. exfalso.
      replace (N - N / 2 + N / 2)%nat with N in G by lia.
      assert (W1 : w p N N == 1). { unfold w. pose proof N_pos. rewrite (round_proper p _ (pow2 0)); [apply round_pow2; auto|]. change (pow2 0) with 1. field. lra. }
      assert (W2 : 1 # 2 <= w p N (N - N / 2)). { rewrite <- (round_pow2 p Hp (-1) : round_to p (1 # 2) == 1 # 2). apply round_mono; auto. apply y_half. lia. }
      assert (TP : (2 ^ p = 2 * 2 ^ (p - 1))%Z) by (rewrite <- Z.pow_succ_r by lia; f_equal; lia).
      assert (M : inject_Z (2 ^ (p - 1) + 1) <= count (N / 2)) by (unfold count; rewrite <- Zle_Qle; lia). rewrite inject_Z_plus in M. change (inject_Z 1) with 1 in M.
      assert (Q2 : inject_Z (2 ^ (p - 1)) * pow2 (- p) == 1 # 2) by (rewrite <- pow2_Z, <- pow2_add by lia; replace (p - 1 + - p)%Z with (-1)%Z by lia; reflexivity).
      pose proof (pow2_pos (- p)) as Pp. apply (Qmult_le_compat_r _ _ (pow2 (- p))) in M; [|lra]. lra.
    Qed.
  End CROWDED.
  Lemma scatter_shared idx n (f : nat -> option Q) k a b : Permutation idx (seq 0 n) -> (S k < n)%nat -> f k = Some a -> f (S k) = Some b -> a == b -> shared (scatter None idx (map f (seq 0 n))).
  Proof using.
    intros P K Fa Fb E. destruct (scatter_ok None idx (map f (seq 0 n))) as [_ N1]; [rewrite map_length, seq_length; exact P|].
    assert (L : length idx = n) by (rewrite (Permutation_length P), seq_length; reflexivity).
    assert (S0 : forall j, (j < n)%nat -> nth_error (map f (seq 0 n)) j = Some (f j)) by (intros j Hj; rewrite nth_error_map, (nth_error_nth' _ 0%nat) by (rewrite seq_length; exact Hj); rewrite seq_nth by exact Hj; reflexivity).
    destruct (nth_error idx k) as [i|] eqn:Ei; [|apply nth_error_None in Ei; lia]. destruct (nth_error idx (S k)) as [j|] eqn:Ej; [|apply nth_error_None in Ej; lia].
    exists i, j, a, b. split; [|split; [|split; [|exact E]]].
    - intros <-. assert (ND : NoDup idx) by (apply (Permutation_NoDup (Permutation_sym P)), seq_NoDup). rewrite NoDup_nth_error in ND. specialize (ND k (S k) ltac:(lia)). rewrite Ei, Ej in ND. specialize (ND eq_refl). lia.
    - rewrite <- Fa. apply (N1 k); auto. apply S0. lia.
    - rewrite <- Fb. apply (N1 (S k)); auto.
  Qed.
Theorem C230_crowded_refuted : forall x hib, (2 ^ p + 3 <= Z.of_nat (length x))%Z -> shared (linear_f p sorter x hib) /\ shared (centered_f p sorter x hib).
  Proof using Hp Hs.
    intros x hib H. assert (0 < 2 ^ p)%Z by (apply Z.pow_pos_nonneg; lia). destruct (crowded_w (length x - 1) ltac:(lia)) as [k [K E]]. destruct (Hs (negb hib) x) as [P _]. unfold linear_f, centered_f. cbv zeta. split.
    - apply (scatter_shared _ _ _ k (w p (length x - 1) k) (w p (length x - 1) (S k))); auto; [lia|apply linear_weight_w; lia|apply linear_weight_w; lia].
    - apply (scatter_shared _ _ _ k (c p (length x - 1) k) (c p (length x - 1) (S k))); auto; [lia|apply centered_weight_c; lia|apply centered_weight_c; lia|]. unfold c. apply round_proper. lra.
  Qed.
End RANKING.
Print Assumptions C230_rounding.
Print Assumptions C230_order.
Print Assumptions C230_in_dtype.
Print Assumptions C230_close.
Print Assumptions C230_sum_partial.
Print Assumptions C230_sum_refuted.
Print Assumptions C230_crowded_refuted.

(* examples: three solutions in float32; bfloat16 with 259 solutions; and what four solutions get in 8 bits *)
Example C230_example : argsort_ok stable_argsort /\ no_nan [Fin 7; Fin (-2); Fin 4] /\ (Z.of_nat 3 <= 2 ^ 24)%Z /\
  map (option_map Qred) (centered_f 24 stable_argsort [Fin 7; Fin (-2); Fin 4] true) = [Some (1 # 2); Some (- (1 # 2)); Some 0] /\
  (2 ^ 8 + 3 <= Z.of_nat (length (repeat (Fin 0) 259)))%Z /\
  map (option_map Qred) (centered_f 8 stable_argsort [Fin 1; Fin 2; Fin 3; Fin 4] true) = [Some (- (1 # 2)); Some (- (85 # 512)); Some (43 # 256); Some (1 # 2)].
Proof. split; [exact stable_argsort_ok|]. split; [repeat constructor|]. split; [lia|]. split; [vm_compute; reflexivity|]. split; [rewrite repeat_length; lia|]. vm_compute. reflexivity. Qed.

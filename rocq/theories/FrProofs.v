From Coq Require Import QArith Qround Qpower Qabs ZArith Lqa.
From Verif Require Import Prelude FloatLib RankModel FpModel FpProofs FrModel.
Close Scope nat_scope.
Open Scope Q_scope.

Lemma nearest_proper a b : a == b -> nearest a = nearest b.
Proof. intros E. pose proof (nearest_mono a b ltac:(lra)). pose proof (nearest_mono b a ltac:(lra)). lia. Qed.
Lemma magnitude_unique x e : pow2 e <= x -> x < pow2 (e + 1) -> magnitude x = e.
Proof.
  intros A B. pose proof (pow2_pos e). destruct (magnitude_spec x ltac:(lra)) as [C D].
  assert (L1 : pow2 e < pow2 (magnitude x + 1)) by lra. assert (L2 : pow2 (magnitude x) < pow2 (e + 1)) by lra. apply pow2_lt_inv in L1, L2. lia.
Qed.
Lemma magnitude_proper x y : 0 < x -> x == y -> magnitude x = magnitude y.
Proof. intros P E. destruct (magnitude_spec x P). symmetry. apply magnitude_unique; lra. Qed.

Section PRECISION.
  Variable p : Z.
  Hypothesis Hp : (1 <= p)%Z.

  Lemma unit_pos x : 0 < unit_of p x. Proof using. apply pow2_pos. Qed.
  Lemma round_pos x : 0 < x -> round_to p x = rnd_up p x.
  Proof using. intros H. unfold round_to. destruct (Qcompare_spec x 0); auto; lra. Qed.
  Lemma round_neg x : x < 0 -> round_to p x = - rnd_up p (- x).
  Proof using. intros H. unfold round_to. destruct (Qcompare_spec x 0); auto; lra. Qed.
  Lemma round_zero x : x == 0 -> round_to p x = 0.
  Proof using. intros H. unfold round_to. destruct (Qcompare_spec x 0); auto; lra. Qed.
  Lemma round_opp x : round_to p (- x) == - round_to p x.
  Proof using.
    destruct (Qlt_le_dec 0 x) as [H|H]; [|destruct (Qlt_le_dec x 0) as [K|K]].
    - rewrite (round_pos x H), round_neg by lra. unfold rnd_up, unit_of. rewrite (magnitude_proper (- - x) x) by lra. rewrite (nearest_proper (- - x / _) (x / pow2 (magnitude x - (p - 1)))) by (apply Qmult_comp; lra). reflexivity.
    - rewrite (round_neg x K), round_pos by lra. lra.
    - rewrite !round_zero by lra. reflexivity.
  Qed.
  Lemma rnd_up_proper x y : 0 < x -> x == y -> rnd_up p x == rnd_up p y.
  Proof using. intros P E. unfold rnd_up, unit_of. rewrite (magnitude_proper x y P E). apply Qmult_comp; [|reflexivity]. rewrite (nearest_proper (x / _) (y / pow2 (magnitude y - (p - 1)))); [reflexivity|]. apply Qmult_comp; lra. Qed.
  Lemma round_proper x y : x == y -> round_to p x == round_to p y.
  Proof using.
    intros E. destruct (Qlt_le_dec 0 x) as [H|H]; [|destruct (Qlt_le_dec x 0) as [K|K]].
    - rewrite !round_pos by lra. apply rnd_up_proper; lra.
    - rewrite !round_neg by lra. apply Qopp_comp. apply rnd_up_proper; lra.
    - rewrite !round_zero by lra. reflexivity.
  Qed.

  (* numbers with p significant bits stay *)
  Lemma round_grid m e x : (0 <= m <= 2 ^ p)%Z -> x == inject_Z m * pow2 e -> round_to p x == x.
  Proof using Hp.
    intros [M0 M1] E. destruct (Z.eq_dec m 0) as [->|N].
    { change (inject_Z 0) with 0 in E. assert (X : x == 0) by (rewrite E; ring). rewrite round_zero by exact X. lra. }
    assert (Pm : 0 < inject_Z m) by (change 0 with (inject_Z 0); rewrite <- Zlt_Qlt; lia). pose proof (pow2_pos e) as Pe.
    assert (P : 0 < x) by (rewrite E; apply Qmult_lt_0_compat; assumption). rewrite (round_pos x P). unfold rnd_up. set (u := unit_of p x). assert (Pu : 0 < u) by apply unit_pos.
    assert (I : exists k, x / u == inject_Z k).
    { destruct (Z.eq_dec m (2 ^ p)) as [Em|Nm].
      - (* a power of two *)
        assert (X : x == pow2 (p + e)) by (rewrite E, Em, <- pow2_Z, <- pow2_add by lia; reflexivity).
        assert (Mx : magnitude x = (p + e)%Z). { apply magnitude_unique; [lra|]. rewrite X. rewrite (pow2_add (p + e) 1). change (pow2 1) with (2#1). pose proof (pow2_pos (p + e)). lra. }
        exists (2 ^ (p - 1))%Z. rewrite <- pow2_Z by lia. apply (Qmult_inj_r _ _ u); [lra|]. rewrite <- scaled by exact Pu. unfold u, unit_of. rewrite Mx, <- pow2_add, X. replace (p - 1 + (p + e - (p - 1)))%Z with (p + e)%Z by lia. reflexivity.
      - assert (Mx : (magnitude x < p + e)%Z).
        { apply pow2_lt_inv. destruct (magnitude_spec x P) as [A _]. eapply Qle_lt_trans; [exact A|]. rewrite E, pow2_add, (pow2_Z p) by lia. apply Qmult_lt_compat_r; auto. rewrite <- Zlt_Qlt. lia. }
        exists (m * 2 ^ (e - (magnitude x - (p - 1))))%Z. rewrite inject_Z_mult, <- pow2_Z by lia. apply (Qmult_inj_r _ _ u); [lra|]. rewrite <- scaled by exact Pu. unfold u, unit_of.
        rewrite <- Qmult_assoc, <- pow2_add. replace (e - (magnitude x - (p - 1)) + (magnitude x - (p - 1)))%Z with e by lia. exact E. }
    destruct I as [k Ek]. rewrite (nearest_int _ _ Ek), <- Ek. symmetry. apply scaled. exact Pu.
  Qed.
  Lemma round_int z : (0 <= z <= 2 ^ p)%Z -> round_to p (inject_Z z) == inject_Z z.
  Proof using Hp. intros H. apply (round_grid z 0); auto. change (pow2 0) with 1. ring. Qed.
  Lemma round_pow2 e : round_to p (pow2 e) == pow2 e.
  Proof using Hp. apply (round_grid 1 e); [|ring]. assert (0 < 2 ^ p)%Z by (apply Z.pow_pos_nonneg; lia). lia. Qed.
  Lemma round_double x : round_to p (2 * x) == 2 * round_to p x.
  Proof using.
    assert (U : forall y, 0 < y -> rnd_up p (2 * y) == 2 * rnd_up p y).
    { intros y P. destruct (magnitude_spec y P) as [A B]. assert (M : magnitude (2 * y) = (magnitude y + 1)%Z).
      { rewrite pow2_add in B. apply magnitude_unique; rewrite !pow2_add; change (pow2 1) with (2#1) in *; lra. }
      unfold rnd_up, unit_of. rewrite M. replace (magnitude y + 1 - (p - 1))%Z with (magnitude y - (p - 1) + 1)%Z by lia. set (u := pow2 (magnitude y - (p - 1))). assert (Pu : 0 < u) by apply pow2_pos.
      assert (E : pow2 (magnitude y - (p - 1) + 1) == 2 * u) by (unfold u; rewrite pow2_add; change (pow2 1) with (2#1); ring). rewrite (nearest_proper (2 * y / _) (y / u)) by (rewrite E; field; lra). rewrite E. ring. }
    destruct (Qlt_le_dec 0 x) as [H|H]; [|destruct (Qlt_le_dec x 0) as [K|K]].
    - rewrite !round_pos by lra. apply U; auto.
    - rewrite !round_neg by lra. rewrite (rnd_up_proper (- (2 * x)) (2 * - x)) by lra. rewrite U by lra. ring.
    - rewrite !round_zero by lra. reflexivity.
  Qed.

  Lemma rnd_up_low x : 0 < x -> pow2 (magnitude x) <= rnd_up p x.
  Proof using Hp.
    intros H. unfold rnd_up. set (e := magnitude x). set (u := unit_of p x). assert (Pu : 0 < u) by apply unit_pos.
    assert (Q : pow2 e == inject_Z (2 ^ (p - 1)) * u) by (unfold u, unit_of; fold e; rewrite <- pow2_Z, <- pow2_add by lia; replace (p - 1 + (e - (p - 1)))%Z with e by lia; reflexivity).
    rewrite Q. apply Qmult_le_r; auto. rewrite <- Zle_Qle. rewrite <- (nearest_int (inject_Z (2 ^ (p - 1))) (2 ^ (p - 1))) by reflexivity. apply nearest_mono.
    apply Qle_shift_div_l; auto. rewrite <- Q. apply magnitude_spec. exact H.
  Qed.
  Lemma rnd_up_high x : 0 < x -> rnd_up p x <= pow2 (magnitude x + 1).
  Proof using Hp.
    intros H. unfold rnd_up. set (e := magnitude x). set (u := unit_of p x). assert (Pu : 0 < u) by apply unit_pos.
    assert (Q : pow2 (e + 1) == inject_Z (2 ^ p) * u) by (unfold u, unit_of; fold e; rewrite <- pow2_Z, <- pow2_add by lia; replace (p + (e - (p - 1)))%Z with (e + 1)%Z by lia; reflexivity).
    rewrite Q. apply Qmult_le_r; auto. rewrite <- Zle_Qle. rewrite <- (nearest_int (inject_Z (2 ^ p)) (2 ^ p)) by reflexivity. apply nearest_mono.
    apply Qle_shift_div_r; auto. rewrite <- Q. apply Qlt_le_weak, magnitude_spec. exact H.
  Qed.
  Lemma rnd_up_mono x y : 0 < x -> x <= y -> rnd_up p x <= rnd_up p y.
  Proof using Hp.
    intros Hx H. pose proof (magnitude_mono x y Hx H) as M. destruct (Z.eq_dec (magnitude x) (magnitude y)) as [E|N].
    - unfold rnd_up, unit_of. rewrite E. apply Qmult_le_r; [apply pow2_pos|]. rewrite <- Zle_Qle. apply nearest_mono. unfold Qdiv. apply Qmult_le_r; [|exact H]. apply Qinv_lt_0_compat, pow2_pos.
    - pose proof (rnd_up_high x Hx). pose proof (rnd_up_low y ltac:(lra)). pose proof (pow2_le (magnitude x + 1) (magnitude y) ltac:(lia)). lra.
  Qed.
  Lemma round_sign x : (0 < x -> 0 < round_to p x) /\ (x < 0 -> round_to p x < 0).
  Proof using Hp.
    split; intros H.
    - rewrite round_pos by exact H. pose proof (rnd_up_low x H). pose proof (pow2_pos (magnitude x)). lra.
    - rewrite round_neg by exact H. pose proof (rnd_up_low (- x) ltac:(lra)). pose proof (pow2_pos (magnitude (- x))). lra.
  Qed.
  Lemma round_mono x y : x <= y -> round_to p x <= round_to p y.
  Proof using Hp.
    intros H. destruct (round_sign x) as [X1 X2], (round_sign y) as [Y1 Y2].
    destruct (Qlt_le_dec 0 x) as [A|A]; [rewrite !round_pos by lra; apply rnd_up_mono; auto|].
    destruct (Qlt_le_dec y 0) as [B|B]; [rewrite !round_neg by lra; pose proof (rnd_up_mono (- y) (- x) ltac:(lra) ltac:(lra)); lra|].
    assert (round_to p x <= 0). { destruct (Qlt_le_dec x 0) as [C|C]; [apply Qlt_le_weak; auto|]. rewrite round_zero by lra. lra. }
    assert (0 <= round_to p y). { destruct (Qlt_le_dec 0 y) as [C|C]; [apply Qlt_le_weak; auto|]. rewrite round_zero by lra. lra. } lra.
  Qed.
  (* half a unit; of numbers up to a power of two *)
  Lemma round_error x e : - pow2 e <= x <= pow2 e -> - pow2 (e - p - 1) <= round_to p x - x <= pow2 (e - p - 1).
  Proof using Hp.
    assert (U : forall y, 0 < y -> y <= pow2 e -> - pow2 (e - p - 1) <= rnd_up p y - y <= pow2 (e - p - 1)).
    { intros y P L. pose proof (pow2_pos (e - p - 1)) as Pw. destruct (Qlt_le_dec y (pow2 e)) as [S|S].
      - destruct (magnitude_spec y P) as [A B]. assert (M : (magnitude y <= e - 1)%Z) by (assert (G : pow2 (magnitude y) < pow2 e) by lra; apply pow2_lt_inv in G; lia).
        unfold rnd_up. set (u := unit_of p y). assert (Pu : 0 < u) by apply unit_pos. pose proof (nearest_error (y / u)) as N. set (k := inject_Z (nearest (y / u))) in *.
        assert (B2 : u * (1 # 2) <= pow2 (e - p - 1)). { unfold u, unit_of. change (1 # 2) with (pow2 (-1)). rewrite <- pow2_add. apply pow2_le. lia. }
        assert (X : k * u - y == (k - y / u) * u) by (field; lra). rewrite X.
        assert (U1 : (k - y / u) * u <= (1 # 2) * u) by (apply Qmult_le_r; [exact Pu|]; lra).
        assert (U2 : (- (1 # 2)) * u <= (k - y / u) * u) by (apply Qmult_le_r; [exact Pu|]; lra). split; lra.
      - assert (E : y == pow2 e) by lra. assert (R : rnd_up p y == pow2 e). { rewrite (rnd_up_proper y (pow2 e) P E), <- round_pos by apply pow2_pos. apply round_pow2. } lra. }
    intros H. destruct (Qlt_le_dec 0 x) as [A|A]; [|destruct (Qlt_le_dec x 0) as [B|B]].
    - rewrite round_pos by exact A. apply U; lra.
    - rewrite round_neg by exact B. pose proof (U (- x) ltac:(lra) ltac:(lra)). lra.
    - rewrite round_zero by lra. pose proof (pow2_pos (e - p - 1)). lra.
  Qed.
  (* from a power of two on, results are multiples of its unit *)
  Lemma round_multiple x e : pow2 e <= x -> exists m, round_to p x == inject_Z m * pow2 (e - (p - 1)).
  Proof using Hp.
    intros H. pose proof (pow2_pos e). assert (P : 0 < x) by lra. destruct (magnitude_spec x P) as [_ B]. assert (M : (e <= magnitude x)%Z) by (assert (G : pow2 e < pow2 (magnitude x + 1)) by lra; apply pow2_lt_inv in G; lia).
    exists (nearest (x / unit_of p x) * 2 ^ (magnitude x - e))%Z. rewrite round_pos by exact P. unfold rnd_up. rewrite inject_Z_mult, <- pow2_Z, <- Qmult_assoc, <- pow2_add by lia. unfold unit_of. replace (magnitude x - e + (e - (p - 1)))%Z with (magnitude x - (p - 1))%Z by lia. reflexivity.
  Qed.
  Lemma multiple_gap a b e : inject_Z a * pow2 e < inject_Z b * pow2 e -> inject_Z a * pow2 e + pow2 e <= inject_Z b * pow2 e.
  Proof using.
    intros H. pose proof (pow2_pos e) as P. apply Qmult_lt_r in H; auto. rewrite <- Zlt_Qlt in H. setoid_replace (inject_Z a * pow2 e + pow2 e) with (inject_Z (a + 1) * pow2 e) by (rewrite inject_Z_plus; change (inject_Z 1) with 1; ring).
    apply Qmult_le_r; auto. rewrite <- Zle_Qle. lia.
  Qed.
End PRECISION.

(* the rounding of Python's floats is that of 53 bits *)
Lemma rnd_is_53 x : 0 <= x -> rnd x == round_to 53 x.
Proof.
  intros H. destruct (Qlt_le_dec 0 x) as [P|P]; [|rewrite rnd_zero, round_zero by lra; reflexivity].
  rewrite rnd_pos, round_pos by exact P. reflexivity.
Qed.

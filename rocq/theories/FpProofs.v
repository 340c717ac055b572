From Coq Require Import QArith Qround Qpower Qabs ZArith Lqa.
From Verif Require Import Prelude FpModel.
Close Scope nat_scope.
Open Scope Q_scope.

Lemma pow2_pos e : 0 < pow2 e. Proof. apply Qpower_0_lt. reflexivity. Qed.
Lemma pow2_add a b : pow2 (a + b) == pow2 a * pow2 b.
Proof. apply Qpower_plus. discriminate. Qed.
Lemma pow2_Z e : (0 <= e)%Z -> pow2 e == inject_Z (2 ^ e).
Proof. intros H. unfold pow2. rewrite <- (Zpower_Qpower 2 e H). reflexivity. Qed.
Lemma pow2_le a b : (a <= b)%Z -> pow2 a <= pow2 b.
Proof.
  intros H. replace b with (a + (b - a))%Z by lia. rewrite pow2_add. rewrite <- (Qmult_1_r (pow2 a)) at 1. apply Qmult_le_l; [apply pow2_pos|].
  rewrite pow2_Z by lia. change 1 with (inject_Z 1). rewrite <- Zle_Qle. assert (0 < 2 ^ (b - a))%Z by (apply Z.pow_pos_nonneg; lia). lia.
Qed.
Lemma pow2_lt_inv a b : pow2 a < pow2 b -> (a < b)%Z.
Proof. intros H. destruct (Z_lt_ge_dec a b) as [|G]; auto. pose proof (pow2_le b a ltac:(lia)). lra. Qed.

Lemma magnitude_spec x : 0 < x -> pow2 (magnitude x) <= x /\ x < pow2 (magnitude x + 1).
Proof.
  intros P. destruct x as [n d]. assert (Pn : (0 < n)%Z) by (unfold Qlt in P; cbn in P; lia).
  assert (E : n # d == inject_Z n / inject_Z (Zpos d)) by apply Qmake_Qdiv.
  unfold magnitude. cbn [Qnum Qden]. set (a := Z.log2 n). set (b := Z.log2 (Zpos d)). assert (Pd : 0 < inject_Z (Zpos d)) by reflexivity.
  destruct (Z.log2_spec n Pn) as [A1 A2]. destruct (Z.log2_spec (Zpos d) ltac:(lia)) as [B1 B2]. fold a in A1, A2. fold b in B1, B2.
  assert (Ha : (0 <= a)%Z) by apply Z.log2_nonneg. assert (Hb : (0 <= b)%Z) by apply Z.log2_nonneg.
  rewrite Zle_Qle, <- pow2_Z in A1, B1 by lia. rewrite Zlt_Qlt, <- pow2_Z in A2, B2 by lia.
  assert (Lo : pow2 (a - b - 1) <= n # d).
  { rewrite E. apply Qle_shift_div_l; auto. eapply Qle_trans; [|exact A1]. assert (Q : pow2 a == pow2 (a - b - 1) * pow2 (Z.succ b)) by (rewrite <- pow2_add; replace (a - b - 1 + Z.succ b)%Z with a by lia; reflexivity).
    rewrite Q. apply Qmult_le_l; [apply pow2_pos|]. lra. }
  assert (Hi : n # d < pow2 (a - b + 1)).
  { rewrite E. apply Qlt_shift_div_r; auto. eapply Qlt_le_trans; [exact A2|]. assert (Q : pow2 (Z.succ a) == pow2 (a - b + 1) * pow2 b) by (rewrite <- pow2_add; replace (a - b + 1 + b)%Z with (Z.succ a) by lia; reflexivity).
    rewrite Q. apply Qmult_le_l; [apply pow2_pos|]. exact B1. }
  destruct (Qle_bool (pow2 (a - b)) (n # d)) eqn:C.
  - apply Qle_bool_iff in C. auto.
  - split; [exact Lo|]. replace (a - b - 1 + 1)%Z with (a - b)%Z by lia. apply Qnot_le_lt. intros H. apply Qle_bool_iff in H. congruence.
Qed.
Lemma magnitude_mono x y : 0 < x -> x <= y -> (magnitude x <= magnitude y)%Z.
Proof.
  intros P H. destruct (magnitude_spec x P) as [X1 _]. destruct (magnitude_spec y ltac:(lra)) as [_ Y2].
  assert (pow2 (magnitude x) < pow2 (magnitude y + 1)) as L by lra. apply pow2_lt_inv in L. lia.
Qed.

Lemma floor_bounds q : inject_Z (Qfloor q) <= q /\ q < inject_Z (Qfloor q) + 1.
Proof. split; [apply Qfloor_le|]. pose proof (Qlt_floor q) as H. rewrite inject_Z_plus in H. exact H. Qed.
Lemma floor_unique q z : inject_Z z <= q -> q < inject_Z z + 1 -> Qfloor q = z.
Proof.
  intros H1 H2. destruct (floor_bounds q) as [F1 F2]. assert (A : inject_Z z < inject_Z (Qfloor q + 1)) by (rewrite inject_Z_plus; change (inject_Z 1) with 1; lra).
  assert (B : inject_Z (Qfloor q) < inject_Z (z + 1)) by (rewrite inject_Z_plus; change (inject_Z 1) with 1; lra). rewrite <- Zlt_Qlt in A, B. lia.
Qed.
Lemma ceiling_unique q z : inject_Z z - 1 < q -> q <= inject_Z z -> Qceiling q = z.
Proof.
  intros H1 H2. unfold Qceiling. rewrite (floor_unique (- q) (- z)); [lia| |]; rewrite inject_Z_opp; lra.
Qed.
Lemma ceiling_bounds q : inject_Z (Qceiling q) - 1 < q /\ q <= inject_Z (Qceiling q).
Proof. unfold Qceiling. destruct (floor_bounds (- q)) as [F1 F2]. rewrite inject_Z_opp. split; lra. Qed.

Lemma nearest_error q : - (1 # 2) <= inject_Z (nearest q) - q <= 1 # 2.
Proof.
  destruct (floor_bounds q) as [F1 F2]. unfold nearest. destruct (Qcompare_spec (q - inject_Z (Qfloor q)) (1 # 2)) as [E|L|G]; [destruct (Z.even _)| |]; rewrite ?inject_Z_plus; change (inject_Z 1) with 1; lra.
Qed.
Lemma nearest_int q z : q == inject_Z z -> nearest q = z.
Proof.
  intros E. assert (F : Qfloor q = z) by (apply floor_unique; lra). unfold nearest. rewrite F. destruct (Qcompare_spec (q - inject_Z z) (1 # 2)); auto; exfalso; lra.
Qed.
Lemma nearest_mono p q : p <= q -> (nearest p <= nearest q)%Z.
Proof.
  intros H. pose proof (nearest_error p) as P. pose proof (nearest_error q) as Q. pose proof (Qfloor_resp_le p q H) as FH.
  destruct (Z.eq_dec (Qfloor p) (Qfloor q)) as [E|N].
  - unfold nearest. rewrite E in *. destruct (Qcompare_spec (p - inject_Z (Qfloor q)) (1 # 2)) as [C|C|C], (Qcompare_spec (q - inject_Z (Qfloor q)) (1 # 2)) as [D|D|D]; try (destruct (Z.even _)); try lia; exfalso; lra.
  - assert (A : (nearest p <= Qfloor p + 1)%Z). { unfold nearest. destruct (_ ?= _); [destruct (Z.even _)| |]; lia. }
    assert (B : (Qfloor q <= nearest q)%Z). { unfold nearest. destruct (_ ?= _); [destruct (Z.even _)| |]; lia. } lia.
Qed.
Lemma rnd_zero x : x <= 0 -> rnd x = 0.
Proof. intros H. unfold rnd. rewrite (proj2 (Qle_bool_iff x 0) H). reflexivity. Qed.
Lemma rnd_pos x : 0 < x -> rnd x = inject_Z (nearest (x / pow2 (magnitude x - 52))) * pow2 (magnitude x - 52).
Proof. intros H. unfold rnd. destruct (Qle_bool x 0) eqn:E; [apply Qle_bool_iff in E; lra|reflexivity]. Qed.
Lemma scaled x u : 0 < u -> x == x / u * u.
Proof. intros H. field. lra. Qed.
(* half an ulp *)
Lemma rnd_error x : 0 <= x -> - (x * pow2 (-53)) <= rnd x - x <= x * pow2 (-53).
Proof.
  intros P. destruct (Qlt_le_dec 0 x) as [H|H].
  2:{ rewrite rnd_zero by exact H. assert (x == 0) as -> by lra. split; discriminate. }
  rewrite rnd_pos by exact H. set (e := magnitude x). set (u := pow2 (e - 52)). assert (Pu : 0 < u) by apply pow2_pos.
  destruct (magnitude_spec x H) as [M _]. fold e in M. pose proof (nearest_error (x / u)) as N. set (k := inject_Z (nearest (x / u))) in *.
  assert (B : u * (1 # 2) <= x * pow2 (-53)).
  { assert (Q : u * (1 # 2) == pow2 e * pow2 (-53)) by (unfold u; change (1 # 2) with (pow2 (-1)); rewrite <- !pow2_add; replace (e - 52 + -1)%Z with (e + -53)%Z by lia; reflexivity).
    rewrite Q. apply Qmult_le_r; [apply pow2_pos|exact M]. }
  assert (X : k * u - x == (k - x / u) * u) by (field; lra). rewrite X.
  assert (U1 : (k - x / u) * u <= (1 # 2) * u) by (apply Qmult_le_r; [exact Pu|]; lra).
  assert (U2 : (- (1 # 2)) * u <= (k - x / u) * u) by (apply Qmult_le_r; [exact Pu|]; lra). split; lra.
Qed.
Lemma rnd_low x : 0 < x -> pow2 (magnitude x) <= rnd x.
Proof.
  intros H. rewrite rnd_pos by exact H. set (e := magnitude x). set (u := pow2 (e - 52)). assert (Pu : 0 < u) by apply pow2_pos.
  assert (Q : pow2 e == inject_Z (2 ^ 52) * u) by (unfold u; rewrite <- pow2_Z, <- pow2_add by lia; replace (52 + (e - 52))%Z with e by lia; reflexivity).
  rewrite Q. apply Qmult_le_r; auto. rewrite <- Zle_Qle. rewrite <- (nearest_int (inject_Z (2 ^ 52)) (2 ^ 52)) by reflexivity. apply nearest_mono.
  apply Qle_shift_div_l; auto. rewrite <- Q. apply magnitude_spec. exact H.
Qed.
Lemma rnd_high x : 0 < x -> rnd x <= pow2 (magnitude x + 1).
Proof.
  intros H. rewrite rnd_pos by exact H. set (e := magnitude x). set (u := pow2 (e - 52)). assert (Pu : 0 < u) by apply pow2_pos.
  assert (Q : pow2 (e + 1) == inject_Z (2 ^ 53) * u) by (unfold u; rewrite <- pow2_Z, <- pow2_add by lia; replace (53 + (e - 52))%Z with (e + 1)%Z by lia; reflexivity).
  rewrite Q. apply Qmult_le_r; auto. rewrite <- Zle_Qle. rewrite <- (nearest_int (inject_Z (2 ^ 53)) (2 ^ 53)) by reflexivity. apply nearest_mono.
  apply Qle_shift_div_r; auto. rewrite <- Q. apply Qlt_le_weak, magnitude_spec. exact H.
Qed.
Lemma rnd_mono x y : 0 <= x -> x <= y -> rnd x <= rnd y.
Proof.
  intros P H. destruct (Qlt_le_dec 0 x) as [Hx|Hx].
  2:{ rewrite (rnd_zero x) by exact Hx. destruct (Qlt_le_dec 0 y) as [Hy|Hy]; [|rewrite rnd_zero by exact Hy; lra]. pose proof (rnd_low y Hy). pose proof (pow2_pos (magnitude y)). lra. }
  pose proof (magnitude_mono x y Hx H) as M. destruct (Z.eq_dec (magnitude x) (magnitude y)) as [E|N].
  - rewrite !rnd_pos by lra. rewrite E. apply Qmult_le_r; [apply pow2_pos|]. rewrite <- Zle_Qle. apply nearest_mono. unfold Qdiv. apply Qmult_le_r; [|exact H]. apply Qinv_lt_0_compat, pow2_pos.
  - pose proof (rnd_high x Hx). pose proof (rnd_low y ltac:(lra)). pose proof (pow2_le (magnitude x + 1) (magnitude y) ltac:(lia)). lra.
Qed.
Lemma rnd_proper x y : 0 <= x -> x == y -> rnd x == rnd y.
Proof. intros P E. pose proof (rnd_mono x y P ltac:(lra)). pose proof (rnd_mono y x ltac:(lra) ltac:(lra)). lra. Qed.
(* integers up to 2^53 are floats *)
Lemma rnd_int z : (0 <= z <= 2 ^ 53)%Z -> rnd (inject_Z z) == inject_Z z.
Proof.
  intros [P1 P2]. destruct (Z.eq_dec z 0) as [->|N]; [rewrite rnd_zero; [reflexivity|apply Qle_refl]|].
  assert (P : 0 < inject_Z z) by (change 0 with (inject_Z 0); rewrite <- Zlt_Qlt; lia). rewrite rnd_pos by exact P. set (x := inject_Z z) in *. set (e := magnitude x). set (u := pow2 (e - 52)).
  assert (Pu : 0 < u) by apply pow2_pos. destruct (magnitude_spec x P) as [M1 M2]. fold e in M1, M2.
  assert (He : (e <= 53)%Z).
  { destruct (Z_le_gt_dec e 53) as [|G]; auto. exfalso. assert (L : pow2 54 <= x) by (eapply Qle_trans; [apply pow2_le|exact M1]; lia). rewrite pow2_Z in L by lia. unfold x in L. rewrite <- Zle_Qle in L. lia. }
  assert (I : exists k, x / u == inject_Z k).
  { destruct (Z_le_gt_dec e 52) as [G|G].
    - exists (z * 2 ^ (52 - e))%Z. rewrite inject_Z_mult, <- pow2_Z by lia. fold x. assert (Q : pow2 (52 - e) * u == 1) by (unfold u; rewrite <- pow2_add; replace (52 - e + (e - 52))%Z with 0%Z by lia; reflexivity).
      apply (Qmult_inj_r _ _ u); [lra|]. rewrite <- Qmult_assoc, Q. field. lra.
    - assert (e = 53%Z) as E53 by lia. rewrite E53 in M1. rewrite pow2_Z in M1 by lia. unfold x in M1. rewrite <- Zle_Qle in M1. assert (z = (2 ^ 53)%Z) as Ez by lia. exists (2 ^ 52)%Z. unfold x, u. rewrite E53, Ez. reflexivity. }
  destruct I as [k Ek]. rewrite (nearest_int _ _ Ek), <- Ek. symmetry. apply scaled. exact Pu.
Qed.

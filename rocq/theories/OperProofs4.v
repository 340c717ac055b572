From Coq Require Import QArith Reals Lqa Lra.
From Verif Require Import Prelude OperModel OperSpec OperProofs2.
Close Scope Q_scope.
Open Scope R_scope.

(* ------------------------------------------------------------------ powers *)
Definition pv (a b : R) : R := if Rlt_dec 0 a then Rpower a b else 0.
Lemma tpow_pv a b : 0 <= a -> 0 < b -> tpow a b = Some (pv a b).
Proof.
  intros Ha Hb. unfold tpow, pv. destruct (Rlt_dec 0 a); auto. destruct (Req_EM_T a 0); [|lra]. destruct (Rlt_dec 0 b); [auto|lra].
Qed.
Lemma rpower_pos a b : 0 < Rpower a b.
Proof. unfold Rpower. apply exp_pos. Qed.
Lemma pv_nonneg a b : 0 <= pv a b.
Proof. unfold pv. destruct (Rlt_dec 0 a); [left; apply rpower_pos|lra]. Qed.
Lemma pv_mono a a' b : 0 <= a <= a' -> 0 < b -> pv a b <= pv a' b.
Proof.
  intros [H0 H] Hb. unfold pv. destruct (Rlt_dec 0 a), (Rlt_dec 0 a'); try lra.
  - apply Rle_Rpower_l; lra.
  - left. apply rpower_pos.
Qed.
Lemma pv_inv a b : 0 <= a -> 0 < b -> pv (pv a b) (1 / b) = a.
Proof.
  intros Ha Hb. unfold pv at 2. destruct (Rlt_dec 0 a).
  - unfold pv. destruct (Rlt_dec 0 (Rpower a b)) as [_|N]; [|exfalso; apply N; apply rpower_pos].
    rewrite Rpower_mult. replace (b * (1 / b)) with 1 by (field; lra). apply Rpower_1. auto.
  - unfold pv. destruct (Rlt_dec 0 0); lra.
Qed.
Lemma rpower_one b : Rpower 1 b = 1.
Proof. unfold Rpower. rewrite ln_1, Rmult_0_r. apply exp_0. Qed.
Lemma pv_one b : pv 1 b = 1.
Proof. unfold pv. destruct (Rlt_dec 0 1); [apply rpower_one|lra]. Qed.

(* ------------------------------------------------------------------ bounds *)
Lemma respect_ok lb ub x : (forall l u, lb = Some l -> ub = Some u -> l <= u) ->
  exists y, respect lb ub (Some x) = Some y /\ inside lb ub y /\ (inside lb ub x -> y = x).
Proof.
  intros H. unfold respect, inside. destruct lb as [l|], ub as [u|]; cbn.
  - specialize (H l u eq_refl eq_refl). exists (Rmin u (Rmax l x)). split; [auto|]. split; [split|].
    + intros l' E; injection E as <-. apply Rmin_glb; auto. apply Rmax_l.
    + intros u' E; injection E as <-. apply Rmin_l.
    + intros [A B]. specialize (A l eq_refl). specialize (B u eq_refl). rewrite Rmax_right by lra. apply Rmin_right. lra.
  - exists (Rmax l x). split; [auto|]. split; [split|].
    + intros l' E; injection E as <-. apply Rmax_l.
    + discriminate.
    + intros [A _]. specialize (A l eq_refl). apply Rmax_right. lra.
  - exists (Rmin u x). split; [auto|]. split; [split|].
    + discriminate.
    + intros u' E; injection E as <-. apply Rmin_l.
    + intros [_ B]. specialize (B u eq_refl). apply Rmin_right. lra.
  - exists x. split; [auto|]. split; [split; discriminate|auto].
Qed.
Lemma respect_row_gene lb ub m k j : gene (map (respect_row lb ub) m) k j = option_map (respect (bound_at lb j) (bound_at ub j)) (gene m k j).
Proof.
  unfold gene. rewrite nth_error_map. destruct (nth_error m k) as [r|]; cbn; auto. unfold respect_row. rewrite nth_error_map.
  destruct (nth_error r j) as [x|] eqn:E.
  - assert (H : (j < length r)%nat) by (apply nth_error_Some; congruence).
    rewrite nth_error_nth' with (d := 0%nat) by (rewrite seq_length; auto). rewrite seq_nth by auto. cbn [option_map Nat.add].
    rewrite (nth_error_nth _ _ _ E). auto.
  - apply nth_error_None in E. rewrite (proj2 (nth_error_None _ _)); auto. rewrite seq_length. auto.
Qed.

(* ------------------------------------------------------------------ simulated binary cross-over *)
Lemma beta_ok eta u : -1 < eta -> unit_draw u -> exists t, sbx_beta eta u = Some t /\ 0 <= t /\ (u <= 0.5 -> t <= 1) /\ (0.5 <= u -> 1 <= t).
Proof.
  intros He [H0 H1]. unfold sbx_beta. assert (Hb : 0 < 1 / (eta + 1)) by (apply Rdiv_lt_0_compat; lra).
  destruct (Rlt_dec 0.5 u) as [H|H].
  - assert (1 <= 1 / (2 * (1 - u))).
    { apply Rmult_le_reg_r with (2 * (1 - u)); [lra|]. unfold Rdiv. rewrite Rmult_assoc, Rinv_l by lra. lra. }
    rewrite tpow_pv by (auto; lra). exists (pv (1 / (2 * (1 - u))) (1 / (eta + 1))). split; [auto|]. split; [apply pv_nonneg|].
    split; [lra|]. intros _. apply Rle_trans with (pv 1 (1 / (eta + 1))); [rewrite pv_one; lra|apply pv_mono; lra].
  - rewrite tpow_pv by (auto; lra). exists (pv (2 * u) (1 / (eta + 1))). split; [auto|]. split; [apply pv_nonneg|]. split.
    + intros _. apply Rle_trans with (pv 1 (1 / (eta + 1))); [apply pv_mono; lra|rewrite pv_one; lra].
    + intros H2. assert (u = 0.5) by lra. subst u. replace (2 * 0.5) with 1 by lra. rewrite pv_one. lra.
Qed.
Lemma children_ok t x y : 0 <= t ->
  sbx_child (Some t) x y = Some (0.5 * ((1 + t) * x + (1 - t) * y)) /\
  let c1 := 0.5 * ((1 + t) * x + (1 - t) * y) in let c2 := 0.5 * ((1 + t) * y + (1 - t) * x) in
  c1 + c2 = x + y /\ Rabs (c1 - c2) = t * Rabs (x - y).
Proof.
  intros Ht. split; [auto|]. cbn zeta. split; [lra|].
  replace (0.5 * ((1 + t) * x + (1 - t) * y) - 0.5 * ((1 + t) * y + (1 - t) * x)) with (t * (x - y)) by lra.
  rewrite Rabs_mult. f_equal. apply Rabs_right. lra.
Qed.
Lemma gene_map3 {A B C D} (f : A -> B -> C -> D) a b c k j :
  gene (map3 (fun x y z => map3 f x y z) a b c) k j =
  match gene a k j, gene b k j, gene c k j with Some x, Some y, Some z => Some (f x y z) | _, _, _ => None end.
Proof.
  unfold gene. rewrite map3_nth. destruct (nth_error a k) as [x|], (nth_error b k) as [y|], (nth_error c k) as [z|]; auto;
    rewrite ?map3_nth; try destruct (nth_error x j); auto; try destruct (nth_error y j); auto.
Qed.
Lemma gene_app {A} (m1 m2 : list (list A)) n k j : length m1 = n ->
  gene (m1 ++ m2) (n + k) j = gene m2 k j /\ ((k < n)%nat -> gene (m1 ++ m2) k j = gene m1 k j).
Proof.
  intros L. unfold gene. split.
  - rewrite nth_error_app2 by lia. replace (n + k - length m1)%nat with k by lia. auto.
  - intros H. rewrite nth_error_app1 by lia. auto.
Qed.
Lemma gene_all {A} (P : A -> Prop) m k j x : all_genes P m -> gene m k j = Some x -> P x.
Proof.
  unfold gene, all_genes. intros H E. destruct (nth_error m k) as [r|] eqn:Er; [|discriminate]. apply nth_error_In in Er, E.
  apply (proj1 (Forall_forall _ _) H) in Er. apply (proj1 (Forall_forall _ _) Er) in E. auto.
Qed.
Lemma sbx_raw_ok eta p1 p2 us n l : -1 < eta -> shaped n l p1 -> shaped n l p2 -> shaped n l us -> all_genes unit_draw us ->
  length (sbx_raw eta p1 p2 us) = (n + n)%nat /\
  forall k j x y u, (k < n)%nat -> gene p1 k j = Some x -> gene p2 k j = Some y -> gene us k j = Some u ->
    exists c1 c2, gene (sbx_raw eta p1 p2 us) k j = Some (Some c1) /\ gene (sbx_raw eta p1 p2 us) (n + k) j = Some (Some c2) /\
      c1 + c2 = x + y /\ (u <= 0.5 -> Rabs (c1 - c2) <= Rabs (x - y)) /\ (0.5 <= u -> Rabs (x - y) <= Rabs (c1 - c2)).
Proof.
  intros He [L1 _] [L2 _] [L3 _] HU. unfold sbx_raw.
  set (row := fun a b u => map3 (fun x y w => sbx_child (sbx_beta eta w) x y) a b u).
  assert (La : length (map3 row p1 p2 us) = n) by (rewrite map3_length; lia).
  split; [rewrite app_length, !map3_length; lia|]. intros k j x y u Hk Hx Hy Hu.
  destruct (beta_ok eta u He (gene_all _ _ _ _ _ HU Hu)) as (t & Et & Ht & T1 & T2).
  destruct (children_ok t x y Ht) as (_ & S1 & S2). destruct (gene_app (map3 row p1 p2 us) (map3 row p2 p1 us) n k j La) as [G2 G1].
  exists (0.5 * ((1 + t) * x + (1 - t) * y)), (0.5 * ((1 + t) * y + (1 - t) * x)).
  split; [rewrite (G1 Hk); unfold row; rewrite gene_map3, Hx, Hy, Hu, Et; auto|].
  split; [rewrite G2; unfold row; rewrite gene_map3, Hx, Hy, Hu, Et; auto|]. split; [auto|].
  pose proof (Rabs_pos (x - y)) as HP. rewrite S2. split; intros H.
  - specialize (T1 H). nra.
  - specialize (T2 H). nra.
Qed.

(* ------------------------------------------------------------------ polynomial mutation *)
Lemma fdiv_ok a b : 0 < b -> fdiv a b = Some (a / b).
Proof. intros. unfold fdiv. destruct (Req_EM_T b 0); [lra|auto]. Qed.
Lemma poly_ok lb ub eta x r : -1 < eta -> lb < ub -> lb <= x <= ub -> unit_draw r ->
  exists y, poly_raw lb ub eta x r = Some y /\ lb <= y <= ub /\ (r < 0.5 -> y <= x) /\ (0.5 <= r -> x <= y).
Proof.
  intros He Hlu [Hx1 Hx2] [Hr0 Hr1]. unfold poly_raw. rewrite !fdiv_ok by lra.
  set (w := ub - lb). assert (Hw : 0 < w) by (unfold w; lra).
  assert (D1 : 0 <= (x - lb) / w <= 1).
  { split; [apply Rmult_le_pos; [lra|left; apply Rinv_0_lt_compat; auto]|].
    apply Rmult_le_reg_r with w; auto. unfold Rdiv. rewrite Rmult_assoc, Rinv_l by lra. unfold w. lra. }
  assert (D2 : 0 <= (ub - x) / w <= 1).
  { split; [apply Rmult_le_pos; [lra|left; apply Rinv_0_lt_compat; auto]|].
    apply Rmult_le_reg_r with w; auto. unfold Rdiv. rewrite Rmult_assoc, Rinv_l by lra. unfold w. lra. }
  assert (M1 : (x - lb) / w * w = x - lb) by (unfold Rdiv; rewrite Rmult_assoc, Rinv_l by lra; lra).
  assert (M2 : (ub - x) / w * w = ub - x) by (unfold Rdiv; rewrite Rmult_assoc, Rinv_l by lra; lra).
  set (d1 := (x - lb) / w) in *. set (d2 := (ub - x) / w) in *. clearbody d1 d2.
  assert (Hm : 0 < 1 / (eta + 1)) by (apply Rdiv_lt_0_compat; lra).
  assert (G : forall d c, 0 <= d <= 1 -> 0 <= c <= 1 -> exists v,
     0 <= c + (1 - c) * pv (1 - d) (eta + 1) /\ tpow (c + (1 - c) * pv (1 - d) (eta + 1)) (1 / (eta + 1)) = Some v /\ 1 - d <= v <= 1).
  { intros d c Hd Hc. assert (W : 0 <= pv (1 - d) (eta + 1) <= 1).
    { split; [apply pv_nonneg|]. apply Rle_trans with (pv 1 (eta + 1)); [apply pv_mono; lra|rewrite pv_one; lra]. }
    set (q := pv (1 - d) (eta + 1)) in *.
    assert (V : q <= c + (1 - c) * q <= 1) by nra.
    exists (pv (c + (1 - c) * q) (1 / (eta + 1))). split; [lra|]. split; [apply tpow_pv; lra|]. split.
    - apply Rle_trans with (pv q (1 / (eta + 1))); [unfold q; rewrite pv_inv; lra|apply pv_mono; lra].
    - apply Rle_trans with (pv 1 (1 / (eta + 1))); [apply pv_mono; lra|rewrite pv_one; lra]. }
  destruct (Rlt_dec r 0.5) as [H|H].
  - rewrite tpow_pv by lra. destruct (G d1 (2 * r) D1 ltac:(lra)) as (v & _ & E & V). rewrite E. cbn.
    exists (x + (v - 1) * w). split; [auto|]. fold w.
    assert (A1 : - d1 * w <= (v - 1) * w) by (apply Rmult_le_compat_r; lra). assert (A2 : (v - 1) * w <= 0) by nra.
    split; [split; lra|]. split; intros; lra.
  - rewrite tpow_pv by lra. destruct (G d2 (2 * (1 - r)) D2 ltac:(lra)) as (v & _ & E & V).
    replace (2 * (1 - r) + 2 * (r - 0.5) * pv (1 - d2) (eta + 1)) with (2 * (1 - r) + (1 - 2 * (1 - r)) * pv (1 - d2) (eta + 1)) by lra.
    rewrite E. cbn. exists (x + (1 - v) * w). split; [auto|].
    assert (A1 : (1 - v) * w <= d2 * w) by (apply Rmult_le_compat_r; lra). assert (A2 : 0 <= (1 - v) * w) by nra.
    split; [split; lra|]. split; intros; lra.
Qed.
Lemma poly_fixed lb eta x r : poly_raw lb lb eta x r = None.
Proof. unfold poly_raw, fdiv. replace (lb - lb) with 0 by lra. destruct (Req_EM_T 0 0); [auto|lra]. Qed.

Lemma gene_rowmap {A B C D} (f : nat -> A -> B -> C -> D) (da : A) (db : B) (dc : C) (a : list (list A)) b c n l k j x y z :
  shaped n l a -> shaped n l b -> shaped n l c ->
  gene a k j = Some x -> gene b k j = Some y -> gene c k j = Some z ->
  gene (map3 (fun xs u g => map (fun j => f j (nth j xs da) (nth j u db) (nth j g dc)) (seq 0 (length xs))) a b c) k j = Some (f j x y z).
Proof.
  intros _ _ _. unfold gene. rewrite map3_nth.
  destruct (nth_error a k) as [ra|]; [|discriminate]. destruct (nth_error b k) as [rb|]; [|discriminate].
  destruct (nth_error c k) as [rc|]; [|discriminate]. intros Hx Hy Hz. rewrite nth_error_map.
  assert (H : (j < length ra)%nat) by (apply nth_error_Some; congruence).
  rewrite nth_error_nth' with (d := 0%nat) by (rewrite seq_length; auto). rewrite seq_nth by auto. cbn [option_map Nat.add].
  rewrite (nth_error_nth _ _ _ Hx), (nth_error_nth _ _ _ Hy), (nth_error_nth _ _ _ Hz). auto.
Qed.

(* ------------------------------------------------------------------ permutation probabilities *)
Lemma q2r_half : q2r (1 # 2) = 0.5.
Proof. unfold q2r. cbn. lra. Qed.
Lemma q2r_mhalf : q2r (- (1 # 2)) = -0.5.
Proof. unfold q2r. cbn. lra. Qed.
Lemma q2r_le p q : (p <= q)%Q -> q2r p <= q2r q.
Proof.
  unfold Qle, q2r. intros H. apply IZR_le in H. rewrite !mult_IZR in H.
  assert (0 < IZR (Z.pos (Qden p))) by (apply IZR_lt; lia). assert (0 < IZR (Z.pos (Qden q))) by (apply IZR_lt; lia).
  apply Rmult_le_reg_r with (IZR (Z.pos (Qden p)) * IZR (Z.pos (Qden q))); [nra|].
  unfold Rdiv. replace (IZR (Qnum p) * / IZR (Z.pos (Qden p)) * (IZR (Z.pos (Qden p)) * IZR (Z.pos (Qden q)))) with (IZR (Qnum p) * IZR (Z.pos (Qden q))) by (field; lra).
  replace (IZR (Qnum q) * / IZR (Z.pos (Qden q)) * (IZR (Z.pos (Qden p)) * IZR (Z.pos (Qden q)))) with (IZR (Qnum q) * IZR (Z.pos (Qden p))) by (field; lra).
  auto.
Qed.
Lemma prob_some n q : (1 <= n)%nat -> (-(1 # 2) <= q)%Q -> permute_prob n (Some q) = Some (1 - pv (q2r q + 0.5) (1 / INR n)).
Proof.
  intros Hn Hq. unfold permute_prob. apply q2r_le in Hq. rewrite q2r_mhalf in Hq.
  assert (0 < INR n) by (apply lt_0_INR; lia). rewrite tpow_pv; [auto|lra|]. apply Rdiv_lt_0_compat; lra.
Qed.
Lemma chosen_iff p u : chosen (Some p) u = true <-> u <= p.
Proof. unfold chosen. destruct (Rle_dec u p); split; intros; try discriminate; auto. Qed.

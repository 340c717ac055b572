From Coq Require Import Reals String Lra.
From Verif Require Import Prelude ConstrModel ConstrSpec.
Open Scope R_scope.

Ltac cmp_cases H := unfold comparison, inequality in H; cbn in H; decompose [or] H; subst; try contradiction; clear H.
Ltac sat := unfold satisfied, strictly_satisfied in *; intuition (try discriminate; try lra).

Lemma violation_repair cmp lhs rhs : comparison cmp ->
  exists v, violation lhs cmp rhs = Ok v /\ 0 <= v /\ (v = 0 <-> satisfied cmp lhs rhs) /\ least_repair cmp lhs rhs v.
Proof.
  intros H. cmp_cases H; unfold violation; cbn [String.eqb Ascii.eqb Bool.eqb]; eexists; (split; [reflexivity|]);
    unfold relu, least_repair.
  - unfold Rmax. destruct (Rle_dec 0 (rhs - lhs)) as [L|L].
    + split; [lra|]. split; [sat|]. split.
      * exists (rhs - lhs). split; [apply Rabs_pos_eq; lra|]. sat.
      * intros d Hd. assert (rhs - lhs <= d) by sat. pose proof (Rle_abs d). lra.
    + split; [lra|]. split; [sat|]. split.
      * exists 0. split; [apply Rabs_R0|]. sat.
      * intros. apply Rabs_pos.
  - unfold Rmax. destruct (Rle_dec 0 (lhs - rhs)) as [L|L].
    + split; [lra|]. split; [sat|]. split.
      * exists (rhs - lhs). split; [rewrite Rabs_minus_sym; apply Rabs_pos_eq; lra|]. sat.
      * intros d Hd. assert (d <= rhs - lhs) by sat. pose proof (Rle_abs (- d)). rewrite Rabs_Ropp in *. lra.
    + split; [lra|]. split; [sat|]. split.
      * exists 0. split; [apply Rabs_R0|]. sat.
      * intros. apply Rabs_pos.
  - split; [apply Rabs_pos|]. split.
    + split; intros X.
      * assert (lhs - rhs = 0) by (destruct (Req_dec (lhs - rhs) 0); auto; exfalso; apply (Rabs_no_R0 (lhs - rhs)); auto). sat.
      * assert (lhs = rhs) by sat. subst. rewrite Rminus_diag_eq by auto. apply Rabs_R0.
    + split.
      * exists (rhs - lhs). split; [apply Rabs_minus_sym|]. sat.
      * intros d Hd. assert (d = rhs - lhs) by sat. subst. rewrite Rabs_minus_sym. lra.
Qed.

Lemma tpow_zero e : 0 < e -> tpow 0 e = Fin 0.
Proof. intros. unfold tpow. destruct (Rlt_dec 0 0); [lra|]. destruct (Rlt_dec 0 e); [auto|lra]. Qed.
Lemma tpow_pos v e : 0 < v -> exists p, tpow v e = Fin p /\ 0 < p.
Proof. intros. unfold tpow. destruct (Rlt_dec 0 v); [|lra]. eexists; split; eauto. apply exp_pos. Qed.
Lemma rpower_mono a b e : 0 < a -> a <= b -> 0 < e -> Rpower a e <= Rpower b e.
Proof. intros. apply Rle_Rpower_l; lra. Qed.

(* the part of the penalty that depends only on the violation *)
Definition capped (v : R) (exp : option R) (exp_inf : er) : er :=
  let exped := match exp with Some e => tpow v e | None => tpow v 0 end in
  let exped := if eltb exp_inf exped then exp_inf else exped in
  match exp with Some _ => exped | None => Fin 0 end.
Definition amount (v linear step : R) (exp : option R) (exp_inf : er) : er :=
  eadd (linear * v + (if Rlt_dec 0 v then step else 0)) (capped v exp exp_inf).

Lemma penalty_amount lhs cmp rhs sign linear step exp exp_inf v : violation lhs cmp rhs = Ok v -> known_sign sign ->
  penalty lhs cmp rhs sign linear step exp exp_inf =
  Ok (if String.eqb sign "+" then amount v linear step exp exp_inf else eopp (amount v linear step exp exp_inf)).
Proof. intros E [-> | ->]; unfold penalty; rewrite E; reflexivity. Qed.

Lemma capped_fin v exp exp_inf : 0 <= v -> (forall e, exp = Some e -> 0 < e) -> elt (Fin 0) exp_inf ->
  exists c, capped v exp exp_inf = Fin c /\ 0 <= c /\ (v = 0 -> c = 0) /\ (exp <> None -> 0 < v -> 0 < c).
Proof.
  intros Hv He Hi. unfold capped. destruct exp as [e|]; [|exists 0; repeat split; auto; try lra; congruence].
  specialize (He e eq_refl). destruct (Rlt_dec 0 v) as [P|NP].
  - destruct (tpow_pos v e P) as (p & -> & Pp). destruct exp_inf as [|i|]; cbn in Hi.
    + destruct Hi; contradiction.
    + cbn [eltb]. destruct Hi as [L N]. assert (0 < i) by (cbn in L; destruct (Req_dec i 0); [subst; congruence|lra]).
      destruct (Rlt_dec i p); eexists; repeat split; intros; try reflexivity; try lra.
    + cbn [eltb]. exists p. repeat split; intros; auto; lra.
  - assert (v = 0) by lra. subst v. rewrite tpow_zero by auto. destruct exp_inf as [|i|]; cbn in Hi.
    + destruct Hi; contradiction.
    + destruct Hi as [L N]. cbn in L. cbn [eltb]. destruct (Rlt_dec i 0); [lra|]. exists 0. repeat split; intros; auto; lra.
    + cbn [eltb]. exists 0. repeat split; intros; auto; lra.
Qed.

Lemma amount_fin v linear step exp exp_inf : 0 <= v -> weights_ok linear step exp exp_inf ->
  exists p, amount v linear step exp exp_inf = Fin p /\ 0 <= p /\ (p = 0 <-> v = 0).
Proof.
  intros Hv (H1 & H2 & H3 & H4 & H5). unfold amount.
  destruct (capped_fin v exp exp_inf Hv H3 H4) as (c & -> & C0 & C1 & C2). cbn [eadd]. eexists; split; [reflexivity|].
  pose proof (Rmult_le_pos _ _ H1 Hv). destruct (Rlt_dec 0 v) as [P|NP].
  - split; [lra|]. split; intros X; [|lra]. exfalso. destruct H5 as [L|[S'|E]]; [pose proof (Rmult_lt_0_compat _ _ L P); lra|lra|].
    specialize (C2 E P). lra.
  - assert (v = 0) by lra. subst. rewrite C1 by auto. split; [lra|]. split; intros; lra.
Qed.

Lemma capped_mono v w exp exp_inf c d : 0 <= v <= w -> (forall e, exp = Some e -> 0 < e) -> elt (Fin 0) exp_inf ->
  capped v exp exp_inf = Fin c -> capped w exp exp_inf = Fin d -> c <= d.
Proof.
  intros [Hv Hw] He Hi Ec Ed. unfold capped in *. destruct exp as [e|]; [|inversion Ec; inversion Ed; lra].
  specialize (He e eq_refl). destruct (Rlt_dec 0 v) as [P|NP].
  - assert (0 < w) by lra. unfold tpow in *. destruct (Rlt_dec 0 v); [|lra]. destruct (Rlt_dec 0 w); [|lra].
    pose proof (rpower_mono v w e P Hw He). destruct exp_inf as [|i|]; cbn [eltb] in *; try (destruct Hi; contradiction).
    + destruct (Rlt_dec i (Rpower v e)), (Rlt_dec i (Rpower w e)); inversion Ec; inversion Ed; subst; lra.
    + inversion Ec; inversion Ed; subst; lra.
  - assert (v = 0) by lra. subst v. destruct (capped_fin w (Some e) exp_inf Hw) as (d' & Ed' & D0 & _); auto.
    { intros e' X. inversion X; subst; auto. }
    destruct (capped_fin 0 (Some e) exp_inf (Rle_refl 0)) as (c' & Ec' & _ & C0 & _); auto.
    { intros e' X. inversion X; subst; auto. }
    unfold capped in Ed', Ec'. rewrite Ed in Ed'. rewrite Ec in Ec'. inversion Ed'; inversion Ec'; subst.
    rewrite C0 by auto. auto.
Qed.

Lemma amount_mono v w linear step exp exp_inf p q : 0 <= v <= w -> weights_ok linear step exp exp_inf ->
  amount v linear step exp exp_inf = Fin p -> amount w linear step exp exp_inf = Fin q ->
  p <= q /\ (0 < linear -> v < w -> p < q).
Proof.
  intros [Hv Hw] (H1 & H2 & H3 & H4 & _) Ep Eq. unfold amount in *.
  destruct (capped_fin v exp exp_inf Hv H3 H4) as (c & Ec & _).
  destruct (capped_fin w exp exp_inf (Rle_trans _ _ _ Hv Hw) H3 H4) as (d & Ed & _).
  pose proof (capped_mono v w exp exp_inf c d (conj Hv Hw) H3 H4 Ec Ed).
  rewrite Ec in Ep. rewrite Ed in Eq. cbn [eadd] in *. inversion Ep; inversion Eq; subst. clear Ep Eq.
  pose proof (Rmult_le_compat_l _ _ _ H1 Hw).
  assert ((if Rlt_dec 0 v then step else 0) <= (if Rlt_dec 0 w then step else 0)).
  { destruct (Rlt_dec 0 v), (Rlt_dec 0 w); lra. }
  split; [lra|]. intros L VW. pose proof (Rmult_lt_compat_l _ _ _ L VW). lra.
Qed.

Lemma penalty_ok lhs cmp rhs sign linear step exp exp_inf :
  comparison cmp -> known_sign sign -> weights_ok linear step exp exp_inf ->
  exists p, penalty lhs cmp rhs sign linear step exp exp_inf = Ok (Fin p) /\
    (p = 0 <-> satisfied cmp lhs rhs) /\ not_better sign (Fin p) (Fin 0).
Proof.
  intros Hc Hs Hw. destruct (violation_repair cmp lhs rhs Hc) as (v & E & V0 & S & _).
  rewrite (penalty_amount _ _ _ _ _ _ _ _ v E Hs). destruct (amount_fin v _ _ _ _ V0 Hw) as (p & -> & P0 & PZ).
  unfold not_better. destruct Hs as [-> | ->]; cbn [String.eqb Ascii.eqb Bool.eqb eopp].
  - exists p. split; [reflexivity|]. split; [|cbn; lra]. rewrite PZ. auto.
  - exists (- p). split; [reflexivity|]. split; [|cbn; lra]. rewrite <- S, <- PZ. split; intros; lra.
Qed.

Lemma penalty_mono lhs1 rhs1 cmp1 v1 lhs2 rhs2 cmp2 v2 sign linear step exp exp_inf :
  known_sign sign -> weights_ok linear step exp exp_inf ->
  comparison cmp1 -> comparison cmp2 ->
  least_repair cmp1 lhs1 rhs1 v1 -> least_repair cmp2 lhs2 rhs2 v2 -> v1 <= v2 ->
  exists p1 p2, penalty lhs1 cmp1 rhs1 sign linear step exp exp_inf = Ok p1 /\
    penalty lhs2 cmp2 rhs2 sign linear step exp exp_inf = Ok p2 /\
    not_better sign p2 p1 /\ (0 < linear -> v1 < v2 -> worse sign p2 p1).
Proof.
  intros Hs Hw C1 C2 R1 R2 V.
  assert (U : forall cmp lhs rhs v w, least_repair cmp lhs rhs v -> least_repair cmp lhs rhs w -> v = w).
  { intros cmp lhs rhs v w [[d [D S]] M] [[d' [D' S']] M']. specialize (M _ S'). specialize (M' _ S). lra. }
  destruct (violation_repair cmp1 lhs1 rhs1 C1) as (v & E1 & V0 & _ & L1). rewrite (U _ _ _ _ _ L1 R1) in *.
  destruct (violation_repair cmp2 lhs2 rhs2 C2) as (w & E2 & W0 & _ & L2). rewrite (U _ _ _ _ _ L2 R2) in *.
  rewrite (penalty_amount _ _ _ _ _ _ _ _ _ E1 Hs), (penalty_amount _ _ _ _ _ _ _ _ _ E2 Hs).
  destruct (amount_fin v1 _ _ _ _ V0 Hw) as (p & P & _). destruct (amount_fin v2 _ _ _ _ W0 Hw) as (q & Q & _).
  destruct (amount_mono v1 v2 _ _ _ _ p q (conj V0 V) Hw P Q) as [M SM]. rewrite P, Q.
  unfold worse, not_better. destruct Hs as [-> | ->]; cbn [String.eqb Ascii.eqb Bool.eqb eopp].
  - exists (Fin p), (Fin q). repeat split; cbn; try lra. intros X; inversion X. specialize (SM H H0). lra.
  - exists (Fin (- p)), (Fin (- q)). repeat split; cbn; try lra. intros X; inversion X. specialize (SM H H0). lra.
Qed.

(* log barrier *)
Lemma eltb_elt x y : eltb x y = true <-> elt x y.
Proof.
  unfold elt. destruct x as [|a|], y as [|b|]; cbn; try (intuition congruence).
  destruct (Rlt_dec a b); split; intros; try discriminate; auto.
  - split; [lra|]. intros X; inversion X; lra.
  - destruct H as [H N]. exfalso. apply N. f_equal. lra.
Qed.
Lemma ele_refl x : ele x x. Proof. destruct x; cbn; auto; lra. Qed.
Lemma ele_total x y : ele x y \/ ele y x. Proof. destruct x, y; cbn; auto. lra. Qed.
Lemma ele_antisym x y : ele x y -> ele y x -> x = y.
Proof. destruct x, y; cbn; intros; try contradiction; auto. f_equal. lra. Qed.
Lemma ele_trans x y z : ele x y -> ele y z -> ele x z.
Proof. destruct x, y, z; cbn; intros; try contradiction; auto. lra. Qed.
Lemma ele_opp x y : ele (eopp x) (eopp y) <-> ele y x.
Proof. destruct x, y; cbn; split; intros; auto; lra. Qed.
Lemma eopp_inj x y : eopp x = eopp y -> x = y.
Proof. destruct x, y; cbn; intros H; inversion H; auto. f_equal. lra. Qed.

Definition emax (x y : er) := if eltb x y then y else x.
Lemma emax_ok x y : ele x (emax x y) /\ ele y (emax x y) /\ (emax x y = x \/ emax x y = y).
Proof.
  unfold emax. destruct (eltb x y) eqn:E.
  - apply eltb_elt in E. destruct E. split; auto. split; [apply ele_refl|auto].
  - split; [apply ele_refl|]. split; auto. destruct (ele_total y x); auto.
    destruct (eltb x y) eqn:F; [congruence|]. assert (~ elt x y) by (rewrite <- eltb_elt, F; congruence).
    destruct x as [|a|], y as [|b|]; cbn in *; auto; try (exfalso; apply H0; split; cbn; auto; congruence).
    destruct (Rle_dec b a); auto. exfalso. apply H0. split; [cbn; lra|]. intros X; inversion X; lra.
Qed.
Lemma emax_mono x x' y : ele x x' -> ele (emax x y) (emax x' y).
Proof.
  intros H. destruct (emax_ok x y) as (A & B & [C|C]), (emax_ok x' y) as (A' & B' & C'); rewrite C.
  - exact (ele_trans _ _ _ H A').
  - auto.
Qed.

Lemma barrier_eq lhs cmp rhs s sign inf : inequality cmp -> known_sign sign ->
  log_barrier lhs cmp rhs s sign inf =
  Ok (let r := emax (tlog_div (relu (slack cmp lhs rhs)) s) (eopp inf) in if String.eqb sign "+" then eopp r else r).
Proof. intros H [-> | ->]; cmp_cases H; reflexivity. Qed.

Lemma tlog_mono a b s : 0 < s -> a <= b -> ele (tlog_div (relu a) s) (tlog_div (relu b) s).
Proof.
  intros Hs H. unfold tlog_div, relu, Rmax. destruct (Rle_dec 0 a), (Rle_dec 0 b); try lra;
    repeat match goal with |- context [Rlt_dec ?x ?y] => destruct (Rlt_dec x y) end; cbn; auto; try lra.
  apply Rmult_le_compat_r; [left; apply Rinv_0_lt_compat; auto|]. destruct H as [H|H]; [left; apply ln_increasing; auto|subst; lra].
Qed.
Lemma tlog_violated a s : a <= 0 -> tlog_div (relu a) s = NInf.
Proof. intros. unfold tlog_div, relu, Rmax. destruct (Rle_dec 0 a); destruct (Rlt_dec 0 _); auto; lra. Qed.

Lemma barrier_mono cmp lhs1 rhs1 lhs2 rhs2 s sign inf : inequality cmp -> known_sign sign -> 0 < s ->
  slack cmp lhs1 rhs1 <= slack cmp lhs2 rhs2 ->
  exists a b, log_barrier lhs1 cmp rhs1 s sign inf = Ok a /\ log_barrier lhs2 cmp rhs2 s sign inf = Ok b /\
    not_better sign a b.
Proof.
  intros Hc Hs P H. rewrite !barrier_eq by auto. cbv zeta.
  pose proof (emax_mono _ _ (eopp inf) (tlog_mono _ _ s P H)) as M.
  destruct Hs as [-> | ->]; unfold not_better; cbn [String.eqb Ascii.eqb Bool.eqb]; eexists _, _;
    (split; [reflexivity|]); (split; [reflexivity|]); auto. apply ele_opp. auto.
Qed.
Lemma barrier_violated cmp lhs rhs s sign inf : inequality cmp -> known_sign sign ->
  ~ strictly_satisfied cmp lhs rhs ->
  log_barrier lhs cmp rhs s sign inf = Ok (if String.eqb sign "+" then inf else eopp inf).
Proof.
  intros Hc Hs H. rewrite barrier_eq by auto. cbv zeta. rewrite tlog_violated.
  - replace (emax NInf (eopp inf)) with (eopp inf) by (destruct inf; reflexivity).
    destruct Hs as [-> | ->]; cbn; auto. destruct inf; auto. cbn. do 2 f_equal. lra.
  - unfold slack. cmp_cases Hc; cbn; destruct (Rle_dec (lhs - rhs) 0); try lra; destruct (Rle_dec (rhs - lhs) 0); try lra;
      exfalso; apply H; sat.
Qed.
Lemma barrier_satisfied cmp lhs rhs s sign : inequality cmp -> known_sign sign -> strictly_satisfied cmp lhs rhs ->
  exists b, log_barrier lhs cmp rhs s sign PInf = Ok (Fin b).
Proof.
  intros Hc Hs H. rewrite barrier_eq by auto. cbv zeta.
  assert (0 < slack cmp lhs rhs) by (unfold slack; cmp_cases Hc; cbn; sat).
  unfold tlog_div, relu, Rmax. destruct (Rle_dec 0 (slack cmp lhs rhs)); [|lra]. destruct (Rlt_dec 0 _); [|lra].
  unfold emax. cbn. destruct Hs as [-> | ->]; cbn; eauto.
Qed.

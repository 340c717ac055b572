(* Constraint penalties: properties C27, C72. *)
From Coq Require Import Reals String Lra.
From Verif Require Import Prelude ConstrModel ConstrSpec ConstrProofs.
Open Scope R_scope.

Theorem C27_violation : forall cmp lhs rhs, comparison cmp ->
  exists v, violation lhs cmp rhs = Ok v /\ 0 <= v /\ (v = 0 <-> satisfied cmp lhs rhs) /\ least_repair cmp lhs rhs v.
Proof. exact violation_repair. Qed.
Print Assumptions C27_violation.
Theorem C27_penalty : forall lhs cmp rhs sign linear step exp exp_inf,
  comparison cmp -> known_sign sign -> weights_ok linear step exp exp_inf ->
  exists p, penalty lhs cmp rhs sign linear step exp exp_inf = Ok (Fin p) /\
    (p = 0 <-> satisfied cmp lhs rhs) /\ not_better sign (Fin p) (Fin 0).
Proof. exact penalty_ok. Qed.
Print Assumptions C27_penalty.
Theorem C27_monotone : forall lhs1 rhs1 cmp1 v1 lhs2 rhs2 cmp2 v2 sign linear step exp exp_inf,
  known_sign sign -> weights_ok linear step exp exp_inf ->
  comparison cmp1 -> comparison cmp2 ->
  least_repair cmp1 lhs1 rhs1 v1 -> least_repair cmp2 lhs2 rhs2 v2 -> v1 <= v2 ->
  exists p1 p2, penalty lhs1 cmp1 rhs1 sign linear step exp exp_inf = Ok p1 /\
    penalty lhs2 cmp2 rhs2 sign linear step exp exp_inf = Ok p2 /\
    not_better sign p2 p1 /\ (0 < linear -> v1 < v2 -> worse sign p2 p1).
Proof. exact penalty_mono. Qed.
Print Assumptions C27_monotone.
Theorem C27_errors : forall lhs cmp rhs sign linear step exp exp_inf s inf,
  (~ comparison cmp -> violation lhs cmp rhs = Err ValueError /\
                       penalty lhs cmp rhs sign linear step exp exp_inf = Err ValueError) /\
  (~ known_sign sign -> penalty lhs cmp rhs sign linear step exp exp_inf = Err ValueError /\
                        log_barrier lhs cmp rhs s sign inf = Err ValueError) /\
  (~ inequality cmp -> log_barrier lhs cmp rhs s sign inf = Err ValueError).
Proof.
  intros. unfold comparison, inequality, known_sign. cbn [In]. split; [|split]; intros H.
  - assert (V : violation lhs cmp rhs = Err ValueError).
    { unfold violation. destruct (String.eqb_spec cmp ">="); [subst; exfalso; apply H; auto|].
      destruct (String.eqb_spec cmp "<="); [subst; exfalso; apply H; auto|].
      destruct (String.eqb_spec cmp "=="); [subst; exfalso; apply H; auto|]. reflexivity. }
    unfold penalty. rewrite V. auto.
  - split.
    + unfold penalty, violation. repeat (destruct (String.eqb cmp _)); cbn [bind]; auto;
        (destruct (String.eqb_spec sign "+"); [subst; exfalso; apply H; auto|]);
        (destruct (String.eqb_spec sign "-"); [subst; exfalso; apply H; auto|]); reflexivity.
    + unfold log_barrier. repeat (destruct (String.eqb cmp _)); cbn [bind]; auto;
        (destruct (String.eqb_spec sign "+"); [subst; exfalso; apply H; auto|]);
        (destruct (String.eqb_spec sign "-"); [subst; exfalso; apply H; auto|]); reflexivity.
  - unfold log_barrier. destruct (String.eqb_spec cmp ">="); [subst; exfalso; apply H; auto|].
    destruct (String.eqb_spec cmp "<="); [subst; exfalso; apply H; auto|]. reflexivity.
Qed.
Print Assumptions C27_errors.
Example C27_example : exists v, least_repair "<=" 5 3 v /\ v = 2 /\ weights_ok 1 0 (Some 2) PInf.
Proof.
  destruct (C27_violation "<=" 5 3) as (v & E & _ & _ & L); [cbn; auto|]. exists v. split; auto.
  unfold violation in E. cbn in E. inversion E. unfold relu, Rmax in *. destruct (Rle_dec 0 (5 - 3)); [|lra].
  split; [lra|]. unfold weights_ok, elt. cbn. repeat split; try lra; try congruence. intros e X. inversion X. lra.
Qed.

(* Why the exponent has to be positive.  With exponent zero every solution, feasible or not, gets the same additional 1;
   with a negative exponent satisfied constraints get the largest penalty there is, the cap, and any violation gets less. *)
Theorem C27_zero_exponent : forall lhs cmp rhs v linear step exp_inf, comparison cmp -> least_repair cmp lhs rhs v ->
  0 <= linear -> 0 <= step -> elt (Fin 1) exp_inf ->
  penalty lhs cmp rhs "+" linear step (Some 0) exp_inf = Ok (Fin (linear * v + (if Rlt_dec 0 v then step else 0) + 1)).
Proof.
  intros lhs cmp rhs v linear step inf C L Hl Hs Hi. destruct (C27_violation cmp lhs rhs C) as (w & E & W & _ & [(d & D1 & D2) M]). destruct L as [(d' & D1' & D2') M'].
  assert (w = v) as -> by (specialize (M d' D2'); specialize (M' d D2); lra). unfold penalty. rewrite E. cbn [bind].
  assert (T : tpow v 0 = Fin 1).
  { unfold tpow. destruct (Rlt_dec 0 v); [rewrite Rpower_O; auto|]. destruct (Rlt_dec 0 0); [lra|]. destruct (Rlt_dec 0 0); [lra|]. reflexivity. }
  rewrite T. destruct Hi as [Hi Hn]. replace (eltb inf (Fin 1)) with false; [reflexivity|]. destruct inf as [|i|]; cbn in *; [contradiction| |reflexivity]. destruct (Rlt_dec i 1); [lra|reflexivity].
Qed.
Print Assumptions C27_zero_exponent.
Theorem C27_negative_exponent : forall lhs cmp rhs lhs' rhs' e exp_inf, comparison cmp -> satisfied cmp lhs rhs -> ~ satisfied cmp lhs' rhs' -> e < 0 -> elt (Fin 0) exp_inf ->
  penalty lhs cmp rhs "+" 0 0 (Some e) exp_inf = Ok exp_inf /\
  exists q, penalty lhs' cmp rhs' "+" 0 0 (Some e) exp_inf = Ok q /\ ele q exp_inf /\ q <> PInf.
Proof.
  intros lhs cmp rhs lhs' rhs' e inf C Sa Ns He [Hi Hn]. destruct (C27_violation cmp lhs rhs C) as (w & E & W & Z & _). destruct (C27_violation cmp lhs' rhs' C) as (w' & E' & W' & Z' & _).
  apply Z in Sa. subst w. assert (P : 0 < w') by (destruct W' as [|<-]; auto; exfalso; apply Ns, Z'; auto). unfold penalty. rewrite E, E'. cbn [bind]. split.
  - unfold tpow. destruct (Rlt_dec 0 0); [lra|]. destruct (Rlt_dec 0 e); [lra|]. destruct (Rlt_dec e 0); [|lra]. destruct inf as [|i|]; cbn in *; try contradiction; [|reflexivity]. f_equal. f_equal. lra.
  - destruct (tpow_pos w' e P) as (p & -> & Pp). destruct (Rlt_dec 0 w'); [|lra]. destruct inf as [|i|]; cbn in *; try contradiction.
    + destruct (Rlt_dec i p); cbn; eexists; (split; [reflexivity|]); split; try discriminate; cbn; lra.
    + eexists. split; [reflexivity|]. split; [exact I|discriminate].
Qed.
Print Assumptions C27_negative_exponent.
Example C27_exponents_example : penalty 1 "<=" 3 "+" 2 5 (Some 0) PInf = Ok (Fin 1) /\ penalty 1 "<=" 3 "+" 0 0 (Some (-1)) PInf = Ok PInf.
Proof.
  split.
  - rewrite (C27_zero_exponent 1 "<=" 3 0 2 5 PInf); [destruct (Rlt_dec 0 0); [lra|]; do 2 f_equal; lra|cbn; auto| |lra|lra|split; [exact I|discriminate]].
    split; [exists 0; split; [apply Rabs_R0|right; left; split; [reflexivity|lra]]|intros d _; apply Rabs_pos].
  - apply (C27_negative_exponent 1 "<=" 3 5 3 (-1) PInf); [cbn; auto|right; left; split; [reflexivity|lra]| |lra|split; [exact I|discriminate]].
    intros [[A _]|[[_ A]|[A _]]]; try discriminate; lra.
Qed.

(* C72: log barrier *)
Theorem C72_monotone : forall cmp lhs1 rhs1 lhs2 rhs2 sharpness sign inf,
  inequality cmp -> known_sign sign -> 0 < sharpness ->
  slack cmp lhs1 rhs1 <= slack cmp lhs2 rhs2 ->
  exists a b, log_barrier lhs1 cmp rhs1 sharpness sign inf = Ok a /\
    log_barrier lhs2 cmp rhs2 sharpness sign inf = Ok b /\ not_better sign a b.
Proof. exact barrier_mono. Qed.
Print Assumptions C72_monotone.
Theorem C72_violated : forall cmp lhs rhs sharpness sign inf, inequality cmp -> known_sign sign ->
  ~ strictly_satisfied cmp lhs rhs ->
  log_barrier lhs cmp rhs sharpness sign inf = Ok (if String.eqb sign "+" then inf else eopp inf).
Proof. exact barrier_violated. Qed.
Print Assumptions C72_violated.
Theorem C72_satisfied : forall cmp lhs rhs sharpness sign, inequality cmp -> known_sign sign ->
  strictly_satisfied cmp lhs rhs -> exists b, log_barrier lhs cmp rhs sharpness sign PInf = Ok (Fin b).
Proof. exact barrier_satisfied. Qed.
Print Assumptions C72_satisfied.
Example C72_example : inequality ">=" /\ strictly_satisfied ">=" 3 1 /\ slack ">=" 2 1 <= slack ">=" 5 2.
Proof. cbn. unfold strictly_satisfied, slack. cbn. split; auto. split; [left; split; auto; lra|lra]. Qed.

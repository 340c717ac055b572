(* Properties C122-C126: Adam, SGD and the initial standard deviation. *)
From Coq Require Import Reals Lra Lia String.
From Verif Require Import Prelude RollProofs FuncModel FuncSpec FuncProofs FuncProofs2 FuncProofs3.
Open Scope R_scope.

(* ------------------------------------------------------------ helpers *)
Lemma in_unit_ok b : in_unit b = true <-> proper_beta b.
Proof. unfold in_unit, proper_beta. destruct (Rlt_dec b 0), (Rlt_dec b 1); split; intros; try discriminate; try lra; auto. Qed.
Lemma adam_class_ok n st b1 b2 eps ams w : adam_class n st b1 b2 eps ams = Ok w -> ams <> Some true ->
  exists a, w = WAdam a /\ adam_inv n [] a /\ ta_lr a = given st (1 / 1000) /\ ta_beta1 a = given b1 (9 / 10) /\ ta_beta2 a = given b2 (999 / 1000) /\
    ta_eps a = given eps (1 / 100000000) /\ 0 <= ta_lr a /\ 0 <= ta_eps a.
Proof.
  unfold adam_class. intros H HA. destruct (match b1, b2 with None, None => _ | Some x, Some y => _ | _, _ => _ end) as [betas|] eqn:EB; [|discriminate].
  cbn [bind] in H. unfold tadam_init in H. cbv zeta in H.
  destruct (Rlt_dec (match st with None => _ | Some x => x end) 0) as [|LR]; [discriminate|].
  destruct (Rlt_dec (match eps with None => _ | Some x => x end) 0) as [|EP]; [discriminate|].
  destruct (in_unit (fst (match betas with None => _ | Some x => x end))) eqn:U1; [|discriminate].
  destruct (in_unit (snd (match betas with None => _ | Some x => x end))) eqn:U2; [|discriminate].
  cbn [negb rmap] in H. injection H as <-. eexists. split; [reflexivity|]. cbn [ta_lr ta_beta1 ta_beta2 ta_eps].
  apply in_unit_ok in U1, U2.
  assert (X : fst (match betas with None => (9 / 10, 999 / 1000) | Some x => x end) = given b1 (9 / 10) /\
              snd (match betas with None => (9 / 10, 999 / 1000) | Some x => x end) = given b2 (999 / 1000)).
  { destruct b1, b2; inversion EB; subst; split; reflexivity. }
  destruct X as [X1 X2]. split; [|repeat split; auto; unfold given in *; destruct st, eps; lra].
  unfold adam_inv. cbn [ta_t ta_cells ta_amsgrad ta_beta1 ta_beta2]. rewrite repeat_length. repeat split; try apply U1; try apply U2.
  - destruct ams as [[]|]; auto. congruence.
  - intros j J. exists (Some 0). rewrite repeat_nth by auto. f_equal. f_equal; f_equal; unfold avg, coordinate; cbn [map sq]; rewrite discounted_nil; lra.
Qed.
Lemma ams_class_ok n st b1 b2 eps ams w : adam_class n st b1 b2 eps ams = Ok w -> ams = Some true ->
  exists a, w = WAdam a /\ ams_inv n [] a /\ ta_lr a = given st (1 / 1000) /\ ta_beta1 a = given b1 (9 / 10) /\ ta_beta2 a = given b2 (999 / 1000) /\
    ta_eps a = given eps (1 / 100000000) /\ 0 <= ta_lr a /\ 0 <= ta_eps a.
Proof.
  unfold adam_class. intros H HA. destruct (match b1, b2 with None, None => _ | Some x, Some y => _ | _, _ => _ end) as [betas|] eqn:EB; [|discriminate].
  cbn [bind] in H. unfold tadam_init in H. cbv zeta in H.
  destruct (Rlt_dec (match st with None => _ | Some x => x end) 0) as [|LR]; [discriminate|].
  destruct (Rlt_dec (match eps with None => _ | Some x => x end) 0) as [|EP]; [discriminate|].
  destruct (in_unit (fst (match betas with None => _ | Some x => x end))) eqn:U1; [|discriminate].
  destruct (in_unit (snd (match betas with None => _ | Some x => x end))) eqn:U2; [|discriminate].
  cbn [negb rmap] in H. injection H as <-. eexists. split; [reflexivity|]. cbn [ta_lr ta_beta1 ta_beta2 ta_eps].
  apply in_unit_ok in U1, U2.
  assert (X : fst (match betas with None => (9 / 10, 999 / 1000) | Some x => x end) = given b1 (9 / 10) /\
              snd (match betas with None => (9 / 10, 999 / 1000) | Some x => x end) = given b2 (999 / 1000)).
  { destruct b1, b2; inversion EB; subst; split; reflexivity. }
  destruct X as [X1 X2]. split; [|repeat split; auto; unfold given in *; destruct st, eps; lra].
  unfold ams_inv. cbn [ta_t ta_cells ta_amsgrad ta_beta1 ta_beta2]. rewrite repeat_length. repeat split; try apply U1; try apply U2.
  - now rewrite HA.
  - intros j J. rewrite repeat_nth by auto. f_equal. f_equal; f_equal; unfold avg, coordinate; cbn [map sq]; rewrite ?discounted_nil; try lra.
Qed.
Lemma follows_summed rule start gs steps point : follows_rule rule (length start) gs steps -> reaches rule start gs point -> summed start steps point.
Proof.
  intros [L N] [LP P]. split; auto. intros j c Hc. rewrite (P j c Hc). f_equal. f_equal. unfold moves_of.
  apply nth_error_ext. intros k. rewrite !nth_error_map. destruct (nth_error steps k) as [step|] eqn:E.
  - assert (K : (k < length gs)%nat) by (rewrite <- L; apply nth_error_Some; congruence). rewrite nth_seq by auto. cbn [option_map].
    destruct (N k step E) as [_ S']. assert (J : (j < length start)%nat) by (apply nth_error_Some; congruence).
    f_equal. rewrite (nth_error_nth _ _ _ (S' j J)). reflexivity.
  - apply nth_error_None in E. destruct (nth_error (seq 0 (length gs)) k) eqn:E'; auto.
    assert (nth_error (seq 0 (length gs)) k <> None) by congruence. apply nth_error_Some in H. rewrite seq_length in H. lia.
Qed.

Lemma firstn_repeat {A} (x : A) k : forall t, (k <= t)%nat -> firstn k (repeat x t) = repeat x k.
Proof. induction k; intros [|t] H; cbn; try lia; auto. f_equal. apply IHk. lia. Qed.

(* ------------------------------------------------------------ C122: Adam *)
(* the class: every ascent is Adam's move for the gradients so far *)
Theorem C122_class : forall n stepsize beta1 beta2 epsilon amsgrad w gs,
  adam_class n stepsize beta1 beta2 epsilon amsgrad = Ok w -> amsgrad <> Some true -> gradients n gs ->
  exists w' steps, ascents w gs = Ok (w', steps) /\
    follows_rule (adam_move (given stepsize (1 / 1000)) (given beta1 (9 / 10)) (given beta2 (999 / 1000)) (given epsilon (1 / 100000000))) n gs steps.
Proof.
  intros n st b1 b2 eps ams w gs H A G. destruct (adam_class_ok _ _ _ _ _ _ _ H A) as (a & -> & I & <- & <- & <- & <- & _).
  destruct (ascents_rule (fun past w => exists a', w = WAdam a' /\ adam_inv n past a' /\ ta_lr a' = ta_lr a /\ ta_beta1 a' = ta_beta1 a /\
     ta_beta2 a' = ta_beta2 a /\ ta_eps a' = ta_eps a) (adam_move (ta_lr a) (ta_beta1 a) (ta_beta2 a) (ta_eps a)) n)
    with (gs := gs) (past := @nil (list R)) (w := WAdam a) as (w & steps & E & L & N).
  - intros past w g (a' & -> & I' & E1 & E2 & E3 & E4) Lg. destruct (adam_ascent n past a' g I' Lg) as (a2 & st2 & X & I2 & Y1 & Y2 & Y3 & Y4 & L2 & N2).
    exists (WAdam a2), st2. split; auto. split; [exists a2; repeat split; try apply I2; congruence|]. split; auto. rewrite <- E1, <- E2, <- E3, <- E4. auto.
  - exists a. auto 10.
  - exact G.
  - exists w, steps. split; auto. split; auto.
Qed.
Print Assumptions C122_class.
(* the functional API: the center has made Adam's moves *)
Theorem C122_functional : forall center lr beta1 beta2 epsilon gs,
  proper_beta (given beta1 (9 / 10)) -> proper_beta (given beta2 (999 / 1000)) -> gradients (length center) gs ->
  reaches (adam_move (given lr (1 / 1000)) (given beta1 (9 / 10)) (given beta2 (999 / 1000)) (given epsilon (1 / 100000000))) center gs
    (fadam_ask (fadam_run (fadam_init center lr beta1 beta2 epsilon) gs)).
Proof.
  intros center lr b1 b2 eps gs B1 B2 G. set (s0 := fadam_init center lr b1 b2 eps).
  change (given lr (1 / 1000)) with (fa_lr s0). change (given b1 (9 / 10)) with (fa_beta1 s0). change (given b2 (999 / 1000)) with (fa_beta2 s0).
  change (given eps (1 / 100000000)) with (fa_eps s0).
  assert (I : fadam_inv (length center) [] s0).
  { unfold fadam_inv, s0, fadam_init. cbn [fa_t fa_m fa_v fa_center fa_beta1 fa_beta2]. rewrite !repeat_length, map_length. repeat split; auto; try apply B1; try apply B2;
      rewrite repeat_nth by auto; f_equal; f_equal; unfold avg, coordinate; cbn [map sq]; rewrite discounted_nil; lra. }
  destruct (run_rule (fun s g => fadam_tell s (map Some g)) fa_center
    (fun past s => fadam_inv (length center) past s /\ fa_lr s = fa_lr s0 /\ fa_beta1 s = fa_beta1 s0 /\ fa_beta2 s = fa_beta2 s0 /\ fa_eps s = fa_eps s0)
    (adam_move (fa_lr s0) (fa_beta1 s0) (fa_beta2 s0) (fa_eps s0)) (length center)) with (gs := gs) (past := @nil (list R)) (s := s0) as [I2 N2].
  - intros past s g (I' & E1 & E2 & E3 & E4) Lg. destruct (fadam_ok _ past s g I' Lg) as (I2 & Y1 & Y2 & Y3 & Y4 & N2).
    split; [repeat split; try apply I2; congruence|]. rewrite <- E1, <- E2, <- E3, <- E4. exact N2.
  - auto.
  - exact G.
  - unfold fadam_ask, fadam_run. split; [apply I2|]. intros j c Hc. apply (N2 j (Some c)).
    + apply nth_error_Some. congruence.
    + unfold s0, fadam_init. cbn [fa_center]. rewrite nth_error_map, Hc. reflexivity.
Qed.
Print Assumptions C122_functional.
(* both APIs go the same way *)
Theorem C122_agree : forall center stepsize beta1 beta2 epsilon w gs,
  adam_class (length center) (Some stepsize) beta1 beta2 epsilon None = Ok w -> gradients (length center) gs ->
  exists w' steps, ascents w gs = Ok (w', steps) /\
    summed center steps (fadam_ask (fadam_run (fadam_init center (Some stepsize) beta1 beta2 epsilon) gs)).
Proof.
  intros center st b1 b2 eps w gs H G. destruct (C122_class _ _ _ _ _ _ _ gs H) as (w' & steps & E & F); auto; [discriminate|].
  destruct (adam_class_ok _ _ _ _ _ _ _ H) as (a & _ & I & _ & X1 & X2 & _); [discriminate|].
  exists w', steps. split; auto. eapply follows_summed; [exact F|]. apply C122_functional; auto; [rewrite <- X1|rewrite <- X2]; apply I.
Qed.
Print Assumptions C122_agree.
(* the class accepts exactly the meaningful hyperparameters *)
Theorem C122_rejected : forall n stepsize beta1 beta2 epsilon amsgrad,
  match adam_class n stepsize beta1 beta2 epsilon amsgrad with
  | Ok _ => (beta1 = None <-> beta2 = None) /\ 0 <= given stepsize 0 /\ 0 <= given epsilon 0 /\ proper_beta (given beta1 0) /\ proper_beta (given beta2 0)
  | Err e => e = ValueError /\ ~ ((beta1 = None <-> beta2 = None) /\ 0 <= given stepsize 0 /\ 0 <= given epsilon 0 /\ proper_beta (given beta1 0) /\ proper_beta (given beta2 0))
  end.
Proof.
  intros n st b1 b2 eps ams. unfold adam_class, proper_beta.
  assert (IU : forall b, in_unit b = true \/ in_unit b = false /\ ~ (0 <= b < 1)).
  { intros b. destruct (in_unit b) eqn:E; auto. right. split; auto. intros C. apply in_unit_ok in C. congruence. }
  assert (D1 : in_unit (9 / 10) = true) by (apply in_unit_ok; split; lra). assert (D2 : in_unit (999 / 1000) = true) by (apply in_unit_ok; split; lra).
  destruct b1 as [x|], b2 as [y|]; cbn [bind given]; unfold tadam_init; cbv zeta; cbn [fst snd].
  - destruct (Rlt_dec (match st with None => _ | Some x => x end) 0) as [LR|LR]; cbn [rmap bind].
    { split; auto. intros (_ & C & _). destruct st; cbn in *; lra. }
    destruct (Rlt_dec (match eps with None => _ | Some x => x end) 0) as [EP|EP]; cbn [rmap bind].
    { split; auto. intros (_ & _ & C & _). destruct eps; cbn in *; lra. }
    destruct (IU x) as [U1|[U1 NU1]]; rewrite U1; cbn [negb rmap bind]; [|split; auto; tauto].
    destruct (IU y) as [U2|[U2 NU2]]; rewrite U2; cbn [negb rmap bind]; [|split; auto; tauto].
    apply in_unit_ok in U1, U2. split; [split; discriminate|]. destruct st, eps; cbn in *; repeat split; try apply U1; try apply U2; lra.
  - split; auto. intros ([_ C] & _). specialize (C eq_refl). discriminate.
  - split; auto. intros ([C _] & _). specialize (C eq_refl). discriminate.
  - destruct (Rlt_dec (match st with None => _ | Some x => x end) 0) as [LR|LR]; cbn [rmap bind].
    { split; auto. intros (_ & C & _). destruct st; cbn in *; lra. }
    destruct (Rlt_dec (match eps with None => _ | Some x => x end) 0) as [EP|EP]; cbn [rmap bind].
    { split; auto. intros (_ & _ & C & _). destruct eps; cbn in *; lra. }
    rewrite D1, D2. cbn [negb rmap bind]. split; [tauto|]. destruct st, eps; cbn in *; repeat split; lra.
Qed.
Print Assumptions C122_rejected.
(* with amsgrad, the largest average so far takes the place of the latest one, so that the moves are never longer *)
Theorem C122_amsgrad : forall n stepsize beta1 beta2 epsilon w gs,
  adam_class n stepsize beta1 beta2 epsilon (Some true) = Ok w -> gradients n gs ->
  exists w' steps, ascents w gs = Ok (w', steps) /\
    follows_rule (amsgrad_move (given stepsize (1 / 1000)) (given beta1 (9 / 10)) (given beta2 (999 / 1000)) (given epsilon (1 / 100000000))) n gs steps.
Proof.
  intros n st b1 b2 eps w gs H G. destruct (ams_class_ok _ _ _ _ _ _ _ H eq_refl) as (a & -> & I & <- & <- & <- & <- & _).
  destruct (ascents_rule (fun past w => exists a', w = WAdam a' /\ ams_inv n past a' /\ ta_lr a' = ta_lr a /\ ta_beta1 a' = ta_beta1 a /\
     ta_beta2 a' = ta_beta2 a /\ ta_eps a' = ta_eps a) (amsgrad_move (ta_lr a) (ta_beta1 a) (ta_beta2 a) (ta_eps a)) n)
    with (gs := gs) (past := @nil (list R)) (w := WAdam a) as (w & steps & E & L & N).
  - intros past w g (a' & -> & I' & E1 & E2 & E3 & E4) Lg. destruct (ams_ascent n past a' g I' Lg) as (a2 & st2 & X & I2 & Y1 & Y2 & Y3 & Y4 & L2 & N2).
    exists (WAdam a2), st2. split; auto. split; [exists a2; repeat split; try apply I2; congruence|]. split; auto. rewrite <- E1, <- E2, <- E3, <- E4. auto.
  - exists a. auto 10.
  - exact G.
  - exists w, steps. split; auto. split; auto.
Qed.
Print Assumptions C122_amsgrad.
Theorem C122_amsgrad_cautious : forall n stepsize beta1 beta2 epsilon w1 w2 gs w1' w2' steps1 steps2 k s1 s2 j x y,
  adam_class n stepsize beta1 beta2 epsilon None = Ok w1 -> adam_class n stepsize beta1 beta2 epsilon (Some true) = Ok w2 -> gradients n gs ->
  ascents w1 gs = Ok (w1', steps1) -> ascents w2 gs = Ok (w2', steps2) ->
  nth_error steps1 k = Some s1 -> nth_error steps2 k = Some s2 -> nth_error s1 j = Some (Some x) -> nth_error s2 j = Some (Some y) -> Rabs y <= Rabs x.
Proof.
  intros n st b1 b2 eps w1 w2 gs w1' w2' st1 st2 k s1 s2 j x y H1 H2 G A1 A2 K1 K2 J1 J2.
  destruct (adam_class_ok _ _ _ _ _ _ _ H1) as (a & Ea & I & E1 & E2 & E3 & E4 & P1 & P2); [discriminate|].
  destruct (C122_class _ _ _ _ _ _ _ gs H1) as (x1 & y1 & X1 & [L1 F1]); auto; [discriminate|]. rewrite A1 in X1. inversion X1; subst x1 y1; clear X1.
  destruct (C122_amsgrad _ _ _ _ _ _ _ H2 G) as (x2 & y2 & X2 & [L2 F2]). rewrite A2 in X2. inversion X2; subst x2 y2; clear X2.
  destruct (F1 k s1 K1) as [LU NU]. destruct (F2 k s2 K2) as [LV NV]. assert (J : (j < n)%nat) by (rewrite <- LU; apply nth_error_Some; congruence).
  assert (K : (k < length gs)%nat) by (rewrite <- L1; apply nth_error_Some; congruence).
  rewrite (NU j J) in J1. rewrite (NV j J) in J2. injection J1 as J1. injection J2 as J2. eapply ams_smaller; [| | |exact J1|exact J2].
  - rewrite <- E3. apply I.
  - lra.
  - destruct gs; [cbn in K; lia|]. discriminate.
Qed.
Print Assumptions C122_amsgrad_cautious.
Example C122_example : (exists w, adam_class 2 (Some (1 / 10)) (Some (1 / 2)) (Some (1 / 4)) (Some 1) None = Ok w) /\
  gradients 2 [[1; 2]; [3; 0]] /\
  adam_move (1 / 10) (1 / 2) (1 / 4) 1 [2; 2] = Some (1 / 15) /\ m_hat (1 / 2) [1; 3] = 7 / 3.
Proof.
  split; [|split; [repeat constructor|split]].
  - unfold adam_class, tadam_init. cbn [bind]. cbv zeta. cbn [fst snd]. do 2 (destruct (Rlt_dec _ 0); [lra|]).
    rewrite !(proj2 (in_unit_ok _)) by (split; lra). eexists. reflexivity.
  - rewrite (move_constant _ _ _ _ 2 2); try (split; lra); [|lia|rewrite Rabs_right; lra]. f_equal. rewrite Rabs_right by lra. field.
  - unfold m_hat, discounted, total. cbn. field.
Qed.

(* ------------------------------------------------------------ C123: the size of Adam's moves *)
(* no gradient, however large, makes Adam move a coordinate by more than stepsize times a constant of beta1 and beta2 *)
Theorem C123_bounded : forall n stepsize beta1 beta2 epsilon w gs w' steps k step j y,
  adam_class n (Some stepsize) (Some beta1) (Some beta2) epsilon None = Ok w -> beta1 * beta1 < beta2 -> gradients n gs ->
  ascents w gs = Ok (w', steps) -> nth_error steps k = Some step -> nth_error step j = Some (Some y) ->
  Rabs y <= stepsize * sqrt (beta2 / ((beta2 - beta1 * beta1) * (1 - beta2))).
Proof.
  intros n st b1 b2 eps w gs w' steps k step j y H B G A K J. destruct (adam_class_ok _ _ _ _ _ _ _ H) as (a & Ea & I & E1 & E2 & E3 & E4 & P1 & P2); [discriminate|].
  destruct (C122_class _ _ _ _ _ _ _ gs H) as (w2 & st2 & E & [_ F]); auto; [discriminate|]. rewrite A in E. inversion E; subst w2 st2; clear E.
  destruct (F k step K) as [LS S']. assert (Jn : (j < n)%nat) by (rewrite <- LS; apply nth_error_Some; congruence). rewrite (S' j Jn) in J. injection J as M.
  unfold given in *. destruct I as (_ & _ & _ & [Q1 _] & [_ Q2] & _). eapply move_bound; [| | | | |exact M]; try lra.
Qed.
Print Assumptions C123_bounded.
(* under a constant gradient every move is stepsize * g / (|g| + epsilon), so less than stepsize *)
Theorem C123_constant : forall n stepsize beta1 beta2 epsilon w g t w' steps k step j,
  adam_class n (Some stepsize) beta1 beta2 (Some epsilon) None = Ok w -> 0 < epsilon -> length g = n ->
  ascents w (repeat g t) = Ok (w', steps) -> nth_error steps k = Some step -> (j < n)%nat ->
  nth_error step j = Some (Some (stepsize * nth j g 0 / (Rabs (nth j g 0) + epsilon))) /\
  Rabs (stepsize * nth j g 0 / (Rabs (nth j g 0) + epsilon)) <= stepsize.
Proof.
  intros n st b1 b2 eps w g t w' steps k step j H EP LG A K J. destruct (adam_class_ok _ _ _ _ _ _ _ H) as (a & Ea & I & E1 & E2 & E3 & E4 & P1 & P2); [discriminate|].
  assert (G : gradients n (repeat g t)) by (apply Forall_forall; intros x X; apply repeat_spec in X; congruence).
  destruct (C122_class _ _ _ _ _ _ _ _ H (fun C => ltac:(discriminate)) G) as (w2 & st2 & E & [L F]). rewrite A in E. inversion E; subst w2 st2; clear E.
  destruct (F k step K) as [LS S']. assert (Kt : (k < t)%nat). { rewrite repeat_length in L. rewrite <- L. apply nth_error_Some. congruence. }
  assert (C : coordinate j (firstn (S k) (repeat g t)) = repeat (nth j g 0) (S k)).
  { rewrite firstn_repeat by lia. apply (map_repeat' (fun v => nth j v 0)). }
  pose proof (Rabs_pos (nth j g 0)) as AP. split.
  - rewrite (S' j J), C. f_equal. cbn [given]. apply move_constant; try lia; try lra.
    + rewrite <- E2. apply I. + rewrite <- E3. apply I.
  - cbn [given] in E1. unfold Rdiv. rewrite !Rabs_mult, (Rabs_right st) by lra. rewrite (Rabs_right (/ _)) by (left; apply Rinv_0_lt_compat; lra).
    rewrite Rmult_assoc. rewrite <- (Rmult_1_r st) at 2. apply Rmult_le_compat_l; [lra|]. apply Rmult_le_reg_r with (Rabs (nth j g 0) + eps); [lra|].
    rewrite Rmult_assoc, Rinv_l by lra. lra.
Qed.
Print Assumptions C123_constant.
(* Adam does not depend on the unit of the fitness: scaling all gradients together with epsilon changes no move *)
Theorem C123_scale : forall n stepsize beta1 beta2 epsilon k w1 w2 gs w1' w2' steps1 steps2, 0 < k ->
  adam_class n stepsize beta1 beta2 (Some epsilon) None = Ok w1 -> adam_class n stepsize beta1 beta2 (Some (k * epsilon)) None = Ok w2 ->
  gradients n gs -> ascents w1 gs = Ok (w1', steps1) -> ascents w2 (map (map (fun x => k * x)) gs) = Ok (w2', steps2) -> steps1 = steps2.
Proof.
  intros n st b1 b2 eps k w1 w2 gs w1' w2' s1 s2 K H1 H2 G A1 A2.
  assert (G2 : gradients n (map (map (fun x => k * x)) gs)).
  { apply Forall_forall. intros x. rewrite in_map_iff. intros (y & <- & Y). rewrite map_length. unfold gradients in G. rewrite Forall_forall in G. auto. }
  destruct (C122_class _ _ _ _ _ _ _ gs H1) as (x1 & y1 & X1 & [L1 F1]); auto; [discriminate|]. rewrite A1 in X1. inversion X1; subst x1 y1; clear X1.
  destruct (C122_class _ _ _ _ _ _ _ _ H2 (fun C => ltac:(discriminate)) G2) as (x2 & y2 & X2 & [L2 F2]). rewrite A2 in X2. inversion X2; subst x2 y2; clear X2.
  destruct (adam_class_ok _ _ _ _ _ _ _ H1) as (a & Ea & I & _ & _ & E3 & _); [discriminate|]. assert (B2 : proper_beta (given b2 (999 / 1000))) by (rewrite <- E3; apply I).
  rewrite map_length in L2. apply nth_error_ext. intros i. destruct (nth_error s1 i) as [u|] eqn:U.
  - destruct (nth_error s2 i) as [v|] eqn:V; [|exfalso; apply nth_error_None in V; assert (i < length s1)%nat by (apply nth_error_Some; congruence); lia].
    f_equal. destruct (F1 i u U) as [LU NU]. destruct (F2 i v V) as [LV NV]. apply nth_error_ext. intros j.
    destruct (Nat.lt_ge_cases j n) as [J|J].
    + rewrite (NU j J), (NV j J). f_equal. cbn [given]. rewrite firstn_map.
      replace (coordinate j (map (map (fun x => k * x)) (firstn (S i) gs))) with (map (fun x => k * x) (coordinate j (firstn (S i) gs))).
      * symmetry. apply move_scale; auto.
      * unfold coordinate. rewrite !map_map. apply map_ext. intros g. change 0 with ((fun x => k * x) 0) at 2 || idtac.
        replace 0 with (k * 0) at 2 by lra. rewrite (map_nth (fun x => k * x)). reflexivity.
    + rewrite (proj2 (nth_error_None _ _)), (proj2 (nth_error_None _ _)); auto; lia.
  - symmetry. apply nth_error_None. apply nth_error_None in U. lia.
Qed.
Print Assumptions C123_scale.
Example C123_example : (exists w, adam_class 1 (Some (1 / 10)) (Some (1 / 2)) (Some (3 / 4)) (Some 1) None = Ok w) /\ 1 / 2 * (1 / 2) < 3 / 4 /\
  sqrt (3 / 4 / ((3 / 4 - 1 / 2 * (1 / 2)) * (1 - 3 / 4))) = sqrt 6.
Proof.
  split; [|split; [lra|f_equal; field]]. unfold adam_class, tadam_init. cbn [bind]. cbv zeta. cbn [fst snd]. do 2 (destruct (Rlt_dec _ 0); [lra|]).
  rewrite !(proj2 (in_unit_ok _)) by (split; lra). eexists. reflexivity.
Qed.

(* ------------------------------------------------------------ C124: SGD *)
Lemma sgd_class_ok n lr mom d nes w : sgd_class n lr mom d nes = Ok w ->
  w = WSgd (mkTSgd lr (given mom 0) (given d 0) (match nes with None => false | Some x => x end) n None) /\ 0 <= lr /\ 0 <= given mom 0 /\
  (nes = Some true -> 0 < given mom 0 /\ given d 0 = 0).
Proof.
  unfold sgd_class, tsgd_init. cbv zeta. fold (given mom 0) (given d 0). intros H.
  destruct (Rlt_dec lr 0); [discriminate|]. destruct (Rlt_dec (given mom 0) 0); [discriminate|]. destruct (_ && _) eqn:EN; [discriminate|].
  injection H as <-. split; [reflexivity|]. split; [lra|]. split; [lra|]. intros ->. cbn in EN.
  destruct (Rlt_dec 0 (given mom 0)); [|discriminate]. destruct (Req_EM_T (given d 0) 0); [|discriminate]. auto.
Qed.
(* the class with momentum (or without: momentum 0) *)
Theorem C124_class : forall n stepsize momentum nesterov w gs,
  sgd_class n stepsize momentum None nesterov = Ok w -> gradients n gs ->
  exists w' steps, ascents w gs = Ok (w', steps) /\
    follows_rule (fun l => Some (if match nesterov with Some true => true | _ => false end
                                 then nesterov_move stepsize (given momentum 0) l else sgd_move stepsize (given momentum 0) l)) n gs steps.
Proof.
  intros n lr mom nes w gs H G. destruct (sgd_class_ok _ _ _ _ _ _ H) as (-> & _ & _ & NE).
  set (s := mkTSgd _ _ _ _ _ _). assert (I : sgd_inv n [] s) by (split; [reflexivity|intros _; reflexivity]).
  destruct (sgd_ascents n s gs I G) as (w' & steps & E & F).
  exists w', steps. split; [exact E|]. destruct F as [L N]. split; auto. intros k step K. destruct (N k step K) as [LS S']. split; auto.
  intros j J. rewrite (S' j J). f_equal. unfold sgd_rule, s. cbn [ts_momentum ts_nesterov ts_lr ts_dampening given]. f_equal. rewrite buffer_no_dampening.
  unfold sgd_move, nesterov_move. destruct (Req_EM_T (given mom 0) 0) as [Z|Z].
  - rewrite Z, discounted_0. destruct nes as [[]|]; auto. destruct (NE eq_refl). lra.
  - destruct nes as [[]|]; auto.
Qed.
Print Assumptions C124_class.
Theorem C124_functional : forall center lr momentum gs, gradients (length center) gs ->
  reaches (fun l => Some (sgd_move lr (given momentum 0) l)) center gs (fsgd_ask (fsgd_run (fsgd_init center lr momentum) gs)).
Proof.
  intros center lr mom gs G. set (s0 := fsgd_init center lr mom). change (given mom 0) with (fs_momentum s0). change lr with (fs_lr s0).
  assert (I : fsgd_inv (length center) [] s0).
  { unfold fsgd_inv, s0, fsgd_init. cbn [fs_velocity fs_center fs_lr fs_momentum]. rewrite repeat_length, map_length. repeat split; auto.
    intros j J. rewrite repeat_nth by auto. unfold sgd_move, coordinate. cbn [map]. rewrite discounted_nil. f_equal. f_equal. lra. }
  destruct (run_rule (fun s g => fsgd_tell s (map Some g)) fs_center
    (fun past s => fsgd_inv (length center) past s /\ fs_lr s = fs_lr s0 /\ fs_momentum s = fs_momentum s0)
    (fun l => Some (sgd_move (fs_lr s0) (fs_momentum s0) l)) (length center)) with (gs := gs) (past := @nil (list R)) (s := s0) as [I2 N2].
  - intros past s g (I' & E1 & E2) Lg. destruct (fsgd_ok _ past s g I' Lg) as (I2 & Y1 & Y2 & N2).
    split; [repeat split; try apply I2; congruence|]. rewrite <- E1, <- E2. exact N2.
  - auto.
  - exact G.
  - unfold fsgd_ask, fsgd_run. split; [apply I2|]. intros j c Hc. apply (N2 j (Some c)).
    + apply nth_error_Some. congruence.
    + unfold s0, fsgd_init. cbn [fs_center]. rewrite nth_error_map, Hc. reflexivity.
Qed.
Print Assumptions C124_functional.
Theorem C124_agree : forall center stepsize momentum w gs,
  sgd_class (length center) stepsize momentum None None = Ok w -> gradients (length center) gs ->
  exists w' steps, ascents w gs = Ok (w', steps) /\ summed center steps (fsgd_ask (fsgd_run (fsgd_init center stepsize momentum) gs)).
Proof.
  intros center lr mom w gs H G. destruct (C124_class _ _ _ _ _ gs H G) as (w' & steps & E & F). exists w', steps. split; auto.
  eapply follows_summed; [exact F|]. apply C124_functional; auto.
Qed.
Print Assumptions C124_agree.
Example C124_example : (exists w, sgd_class 2 (1 / 10) (Some (1 / 2)) None (Some true) = Ok w) /\ sgd_move (1 / 10) (1 / 2) [2; 4] = 1 / 2 /\
  nesterov_move (1 / 10) (1 / 2) [2; 4] = 65 / 100.
Proof.
  split; [|unfold sgd_move, nesterov_move, discounted, total; cbn; split; field].
  unfold sgd_class, tsgd_init. cbv zeta. do 2 (destruct (Rlt_dec _ 0); [lra|]). destruct (Rlt_dec 0 _); [|lra]. destruct (Req_EM_T 0 0); [|lra]. eexists. reflexivity.
Qed.

(* ------------------------------------------------------------ C125: dampening *)
(* every gradient has an effect: histories which differ for the first time in coordinate j of gradient k give ascents
   which differ in that coordinate, for every dampening other than 1 *)
Theorem C125_effect_partial : forall n stepsize momentum dampening nesterov w past g g' j w1 w2 steps1 steps2,
  sgd_class n stepsize momentum dampening nesterov = Ok w -> 0 < stepsize -> dampening <> Some 1 ->
  gradients n (past ++ [g]) -> gradients n (past ++ [g']) -> (j < n)%nat -> nth j g 0 <> nth j g' 0 ->
  ascents w (past ++ [g]) = Ok (w1, steps1) -> ascents w (past ++ [g']) = Ok (w2, steps2) ->
  nth_error (last steps1 []) j <> nth_error (last steps2 []) j.
Proof.
  intros n lr mom d nes w past g g' j w1 w2 s1 s2 H LR D G1 G2 J NE A1 A2. destruct (sgd_class_ok _ _ _ _ _ _ H) as (-> & _ & M & NS). set (s := mkTSgd _ _ _ _ _ _) in *.
  assert (I : sgd_inv n [] s) by (split; [reflexivity|intros _; reflexivity]).
  assert (X : forall h w' steps, gradients n (past ++ [h]) -> ascents (WSgd s) (past ++ [h]) = Ok (w', steps) ->
     nth_error (last steps []) j = Some (sgd_rule s (coordinate j (past ++ [h])))).
  { intros h w' steps Gh Ah. destruct (sgd_ascents n s _ I Gh) as (w0 & st0 & E & [L N]). rewrite Ah in E. inversion E; subst w0 st0; clear E.
    destruct (exists_last (l := steps)) as (l0 & x & El). { intros ->. rewrite app_length in L. cbn in L. lia. }
    rewrite El, last_last. destruct (N (length past) x) as [_ S'].
    - rewrite El. rewrite El, !app_length in L. cbn in L. rewrite nth_error_app2 by lia. replace (length past - length l0)%nat with O by lia. reflexivity.
    - rewrite (S' j J). f_equal. f_equal. f_equal. replace (S (length past)) with (length (past ++ [h])) by (rewrite app_length; cbn; lia). apply firstn_all. }
  rewrite (X g _ _ G1 A1), (X g' _ _ G2 A2). intros C. injection C as C. unfold sgd_rule in C. cbn [ts_momentum ts_nesterov ts_lr ts_dampening s] in C.
  rewrite !last_coordinate in C. unfold s in C. cbn [ts_momentum ts_nesterov ts_lr ts_dampening] in C.
  assert (BF : exists a, a <> 0 /\ (nes = Some true -> 0 < a) /\ exists r, forall h, buffer (given mom 0) (given d 0) (coordinate j (past ++ [h])) = a * nth j h 0 + r).
  { destruct past as [|p past].
    - exists 1. split; [lra|]. split; [lra|]. exists 0. intros h. cbn [app coordinate map]. rewrite buffer_first. lra.
    - exists (1 - given d 0). split; [destruct d as [x|]; cbn in *; [intros Z; apply D; f_equal; lra|lra]|].
      split. { intros ->. destruct (NS eq_refl) as [_ Z]. rewrite Z. lra. }
      eexists. intros h. rewrite coordinate_snoc, buffer_snoc by discriminate. rewrite Rplus_comm. reflexivity. }
  destruct BF as (a & Ha & Hp & r & BF). rewrite !BF in C.
  destruct (Req_EM_T (given mom 0) 0) as [Z|Z]; [apply Rmult_eq_reg_l in C; lra|].
  destruct nes as [[]|].
  - specialize (Hp eq_refl). apply Rmult_eq_reg_l in C; [|lra]. destruct (NS eq_refl) as [MP _].
    assert ((1 + given mom 0 * a) * (nth j g 0 - nth j g' 0) = 0) by lra. apply Rmult_integral in H0. destruct H0; [nra|lra].
  - apply Rmult_eq_reg_l in C; [|lra]. assert (a * (nth j g 0 - nth j g' 0) = 0) by lra. apply Rmult_integral in H0. destruct H0; [contradiction|lra].
  - apply Rmult_eq_reg_l in C; [|lra]. assert (a * (nth j g 0 - nth j g' 0) = 0) by lra. apply Rmult_integral in H0. destruct H0; [contradiction|lra].
Qed.
Print Assumptions C125_effect_partial.
(* ... but "activating" dampening, dampening=True (which reaches torch as 1.0), together with momentum makes the
   optimizer blind to every gradient but the first *)
Theorem C125_dampening_refuted : forall n stepsize momentum w g gs gs' w1 w2 steps1 steps2,
  sgd_class n stepsize (Some momentum) (Some 1) None = Ok w -> momentum <> 0 ->
  gradients n (g :: gs) -> gradients n (g :: gs') -> length gs = length gs' ->
  ascents w (g :: gs) = Ok (w1, steps1) -> ascents w (g :: gs') = Ok (w2, steps2) -> steps1 = steps2.
Proof.
  intros n lr mom w g gs gs' w1 w2 s1 s2 H M G1 G2 LE A1 A2. destruct (sgd_class_ok _ _ _ _ _ _ H) as (-> & _). cbn [given] in *. set (s := mkTSgd _ _ _ _ _ _) in *.
  assert (I : sgd_inv n [] s) by (split; [reflexivity|intros _; reflexivity]).
  destruct (sgd_ascents n s _ I G1) as (x1 & y1 & X1 & [L1 N1]). rewrite A1 in X1. inversion X1; subst x1 y1; clear X1.
  destruct (sgd_ascents n s _ I G2) as (x2 & y2 & X2 & [L2 N2]). rewrite A2 in X2. inversion X2; subst x2 y2; clear X2.
  assert (LL : length s1 = length s2) by (cbn in *; lia).
  apply nth_error_ext. intros k. destruct (nth_error s1 k) as [u|] eqn:U.
  - destruct (nth_error s2 k) as [v|] eqn:V; [|exfalso; apply nth_error_None in V; assert (k < length s1)%nat by (apply nth_error_Some; congruence); lia].
    f_equal. destruct (N1 k u U) as [LU NU]. destruct (N2 k v V) as [LV NV]. apply nth_error_ext. intros j.
    assert (K : (k < length s1)%nat) by (apply nth_error_Some; congruence). cbn in L1.
    destruct (Nat.lt_ge_cases j n) as [J|J].
    + rewrite (NU j J), (NV j J). f_equal. unfold sgd_rule, s. cbn [ts_momentum ts_nesterov ts_lr ts_dampening]. f_equal.
      destruct (Req_EM_T mom 0); [contradiction|]. rewrite !buffer_full. cbn [firstn coordinate map hd length].
      rewrite !map_length, !firstn_length. rewrite <- LE. reflexivity.
    + rewrite (proj2 (nth_error_None _ _)), (proj2 (nth_error_None _ _)); auto; lia.
  - symmetry. apply nth_error_None. apply nth_error_None in U. lia.
Qed.
Print Assumptions C125_dampening_refuted.
Example C125_example : exists w, sgd_class 1 (1 / 10) (Some (9 / 10)) (Some 1) None = Ok w.
Proof. unfold sgd_class, tsgd_init. cbv zeta. do 2 (destruct (Rlt_dec _ 0); [lra|]). eexists. reflexivity. Qed.

(* ------------------------------------------------------------ C126: the initial standard deviation *)
Lemma ones_product x n : map2 Rmult (repeat x n) (repeat 1 n) = repeat x n.
Proof. induction n; cbn; [reflexivity|]. rewrite IHn. f_equal. lra. Qed.
Lemma total_repeat x n : total (repeat x n) = INR n * x.
Proof. induction n as [|n IH]; [cbn; lra|]. rewrite S_INR. cbn [repeat]. unfold total in *. cbn [fold_right]. rewrite IH. lra. Qed.
Lemma radius_norm r n : (0 < n)%nat -> euclidean (repeat (sqrt (r ^ 2 / INR n)) n) = Rabs r.
Proof.
  intros P. pose proof (lt_0_INR n P) as PI. unfold euclidean. rewrite map_repeat', total_repeat.
  assert (0 <= r ^ 2 / INR n) by (apply Rmult_le_pos; [apply pow2_ge_0|left; now apply Rinv_0_lt_compat]).
  rewrite sqrt_sqrt by auto. replace (INR n * (r ^ 2 / INR n)) with (r * r) by (field; lra). apply sqrt_Rsqr_abs.
Qed.
(* the class-based algorithms: a radius gives equal components whose Euclidean length is the radius; otherwise the given
   standard deviation is used; exactly one of both must be given *)
Theorem C126_class : forall n dt dv, (0 < n)%nat ->
  (forall r, exists t, class_sigma n dt dv None (Some (RScalar r)) = Ok t /\ length (t_data t) = n /\ euclidean (t_data t) = Rabs r /\
     (forall x y, In x (t_data t) -> In y (t_data t) -> x = y /\ 0 <= x) /\ t_dtype t = dt /\ t_device t = dv) /\
  (forall s, class_sigma n dt dv (Some (RScalar s)) None = Ok (mkT (repeat s n) dt dv)) /\
  (forall l, length l = n -> class_sigma n dt dv (Some (RVector l)) None = Ok (mkT l dt dv)) /\
  (forall l, length l <> n -> class_sigma n dt dv (Some (RVector l)) None = Err ValueError) /\
  (forall s r, class_sigma n dt dv (Some s) (Some r) = Err ValueError) /\ class_sigma n dt dv None None = Err ValueError.
Proof.
  intros n dt dv P. repeat split; auto.
  - intros r. unfold class_sigma, to_stdev_init, stdev_from_radius. rewrite (proj2 (Nat.eqb_neq n 0)) by lia. cbn [rmap bind]. eexists. split; [reflexivity|].
    cbn [t_data t_dtype t_device]. rewrite repeat_length, radius_norm by auto. repeat split; auto.
    + apply repeat_spec in H, H0. congruence. + apply repeat_spec in H. subst. apply sqrt_pos.
  - intros l L. unfold class_sigma. cbn. now rewrite (proj2 (Nat.eqb_eq _ _) L).
  - intros l L. unfold class_sigma. cbn. now rewrite (proj2 (Nat.eqb_neq _ _) L).
Qed.
Print Assumptions C126_class.
(* the functional API gives the same, when a multiplication by a tensor of the default dtype on the cpu changes neither
   the dtype nor the device of the center *)
Theorem C126_functional_partial : forall default center stdev radius, (0 < length (t_data center))%nat ->
  (match radius with Some (RVector _) => False | _ => True end) ->
  (radius = None \/ (promote (t_dtype center) default = t_dtype center /\ t_device center = Cpu)) ->
  functional_sigma default center stdev radius = class_sigma (length (t_data center)) (t_dtype center) (t_device center) stdev radius.
Proof.
  intros default center stdev radius P NV HC. set (n := length (t_data center)) in *.
  unfold functional_sigma, class_sigma, to_stdev_init. cbv zeta. fold n. destruct stdev as [[s|l]|], radius as [[r|l']|]; cbn [bind rmap]; try contradiction; auto.
  destruct HC as [|[HP HV]]; [discriminate|]. unfold stdev_from_radius. rewrite (proj2 (Nat.eqb_neq n 0)) by lia. cbn [rmap bind].
  unfold tmul. cbn [t_data t_dtype t_device]. rewrite HV, HP. cbn [length]. rewrite repeat_length. replace (Nat.max 1 n) with n by lia. rewrite Nat.eqb_refl.
  set (x := sqrt _). assert (E : (if Nat.eqb 1 n then Ok [x] else Ok (repeat x n)) = Ok (repeat x n)).
  { destruct (Nat.eqb_spec 1 n) as [<-|]; reflexivity. }
  cbv beta. rewrite E. cbn [bind]. f_equal. f_equal. apply ones_product.
Qed.
Print Assumptions C126_functional_partial.
(* the documented promise "of the same dtype and on the same device as the center" fails for half-precision centers and
   for centers which are not on the cpu *)
Theorem C126_dtype_refuted : forall center r, (0 < length (t_data center))%nat ->
  (t_device center = Cpu -> t_dtype center = Float16 \/ t_dtype center = BFloat16 ->
     exists t, functional_sigma Float32 center None (Some (RScalar r)) = Ok t /\ t_dtype t = Float32 /\ t_dtype t <> t_dtype center) /\
  (t_device center = Cuda -> functional_sigma Float32 center None (Some (RScalar r)) = Err RuntimeError).
Proof.
  intros [data dt dv] r P. cbn [t_data t_dtype t_device] in *. set (n := length data) in *. split; intros D.
  - intros H. subst dv. unfold functional_sigma. cbv zeta. cbn [t_data t_dtype t_device]. fold n. unfold tmul. cbn [t_data t_dtype t_device length].
    rewrite repeat_length. replace (Nat.max 1 n) with n by lia. rewrite Nat.eqb_refl. cbv beta.
    destruct (Nat.eqb 1 n); cbn [bind]; eexists; (split; [reflexivity|]); cbn [t_dtype]; destruct H as [-> | ->]; split; cbn; congruence.
  - subst dv. reflexivity.
Qed.
Print Assumptions C126_dtype_refuted.
Example C126_example : exists t, class_sigma 4 Float32 Cpu None (Some (RScalar 3)) = Ok t /\ t_data t = [3 / 2; 3 / 2; 3 / 2; 3 / 2].
Proof.
  eexists. split; [reflexivity|]. cbn [t_data repeat]. replace (sqrt (3 ^ 2 / INR 4)) with (3 / 2); [reflexivity|].
  replace (3 ^ 2 / INR 4) with (3 / 2 * (3 / 2)) by (cbn; field). symmetry. apply sqrt_square. lra.
Qed.

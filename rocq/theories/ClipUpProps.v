(* ClipUp: properties C40, C73, C74, C75. *)
From Coq Require Import Reals String Lra.
From Verif Require Import Prelude ClipUpModel ClipUpSpec ClipUpProofs.
Open Scope R_scope.

(* C40: after any history of non-zero gradients and legal hyperparameter changes, each step has length at most the
   current maximum speed *)
Theorem C40_class : forall n step mom speed c0 ops g, clipup_init n step mom speed = Ok c0 ->
  Forall (legal_op n) ops -> gradient n g ->
  exists c c' v, apply_ops c0 ops = Ok c /\ ascent c g = Ok (c', Some v) /\ velocity c' = Some v /\
    max_speed c' = max_speed c /\ length v = n /\ at_most_long v (max_speed c).
Proof.
  intros n step mom speed c0 ops g E H G. destruct (ops_ok n ops c0 (init_inv _ _ _ _ _ E) H) as (c & -> & I).
  destruct (ascent_ok n c g I G) as (c' & v & A & I' & V & B & _ & _ & M). exists c, c', v. rewrite M in B.
  repeat (split; auto). destruct I' as (_ & _ & _ & _ & v' & V' & L). congruence.
Qed.
Print Assumptions C40_class.
Theorem C40_functional : forall center mom lr speed s0 gs g, fclipup_init center mom lr speed = Ok s0 ->
  (forall x, lr = Some x -> 0 <= x) -> (forall x, speed = Some x -> 0 <= x) ->
  Forall (gradient (length center)) gs -> gradient (length center) g ->
  let s := tells s0 gs in
  exists x v, fclipup_ask s = Some x /\ fvelocity (fclipup_tell s g) = Some v /\ at_most_long v (fmax_speed s0) /\
    length x = length center /\ length v = length center /\
    fclipup_ask (fclipup_tell s g) = Some (map2 Rplus x v).
Proof.
  intros center mom lr speed s0 gs g E H1 H2 F G s.
  destruct (ftells_ok _ gs s0 (finit_inv _ _ _ _ _ E H1 H2) F) as [I M]. fold s in I, M.
  destruct (ftell_ok _ s g I G) as [(_ & (v' & V' & L') & _) (v & V & B)]. rewrite M in B.
  destruct I as (_ & _ & (x & X & Lx)). exists x, v. repeat (split; auto); [congruence|].
  unfold fclipup_ask. change (fcenter (fclipup_tell s g)) with (vadd (fcenter s) (fvelocity (fclipup_tell s g))).
  rewrite X, V. reflexivity.
Qed.
Print Assumptions C40_functional.
(* C40: what the step is: the momentum update, shortened to the maximum speed when it is longer *)
Theorem C40_step : forall c v g, velocity c = Some v -> length v = solution_length c -> 0 < max_speed c ->
  gradient (solution_length c) g ->
  let raw := map2 Rplus (map (fun a => momentum c * a) v) (map (fun a => stepsize c / norm g * a) g) in
  exists c' w, ascent c g = Ok (c', Some w) /\
    (at_most_long raw (max_speed c) -> w = raw) /\
    (~ at_most_long raw (max_speed c) -> same_direction raw w /\ norm w = max_speed c).
Proof.
  intros c v g V L M G raw0. rewrite (ascent_eq c v g V G). eexists _, _; split; [reflexivity|].
  change raw0 with (raw (momentum c) (stepsize c) v g). set (r := raw _ _ _ _). unfold clipped. split; intros H.
  - apply le_norm in H. destruct (Rlt_dec _ _); auto. lra.
  - assert (max_speed c < norm r) by (destruct (Rlt_dec (max_speed c) (norm r)); auto; exfalso; apply H, norm_le; lra).
    destruct (Rlt_dec _ _); [|lra]. split.
    + exists (max_speed c / norm r). split; [apply Rdiv_lt_0_compat; lra|reflexivity].
    + rewrite norm_scale by (left; apply Rdiv_lt_0_compat; lra). field. lra.
Qed.
Print Assumptions C40_step.
(* C40: the class and the functional implementation move by the same vectors *)
Theorem C40_agree : forall n step mom speed c0 center s0 gs, clipup_init n step mom speed = Ok c0 ->
  length center = n -> fclipup_init center mom (Some step) speed = Ok s0 -> Forall (gradient n) gs ->
  exists c, apply_ops c0 (map Ascent gs) = Ok c /\ velocity c = fvelocity (tells s0 gs).
Proof.
  intros n step mom speed c0 center s0 gs E L F G.
  assert (M : matching c0 s0).
  { unfold clipup_init in E. cbv zeta in E. repeat (destruct (Rlt_dec _ _) in E; [discriminate|]). inversion E; subst; clear E.
    destruct speed; cbn in F; inversion F; subst; unfold matching; cbn; auto. }
  pose proof (init_inv _ _ _ _ _ E) as I. clear E F L. revert c0 s0 M I.
  induction gs as [|g gs IH]; intros c0 s0 M I; cbn.
  - exists c0. split; auto. apply M.
  - destruct (agree_step n c0 s0 g M I (Forall_inv G)) as (c' & v & A & M' & I' & _). rewrite A. cbn.
    apply IH; auto. apply (Forall_inv_tail G).
Qed.
Print Assumptions C40_agree.
Example C40_example : exists c0, clipup_init 2 (1/2) (9/10) None = Ok c0 /\ max_speed c0 = 1 /\
  Forall (legal_op 2) [Ascent [3; 4]; SetParam "max_speed" (1/4); Ascent [0; 1]].
Proof.
  eexists. split; [unfold clipup_init; repeat (destruct (Rlt_dec _ _); [lra|]); reflexivity|]. cbn. split; [lra|].
  apply Forall_cons; [split; auto; exists 3; cbn; split; auto; lra|].
  apply Forall_cons; [right; left; split; auto; lra|].
  apply Forall_cons; [split; auto; exists 1; cbn; split; auto; lra|]. constructor.
Qed.

(* C73: only the direction of the gradient matters *)
Theorem C73_direction_only : forall c s k g, 0 < k ->
  ascent c (map (fun a => k * a) g) = ascent c g /\ fclipup_tell s (map (fun a => k * a) g) = fclipup_tell s g.
Proof. intros c s k g K. split; [exact (ascent_scale c k g K)|exact (ftell_scale s k g K)]. Qed.
Print Assumptions C73_direction_only.

(* C74: false: one all-zero gradient makes the velocity NaN, whatever came before and whatever comes after *)
Theorem C74_zero_gradient_refuted : forall c g, length g = solution_length c -> Forall (fun a => a = 0) g ->
  exists c', ascent c g = Ok (c', None) /\
    (forall ops c'', apply_ops c' ops = Ok c'' -> velocity c'' = None).
Proof.
  intros c g L Z. destruct (zero_ascent c g L Z) as (c' & A & V & _). exists c'. split; auto.
  intros ops c'' E. exact (nan_ops ops c' c'' V E).
Qed.
Print Assumptions C74_zero_gradient_refuted.
Theorem C74_functional_refuted : forall s g gs, Forall (fun a => a = 0) g ->
  fclipup_ask (tells (fclipup_tell s g) gs) = None.
Proof. intros s g gs Z. destruct (zero_tell s g Z). apply nan_tells; auto. Qed.
Print Assumptions C74_functional_refuted.
Theorem C74_nonzero_partial : forall n step mom speed c0 ops, clipup_init n step mom speed = Ok c0 ->
  Forall (legal_op n) ops -> exists c v, apply_ops c0 ops = Ok c /\ velocity c = Some v /\ length v = n.
Proof.
  intros n step mom speed c0 ops E H. destruct (ops_ok n ops c0 (init_inv _ _ _ _ _ E) H) as (c & A & (_ & _ & _ & _ & v & V & L)).
  eauto.
Qed.
Print Assumptions C74_nonzero_partial.
Example C74_example : Forall (fun a => a = 0) [0; 0] /\ length [0; 0] = 2%nat.
Proof. repeat constructor. Qed.

(* C75: invalid hyperparameters are rejected by the constructor, but accepted through param_groups *)
Theorem C75_constructor_partial : forall n step mom speed, ~ (legal "lr" step /\ legal "momentum" mom /\
    (forall s, speed = Some s -> legal "max_speed" s)) ->
  clipup_init n step mom speed = Err ValueError.
Proof.
  intros n step mom speed H. unfold clipup_init. cbv zeta. repeat (destruct (Rlt_dec _ _); [reflexivity|]).
  exfalso. apply H. unfold legal. repeat split; [left; split; auto; lra|right; right; split; auto; lra|].
  intros s ->. right; left; split; auto; lra.
Qed.
Print Assumptions C75_constructor_partial.
Theorem C75_set_then_get_partial : forall c key value c', group_set c key value = Ok c' ->
  group_get c' key = Ok value /\ velocity c' = velocity c /\
  (forall k, k <> key -> group_get c' k = group_get c k).
Proof.
  intros c key value c' E. unfold group_set in E. unfold lookup in E. cbn [find param_group_items fst] in E.
  destruct (String.eqb_spec "lr" key) as [<-|N1]; [cbn in E; inversion E; subst; cbn; split; auto; split; auto; intros k Hk|].
  2: destruct (String.eqb_spec "max_speed" key) as [<-|N2]; [cbn in E; inversion E; subst; cbn; split; auto; split; auto; intros k Hk|].
  3: destruct (String.eqb_spec "momentum" key) as [<-|N3]; [cbn in E; inversion E; subst; cbn; split; auto; split; auto; intros k Hk|discriminate].
  all: unfold group_get, lookup; cbn [find param_group_items fst];
    destruct (String.eqb_spec "lr" k); [subst; try contradiction; auto|];
    destruct (String.eqb_spec "max_speed" k); [subst; try contradiction; auto|];
    destruct (String.eqb_spec "momentum" k); [subst; try contradiction; auto|]; auto.
Qed.
Print Assumptions C75_set_then_get_partial.
Theorem C75_refuted : forall c key value, In key ["lr"; "max_speed"; "momentum"]%string ->
  exists c', group_set c key value = Ok c' /\ group_get c' key = Ok value.
Proof.
  intros c key value H. cbn in H. destruct H as [<-|[<-|[<-|[]]]]; eexists; (split; [reflexivity|reflexivity]).
Qed.
Print Assumptions C75_refuted.
(* ... so that, for instance, a negative maximum speed makes the next step go against the gradient *)
Theorem C75_moves_backwards_refuted : forall n step mom speed c0 value g, clipup_init n step mom speed = Ok c0 ->
  0 < step -> value < 0 -> gradient n g ->
  exists c' v, bind (group_set c0 "max_speed" value) (fun c => ascent c g) = Ok (c', Some v) /\
    exists k, k < 0 /\ v = map (fun a => k * a) g.
Proof.
  intros n step mom speed c0 value g E S V G. pose proof (init_inv _ _ _ _ _ E) as I. cbn [bind].
  assert (Z : velocity c0 = Some (repeat 0 n) /\ stepsize c0 = step /\ solution_length c0 = n).
  { unfold clipup_init in E. cbv zeta in E. repeat (destruct (Rlt_dec _ _) in E; [discriminate|]). inversion E; subst; auto. }
  destruct Z as (Z & Zs & Zn). cbn [group_set lookup find param_group_items fst snd option_map String.eqb Ascii.eqb Bool.eqb bind check_bound].
  change (check_bound _ _ _ _) with (Ok tt). cbn [bind].
  set (c := setattr c0 "_max_speed" value).
  assert (Vc : velocity c = Some (repeat 0 n)) by exact Z.
  assert (Gc : gradient (solution_length c) g) by (cbn; rewrite Zn; auto).
  rewrite (ascent_eq c _ g Vc Gc). eexists _, _; split; [reflexivity|].
  destruct (unit_of_gradient n g G) as (P & _ & _).
  assert (R : raw (momentum c) (stepsize c) (repeat 0 n) g = scale (step / norm g) g).
  { unfold raw. change (stepsize c) with (stepsize c0). rewrite Zs. destruct G as [L _]. rewrite <- L. clear.
    generalize (step / norm g). intros r. induction g as [|a g IH]; cbn; auto. unfold add in *. cbn in *.
    f_equal; [lra|apply IH]. }
  rewrite R. unfold clipped. rewrite norm_scale by (left; apply Rdiv_lt_0_compat; auto).
  change (max_speed c) with value. destruct (Rlt_dec _ _) as [Q|Q].
  - exists (value / (step / norm g * norm g) * (step / norm g)). split.
    + replace (value / (step / norm g * norm g) * (step / norm g)) with (value * / norm g) by (field; lra).
      pose proof (Rinv_0_lt_compat _ P). nra.
    + rewrite scale_scale. reflexivity.
  - exfalso. apply Q. replace (step / norm g * norm g) with step by (field; lra). lra.
Qed.
Print Assumptions C75_moves_backwards_refuted.

(* Properties of the policies made by GymNE and VecGymNE: C140, C141. *)
From Coq Require Import Reals Lra.
From Verif Require Import Prelude NormModel NormProofs NormProps ActModel ActSpec.
Close Scope R_scope.

Section Props.
Context {E H : Type}.
Variable env_reset : E -> E * list num.
Variable env_step : E -> action -> E * list num * R * bool.
Variable argmax : list num -> nat.
Notation roll := (rollout env_reset env_step argmax) (only parsing).

(* what the wrapped policy computes from a raw observation *)
Lemma normalized_layer r x z : normalize_observation (Some (Some r)) x = Ok z ->
  n_count r <> 0 /\ exists l, to_layer r = Ok l /\ layer_forward l x = z.
Proof.
  cbn [normalize_observation rs_normalize]. intros N. destruct (normalize r (XOne x)) as [o|] eqn:EN; [|discriminate]. cbn [bind] in N.
  destruct o as [v | |]; try discriminate. injection N as <-. split; [|apply (C102_layer r); auto].
  intros Z. unfold normalize in EN. rewrite Z in EN. discriminate.
Qed.
Lemma policy_ok sp s (m : module H) x z :
  normalize_observation s x = Ok z ->
  exists m1 : module H, (forall tr y w h, normalize_observation s y = Ok w -> m1 tr y h = m tr w h) /\
    to_policy sp s m true = Ok (match sp with Box low high => act_clip low high m1 | Discrete => m1 end).
Proof.
  intros N. destruct s as [[r|]|].
  - destruct (normalized_layer r x z N) as (C & l & El & _). exists (obs_norm l m). split.
    + intros tr y w h Nw. destruct (normalized_layer r y w Nw) as (_ & l' & El' & <-). rewrite El in El'. injection El' as <-. reflexivity.
    + unfold to_policy. assert (0 <? n_count r = true) as -> by (apply Nat.ltb_lt; lia). rewrite El. cbn [rmap bind]. destruct sp; reflexivity.
  - exists m. split; [intros tr y w h Nw; injection Nw as <-; auto|]. destruct sp; reflexivity.
  - exists m. split; [intros tr y w h Nw; injection Nw as <-; auto|]. destruct sp; reflexivity.
Qed.

Lemma stateful_policy sp (m m1 : module H) x z hidden :
  (forall tr h, m1 tr x h = m tr z h) -> forall training,
  let pol := match sp with Box low high => act_clip low high m1 | Discrete => m1 end in
  exists y' y h', (match pol training x hidden with Tuple y h => (y, Some h) | Alone y => (y, None) end) = (y', h') /\
    stateful m training hidden z = (y, h') /\ take argmax sp y' = use_policy argmax sp None y.
Proof.
  intros E1 training pol. unfold pol, stateful, act_clip, use_policy, take. destruct sp as [low high|].
  - rewrite E1. destruct (m training z hidden) as [y | y h]; eexists; eexists; eexists; repeat split.
  - rewrite E1. destruct (m training z hidden) as [y | y h]; eexists; eexists; eexists; repeat split.
Qed.
Lemma drive_roll sp s (m m1 : module H) :
  (forall tr y w h, normalize_observation s y = Ok w -> m1 tr y h = m tr w h) ->
  let pol := match sp with Box low high => act_clip low high m1 | Discrete => m1 end in
  forall n limit e hidden x z tr, normalize_observation s x = Ok z ->
    rollout_from env_step argmax n sp silent s m limit e hidden z = Ok tr ->
    drive_from env_step argmax n sp pol false limit e hidden x = tr.
Proof.
  intros E1 pol. induction n as [| n IH]; intros limit e hidden x z tr N R; cbn [rollout_from drive_from] in *; [congruence|].
  destruct (stateful_policy sp m m1 x z hidden (fun tr h => E1 tr x z h N) false) as (y' & y & h' & A & B & C).
  fold pol in A. rewrite A. rewrite B in R. unfold silent in R. rewrite C.
  destruct (env_step e (use_policy argmax sp None y)) as [[[e2 x2] r] done].
  destruct (normalize_observation s x2) as [z2|] eqn:N2; [|discriminate]. cbn [bind] in R.
  destruct (done || _); [congruence|].
  destruct (rollout_from env_step argmax n sp _ s m _ e2 h' z2) as [tr2|] eqn:R2; [|discriminate]. cbn [rmap] in R. injection R as <-.
  f_equal. eapply IH; eauto.
Qed.

(* C140: in a problem without action noise, driving the environment with the policy module of to_policy, in evaluation mode, gives the very
   actions and rewards of a rollout by the problem. *)
Theorem C140_gym_partial : forall n sp s (m : module H) limit e tr,
  roll n sp silent s m limit e = Ok tr ->
  exists pol, to_policy sp s m true = Ok pol /\ drive env_reset env_step argmax n sp pol false limit e = tr.
Proof.
  intros n sp s m limit e tr R. unfold rollout, drive in *. destruct (env_reset e) as [e1 x].
  destruct (normalize_observation s x) as [z|] eqn:N; [|discriminate]. cbn [bind] in R.
  destruct (policy_ok sp s m x z N) as (m1 & E1 & ->). eexists. split; [reflexivity|]. eapply drive_roll; eauto.
Qed.
(* the policy is not put into evaluation mode: as it is returned (after any evaluation, in training mode), its first action is that of the
   network in training mode *)
Theorem C140_training_refuted : forall sp s (m : module H) limit e e1 x z tr,
  env_reset e = (e1, x) -> normalize_observation s x = Ok z ->
  use_policy argmax sp None (output (m true z None)) <> use_policy argmax sp None (output (m false z None)) ->
  roll 1 sp silent s m limit e = Ok tr ->
  exists pol, to_policy sp s m true = Ok pol /\ drive env_reset env_step argmax 1 sp pol true limit e <> tr.
Proof.
  intros sp s m limit e e1 x z tr ER N D R. destruct (policy_ok sp s m x z N) as (m1 & E1 & EP). rewrite EP.
  eexists. split; [reflexivity|]. unfold rollout, drive in *. rewrite ER in *. rewrite N in R. cbn [bind] in R.
  cbn [rollout_from drive_from] in *.
  destruct (stateful_policy sp m m1 x z None (fun tr h => E1 tr x z h N) true) as (y' & y & h' & A & B & C). cbv zeta in A. rewrite A, C.
  unfold silent in R. destruct (stateful m false None z) as [y0 h0] eqn:S0.
  assert (y = output (m true z None)) as -> by (unfold stateful in B; destruct (m true z None); cbn; congruence).
  assert (y0 = output (m false z None)) as -> by (unfold stateful in S0; destruct (m false z None); cbn; congruence).
  set (a := use_policy argmax sp None (output (m true z None))) in *. set (b := use_policy argmax sp None (output (m false z None))) in *.
  destruct (env_step e1 a) as [[[e2 x2] r2] d2]. destruct (env_step e1 b) as [[[e3 x3] r3] d3].
  destruct (normalize_observation s x3) as [z3|]; [|discriminate]. cbn [bind] in R.
  intros Q. apply D. destruct (d2 || _), (d3 || _); cbn in R; congruence.
Qed.

(* VecGymNE: one step.  The policy of to_policy, applied to the raw observation, gives the action that reaches the environment in the evaluation
   when the observation is normalized by the same statistics. *)
Lemma clip_unbounded low high y : no_bounds low high = true -> length low = length y -> length high = length y -> clip_box low high y = y.
Proof.
  unfold no_bounds, clip_box. intros B. apply andb_true_iff in B. destruct B as [B1 B2]. revert low high B1 B2.
  induction y as [| v y IH]; intros [| l low] [| h high] B1 B2 L1 L2; try discriminate; auto.
  cbn [forallb] in B1, B2. apply andb_true_iff in B1, B2. destruct B1 as [Bl B1], B2 as [Bh B2]. destruct l, h; try discriminate.
  cbn [map3]. f_equal; [destruct v; reflexivity|]. apply IH; auto.
Qed.
Theorem C140_vectorized : forall sp s (m : module H) training hidden x z,
  match s with None => z = x | Some r => normalize r (XOne x) = Ok (XOne z) end ->
  (forall low high, sp = Box low high -> length low = length (output (m training z hidden)) /\ length high = length (output (m training z hidden))) ->
  exists pol, vec_to_policy sp s m true = Ok pol /\
    fst (vec_act argmax training sp m hidden z) = take argmax sp (output (pol training x hidden)) /\
    snd (vec_act argmax training sp m hidden z) = match pol training x hidden with Tuple _ h => Some h | Alone _ => hidden end.
Proof.
  intros sp s m training hidden x z N L.
  assert (exists m1 : module H, m1 training x hidden = m training z hidden /\
    bind (match s with Some r => rmap (fun l => obs_norm l m) (to_layer r) | None => Ok m end) (fun m => Ok m) = Ok m1) as (m1 & E1 & EM).
  { destruct s as [r|].
    - destruct (C102_layer r x z N) as (l & -> & El). exists (obs_norm l m). split; [|reflexivity]. unfold obs_norm. rewrite El. auto.
    - subst z. exists m. auto. }
  unfold vec_to_policy. destruct (match s with Some r => _ | None => _ end) as [m2|]; [|discriminate]. cbn [bind] in *. injection EM as ->.
  unfold vec_act, wrapper_action, take. destruct sp as [low high|].
  - destruct (L low high eq_refl) as [L1 L2]. destruct (no_bounds low high) eqn:B.
    + eexists. split; [reflexivity|]. rewrite E1. destruct (m training z hidden) as [y | y h]; cbn [output fst] in *.
      * rewrite (clip_unbounded low high y B) by auto. split; auto.
      * rewrite (clip_unbounded low high y B) by auto. split; auto.
    + eexists. split; [reflexivity|]. unfold act_clip. rewrite E1. destruct (m training z hidden) as [y | y h]; cbn [output fst] in *.
      * split; auto.
      * split; auto.
  - eexists. split; [reflexivity|]. rewrite E1. destruct (m training z hidden) as [y | y h]; cbn [output fst] in *.
    + split; auto.
    + split; auto.
Qed.

(* Whatever the network and the noise give, the actions of a rollout lie within the bounds of the action space; and so do those of the vectorized
   evaluation, and the outputs of the modules of to_policy. *)
Lemma clip_in_box low high y : box_ok low high -> in_box low high (clip_box low high y).
Proof.
  unfold clip_box. intros B i lo hi v Hl Hh Hv. assert (exists w, v = clamp lo hi w) as [w ->].
  { clear B. revert low high y Hl Hh Hv. induction i as [|i IH]; intros [|l low] [|h high] [|u y]; cbn; try discriminate; eauto.
    intros [= <-] [= <-] [= <-]. eauto. }
  destruct w as [w|]; cbn; auto. destruct lo as [l|], hi as [h|]; cbn; split; auto; try apply Rmax_r; try apply Rmin_r.
  specialize (B i l h Hl Hh). unfold Rmin. destruct (Rle_dec _ _); auto. apply Rmax_r.
Qed.
Theorem C140_bounds : forall low high, box_ok low high ->
  (forall n noise s (m : module H) limit e tr a r, roll n (Box low high) noise s m limit e = Ok tr -> In (a, r) tr ->
     exists y, a = Continuous y /\ in_box low high y) /\
  (forall s (m : module H) pol training x hidden, to_policy (Box low high) s m true = Ok pol -> in_box low high (output (pol training x hidden))) /\
  (forall training (m : module H) hidden z, exists y, fst (vec_act argmax training (Box low high) m hidden z) = Continuous y /\ in_box low high y).
Proof.
  intros low high B. split; [|split].
  - intros n noise s m limit e tr a r R I. unfold rollout in R. destruct (env_reset e) as [e1 x0].
    destruct (normalize_observation s x0) as [x|]; [|discriminate]. cbn [bind] in R. clear x0 e. revert limit e1 x tr R I. generalize (@None H) as hidden.
    induction n as [|n IH]; intros hidden limit e1 x tr R I; cbn [rollout_from] in R.
    + injection R as <-. destruct I.
    + destruct (stateful m false hidden x) as [y h]. set (u := use_policy argmax _ _ y) in *.
      assert (exists w, u = Continuous w /\ in_box low high w) as U by (eexists; split; [reflexivity|]; apply clip_in_box; auto).
      destruct (env_step e1 u) as [[[e2 x2] r2] d]. destruct (normalize_observation s x2) as [z|]; [|discriminate]. cbn [bind] in R.
      destruct (d || _).
      * injection R as <-. destruct I as [I|[]]. injection I as <- _. auto.
      * destruct (rollout_from _ _ n _ _ _ _ _ e2 h z) as [tr2|] eqn:R2; [|discriminate]. cbn [rmap] in R. injection R as <-.
        destruct I as [I|I]; [injection I as <- _; auto|]. eapply IH; eauto.
  - intros s m pol training x hidden P. unfold to_policy in P. destruct (match s with Some (Some r) => _ | _ => _ end) as [m1|]; [|discriminate].
    cbn [bind] in P. injection P as <-. unfold act_clip. destruct (m1 training x hidden); cbn [output]; apply clip_in_box; auto.
  - intros training m hidden z. unfold vec_act. destruct (match m training z hidden with Tuple y h => _ | Alone y => _ end) as [y h]. cbn [fst wrapper_action].
    eexists. split; [reflexivity|]. apply clip_in_box; auto.
Qed.

(* C141: without observation normalization, the problem runs the module of to_policy as it runs the parameters. *)
Lemma clamp_twice lo hi v : clamp lo hi (clamp lo hi v) = clamp lo hi v.
Proof.
  destruct v as [v|]; auto. destruct lo as [l|], hi as [h|]; cbn; auto; f_equal.
  - unfold Rmin, Rmax. repeat destruct (Rle_dec _ _); lra.
  - unfold Rmax. repeat destruct (Rle_dec _ _); lra.
  - unfold Rmin. repeat destruct (Rle_dec _ _); lra.
Qed.
Lemma clip_twice low high y : clip_box low high (clip_box low high y) = clip_box low high y.
Proof.
  unfold clip_box. revert low high; induction y as [| v y IH]; intros [| l low] [| h high]; auto.
  cbn [map3]. rewrite clamp_twice, IH. reflexivity.
Qed.
Theorem C141_no_normalization_partial : forall n sp (m : module H) limit e,
  exists pol, to_policy sp None m true = Ok pol /\ roll n sp silent None pol limit e = roll n sp silent None m limit e.
Proof.
  intros n sp m limit e. exists (match sp with Box low high => act_clip low high m | Discrete => m end). split; [destruct sp; reflexivity|].
  destruct sp as [low high|]; [|reflexivity]. unfold rollout. destruct (env_reset e) as [e1 x]. cbn [normalize_observation bind].
  generalize (None : option H) as hidden. intros hidden. revert limit e1 hidden x. induction n as [| n IH]; intros limit e1 hidden x; auto.
  cbn [rollout_from]. unfold stateful, act_clip, silent, use_policy.
  destruct (m false x hidden) as [y | y h]; cbn beta iota; rewrite clip_twice; destruct (env_step e1 _) as [[[e2 x2] r] done];
    cbn [normalize_observation bind]; destruct (done || _); auto; fold silent; f_equal; apply IH.
Qed.
(* with statistics, the observations are normalized twice *)
Theorem C141_twice_refuted : forall r low high limit e e1 x z l,
  env_reset e = (e1, x) -> normalize_observation (Some (Some r)) x = Ok z -> to_layer r = Ok l ->
  layer_forward l z <> z ->
  no_bounds low high = true -> length low = length z -> length high = length z -> length (layer_forward l z) = length z ->
  (forall e a, length (snd (fst (fst (env_step e a)))) = n_dim r) ->
  exists pol tr tr', to_policy (Box low high) (Some (Some r)) (echo : module H) true = Ok pol /\
    roll 1 (Box low high) silent (Some (Some r)) (echo : module H) limit e = Ok tr /\
    roll 1 (Box low high) silent (Some (Some r)) pol limit e = Ok tr' /\
    map fst tr = [Continuous z] /\ map fst tr' = [Continuous (layer_forward l z)] /\ tr <> tr'.
Proof.
  intros r low high limit e e1 x z l ER N EL D B L1 L2 L3 OBS.
  pose proof (normalized_layer r x z N) as (C & _).
  assert (0 <? n_count r = true) as Cb by (apply Nat.ltb_lt; lia).
  assert (forall e a, exists w, normalize_observation (Some (Some r)) (snd (fst (fst (env_step e a)))) = Ok w) as NO.
  { intros e0 a. cbn [normalize_observation rs_normalize]. unfold normalize. destruct (n_count r =? 0) eqn:Z; [apply Nat.eqb_eq in Z; lia|].
    unfold verify. rewrite OBS, Nat.eqb_refl. cbn [bind]. unfold to_layer in EL. destruct (stats r) as [[mu sd]|]; [|discriminate].
    cbn [bind normalize_input]. eauto. }
  assert (forall m : module H, exists rr, roll 1 (Box low high) silent (Some (Some r)) m limit e =
    Ok [(Continuous (clip_box low high (output (m false z None))), rr)]) as ONE.
  { intros m. unfold rollout. rewrite ER. rewrite N. cbn [bind rollout_from].
    destruct (stateful m false None z) as [y h] eqn:ES.
    assert (y = output (m false z None)) as -> by (unfold stateful in ES; destruct (m false z None); cbn; congruence).
    unfold use_policy, silent. set (a := Continuous _).
    destruct (NO e1 a) as [w Ew]. destruct (env_step e1 a) as [[[e2 x2] rr] done]. cbn [fst snd] in Ew. rewrite Ew. cbn [bind].
    exists rr. destruct (done || _); reflexivity. }
  exists (act_clip low high (obs_norm l echo)).
  destruct (ONE echo) as [r1 E1']. destruct (ONE (act_clip low high (obs_norm l echo))) as [r2 E2'].
  eexists; eexists. split; [unfold to_policy; rewrite Cb, EL; reflexivity|]. split; [exact E1'|]. split; [exact E2'|].
  unfold act_clip, obs_norm, echo. cbn [output map fst]. rewrite clip_twice. rewrite !(clip_unbounded low high) by (auto; congruence).
  split; auto. split; auto. congruence.
Qed.
End Props.
Print Assumptions C140_gym_partial.
Print Assumptions C140_training_refuted.
Print Assumptions C140_vectorized.
Print Assumptions C140_bounds.
Print Assumptions C141_no_normalization_partial.
Print Assumptions C141_twice_refuted.

(* a problem with statistics of mean 2 and standard deviation 1, and an environment whose observations are always 1 *)
Definition ex_norm : norm := Norm 1 (Some [Some 4%R]) (Some [Some 10%R]) 2 default_minvar None None.
Definition ex_reset (e : unit) : unit * list num := (tt, [Some 1%R]).
Definition ex_step (e : unit) (a : action) : unit * list num * R * bool := (tt, [Some 1%R], 0%R, false).
Definition ex_argmax (l : list num) : nat := 0.
Definition ex_layer : layer := Layer [Some 2%R] [Some 1%R] None None.
Lemma ndiv_some x y : y <> 0%R -> ndiv (Some x) (Some y) = Some (x / y)%R.
Proof. intros N. unfold ndiv. destruct (Req_EM_T y 0); [contradiction|reflexivity]. Qed.
Lemma ex_stats : stats ex_norm = Ok ([Some 2%R], [Some 1%R]).
Proof.
  unfold stats, ex_norm, count_num. cbn [n_sum n_sq n_count map map2 n_minvar]. change (INR 2) with (1 + 1)%R. rewrite !ndiv_some by lra.
  replace (4 / (1 + 1))%R with 2%R by lra. replace (10 / (1 + 1))%R with 5%R by lra. cbn [nsquare nmul nlift2 nsub clamp nsqrt option_map].
  unfold nsquare, nmul, nsub, nlift2, clamp, nsqrt, option_map, default_minvar.
  replace (Rmax (5 - 2 * 2) (1 / 100))%R with 1%R by (unfold Rmax; destruct (Rle_dec _ _); lra). rewrite sqrt_1. reflexivity.
Qed.
Lemma ex_to_layer : to_layer ex_norm = Ok ex_layer.
Proof. unfold to_layer. rewrite ex_stats. reflexivity. Qed.
Lemma ex_forward v : layer_forward ex_layer [Some v] = [Some (v - 2)%R].
Proof.
  unfold layer_forward, normalize_row, ex_layer. cbn [l_mean l_stdev l_lb l_ub map2 nsub nlift2]. unfold nsub, nlift2. rewrite ndiv_some by lra.
  cbn [clamp]. do 2 f_equal. lra.
Qed.
Lemma ex_normalize v : normalize_observation (Some (Some ex_norm)) [Some v] = Ok [Some (v - 2)%R].
Proof.
  cbn [normalize_observation rs_normalize]. unfold normalize. cbn [n_count ex_norm Nat.eqb verify length n_dim bind]. fold ex_norm.
  rewrite ex_stats. cbn [bind normalize_input n_lb n_ub ex_norm]. do 2 f_equal. apply (ex_forward v).
Qed.
Example C140_example :
  exists pol : module unit, to_policy (Box [Some (- 1 / 2)%R] [Some 3%R]) (Some (Some ex_norm)) echo true = Ok pol /\
    drive ex_reset ex_step ex_argmax 2 (Box [Some (- 1 / 2)%R] [Some 3%R]) pol false None tt =
      [(Continuous [Some (- 1 / 2)%R], 0%R); (Continuous [Some (- 1 / 2)%R], 0%R)].
Proof.
  apply (C140_gym_partial ex_reset ex_step ex_argmax 2 _ (Some (Some ex_norm)) echo None tt). unfold rollout. cbn [ex_reset]. rewrite ex_normalize.
  cbn [bind rollout_from]. unfold stateful, echo, use_policy, silent, clip_box, ex_step. cbn [map3 clamp]. rewrite ex_normalize.
  cbn [bind option_map orb rmap map3 clamp].
  replace (Rmin (Rmax (1 - 2) (- 1 / 2)) 3)%R with (- 1 / 2)%R; [reflexivity|]. unfold Rmin, Rmax. repeat destruct (Rle_dec _ _); lra.
Qed.
Definition ex_dropout : module unit := fun tr x _ => Alone (if tr then [Some 0%R] else x).
Example C140_training_example :
  use_policy ex_argmax (Box [None] [None]) None (output (ex_dropout true [Some 1%R] None))
  <> use_policy ex_argmax (Box [None] [None]) None (output (ex_dropout false [Some 1%R] None)).
Proof. cbn. intros Q. injection Q as Q. lra. Qed.
Example C141_example :
  exists (pol : module unit) tr tr', to_policy (Box [None] [None]) (Some (Some ex_norm)) echo true = Ok pol /\
    rollout ex_reset ex_step ex_argmax 1 (Box [None] [None]) silent (Some (Some ex_norm)) (echo : module unit) None tt = Ok tr /\
    rollout ex_reset ex_step ex_argmax 1 (Box [None] [None]) silent (Some (Some ex_norm)) pol None tt = Ok tr' /\
    map fst tr = [Continuous [Some (1 - 2)%R]] /\ map fst tr' = [Continuous (layer_forward ex_layer [Some (1 - 2)%R])] /\ tr <> tr'.
Proof.
  eapply C141_twice_refuted; try reflexivity.
  - apply ex_normalize.
  - apply ex_to_layer.
  - rewrite ex_forward. intros Q. injection Q as Q. lra.
Qed.
Example C140_vectorized_example :
  normalize ex_norm (XOne [Some 1%R]) = Ok (XOne [Some (1 - 2)%R]) /\
  exists pol : module unit, vec_to_policy (Box [Some (- 1 / 2)%R] [None]) (Some ex_norm) echo true = Ok pol /\
    pol true [Some 1%R] None = Alone [Some (- 1 / 2)%R].
Proof.
  split.
  - pose proof (ex_normalize 1) as N. cbn [normalize_observation rs_normalize] in N. destruct (normalize ex_norm (XOne [Some 1%R])) as [[v | |]|]; try discriminate.
    injection N as ->. reflexivity.
  - unfold vec_to_policy. rewrite ex_to_layer. eexists. split; [reflexivity|]. cbn [no_bounds forallb andb]. unfold act_clip, obs_norm, echo.
    rewrite ex_forward. unfold clip_box. cbn [map3 clamp]. do 3 f_equal. unfold Rmax. destruct (Rle_dec _ _); lra.
Qed.
Example C140_bounds_example : box_ok [Some (- 1)%R; None] [Some 1%R; Some 5%R] /\ ~ in_box [Some (- 1)%R; None] [Some 1%R; Some 5%R] [Some 0%R; Some 7%R].
Proof.
  split.
  - intros [|[|[|i]]] l h; cbn; intros Hl Hh; try discriminate. injection Hl as <-. injection Hh as <-. lra.
  - intros B. specialize (B 1 None (Some 5%R) (Some 7%R) eq_refl eq_refl eq_refl). destruct B as [_ B]. lra.
Qed.

(* Vector environments: C45, C113. *)
From Coq Require Import QArith.
From Verif Require Import Prelude EnvModel EnvSpec EnvProofs.
Close Scope Q_scope.
Open Scope nat_scope.

Section C.
Variables ES A O I : Type.
Variable env_step : nat -> ES -> A -> ES * sres O I.
Variable env_reset : nat -> ES -> option Z -> ES * (O * I).
Variable seed_of : Z -> nat -> Z.
Variable dummy_observation : O.
Variable empty_info : I.
Variable num_episodes : option nat.
Notation vreset := (venv_reset env_reset seed_of num_episodes).
Notation vrun := (venv_run env_step env_reset dummy_observation empty_info num_episodes).
Definition finished : vres O I := {| v_obs := dummy_observation; v_reward := None; v_term := true; v_trunc := true; v_info := empty_info |}.
(* the seed which sub-environment i gets at a reset: the keyword argument counts if given, otherwise a seed set before *)
Definition own_seed (v : venv ES) (kw : option (option Z)) (i : nat) : option Z :=
  match (match kw with Some s => s | None => ve_seed v end) with Some z => Some (seed_of z i) | None => None end.
(* the run of sub-environment i alone *)
Definition alone (i : nat) (s : ES) (acts : list A) := raw_run (env_step i) (fun s => env_reset i s None) s acts.

(* ---- C45: each sub-environment behaves as if it were stepped alone, for num_episodes episodes ---- *)
Theorem C45_alone v kw l i s c acts v1 ois : nth_error (ve_envs v) i = Some (s, c) -> vreset v kw = (v1, ois) ->
  Forall (fun a => length a = length (ve_envs v)) l -> map Some acts = map (fun a => nth_error a i) l ->
  nth_error ois i = Some (snd (env_reset i s (own_seed v kw i))) /\
  exists outs v2, vrun v1 l = (v2, Ok outs) /\ length outs = length l /\
    forall t, (match nth_error outs t with Some o => nth_error o i | None => None end) =
              visible finished num_episodes (alone i (fst (env_reset i s (own_seed v kw i))) acts) t.
Proof.
  intros E R HF HA. unfold venv_reset in R.
  set (v' := match kw with Some s => venv_seed v s | None => v end) in R.
  assert (Ev : ve_envs v' = ve_envs v) by (unfold v'; destruct kw; reflexivity).
  assert (Es : option_map (fun z => seed_of z i) (ve_seed v') = own_seed v kw i) by (unfold v', own_seed; destruct kw as [[z|]|]; try reflexivity; cbn; destruct (ve_seed v); reflexivity).
  rewrite Ev in R. set (envs := match num_episodes with Some n => _ | None => _ end) in R.
  assert (En : nth_error envs i = Some (s, match num_episodes with Some n => n | None => c end)).
  { unfold envs. destruct num_episodes; auto. rewrite nth_error_map, E. reflexivity. }
  assert (Le : length envs = length (ve_envs v)) by (unfold envs; destruct num_episodes; rewrite ?map_length; auto).
  destruct (reset_loop_nth ES O I env_reset seed_of (ve_seed v') envs 0 i s _ En) as [N1 N2].
  destruct (reset_loop_length ES A O I env_step env_reset seed_of (ve_seed v') envs 0) as [L1 L2].
  destruct (reset_loop env_reset seed_of (ve_seed v') 0 envs) as [envs1 ois1]. injection R as <- <-. cbn [fst snd Nat.add] in *. rewrite Es in N1, N2.
  split; [exact N2|]. set (s1 := fst (env_reset i s (own_seed v kw i))) in *.
  destruct (vrun_lane ES A O I env_step env_reset seed_of dummy_observation empty_info num_episodes l {| ve_envs := envs1; ve_seed := None |} i
     (s1, match num_episodes with Some n => n | None => c end)) as (outs & E1 & E2 & K).
  - eapply Forall_impl; [|exact HF]. cbn. intros a Ha. lia.
  - exact N1.
  - destruct (vrun {| ve_envs := envs1; ve_seed := None |} l) as [v2 r2]. cbn in E1. subst r2. exists outs, v2. split; auto. split; auto. intros t. destruct (K acts HA) as [K1 _].
    pose proof (lane_visible ES A O I env_step env_reset seed_of dummy_observation empty_info num_episodes i acts s1 (match num_episodes with Some n => n | None => c end) t) as V.
    assert (EC : counter num_episodes (match num_episodes with Some n => n | None => c end) = num_episodes) by (unfold counter; destruct num_episodes; auto).
    rewrite EC in V. etransitivity; [|exact V]. clear - K1. apply (f_equal (fun l => nth_error l t)) in K1. rewrite !nth_error_map in K1.
    destruct (nth_error outs t) as [o|]; cbn in K1 |- *; destruct (nth_error (snd _) t) as [x|]; cbn in K1; congruence.
Qed.
(* at most num_episodes ends are reported: exactly as many as the sub-environment had, up to that number *)
Definition reports_end (r : vres O I) : bool := match v_reward r with Some _ => v_term r || v_trunc r | None => false end.
Lemma count_ends (l : list (raw O I)) : Forall (fun x => (r_term (fst x) || r_trunc (fst x)) = match snd x with Some _ => true | None => false end) l ->
  forall n col, (forall t, nth_error col t = visible finished (Some n) l t) -> length (filter reports_end col) = Nat.min n (ends l).
Proof.
  induction 1 as [|[r e] l Hx HF IH]; intros n col HC.
  - assert (col = []) as -> by (specialize (HC 0); destruct col; [auto|discriminate]). cbn. lia.
  - destruct col as [|x col]; [specialize (HC 0); discriminate|]. pose proof (HC 0) as H0. cbn in H0.
    destruct n as [|n]; cbn [Nat.leb] in H0.
    + injection H0 as ->. cbn [filter reports_end finished v_reward].
      rewrite (IH 0 col); [cbn; lia|]. intros t. specialize (HC (S t)). cbn [nth_error] in HC. rewrite HC. unfold visible. cbn [nth_error Nat.leb]. destruct (nth_error l t) as [[? ?]|]; reflexivity.
    + cbn in Hx. destruct e as [oi|].
      * assert (RE : reports_end x = true) by (injection H0 as ->; destruct n; cbn; exact Hx).
        cbn [filter]. rewrite RE. cbn [length ends]. rewrite (IH n col); [lia|]. intros t. specialize (HC (S t)). cbn [nth_error] in HC. rewrite HC. unfold visible. reflexivity.
      * assert (RE : reports_end x = false) by (injection H0 as ->; cbn; exact Hx).
        cbn [filter]. rewrite RE. cbn [ends]. rewrite (IH (S n) col); [lia|]. intros t. specialize (HC (S t)). cbn [nth_error] in HC. rewrite HC. reflexivity.
Qed.
Theorem C45_number_of_ends n i s acts col : (forall t, nth_error col t = visible finished (Some n) (alone i s acts) t) ->
  length (filter reports_end col) = Nat.min n (ends (alone i s acts)) /\
  (forall t, t < length acts -> n <= ends (firstn t (alone i s acts)) -> nth_error col t = Some finished).
Proof.
  intros HC. split; [apply count_ends; auto; apply raw_run_done|]. intros t L H. rewrite HC. unfold visible.
  destruct (nth_error (alone i s acts) t) as [[r e]|] eqn:E.
  - cbn. replace (n <=? _) with true by (symmetry; apply Nat.leb_le; auto). reflexivity.
  - apply nth_error_None in E. unfold alone in E. rewrite raw_run_length in E. lia.
Qed.
(* a batch of actions of a wrong size is refused, and nothing is stepped *)
Theorem C45_wrong_number_of_actions v acts : length acts <> length (ve_envs v) ->
  venv_step env_step env_reset dummy_observation empty_info num_episodes v acts = (v, Err ValueError).
Proof. intros H. unfold venv_step. destruct (Nat.eqb_spec (length acts) (length (ve_envs v))); [contradiction|reflexivity]. Qed.
(* a seed counts for one reset only: after it, whatever is stepped, the sub-environments are reset without seeds *)
Theorem C45_seed_used_once v kw l v1 ois v2 r i s c : vreset v kw = (v1, ois) -> vrun v1 l = (v2, r) -> nth_error (ve_envs v2) i = Some (s, c) ->
  nth_error (snd (vreset v2 None)) i = Some (snd (env_reset i s None)).
Proof.
  intros R V E. assert (S1 : ve_seed v1 = None).
  { unfold venv_reset in R. destruct (reset_loop _ _ _ _ _). injection R as <- _. reflexivity. }
  assert (S2 : ve_seed v2 = None).
  { clear - S1 V. revert v1 v2 r S1 V. induction l as [|a l IH]; intros v1 v2 r S1 V; cbn in V; [injection V as <- <-; auto|].
    destruct (venv_step _ _ _ _ _ v1 a) as [v3 [rs|e]] eqn:Es.
    - destruct (vrun v3 l) as [v4 r4] eqn:E4. injection V as <- <-. eapply IH; [|exact E4]. unfold venv_step in Es. destruct (negb _); [discriminate|].
      destruct (step_loop _ _ _ _ _ _ _ _). injection Es as <- _. exact S1.
    - injection V as <- <-. unfold venv_step in Es. destruct (negb _); [congruence|]. destruct (step_loop _ _ _ _ _ _ _ _). discriminate. }
  destruct (vreset v2 None) as [v3 ois3] eqn:R3. cbn [snd].
  destruct (C45_alone v2 None [] i s c [] v3 ois3 E R3) as [K _]; [constructor|reflexivity|].
  unfold own_seed in K. rewrite S2 in K. exact K.
Qed.
End C.
Print Assumptions C45_alone.
Print Assumptions C45_number_of_ends.
Print Assumptions C45_wrong_number_of_actions.
Print Assumptions C45_seed_used_once.

(* two counting environments, which end when the sum of the actions passes 3 resp. 4; two episodes *)
Definition demo_step (i s a : nat) : nat * sres nat unit :=
  (s + a, {| r_obs := s + a; r_reward := inject_Z (Z.of_nat a); r_term := 3 + i <=? s + a; r_trunc := false; r_info := tt |}).
Definition demo_reset (i s : nat) (seed : option Z) : nat * (nat * unit) := (0, (0, tt)).
Definition demo_v : venv nat := {| ve_envs := [(0, 1); (0, 1)]; ve_seed := Some 7%Z |}.
Example C45_example :
  match snd (venv_run demo_step demo_reset 99 tt (Some 2) (fst (venv_reset demo_reset (fun z i => z) (Some 2) demo_v None)) [[2; 2]; [2; 1]; [3; 1]; [1; 1]; [1; 5]]) with
  | Ok outs => map (map (fun o => (v_obs o, v_term o))) outs
  | Err _ => []
  end = [[(2, false); (2, false)]; [(0, true); (3, false)]; [(3, true); (0, true)]; [(99, true); (1, false)]; [(99, true); (6, true)]].
Proof. reflexivity. Qed.

(* ---- C113: sub-environments with different spaces are refused ---- *)
(* False: the shapes of Box action spaces are never compared. *)
Theorem C113_action_shapes_refuted o acts : acts <> [] -> check_spaces (map (fun a => (Box o, Box a)) acts) = Ok tt.
Proof.
  intros H. destruct acts as [|a0 acts]; [congruence|]. cbn [map check_spaces check_first bind]. clear H.
  assert (K : sequence (map (fun oa => check_other (Box o) (Box a0) (fst oa) (snd oa)) (map (fun a => (Box o, Box a)) acts)) = Ok (map (fun _ => tt) acts)).
  { induction acts as [|a acts IH]; [reflexivity|]. cbn [map sequence]. rewrite IH. cbn [fst snd]. unfold check_other. cbn [space_shape]. unfold shape_eqb.
    destruct (list_eq_dec Nat.eq_dec o o); [reflexivity|contradiction]. }
  rewrite K. reflexivity.
Qed.
Print Assumptions C113_action_shapes_refuted.
(* What holds: if the list is accepted, all observations have the same shape, all action spaces are of the same kind, and discrete ones
   have the same number of actions. *)
Theorem C113_checked_partial o0 a0 l : check_spaces ((o0, a0) :: l) = Ok tt ->
  (exists s, o0 = Box s) /\ a0 <> OtherSpace /\
  Forall (fun oa => space_shape (fst oa) = space_shape o0 /\
    match a0 with Discrete n => snd oa = Discrete n | Box _ => exists s, snd oa = Box s | OtherSpace => False end) l.
Proof.
  cbn [check_spaces]. intros H. destruct (check_first o0 a0) as [[]|e] eqn:E1; [|discriminate]. cbn [bind] in H.
  split; [destruct o0; cbn in E1; try discriminate; eauto|]. split; [intros ->; destruct o0; discriminate|].
  destruct (sequence _) as [us|e] eqn:E2; [|discriminate]. clear H. revert us E2. induction l as [|[o a] l IH]; intros us E2; [constructor|].
  cbn [map sequence fst snd] in E2. destruct (check_other o0 a0 o a) as [[]|e] eqn:E3; [|discriminate].
  destruct (sequence (map _ l)) as [us'|e] eqn:E4; [|discriminate]. constructor; [|eapply IH; eauto]. cbn [fst snd]. unfold check_other in E3.
  unfold shape_eqb in E3. destruct (list_eq_dec Nat.eq_dec (space_shape o) (space_shape o0)) as [ES|]; [|discriminate]. split; auto. cbn [negb] in E3.
  destruct a as [s|n|], a0 as [s0|n0|]; try discriminate; eauto. destruct (Nat.eqb_spec n n0); [congruence|discriminate].
Qed.
Print Assumptions C113_checked_partial.
Example C113_example : check_spaces [(Box [3], Discrete 2); (Box [3], Discrete 2)] = Ok tt /\ check_spaces [(Box [3], Discrete 2); (Box [3], Discrete 3)] = Err ValueError /\
  check_spaces [(Box [3], Box [2]); (Box [3], Box [5])] = Ok tt.
Proof. repeat split; reflexivity. Qed.

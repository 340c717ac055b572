From Coq Require Import String.
From Verif Require Import Prelude SvModel.

Section P.
Variables Params Stats Num Env Arch : Type.
Variables mean stdev sum sum_of_squares : Stats -> Num.
Notation gym_save := (gym_save Params Stats Num Env Arch mean stdev sum sum_of_squares).
Notation vec_save := (vec_save Params Stats Num Env Arch mean stdev sum sum_of_squares).
Notation gym_to_policy := (gym_to_policy Params Stats Num Env mean stdev).
Notation vec_to_policy := (vec_to_policy Params Stats Num Env Arch mean stdev).

(* What a file should hold: the solution, the policy with its parameters, counters, the name of the environment if it was given by name;
   statistics exactly if the policy normalizes observations, and then the ones by which it normalizes. *)
Definition clips (bounds : option (Num * Num)) (f : saved Params Num Arch) : Prop := p_clip (s_policy f) = bounds.
Definition good_file (x : Params) (normalization : bool) (stats : option Stats) (steps episodes : nat) (m : maker Env) (f : saved Params Num Arch) : Prop :=
  s_solution f = x /\ p_params (s_policy f) = x /\ s_interactions f = steps /\ s_episodes f = episodes /\
  (forall n, s_env f = Some n <-> m = ById n) /\
  (forall s, normalization = true -> stats = Some s ->
     s_obs f = Some (mean s, stdev s, sum s, sum_of_squares s) /\ p_norm (s_policy f) = Some (mean s, stdev s)) /\
  (normalization = false \/ stats = None -> s_obs f = None /\ p_norm (s_policy f) = None).

Theorem C195_vec p x : exists f, vec_save p x = Ok f /\ s_policy f = vec_to_policy p x /\
  clips (if v_bounded _ _ _ _ p then Some (v_low_high _ _ _ _ p) else None) f /\ s_architecture f = Some (v_architecture p) /\
  good_file x (v_normalization p) (v_stats p) (v_interactions p) (v_episodes p) (v_maker p) f.
Proof.
  eexists. split; [reflexivity|]. split; [reflexivity|]. split; [reflexivity|]. unfold good_file. cbn. repeat split.
  - destruct (v_maker p); cbn; congruence.
  - destruct (v_maker p); cbn; congruence.
  - intros. rewrite H, H0. reflexivity.
  - intros. rewrite H, H0. reflexivity.
  - destruct H as [-> | ->]; [reflexivity|]. destruct (v_normalization p); reflexivity.
  - destruct H as [-> | ->]; [reflexivity|]. destruct (v_normalization p); reflexivity.
Qed.
(* GymNE: if observations are not normalized, or if some were collected *)
Theorem C195_gym_partial p x : g_normalization p = false \/ g_stats p <> None ->
  exists f, gym_save p x = Ok f /\ s_policy f = gym_to_policy p x /\ clips (g_action_box p) f /\
  good_file x (g_normalization p) (g_stats p) (g_interactions p) (g_episodes p) (g_maker p) f.
Proof.
  intro H. unfold SvModel.gym_save, good_file. destruct (g_normalization p) eqn:N.
  - destruct (g_stats p) as [s|] eqn:G; [|destruct H; [discriminate|congruence]]. eexists. split; [reflexivity|]. split; [reflexivity|]. cbn. repeat split.
    + destruct (g_maker p); cbn; congruence.
    + destruct (g_maker p); cbn; congruence.
    + congruence.
    + rewrite N, G. cbn. unfold layer. congruence.
    + destruct H0; discriminate.
    + destruct H0; discriminate.
  - eexists. split; [reflexivity|]. split; [reflexivity|]. cbn. rewrite N. repeat split; try congruence; destruct (g_maker p); cbn; congruence.
Qed.
(* Before the first observation a solution of a GymNE problem with observation normalization cannot be saved, although its policy can be made. *)
Theorem C195_fresh_refuted p x : g_normalization p = true -> g_stats p = None ->
  gym_save p x = Err AttributeError /\ p_params (gym_to_policy p x) = x /\ p_norm (gym_to_policy p x) = None.
Proof. intros N G. unfold SvModel.gym_save. cbn. rewrite N, G. repeat split. Qed.
End P.
Print Assumptions C195_vec.
Print Assumptions C195_gym_partial.
Print Assumptions C195_fresh_refuted.
Example C195_example :
  let p := {| g_normalization := true; g_stats := Some 3; g_action_box := None; g_interactions := 8; g_episodes := 2; g_maker := @ById unit "CartPole-v1" |} in
  (g_normalization p = false \/ g_stats p <> None) /\
  rmap s_obs (gym_save (list nat) nat nat unit unit (fun s => s) S (fun s => s + 2) (fun s => s * s) p [5]) = Ok (Some (3, 4, 5, 9)).
Proof. split; [right; discriminate|reflexivity]. Qed.
Example C195_fresh_example :
  let p := {| g_normalization := true; g_stats := @None nat; g_action_box := @None (nat * nat); g_interactions := 0; g_episodes := 0; g_maker := @ById unit "CartPole-v1" |} in
  g_normalization p = true /\ g_stats p = None.
Proof. split; reflexivity. Qed.

(* Model of GymNE.save_solution (neuroevolution/gymne.py:674-724) and VecGymNE.save_solution (neuroevolution/vecgymne.py:975-1026) with
   the parts of to_policy (gymne.py:646-672, vecgymne.py:927-973) which decide how the saved policy treats observations and actions.
   Simplifications: statistics with data are an abstract type with their mean, standard deviation, sum and sum of squares; devices, the
   conversion of the solution to a tensor and the time stamp are left out; what is written is read back unchanged by pickle. *)
From Coq Require Import String.
From Verif Require Import Prelude.

Section SAVE.
Variables Params Stats Num Env Arch : Type.
Variables mean stdev sum sum_of_squares : Stats -> Num.

(* a policy: the parameters of the network, the statistics by which observations are normalized, the bounds to which actions are clipped *)
Record policy := { p_params : Params; p_norm : option (Num * Num); p_clip : option (Num * Num) }.
(* the dictionary in the file *)
Record saved := { s_solution : Params; s_policy : policy; s_obs : option (Num * Num * Num * Num); s_interactions : nat; s_episodes : nat;
                  s_env : option string; s_architecture : option Arch }.
Inductive maker := ById (name : string) | ByFunction (f : Env).
(* the action space: bounds of a Box, or Discrete *)
Record gym := { g_normalization : bool; g_stats : option Stats;     (* a RunningStat; None: nothing collected yet *)
                g_action_box : option (Num * Num); g_interactions : nat; g_episodes : nat; g_maker : maker }.
(* runningstat.py:66-95 mean, stdev, sum, sum_of_squares: `self._rn` is None before the first observation *)
Definition stat (f : Stats -> Num) (s : option Stats) : result Num := match s with Some s => Ok (f s) | None => Err AttributeError end.
(* runningnorm.py:571-581 to_layer *)
Definition layer (s : Stats) : Num * Num := (mean s, stdev s).
(* gymne.py:646-672 *)
Definition gym_to_policy (p : gym) (x : Params) : policy :=
  {| p_params := x; p_norm := if g_normalization p then option_map layer (g_stats p) else None; p_clip := g_action_box p |}.
Definition name_of (m : maker) : option string := match m with ById s => Some s | ByFunction _ => None end.
(* gymne.py:698-720 *)
Definition gym_save (p : gym) (x : Params) : result saved :=
  bind (if g_normalization p
        then bind (stat mean (g_stats p)) (fun m => bind (stat stdev (g_stats p)) (fun d =>
             bind (stat sum (g_stats p)) (fun s => bind (stat sum_of_squares (g_stats p)) (fun q => Ok (Some (m, d, s, q))))))
        else Ok None) (fun obs =>
  Ok {| s_solution := x; s_policy := gym_to_policy p x; s_obs := obs; s_interactions := g_interactions p; s_episodes := g_episodes p;
        s_env := name_of (g_maker p); s_architecture := None |}).

Record vec := { v_normalization : bool; v_stats : option Stats;     (* a RunningNorm, or None *)
                v_low_high : Num * Num; v_bounded : bool;           (* of the action space; whether some bound is finite *)
                v_interactions : nat; v_episodes : nat; v_maker : maker; v_architecture : Arch }.
(* vecgymne.py:960-973 *)
Definition vec_to_policy (p : vec) (x : Params) : policy :=
  {| p_params := x; p_norm := if v_normalization p then option_map layer (v_stats p) else None;
     p_clip := if v_bounded p then Some (v_low_high p) else None |}.
(* vecgymne.py:998-1022 *)
Definition vec_save (p : vec) (x : Params) : result saved :=
  let obs := if v_normalization p then option_map (fun s => (mean s, stdev s, sum s, sum_of_squares s)) (v_stats p) else None in
  Ok {| s_solution := x; s_policy := vec_to_policy p x; s_obs := obs; s_interactions := v_interactions p; s_episodes := v_episodes p;
        s_env := name_of (v_maker p); s_architecture := Some (v_architecture p) |}.
End SAVE.
Arguments g_normalization {Stats Num Env} g. Arguments g_stats {Stats Num Env} g. Arguments g_action_box {Stats Num Env} g.
Arguments g_interactions {Stats Num Env} g. Arguments g_episodes {Stats Num Env} g. Arguments g_maker {Stats Num Env} g.
Arguments v_normalization {Stats Num Env Arch} v. Arguments v_stats {Stats Num Env Arch} v. Arguments v_maker {Stats Num Env Arch} v.
Arguments v_interactions {Stats Num Env Arch} v. Arguments v_episodes {Stats Num Env Arch} v. Arguments v_architecture {Stats Num Env Arch} v.
Arguments s_solution {Params Num Arch} s. Arguments s_policy {Params Num Arch} s. Arguments s_obs {Params Num Arch} s.
Arguments s_interactions {Params Num Arch} s. Arguments s_episodes {Params Num Arch} s. Arguments s_env {Params Num Arch} s.
Arguments s_architecture {Params Num Arch} s. Arguments p_params {Params Num} p. Arguments p_norm {Params Num} p. Arguments p_clip {Params Num} p.
Arguments ById {Env} name. Arguments ByFunction {Env} f.

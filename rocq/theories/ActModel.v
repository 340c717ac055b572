(* Model of how policies act in GymNE and VecGymNE: normalization of the observations, the policy network and its hidden state, noise and
   clipping of actions, and of the policies made by to_policy, with the wrapper modules of net/rl.py and the TorchWrapper of net/vecrl.py.
   Environments, networks, the noise and argmax are parameters.  Numbers as in NormModel (real arithmetic, None is NaN).
   Rendering, info dictionaries and devices are left out. *)
From Coq Require Import Reals.
From Verif Require Import Prelude NormModel.
Close Scope R_scope.
Open Scope nat_scope.

(* the bounds of a Box: None is minus infinity (low) or infinity (high) *)
Inductive space := Box (low high : list (option R)) | Discrete.
Inductive action := Continuous (a : list num) | Choice (k : nat).

Section Act.
  Context {E H : Type}.
  Variable env_reset : E -> E * list num.
  Variable env_step : E -> action -> E * list num * R * bool.
  Variable argmax : list num -> nat.

  (* what the forward method of a module returns: the output, or a tuple of output and new hidden state *)
  Inductive out := Alone (y : list num) | Tuple (y : list num) (h : H).
  (* a module: whether it is in training mode, the input, the hidden state if one is given *)
  Definition module := bool -> list num -> option H -> out.

  (* rl.py:143-160 (ActClipWrapperModule.forward) *)
  Definition clip_box (low high : list (option R)) (y : list num) : list num := map3 clamp low high y.
  Definition act_clip (low high : list (option R)) (m : module) : module := fun training x h =>
    match m training x h with
    | Tuple y h => Tuple (clip_box low high y) h
    | Alone y => Alone (clip_box low high y)
    end.
  (* rl.py:175-196 (ObsNormWrapperModule.forward) *)
  Definition obs_norm (l : layer) (m : module) : module := fun training x h => m training (layer_forward l x) h.
  (* statefulmodule.py:52-78 (StatefulModule.forward): the output and the stored hidden state *)
  Definition stateful (m : module) (training : bool) (hidden : option H) (x : list num) : list num * option H :=
    match m training x hidden with Tuple y h => (y, Some h) | Alone y => (y, None) end.

  (* None: normalization is switched off *)
  Definition statistics := option rstat.
  (* gymne.py:324-332 with update_stats=False *)
  Definition normalize_observation (s : statistics) (x : list num) : result (list num) :=
    match s with None => Ok x | Some r => rs_normalize r x end.
  (* gymne.py:334-348; [noise] is what is added, if noise is configured *)
  Definition use_policy (sp : space) (noise : option (list num)) (y : list num) : action :=
    let y := match noise with None => y | Some z => map2 nadd y z end in
    match sp with Discrete => Choice (argmax y) | Box low high => Continuous (clip_box low high y) end.
  (* gymne.py:383-414, at most n steps of a rollout that does not update the statistics, in evaluation mode (gymne.py:462-475): the actions
     and rewards; [limit]: the remaining steps of the episode length *)
  Fixpoint rollout_from (n : nat) (sp : space) (noise : nat -> option (list num)) (s : statistics) (m : module) (limit : option nat)
      (e : E) (hidden : option H) (x : list num) : result (list (action * R)) :=
    match n with
    | 0 => Ok []
    | S n' =>
        let (y, hidden) := stateful m false hidden x in
        let a := use_policy sp (noise n) y in
        let '(e, x, r, done) := env_step e a in
        let limit := option_map Nat.pred limit in
        bind (normalize_observation s x) (fun x =>
          if done || match limit with Some 0 => true | _ => false end then Ok [(a, r)]
          else rmap (cons (a, r)) (rollout_from n' sp noise s m limit e hidden x))
    end.
  (* gymne.py:361-382: the hidden state and the environment are reset *)
  Definition rollout (n : nat) (sp : space) (noise : nat -> option (list num)) (s : statistics) (m : module) (limit : option nat) (e : E) :=
    let (e, x) := env_reset e in
    bind (normalize_observation s x) (fun x => rollout_from n sp noise s m limit e None x).
  (* gymne.py:646-672 (to_policy); [m] is the network filled with the parameters *)
  Definition to_policy (sp : space) (s : statistics) (m : module) (clip_actions : bool) : result module :=
    bind (match s with
          | Some (Some r) => if 0 <? n_count r then rmap (fun l => obs_norm l m) (to_layer r) else Ok m
          | _ => Ok m
          end) (fun m =>
      match clip_actions, sp with true, Box low high => Ok (act_clip low high m) | _, _ => Ok m end).

  (* vecgymne.py:37-54 *)
  Definition no_bounds (low high : list (option R)) : bool :=
    forallb (fun b => match b with None => true | Some _ => false end) low && forallb (fun b => match b with None => true | Some _ => false end) high.
  (* vecgymne.py:927-973 (to_policy); the action space seen there is that of the TorchWrapper, a Box without bounds for discrete actions
     (vecrl.py:439-458) *)
  Definition vec_to_policy (sp : space) (s : option norm) (m : module) (with_wrappers : bool) : result module :=
    if with_wrappers then
      bind (match s with Some r => rmap (fun l => obs_norm l m) (to_layer r) | None => Ok m end) (fun m =>
        match sp with
        | Box low high => Ok (if no_bounds low high then m else act_clip low high m)
        | Discrete => Ok m
        end)
    else Ok m.
  (* vecrl.py:538-549 (TorchWrapper.step): what reaches the wrapped environment; vecgymne.py:505-509 configures both conversions *)
  Definition wrapper_action (sp : space) (y : list num) : action :=
    match sp with Discrete => Choice (argmax y) | Box low high => Continuous (clip_box low high y) end.
  (* vecgymne.py:838-848 for one environment: the normalized observation goes through the policy, the action to the TorchWrapper.  The
     policies run in the mode which their module has *)
  Definition vec_act (training : bool) (sp : space) (m : module) (hidden : option H) (x : list num) : action * option H :=
    let (y, hidden') := match m training x hidden with
                        | Tuple y h => (y, Some h)
                        | Alone y => (y, hidden)       (* vecrl.py:1267-1272: the state is kept *)
                        end in
    (wrapper_action sp y, hidden').
End Act.
Arguments out : clear implicits.
Arguments module : clear implicits.

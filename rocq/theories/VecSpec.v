(* Names of environments, and what is to be passed to them. *)
From Coq Require Import String.
From Verif Require Import Prelude SpaceModel SpaceSpec VecModel.

(* a is the part of the name before the first "::", b is the rest *)
Definition first_sep (name a b : string) : Prop :=
  name = (a ++ "::" ++ b)%string /\ forall a' b', name = (a' ++ "::" ++ b')%string -> String.length a <= String.length a'.
Definition no_sep (name : string) : Prop := forall a b, name <> (a ++ "::" ++ b)%string.
(* environments of gymnasium: without a registry, or with the registry gym *)
Definition gym_name (name rest : string) : Prop := (no_sep name /\ rest = name) \/ first_sep name "gym" rest.

(* a keyword argument: the one meant for this kind of environment counts *)
Definition value (k special : kwargs) (key : string) : option val :=
  match kget special key with Some v => Some v | None => kget k key end.
Definition dict_of (k : kwargs) : Prop := NoDup (map fst k).
(* none of the names of the arguments of make_vector_env itself *)
Definition common_free (k : kwargs) : Prop := forall key, In key common_names -> kget k key = None.
Definition absent (v : option val) : Prop := v = None \/ v = Some VNone.

Definition episodes (v : option val) (n : option Z) : Prop :=
  (absent v /\ n = None) \/ exists x z, v = Some x /\ x <> VNone /\ VecModel.py_int x = Ok z /\ (0 < z)%Z /\ n = Some z.
Definition flag (v : option val) (b : bool) : Prop := b = match v with Some x => truth x | None => false end.
Definition place (v d : option val) : Prop := (absent v /\ d = None) \/ (~ absent v /\ d = v).
(* the arguments of gym.make: all keyword arguments but those of make_gym_env *)
Definition passed (v : string -> option val) (args : kwargs) : Prop :=
  forall key, (In key own_names -> kget args key = None) /\ (~ In key own_names -> kget args key = v key).
Inductive gym_made (name : string) (v : string -> option val) : option nat -> env -> Prop :=
| made_single args : passed v args -> flag (v "empty_info"%string) false -> absent (v "num_episodes"%string) -> absent (v "device"%string) ->
    gym_made name v None (GymEnv name args)
| made_vector m args b n d : 1 <= m -> passed v args -> flag (v "empty_info"%string) b -> episodes (v "num_episodes"%string) n -> place (v "device"%string) d ->
    gym_made name v (Some m) (SyncVec (repeat (name, args) m) b n d).

(* brax: the number of environments under one of its names, and no request for doing without automatic resets *)
Definition one_number (v : string -> option val) (num_envs : option nat) (n : Z) : Prop :=
  match num_envs with
  | Some m => v "batch_size"%string = None /\ n = Z.of_nat m
  | None => exists x, v "batch_size"%string = Some x /\ VecModel.py_int x = Ok n
  end.
Definition resets (v : string -> option val) : Prop :=
  (v "autoreset"%string = None \/ v "auto_reset"%string = None) /\
  forall key x, In key ["autoreset"; "auto_reset"]%string -> v key = Some x -> truth x = true.
Definition brax_name (rest name : string) (old : bool) : Prop :=
  if old then rest = ("old::" ++ name)%string else rest = name /\ forall r, rest <> ("old::" ++ r)%string.

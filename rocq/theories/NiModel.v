(* Model of how a neuroevolution problem makes its network out of a string or a callable: misc.py:2040-2069 pass_info_if_needed,
   neproblem.py:281-312, gymne.py:256-263, 295-310, vecgymne.py:71-92, 326-348.
   Simplifications: a callable is its signature; the call of it is Python's binding of keyword arguments, and what is modelled is
   what it receives (or TypeError); the parser of strings is given its constants; spaces are boxes and discrete spaces. *)
From Coq Require Import String.
From Verif Require Import Prelude.
Open Scope string_scope.

Definition dict (V : Type) := list (string * V).
Fixpoint dget {V} (d : dict V) (k : string) : option V :=
  match d with [] => None | (k', v) :: r => if String.eqb k k' then Some v else dget r k end.
Fixpoint dset {V} (d : dict V) (k : string) (v : V) : dict V :=
  match d with [] => [(k, v)] | (k', v') :: r => if String.eqb k k' then (k', v) :: r else (k', v') :: dset r k v end.
(* dict.update; also {**d, **e} *)
Definition dupdate {V} (d e : dict V) : dict V := fold_left (fun d kv => dset d (fst kv) (snd kv)) e d.

(* inspect.signature *)
Inductive kind := PositionalOnly | PositionalOrKeyword | KeywordOnly.
Record param := mkP { p_name : string; p_kind : kind; p_default : bool }.
(* s_inspectable: inspect.signature does not raise ValueError (it does for some builtins) *)
Record signature := mkS { s_params : list param; s_var_keyword : bool; s_inspectable : bool }.
Definition by_keyword (p : param) : bool := match p_kind p with PositionalOnly => false | _ => true end.
Definition takes (s : signature) (k : string) : bool :=
  existsb (fun p => String.eqb (p_name p) k && by_keyword p) (s_params s) || s_var_keyword s.
(* Signature.bind_partial with keyword arguments only *)
Definition bind_partial {V} (s : signature) (kw : dict V) : result unit :=
  if forallb (fun kv => takes s (fst kv)) kw then Ok tt else Err TypeError.
(* f called with keyword arguments only: what it receives *)
Definition call {V} (s : signature) (kw : dict V) : result (dict V) :=
  if forallb (fun kv => takes s (fst kv)) kw &&
     forallb (fun p => p_default p || (by_keyword p && match dget kw (p_name p) with Some _ => true | None => false end)) (s_params s)
  then Ok kw else Err TypeError.
(* misc.py:2040-2069 pass_info_if_needed: the keyword arguments stored in the functools.partial *)
Definition pass_info_if_needed {V} (decorated : bool) (s : signature) (info : dict V) : result (dict V) :=
  if decorated then
    bind (if s_inspectable s then bind_partial s info else Ok tt) (fun _ => Ok info)
  else Ok [].
(* functools.partial(f, **stored)( **network_args) *)
Definition instantiate_callable {V} (decorated : bool) (s : signature) (info network_args : dict V) : result (dict V) :=
  bind (pass_info_if_needed decorated s info) (fun stored => call s (dupdate stored network_args)).

(* spaces *)
(* b_bounds: None for a box without bounds *)
Record box := mkBox { b_shape : list nat; b_bounds : option nat }.
Inductive act_space := ABox (b : box) | ADiscrete (n : nat).
Inductive value := VLength (n : nat) | VShape (s : list nat) | VSpace (b : box) | VUser (n : nat).
(* len(space.low) and space.shape[0] *)
Definition first_dim (e : exn) (s : list nat) : result nat := match s with [] => Err e | n :: _ => Ok n end.
(* gymne.py:258-263; vecrl.py:449-454: a discrete action space becomes an unbounded box *)
Definition box_act (a : act_space) : box := match a with ABox b => b | ADiscrete n => mkBox [n] None end.
(* gymne.py:256-263 and 295-303 _network_constants *)
Definition gym_constants (o : box) (a : act_space) : result (dict value) :=
  bind (first_dim TypeError (b_shape o)) (fun ol =>
  bind (match a with ADiscrete n => Ok n | ABox b => first_dim TypeError (b_shape b) end) (fun al =>
  Ok [("obs_length", VLength ol); ("act_length", VLength al); ("obs_space", VSpace o); ("act_space", VSpace (box_act a));
      ("obs_shape", VShape (b_shape o)); ("act_shape", VShape (b_shape (box_act a)))])).
(* gymne.py:305-310 _str_network_constants *)
Definition gym_str_constants (o : box) (a : act_space) : dict value :=
  [("obs_space", VShape (b_shape o)); ("act_space", VShape (b_shape (box_act a)))].
(* neproblem.py:281-286 network_constants and 299-303: the constants for the parser of strings *)
Definition gym_str_names (o : box) (a : act_space) (network_args : dict value) : result (dict value) :=
  rmap (fun c => dupdate (dupdate [] (dupdate (dupdate [] c) network_args)) (gym_str_constants o a)) (gym_constants o a).
(* neproblem.py:307-309 *)
Definition gym_callable (decorated : bool) (s : signature) (o : box) (a : act_space) (network_args : dict value) : result (dict value) :=
  bind (gym_constants o a) (fun c => instantiate_callable decorated s c network_args).

(* vecgymne.py:71-80 _env_constants_for_str_net *)
Definition vec_str_constants (o : box) (a : act_space) : result (dict value) :=
  bind (first_dim IndexError (b_shape o)) (fun ol =>
  bind (first_dim IndexError (b_shape (box_act a))) (fun al =>
  Ok [("obs_length", VLength ol); ("act_length", VLength al); ("obs_shape", VShape (b_shape o)); ("obs_space", VShape (b_shape o));
      ("act_shape", VShape (b_shape (box_act a))); ("act_space", VShape (b_shape (box_act a)))])).
(* vecgymne.py:83-92 _env_constants_for_callable_net *)
Definition vec_callable_constants (o : box) (a : act_space) : result (dict value) :=
  bind (first_dim IndexError (b_shape o)) (fun ol =>
  bind (first_dim IndexError (b_shape (box_act a))) (fun al =>
  Ok [("obs_length", VLength ol); ("act_length", VLength al); ("obs_shape", VShape (b_shape o)); ("obs_space", VSpace o);
      ("act_shape", VShape (b_shape (box_act a))); ("act_space", VSpace (box_act a))])).
(* vecgymne.py:343-344 and 347-348 *)
Definition vec_str_names (o : box) (a : act_space) (network_args : dict value) : result (dict value) :=
  rmap (fun c => dupdate (dupdate [] c) network_args) (vec_str_constants o a).
Definition vec_callable (decorated : bool) (s : signature) (o : box) (a : act_space) (network_args : dict value) : result (dict value) :=
  bind (vec_callable_constants o a) (fun c => instantiate_callable decorated s c network_args).

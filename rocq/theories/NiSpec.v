(* What a callable network and the parser of strings should be given. *)
From Coq Require Import String.
From Verif Require Import Prelude NiModel.
Open Scope string_scope.

Definition is_dict {V} (d : dict V) : Prop := NoDup (map fst d).
(* the documented constants; spaces are Box objects for callables and shapes for strings *)
Definition act_shape (a : act_space) : list nat := match a with ABox b => b_shape b | ADiscrete n => [n] end.
Definition act_box (a : act_space) (b : box) : Prop :=
  match a with ABox b' => b = b' | ADiscrete n => b_shape b = [n] /\ b_bounds b = None end.
Inductive documented (for_string : bool) (o : box) (a : act_space) : string -> value -> Prop :=
| doc_obs_length n r : b_shape o = n :: r -> documented for_string o a "obs_length" (VLength n)
| doc_act_length n r : act_shape a = n :: r -> documented for_string o a "act_length" (VLength n)
| doc_obs_shape : documented for_string o a "obs_shape" (VShape (b_shape o))
| doc_act_shape : documented for_string o a "act_shape" (VShape (act_shape a))
| doc_obs_space : for_string = false -> documented for_string o a "obs_space" (VSpace o)
| doc_act_space b : for_string = false -> act_box a b -> documented for_string o a "act_space" (VSpace b)
| doc_obs_space_shape : for_string = true -> documented for_string o a "obs_space" (VShape (b_shape o))
| doc_act_space_shape : for_string = true -> documented for_string o a "act_space" (VShape (act_shape a)).
(* a name which should be given: the user's value if there is one, otherwise the documented constant *)
Definition given (for_string : bool) (o : box) (a : act_space) (constants : bool) (args : dict value) (k : string) (v : value) : Prop :=
  In (k, v) args \/ (~ In k (map fst args) /\ constants = true /\ documented for_string o a k v).
(* Python's rule for a call with these keywords *)
Definition callable_with (s : signature) (keys : string -> Prop) : Prop :=
  (forall k, keys k -> s_var_keyword s = true \/ exists p, In p (s_params s) /\ p_name p = k /\ p_kind p <> PositionalOnly) /\
  (forall p, In p (s_params s) -> p_default p = true \/ (p_kind p <> PositionalOnly /\ keys (p_name p))).

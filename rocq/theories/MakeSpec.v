(* What a request to make a tensor asks for. *)
From Verif Require Import Prelude MakeModel.

Inductive wants_shape (p : parent) (r : request) : list nat -> Prop :=
  | by_ints l : sizes r = map SInt l -> l <> [] -> num_solutions r = None -> wants_shape p r l
  | by_tuple l : sizes r = [STuple l] -> num_solutions r = None -> wants_shape p r l
  | by_solutions n m : sizes r = [] -> num_solutions r = Some n -> p_length p = Some (Some m) -> wants_shape p r [n; m]
  | by_variable_solutions n : sizes r = [] -> num_solutions r = Some n -> p_length p = Some None -> wants_shape p r [n].
(* the dtype in the request, or else the evaluation dtype if that is asked for, or else the dtype of the parent *)
Inductive wants_dtype (p : parent) (r : request) : dt -> Prop :=
  | by_dtype x : dtype r = Some x -> use_eval_dtype r = false -> wants_dtype p r x
  | by_eval x : dtype r = None -> use_eval_dtype r = true -> p_eval_dtype p = Some x -> wants_dtype p r x
  | by_default : dtype r = None -> use_eval_dtype r = false -> wants_dtype p r (p_dtype p).
Definition wants_device (p : parent) (r : request) : nat := match device r with Some v => v | None => p_device p end.
(* the generator in the request, or else the one of the parent, or else (None) the global one *)
Definition wants_generator (p : parent) (r : request) (g : option nat) : Prop :=
  (exists x, generator r = Some x /\ g = Some x) \/ (generator r = None /\ (p_generator p = Some g \/ (p_generator p = None /\ g = None))).
Inductive numeric : dt -> nat -> Prop := numeric_torch d : numeric (DTorch d) d | numeric_name d : numeric (DName d) d.
(* all methods *)
Inductive method := Empty | Fill (k : fill) | Random | Randint.
Definition call (m : method) (p : parent) (r : request) : result made :=
  match m with Empty => p_make_empty p r | Fill k => p_make_fill k p r | Random => p_make_random p r | Randint => p_make_randint p r end.

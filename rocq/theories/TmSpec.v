(* What a caller of a tensor maker asks for. *)
From Verif Require Import Prelude TmModel.

(* the dtype d, as it is or by name *)
Definition means (d : tdtype) (x : dt) : Prop := x = Torch d \/ x = Name d.
(* the shape asked for: integers, a tuple, or a number of solutions *)
Inductive asks_shape (o : owner) (c : call) : list nat -> Prop :=
| by_ints s : c_num c = None -> s <> [] -> c_size c = map SInt s -> asks_shape o c s
| by_tuple s : c_num c = None -> c_size c = [STup s] -> asks_shape o c s
| by_number n L : c_num c = Some n -> c_size c = [] -> o_len o = Some (Some L) -> asks_shape o c [n; L]
| by_number_objects n : c_num c = Some n -> c_size c = [] -> o_len o = Some None -> asks_shape o c [n].
(* the dtype asked for *)
Inductive asks_dtype (o : owner) (c : call) : dt -> Prop :=
| by_dtype d : c_dtype c = Some d -> c_eval c = false -> asks_dtype o c d
| by_owner : c_dtype c = None -> c_eval c = false -> asks_dtype o c (o_dtype o)
| by_eval d : c_dtype c = None -> c_eval c = true -> o_eval o = Some d -> asks_dtype o c d.
Definition asks_device (o : owner) (c : call) (v : nat) : Prop :=
  v = match c_dev c with Some v => v | None => o_dev o end.
(* the generator to be used: the one given, else the one of the owner, else the global one *)
Inductive asks_generator (o : owner) : option garg -> option nat -> Prop :=
| given g : asks_generator o (Some (Gen g)) (Some g)
| given_having g : asks_generator o (Some (Having g)) g
| owners g : o_gen o = Some g -> asks_generator o None g
| global : o_gen o = None -> asks_generator o None None.
(* the constant of a maker *)
Definition constant (k : kind) : cell := match k with Zeros => Num 0 | Ones => Num 1 | Nans => NaNc end.
(* every element of the tensor is the given one *)
Definition constantly (t : tensor) (x : cell) : Prop :=
  length (t_cells t) = numel (t_shape t) /\ Forall (fun c => c = x) (t_cells t).
(* element (i, j) of a matrix with n columns *)
Definition at_ (t : tensor) (n i j : nat) : option cell := nth_error (t_cells t) (i * n + j).
(* dtypes which can hold NaN, and integer dtypes *)
Definition floats (d : tdtype) : Prop := d = F16 \/ d = F32 \/ d = F64.
Definition integers (d : tdtype) : Prop := ~ floats d /\ d <> Bo.

(* What the arguments of PyCMAES mean for pycma. *)
From Coq Require Import QArith String.
From Verif Require Import Prelude FloatLib PyModel.
Close Scope Q_scope.
Open Scope nat_scope.
Open Scope string_scope.

(* the option that an argument stands for (pycma's documentation and the comments of the signature, pycmaes.py:63-72) *)
Inductive wants (a : args) : string -> val -> Prop :=
| w_popsize z : popsize a = Some z -> wants a "popsize" (VInt z)
| w_cmean q : center_learning_rate a = Some q -> wants a "CMA_cmean" (VNum q)
| w_on q : cov_learning_rate a = Some q -> wants a "CMA_on" (VNum q)
| w_rankmu q : rankmu_learning_rate a = Some q -> wants a "CMA_rankmu" (VNum q)
| w_rankone q : rankone_learning_rate a = Some q -> wants a "CMA_rankone" (VNum q)
| w_minstd q : stdev_min a = Some (Scal q) -> wants a "minstd" (VNum q)
| w_minstds l : stdev_min a = Some (Vect l) -> wants a "minstd" (VVec l)
| w_maxstd q : stdev_max a = Some (Scal q) -> wants a "maxstd" (VNum q)
| w_maxstds l : stdev_max a = Some (Vect l) -> wants a "maxstd" (VVec l)
| w_diagonal : separable a = true -> wants a "CMA_diagonal" (VBool true).

(* a vector of n bounds which expresses the bound x of a problem (None: unbounded, expressed by infinity) *)
Definition expresses (n : nat) (infinity : bound) (x : option scalar_or_vector) (l : list bound) : Prop :=
  length l = n /\
  match x with
  | None => Forall (fun b => b = infinity) l
  | Some (Scal q) => Forall (fun b => b = BFin q) l
  | Some (Vect v) => l = map BFin v
  end.
Definition proper_bound (n : nat) (x : option scalar_or_vector) : Prop :=
  match x with Some (Vect v) => length v = n | _ => True end.

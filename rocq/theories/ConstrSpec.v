(* What a user expects from constraints, independent of how penalties are computed. *)
From Coq Require Import Reals String.
From Verif Require Import Prelude ConstrModel.
Open Scope R_scope.

Definition satisfied (cmp : string) (lhs rhs : R) : Prop :=
  (cmp = ">="%string /\ lhs >= rhs) \/ (cmp = "<="%string /\ lhs <= rhs) \/ (cmp = "=="%string /\ lhs = rhs).
Definition strictly_satisfied (cmp : string) (lhs rhs : R) : Prop :=
  (cmp = ">="%string /\ lhs > rhs) \/ (cmp = "<="%string /\ lhs < rhs).
Definition comparison (cmp : string) : Prop := In cmp [">="; "<="; "=="]%string.
Definition inequality (cmp : string) : Prop := In cmp [">="; "<="]%string.

(* v is the least change of the left-hand side which satisfies the constraint *)
Definition least_repair (cmp : string) (lhs rhs v : R) : Prop :=
  (exists d, Rabs d = v /\ satisfied cmp (lhs + d) rhs) /\
  (forall d, satisfied cmp (lhs + d) rhs -> v <= Rabs d).

(* order of extended reals *)
Definition ele (x y : er) : Prop :=
  match x, y with NInf, _ => True | _, PInf => True | Fin a, Fin b => a <= b | _, _ => False end.
Definition elt (x y : er) : Prop := ele x y /\ x <> y.

(* Weights of a meaningful penalty: nothing negative, a positive exponent and cap, and at least one part in use *)
Definition weights_ok (linear step : R) (exp : option R) (exp_inf : er) : Prop :=
  0 <= linear /\ 0 <= step /\ (forall e, exp = Some e -> 0 < e) /\ elt (Fin 0) exp_inf /\
  (0 < linear \/ 0 < step \/ exp <> None).
(* x is at most as good as y, when a penalty of the given sign is added to a fitness: "-" for maximization *)
Definition not_better (sign : string) (x y : er) : Prop := if String.eqb sign "+" then ele y x else ele x y.
Definition worse (sign : string) (x y : er) : Prop := not_better sign x y /\ x <> y.
Definition known_sign (sign : string) : Prop := sign = "+"%string \/ sign = "-"%string.
(* distance from the boundary on the feasible side *)
Definition slack (cmp : string) (lhs rhs : R) : R := if String.eqb cmp ">=" then lhs - rhs else rhs - lhs.

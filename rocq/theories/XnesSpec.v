(* Vocabulary for the properties of the search distribution of XNES. *)
From Coq Require Import Reals String.
From Verif Require Import Prelude MatLib XnesModel.
Open Scope R_scope.

(* the stored inverse is the inverse *)
Definition consistent (n : nat) (D : dist) : Prop :=
  meq n (mmul n (A D) (A_inv D)) mid /\ meq n (mmul n (A_inv D) (A D)) mid.

(* torch.matrix_exp: exp(-M) is the inverse of exp(M) *)
Definition exponential (n : nat) (mexp : mat -> mat) : Prop :=
  forall M M' : mat, (forall i j, M' i j = - M i j) -> meq n (mmul n (mexp M) (mexp M')) mid.

(* Any history of updates *)
Inductive reachable (n : nat) (mexp : mat -> mat) (D : dist) : dist -> Prop :=
| reach_here : reachable n mexp D D
| reach_step : forall D1 D2 av am d M lr opts lr', reachable n mexp D D1 ->
    update n mexp av am D1 d M lr opts = Ok (D2, lr') -> reachable n mexp D D2.

(* A finite sample z_k with weights p_k whose second moment is the identity: what N(0, I) has in expectation *)
Definition moment (p : list R) (zs : list vect) : mat :=
  fun i j => fold_right Rplus 0 (map2 (fun a z => a * (z i * z j)) p zs).
Definition standard (n : nat) (p : list R) (zs : list vect) : Prop := length p = length zs /\ meq n (moment p zs) mid.

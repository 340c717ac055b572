(* When the assertions of testing.py should pass. *)
From Coq Require Import QArith Qabs.
From Verif Require Import Prelude ExtQ TestModel.
Close Scope Q_scope.
Open Scope nat_scope.

Definition index (shape ix : list nat) : Prop := Forall2 (fun i n => i < n) ix shape.
Definition shape_ (x : arg) : list nat := match x with Array a => a_shape a | Nested s _ => s end.
Definition at_ (x : arg) : list nat -> xq := match x with Array a => a_at a | Nested _ f => f end.
Definition floating (x : arg) : Prop := match x with Array a => exists n, a_dtype a = Float n | Nested _ _ => True end.

Inductive close (rtol atol : Q) (equal_nan : bool) : xq -> xq -> Prop :=
| close_finite p q : (Qabs (p - q) <= atol + rtol * Qabs q)%Q -> close rtol atol equal_nan (XF p) (XF q)
| close_pinf : close rtol atol equal_nan XPI XPI
| close_ninf : close rtol atol equal_nan XNI XNI
| close_nan : equal_nan = true -> close rtol atol equal_nan XNaN XNaN.
Definition or0 (x : option Q) : Q := match x with Some q => q | None => 0%Q end.
(* equal shapes, or a number which is compared with all elements *)
Definition all_close (rtol atol : Q) (equal_nan : bool) (a d : arg) : Prop :=
  (shape_ a = shape_ d /\ forall ix, index (shape_ a) ix -> close rtol atol equal_nan (at_ a ix) (at_ d ix)) \/
  (shape_ a = [] /\ forall ix, index (shape_ d) ix -> close rtol atol equal_nan (at_ a []) (at_ d ix)) \/
  (shape_ d = [] /\ forall ix, index (shape_ a) ix -> close rtol atol equal_nan (at_ a ix) (at_ d [])).

(* broadcasting, from the last dimension to the first: the index in the source which belongs to an index in the target *)
Inductive aligned : list nat -> list nat -> list nat -> Prop :=
| aligned_nil ix : aligned [] ix []
| aligned_one s i ix j : aligned s ix j -> aligned (1 :: s) (i :: ix) (0 :: j)
| aligned_same d s i ix j : d <> 1 -> aligned s ix j -> aligned (d :: s) (i :: ix) (i :: j).
Inductive stretches : list nat -> list nat -> Prop :=
| stretches_nil t : stretches [] t
| stretches_one s n t : stretches s t -> stretches (1 :: s) (n :: t)
| stretches_same n s t : stretches s t -> stretches (n :: s) (n :: t).
Definition broadcastable (src shape : list nat) : Prop := stretches (rev src) (rev shape).
(* the element of b which is compared with the element ix *)
Definition element (b : arg) (ix : list nat) (v : xq) : Prop :=
  exists j, aligned (rev (shape_ b)) (rev ix) j /\ v = at_ b (rev j).
Definition within (atol : option Q) (l u x : xq) : Prop :=
  xle (match atol with Some t => xsub l (XF t) | None => l end) x /\ xle x (match atol with Some t => xadd u (XF t) | None => u end).

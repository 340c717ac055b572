(* What users expect of fitness rankings. *)
From Coq Require Import QArith Reals.
From Verif Require Import Prelude FloatLib BatchSpec.
Close Scope Q_scope.
Open Scope nat_scope.

Definition no_nan (x : list fl) : Prop := Forall (fun v => is_nan v = false) x.
Definition tie_free (x : list fl) : Prop :=
  forall i j, i < length x -> j < length x -> i <> j -> lt_fl (at_ x i) (at_ x j) \/ lt_fl (at_ x j) (at_ x i).
Definition same_order (x y : list fl) : Prop :=
  length x = length y /\ forall i j, i < length x -> j < length x -> (lt_fl (at_ x i) (at_ x j) <-> lt_fl (at_ y i) (at_ y j)).
Definition opposite_order (x y : list fl) : Prop :=
  length x = length y /\ forall i j, i < length x -> j < length x -> (lt_fl (at_ x i) (at_ x j) <-> lt_fl (at_ y j) (at_ y i)).
Definition increasing (g : fl -> fl) : Prop := forall a b, lt_fl a b <-> lt_fl (g a) (g b).

(* utilities that may be NaN (None) *)
Definition olt (a b : option Q) : Prop := match a, b with Some p, Some q => (p < q)%Q | _, _ => False end.
Definition oval (a : option Q) : Q := match a with Some q => q | None => 0%Q end.
Definition osum (l : list (option Q)) : Q := fold_right (fun a s => oval a + s)%Q 0%Q l.
Definition finite {A} (u : list (option A)) : Prop := forall a, In a u -> a <> None.

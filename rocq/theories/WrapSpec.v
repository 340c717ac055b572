(* What an environment does, whichever way it reports it. *)
From Coq Require Import QArith Qabs.
From Verif Require Import Prelude.
Open Scope Q_scope.

(* an environment proper: observations, rewards, whether each sub-environment has terminated or was truncated, and infos *)
Record core (S O Rw I A : Type) := {
  start : S -> S * (O * I);
  move : S -> A -> S * (O * Rw * list bool * list bool * I) }.
Arguments start {S O Rw I A}.
Arguments move {S O Rw I A}.

Definition either (a b : list bool) : list bool := map (fun p => (fst p || snd p)%bool) (combine a b).

(* a is a position of the largest element of l *)
Definition maximal (l : list Q) (a : nat) : Prop :=
  exists x, nth_error l a = Some x /\ forall i y, nth_error l i = Some y -> y <= x.
(* x lies between the bounds; None: no bound *)
Definition within (b : option Q * option Q) (x : Q) : Prop :=
  match fst b with None => True | Some l => l <= x end /\ match snd b with None => True | Some u => x <= u end.
Definition sensible (b : option Q * option Q) : Prop := match b with (Some l, Some u) => l <= u | _ => True end.

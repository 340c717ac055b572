(* What making and joining batches should mean. *)
From Coq Require Import QArith.
From Verif Require Import Prelude FloatLib RandModel NewModel.
Close Scope Q_scope.
Open Scope nat_scope.

Section S.
Context {O : Type}.
(* a batch whose tensors have the shapes they declare *)
Definition shaped (b : sbatch O) : Prop :=
  match s_vals b with Num L rs => Forall (fun r : row => length r = L) rs | Objs _ => True end /\
  length (s_ev b) = vlen (s_vals b) /\ Forall (fun r => length r = s_width b) (s_ev b).
(* no evaluation has been stored *)
Definition unevaluated (b : sbatch O) : Prop := Forall (Forall (fun x => x = NaN)) (s_ev b).
(* solution k of a batch: its decision values and its evaluations *)
Definition nth_values (d : values O) (k : nat) : option (row + O) :=
  match d with Num _ rs => option_map inl (nth_error rs k) | Objs xs => option_map inr (nth_error xs k) end.
Definition solution_at (b : sbatch O) (k : nat) : option ((row + O) * list fl) :=
  match nth_values (s_vals b) k, nth_error (s_ev b) k with Some v, Some e => Some (v, e) | _, _ => None end.
Definition solutions (b : sbatch O) : list ((row + O) * list fl) :=
  combine (match s_vals b with Num _ rs => map inl rs | Objs xs => map inr xs end) (s_ev b).
(* same kind of decision values and same number of evaluation columns *)
Definition compatible (a b : sbatch O) : Prop :=
  s_width a = s_width b /\
  match s_vals a, s_vals b with Num L _, Num L' _ => L = L' | Objs _, Objs _ => True | _, _ => False end.
End S.

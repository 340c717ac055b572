(* What a batch of searches is: at each place of the batch, a search of its own. *)
From Verif Require Import Prelude NdimModel NdimSpec.

Section SPEC.
Context {A Sc Obj : Type}.
Notation arg := (arg A Sc Obj).
(* a value of declared number of dimensions e belongs to a batch of shape B: what it has of batch dimensions are the last ones of B *)
Definition in_batch (B : list nat) (e : option nat) (a : arg) : Prop :=
  match e, a with
  | Some n, ATensor t => n <= length (shape t) /\ length (shape t) - n <= length B /\ firstn (length (shape t) - n) (shape t) = lastn (length (shape t) - n) B
  | None, ATensor _ => False
  | None, _ => True
  | Some _, _ => False
  end.
(* what the search at place bi of the batch sees of a value *)
Definition lane (bi : list nat) (e : option nat) (a : arg) : arg := item bi (extra e a) a.
(* two arguments which differ at most in the values in the tensors *)
Definition alike (a b : arg) : Prop :=
  match a, b with ATensor s, ATensor t => shape s = shape t /\ dtype s = dtype t /\ device s = device t | ATensor _, _ | _, ATensor _ => False | _, _ => a = b end.
(* a function of tensors for which shape, dtype and device of the result, and whether and what it raises, do not depend on the values; n is the number of dimensions of its result *)
Definition regular (n : nat) (f : list arg -> result (tensor A)) : Prop :=
  forall xs ys, Forall2 alike xs ys ->
    match f xs, f ys with
    | Ok r, Ok s => length (shape r) = n /\ shape s = shape r /\ dtype s = dtype r /\ device s = device r
    | Err e, Err e' => e = e'
    | _, _ => False
    end.
End SPEC.

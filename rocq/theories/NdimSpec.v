(* What expects_ndim should do: extra leftmost dimensions are batch dimensions, aligned at the right. *)
From Verif Require Import Prelude NdimModel.

Section SPEC.
Context {A Sc Obj : Type}.
Notation arg := (arg A Sc Obj).
Definition lastn {X} (k : nat) (l : list X) : list X := skipn (length l - k) l.
(* the number of batch dimensions of an argument *)
Definition extra (e : option nat) (a : arg) : nat := match e, a with Some n, ATensor t => length (shape t) - n | _, _ => 0 end.
(* the item of an argument with k batch dimensions at the place bi of the batch *)
Definition item (bi : list nat) (k : nat) (a : arg) : arg :=
  match a with ATensor t => ATensor (T (skipn k (shape t)) (fun ix => at_ t (lastn k bi ++ ix)) (dtype t) (device t)) | _ => a end.
(* B is the shape of the batch: as long as the longest batch of an argument, and the batch shape of each argument is a suffix of it *)
Definition batch_shape (xs : list nat) (args : list arg) (B : list nat) : Prop :=
  length B = list_max xs /\
  Forall2 (fun x a => match a with ATensor t => firstn x (shape t) = lastn x B | _ => True end) xs args.
Definition inside (bi B : list nat) : Prop := Forall2 (fun i n => i < n) bi B.
(* an argument which is a tensor, an array, or has no declared number of dimensions, and what the function gets *)
Inductive taken : option nat -> arg -> arg -> Prop :=
  | taken_any a : taken None a a
  | taken_tensor n t : taken (Some n) (ATensor t) (ATensor t)
  | taken_numpy n t : taken (Some n) (ANumpy t) (ATensor t).
Definition enough (e : option nat) (a : arg) : Prop := match e, a with Some n, ATensor t => n <= length (shape t) | _, _ => True end.
End SPEC.

(* Equality of spaces, batches of a space, and the combination of dictionaries. *)
From Verif Require Import Prelude SpaceModel.

(* an index of an array with the given shape *)
Definition index (shape ix : list nat) : Prop := Forall2 (fun i n => i < n) ix shape.
Section S.
  Context {V : Type}.
  Inductive same : space V -> space V -> Prop :=
    | same_box sh l h l' h' dt : (forall ix, index sh ix -> l ix = l' ix /\ h ix = h' ix) -> same (Box sh l h dt) (Box sh l' h' dt)
    | same_discrete n s : same (Discrete n s) (Discrete n s)
    | same_multi sh v : same (MultiDiscrete sh v) (MultiDiscrete sh v).
  (* b consists of k copies of s *)
  Inductive copies (k : nat) : space V -> space V -> Prop :=
    | copies_box sh l h l' h' dt : (forall j ix, j < k -> index sh ix -> l' (j :: ix) = l ix /\ h' (j :: ix) = h ix) -> copies k (Box sh l h dt) (Box (k :: sh) l' h' dt)
    | copies_discrete n v : length v = k -> Forall (eq n) v -> copies k (Discrete n 0) (MultiDiscrete [k] v).
End S.

(* one key: the values in the order of the dictionaries, None where it is missing *)
Definition column (k : nat) (infos : list dict) : list (option value) := map (lookup k) infos.
(* all dictionaries have a numeric value of the same shape *)
Definition uniform (k : nat) (infos : list dict) : Prop := exists sh, Forall (fun d => exists id, lookup k d = Some (Num sh id)) infos.
Definition occurs (k : nat) (infos : list dict) : Prop := exists d v, In d infos /\ lookup k d = Some v.

(* Model of CMemory addressing with two batch dimensions (B1, B2).

   Simplification: the memory is unmasked, verify has passed, key_offset is 0 and all keys are
   in range; a memory is a function from (b1, b2, key). *)
From Verif Require Import Prelude.

(* numpy/torch broadcasting of two sizes *)
Definition bc (a b : nat) : option nat :=
  if Nat.eqb a b then Some a else if Nat.eqb a 1 then Some b else if Nat.eqb b 1 then Some a else None.

(* position of column j in a dimension of size b that was broadcast *)
Definition bcidx (b j : nat) : nat := if Nat.eqb b 1 then 0 else j.

Section MultiBatch.
Context {V : Type}.
Variables B1 B2 : nat.

Definition mem2 := nat -> nat -> nat -> V.

(* structures.py:419-424 and 532-540: the address is (arange(B1), arange(B2), keys), i.e. index
   tensors of shapes (B1,), (B2,), (B1, B2).  torch broadcasts them to (B1, cols); the two
   aranges are aligned with the LAST dimension. *)
Definition mb_cols : option nat :=
  match bc B1 B2 with Some c => bc c B2 | None => None end.

(* the cells addressed, as a B1 x cols matrix; a B1 x 1 key matrix is broadcast over the columns *)
Definition mb_cell (keys : nat -> nat -> nat) (i j : nat) : nat * nat * nat :=
  (bcidx B1 j, bcidx B2 j, keys i (bcidx B2 j)).

(* structures.py:542-553 get *)
Definition mb_get (m : mem2) (keys : nat -> nat -> nat) : result (list (list V)) :=
  match mb_cols with
  | None => Err IndexError
  | Some c => Ok (map (fun i => map (fun j => let '(a, b, k) := mb_cell keys i j in m a b k) (seq 0 c)) (seq 0 B1))
  end.

Definition put (m : mem2) (p : nat * nat * nat) (v : V) : mem2 :=
  fun a b k => let '(a', b', k') := p in
    if Nat.eqb a a' && Nat.eqb b b' && Nat.eqb k k' then v else m a b k.

(* structures.py:555-572 set_ without mask: `self._data[address] = value` with value of shape
   (B1, B2); when cells repeat torch does not say which write wins, so the order of the writes
   is an argument. *)
Definition mb_set (order : list (nat * nat)) (m : mem2) (keys : nat -> nat -> nat) (value : nat -> nat -> V)
  : result mem2 :=
  match mb_cols with
  | None => Err IndexError
  | Some c => Ok (fold_left (fun m ij => put m (mb_cell keys (fst ij) (snd ij)) (value (fst ij) (bcidx B2 (snd ij)))) order m)
  end.
End MultiBatch.

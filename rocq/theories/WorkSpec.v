(* Specifications for work splitting and averaging. *)
From Coq Require Import QArith.
From Verif Require Import Prelude.
Close Scope Q_scope.
Open Scope nat_scope.

(* The slices are contiguous, in order, and cover exactly [from, upto). *)
Fixpoint chain (from upto : nat) (sl : list (nat * nat)) : Prop :=
  match sl with
  | [] => from = upto
  | (a, b) :: t => a = from /\ a <= b /\ chain b upto t
  end.

Definition qsum (l : list Q) : Q := fold_right Qplus 0%Q l.
Definition qmean (l : list Q) : Q := Qdiv (qsum l) (inject_Z (Z.of_nat (length l))).

(* Component c of the gradient for key a. *)
Definition comp (a c : nat) (g : list (list Q)) : Q := nth c (nth a g []) 0%Q.

(* n parts summing to w, earlier parts equal to or one larger than later ones. *)
Definition even_split (w n : nat) (l : list nat) : Prop :=
  length l = n /\ list_sum l = w /\
  forall i j x y, i <= j -> nth_error l i = Some x -> nth_error l j = Some y -> y <= x <= y + 1.

(* How many pieces of at most m rows are needed for n rows. *)
Definition pieces_needed (n m : nat) : nat := n / m + (if Nat.eqb (n mod m) 0 then 0 else 1).

(* Number of pieces a batch of n rows is split into. *)
Definition num_pieces (num_subbatches subbatch_size : option nat) (num_actors n : nat) : nat :=
  match num_subbatches, subbatch_size with
  | Some k, _ => k
  | None, Some m => pieces_needed n m
  | None, None => num_actors
  end.

(* nkeys gradient vectors of length L. *)
Definition grads_shaped (nkeys L : nat) (g : list (list Q)) : Prop :=
  length g = nkeys /\ Forall (fun v => length v = L) g.

(* The stopping condition of adaptive sampling after k batches. *)
Definition stops (popsize : nat) (popsize_max : option nat) (num_interactions : Z) (made : nat -> Z) (k : nat) : Prop :=
  (exists m, popsize_max = Some m /\ m <= k * popsize) \/ (num_interactions < made k)%Z.

(* Shared imports, the exception monad and small list helpers used by all models. *)
From Coq Require Export List Arith ZArith Lia Bool Permutation ZifyBool ZifyNat.
Export ListNotations.
Ltac Zify.zify_post_hook ::= Z.div_mod_to_equations.

(* Python exception classes that the modelled code can raise. *)
Inductive exn :=
| IndexError | KeyError | ValueError | TypeError | RuntimeError
| AttributeError | AssertionError | NotImplementedError | ZeroDivisionError
| StopIteration | NetParsingError | OutOfFuel.

Inductive result (A : Type) := Ok (a : A) | Err (e : exn).
Arguments Ok {A} a.
Arguments Err {A} e.

Definition bind {A B} (r : result A) (f : A -> result B) : result B :=
  match r with Ok a => f a | Err e => Err e end.
Definition rmap {A B} (f : A -> B) (r : result A) : result B :=
  match r with Ok a => Ok (f a) | Err e => Err e end.
Definition is_ok {A} (r : result A) : bool := match r with Ok _ => true | Err _ => false end.

(* Pointwise combination of two / three lists (elementwise tensor operations). *)
Fixpoint map2 {A B C} (f : A -> B -> C) (xs : list A) (ys : list B) : list C :=
  match xs, ys with x :: xs', y :: ys' => f x y :: map2 f xs' ys' | _, _ => [] end.
Fixpoint map3 {A B C D} (f : A -> B -> C -> D) (xs : list A) (ys : list B) (zs : list C) : list D :=
  match xs, ys, zs with
  | x :: xs', y :: ys', z :: zs' => f x y z :: map3 f xs' ys' zs' | _, _, _ => [] end.

(* Collect a list of results, failing with the first error. *)
Fixpoint sequence {A} (l : list (result A)) : result (list A) :=
  match l with
  | [] => Ok []
  | Ok a :: t => match sequence t with Ok r => Ok (a :: r) | Err e => Err e end
  | Err e :: _ => Err e
  end.

(* List update at a position (no effect when out of range). *)
Fixpoint upd {A} (l : list A) (i : nat) (x : A) : list A :=
  match l, i with
  | [], _ => []
  | _ :: t, O => x :: t
  | h :: t, S j => h :: upd t j x
  end.

Lemma map2_length {A B C} (f : A -> B -> C) xs ys :
  length (map2 f xs ys) = Nat.min (length xs) (length ys).
Proof. revert ys; induction xs as [|x xs IH]; intros [|y ys]; simpl; auto. Qed.

Lemma map3_length {A B C D} (f : A -> B -> C -> D) xs ys zs :
  length (map3 f xs ys zs) = Nat.min (length xs) (Nat.min (length ys) (length zs)).
Proof. revert ys zs; induction xs as [|x xs IH]; intros [|y ys] [|z zs]; simpl; auto. Qed.

Lemma map2_nth_error {A B C} (f : A -> B -> C) xs ys i :
  nth_error (map2 f xs ys) i =
  match nth_error xs i, nth_error ys i with Some x, Some y => Some (f x y) | _, _ => None end.
Proof.
  revert ys i; induction xs as [|x xs IH]; intros [|y ys] [|i]; simpl; auto.
  destruct (nth_error xs i); reflexivity.
Qed.

Lemma upd_length {A} (l : list A) i x : length (upd l i x) = length l.
Proof. revert i; induction l as [|h t IH]; intros [|i]; simpl; auto. Qed.

Lemma upd_same {A} (l : list A) i x : i < length l -> nth_error (upd l i x) i = Some x.
Proof. revert i; induction l as [|h t IH]; intros [|i] Hi; simpl in *; try lia; auto. apply IH; lia. Qed.

Lemma upd_other {A} (l : list A) i j x : i <> j -> nth_error (upd l i x) j = nth_error l j.
Proof. revert i j; induction l as [|h t IH]; intros [|i] [|j] Hij; simpl; auto; try congruence. Qed.

Lemma nth_error_upd {A} (l : list A) i j x :
  nth_error (upd l i x) j = if Nat.eqb i j then (if Nat.ltb i (length l) then Some x else None) else nth_error l j.
Proof.
  destruct (Nat.eqb_spec i j) as [->|Hn].
  - destruct (Nat.ltb_spec j (length l)).
    + apply upd_same; auto.
    + apply nth_error_None; rewrite upd_length; auto.
  - apply upd_other; auto.
Qed.

Lemma nth_error_ext {A} (l l' : list A) :
  (forall i, nth_error l i = nth_error l' i) -> l = l'.
Proof.
  revert l'; induction l as [|h t IH]; intros [|h' t'] H; auto.
  - specialize (H 0); discriminate.
  - specialize (H 0); discriminate.
  - f_equal.
    + specialize (H 0); simpl in H; congruence.
    + apply IH; intro i; apply (H (S i)).
Qed.

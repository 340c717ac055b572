(* Counting characters and brackets of texts; chains of nested containers. *)
From Coq Require Import Ascii String.
From Verif Require Import Prelude PrnModel.
Open Scope string_scope.
Open Scope list_scope.

Fixpoint occurrences (c : ascii) (s : string) : nat :=
  match s with EmptyString => 0 | String a r => (if Ascii.eqb a c then 1 else 0) + occurrences c r end.
(* reading from left to right: how many brackets "(" are open at the end, and at most *)
Fixpoint open_brackets (now : Z) (s : string) : Z :=
  match s with
  | EmptyString => now
  | String a r => open_brackets (if Ascii.eqb a "("%char then now + 1 else if Ascii.eqb a ")"%char then now - 1 else now)%Z r
  end.
Fixpoint most_open (now : Z) (s : string) : Z :=
  match s with
  | EmptyString => now
  | String a r => Z.max now (most_open (if Ascii.eqb a "("%char then now + 1 else if Ascii.eqb a ")"%char then now - 1 else now)%Z r)
  end.
Section SPEC.
Variable heap : nat -> node.
(* what a container holds, None: not a container *)
Definition contents (x : nat) : option (list nat) :=
  match heap x with Leaf _ => None | Seq _ l => Some l | Map _ l => Some (flat_map (fun kv => [fst kv; snd kv]) l) end.
(* x is a container, some item of it is one, some item of that ... (n containers) *)
Inductive nested : nat -> nat -> Prop :=
| nested_one x l : contents x = Some l -> nested 1 x
| nested_more n x l y : contents x = Some l -> In y l -> nested n y -> nested (S n) x.
(* in how many ways n steps from a container to a container in it can be made *)
Fixpoint ways (n : nat) (x : nat) : nat :=
  match contents x with
  | None => 0
  | Some l => match n with O => 1 | S m => fold_right (fun y a => ways m y + a)%nat 0%nat l end
  end.
(* names of classes and the texts of other objects do not contain the character *)
Definition without (c : ascii) : Prop :=
  forall x, match heap x with Leaf s => occurrences c s = 0 | Seq cls _ => occurrences c cls = 0 | Map cls _ => occurrences c cls = 0 end.
(* the containers form trees: the objects are numbered below n, no object is an item twice, and x is not an item *)
Definition items_of (x : nat) : list nat := match contents x with Some l => l | None => [] end.
Definition tree_shaped (n x : nat) : Prop :=
  x < n /\ (forall y, In y (flat_map items_of (seq 0 n)) -> y < n /\ y <> x) /\ NoDup (flat_map items_of (seq 0 n)).
(* names of classes and texts of other objects have at most c characters *)
Definition texts_below (c : nat) : Prop :=
  forall x, match heap x with Leaf s => String.length s <= c | Seq cls _ => String.length cls <= c | Map cls _ => String.length cls <= c end.
End SPEC.

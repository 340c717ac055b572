(* What a user relies on from ClipUp. *)
From Coq Require Import Reals String.
From Verif Require Import Prelude ClipUpModel.
Open Scope R_scope.

(* A gradient with at least one non-zero component, of the right length *)
Definition gradient (n : nat) (g : list R) : Prop := length g = n /\ exists a, In a g /\ a <> 0.
(* The Euclidean length of x is at most m *)
Definition at_most_long (x : list R) (m : R) : Prop := 0 <= m /\ fold_right (fun a acc => a * a + acc) 0 x <= m * m.
(* Parallel, same direction: y = k x with k > 0 *)
Definition same_direction (x y : list R) : Prop := exists k, 0 < k /\ y = map (fun a => k * a) x.

(* What can be done to an optimizer *)
Inductive op := Ascent (g : list R) | SetParam (key : string) (value : R).
Definition apply_op (c : clipup) (o : op) : result clipup :=
  match o with
  | Ascent g => rmap fst (ascent c g)
  | SetParam k v => group_set c k v
  end.
Fixpoint apply_ops (c : clipup) (l : list op) : result clipup :=
  match l with [] => Ok c | o :: t => bind (apply_op c o) (fun c => apply_ops c t) end.
Definition tells (s : fclipup) (l : list (list R)) : fclipup := fold_left fclipup_tell l s.

(* hyperparameters allowed by the documentation *)
Definition legal (key : string) (value : R) : Prop :=
  (key = "lr"%string /\ 0 <= value) \/ (key = "max_speed"%string /\ 0 <= value) \/
  (key = "momentum"%string /\ 0 <= value <= 1).
Definition legal_op (n : nat) (o : op) : Prop :=
  match o with Ascent g => gradient n g | SetParam k v => legal k v end.

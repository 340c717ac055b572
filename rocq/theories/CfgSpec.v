(* Vocabulary for the properties of the configuration of a problem. *)
From Coq Require Import QArith String.
From Verif Require Import Prelude CfgModel.
Close Scope Q_scope.

(* the j-th component of a bound for solutions of length len *)
Definition component (len : nat) (b : bound) (j : nat) : option Q :=
  match b with
  | BScalar q => if Nat.ltb j len then Some q else None
  | BVector v => nth_error v j
  | BHigher => None
  end.
Definition fits (len : nat) (b : bound) : Prop :=
  match b with BScalar _ => True | BVector v => length v = len | BHigher => False end.
(* a given pair of bounds fits *)
Definition fits_pair (len : nat) (b : option (bound * bound)) : Prop :=
  forall lb ub, b = Some (lb, ub) -> fits len lb /\ fits len ub.
(* v is a vector between the bounds *)
Definition between (len : nat) (b : bound * bound) (v : list Q) : Prop :=
  length v = len /\
  forall j x l u, nth_error v j = Some x -> component len (fst b) j = Some l -> component len (snd b) j = Some u -> (l <= x /\ x <= u)%Q.
Definition ordered (len : nat) (b : bound * bound) : Prop :=
  forall j l u, component len (fst b) j = Some l -> component len (snd b) j = Some u -> (l <= u)%Q.
(* the interval a lies in the interval b *)
Definition inside (len : nat) (a b : bound * bound) : Prop :=
  forall j, (forall l l', component len (fst a) j = Some l -> component len (fst b) j = Some l' -> (l' <= l)%Q) /\
            (forall u u', component len (snd a) j = Some u -> component len (snd b) j = Some u' -> (u <= u')%Q).
(* standard uniform draws for n solutions of length len *)
Definition standard (len : nat) (raw : list (list Q)) : Prop :=
  forall row, In row raw -> length row = len /\ forall x, In x row -> (0 <= x /\ x <= 1)%Q.
Definition valid_sense (s : string) : Prop := s = "min"%string \/ s = "max"%string.
(* all the seeds given to an actor *)
Definition seeds_of (x : actor) : list Z := [g_py x; g_np x; g_torch x] ++ match g_problem x with Some p => [p] | None => [] end.

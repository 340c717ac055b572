(* Specification vocabulary for the evolutionary operators. *)
From Coq Require Import QArith Reals.
From Verif Require Import Prelude FloatLib BatchModel BatchSpec OperModel.
Close Scope Q_scope.
Open Scope nat_scope.

(* a generator of integers below n, shaped (rows, cols) *)
Definition uniform_ints (draw : nat -> nat -> nat -> list (list nat)) : Prop :=
  forall r c n, n <> 0 \/ r * c = 0 ->
    length (draw r c n) = r /\ Forall (fun row => length row = c /\ Forall (fun x => x < n) row) (draw r c n).
Definition uniform_int (draw : nat -> nat -> nat) : Prop := forall k n, n <> 0 -> draw k n < n.

(* the parents are what the two lists contain, one after the other *)
Definition are_values {V} (b : batch V) (parents : list nat) (p1 p2 : list V) : Prop :=
  length p1 = length p2 /\ Forall2 (fun i v => nth_error (b_vals b) i = Some v) parents (p1 ++ p2).
(* The k-th parent won the k-th tournament: it was drawn and no drawn candidate is better. *)
Definition won_all {V} (b : batch V) (j : nat) (maximize : bool) (tournaments : list (list nat)) (parents : list nat) : Prop :=
  length parents = length tournaments /\
  forall k row w, nth_error tournaments k = Some row -> nth_error parents k = Some w ->
    In w row /\
    forall c rc rw, In c row -> nth_error (rows b) c = Some rc -> nth_error (rows b) w = Some rw ->
      ~ better maximize (score j rc) (score j rw).
(* the objective which the tournaments are about *)
Definition compares {V} (cx : crossover) (b : batch V) (j : nat) : Prop :=
  cx_obj cx = Some (Z.of_nat j) \/ (cx_obj cx = None /\ num_objs b = 1 /\ j = 0).

(* (c1, c2) are p1 and p2 crossed over at the given cuts: each locus of c1 comes from one of the
   parents and that of c2 from the other; the inherited parent changes exactly at the loci where an odd number
   of cuts fall together; c1 starts with p2 unless an odd number of cuts is at the very beginning *)
Definition crossed {A} (cuts : list nat) (p1 p2 c1 c2 : list A) : Prop :=
  length c1 = length p1 /\ length c2 = length p1 /\
  exists from1 : nat -> bool,
    (forall i, i < length p1 ->
       nth_error c1 i = (if from1 i then nth_error p1 i else nth_error p2 i) /\
       nth_error c2 i = (if from1 i then nth_error p2 i else nth_error p1 i)) /\
    from1 0 = Nat.odd (count_occ Nat.eq_dec cuts 0) /\
    (forall i, from1 (S i) = xorb (from1 i) (Nat.odd (count_occ Nat.eq_dec cuts (S i)))).

(* gene j of row k *)
Definition gene {A} (m : list (list A)) (k j : nat) : option A :=
  match nth_error m k with Some r => nth_error r j | None => None end.
(* matrices of n rows and l columns *)
Definition shaped {A} (n l : nat) (m : list (list A)) : Prop := length m = n /\ Forall (fun r => length r = l) m.
Definition all_genes {A} (P : A -> Prop) (m : list (list A)) : Prop := Forall (Forall P) m.

Local Open Scope R_scope.
(* x respects the optional bounds *)
Definition inside (lb ub : option R) (x : R) : Prop :=
  (forall l, lb = Some l -> l <= x) /\ (forall u, ub = Some u -> x <= u).
Definition consistent_bounds (lb ub : option (list R)) : Prop :=
  forall j l u, bound_at lb j = Some l -> bound_at ub j = Some u -> l <= u.
(* a draw of a uniform generator *)
Definition unit_draw (u : R) : Prop := 0 <= u < 1.
Local Close Scope R_scope.
(* column j of a matrix, and the rows selected by a mask in column j *)
Definition col {A} (m : list (list A)) (j : nat) : list (option A) := map (fun k => gene m k j) (seq 0 (length m)).
Definition selected_rows (mask : list (list bool)) (j : nat) : list nat :=
  filter (fun i => match gene mask i j with Some b => b | None => false end) (seq 0 (length mask)).
Definition key_at (keys : list (list Q)) (i j : nat) : Q := match gene keys i j with Some q => q | None => 0%Q end.

(* Specification vocabulary for multi-objective selection: domination and front numbers. *)
From Coq Require Import QArith Qminmax Sorted.
From Verif Require Import Prelude FloatLib BatchModel BatchSpec ParetoModel.
Close Scope Q_scope.
Open Scope nat_scope.

(* a dominates b: nowhere worse, somewhere better; senses: true = maximize *)
Definition dominates {V} (senses : list bool) (a b : V * list fl) : Prop :=
  (forall k d, nth_error senses k = Some d -> ~ better d (score k b) (score k a)) /\
  (exists k d, nth_error senses k = Some d /\ better d (score k a) (score k b)).

(* ranks are the front numbers of the given rows *)
Definition front_numbers {V} (senses : list bool) (rs : list (V * list fl)) (ranks : list nat) : Prop :=
  length ranks = length rs /\
  (* nobody dominates a member of its own front *)
  (forall i j ri rj, nth_error rs i = Some ri -> nth_error rs j = Some rj ->
     nth_error ranks i = nth_error ranks j -> ~ dominates senses ri rj) /\
  (* the first front is the set of the rows which nobody dominates *)
  (forall i ri, nth_error rs i = Some ri ->
     (nth_error ranks i = Some 0 <-> forall rj, In rj rs -> ~ dominates senses rj ri)) /\
  (* a member of a later front is dominated from the front just before *)
  (forall i k ri, nth_error rs i = Some ri -> nth_error ranks i = Some (S k) ->
     exists j rj, nth_error rs j = Some rj /\ nth_error ranks j = Some k /\ dominates senses rj ri) /\
  (* dominators are in strictly earlier fronts *)
  (forall i j ri rj a b, nth_error rs i = Some ri -> nth_error rs j = Some rj -> dominates senses rj ri ->
     nth_error ranks i = Some a -> nth_error ranks j = Some b -> b < a).

Definition all_no_nan {V} (b : batch V) : Prop := forall k, k < num_objs b -> no_nan k (rows b).
(* a function returning some ordering of the positions of its argument *)
Definition reordering {A} (f : list A -> list nat) : Prop := forall l, Permutation (f l) (seq 0 (length l)).
(* what torch.argsort(..., descending=True) promises on distances *)
Definition dargsort_desc_ok (dsorter : list dist -> list nat) : Prop :=
  forall c, Permutation (dsorter c) (seq 0 (length c)) /\
    StronglySorted (fun i j => dle (nth j c (DFin 0)) (nth i c (DFin 0)) = true) (dsorter c).
(* what torch.argsort promises on a column of finite numbers *)
Definition zargsort_ok (zsorter : list Z -> list nat) : Prop :=
  forall c, Permutation (zsorter c) (seq 0 (length c)) /\
    StronglySorted (fun i j => (nth i c 0 <= nth j c 0)%Z) (zsorter c).

(* In the ordering o of the solutions, i has the neighbours a and c, whose values are g apart. *)
Definition neighbour_gap (o : list nat) (col : nat -> Z) (i : nat) (g : Z) : Prop :=
  exists m a c, nth_error o m = Some a /\ nth_error o (S m) = Some i /\ nth_error o (S (S m)) = Some c /\ g = (col c - col a)%Z.
Definition at_end (o : list nat) (i : nat) : Prop := hd_error o = Some i \/ hd_error (rev o) = Some i.
(* the difference between the largest and the smallest member, as a number at least tol *)
Definition clamped_range (tol : Q) (l : list Z) (r : Q) : Prop :=
  exists hi lo, In hi l /\ In lo l /\ (forall x, In x l -> lo <= x <= hi)%Z /\ (r == Qmax tol (inject_Z (hi - lo)))%Q.

(* the evaluations of a row with the sign such that larger is better *)
Definition uvec {V} (b : batch V) (e : list fl) : list fl :=
  map2 (fun (d : bool) x => if d then x else fneg x) (b_desc b) (firstn (num_objs b) e).

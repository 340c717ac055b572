(* What running statistics should be, in terms of the observations only. *)
From Coq Require Import Reals.
From Verif Require Import Prelude NormModel.
Close Scope R_scope.
Open Scope nat_scope.

(* a list of observations: rows of real numbers *)
Definition obs := list (list R).
Definition column (j : nat) (os : obs) : list R := map (fun r => nth j r 0%R) os.
Definition total (l : list R) : R := fold_right Rplus 0%R l.
Definition avg (l : list R) : R := (total l / INR (length l))%R.
(* population variance, about the mean *)
Definition variance (l : list R) : R := avg (map (fun x => (x - avg l) * (x - avg l))%R l).
Definition spec_mean (d : nat) (os : obs) : list num := map (fun j => Some (avg (column j os))) (seq 0 d).
Definition spec_stdev (d : nat) (minvar : R) (os : obs) : list num :=
  map (fun j => Some (sqrt (Rmax (variance (column j os)) minvar))) (seq 0 d).

(* the rows selected by a mask *)
Definition selected {A} (mask : option (list bool)) (rows : list A) : list A :=
  match mask with
  | None => rows
  | Some m => map snd (filter fst (combine m rows))
  end.
Definition lift (r : list R) : list num := map Some r.

(* The ways to build a RunningNorm: updates by batches and by single observations, merges, resets. *)
Inductive build :=
| BNew
| BOne (b : build) (x : list R)
| BBatch (b : build) (rows : obs) (mask : option (list bool))
| BMerge (b c : build)
| BReset (b : build).
(* the observations that count *)
Fixpoint obs_of (b : build) : obs :=
  match b with
  | BNew => []
  | BOne b x => obs_of b ++ [x]
  | BBatch b rows mask => obs_of b ++ selected mask rows
  | BMerge b c => obs_of b ++ obs_of c
  | BReset b => []
  end.
(* what the library does *)
Fixpoint run_build (d : nat) (minvar : R) (clip : option (R * R)) (b : build) : result norm :=
  match b with
  | BNew => Ok (new_norm d minvar clip)
  | BOne b x => bind (run_build d minvar clip b) (fun s => update s (XOne (lift x)) None)
  | BBatch b rows mask => bind (run_build d minvar clip b) (fun s => update s (XBatch d (map lift rows)) mask)
  | BMerge b c => bind (run_build d minvar clip b) (fun s => bind (run_build d minvar clip c) (fun x => merge s x None))
  | BReset b => rmap reset (run_build d minvar clip b)
  end.
(* calls with the right shapes; the first update of an empty RunningNorm selects something *)
Fixpoint well_formed (d : nat) (b : build) : Prop :=
  match b with
  | BNew => True
  | BOne b x => well_formed d b /\ length x = d
  | BBatch b rows mask =>
      well_formed d b /\ Forall (fun r => length r = d) rows /\ (forall m, mask = Some m -> length m = length rows) /\
      (obs_of b <> [] \/ selected mask rows <> [])
  | BMerge b c => well_formed d b /\ well_formed d c
  | BReset b => well_formed d b
  end.

(* ---- identities of tensors ---- *)
(* What the operations should do to the statistics: compute with the arrays as the caller made them (h0). *)
Definition vstep (h0 : heap) (ns : list norm) (o : hop) : result (list norm) :=
  match o with
  | HOne i x _ =>
      match nth_error ns i with
      | None => Err KeyError
      | Some s => rmap (upd ns i) (update s (XOne (hread h0 x)) None)
      end
  | HBatch i rows mask =>
      match nth_error ns i with
      | None => Err KeyError
      | Some s => rmap (upd ns i) (update s (XBatch (n_dim s) (map (hread h0) rows)) mask)
      end
  | HMerge i j =>
      match nth_error ns i, nth_error ns j with
      | Some s, Some x => rmap (upd ns i) (merge s x None)
      | _, _ => Err KeyError
      end
  end.
Definition vrun (h0 : heap) (ns : list norm) (os : list hop) : list norm :=
  fold_left (fun ns o => match vstep h0 ns o with Ok ns' => ns' | Err _ => ns end) os ns.
(* the operation uses arrays of the caller *)
Definition own_arrays (h0 : heap) (o : hop) : Prop :=
  match o with
  | HOne _ x _ => x < length h0
  | HBatch _ rows _ => Forall (fun x => x < length h0) rows
  | HMerge _ _ => True
  end.
(* the first update of an empty RunningNorm is not a single observation of its own dtype and device *)
Definition no_first_alias (sys : hsys) (o : hop) : Prop :=
  match o with
  | HOne i _ true => forall s, nth_error (snd sys) i = Some s -> h_has_no_data s = false
  | _ => True
  end.

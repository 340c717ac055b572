(* Specification vocabulary for batches: order on evaluations, Python indices, best of a history. *)
From Verif Require Import Prelude FloatLib BatchModel.

(* strict order on float values that are not NaN *)
Inductive lt_fl : fl -> fl -> Prop :=
| lt_fin x y : (x < y)%Z -> lt_fl (Fin x) (Fin y)
| lt_ninf x : lt_fl NInf (Fin x)
| lt_pinf x : lt_fl (Fin x) PInf
| lt_inf : lt_fl NInf PInf.
(* a is strictly better than b under the given sense *)
Definition better (maximize : bool) (a b : fl) : Prop := if maximize then lt_fl b a else lt_fl a b.

(* Python's meaning of the index i of a sequence of length n *)
Definition py_index (n : nat) (i : Z) : option nat :=
  if ((- Z.of_nat n <=? i) && (i <? Z.of_nat n))%Z then Some (Z.to_nat (i mod Z.of_nat n)) else None.

(* A row of a batch is a solution: its decision values and its evaluation row. *)
Definition rows_of {V} (vals : list V) (ev : list (list fl)) : list (V * list fl) := combine vals ev.
Definition score {V} (j : nat) (s : V * list fl) : fl := nth j (snd s) NaN.

(* r is the earliest row among those with the best evaluation *)
Definition earliest_best {V} (maximize : bool) (j : nat) (rows : list (V * list fl)) (r : V * list fl) : Prop :=
  exists pre post, rows = pre ++ r :: post /\
    Forall (fun x => better maximize (score j r) (score j x)) pre /\
    Forall (fun x => ~ better maximize (score j x) (score j r)) post.

(* A well-formed batch: one evaluation row per solution, each as wide as objectives plus data. *)
Definition wf {V} (b : batch V) :=
  length (b_ev b) = b_len b /\ Forall (fun r => length r = eval_width b) (b_ev b).
Definition rows {V} (b : batch V) := rows_of (b_vals b) (b_ev b).
(* no NaN / only finite evaluations for objective j *)
Definition no_nan_col {V} (b : batch V) (j : nat) :=
  Forall (fun r : list fl => is_nan (nth j r NaN) = false) (b_ev b).
Definition no_nan {V} (j : nat) (rs : list (V * list fl)) := Forall (fun r => is_nan (score j r) = false) rs.
Definition finite {V} (j : nat) (rs : list (V * list fl)) := Forall (fun r => is_fin (score j r) = true) rs.
(* A non-empty evaluated batch of a problem with the given senses (true = maximize). *)
Definition good {V} (senses : list bool) (b : batch V) :=
  wf b /\ b_desc b = senses /\ b_len b <> 0 /\ (forall k, k < length senses -> finite k (rows b)).
(* rb is the earliest best and rw the earliest worst row *)
Definition seen_pair {V} (d : bool) (j : nat) (rs : list (V * list fl)) (rb rw : V * list fl) :=
  earliest_best d j rs rb /\ earliest_best (negb d) j rs rw.

(* What set_evals must store in the k-th addressed row: the evaluations, followed by the given
   extra data, or by NaNs when none was given. *)
Definition stored (nobj ndata : nat) (evals : list (list fl)) (data : option (list (list fl))) (k : nat) : list fl :=
  firstn nobj (nth k evals []) ++
  match data with
  | Some d => nth k d []
  | None => if Nat.eqb (length (nth k evals [])) nobj then repeat NaN ndata else skipn nobj (nth k evals [])
  end.

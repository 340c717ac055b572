(* Model of Pareto ranking, crowding distances and multi-objective take_best (core.py). *)
From Coq Require Import QArith.
From Verif Require Import Prelude FloatLib SortLib BatchModel.
Close Scope Q_scope.
Open Scope nat_scope.

(* core.py:4194-4332 SolutionBatch.utils() for all objectives: rows of utilities, NaN checked *)
Definition utils {V} (b : batch V) : result (list (list fl)) :=
  if existsb (fun r => existsb is_nan (firstn (num_objs b) r)) (b_ev b) then Err ValueError
  else Ok (map (fun r => map2 (fun d x => if d : bool then x else fneg x) (b_desc b) (firstn (num_objs b) r)) (b_ev b)).

(* core.py:3492-3496: element (i, j) of the matrix: solution j dominates solution i *)
Definition dominated_by (ui uj : list fl) : bool :=
  forallb (fun p => fge (fst p) (snd p)) (combine uj ui) && existsb (fun p => flt (snd p) (fst p)) (combine uj ui).
Definition dominated_matrix (us : list (list fl)) : list (list bool) :=
  map (fun ui => map (fun uj => dominated_by ui uj) us) us.

Definition count_true (l : list bool) : nat := length (filter (fun x => x) l).
(* tensor[mask] *)
Definition select {A} (mask : list bool) (l : list A) : list A :=
  map snd (filter (fun p => fst p) (combine mask l)).
(* tensor[mask] = values *)
Fixpoint masked_fill {A} (l : list A) (mask : list bool) (vs : list A) : list A :=
  match l, mask with
  | x :: l', true :: m' => match vs with v :: vs' => v :: masked_fill l' m' vs' | [] => x :: masked_fill l' m' [] end
  | x :: l', false :: m' => x :: masked_fill l' m' vs
  | l, _ => l
  end.

Section Ranks.
(* torch.argsort(_crowding_distance_assignment(utils), descending=True) *)
Variable crowd_order : list (list fl) -> list nat.

Record pstate := mkP { p_ndom : list Z; p_ranks : list nat; p_unranked : list bool; p_cs : list nat; p_cur : nat }.

(* core.py:3515-3535 the body of the loop *)
Definition pstep (us : list (list fl)) (crowdsort : bool) (s : pstate) : pstate :=
  let new := map2 andb (map (Z.eqb 0) (p_ndom s)) (p_unranked s) in
  mkP (map2 (fun n row => n - Z.of_nat (count_true (select new row)))%Z (p_ndom s) (dominated_matrix us))
      (map2 (fun r (b : bool) => if b then p_cur s else r) (p_ranks s) new)
      (map2 (fun u (b : bool) => if b then false else u) (p_unranked s) new)
      (if crowdsort then masked_fill (p_cs s) new (crowd_order (select new us)) else p_cs s)
      (p_cur s + 1).
Fixpoint ploop (fuel : nat) (us : list (list fl)) (crowdsort : bool) (s : pstate) : result pstate :=
  if existsb (fun x => x) (p_unranked s)
  then match fuel with O => Err OutOfFuel | S fuel' => ploop fuel' us crowdsort (pstep us crowdsort s) end
  else Ok s.
(* core.py:3466-3537 _compute_pareto_ranks *)
Definition pinit (us : list (list fl)) : pstate :=
  mkP (map (fun row => Z.of_nat (count_true row)) (dominated_matrix us)) (map (fun _ => 0) us) (map (fun _ => true) us) (map (fun _ => 0) us) 0.
Definition compute_pareto_ranks (us : list (list fl)) (crowdsort : bool) : result (list nat * list nat) :=
  rmap (fun s => (p_ranks s, p_cs s)) (ploop (length us) us crowdsort (pinit us)).

(* core.py:3540-3570 _pareto_sort *)
Definition front_of (ranks : list nat) (k : nat) : list nat :=
  filter (fun i => Nat.eqb (nth i ranks 0) k) (seq 0 (length ranks)).
Definition pareto_sort (us : list (list fl)) (crowdsort : bool) : result (list (list nat) * list nat) :=
  bind (compute_pareto_ranks us crowdsort) (fun rc =>
  match fst rc with
  | [] => Err RuntimeError (* torch.amax of an empty tensor *)
  | _ =>
    bind (sequence (map (fun k => let front := front_of (fst rc) k in
       if crowdsort then
         bind (gather (snd rc) front) (fun fcs => gather front fcs)
       else Ok front) (seq 0 (list_max (fst rc) + 1)))) (fun fronts => Ok (fronts, fst rc))
  end).
(* core.py:3832-3853, 3856-3895 *)
Definition batch_pareto_ranks {V} (b : batch V) (crowdsort : bool) : result (list nat * list nat) :=
  bind (utils b) (fun us => compute_pareto_ranks us crowdsort).
Definition arg_pareto_sort {V} (b : batch V) (crowdsort : bool) : result (list (list nat) * list nat) :=
  bind (utils b) (fun us => pareto_sort us crowdsort).

(* core.py:4408-4415 SolutionBatch.take_best(n), obj_index None, two or more objectives.  qsorter is
   torch.argsort on the combined ranks (exact arithmetic instead of float32). *)
Variable qsorter : list Q -> list nat.
Definition combined (n : nat) (r c : nat) : Q :=
  (inject_Z (Z.of_nat r) + (1 # 10) * inject_Z (Z.of_nat c) / inject_Z (Z.of_nat n))%Q.
Definition take_best_multi {V} (b : batch V) (n : nat) : result (batch V) :=
  bind (batch_pareto_ranks b true) (fun rc =>
  take b (firstn n (qsorter (map2 (combined (b_len b)) (fst rc) (snd rc))))).
End Ranks.

(* what torch.argsort promises for a tensor of numbers *)
Definition qargsort_ok (qsorter : list Q -> list nat) : Prop :=
  forall c, Permutation (qsorter c) (seq 0 (length c)) /\
    Sorted.StronglySorted (fun i j => (nth i c 0 <= nth j c 0)%Q) (qsorter c).
Definition qstable (c : list Q) : list nat :=
  isort (fun i j => Qle_bool (nth i c 0%Q) (nth j c 0%Q)) (seq 0 (length c)).

(* ---------------------------------------------------------------- crowding distances *)
(* A crowding distance: a number or +inf *)
Inductive dist := DFin (q : Q) | DInf.
Definition dadd (d : dist) (q : Q) : dist := match d with DFin x => DFin (x + q)%Q | DInf => DInf end.
Definition dle (a b : dist) : bool :=
  match a, b with _, DInf => true | DInf, _ => false | DFin x, DFin y => Qle_bool x y end.

Section Crowding.
(* torch.argsort over one column of finite utilities *)
Variable zsorter : list Z -> list nat.
Variable tolerance : Q.   (* _near_zero_float_tolerance *)

Definition zcol (us : list (list Z)) (k : nat) : list Z := map (fun u => nth k u 0%Z) us.
Definition zmax (l : list Z) : Z := fold_right Z.max (hd 0%Z l) l.
Definition zmin (l : list Z) : Z := fold_right Z.min (hd 0%Z l) l.
Definition set_inf (ds : list dist) (i : nat) : list dist := upd ds i DInf.
Definition add_at (ds : list dist) (ix : nat * Q) : list dist :=
  match nth_error ds (fst ix) with Some d => upd ds (fst ix) (dadd d (snd ix)) | None => ds end.
(* core.py:3418-3463 _crowding_distance_assignment (finite utilities, num_objs columns) *)
Definition crowding (num_objs : nat) (us : list (list Z)) : list dist :=
  let orders := map (fun k => zsorter (zcol us k)) (seq 0 num_objs) in
  let d0 := map (fun _ => DFin 0) us in
  let d1 := fold_left set_inf (map (fun o => hd 0 o) orders) d0 in
  let d2 := fold_left set_inf (map (fun o => last o 0) orders) d1 in
  fold_left (fun ds k =>
    let col := zcol us k in
    let order := nth k orders [] in
    let sorted := map (fun i => nth i col 0%Z) order in
    let range := inject_Z (zmax col - zmin col) in
    let denominator := if Qle_bool tolerance range then range else tolerance in
    let low := firstn (length sorted - 2) sorted in
    let high := skipn 2 sorted in
    let inc := map2 (fun h l => (inject_Z (h - l) / denominator)%Q) high low in
    fold_left add_at (combine (removelast (tl order)) inc) ds) (seq 0 num_objs) d2.
(* core.py:3528-3530 torch.argsort(distances, descending=True) *)
Variable dsorter : list dist -> list nat.
Definition to_z (x : fl) : Z := match x with Fin z => z | _ => 0 end.
Definition crowd_order_of (num_objs : nat) (us : list (list fl)) : list nat :=
  dsorter (crowding num_objs (map (map to_z) us)).
End Crowding.

Definition zstable (c : list Z) : list nat := isort (fun i j => (nth i c 0 <=? nth j c 0)%Z) (seq 0 (length c)).
Definition dstable_desc (c : list dist) : list nat :=
  isort (fun i j => dle (nth j c (DFin 0)) (nth i c (DFin 0))) (seq 0 (length c)).

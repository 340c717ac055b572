(* Model of MAPElites (algorithms/mapelites.py). *)
From Verif Require Import Prelude FloatLib BatchModel GaModel.

(* IEEE a <= b *)
Definition fle (a b : fl) : bool := (negb (is_nan a) && negb (is_nan b) && negb (flt b a))%bool.
(* a cell: the lower and the upper bound of every feature *)
Definition cell := list (fl * fl).

(* mapelites.py:18-21, 42-45: all features inside the bounds, with torch's broadcasting of a size-one dimension *)
Definition suitable (c : cell) (row : list fl) : result bool :=
  let features := skipn 1 row in
  let inside (p : fl * fl) (x : fl) := (fle (fst p) x && fle x (snd p))%bool in
  if Nat.eqb (length c) (length features) then Ok (forallb (fun q => inside (fst q) (snd q)) (combine c features))
  else match c, features with
       | [p], _ => Ok (forallb (inside p) features)
       | _, [x] => Ok (forallb (fun p => inside p x) c)
       | _, _ => Err RuntimeError
       end.

Section Map.
Context {V : Type}.
(* torch.argmax (true) and torch.argmin (false) *)
Variable pick : bool -> list fl -> nat.
Variable ev : nat -> list V -> list (list fl).

(* mapelites.py:24-53 _best_solution_considering_feature *)
Definition best_for_cell (maximize : bool) (values : list V) (evals : list (list fl)) (c : cell) : result (V * list fl * bool) :=
  let penalty := if maximize then NInf else PInf in
  bind (sequence (map (suitable c) evals)) (fun suits =>
    let processed := map2 (fun (s : bool) row => if s then nth 0 row NaN else penalty) suits evals in
    match processed with
    | [] => Err IndexError
    | _ =>
      let index := pick maximize processed in
      match nth_error values index, nth_error evals index, nth_error suits index with
      | Some v, Some e, Some s => Ok (v, e, s)
      | _, _, _ => Err IndexError
      end
    end).

Record mstate := mkMap { m_st : state V; m_filled : list bool }.
(* mapelites.py:327-347: a fresh MAPElites; values: what problem.generate_batch(number of cells) produced *)
Definition map_init (like : batch V) (values : list V) : mstate := mkMap (ga_init like values) (map (fun _ => false) values).

(* mapelites.py:56-75 (vmap over the cells) and 380-401 _step; also gives the pool of candidates *)
Definition map_step (cf : config) (ops : list (operator V)) (grid : list cell) (s : mstate) : result (mstate * batch V) :=
  bind (extended ev cf ops (m_st s)) (fun e =>
  let '(s', parents, children) := e in
  let pool := cat parents children in
  match b_desc pool with
  | d :: _ =>
    bind (sequence (map (best_for_cell d (b_vals pool) (b_ev pool)) grid)) (fun best =>
      let pop := mkBatch (map (fun r => fst (fst r)) best) (map (fun r => snd (fst r)) best) (b_desc pool) (b_ndata pool) in
      Ok (mkMap (mkSt pop (s_first s') (s_clock s')) (map snd best), pool))
  | [] => Err IndexError
  end).
(* n generations; the second component lists every candidate considered in any of them *)
Fixpoint map_run (cf : config) (ops : list (operator V)) (grid : list cell) (n : nat) (s : mstate) : result (mstate * list V) :=
  match n with
  | O => Ok (s, [])
  | S n' => bind (map_run cf ops grid n' s) (fun r =>
            bind (map_step cf ops grid (fst r)) (fun r' => Ok (fst r', snd r ++ b_vals (snd r'))))
  end.
End Map.
Arguments mstate : clear implicits.

(* ------------------------------------------------------------------------------- feature grids *)
Section Grid.
(* torch.linspace(lb, ub, steps) *)
Variable linspace : fl -> fl -> nat -> list fl.
(* sp.unfold(dimension=0, size=2, step=1) *)
Fixpoint unfold2 (l : list fl) : list (fl * fl) :=
  match l with
  | a :: ((b :: _) as t) => (a, b) :: unfold2 t
  | _ => []
  end.
(* mapelites.py:499-502 _make_feature_grid: the bins of one feature *)
Definition feature_bins (lb ub : fl) (num_bins : Z) : result (list (fl * fl)) :=
  if (num_bins - 1 <? 0)%Z then Err RuntimeError
  else Ok (unfold2 ([NInf] ++ linspace lb ub (Z.to_nat (num_bins - 1)) ++ [PInf])).
(* itertools.product *)
Fixpoint product {A} (ls : list (list A)) : list (list A) :=
  match ls with
  | [] => [[]]
  | l :: rest => flat_map (fun x => map (cons x) (product rest)) l
  end.
Fixpoint zip3 {A B C} (a : list A) (b : list B) (c : list C) : list (A * B * C) :=
  match a, b, c with
  | x :: a', y :: b', z :: c' => (x, y, z) :: zip3 a' b' c'
  | _, _, _ => []
  end.
(* mapelites.py:483-505 make_feature_grid (bounds already tensors of the same dtype and device);
   num_bins: one number or one per feature *)
Definition make_feature_grid (lower upper : list fl) (num_bins : Z + list Z) : result (list cell) :=
  if negb (Nat.eqb (length lower) (length upper)) then Err ValueError else
  let bins := match num_bins with inl n => repeat n (length lower) | inr l => l end in
  bind (sequence (map (fun t => feature_bins (fst (fst t)) (snd (fst t)) (snd t)) (zip3 lower upper bins))) (fun grids =>
  match grids with
  | [] => Err RuntimeError   (* torch.cat of an empty tuple *)
  | _ => Ok (product grids)
  end).
End Grid.

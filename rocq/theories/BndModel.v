(* The standard operators of operators/real.py as operators on whole populations (GaModel.operator).
   A solution is a row of genes; None is NaN.  The random draws of the k-th call are arguments. *)
From Coq Require Import QArith Reals.
From Verif Require Import Prelude FloatLib BatchModel ParetoModel RankModel OperModel GaModel.
Close Scope Q_scope.
Open Scope nat_scope.

Notation row := (list (option R)).
(* the genes as numbers; a NaN gene is read as 0 (the operators below are modelled for numbers) *)
Definition numbers (r : row) : list R := map (fun x => match x with Some y => y | None => 0%R end) r.

Section Ops.
Variable sorter : bool -> list fl -> list nat.           (* torch.argsort *)
Variable crowd_order : list (list fl) -> list nat.
Variable qsorter : list Q -> list nat.
Variables lb ub : option (list R).                       (* operators/base.py:58-59: the bounds of the problem *)

(* operators/real.py:60-66 GaussianMutation._do *)
Definition gaussian_op (stdev : R) (probability : option R) (us gs : nat -> nat -> list (list R)) : operator row :=
  Copying false (fun k b => Ok (fresh b (gaussian_mutation lb ub stdev probability (map numbers (b_vals b)) (us k (b_len b)) (gs k (b_len b))))).
(* operators/real.py:523-603 PolynomialMutation, constructed and called *)
Definition poly_op (prob eta : option R) (us rs : nat -> nat -> list (list R)) : operator row :=
  Copying false (fun k b => bind (poly_init lb ub) (fun lu =>
    Ok (fresh b (poly_mutation prob eta (fst lu) (snd lu) (map numbers (b_vals b)) (us k (b_len b)) (rs k (b_len b)))))).
(* operators/real.py:456-481 SimulatedBinaryCrossOver._do_cross_over within operators/base.py:405-412 CrossOver._do *)
Definition sbx_op (eta : R) (cx : crossover) (noise : nat -> list Q) (draw : nat -> nat -> nat -> nat -> list (list nat))
    (us : nat -> nat -> list (list R)) : operator row :=
  Copying true (fun k b => crossover_do sorter crowd_order
    (fun p1 p2 => Ok (sbx lb ub eta (map numbers p1) (map numbers p2) (us k (length p1)))) cx b (noise k) (draw k)).
(* operators/real.py:144-207 MultiPointCrossOver._do_cross_over within operators/base.py:405-412 *)
Definition multi_point_op (num_points : nat) (cx : crossover) (noise : nat -> list Q)
    (draw cuts : nat -> nat -> nat -> nat -> list (list nat)) : operator row :=
  Copying true (fun k b => crossover_do sorter crowd_order (multi_point num_points (cuts k)) cx b (noise k) (draw k)).
(* operators/real.py:665-706 CosynePermutation._do *)
Definition permute_op (permute_all : bool) (obj_index : option Z) (len : nat) (us : nat -> nat -> list (list R)) (keys : nat -> nat -> list (list Q)) : operator row :=
  Copying false (fun k b =>
    bind (if permute_all then Ok (map (fun _ => None) (b_vals b)) else centered_utility sorter b obj_index) (fun ranks =>
    Ok (fresh b (permute_rows None qsorter len (b_vals b) (perm_mask permute_all len ranks (us k (b_len b))) (keys k (b_len b)))))).
End Ops.

(* Model of the cross entropy method's update (distributions.py:536-544 and its users). *)
From Coq Require Import QArith Qround Reals.
From Verif Require Import Prelude FloatLib RankModel.
Close Scope Q_scope.
Open Scope nat_scope.

Section Cem.
(* torch.argsort *)
Variable sorter : bool -> list fl -> list nat.

(* ranking.py:163-183 raw, on fitnesses of which only the order matters *)
Definition raw_weights (fitnesses : list fl) (higher_is_better : bool) : list fl :=
  if higher_is_better then fitnesses else map fneg fitnesses.

(* distributions.py:538-540 (the product is exact here, a float product in the code: C228 says by how much that can differ) *)
Definition num_elites (num_samples : nat) (ratio : Q) : nat :=
  Z.to_nat (Qfloor (inject_Z (Z.of_nat num_samples) * ratio)%Q).
Definition elite_indices (num_samples : nat) (ratio : Q) (weights : list fl) : list nat :=
  firstn (num_elites num_samples ratio) (sorter true weights).
Definition elites (samples : list (list R)) (ratio : Q) (weights : list fl) : list (list R) :=
  map (fun i => nth i samples []) (elite_indices (length samples) ratio weights).

(* torch.mean, torch.std along dimension 0 (None = NaN) *)
Definition cmean (l : list R) : option R := match l with [] => None | _ => Some (rmean l) end.
Definition cstd (l : list R) : option R := match l with [] => None | [_] => None | _ => Some (rstd l) end.
Definition column (rows : list (list R)) (j : nat) : list R := map (fun r => nth j r 0%R) rows.
Definition nadd (a b : option R) : option R := match a, b with Some x, Some y => Some (x + y)%R | _, _ => None end.
Definition nneg (a : option R) : option R := option_map Ropp a.

(* distributions.py:536-544 *)
Definition cem_grads (mu sigma : list (option R)) (samples : list (list R)) (ratio : Q) (weights : list fl)
  : list (option R) * list (option R) :=
  let e := elites samples ratio weights in
  let dims := seq 0 (length mu) in
  (map2 nadd (map (fun j => cmean (column e j)) dims) (map nneg mu),
   map2 nadd (map (fun j => cstd (column e j)) dims) (map nneg sigma)).

(* funccem.py:209-223 (center and target of the stdev); CEM in distributed/gaussian.py uses learning rates of 1 and
   computes the same sums *)
Definition cem_targets (maximize : bool) (ratio : Q) (mu sigma : list (option R)) (values : list (list R)) (evals : list fl)
  : list (option R) * list (option R) :=
  let g := cem_grads mu sigma values ratio (raw_weights evals maximize) in
  (map2 nadd mu (fst g), map2 nadd sigma (snd g)).
End Cem.

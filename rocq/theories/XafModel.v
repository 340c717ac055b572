(* Model of whole runs of XNES in the main process (algorithms/distributed/gaussian.py:300-418 with ExpGaussian of distributions.py:811-1014).
   Exact arithmetic; the draws from the standard normal distribution are inputs; the fitness function is deterministic; turning fitnesses into
   weights (tools/ranking.py) is a function `weigh`; no optimizer, no thresholds on numbers of interactions. *)
From Coq Require Import Reals String.
From Verif Require Import Prelude MatLib CemModel XnesModel DistModel.
Open Scope R_scope.

Section XAF.
Variable n : nat.
Variable matrix_exp : mat -> mat.
Variable weigh : list R -> list R.
Variable ranking : string.
Variables center_lr stdev_lr : R.
Variable fitness : vect -> R.

Record state := State { s_dist : dist; s_pop : list vect; s_fits : list R }.
(* gaussian.py:318-347 with distributions.py:950-960: draw and evaluate a population *)
Definition fill (D : dist) (zs : list vect) : state :=
  let pop := map (to_global n D) zs in State D pop (map fitness pop).
(* distributions.py:962-987 *)
Definition grads (st : state) : vect * mat :=
  let w := centered_weights ranking (weigh (s_fits st)) in
  (d_grad n (s_dist st) w (s_pop st), M_grad n (s_dist st) w (s_pop st)).
(* gaussian.py:349-365 *)
Definition step (st : state) (zs : list vect) : result state :=
  let '(d, M) := grads st in
  rmap (fun D => fill D zs) (algorithm_update n matrix_exp (fun x => x) (fun x => x) (s_dist st) d M false center_lr stdev_lr).
Fixpoint steps (st : state) (draws : list (list vect)) : result (list state) :=
  match draws with
  | [] => Ok [st]
  | zs :: r => bind (step st zs) (fun st1 => rmap (cons st) (steps st1 r))
  end.
(* a run: the states after each generation *)
Definition xnes (D : dist) (zs : list vect) (draws : list (list vect)) : result (list state) := steps (fill D zs) draws.
End XAF.


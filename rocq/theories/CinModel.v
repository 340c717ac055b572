(* Model of whole runs of CMAES (algorithms/cmaes.py) on a fitness function: sampling, evaluation, ranking, updates, and the failure of the
   Cholesky decomposition.  The draws are inputs; the fitness function is deterministic; the ranking (core.py SolutionBatch.argsort) and topk are functions. *)
From Coq Require Import Reals.
From Verif Require Import Prelude MatLib CmaModel.
Open Scope R_scope.

Section CIN.
Variable P : params.
(* torch.linalg.cholesky; None: it raises an error *)
Variable chol : mat -> option mat.
Variable topk : nat -> list R -> list nat.
Variable order : list R -> list nat.
Variable fitness : vect -> R.
Definition total (C : mat) : mat := match chol C with Some A => A | None => mid end.
(* cmaes.py:567-606 _step: the solutions, their fitnesses, and the next state *)
Definition generation (s : state) (zs : list vect) : list vect * list R * option state :=
  let xs := xs_of P s zs in
  let fits := map fitness xs in
  let s1 := cma_step P total topk s zs (order fits) in
  (xs, fits,
   if p_separable P then Some s1
   else if Nat.eqb ((s_steps s + 1) mod p_freq P) 0 then match chol (s_C s1) with Some _ => Some s1 | None => None end
   else Some s1).
(* a run; it ends with the error *)
Fixpoint generations (s : state) (draws : list (list vect)) : list (list vect * list R * option state) :=
  match draws with
  | [] => []
  | zs :: r => let o := generation s zs in o :: match snd o with Some s1 => generations s1 r | None => [] end
  end.
End CIN.

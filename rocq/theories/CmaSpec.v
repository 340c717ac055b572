(* What is expected of CMAES, and the contracts of the torch functions it uses. *)
From Coq Require Import Reals Permutation.
From Verif Require Import Prelude MatLib RankModel CmaModel.
Open Scope R_scope.

Definition nonzero (n : nat) (x : vect) : Prop := exists i, (i < n)%nat /\ x i <> 0.
Definition positive_definite (n : nat) (A : mat) : Prop := forall x, nonzero n x -> 0 < quad n A x.
Definition diagonal_matrix (n : nat) (A : mat) : Prop := forall i j, (i < n)%nat -> (j < n)%nat -> i <> j -> A i j = 0.

(* torch.linalg.cholesky: a factor of every symmetric positive definite matrix *)
Definition cholesky_ok (n : nat) (cholesky : mat -> mat) : Prop :=
  forall C, symmetric n C -> positive_definite n C -> meq n (mmul n (cholesky C) (mtr (cholesky C))) C.
(* torch.topk: k different positions, none of the others holding a larger value *)
Definition topk_ok (topk : nat -> list R -> list nat) : Prop :=
  forall k ws, (k <= length ws)%nat -> length (topk k ws) = k /\ NoDup (topk k ws) /\ (forall i, In i (topk k ws) -> (i < length ws)%nat) /\
    forall i j, In i (topk k ws) -> (j < length ws)%nat -> ~ In j (topk k ws) -> nth j ws 0 <= nth i ws 0.

(* one generation: popsize Gaussian rows and a complete ranking of the evaluated population; a row of zeros
   only is excluded (it has probability 0, and its reciprocal is used when `active`) *)
Definition generation_ok (P : params) (g : list vect * list nat) : Prop :=
  length (fst g) = p_popsize P /\ Permutation (snd g) (seq 0 (p_popsize P)) /\ Forall (nonzero (p_d P)) (fst g).

(* learning rates for which the covariance matrix is a proper average of its previous value and the new terms *)
Definition rates_ok (P : params) : Prop :=
  (1 <= p_d P)%nat /\ (2 <= p_popsize P)%nat /\ 0 <= p_c_1 P /\ 0 < p_c_mu P /\ p_c_1 P + p_c_mu P < 1 /\ 0 <= p_c_c P <= 2.

(* the distribution has a positive variance along every direction *)
Definition proper (P : params) (s : state) : Prop :=
  0 < s_sigma s /\ symmetric (p_d P) (s_C s) /\ positive_definite (p_d P) (s_C s).
(* the k-th best sample of a ranked population *)
Definition kth_best (xs : list vect) (ranking : list nat) (k : nat) : vect := nth (nth k ranking 0%nat) xs (fun _ => 0).

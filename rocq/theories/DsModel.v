(* Model of one distributed step of PGPE with the numbers of solutions which its tasks sample:
   /repo/src/evotorch/core.py Problem.sample_and_compute_gradients (2882-2970, for num_interactions=None) and
   _sample_and_compute_gradients (3218-3296), and algorithms/distributed/gaussian.py _step_distributed (196-272).
   Real arithmetic; a number is `option R`, None standing for NaN.  Sampling, the fitness function and argsort are
   Section variables; devices, hooks and synchronisation are left out. *)
From Coq Require Import Reals String.
From Verif Require Import Prelude RankModel CemModel DistModel WorkModel.
Open Scope R_scope.

Definition nmul (a b : num) : num := match a, b with Some x, Some y => Some (x * y) | _, _ => None end.
(* the numbers of a tensor, if none of them is NaN *)
Fixpoint all_numbers (l : list num) : option (list R) :=
  match l with
  | [] => Some []
  | Some x :: t => option_map (cons x) (all_numbers t)
  | None :: _ => None
  end.

Section Step.
  (* what the i-th task samples when it is asked for n solutions (core.py:3222-3225) *)
  Variable draw : nat -> nat -> list (list R).
  Variable fitness : list R -> R.
  (* torch.argsort of fitnesses; the flag is `descending` *)
  Variable argsort : bool -> list R -> list nat.

  (* ranking.py:24-53 centered (true) and 163-183 raw (false) *)
  Definition weights_of (centered higher_is_better : bool) (x : list R) : list num :=
    if centered then
      scatter None (argsort (negb higher_is_better) x)
        (map (fun k => option_map (fun w => w - 1 / 2) (rdivo (INR k) (INR (length x) - 1))) (seq 0 (length x)))
    else map Some (raw x higher_is_better).

  (* gaussian.py:714-742 *)
  Definition pgpe_options (symmetric : bool) : options :=
    let divide_by := (if symmetric then "num_directions" else "num_solutions")%string in
    {| divide_mu := Some divide_by; divide_sigma := Some divide_by |}.
  (* distributions.py:546-577, 706-771; a NaN among the weights makes NaN of every component *)
  Definition gradients (symmetric centered : bool) (mu sigma : list R) (samples : list (list R)) (weights : list num) : result grads :=
    match all_numbers weights with
    | None => Ok (repeat None (length mu), repeat None (length mu))
    | Some w => (if symmetric then symmetric_gradients else plain_gradients) (pgpe_options symmetric)
                  (if centered then "centered" else "raw")%string mu sigma samples w
    end.

  (* core.py:3292-3296 *)
  Record answer := mkAnswer { a_mu : list num; a_sigma : list num; a_num : nat; a_mean : num }.
  (* core.py:3218-3296 on the i-th task *)
  Definition task (symmetric centered maximize : bool) (mu sigma : list R) (i n : nat) : result answer :=
    let samples := draw i n in
    let evals := map fitness samples in
    bind (gradients symmetric centered mu sigma samples (weights_of centered maximize evals)) (fun g =>
    Ok (mkAnswer (fst g) (snd g) (length samples) (cmean evals))).

  (* gaussian.py:239-245 *)
  Definition total_solutions (l : list answer) : nat := fold_left (fun t a => (t + a_num a)%nat) l 0%nat.
  Definition overall_mean (l : list answer) : num :=
    nmul (fold_left (fun t a => nadd t (nmul (Some (INR (a_num a))) (a_mean a))) l (Some 0)) (Some (/ INR (total_solutions l))).
  (* gaussian.py:256-266 *)
  Definition task_weight (weighted : bool) (l : list answer) (a : answer) : R :=
    if weighted then INR (a_num a) / INR (total_solutions l) else 1 / INR (length l).
  (* gaussian.py:248-269, one key of the dictionary *)
  Definition average (weighted : bool) (n : nat) (part : answer -> list num) (l : list answer) : list num :=
    fold_left (fun acc a => map2 nadd acc (map (nmul (Some (task_weight weighted l a))) (part a))) l (repeat (Some 0) n).

  (* gaussian.py:196-272: the averaged gradients which update the distribution, and the reported mean evaluation.
     The answers are taken in the order of the tasks: C12 is about the order. *)
  Definition distributed_step (symmetric centered maximize weighted : bool) (popsize : nat) (subbatch_size num_subbatches : option nat)
      (num_actors : nat) (mu sigma : list R) : result (list num * list num * num) :=
    bind (popsize_per_task popsize subbatch_size num_subbatches num_actors symmetric) (fun sizes =>
    bind (sequence (map2 (task symmetric centered maximize mu sigma) (seq 0 (length sizes)) sizes)) (fun l =>
    if Nat.eqb (total_solutions l) 0 then Err ZeroDivisionError else
    Ok (average weighted (length mu) a_mu l, average weighted (length mu) a_sigma l, overall_mean l))).
End Step.

(* core.py:3228-3269 on a task with a number of interactions (num_interactions given): an evaluation of n solutions makes
   n times the interactions of one episode, here given by `cost` for each solution in turn *)
Definition made_by (cost : nat -> Z) (n k : nat) : Z := fold_right Z.add 0%Z (map cost (seq 0 (k * n))).
Definition adaptive_task (cost : nat -> Z) (popsize num_interactions : nat) (popsize_max : option nat) (n fuel : nat) : result (nat * nat) :=
  adaptive_loop_remote n (option_map (fun m => ceil_div (n * m) popsize) popsize_max)
    (Z.of_nat (ceil_div (n * num_interactions) popsize)) (made_by cost n) fuel 0 0.

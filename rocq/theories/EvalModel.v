(* Model of how a Problem evaluates a batch — one solution after another, all at once, on another
   device or in pieces on actors — and of the callable evaluators made out of problems (core.py). *)
From Verif Require Import Prelude FloatLib BatchModel WorkModel.

Section Evaluation.
Context {V : Type}.

(* What a fitness function returns for one solution: an evaluation with zero, one or more
   dimensions and possibly extra data (`Some None`: data which is not 1-dimensional).  A result
   which is not a tuple has no extra data; tuples are pairs. *)
Inductive one_ev := S0 (x : fl) | S1 (xs : list fl) | SMore.
Definition one_out := (one_ev * option (option (list fl)))%type.
(* ... and for all solutions together (the arguments of SolutionBatch.set_evals). *)
Definition many_out := (ev_arg * option (option (list (list fl) * nat)))%type.
Inductive fitness :=
| Scalar (f : V -> result one_out)
| Vectorized (F : list V -> result many_out).

(* core.py:4843-4885 Solution.set_evals, on the one-row batch of the solution *)
Definition solution_set_evals (b : batch V) (o : one_out) : result (batch V) :=
  bind (match fst o with S0 x => Ok [x] | S1 xs => Ok xs | SMore => Err ValueError end) (fun row =>
  bind (match snd o with
        | None => Ok None
        | Some (Some d) => Ok (Some (Some ([d], length d)))
        | Some None => Err ValueError
        end) (fun data =>
  set_evals b (E2 [row] (length row)) data (seq 0 (b_len b)))).

(* core.py:2608-2616 Problem._evaluate *)
Definition evaluate_solution (f : V -> result one_out) (s : batch V) : result (batch V) :=
  match b_vals s with
  | v :: _ => bind (f v) (solution_set_evals s)
  | [] => Err IndexError
  end.

(* The solution at position i is a one-row view: what is stored in it is stored in the batch. *)
Definition store_row (b : batch V) (i : nat) (s : batch V) : batch V :=
  match b_ev s with
  | r :: _ => mkBatch (b_vals b) (upd (b_ev b) i r) (b_desc b) (b_ndata b)
  | [] => b
  end.

(* core.py:2605-2606 with SolutionBatch.__iter__ 4426-4428 *)
Fixpoint evaluate_rows (f : V -> result one_out) (b : batch V) (is_ : list nat) : result (batch V) :=
  match is_ with
  | [] => Ok b
  | i :: is' =>
      bind (solution b (Z.of_nat i)) (fun s =>
      bind (evaluate_solution f s) (fun s' => evaluate_rows f (store_row b i s') is'))
  end.

(* core.py:2597-2606 Problem._evaluate_batch *)
Definition evaluate_batch (fit : fitness) (b : batch V) : result (batch V) :=
  match fit with
  | Vectorized F => bind (F (b_vals b)) (fun o => set_evals b (fst o) (snd o) (seq 0 (b_len b)))
  | Scalar f => evaluate_rows f b (seq 0 (b_len b))
  end.

(* The device of the fitness function (core.py:2497-2525): not declared, the device of the batch,
   or another one. *)
Inductive where_ := Undeclared | Same | Other.

(* core.py:4438-4468 SolutionBatch.to: values and evaluations are copied *)
Definition moved (b : batch V) : batch V := mkBatch (b_vals b) (b_ev b) (b_desc b) (b_ndata b).

(* core.py:2568-2577 Problem._evaluate_all without actors (numeric problems when a device is
   declared).  On the device of the batch, `to` returns the batch itself. *)
Definition evaluate_here (fit : fitness) (dev : where_) (b : batch V) : result (batch V) :=
  match dev with
  | Undeclared => evaluate_batch fit b
  | Same => bind (evaluate_batch fit b) (fun m => set_evals m (E2 (b_ev m) (eval_width m)) None (seq 0 (b_len m)))
  | Other => bind (evaluate_batch fit (moved b)) (fun m =>
               set_evals b (E2 (b_ev m) (eval_width m)) None (seq 0 (b_len b)))
  end.

(* EvaluationActor.evaluate_batch_piece, core.py:140-171: the evaluations of one piece *)
Definition evaluate_piece (fit : fitness) (dev : where_) (b : batch V) (piece : list (V * list fl))
  : result (list (list fl)) :=
  rmap b_ev (evaluate_here fit dev (mkBatch (map fst piece) (map snd piece) (b_desc b) (b_ndata b))).

(* core.py:2590-2595, pieces arriving in the given order *)
Definition collect (fit : fitness) (dev : where_) (b : batch V) (sl : list (nat * nat))
    (pieces : list (list (V * list fl))) (order : list nat) : result (list (list fl)) :=
  fold_left (fun acc i => bind acc (fun ev =>
               match nth_error sl i, nth_error pieces i with
               | Some ab, Some p => bind (evaluate_piece fit dev b p) (fun es => Ok (write_slice ev ab es))
               | _, _ => Ok ev
               end)) order (Ok (b_ev b)).

(* Settings of a problem: number of actors (None: no actors), num_subbatches, subbatch_size, and
   the order in which the pieces arrive. *)
Record setting := mkSetting { g_actors : option nat; g_nsub : option nat; g_subsize : option nat;
                              g_order : list nat; g_dev : where_ }.

(* core.py:2568-2595 Problem._evaluate_all *)
Definition evaluate_all (fit : fitness) (g : setting) (b : batch V) : result (batch V) :=
  match g_actors g with
  | None => evaluate_here fit (g_dev g) b
  | Some n =>
      bind (choose_pieces (g_nsub g) (g_subsize g) n (combine (b_vals b) (b_ev b))) (fun sp =>
      bind (collect fit (g_dev g) b (fst sp) (snd sp) (g_order g)) (fun ev =>
      Ok (mkBatch (b_vals b) ev (b_desc b) (b_ndata b))))
  end.

(* core.py:2527-2566 Problem.evaluate in the main process (hooks and synchronisation left out):
   the batch, the best and worst solutions so far and the reported status *)
Definition evaluate (fit : fitness) (g : setting) (stats : bool) (st : option (list (track V))) (b : batch V)
  : result (batch V * option (list (track V))) :=
  bind (evaluate_all fit g b) (fun b' =>
  if stats then
    let r := get_best_and_worst (b_desc b') st b' in bind (snd r) (fun _ => Ok (b', fst r))
  else Ok (b', st)).
End Evaluation.
Arguments fitness : clear implicits.

(* ---------------------------------------------------------------- callable evaluators *)
Section Callable.
Context {A : Type}.

(* A tensor: shape and elements in row-major order. *)
Record nd (B : Type) := mkNd { nd_shape : list nat; nd_data : list B }.
Arguments mkNd {B}. Arguments nd_shape {B}. Arguments nd_data {B}.

(* core.py:5106-5130 ProblemBoundEvaluator.__init__: the objective it reports *)
Definition make_evaluator (num_senses : nat) (is_object same_dtype : bool) (obj_index : option Z) : result Z :=
  bind (problem_normalize_obj_index num_senses obj_index) (fun j =>
  if is_object then Err ValueError
  else if negb same_dtype then Err TypeError
  else Ok j).

(* tensor.reshape(-1, L): with L = 0 the number of rows cannot be inferred *)
Fixpoint chunks (n L : nat) (d : list A) : list (list A) :=
  match n with O => [] | S n' => firstn L d :: chunks n' L (skipn L d) end.
Definition reshape_rows (t : nd A) (L : nat) : result (list (list A)) :=
  if Nat.eqb L 0 then Err RuntimeError else Ok (chunks (length (nd_data t) / L) L (nd_data t)).

Variable senses : list bool.
Variable ndata : nat.
(* contents of uninitialised memory *)
Variable junk : nat -> list fl.

(* core.py:5132-5141 _make_empty_solution_batch, _prepare_evaluated_solution_batch: the batch *)
Definition batch_of_rows (rows : list (list A)) : batch (list A) :=
  mkBatch rows (map junk (seq 0 (length rows))) senses ndata.

(* core.py:5143-5170 ProblemBoundEvaluator.__call__ *)
Definition call_evaluator (fit : fitness (list A)) (g : setting) (stats : bool)
    (st : option (list (track (list A)))) (j : Z) (values : nd A)
  : result (nd fl * option (list (track (list A)))) :=
  match nd_shape values with
  | [] => Err ValueError
  | d :: ds =>
      let solution_length := last (d :: ds) 0 in
      let batch_shape := removelast (d :: ds) in
      bind (reshape_rows values solution_length) (fun rows =>
      bind (evaluate fit g stats st (batch_of_rows rows)) (fun r =>
      bind (column (fst r) j) (fun col => Ok (mkNd batch_shape col, snd r))))
  end.
End Callable.
Arguments mkNd {B}. Arguments nd_shape {B}. Arguments nd_data {B}.

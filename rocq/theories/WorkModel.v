(* Model of work splitting, parallel evaluation, gradient averaging, seeding of actors and
   adaptive population sizes (tools/misc.py, core.py, algorithms/distributed/gaussian.py). *)
From Coq Require Import QArith String.
From Verif Require Import Prelude.
Close Scope Q_scope.
Open Scope nat_scope.
Open Scope list_scope.

(* Python: result[i] += 1 *)
Definition incr (r : list nat) (i : nat) : list nat :=
  match nth_error r i with Some x => upd r i (x + 1) | None => r end.

(* tools/misc.py:1113-1135 split_workload (workload >= 0). *)
Definition split_workload (workload num_actors : nat) : result (list nat) :=
  if Nat.eqb num_actors 0 then Err ZeroDivisionError
  else let base := workload / num_actors in
       let extra := workload mod num_actors in
       Ok (fold_left incr (seq 0 extra) (repeat base num_actors)).

(* core.py:4628-4635 *)
Definition sizes_by_count (total num_pieces : nat) : result (list nat) :=
  if Nat.eqb num_pieces 0 then Err ZeroDivisionError
  else let base := total / num_pieces in
       let rest := total - base * num_pieces in
       Ok (fold_left incr (seq 0 rest) (repeat base num_pieces)).

(* core.py:4636-4646; math.ceil(total / max_size) taken exactly *)
Fixpoint sizes_loop (n total max_size current : nat) : list nat :=
  match n with
  | O => []
  | S n' => (if Nat.ltb total (current + max_size) then total - current else max_size)
              :: sizes_loop n' total max_size (current + max_size)
  end.
Definition ceil_div (a b : nat) : nat := (a + b - 1) / b.
Definition sizes_by_max (total max_size : nat) : result (list nat) :=
  if Nat.eqb max_size 0 then Err ZeroDivisionError
  else Ok (sizes_loop (ceil_div total max_size) total max_size 0).

(* core.py:4628-4650 *)
Definition piece_sizes (total : nat) (num_pieces max_size : option nat) : result (list nat) :=
  match num_pieces, max_size with
  | Some k, None => sizes_by_count total k
  | None, Some m => sizes_by_max total m
  | Some _, Some _ => Err ValueError
  | None, None => Err ValueError
  end.

(* core.py:4652-4656 *)
Fixpoint piece_slices (begin_ : nat) (sizes : list nat) : list (nat * nat) :=
  match sizes with
  | [] => []
  | s :: t => (begin_, begin_ + s) :: piece_slices (begin_ + s) t
  end.

(* Python slicing x[a:b] for 0 <= a <= b *)
Definition slice {A} (l : list A) (ab : nat * nat) : list A := firstn (snd ab - fst ab) (skipn (fst ab) l).

(* core.py:4598-4659: slices and pieces of a batch (rows as list elements) *)
Definition split_batch {A} (batch : list A) (num_pieces max_size : option nat)
  : result (list (nat * nat) * list (list A)) :=
  rmap (fun sizes => let sl := piece_slices 0 sizes in (sl, map (slice batch) sl))
       (piece_sizes (length batch) num_pieces max_size).

(* x[a:b] = vs with len(vs) = b - a *)
Definition write_slice {A} (l : list A) (ab : nat * nat) (vs : list A) : list A :=
  firstn (fst ab) l ++ vs ++ skipn (snd ab) l.

Section Evaluate.
Context {Row Ev : Type}.
(* core.py:2597-2650: what `_evaluate_batch` stores for the rows of one (piece of a) batch *)
Variable evaluate_batch : list Row -> list Ev.

(* core.py:2579-2584 *)
Definition choose_pieces (num_subbatches subbatch_size : option nat) (num_actors : nat) (batch : list Row) :=
  match num_subbatches, subbatch_size with
  | Some k, _ => split_batch batch (Some k) None
  | None, Some m => split_batch batch None (Some m)
  | None, None => split_batch batch (Some num_actors) None
  end.

(* core.py:2590-2595 with EvaluationActor.evaluate_batch_piece 158-171; `order` lists the piece
   numbers in the order in which map_unordered yields their results. *)
Definition gather (sl : list (nat * nat)) (pieces : list (list Row)) (order : list nat) (ev : list Ev) : list Ev :=
  fold_left (fun ev i => match nth_error sl i, nth_error pieces i with
                         | Some ab, Some p => write_slice ev ab (evaluate_batch p)
                         | _, _ => ev
                         end) order ev.

(* core.py:2568-2595 (device movement left out) *)
Definition evaluate_all (actors : option nat) (num_subbatches subbatch_size : option nat)
    (order : list nat) (batch : list Row) (ev : list Ev) : result (list Ev) :=
  match actors with
  | None => Ok (evaluate_batch batch)
  | Some n => rmap (fun sp => gather (fst sp) (snd sp) order ev) (choose_pieces num_subbatches subbatch_size n batch)
  end.
End Evaluate.

(* ---------------------------------------------------------- gradient computation tasks *)

(* core.py:2890-2920 *)
Definition popsize_per_task (popsize : nat) (subbatch_size num_subbatches : option nat) (num_actors : nat)
    (ensure_even : bool) : result (list nat) :=
  bind (match subbatch_size, num_subbatches with
        | Some m, _ => if Nat.eqb m 0 then Err ZeroDivisionError
                       else if Nat.eqb (popsize mod m) 0 then Ok (repeat m (popsize / m)) else Err ValueError
        | None, Some k => split_workload popsize k
        | None, None => split_workload popsize num_actors
        end)
       (fun l => Ok (if ensure_even then map (fun p => if Nat.eqb (p mod 2) 0 then p else p + 1) l else l)).

(* core.py:2932-2934 and 2943-2945: math.ceil((p / popsize) * quota), exactly *)
Definition quota_per_task (popsize quota : nat) (tasks : list nat) : list nat :=
  map (fun p => ceil_div (p * quota) popsize) tasks.

(* What one remote task returns (core.py:3292-3296); a gradient is given by its components,
   one list per key of the gradients dictionary. *)
Record fetched := mkFetched { f_grads : list (list Q); f_num : nat; f_mean : Q }.

Definition qn (n : nat) : Q := inject_Z (Z.of_nat n).

(* gaussian.py:239-244 *)
Definition total_num (fs : list fetched) : nat := fold_left (fun a f => a + f_num f) fs 0.
Definition avg_mean_eval (fs : list fetched) : Q :=
  Qdiv (fold_left (fun a f => Qplus a (Qmult (qn (f_num f)) (f_mean f))) fs 0%Q) (qn (total_num fs)).

(* gaussian.py:258-266 *)
Definition weight (weighted : bool) (fs : list fetched) (f : fetched) : Q :=
  if weighted then Qdiv (qn (f_num f)) (qn (total_num fs)) else Qdiv 1 (qn (length fs)).

(* gaussian.py:247-269: accumulation onto zeros; all gradients have the solution length L *)
Definition avg_gradients (weighted : bool) (nkeys L : nat) (fs : list fetched) : list (list Q) :=
  fold_left (fun acc f => map2 (map2 (fun a g => Qplus a (Qmult (weight weighted fs f) g))) acc (f_grads f))
            fs (repeat (repeat 0%Q L) nkeys).

(* ---------------------------------------------------------- actor seeds *)
(* core.py:2001-2022 *)
Definition supremum_seed : Z := (2 ^ 32)%Z.
Definition actor_seed (base : Z) (j : nat) : Z := ((base + (Z.of_nat j + 1)) mod supremum_seed)%Z.
Definition all_seeds (base : Z) (num_actors : nat) : list (list Z) :=
  map (fun i => map (fun k => actor_seed base (4 * i + k)) (seq 0 4)) (seq 0 num_actors).

(* core.py:1611-1631: the seeding methods which Problem defines. *)
Definition problem_methods : list string := ["manual_seed"%string].
(* Attribute lookup followed by a call with the seed: the new seed of the generator. *)
Definition call_seeding (name : string) (seed : Z) : result Z :=
  if existsb (String.eqb name) problem_methods then Ok seed else Err AttributeError.
(* core.py:119-141 EvaluationActor.__init__: seeds of (random, numpy.random, torch, problem). *)
Definition actor_init (has_own_generator : bool) (seeds : list Z) : result (list Z) :=
  match seeds with
  | [py; np; th; pr] =>
      if has_own_generator then bind (call_seeding "seed"%string pr) (fun g => Ok [py; np; th; g])
      else Ok [py; np; th]
  | _ => Err ValueError
  end.
(* core.py:1972-2047 Problem._parallelize: start all actors. *)
Definition start_actors (has_own_generator : bool) (base : Z) (num_actors : nat) : result (list (list Z)) :=
  sequence (map (actor_init has_own_generator) (all_seeds base num_actors)).

(* ---------------------------------------------------------- adaptive population size *)
Section Adaptive.
Variable popsize : nat.
Variable popsize_max : option nat.
Variable num_interactions : Z.
(* made k: interactions made (since the start of this step) after k evaluations *)
Variable made : nat -> Z.

Definition max_reached (total : nat) : bool :=
  match popsize_max with Some m => Nat.leb m total | None => false end.

(* gaussian.py:314-346, k batches so far; popsize_max is checked first *)
Fixpoint adaptive_loop (fuel k total : nat) : result (nat * nat) :=
  match fuel with
  | O => Err OutOfFuel
  | S fuel' =>
      let k := S k in
      let total := total + popsize in
      if max_reached total then Ok (k, total)
      else if (num_interactions <? made k)%Z then Ok (k, total)
      else adaptive_loop fuel' k total
  end.

(* core.py:3255-3269, the same loop on an actor; interactions are checked first *)
Fixpoint adaptive_loop_remote (fuel k total : nat) : result (nat * nat) :=
  match fuel with
  | O => Err OutOfFuel
  | S fuel' =>
      let k := S k in
      let total := total + popsize in
      if (num_interactions <? made k)%Z then Ok (k, total)
      else if max_reached total then Ok (k, total)
      else adaptive_loop_remote fuel' k total
  end.
End Adaptive.

(* ---------------------------------------------------------- shapes in the averaging *)
(* gaussian.py:247-269 with shapes: the accumulator of every key is a vector of the solution
   length L, while ExpGaussian's gradient for "M" (distributions.py:980-987) is an L x L matrix.
   torch's in-place `+=` accepts a vector of length L (or 1) and rejects any 2-D right-hand side. *)
Inductive grad_tensor := GVec (v : list Q) | GMat (rows : list (list Q)).
Definition inplace_add (acc : list Q) (w : Q) (g : grad_tensor) : result (list Q) :=
  match g with
  | GVec v => if Nat.eqb (length v) (length acc) then Ok (map2 (fun a x => Qplus a (Qmult w x)) acc v)
              else match v with
                   | [x] => Ok (map (fun a => Qplus a (Qmult w x)) acc)
                   | _ => Err RuntimeError
                   end
  | GMat _ => Err RuntimeError
  end.
(* gradients of one task: one tensor per key *)
Fixpoint add_task (accs : list (list Q)) (w : Q) (gs : list grad_tensor) : result (list (list Q)) :=
  match accs, gs with
  | a :: accs', g :: gs' => bind (inplace_add a w g) (fun a' => rmap (cons a') (add_task accs' w gs'))
  | _, _ => Ok accs
  end.
Fixpoint average_tensors (accs : list (list Q)) (tasks : list (Q * list grad_tensor)) : result (list (list Q)) :=
  match tasks with
  | [] => Ok accs
  | (w, gs) :: t => bind (add_task accs w gs) (fun accs' => average_tensors accs' t)
  end.
Definition average_shaped (L nkeys : nat) (tasks : list (Q * list grad_tensor)) :=
  average_tensors (repeat (repeat 0%Q L) nkeys) tasks.
(* what XNES sends: keys "d" (a vector) and "M" (a matrix) *)
Definition xnes_grads (d : list Q) (M : list (list Q)) : list grad_tensor := [GVec d; GMat M].

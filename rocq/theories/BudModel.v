(* The genetic algorithms of GaModel.v and MapModel.v once more, with a record of every solution given to the
   fitness function: each call of Problem.evaluate adds the solutions of its batch, with their evaluations, to the record. *)
From Coq Require Import QArith.
From Verif Require Import Prelude FloatLib BatchModel ParetoModel GaModel MapModel.
Close Scope Q_scope.
Open Scope nat_scope.

Section Bud.
Context {V : Type}.
Variable sorter : bool -> list fl -> list nat.       (* torch.argsort *)
Variable crowd_order : list (list fl) -> list nat.   (* ordering by crowding distance *)
Variable qsorter : list Q -> list nat.               (* torch.argsort on combined ranks *)
Variable pick : bool -> list fl -> nat.              (* torch.argmax / argmin *)
Variable ev : nat -> list V -> list (list fl).

(* computations which also give the solutions evaluated on the way *)
Definition recorded (A : Type) := result (A * list (V * list fl)).
Definition ret {A} (x : A) : recorded A := Ok (x, []).
Definition lift {A} (r : result A) : recorded A := rmap (fun x => (x, [])) r.
Definition then_ {A B} (m : recorded A) (f : A -> recorded B) : recorded B :=
  bind m (fun p => bind (f (fst p)) (fun q => Ok (fst q, snd p ++ snd q))).
(* core.py:2527-2566 Problem.evaluate *)
Definition evaluate_r (k : nat) (b : batch V) : recorded (batch V) := rmap (fun b' => (b', combine (b_vals b') (b_ev b'))) (evaluate ev k b).

(* ga.py:145-244 _make_extended_population *)
Definition extended_r (cf : config) (ops : list (operator V)) (s : state V) : recorded (state V * batch V * batch V) :=
  let k := s_clock s in
  let n := length ops in
  if g_reeval cf then
    if g_first cf then
      then_ (evaluate_r k (s_pop s)) (fun pop =>
      then_ (lift (use_operators (k + 1) pop ops)) (fun children =>
      then_ (evaluate_r (k + 1 + n) children) (fun children' =>
      ret (mkSt pop false (k + n + 2), pop, children'))))
    else
      then_ (lift (use_operators k (s_pop s) ops)) (fun children =>
      then_ (evaluate_r (k + n) (cat (s_pop s) children)) (fun whole =>
      ret (mkSt (s_pop s) false (k + n + 1), head whole (b_len (s_pop s)), tail whole (b_len (s_pop s)))))
  else
    then_ (if s_first s then evaluate_r k (s_pop s) else ret (s_pop s)) (fun pop =>
    then_ (lift (use_operators (k + 1) pop ops)) (fun children =>
    then_ (evaluate_r (k + 1 + n) children) (fun children' =>
    ret (mkSt pop false (k + n + 2), pop, children')))).
(* ga.py:652-688 GeneticAlgorithm._step *)
Definition ga_step_r (cf : config) (ops : list (operator V)) (s : state V) : recorded (state V) :=
  then_ (extended_r cf ops s) (fun e =>
  let '(s', parents, children) := e in
  let popsize := g_popsize cf in
  let num_children := b_len children in
  lift (rmap (fun pop => mkSt pop (s_first s') (s_clock s'))
   (if g_elitist cf then best_of sorter crowd_order qsorter (cat parents children) popsize
    else if num_children <? popsize then
      bind (best_of sorter crowd_order qsorter (s_pop s') (popsize - num_children)) (fun chosen => Ok (cat chosen children))
    else if Nat.eqb num_children popsize then Ok children
    else best_of sorter crowd_order qsorter children popsize))).
Fixpoint ga_run_r (cf : config) (ops : list (operator V)) (n : nat) (s : state V) : recorded (state V) :=
  match n with O => ret s | S n' => then_ (ga_run_r cf ops n' s) (ga_step_r cf ops) end.
(* ga.py:1006-1033 Cosyne._step *)
Definition cosyne_step_r (popsize : nat) (num_elites : option Z) (cross : nat -> batch V -> result (batch V))
    (mutate : option (nat -> batch V -> result (batch V))) (permute : nat -> batch V -> result (batch V)) (s : state V) : recorded (state V) :=
  let k := s_clock s in
  then_ (if s_first s then evaluate_r k (s_pop s) else ret (s_pop s)) (fun pop =>
  let num_parents := popsize / 4 in
  let num_relevant := Z.max (match num_elites with None => 0%Z | Some e => e end) (Z.of_nat num_parents) in
  then_ (lift (best_of sorter crowd_order qsorter pop (Z.to_nat num_relevant))) (fun sorted_relevant =>
  let elites := match num_elites with
                | Some e => if (1 <=? e)%Z then Some (head sorted_relevant (Z.to_nat e)) else None
                | None => None end in
  then_ (lift (cross (k + 1) (head sorted_relevant num_parents))) (fun children =>
  then_ (lift (match mutate with Some m => m (k + 2) children | None => Ok children end)) (fun children =>
  then_ (lift (permute (k + 3) pop)) (fun permuted =>
  let rest := cat children permuted in
  then_ (evaluate_r (k + 4) (match elites with Some e => cat e rest | None => rest end)) (fun whole =>
  lift (rmap (fun pop' => mkSt pop' false (k + 5)) (best_of sorter crowd_order qsorter whole popsize)))))))).
Fixpoint cosyne_run_r (popsize : nat) (num_elites : option Z) cross mutate permute (n : nat) (s : state V) : recorded (state V) :=
  match n with O => ret s | S n' => then_ (cosyne_run_r popsize num_elites cross mutate permute n' s)
                                          (cosyne_step_r popsize num_elites cross mutate permute) end.
(* mapelites.py:56-75, 380-401 MAPElites._step *)
Definition map_step_r (cf : config) (ops : list (operator V)) (grid : list cell) (s : mstate V) : recorded (mstate V * batch V) :=
  then_ (extended_r cf ops (m_st s)) (fun e =>
  let '(s', parents, children) := e in
  let pool := cat parents children in
  lift (match b_desc pool with
  | d :: _ =>
    bind (sequence (map (best_for_cell pick d (b_vals pool) (b_ev pool)) grid)) (fun best =>
      let pop := mkBatch (map (fun r => fst (fst r)) best) (map (fun r => snd (fst r)) best) (b_desc pool) (b_ndata pool) in
      Ok (mkMap (mkSt pop (s_first s') (s_clock s')) (map snd best), pool))
  | [] => Err IndexError
  end)).
Fixpoint map_run_r (cf : config) (ops : list (operator V)) (grid : list cell) (n : nat) (s : mstate V) : recorded (mstate V * list V) :=
  match n with
  | O => ret (s, [])
  | S n' => then_ (map_run_r cf ops grid n' s) (fun r =>
            then_ (map_step_r cf ops grid (fst r)) (fun r' => ret (fst r', snd r ++ b_vals (snd r'))))
  end.
End Bud.

(* Model of the genetic algorithms (algorithms/ga.py): operators applied to populations, the
   extended population, GeneticAlgorithm, the operator registry of SteadyStateGA, and Cosyne.
   Random behaviour: operators and evaluations get the number of calls made so far. *)
From Coq Require Import QArith.
From Verif Require Import Prelude FloatLib BatchModel ParetoModel.
Close Scope Q_scope.
Open Scope nat_scope.

Section Ga.
Context {V : Type}.
Variable sorter : bool -> list fl -> list nat.       (* torch.argsort *)
Variable crowd_order : list (list fl) -> list nat.   (* ordering by crowding distance *)
Variable qsorter : list Q -> list nat.               (* torch.argsort on combined ranks *)
(* the evaluation rows which the k-th evaluation gives for the decision values *)
Variable ev : nat -> list V -> list (list fl).

(* core.py:4391-4415 SolutionBatch.take_best(n) *)
Definition best_of (b : batch V) (n : nat) : result (batch V) :=
  if 2 <=? num_objs b then take_best_multi crowd_order qsorter b n else take_best sorter b n None.
(* core.py:3699-3742 SolutionBatch.cat / merging_of *)
Definition cat (a b : batch V) : batch V := mkBatch (b_vals a ++ b_vals b) (b_ev a ++ b_ev b) (b_desc a) (b_ndata a).
(* a batch of the same kind with the given values and no evaluations: SolutionBatch(like=..., empty=True)
   followed by set_values, and clone() followed by set_values *)
Definition fresh (b : batch V) (values : list V) : batch V :=
  mkBatch values (map (fun _ => repeat NaN (eval_width b)) values) (b_desc b) (b_ndata b).
(* batch[:n] *)
Definition head (b : batch V) (n : nat) : batch V := mkBatch (firstn n (b_vals b)) (firstn n (b_ev b)) (b_desc b) (b_ndata b).
Definition tail (b : batch V) (n : nat) : batch V := mkBatch (skipn n (b_vals b)) (skipn n (b_ev b)) (b_desc b) (b_ndata b).
(* core.py:2527-2566 Problem.evaluate: an empty batch makes the search for its best solution fail
   (the problem keeps track of its best solutions) *)
Definition evaluate (k : nat) (b : batch V) : result (batch V) :=
  match b_vals b with [] => Err IndexError | vs => Ok (mkBatch vs (ev k vs) (b_desc b) (b_ndata b)) end.

(* operators: CopyingOperator (a cross-over or not), other Operator objects which work in place, and
   plain functions on decision values *)
Inductive operator :=
| Copying (cross : bool) (f : nat -> batch V -> result (batch V))
| InPlace (f : nat -> batch V -> result (batch V))
| Func (g : nat -> list V -> result (list V)).
(* ga.py:26-53 _use_operator *)
Definition use_operator (k : nat) (b : batch V) (op : operator) : result (batch V) :=
  match op with
  | Copying _ f => f k b
  | InPlace f => f k b  (* on a clone *)
  | Func g => rmap (fresh b) (g k (b_vals b))
  end.
(* ga.py:56-59 _use_operators *)
Fixpoint use_operators (k : nat) (b : batch V) (ops : list operator) : result (batch V) :=
  match ops with
  | [] => Ok b
  | op :: rest => bind (use_operator k b op) (fun b' => use_operators (S k) b' rest)
  end.
Definition is_cross (op : operator) : bool := match op with Copying c _ => c | _ => false end.

(* ga.py:79-143 ExtendedPopulationMixin.__init__: whether the parents are evaluated first *)
Definition mixin_init (re_evaluate : bool) (parents_first : option bool) (ops : list operator) (allow_empty : bool) : result bool :=
  if (negb allow_empty && match ops with [] => true | _ => false end)%bool then Err ValueError else
  match parents_first with
  | None => Ok (existsb is_cross ops)
  | Some pf => if negb re_evaluate then Err ValueError else Ok pf
  end.

Record config := mkConf { g_popsize : nat; g_elitist : bool; g_reeval : bool; g_first : bool }.
(* population, _first_iter, number of random calls so far *)
Record state := mkSt { s_pop : batch V; s_first : bool; s_clock : nat }.

(* ga.py:145-244 _make_extended_population: the parents and the children, both in the form in which
   they are returned (split=True); the whole batch is their concatenation (split=False).
   Evaluating the concatenation in one go changes copies, not the population (line 199). *)
Definition extended (cf : config) (ops : list operator) (s : state) : result (state * batch V * batch V) :=
  let k := s_clock s in
  let n := length ops in
  if g_reeval cf then
    if g_first cf then
      bind (evaluate k (s_pop s)) (fun pop =>
      bind (use_operators (k + 1) pop ops) (fun children =>
      bind (evaluate (k + 1 + n) children) (fun children' =>
      Ok (mkSt pop false (k + n + 2), pop, children'))))
    else
      bind (use_operators k (s_pop s) ops) (fun children =>
      bind (evaluate (k + n) (cat (s_pop s) children)) (fun whole =>
      Ok (mkSt (s_pop s) false (k + n + 1), head whole (b_len (s_pop s)), tail whole (b_len (s_pop s)))))
  else
    bind (if s_first s then evaluate k (s_pop s) else Ok (s_pop s)) (fun pop =>
    bind (use_operators (k + 1) pop ops) (fun children =>
    bind (evaluate (k + 1 + n) children) (fun children' =>
    Ok (mkSt pop false (k + n + 2), pop, children')))).

(* ga.py:652-688 GeneticAlgorithm._step *)
Definition ga_step (cf : config) (ops : list operator) (s : state) : result state :=
  bind (extended cf ops s) (fun e =>
  let '(s', parents, children) := e in
  let popsize := g_popsize cf in
  let num_children := b_len children in
  rmap (fun pop => mkSt pop (s_first s') (s_clock s'))
   (if g_elitist cf then best_of (cat parents children) popsize
    else if num_children <? popsize then
      bind (best_of (s_pop s') (popsize - num_children)) (fun chosen => Ok (cat chosen children))
    else if Nat.eqb num_children popsize then Ok children
    else best_of children popsize)).
Fixpoint ga_run (cf : config) (ops : list operator) (n : nat) (s : state) : result state :=
  match n with O => Ok s | S n' => bind (ga_run cf ops n' s) (ga_step cf ops) end.
(* ga.py:631-645: a fresh GeneticAlgorithm; values: what problem.generate_batch produced *)
Definition ga_init (like : batch V) (values : list V) : state := mkSt (fresh like values) true 0.

(* -------------------------------------------------------------------------------- Cosyne *)
(* ga.py:985-994 *)
Definition cosyne_elites (popsize : nat) (num_elites : option Z) (ratio : option Q) : result (option Z) :=
  match num_elites, ratio with
  | Some n, None => Ok (Some n)
  | None, Some r => let p := (inject_Z (Z.of_nat popsize) * r)%Q in Ok (Some (Z.quot (Qnum p) (Zpos (Qden p))))
  | None, None => Ok None
  | Some _, Some _ => Err ValueError
  end.
(* ga.py:955-968: is the mutation switched on? *)
Definition cosyne_mutation (stdev probability : option Q) : result bool :=
  match stdev, probability with
  | None, Some _ => Err ValueError
  | None, None => Ok false
  | Some _, _ => Ok true
  end.
(* ga.py:1006-1033 Cosyne._step; the operators get the number of calls so far *)
Definition cosyne_step (popsize : nat) (num_elites : option Z) (cross : nat -> batch V -> result (batch V))
    (mutate : option (nat -> batch V -> result (batch V))) (permute : nat -> batch V -> result (batch V)) (s : state) : result state :=
  let k := s_clock s in
  bind (if s_first s then evaluate k (s_pop s) else Ok (s_pop s)) (fun pop =>
  let num_parents := popsize / 4 in
  let num_relevant := Z.max (match num_elites with None => 0%Z | Some e => e end) (Z.of_nat num_parents) in
  bind (best_of pop (Z.to_nat num_relevant)) (fun sorted_relevant =>
  let elites := match num_elites with
                | Some e => if (1 <=? e)%Z then Some (head sorted_relevant (Z.to_nat e)) else None
                | None => None end in
  bind (cross (k + 1) (head sorted_relevant num_parents)) (fun children =>
  bind (match mutate with Some m => m (k + 2) children | None => Ok children end) (fun children =>
  bind (permute (k + 3) pop) (fun permuted =>
  let rest := cat children permuted in
  bind (evaluate (k + 4) (match elites with Some e => cat e rest | None => rest end)) (fun whole =>
  rmap (fun pop' => mkSt pop' false (k + 5)) (best_of whole popsize))))))).
Fixpoint cosyne_run (popsize : nat) (num_elites : option Z) cross mutate permute (n : nat) (s : state) : result state :=
  match n with O => Ok s | S n' => bind (cosyne_run popsize num_elites cross mutate permute n' s)
                                        (cosyne_step popsize num_elites cross mutate permute) end.
End Ga.
Arguments operator : clear implicits.
Arguments state : clear implicits.

(* ------------------------------------------------------------------ SteadyStateGA's registry *)
Section Registry.
Context {Op : Type}.
Variable is_cross_over : Op -> bool.
(* ga.py:782-785 and _operators *)
Record registry := mkReg { r_ops : list Op; r_cross : option Op; r_mut : option Op; r_forbid : bool; r_prepare : bool }.
(* ga.py:779-798 *)
Definition reg_init (operators : list Op) : registry := mkReg operators None None false false.
(* ga.py:800-871 use *)
Definition reg_use (r : registry) (op : Op) : registry * result unit :=
  if r_forbid r then (r, Err RuntimeError)
  else match r_ops r with
  | _ :: _ => (r, Err RuntimeError)
  | [] =>
    if is_cross_over op then
      match r_cross r with
      | Some _ => (r, Err ValueError)
      | None => (mkReg (r_ops r) (Some op) (r_mut r) (r_forbid r) true, Ok tt)
      end
    else
      match r_mut r with
      | Some _ => (r, Err ValueError)
      | None => (mkReg (r_ops r) (r_cross r) (Some op) (r_forbid r) true, Ok tt)
      end
  end.
Definition to_list (o : option Op) : list Op := match o with Some x => [x] | None => [] end.
(* ga.py:873-890 _step up to super()._step(): the operators which the generation uses *)
Definition reg_step (r : registry) : registry * result (list Op) :=
  let r1 := mkReg (r_ops r) (r_cross r) (r_mut r) true (r_prepare r) in
  if r_prepare r1 then
    let ops := r_ops r1 ++ to_list (r_cross r1) ++ to_list (r_mut r1) in
    (mkReg ops (r_cross r1) (r_mut r1) true false, Ok ops)
  else match r_ops r1 with
       | [] => (r1, Err RuntimeError)
       | ops => (r1, Ok ops)
       end.
Inductive call := Use (op : Op) | Step.
Inductive answer := AUse (r : result unit) | AStep (r : result (list Op)).
Fixpoint reg_run (r : registry) (cs : list call) : list answer :=
  match cs with
  | [] => []
  | Use op :: cs' => let (r', a) := reg_use r op in AUse a :: reg_run r' cs'
  | Step :: cs' => let (r', a) := reg_step r in AStep a :: reg_run r' cs'
  end.
(* ga.py:787-788, 132-141: whether the parents get evaluated first *)
Definition steady_first (re_evaluate : bool) (parents_first : option bool) (no_operators using_cross : bool) : result bool :=
  let pf := if (no_operators && re_evaluate && match parents_first with None => true | _ => false end)%bool then Some true else parents_first in
  match pf with
  | None => Ok using_cross
  | Some b => if negb re_evaluate then Err ValueError else Ok b
  end.
End Registry.
Arguments registry : clear implicits.
Arguments call : clear implicits.

(* Model of the life of a neuroevolution problem: neuroevolution/neproblem.py (NEProblem), with the parts of core.py which create
   actors, prepare, evaluate, clone and pickle.
   Simplifications: a network object is a structure and its flat parameters (ParamModel.v treats the tensors); the score of a
   solution is a function of structure and parameters; a vector of a wrong length is refused without touching the network
   (ParamModel.v models what really happens); every process has its own heap of network objects, since pickling copies. *)
From Verif Require Import Prelude.
Open Scope nat_scope.

Section NE.
Variables V F Sg : Type.
Variable nparams : Sg -> nat.                       (* number of parameters of a structure *)
Variable init : nat -> Sg -> list V.                (* initial parameters of a new network (any) *)
Variable score : Sg -> list V -> F.                 (* network_eval_func / _evaluate_network *)

Record netobj := { o_sig : Sg; o_params : list V }.
(* what the user gave: a string or a callable, from which networks are built, or a network object *)
Inductive nspec := NBuild (s : Sg) | NModule (i : nat).

(* the attributes _original_network, instantiated_network, _prepared of a problem object, and the network objects of its process *)
Record proc := { p_original : option nspec; p_inst : option nat; p_prepared : bool; p_heap : list netobj }.

(* neproblem.py:292-315 _instantiate_net: a string or a callable gives a new object, a module is used as it is; for None the last
   branch calls None *)
Definition instantiate_net (sp : option nspec) (h : list netobj) : result (nat * list netobj) :=
  match sp with
  | None => Err TypeError
  | Some (NBuild s) => Ok (length h, h ++ [{| o_sig := s; o_params := init (length h) s |}])
  | Some (NModule i) => Ok (i, h)
  end.
(* neproblem.py:317-321 _prepare *)
Definition prepare (p : proc) : proc * result unit :=
  match instantiate_net (p_original p) (p_heap p) with
  | Err e => (p, Err e)
  | Ok (i, h) => ({| p_original := None; p_inst := Some i; p_prepared := p_prepared p; p_heap := h |}, Ok tt)
  end.
(* core.py:2467-2477 _start_preparations *)
Definition start_preparations (has_actors : bool) (p : proc) : proc * result unit :=
  if p_prepared p then (p, Ok tt)
  else match (if has_actors then (p, Ok tt) else prepare p) with
       | (p1, Err e) => (p1, Err e)
       | (p1, Ok _) => ({| p_original := p_original p1; p_inst := p_inst p1; p_prepared := true; p_heap := p_heap p1 |}, Ok tt)
       end.
(* fill_parameters, see above *)
Definition fill (i : nat) (v : list V) (h : list netobj) : result (list netobj) :=
  match nth_error h i with
  | None => Err AttributeError
  | Some o => if length v =? nparams (o_sig o) then Ok (upd h i {| o_sig := o_sig o; o_params := v |}) else Err IndexError
  end.
(* neproblem.py:342-363 parameterize_net; returns the network object *)
Definition parameterize_net (p : proc) (v : list V) : proc * result nat :=
  match (match p_inst p with
         | Some i => Ok (i, p_heap p)
         | None => instantiate_net (p_original p) (p_heap p)
         end) with
  | Err e => (p, Err e)
  | Ok (i, h) =>
    let p1 := {| p_original := p_original p; p_inst := Some i; p_prepared := p_prepared p; p_heap := h |} in
    match fill i v h with
    | Err e => (p1, Err e)
    | Ok h' => ({| p_original := p_original p; p_inst := Some i; p_prepared := p_prepared p; p_heap := h' |}, Ok i)
    end
  end.
(* neproblem.py:407-429 _evaluate, for one solution *)
Definition evaluate_one (p : proc) (v : list V) : proc * result F :=
  match parameterize_net p v with
  | (p1, Err e) => (p1, Err e)
  | (p1, Ok i) => match nth_error (p_heap p1) i with
                  | Some o => (p1, Ok (score (o_sig o) (o_params o)))
                  | None => (p1, Err AttributeError)
                  end
  end.
(* core.py:2605-2606, the loop of _evaluate_batch *)
Fixpoint evaluate_batch (p : proc) (vs : list (list V)) : proc * result (list F) :=
  match vs with
  | [] => (p, Ok [])
  | v :: t => match evaluate_one p v with
              | (p1, Err e) => (p1, Err e)
              | (p1, Ok f) => let '(p2, r) := evaluate_batch p1 t in (p2, rmap (cons f) r)
              end
  end.
(* neproblem.py:323-340 make_net: a deep copy of the filled network *)
Definition make_net (p : proc) (v : list V) : proc * result nat :=
  match parameterize_net p v with
  | (p1, Err e) => (p1, Err e)
  | (p1, Ok i) => match nth_error (p_heap p1) i with
                  | Some o => ({| p_original := p_original p1; p_inst := p_inst p1; p_prepared := p_prepared p1; p_heap := p_heap p1 ++ [o] |},
                               Ok (length (p_heap p1)))
                  | None => (p1, Err AttributeError)
                  end
  end.
(* core.py:2706-2729 _get_cloned_state with neproblem.py:289-290: everything is copied, except instantiated_network (and the actors);
   used by clone() and by pickling *)
Definition copied (p : proc) : proc :=
  match p_original p with
  | Some (NModule i) => match nth_error (p_heap p) i with
                        | Some o => {| p_original := Some (NModule 0); p_inst := None; p_prepared := p_prepared p; p_heap := [o] |}
                        | None => {| p_original := Some (NModule 0); p_inst := None; p_prepared := p_prepared p; p_heap := [] |}
                        end
  | sp => {| p_original := sp; p_inst := None; p_prepared := p_prepared p; p_heap := [] |}
  end.

(* a problem: the main process, the configured number of actors, and the actors once they exist *)
Record problem := { g_main : proc; g_num_actors : nat; g_actors : option (list proc) }.
(* the constructor, neproblem.py:217-229; the network object given by the user, if any, is object 0 *)
Definition new_problem (sp : nspec) (given : list netobj) (n : nat) : problem :=
  {| g_main := {| p_original := Some sp; p_inst := None; p_prepared := false; p_heap := given |}; g_num_actors := n; g_actors := None |}.
(* core.py:1972-2047 _parallelize *)
Definition parallelize (g : problem) : problem :=
  if g_num_actors g =? 0 then g
  else match g_actors g with
       | Some _ => g
       | None => {| g_main := g_main g; g_num_actors := g_num_actors g; g_actors := Some (repeat (copied (g_main g)) (g_num_actors g)) |}
       end.
(* an actor evaluates a piece: core.py:147-171, then evaluate() of its own problem object (core.py:2545-2557) *)
Definition actor_evaluate (p : proc) (vs : list (list V)) : proc * result (list F) :=
  match start_preparations false p with
  | (p1, Err e) => (p1, Err e)
  | (p1, Ok _) => evaluate_batch p1 vs
  end.
(* core.py:2590-2595: the pieces of the batch, each with the number of the actor which takes it *)
Fixpoint evaluate_pieces (acts : list proc) (pieces : list (nat * list (list V))) : list proc * result (list F) :=
  match pieces with
  | [] => (acts, Ok [])
  | (k, vs) :: t =>
    match nth_error acts k with
    | None => (acts, Err RuntimeError)
    | Some a => match actor_evaluate a vs with
                | (a1, Err e) => (upd acts k a1, Err e)
                | (a1, Ok fs) => let '(acts2, r) := evaluate_pieces (upd acts k a1) t in (acts2, rmap (app fs) r)
                end
    end
  end.
(* core.py:2527-2595 evaluate(); [pieces] says how the batch is split among the actors *)
Definition evaluate (g0 : problem) (pieces : list (nat * list (list V))) : problem * result (list F) :=
  let g := parallelize g0 in
  let has_actors := match g_actors g with Some _ => true | None => false end in
  match start_preparations (has_actors && negb (g_num_actors g =? 0)) (g_main g) with
  | (m1, Err e) => ({| g_main := m1; g_num_actors := g_num_actors g; g_actors := g_actors g |}, Err e)
  | (m1, Ok _) =>
    match g_actors g with
    | None => let '(m2, r) := evaluate_batch m1 (concat (map snd pieces)) in
              ({| g_main := m2; g_num_actors := g_num_actors g; g_actors := None |}, r)
    | Some acts => let '(acts2, r) := evaluate_pieces acts pieces in
                   ({| g_main := m1; g_num_actors := g_num_actors g; g_actors := Some acts2 |}, r)
    end
  end.
(* clone() or a pickle round-trip of the main object *)
Definition clone (g : problem) : problem := {| g_main := copied (g_main g); g_num_actors := g_num_actors g; g_actors := None |}.
(* core.py:2112-2128 kill_actors; iterating over None raises TypeError *)
Definition kill_actors (g : problem) : problem * result unit :=
  match g_actors g with
  | None => (g, Err TypeError)
  | Some _ => ({| g_main := g_main g; g_num_actors := g_num_actors g; g_actors := None |}, Ok tt)
  end.

(* what a user does with a problem object *)
Inductive ne_op := OpEvaluate (pieces : list (nat * list (list V))) | OpMakeNet (v : list V) | OpKill | OpBecomeClone.
Definition ne_step (g : problem) (op : ne_op) : problem :=
  match op with
  | OpEvaluate pieces => fst (evaluate g pieces)
  | OpMakeNet v => {| g_main := fst (make_net (g_main g) v); g_num_actors := g_num_actors g; g_actors := g_actors g |}
  | OpKill => fst (kill_actors g)
  | OpBecomeClone => clone g
  end.
Definition ne_run (g : problem) (ops : list ne_op) : problem := fold_left ne_step ops g.
End NE.

Arguments o_sig {V Sg} _.
Arguments o_params {V Sg} _.
Arguments NBuild {Sg} s.
Arguments NModule {Sg} i.
Arguments p_original {V Sg} _.
Arguments p_inst {V Sg} _.
Arguments p_prepared {V Sg} _.
Arguments p_heap {V Sg} _.
Arguments g_main {V Sg} _.
Arguments g_num_actors {V Sg} _.
Arguments g_actors {V Sg} _.
Arguments instantiate_net {V Sg} _ _ _.
Arguments prepare {V Sg} _ _.
Arguments start_preparations {V Sg} _ _ _.
Arguments fill {V Sg} _ _ _ _.
Arguments parameterize_net {V Sg} _ _ _ _.
Arguments evaluate_one {V F Sg} _ _ _ _ _.
Arguments evaluate_batch {V F Sg} _ _ _ _ _.
Arguments make_net {V Sg} _ _ _ _.
Arguments copied {V Sg} _.
Arguments new_problem {V Sg} _ _ _.
Arguments parallelize {V Sg} _.
Arguments actor_evaluate {V F Sg} _ _ _ _ _.
Arguments evaluate_pieces {V F Sg} _ _ _ _ _.
Arguments evaluate {V F Sg} _ _ _ _ _.
Arguments clone {V Sg} _.
Arguments kill_actors {V Sg} _.
Arguments OpEvaluate {V} _.
Arguments OpMakeNet {V} _.
Arguments OpKill {V}.
Arguments OpBecomeClone {V}.
Arguments ne_step {V F Sg} _ _ _ _ _.
Arguments ne_run {V F Sg} _ _ _ _ _.

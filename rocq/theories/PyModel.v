(* Model of PyCMAES (algorithms/pycmaes.py), the search algorithm which drives the external package
   pycma: the options passed to it and what it is told about the solutions it has asked for. *)
From Coq Require Import QArith String.
From Verif Require Import Prelude FloatLib BatchModel EvalModel.
Close Scope Q_scope.
Open Scope nat_scope.

(* An end of an interval: a number, minus infinity or infinity. *)
Inductive bound := BFin (q : Q) | BNInf | BPInf.
(* Values of options: numbers, vectors, infinity, truth values, a pair of vectors of bounds, and others. *)
Inductive val := VInt (z : Z) | VNum (q : Q) | VVec (l : list Q) | VInfinity | VBool (b : bool)
               | VBounds (lb ub : list bound) | VOther (n : nat).
Inductive scalar_or_vector := Scal (q : Q) | Vect (l : list Q).

Definition dict := list (string * val).
Fixpoint lookup (k : string) (d : dict) : option val :=
  match d with [] => None | (k', v) :: r => if String.eqb k k' then Some v else lookup k r end.
Definition has (k : string) (d : dict) : bool := match lookup k d with Some _ => true | None => false end.
(* d[k] = v *)
Definition put (k : string) (v : val) (d : dict) : dict := (k, v) :: d.

Record args := mkArgs {
  popsize : option Z; center_learning_rate : option Q; cov_learning_rate : option Q;
  rankmu_learning_rate : option Q; rankone_learning_rate : option Q;
  stdev_min : option scalar_or_vector; stdev_max : option scalar_or_vector; separable : bool }.

(* pycmaes.py:178-200 the inner function store_opt *)
Definition store_opt (key : string) (value : option val) (d : dict) : result dict :=
  match value with
  | None => Ok d
  | Some v => if has key d then Err ValueError else Ok (put key v d)
  end.
(* pycmaes.py:203-207 array_or_float *)
Definition array_or_float (x : scalar_or_vector) : val := match x with Scal q => VNum q | Vect l => VVec l end.

(* pycmaes.py:171-174 *)
Definition initial_options (cma_options : dict) : dict :=
  if has "maxiter" cma_options then cma_options else put "maxiter" VInfinity cma_options.
(* pycmaes.py:211-219 *)
Definition store_all (a : args) (d : dict) : result dict :=
  bind (store_opt "popsize" (option_map VInt (popsize a)) d) (fun d =>
  bind (store_opt "CMA_cmean" (option_map VNum (center_learning_rate a)) d) (fun d =>
  bind (store_opt "CMA_on" (option_map VNum (cov_learning_rate a)) d) (fun d =>
  bind (store_opt "CMA_rankmu" (option_map VNum (rankmu_learning_rate a)) d) (fun d =>
  bind (store_opt "CMA_rankone" (option_map VNum (rankone_learning_rate a)) d) (fun d =>
  bind (store_opt "minstd" (option_map array_or_float (stdev_min a)) d) (fun d =>
  bind (store_opt "maxstd" (option_map array_or_float (stdev_max a)) d) (fun d =>
  if separable a then store_opt "CMA_diagonal" (Some (VBool true)) d else Ok d))))))).
(* pycmaes.py:222-230 process_bounds, for solutions of length n *)
Definition process_bounds (n : nat) (x : option scalar_or_vector) : option (list bound) :=
  match x with
  | None => None
  | Some (Scal q) => Some (repeat (BFin q) n)
  | Some (Vect l) => Some (map BFin l)
  end.
(* pycmaes.py:232-247 *)
Definition register_bounds (n : nat) (lb ub : option scalar_or_vector) (d : dict) : dict :=
  match process_bounds n lb, process_bounds n ub with
  | Some l, None => put "bounds" (VBounds l (repeat BPInf n)) d
  | None, Some u => put "bounds" (VBounds (repeat BNInf n) u) d
  | Some l, Some u => put "bounds" (VBounds l u) d
  | None, None => d
  end.
(* pycmaes.py:250-251, where raw is the output of the generator (tools/misc.py:1808-1809) *)
Definition add_seed (raw : Z) (d : dict) : dict :=
  if has "seed" d then d else put "seed" (VInt (raw mod (2 ^ 32 - 100) + 100)) d.
(* pycmaes.py:164-254 the options given to pycma *)
Definition options (a : args) (cma_options : dict) (n : nat) (lb ub : option scalar_or_vector) (raw : Z) : result dict :=
  rmap (fun d => add_seed raw (register_bounds n lb ub d)) (store_all a (initial_options cma_options)).

(* pycmaes.py:270-278 _step: what is told about the solutions asked for.  They are written into the
   population in the dtype of the problem (cast), evaluated, and reported with their utilities
   multiplied by -1.  junk: the evaluations of the population before. *)
Definition step {A V} (cast : A -> V) (fit : fitness V) (g : setting) (senses : list bool) (ndata : nat) (old : list (list fl))
    (obj_index : Z) (asked : list A) : result (batch V * (list A * list fl)) :=
  bind (evaluate_all fit g (mkBatch (map cast asked) old senses ndata)) (fun b =>
  bind (utility b true obj_index) (fun us => Ok (b, (asked, map fneg us)))).

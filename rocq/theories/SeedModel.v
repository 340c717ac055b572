(* Model of where random numbers come from: core.py:1611-1631 and 1700-1715 (the generator of a problem), tools/tensormaker.py:96-103 and
   tools/misc.py:1523-1537 (which generator a maker uses), and all places of the search algorithms and operators which ask for random numbers.
   What is computed from the numbers is left open: the deterministic parts are functions given as arguments (other models describe them), the
   fitness function does not draw.  A generator of PyTorch is a state; a request for numbers gives a tensor and the next state.  Not modelled: devices
   (each has its own global generator), starting of actors, PyCMAES (its numbers come from the library pycma). *)
From Verif Require Import Prelude.
Open Scope nat_scope.

(* what is asked of a generator: uniform, standard normal (possibly in mirrored pairs), or integers below a bound, with a shape *)
Inductive request := Uniform (shape : list nat) | Gaussian (mirrored : bool) (shape : list nat) | Integers (bound : nat) (shape : list nat).

Section SEED.
Variables rng tensor py : Type.
Variable draw : request -> rng -> tensor * rng.
Variable seeded : nat -> rng.                (* a generator after manual_seed *)
Variable py_randint : py -> nat * py.        (* random.randint(0, 2 ** 32 - 1) of Python *)

(* the generator of the problem object (None: it has none), the global generator of PyTorch, and that of Python *)
Record world := World { own : option rng; glob : rng; pyg : py }.
(* programs which may draw *)
Definition M (A : Type) : Type := world -> A * world.
Definition ret {A} (a : A) : M A := fun w => (a, w).
Definition bindM {A B} (m : M A) (k : A -> M B) : M B := fun w => let '(a, w1) := m w in k a w1.
Definition draw_global (r : request) : M tensor := fun w => let '(t, g) := draw r (glob w) in (t, World (own w) g (pyg w)).
Definition draw_py : M nat := fun w => let '(s, p) := py_randint (pyg w) in (s, World (own w) (glob w) p).
(* core.py:1611-1631 *)
Definition manual_seed (seed : option nat) : M unit := fun w => (tt, World (match seed with None => None | Some s => Some (seeded s) end) (glob w) (pyg w)).
(* torch's functions with generator=g, where g is the attribute `generator` of the problem; generator=None means the global one *)
Definition draw_attribute (r : request) : M tensor :=
  fun w => match own w with Some g => let '(t, g1) := draw r g in (t, World (Some g1) (glob w) (pyg w)) | None => draw_global r w end.
(* the argument `generator` of a maker: missing, or the problem object *)
Inductive generator_arg := Missing | TheProblem.
(* the makers of a problem: tensormaker.py:96-103, then misc.py:1523-1537 *)
Definition problem_make (g : generator_arg) (r : request) : M tensor :=
  match g with Missing => draw_attribute r | TheProblem => draw_attribute r end.
(* the makers of a distribution, which has no attribute `generator` *)
Definition distribution_make (g : generator_arg) (r : request) : M tensor :=
  match g with Missing => draw_global r | TheProblem => draw_attribute r end.

Notation "x <- m ;; k" := (bindM m (fun x => k)) (at level 61, m at next level, right associativity).

(* core.py:1835-1904: generate_values of a numeric problem *)
Definition generate_values (length_ : nat) (num : nat) : M tensor := problem_make Missing (Uniform [num; length_]).

(* ---- SNES, XNES, PGPE, CEM without distribution of work (gaussian.py) ---- *)
Section GAUSS.
Variables (dist pop : Type).
Variable length_ : nat.
Variable popsize : nat.
Variable mirrored : bool.                              (* SymmetricSeparableGaussian *)
Variable start : tensor -> dist.                       (* the initial distribution around the generated center *)
Variable place : dist -> tensor -> pop.                (* distributions.py:512-513, 703-704, 956-960: from normal numbers to evaluated solutions *)
Variable update : dist -> list pop -> dist.            (* gradients and update *)
Variable enough : list pop -> bool.                    (* gaussian.py:334-345 *)
(* gaussian.py:94-97 *)
Definition gauss_init (center_init : option dist) : M dist :=
  match center_init with None => t <- generate_values length_ 1 ;; ret (start t) | Some d => ret d end.
(* gaussian.py:292, 327 with distributions.py:153-214 *)
Definition sample (d : dist) : M pop := t <- distribution_make TheProblem (Gaussian mirrored [popsize; length_]) ;; ret (place d t).
(* gaussian.py:276-350; at most `most` batches of solutions (the while loop of the code has no bound of its own) *)
Fixpoint sample_until (most : nat) (d : dist) (got : list pop) : M (list pop) :=
  match most with
  | O => ret got
  | S r => p <- sample d ;; (if enough (got ++ [p]) then ret (got ++ [p]) else sample_until r d (got ++ [p]))
  end.
Definition fill_and_eval (adaptive : option nat) (d : dist) : M (list pop) :=
  match adaptive with None => p <- sample d ;; ret [p] | Some most => sample_until most d [] end.
(* gaussian.py:352-370 *)
Definition gauss_step (adaptive : option nat) (s : dist * option (list pop)) : M (dist * option (list pop)) :=
  let d := match snd s with None => fst s | Some ps => update (fst s) ps end in
  ps <- fill_and_eval adaptive d ;; ret (d, Some ps).
End GAUSS.

(* ---- CMA-ES (cmaes.py:236, 249, 421) ---- *)
Section CMA.
Variables (cstate : Type) (length_ popsize : nat) (cstart : option tensor -> tensor -> cstate) (cnext : cstate -> tensor -> cstate).
Definition cma_init (center_given : bool) : M cstate :=
  p <- generate_values length_ popsize ;;
  (if center_given then ret (cstart None p) else c <- generate_values length_ 1 ;; ret (cstart (Some c) p)).
Definition cma_step (s : cstate) : M cstate := z <- problem_make Missing (Gaussian false [popsize; length_]) ;; ret (cnext s z).
End CMA.

(* ---- operators; `batch` and `pair` are solution batches and the parents of a cross-over ---- *)
Section OPS.
Variables (batch pair : Type).
Variable size : batch -> nat.
Variable shape : batch -> list nat.
Variable shape1 : pair -> list nat.                    (* the shape of the first half of the parents *)
(* operators/base.py:266-360; several objectives without a chosen one: random numbers break ties of ranks *)
Definition tournament (by_fronts : bool) (num_tournaments tournament_size : nat) (choose : batch -> option tensor -> tensor -> pair) (b : batch) : M pair :=
  if by_fronts then u <- problem_make Missing (Uniform [size b]) ;; i <- problem_make Missing (Integers (size b) [num_tournaments; tournament_size]) ;; ret (choose b (Some u) i)
  else i <- problem_make Missing (Integers (size b) [num_tournaments; tournament_size]) ;; ret (choose b None i).
(* operators/real.py:166-213 *)
Definition multi_point (points length_ : nat) (cut : pair -> tensor -> batch) (p : pair) : M batch :=
  let n := nth 0 (shape1 p) 0 in
  t <- problem_make Missing (if Nat.eqb points 1 then Integers (length_ - 1) [n; 1] else Integers (length_ + 1) [n; points]) ;; ret (cut p t).
(* operators/real.py:456-480 *)
Definition sbx (blend : pair -> tensor -> batch) (p : pair) : M batch := u <- problem_make Missing (Uniform (shape1 p)) ;; ret (blend p u).
(* operators/sequence.py:38-75: two cut points per pair of parents, whose lengths are given *)
Fixpoint cut_points (lengths : list (nat * nat)) : M (list (tensor * tensor)) :=
  match lengths with
  | [] => ret []
  | (a, b) :: r => c1 <- problem_make Missing (Integers a []) ;; c2 <- problem_make Missing (Integers b []) ;; cs <- cut_points r ;; ret ((c1, c2) :: cs)
  end.
Definition cut_and_splice (lengths : pair -> list (nat * nat)) (splice : pair -> list (tensor * tensor) -> batch) (p : pair) : M batch :=
  cs <- cut_points (lengths p) ;; ret (splice p cs).
(* operators/base.py:405-420 *)
Definition cross_over (select : batch -> M pair) (recombine : pair -> M batch) (b : batch) : M batch := p <- select b ;; recombine p.
(* operators/real.py:60-67 *)
Definition gaussian_mutation (marked : batch -> tensor -> nat) (perturb : batch -> tensor -> tensor -> batch) (b : batch) : M batch :=
  u <- problem_make Missing (Uniform (shape b)) ;; g <- problem_make Missing (Gaussian false [marked b u]) ;; ret (perturb b u g).
(* operators/real.py:545-605 *)
Definition polynomial_mutation (with_probability : bool) (marked : batch -> option tensor -> nat) (mutate : batch -> option tensor -> tensor -> batch) (b : batch) : M batch :=
  if with_probability then u <- problem_make Missing (Uniform (shape b)) ;; r <- problem_make Missing (Uniform [marked b (Some u)]) ;; ret (mutate b (Some u) r)
  else r <- problem_make Missing (Uniform [marked b None]) ;; ret (mutate b None r).
(* operators/real.py:665-705 *)
Definition cosyne_permutation (permute : batch -> tensor -> tensor -> batch) (b : batch) : M batch :=
  m <- problem_make Missing (Uniform (shape b)) ;; r <- problem_make Missing (Uniform (shape b)) ;; ret (permute b m r).

(* the operators of evotorch.operators *)
Inductive recombination := MultiPoint (points length_ : nat) (cut : pair -> tensor -> batch) | Sbx (blend : pair -> tensor -> batch)
  | CutAndSplice (lengths : pair -> list (nat * nat)) (splice : pair -> list (tensor * tensor) -> batch).
Inductive operator :=
  | CrossOver (by_fronts : bool) (num_tournaments tournament_size : nat) (choose : batch -> option tensor -> tensor -> pair) (rec : recombination)
  | GaussianMutation (marked : batch -> tensor -> nat) (perturb : batch -> tensor -> tensor -> batch)
  | PolynomialMutation (with_probability : bool) (marked : batch -> option tensor -> nat) (mutate : batch -> option tensor -> tensor -> batch)
  | CosynePermutation (permute : batch -> tensor -> tensor -> batch)
  | Deterministic (f : batch -> batch).                  (* a function of the user which does not draw *)
Definition recombine (r : recombination) : pair -> M batch :=
  match r with MultiPoint k l c => multi_point k l c | Sbx f => sbx f | CutAndSplice l s => cut_and_splice l s end.
Definition apply_op (o : operator) : batch -> M batch :=
  match o with
  | CrossOver f n t c r => cross_over (tournament f n t c) (recombine r)
  | GaussianMutation m p => gaussian_mutation m p
  | PolynomialMutation q m f => polynomial_mutation q m f
  | CosynePermutation p => cosyne_permutation p
  | Deterministic f => fun b => ret (f b)
  end.
(* ga.py:56-59: the operators are applied one after the other *)
Fixpoint apply_all (os : list operator) (b : batch) : M batch := match os with [] => ret b | o :: r => b1 <- apply_op o b ;; apply_all r b1 end.
(* ga.py:635 and mapelites.py:336: the initial population; `as_batch` makes an unevaluated batch of the values *)
Definition pop_init (length_ popsize : nat) (as_batch : tensor -> batch) : M batch := t <- generate_values length_ popsize ;; ret (as_batch t).
(* ga.py:155-246, 652-688 and mapelites.py:381-405: evaluate the parents where needed, let the operators produce children, evaluate
   and select; evaluation and selection do not draw *)
Definition pop_step (os : list operator) (prepare : batch -> batch) (select : batch -> batch -> batch) (b : batch) : M batch :=
  let b1 := prepare b in c <- apply_all os b1 ;; ret (select b1 c).
(* ga.py:1006-1034 (Cosyne): the best solutions have children by cross-over, which may be mutated; the whole population is permuted *)
Definition cosyne_step (cross permutation : operator) (mutation : option operator) (prepare best : batch -> batch) (merge : batch -> batch -> batch -> batch) (b : batch) : M batch :=
  let b1 := prepare b in
  c <- apply_op cross (best b1) ;;
  c1 <- (match mutation with None => ret c | Some o => apply_op o c end) ;;
  p <- apply_op permutation b1 ;;
  ret (merge b1 c1 p).
End OPS.

(* ---- whole runs: the states after each generation; before each generation other code may act on the world (for instance draw random numbers) ---- *)
Fixpoint generations {S} (step : S -> M S) (others : list (world -> world)) (s : S) : M (list S) :=
  match others with
  | [] => ret []
  | o :: r => fun w => (s1 <- step s ;; l <- generations step r s1 ;; ret (s1 :: l)) (o w)
  end.
Definition run {S} (init : M S) (step : S -> M S) (others : list (world -> world)) : M (S * list S) :=
  s <- init ;; l <- generations step others s ;; ret (s, l).

(* ---- evaluation in environments ---- *)
(* gymne.py:334-342: a batch of actions with noise; add_noise stdev actions t adds stdev * t *)
Definition gymne_noise {act} (add_noise : act -> tensor -> act) (len : act -> nat) (noisy : bool) (a : act) : M act :=
  if noisy then t <- problem_make Missing (Gaussian false [len a]) ;; ret (add_noise a t) else ret a.
(* vecgymne.py:840-844: torch.rand_like has no generator *)
Definition vecgymne_noise {act} (add_noise : act -> tensor -> act) (dims : act -> list nat) (noisy : bool) (a : act) : M act :=
  if noisy then t <- draw_global (Uniform (dims a)) ;; ret (add_noise a t) else ret a.
(* vecgymne.py:558-568: the seed of a new environment, None where it has no method `seed` *)
Definition vecgymne_new_env {env} (make : env) (seed_env : env -> nat -> option env) : M env :=
  s <- draw_py ;; ret (match seed_env make s with Some e => e | None => make end).
End SEED.

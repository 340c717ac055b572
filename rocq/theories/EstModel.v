(* Model of the functional samplers and gradient estimators (distributions.py, FunctionalSampler and
   FunctionalGradEstimator), and of the checks of the parameters of the separable Gaussian distributions.
   Python objects other than strings and dictionaries are values of an arbitrary type V; batches are vmapped over by
   expects_ndim (NdimModel.v) and not repeated here.  `mu` and `sigma` are lists of rationals in the second part. *)
From Coq Require Import QArith String.
From Verif Require Import Prelude RandModel.
Open Scope nat_scope.

(* a dictionary: keys are unique *)
Definition dict (V : Type) := list (string * V).
Definition lookup {V} (k : string) (d : dict V) : option V := option_map snd (find (fun kv => String.eqb (fst kv) k) d).
Definition has {V} (k : string) (d : dict V) : bool := match lookup k d with Some _ => true | None => false end.
(* d[k] = v *)
Fixpoint put {V} (k : string) (v : V) (d : dict V) : dict V :=
  match d with
  | [] => [(k, v)]
  | (k', v') :: t => if String.eqb k' k then (k', v) :: t else (k', v') :: put k v t
  end.
(* {**a, **b} *)
Definition merge {V} (a b : dict V) : dict V := fold_left (fun d kv => put (fst kv) (snd kv) d) b a.
(* dict(zip(names, values)) *)
Definition zip_dict {V} (names : list string) (values : list V) : dict V := merge [] (combine names values).

Section Functional.
  Context {V D noise : Type}.
  Variable none : V.                                      (* None *)
  Variable rows count : V -> nat.                          (* number of rows of a matrix, length of a vector *)
  (* the wrapped class: its constructor, `sample`, `compute_gradients`, and `functional_sample` (None: NotImplemented) *)
  Variable construct : dict V -> result D.
  Variable sample : D -> V -> noise -> result V.
  Variable compute_gradients : D -> V -> V -> V -> V -> result V.
  Variable functional_sample : option (V -> dict V -> noise -> result V).

  (* distributions.py:1036-1038, 1231-1233: {name: i for i, name in enumerate(required)} *)
  Definition required_param_pos (required : list string) : dict nat :=
    merge [] (combine required (seq 0 (length required))).
  (* distributions.py:1058-1078, 1330-1349: the parameters, in the order of required_parameters *)
  Definition bind_parameters (required : list string) (args : list V) (kwargs : dict V) : result (list V) :=
    let num_args := length args in
    let num_kwargs := length kwargs in
    let n := length required in
    if (Nat.eqb num_args 0) && (Nat.eqb num_kwargs n) then
      fold_left (fun acc kv => bind acc (fun parameters =>
                   match lookup (fst kv) (required_param_pos required) with
                   | None => Err KeyError
                   | Some i => Ok (upd parameters i (snd kv))
                   end)) kwargs (Ok (repeat none n))
    else if (Nat.eqb num_args n) && (Nat.eqb num_kwargs 0) then Ok args
    else if (Nat.eqb num_args 0) && (Nat.eqb num_kwargs 0) then Err TypeError
    else if (Nat.ltb 0 num_args) && (Nat.ltb 0 num_kwargs) then Err TypeError
    else Err TypeError.

  (* ---------------------------------------------------------------- sampler *)
  (* distributions.py:1029-1048 *)
  Definition make_sampler (required : list string) : result unit :=
    if Nat.eqb (length required) 0 then Err TypeError else Ok tt.
  (* distributions.py:1050-1056 *)
  Definition sampler_sample (required : list string) (fixed : dict V) (num_solutions : V) (parameters : list V) (z : noise) : result V :=
    let parameters := merge (zip_dict required parameters) fixed in
    match functional_sample with
    | None => bind (construct parameters) (fun d => sample d num_solutions z)
    | Some f => f num_solutions parameters z
    end.
  (* distributions.py:1058-1079 *)
  Definition sampler_call (required : list string) (fixed : dict V) (num_samples : V) (args : list V) (kwargs : dict V) (z : noise) : result V :=
    bind (bind_parameters required args kwargs) (fun parameters => sampler_sample required fixed num_samples parameters z).

  (* ---------------------------------------------------------------- gradient estimator *)
  Inductive outcome := Grads (g : V) | GradsSamples (g s : V) | GradsFitnesses (g f : V) | GradsSamplesFitnesses (g s f : V).
  Record estimator := mkEst { e_function : option (V -> V); e_sense : option V; e_required : list string; e_fixed : dict V;
    e_ranking : V; e_return_samples : bool; e_return_fitnesses : bool }.
  (* distributions.py:1208-1258 *)
  Definition make_estimator (function : option (V -> V)) (sense : option V) (required : list string) (fixed : dict V) (ranking : V)
      (return_samples return_fitnesses : bool) : result estimator :=
    if Nat.eqb (length required) 0 then Err TypeError else
    Ok (mkEst function sense required fixed ranking return_samples return_fitnesses).
  (* distributions.py:1260-1299 *)
  Definition give (e : estimator) (g s f : V) : outcome :=
    if e_return_samples e && e_return_fitnesses e then GradsSamplesFitnesses g s f
    else if e_return_samples e then GradsSamples g s
    else if e_return_fitnesses e then GradsFitnesses g f
    else Grads g.
  Definition grad_unbound (e : estimator) (sense ranking samples fitnesses : V) (vectors : list V) : result outcome :=
    if negb (Nat.eqb (rows samples) (count fitnesses)) then Err ValueError else
    bind (construct (merge (zip_dict (e_required e) vectors) (e_fixed e))) (fun d =>
    bind (compute_gradients d samples fitnesses sense ranking) (fun g => Ok (give e g samples fitnesses))).
  Definition grad_bound (e : estimator) (f : V -> V) (sense ranking num_solutions : V) (vectors : list V) (z : noise) : result outcome :=
    bind (construct (merge (zip_dict (e_required e) vectors) (e_fixed e))) (fun d =>
    bind (sample d num_solutions z) (fun samples =>
    bind (compute_gradients d samples (f samples) sense ranking) (fun g => Ok (give e g samples (f samples))))).
  (* distributions.py:1301-1360; args[i] raises IndexError when missing *)
  Definition estimator_call (e : estimator) (args : list V) (kwargs : dict V) (z : noise) : result outcome :=
    bind (match lookup "objective_sense" kwargs with
          | Some s => Ok s
          | None => match e_sense e with Some s => Ok s | None => Err ValueError end
          end) (fun sense =>
    let ranking := match lookup "ranking_method" kwargs with Some r => r | None => e_ranking e end in
    let kwargs := if has "objective_sense" kwargs || has "ranking_method" kwargs
                  then filter (fun kv => negb (String.eqb (fst kv) "objective_sense" || String.eqb (fst kv) "ranking_method")) kwargs
                  else kwargs in
    match e_function e, args with
    | None, samples :: fitnesses :: args =>
        bind (bind_parameters (e_required e) args kwargs) (fun parameters => grad_unbound e sense ranking samples fitnesses parameters)
    | Some f, num_solutions :: args =>
        bind (bind_parameters (e_required e) args kwargs) (fun parameters => grad_bound e f sense ranking num_solutions parameters z)
    | _, _ => Err IndexError
    end).
End Functional.
Arguments outcome : clear implicits.
Arguments estimator : clear implicits.

(* ------------------------------------------------------------------ parameters of the separable Gaussian distributions *)
Inductive value := PVec (v : row) | PStr (s : string) | PNum (q : Q).
(* distributions.py:96-111 __check_correctness *)
Definition check_correctness (mandatory optional : list string) (parameters : dict value) : result unit :=
  if forallb (fun kv => existsb (String.eqb (fst kv)) mandatory || existsb (String.eqb (fst kv)) optional) parameters then
    if Nat.ltb (length (filter (fun kv => existsb (String.eqb (fst kv)) mandatory) parameters)) (length mandatory) then Err ValueError else Ok tt
  else Err ValueError.
Definition vector (k : string) (parameters : dict value) : result row :=
  match lookup k parameters with
  | None => Err KeyError
  | Some (PVec v) => Ok v
  | Some _ => Err AttributeError (* no `shape` *)
  end.
(* distributions.py:461-497 SeparableGaussian.__init__ (shared by its subclasses), solution_length not given *)
Definition separable_init (mandatory optional : list string) (parameters : dict value) : result (row * row) :=
  bind (vector "mu" parameters) (fun mu => bind (vector "sigma" parameters) (fun sigma =>
  if negb (Nat.eqb (length mu) (length sigma)) then Err ValueError else
  bind (check_correctness mandatory optional parameters) (fun _ => Ok (mu, sigma)))).
(* distributions.py:153-214, 512-514: sample(n) of a SeparableGaussian and 703-704 of a symmetric one; the k-th row of the
   standard noise is noise k *)
Definition sample_rows (symmetric : bool) (d : row * row) (n : nat) (noise : nat -> row) : result (list row) :=
  make_gaussian symmetric (Some (fst d)) (Some (snd d)) n noise.
(* distributions.py:418-425, 427-459; 647-666, 668-701: torch.normal(mu, sigma) is sigma times the standard noise plus mu *)
Definition static_sample (symmetric : bool) (mandatory optional : list string) (n : nat) (parameters : dict value) (noise : nat -> row) : result (list row) :=
  if forallb (fun kv => existsb (String.eqb (fst kv)) mandatory || existsb (String.eqb (fst kv)) optional) parameters then
    bind (vector "mu" parameters) (fun mu => bind (vector "sigma" parameters) (fun sigma =>
    if symmetric then
      if Nat.odd n then Err ValueError else
      if negb (Nat.eqb (length mu) (length sigma)) then Err ValueError else RandModel.functional_sample n mu sigma noise
    else
      if negb (Nat.eqb (length mu) (length sigma)) then Err ValueError else
      Ok (map (fun k => vadd (vmul (noise k) sigma) mu) (seq 0 n))))
  else Err ValueError.

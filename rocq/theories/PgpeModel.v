(* Model of the search algorithms PGPE and CEM in both interfaces: the classes of algorithms/distributed/gaussian.py (in the
   non-distributed mode, with a fixed population size) and the functions of algorithms/functional/funcpgpe.py and funccem.py;
   with the choice of the optimizer by its name (optimizers.py, algorithms/functional/misc.py).
   Drawing samples from the distribution, evaluating them and estimating gradients is the same code for both interfaces
   (distributions.py); it appears as a parameter here and is the subject of other files.  Gradients of the center are finite
   numbers.  Batches of searches are vmapped over by expects_ndim (NdimModel.v) and not repeated here. *)
From Coq Require Import Reals String.
From Verif Require Import Prelude ExtR ClipUpModel FuncModel.
Open Scope R_scope.

(* ---------------------------------------------------------------- limits of the standard deviation *)
Inductive rlimit := LScalar (x : R) | LVec (l : list R).
(* gaussian.py:126-142: ensure_tensor_length_and_dtype(..., allow_scalar=True) (misc.py:610-671) *)
Definition class_limit (n : nat) (o : option rlimit) : result (option rlimit) :=
  match o with
  | Some (LVec l) => if Nat.eqb (length l) n then Ok o else Err ValueError
  | _ => Ok o
  end.
(* broadcasting of a limit which has passed class_limit *)
Definition components (n : nat) (x : rlimit) : list xr :=
  match x with LScalar v => repeat (RF v) n | LVec l => map RF l end.
(* misc.py:711-816 modify_tensor, as in SigmaModel.v but with real numbers *)
Definition rmodify_tensor (original target : list xr) (lb ub max_change : option rlimit) : list xr :=
  match lb, ub, max_change with
  | None, None, None => target
  | _, _, _ =>
    let n := length original in
    let lb := match lb with None => repeat RNI n | Some l => components n l end in
    let ub := match ub with None => repeat RPI n | Some u => components n u end in
    let bounds := match max_change with
                  | None => (lb, ub)
                  | Some mc =>
                      let allowed := map2 rmul (map rabs original) (components n mc) in
                      (map2 rmax lb (map2 rsub original allowed), map2 rmin ub (map2 radd original allowed))
                  end in
    map2 rmin (map2 rmax target (fst bounds)) (snd bounds)
  end.
(* misc.py:819-908 modify_vector with all its arguments given as vectors, as in SigmaModel.v *)
Definition rmodify_vector (original target lb ub mc : list xr) : list xr :=
  let max_diff := map2 rmul (map rabs original) mc in
  let r := map2 rmin (map2 rmax target (map2 rsub original max_diff)) (map2 radd original max_diff) in
  map2 rmin (map2 rmax r lb) ub.

(* ---------------------------------------------------------------- optimizers by name *)
(* a configuration: values of keyword arguments; booleans are 0 and 1 *)
Definition config := list (string * R).
Definition get (k : string) (c : config) : option R := option_map snd (find (fun kv => String.eqb (fst kv) k) c).
Definition keys_among (allowed : list string) (c : config) : bool :=
  forallb (fun kv => existsb (String.eqb (fst kv)) allowed) c.
Definition flag (o : option R) : option bool := option_map (fun x => if Req_EM_T x 0 then false else true) o.
Inductive coptimizer := CNone | CClip (c : clipup) | CTorch (w : wrapped).
(* optimizers.py:421-458 get_optimizer_class and gaussian.py:180-194 _initialize_optimizer: the configuration is updated by
   stepsize, dtype, solution_length and device; an unexpected keyword argument raises TypeError *)
Definition class_optimizer (n : nat) (learning_rate : R) (optimizer : option string) (optimizer_config : option config) : result coptimizer :=
  match optimizer with
  | None => Ok CNone
  | Some s =>
    let c := match optimizer_config with None => [] | Some c => c end in
    let own := ["stepsize"; "dtype"; "solution_length"; "device"]%string in
    if existsb (String.eqb s) ["clipsgd"; "clipsga"; "clipup"]%string then
      if keys_among (own ++ ["momentum"; "max_speed"]%string) c then
        rmap CClip (clipup_init n learning_rate (match get "momentum" c with None => 9 / 10 | Some x => x end) (get "max_speed" c))
      else Err TypeError
    else if String.eqb s "adam" then
      if keys_among (own ++ ["beta1"; "beta2"; "epsilon"; "amsgrad"]%string) c then
        rmap CTorch (adam_class n (Some learning_rate) (get "beta1" c) (get "beta2" c) (get "epsilon" c) (flag (get "amsgrad" c)))
      else Err TypeError
    else if existsb (String.eqb s) ["sgd"; "sga"]%string then
      if keys_among (own ++ ["momentum"; "dampening"; "nesterov"]%string) c then
        rmap CTorch (sgd_class n learning_rate (get "momentum" c) (get "dampening" c) (flag (get "nesterov" c)))
      else Err TypeError
    else Err ValueError
  end.
Inductive foptimizer := FClip (s : fclipup) | FAdam (s : fadam) | FSgd (s : fsgd).
(* functional/misc.py:26-75 get_functional_optimizer and funcpgpe.py:278-283; a keyword argument given twice or unexpected
   raises TypeError *)
Definition functional_optimizer (center : list R) (learning_rate : R) (optimizer : option string) (optimizer_config : option config) : result foptimizer :=
  let c := match optimizer_config with None => [] | Some c => c end in
  match optimizer with
  | None => Err TypeError
  | Some s =>
    if String.eqb s "adam" then
      if keys_among ["beta1"; "beta2"; "epsilon"]%string c then
        Ok (FAdam (fadam_init center (Some learning_rate) (get "beta1" c) (get "beta2" c) (get "epsilon" c)))
      else Err TypeError
    else if String.eqb s "clipup" then
      if keys_among ["momentum"; "max_speed"]%string c then
        rmap FClip (fclipup_init center (match get "momentum" c with None => 9 / 10 | Some x => x end) (Some learning_rate) (get "max_speed" c))
      else Err TypeError
    else if existsb (String.eqb s) ["sgd"; "sga"; "momentum"]%string then
      if keys_among ["momentum"]%string c then Ok (FSgd (fsgd_init center learning_rate (get "momentum" c))) else Err TypeError
    else Err ValueError
  end.
(* a vector of n components; None: none of them is finite *)
Definition numbers (n : nat) (v : vec) : list num := match v with None => repeat None n | Some l => map Some l end.
(* the ask and tell functions of the optimizers *)
Definition opt_ask (n : nat) (o : foptimizer) : list num :=
  match o with FClip s => numbers n (fclipup_ask s) | FAdam s => fadam_ask s | FSgd s => fsgd_ask s end.
Definition opt_tell (o : foptimizer) (g : list R) : foptimizer :=
  match o with
  | FClip s => FClip (fclipup_tell s g)
  | FAdam s => FAdam (fadam_tell s (map Some g))
  | FSgd s => FSgd (fsgd_tell s (map Some g))
  end.

(* ---------------------------------------------------------------- what the distribution is told *)
(* the class of the distribution and its parameters other than mu and sigma *)
Record dist := mkDist { d_symmetric : bool; d_divide_mu : option string; d_divide_sigma : option string; d_parenthood : option R }.

Section Search.
  Context {values evals noise : Type}.
  (* distributions.py sample and functional_sample; compute_gradients (with the sense of the objective: true for "max");
     evaluation by the problem or by the user *)
  Variable draw : bool -> list num -> list xr -> nat -> noise -> values.
  Variable compute_gradients : dist -> list num -> list xr -> values -> evals -> bool -> option string -> list R * list xr.
  Variable evaluate : values -> noise -> evals.

  (* -------------------------------------------------------------- classes *)
  Record algo := mkAlgo {
    a_popsize : nat; a_center_lr : R; a_stdev_lr : R; a_ranking : option string; a_maximize : bool; a_dist : dist;
    a_min : option rlimit; a_max : option rlimit; a_change : option rlimit;
    a_mu : list num; a_sigma : list xr; a_opt : coptimizer; a_pop : option (values * evals) }.
  (* gaussian.py:44-178 GaussianSearchAlgorithm.__init__ for a numeric unbounded problem, distributed=False and
     num_interactions=None; center_init given *)
  Definition gaussian_init (d : dist) (even : bool) (popsize : nat) (center_lr stdev_lr : R) (maximize : bool) (ranking : option string)
      (center : list R) (stdev radius : option real_or_vector) (mn mx mc : option rlimit) (optimizer : option string) (oconf : option config) : result algo :=
    let n := length center in
    if even && negb (Nat.even popsize) then Err ValueError else
    bind (class_sigma n Float32 Cpu stdev radius) (fun sigma =>
    bind (class_optimizer n center_lr optimizer oconf) (fun opt =>
    bind (class_limit n mn) (fun mn => bind (class_limit n mx) (fun mx => bind (class_limit n mc) (fun mc =>
    Ok (mkAlgo popsize center_lr stdev_lr ranking maximize d mn mx mc (map Some center) (map RF (t_data sigma)) opt None)))))).
  (* gaussian.py:714-742 PGPE.__init__ *)
  Definition pgpe_class (popsize : nat) (center_lr stdev_lr : R) (maximize : bool) (ranking : option string)
      (center : list R) (stdev radius : option real_or_vector) (mn mx mc : option rlimit) (optimizer : option string) (oconf : option config)
      (symmetric : bool) : result algo :=
    let divide_by := if symmetric then "num_directions"%string else "num_solutions"%string in
    gaussian_init (mkDist symmetric (Some divide_by) (Some divide_by) None) symmetric popsize center_lr stdev_lr maximize ranking
      center stdev radius mn mx mc optimizer oconf.
  (* gaussian.py:1159-1180 CEM.__init__ *)
  Definition cem_class (popsize : nat) (parenthood_ratio : R) (maximize : bool)
      (center : list R) (stdev radius : option real_or_vector) (mn mx mc : option rlimit) : result algo :=
    gaussian_init (mkDist false None None (Some parenthood_ratio)) false popsize 1 1 maximize None center stdev radius mn mx mc None None.
  (* distributions.py:370-390 _follow_gradient for mu *)
  Definition follow_mu (lr : R) (opt : coptimizer) (g : list R) : result (coptimizer * list num) :=
    match opt with
    | CNone => Ok (CNone, map (fun x => Some (lr * x)) g)
    | CClip c => bind (ascent c g) (fun r => Ok (CClip (fst r), numbers (solution_length c) (snd r)))
    | CTorch w => bind (torch_ascent w (map Some g)) (fun r => Ok (CTorch (fst r), snd r))
    end.
  (* gaussian.py:369-419 _update_distribution with distributions.py:579-594 update_parameters *)
  Definition update_distribution (s : algo) (g : list R * list xr) : result algo :=
    bind (follow_mu (a_center_lr s) (a_opt s) (fst g)) (fun r =>
    let mu := map2 nadd (a_mu s) (snd r) in
    let sigma := map2 radd (a_sigma s) (map (rmul (RF (a_stdev_lr s))) (snd g)) in
    let sigma := rmodify_tensor (a_sigma s) sigma (a_min s) (a_max s) (a_change s) in
    Ok (mkAlgo (a_popsize s) (a_center_lr s) (a_stdev_lr s) (a_ranking s) (a_maximize s) (a_dist s) (a_min s) (a_max s) (a_change s)
          mu sigma (fst r) (a_pop s))).
  (* gaussian.py:276-294 fill_and_eval_pop *)
  Definition fill_and_eval_pop (s : algo) (z : noise) : algo :=
    let v := draw (d_symmetric (a_dist s)) (a_mu s) (a_sigma s) (a_popsize s) z in
    mkAlgo (a_popsize s) (a_center_lr s) (a_stdev_lr s) (a_ranking s) (a_maximize s) (a_dist s) (a_min s) (a_max s) (a_change s)
      (a_mu s) (a_sigma s) (a_opt s) (Some (v, evaluate v z)).
  (* gaussian.py:274-367 _step_non_distributed; the first iteration is the one without a population *)
  Definition step (s : algo) (z : noise) : result algo :=
    match a_pop s with
    | None => Ok (fill_and_eval_pop s z)
    | Some (v, e) =>
        bind (update_distribution s (compute_gradients (a_dist s) (a_mu s) (a_sigma s) v e (a_maximize s) (a_ranking s))) (fun s =>
        Ok (fill_and_eval_pop s z))
    end.
  Fixpoint run (s : algo) (zs : list noise) : result algo :=
    match zs with [] => Ok s | z :: rest => bind (step s z) (fun s => run s rest) end.

  (* -------------------------------------------------------------- functions *)
  (* funcpgpe.py:239-250, funccem.py:141-152 as_vector_like_center; `default` stands for an omitted limit *)
  Definition as_vector_like_center (n : nat) (default : xr) (o : option rlimit) : result (list xr) :=
    match o with
    | None => Ok (repeat default n)
    | Some (LScalar x) => Ok (repeat (RF x) n)
    | Some (LVec l) => if Nat.eqb (length l) n then Ok (map RF l) else Err ValueError
    end.
  (* funcpgpe.py:54-64 *)
  Record pgpe_state := mkPgpe { p_n : nat; p_opt : foptimizer; p_stdev : list xr; p_stdev_lr : R; p_min : list xr; p_max : list xr;
    p_change : list xr; p_ranking : string; p_maximize : bool; p_symmetric : bool }.
  (* funcpgpe.py:217-298 pgpe; str(None) is "None" *)
  Definition pgpe (center : list R) (center_lr stdev_lr : R) (sense : string) (ranking : option string) (optimizer : option string) (oconf : option config)
      (stdev radius : option real_or_vector) (mn mx mc : option rlimit) (symmetric : bool) : result pgpe_state :=
    let n := length center in
    if Nat.eqb n 0 then Err ValueError else
    bind (functional_sigma Float32 (mkT center Float32 Cpu) stdev radius) (fun sigma =>
    bind (if String.eqb sense "min" then Ok false else if String.eqb sense "max" then Ok true else Err ValueError) (fun maximize =>
    bind (as_vector_like_center n (RF 0) mn) (fun mn =>
    bind (as_vector_like_center n RPI mx) (fun mx =>
    bind (as_vector_like_center n RPI mc) (fun mc =>
    bind (functional_optimizer center center_lr optimizer oconf) (fun opt =>
    Ok (mkPgpe n opt (map RF (t_data sigma)) stdev_lr mn mx mc (match ranking with None => "None"%string | Some r => r end) maximize symmetric))))))).
  (* funcpgpe.py:301-318; an odd number of symmetric samples is refused by the distribution (distributions.py:651-655) *)
  Definition pgpe_ask (s : pgpe_state) (popsize : nat) (z : noise) : result values :=
    if p_symmetric s && negb (Nat.even popsize) then Err ValueError else
    Ok (draw (p_symmetric s) (opt_ask (p_n s) (p_opt s)) (p_stdev s) popsize z).
  (* funcpgpe.py:29-51 (the two gradient estimators) and 330-384 *)
  Definition pgpe_dist (symmetric : bool) : dist :=
    let d := if symmetric then "num_directions"%string else "num_solutions"%string in mkDist symmetric (Some d) (Some d) None.
  Definition pgpe_tell (s : pgpe_state) (v : values) (e : evals) : pgpe_state :=
    let grads := compute_gradients (pgpe_dist (p_symmetric s)) (opt_ask (p_n s) (p_opt s)) (p_stdev s) v e (p_maximize s) (Some (p_ranking s)) in
    let target := map2 radd (p_stdev s) (map (rmul (RF (p_stdev_lr s))) (snd grads)) in
    mkPgpe (p_n s) (opt_tell (p_opt s) (fst grads)) (rmodify_vector (p_stdev s) target (p_min s) (p_max s) (p_change s))
      (p_stdev_lr s) (p_min s) (p_max s) (p_change s) (p_ranking s) (p_maximize s) (p_symmetric s).
  (* the user's loop of ask, evaluate and tell *)
  Fixpoint pgpe_loop (s : pgpe_state) (popsize : nat) (zs : list noise) : result pgpe_state :=
    match zs with
    | [] => Ok s
    | z :: rest => bind (pgpe_ask s popsize z) (fun v => pgpe_loop (pgpe_tell s v (evaluate v z)) popsize rest)
    end.

  (* funccem.py:24-31 *)
  Record cem_state := mkCem { m_center : list num; m_stdev : list xr; m_min : list xr; m_max : list xr; m_change : list xr;
    m_ratio : R; m_maximize : bool }.
  (* funccem.py:122-184 cem *)
  Definition cem (center : list R) (ratio : R) (sense : string) (stdev radius : option real_or_vector) (mn mx mc : option rlimit) : result cem_state :=
    let n := length center in
    if Nat.eqb n 0 then Err ValueError else
    bind (functional_sigma Float32 (mkT center Float32 Cpu) stdev radius) (fun sigma =>
    bind (as_vector_like_center n (RF 0) mn) (fun mn =>
    bind (as_vector_like_center n RPI mx) (fun mx =>
    bind (as_vector_like_center n RPI mc) (fun mc =>
    bind (if String.eqb sense "min" then Ok false else if String.eqb sense "max" then Ok true else Err ValueError) (fun maximize =>
    Ok (mkCem (map Some center) (map RF (t_data sigma)) mn mx mc ratio maximize)))))).
  (* funccem.py:187-195, 235-246 *)
  Definition cem_ask (s : cem_state) (popsize : nat) (z : noise) : values := draw false (m_center s) (m_stdev s) popsize z.
  (* funccem.py:197-232, 249-289 *)
  Definition cem_tell (s : cem_state) (v : values) (e : evals) : cem_state :=
    let grads := compute_gradients (mkDist false None None (Some (m_ratio s))) (m_center s) (m_stdev s) v e (m_maximize s) None in
    mkCem (map2 nadd (m_center s) (map Some (fst grads)))
      (rmodify_vector (m_stdev s) (map2 radd (m_stdev s) (snd grads)) (m_min s) (m_max s) (m_change s))
      (m_min s) (m_max s) (m_change s) (m_ratio s) (m_maximize s).
  Fixpoint cem_loop (s : cem_state) (popsize : nat) (zs : list noise) : cem_state :=
    match zs with
    | [] => s
    | z :: rest => let v := cem_ask s popsize z in cem_loop (cem_tell s v (evaluate v z)) popsize rest
    end.
End Search.
Arguments algo : clear implicits.

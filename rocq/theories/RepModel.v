(* Model of what search algorithms report about their population (SinglePopulationAlgorithmMixin of algorithms/searchalgorithm.py, with the
   mean_eval of GaussianSearchAlgorithm), and of the loggers which pick from the status or write files (logging.py).
   torch.mean is a parameter.  Devices, the wall clock and the contents of policies are left out; a reported solution is a value. *)
From Coq Require Import String Ascii DecimalString.
From Verif Require Import Prelude FloatLib SortLib BatchModel LoopModel.
Open Scope nat_scope.

(* str(n) of a non-negative integer *)
Definition decimal (n : nat) : string := NilEmpty.string_of_uint (Nat.to_uint n).

(* searchalgorithm.py:496 (REPORTABLES) *)
Inductive reportable := PopBest | PopBestEval | MeanEval | MedianEval.
Definition name_of (r : reportable) : string :=
  match r with PopBest => "pop_best" | PopBestEval => "pop_best_eval" | MeanEval => "mean_eval" | MedianEval => "median_eval" end.
(* searchalgorithm.py:575-584 *)
Definition obj_key (i : nat) (r : reportable) : string := ("obj" ++ decimal i ++ "_" ++ name_of r)%string.

Section Reports.
Context {V : Type}.
Variable mean : list fl -> fl.

Inductive value := VNone | VNum (x : fl) | VSol (s : V * list fl) (num_objs : nat) | VOther (n : nat).
(* the attributes looked at: the population and _mean_eval *)
Record alg := mkAlg { a_pop : option (batch V); a_mean : option fl }.
(* the functions registered: a reporter of the mixin, _missing_status_producer, or another function of the algorithm *)
Inductive getter := Rep (obj : nat) (r : reportable) | Missing | Own (f : alg -> result value).
Record status := mkStatus { getters : dict getter; computed : dict value }.

(* torch.median: the lower median; NaN if there is a NaN *)
Definition median (c : list fl) : fl :=
  if existsb is_nan c then NaN else nth (Nat.div (length c - 1) 2) (isort tle c) NaN.
(* core.py:4929-4945 (Solution.is_evaluated) *)
Definition sol_evaluated (s : V * list fl) (num_objs : nat) : bool := negb (existsb is_nan (firstn num_objs (snd s))).
Definition with_pop {A} (a : alg) (f : batch V -> result A) : result A :=
  match a_pop a with None => Err AttributeError | Some b => f b end.
(* searchalgorithm.py:525-527, 543-549 *)
Definition get_pop_best (j : nat) (a : alg) : result value := with_pop a (fun b =>
  bind (argbest b (Some (Z.of_nat j))) (fun i => rmap (fun s => VSol s (num_objs b)) (row b i))).
Definition get_mean_eval (j : nat) (a : alg) : result value := with_pop a (fun b => rmap (fun c => VNum (mean c)) (access_evals b (Z.of_nat j))).
Definition get_median_eval (j : nat) (a : alg) : result value := with_pop a (fun b => rmap (fun c => VNum (median c)) (access_evals b (Z.of_nat j))).

(* searchalgorithm.py:109-118, for a function which does not read the status itself; a reporter of pop_best_eval would read the status (see
   below), and again this key, without end *)
Definition call_plain (g : getter) (a : alg) : result value :=
  match g with
  | Missing => Ok VNone
  | Own f => f a
  | Rep j PopBest => get_pop_best j a
  | Rep j MeanEval => get_mean_eval j a
  | Rep j MedianEval => get_median_eval j a
  | Rep j PopBestEval => Err OutOfFuel
  end.
Definition store (k : string) (s : status) (v : result value) : status * result value :=
  (match v with Ok v => mkStatus (getters s) (dset k v (computed s)) | Err _ => s end, v).
Definition read_plain (k : string) (a : alg) (s : status) : status * result value :=
  match dget k (computed s) with
  | Some v => (s, Ok v)
  | None => match dget k (getters s) with None => (s, Err KeyError) | Some g => store k s (call_plain g a) end
  end.
(* searchalgorithm.py:529-541 *)
Definition best_eval (j : nat) (v : value) : result value :=
  match v with
  | VNone => Ok VNone
  | VSol s n => if sol_evaluated s n then match nth_error (snd s) j with Some x => Ok (VNum x) | None => Err IndexError end else Ok VNone
  | _ => Err AttributeError
  end.
Definition get_pop_best_eval (j : nat) (a : alg) (s : status) : status * result value :=
  match find (fun k => has k (getters s)) ["pop_best"%string; obj_key j PopBest] with
  | None => (s, Ok VNone)
  | Some k => let (s, v) := read_plain k a s in (s, bind v (best_eval j))
  end.
(* searchalgorithm.py:109-118 *)
Definition read (k : string) (a : alg) (s : status) : status * result value :=
  match dget k (computed s) with
  | Some v => (s, Ok v)
  | None => match dget k (getters s) with
            | None => (s, Err KeyError)
            | Some (Rep j PopBestEval) => let (s, v) := get_pop_best_eval j a s in store k s v
            | Some g => store k s (call_plain g a)
            end
  end.
(* searchalgorithm.py:137-139, 153-165 *)
Definition clear (s : status) : status := mkStatus (getters s) [].
Definition update (s : status) (d : dict value) : status := fold_left (fun s kv =>
  mkStatus (if has (fst kv) (getters s) then getters s else dset (fst kv) Missing (getters s)) (dset (fst kv) (snd kv) (computed s))) d s.

(* the argument exclude: None, a string, another iterable of strings *)
Inductive exclusion := ExNone | ExString (s : string) | ExNames (l : list string).
Fixpoint characters (s : string) : list string :=
  match s with EmptyString => [] | String c s => String c "" :: characters s end.
(* searchalgorithm.py:561: set(exclude) *)
Definition excluded (e : exclusion) : list string :=
  match e with ExNone => [] | ExString s => characters s | ExNames l => l end.
(* searchalgorithm.py:554-584; [order]: the order in which the set of reportables is iterated; None: several objectives *)
Definition single_objective (obj_index : option nat) (num_senses : nat) : option nat :=
  match obj_index with Some j => Some j | None => if Nat.eqb num_senses 1 then Some 0 else None end.
Definition to_register (order : list reportable) (e : exclusion) : list reportable :=
  filter (fun r => negb (existsb (String.eqb (name_of r)) (excluded e))) order.
Definition mixin_getters (order : list reportable) (e : exclusion) (obj_index : option nat) (num_senses : nat) : dict getter :=
  match single_objective obj_index num_senses with
  | Some j => map (fun r => (name_of r, Rep j r)) (to_register order e)
  | None => flat_map (fun i => map (fun r => (obj_key i r, Rep i r)) (to_register order e)) (seq 0 num_senses)
  end.
Definition mixin_init (enable : bool) (order : list reportable) (e : exclusion) (obj_index : option nat) (num_senses : nat) (s : status) : status :=
  if enable then mkStatus (dupdate (getters s) (mixin_getters order e obj_index num_senses)) (computed s) else s.

(* gaussian.py:427-431 *)
Definition own_mean_eval (j : nat) (a : alg) : result value :=
  match a_pop a with
  | None => Ok (match a_mean a with None => VNone | Some x => VNum x end)
  | Some b => rmap (fun c => VNum (mean c)) (column b (Z.of_nat j))
  end.
(* gaussian.py:74-87, 178; the getters of center, stdev and (with num_interactions) popsize are [others] *)
Definition gaussian_init (distributed : bool) (order : list reportable) (j num_senses : nat) (others : dict getter) : status :=
  mixin_init (negb distributed) order (ExString "mean_eval") (Some j) num_senses
    (mkStatus (dupdate [("mean_eval"%string, Own (own_mean_eval j))] others) []).

(* searchalgorithm.py:380-397: a step clears the status, changes the algorithm, and stores what is known (iter, the status of the problem, what the
   after-step hooks return).  Between steps the user reads *)
Inductive op := Step (a : alg) (d : dict value) | Read (k : string).
Definition run_op (x : alg * status) (o : op) : alg * status :=
  match o with
  | Step a d => (a, update (clear (snd x)) d)
  | Read k => (fst x, fst (read k (fst x) (snd x)))
  end.
Definition run_ops (x : alg * status) (os : list op) : alg * status := fold_left run_op os x.
End Reports.
Arguments value : clear implicits. Arguments alg : clear implicits. Arguments getter : clear implicits.
Arguments status : clear implicits. Arguments op : clear implicits.

(* ---------------------------------------------------------------- PicklingLogger *)
Section Pickle.
Context {X P : Type}.            (* status items; policies *)
Variable to_cpu : X -> X.        (* _as_cpu_tensor, logging.py:244-253 *)
Variable to_policy : option (X -> P).       (* None: the problem has no to_policy *)
Inductive entry := Item (x : X) | ObsStats (n : nat) | Policy (p : P) | Time.
(* logging.py:203-236 *)
Record pickling := mkPickling { p_dir : option string; p_prefix : string; p_zfill : nat; p_items : list string; p_policy : option string }.
(* the part of the logger that changes, and the files *)
Record store_state := mkStore { last_generation : option nat; last_file : option string; files : dict (dict entry) }.
(* what save looks at: the status, step_count, the observation statistics (None: no normalization), whether there is a first_step_datetime *)
Record moment := mkMoment { m_status : dict X; m_gen : nat; m_stats : option nat; m_started : bool }.

(* os.path.join (posix) *)
Definition starts_slash (s : string) : bool := match s with String c _ => Ascii.eqb c "/" | _ => false end.
Fixpoint ends_slash (s : string) : bool :=
  match s with EmptyString => true | String c EmptyString => Ascii.eqb c "/" | String _ s => ends_slash s end.
Definition join_path (d f : string) : string :=
  if starts_slash f then f else if ends_slash d then (d ++ f)%string else (d ++ "/" ++ f)%string.
(* logging.py:238-242 *)
Definition within_dir (p : pickling) (f : string) : string := match p_dir p with None => f | Some d => join_path d f end.
(* str.zfill *)
Fixpoint zeros (n : nat) (s : string) : string := match n with 0 => s | S n => String "0" (zeros n s) end.
Definition zfill (n : nat) (s : string) : string := zeros (n - String.length s) s.
(* logging.py:366-369 *)
Definition auto_name (p : pickling) (gen : nat) : string := (p_prefix p ++ "_generation" ++ zfill (p_zfill p) (decimal gen) ++ ".pickle")%string.
(* logging.py:297-301 *)
Definition picked (p : pickling) (st : dict X) : dict entry :=
  fold_left (fun d k => match dget k st with None => d | Some x => dset k (Item (to_cpu x)) d end) (p_items p) [].
(* logging.py:316-341 *)
Definition policy_key (p : pickling) (st : dict X) : result string :=
  match p_policy p with
  | Some k => Ok k
  | None => if has "center" st then Ok "center"%string else if has "pop_best" st then Ok "pop_best"%string else Err ValueError
  end.
(* logging.py:293-364; the policy is put onto the cpu (left out); the times are stored only next to a policy *)
Definition pickled (p : pickling) (m : moment) : result (dict entry) :=
  let d := picked p (m_status m) in
  let d := match m_stats m with None => d | Some n => dset "obs_stats" (ObsStats n) d end in
  match to_policy with
  | None => Ok d
  | Some f =>
      bind (policy_key p (m_status m)) (fun k =>
        match dget k (m_status m) with
        | None => Err KeyError
        | Some x =>
            let d := dset "policy" (Policy (f x)) d in
            Ok (if m_started m then dset "elapsed" Time (dset "now" Time (dset "beginning_time" Time d)) else d)
        end)
  end.
(* logging.py:271-391 (save), while the search algorithm exists *)
Definition save (p : pickling) (fname : option string) (m : moment) (s : store_state) : result (store_state * string) :=
  bind (pickled p m) (fun d =>
    let f := within_dir p (match fname with Some f => f | None => auto_name p (m_gen m) end) in
    Ok (mkStore (Some (m_gen m)) (Some f) (dset f d (files s)), f)).
(* logging.py:409-416 *)
Definition unpickle_last (s : store_state) : result (dict entry) :=
  match last_file s with
  | None => Err TypeError
  | Some f => match dget f (files s) with Some d => Ok d | None => Err KeyError end
  end.
(* successive saves without an explicit file name *)
Fixpoint saves (p : pickling) (ms : list moment) (s : store_state) : result store_state :=
  match ms with [] => Ok s | m :: ms => bind (save p None m s) (fun x => saves p ms (fst x)) end.
End Pickle.
Arguments entry : clear implicits. Arguments store_state : clear implicits. Arguments moment : clear implicits.

(* ---------------------------------------------------------------- loggers of scalars *)
Section Scalars.
Context {X : Type}.
Variable is_sequence is_solution : X -> bool.     (* misc.py:133-151; isinstance(v, Solution) *)
(* logging.py:420-425 *)
Definition scalar_filter (st : dict X) : dict X := filter (fun kv => negb (is_sequence (snd kv)) && negb (is_solution (snd kv))) st.
(* str.rjust *)
Fixpoint spaces (n : nat) (s : string) : string := match n with 0 => s | S n => String " " (spaces n s) end.
Definition rjust (n : nat) (s : string) : string := spaces (n - String.length s) s.
(* logging.py:461-475; the lines of one report as (label, value) *)
Definition stdout_lines (leading : list string) (st : dict X) : result (list (string * X)) :=
  match st with
  | [] => Err ValueError
  | _ => let w := fold_left Nat.max (map (fun kv => String.length (fst kv)) st) 0 in
         let first := flat_map (fun k => match dget k st with None => [] | Some v => [(k, v)] end) leading in
         let rest := filter (fun kv => negb (existsb (String.eqb (fst kv)) leading)) st in
         Ok (map (fun kv => (rjust w (fst kv), snd kv)) (first ++ rest))
  end.
(* logging.py:689-692, 743-749 *)
Definition group_key (group : option string) (k : string) : string := match group with None => k | Some g => (g ++ "/" ++ k)%string end.
Definition grouped (group : option string) (st : dict X) : dict X := fold_left (fun d kv => dset (group_key group (fst kv)) (snd kv) d) st [].
(* logging.py:92-101, 627-632: successive calls of a MlflowLogger with interval > 0: the step given to mlflow and the status *)
Fixpoint mlflow_calls (interval : Z) (after_first_step : bool) (count : Z) (sts : list (dict X)) : result (list (Z * dict X)) :=
  match sts with
  | [] => Ok []
  | st :: sts =>
      let (count, logged) := logger_call interval after_first_step count in
      bind logged (fun b => rmap (fun r => if (b : bool) then (count, scalar_filter st) :: r else r)
        (mlflow_calls interval after_first_step count sts))
  end.
End Scalars.

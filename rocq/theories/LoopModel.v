(* Model of hooks (tools/hook.py), lazy status reporting and the main loop (algorithms/searchalgorithm.py), loggers
   (logging.py) and restarting (algorithms/restarter). *)
From Coq Require Import String QArith Qround.
From Verif Require Import Prelude.
Close Scope Q_scope.
Open Scope nat_scope.

(* Python dictionaries with string keys: insertion ordered; assignment to an existing key keeps its place *)
Definition dict (V : Type) := list (string * V).
Definition dget {V} (k : string) (d : dict V) : option V := option_map snd (find (fun kv => String.eqb (fst kv) k) d).
Fixpoint dset {V} (k : string) (v : V) (d : dict V) : dict V :=
  match d with
  | [] => [(k, v)]
  | (k', v') :: t => if String.eqb k' k then (k, v) :: t else (k', v') :: dset k v t
  end.
Definition dupdate {V} (d e : dict V) : dict V := fold_left (fun d kv => dset (fst kv) (snd kv) d) e d.
Definition has {V} (k : string) (d : dict V) : bool := match dget k d with Some _ => true | None => false end.

(* What a registered function returns: None, a mapping, another iterable, something else; or it raises. *)
Inductive ret (V : Type) := RNone | RMap (d : dict V) | RSeq (l : list V) | ROther | RRaise (e : exn).
Arguments RNone {V}. Arguments RMap {V}. Arguments RSeq {V}. Arguments ROther {V}. Arguments RRaise {V}.
Inductive acc (V : Type) := ADict (d : dict V) | ASeq (l : list V).
Arguments ADict {V}. Arguments ASeq {V}.

Section Hook.
Context {S A V : Type}.       (* S: the state functions act on; A: their arguments *)
Definition callable := A -> S -> S * ret V.
(* hook.py:83-120 *)
Fixpoint hook_loop (funcs : list callable) (a : A) (s : S) (r : option (acc V)) : S * result (option (acc V)) :=
  match funcs with
  | [] => (s, Ok r)
  | f :: rest =>
      let (s', tmp) := f a s in
      match tmp with
      | RRaise e => (s', Err e)
      | RNone => hook_loop rest a s' r
      | RMap d => match r with
                  | None => hook_loop rest a s' (Some (ADict (dupdate [] d)))
                  | Some (ASeq _) => (s', Err TypeError)
                  | Some (ADict d0) => hook_loop rest a s' (Some (ADict (dupdate d0 d)))
                  end
      | RSeq l => match r with
                  | None => hook_loop rest a s' (Some (ASeq l))
                  | Some (ASeq l0) => hook_loop rest a s' (Some (ASeq (l0 ++ l)))
                  | Some (ADict _) => (s', Err TypeError)
                  end
      | ROther => (s', Err TypeError)
      end
  end.
(* hook.py:122-135 *)
Definition accumulate_dict (funcs : list callable) (a : A) (s : S) : S * result (dict V) :=
  let (s', r) := hook_loop funcs a s None in
  (s', bind r (fun o => match o with None => Ok [] | Some (ADict d) => Ok d | Some (ASeq _) => Err TypeError end)).
(* hook.py:137-150 *)
Definition accumulate_sequence (funcs : list callable) (a : A) (s : S) : S * result (list V) :=
  let (s', r) := hook_loop funcs a s None in
  (s', bind r (fun o => match o with None => Ok [] | Some (ASeq l) => Ok l | Some (ADict _) => Err TypeError end)).
End Hook.
(* hook.py:58-60, 62-81: stored arguments and the arguments of one call *)
Record hook (S X V : Type) := mkHook { h_funcs : list (callable (S := S) (A := list X * dict X) (V := V)); h_args : list X; h_kwargs : dict X }.
Arguments mkHook {S X V}. Arguments h_funcs {S X V}. Arguments h_args {S X V}. Arguments h_kwargs {S X V}.
Definition hook_call {S X V} (h : hook S X V) (args : list X) (kwargs : dict X) (s : S) : S * result (option (acc V)) :=
  hook_loop (h_funcs h) (h_args h ++ args, dupdate (dupdate [] (h_kwargs h)) kwargs) s None.

(* ---------------------------------------------------------------- lazy status *)
Section Lazy.
Context {E V : Type}.         (* E: the state of the algorithm, which the getters look at *)
Variable vnone : V.           (* Python's None, returned by _missing_status_producer *)
(* searchalgorithm.py:98-107; l_calls records which getters were called (not part of the code) *)
Record lazy := mkLazy { l_getters : dict (E -> V); l_computed : dict V; l_calls : list string }.
(* searchalgorithm.py:109-118 *)
Definition get_status_value (k : string) (e : E) (s : lazy) : lazy * result V :=
  match dget k (l_computed s) with
  | Some v => (s, Ok v)
  | None => match dget k (l_getters s) with
            | None => (s, Err KeyError)
            | Some g => (mkLazy (l_getters s) (dset k (g e) (l_computed s)) (l_calls s ++ [k]), Ok (g e))
            end
  end.
(* searchalgorithm.py:120-135 *)
Definition has_status_key (k : string) (s : lazy) : bool := has k (l_getters s).
Definition status_keys (s : lazy) : list string := map fst (l_getters s).
(* searchalgorithm.py:137-139 *)
Definition clear_status (s : lazy) : lazy := mkLazy (l_getters s) [] (l_calls s).
(* searchalgorithm.py:153-165 *)
Definition update_status (s : lazy) (d : dict V) : lazy :=
  fold_left (fun s kv =>
    mkLazy (if has (fst kv) (l_getters s) then l_getters s else dset (fst kv) (fun _ => vnone) (l_getters s))
           (dset (fst kv) (snd kv) (l_computed s)) (l_calls s)) d s.
(* searchalgorithm.py:167-177 *)
Definition add_status_getters (s : lazy) (gs : dict (E -> V)) : lazy :=
  mkLazy (dupdate (l_getters s) gs) (l_computed s) (l_calls s).
(* dict(self.status), searchalgorithm.py:203-214: every key is read in turn *)
Definition status_dict (e : E) (s : lazy) : lazy * result (dict V) :=
  fold_left (fun sr k => let (s, r) := (sr : lazy * result (dict V)) in
    match r with
    | Err x => (s, Err x)
    | Ok d => let (s', v) := get_status_value k e s in (s', bind v (fun v => Ok (d ++ [(k, v)])))
    end) (status_keys s) (s, Ok []).

Inductive lazy_op := Get (k : string) | Clear | Update (d : dict V) | AddGetters (d : dict (E -> V)) | Change (e : E).
Definition lazy_step (es : E * lazy) (o : lazy_op) : (E * lazy) * result (option V) :=
  let (e, s) := es in
  match o with
  | Get k => let (s', r) := get_status_value k e s in ((e, s'), rmap Some r)
  | Clear => ((e, clear_status s), Ok None)
  | Update d => ((e, update_status s d), Ok None)
  | AddGetters d => ((e, add_status_getters s d), Ok None)
  | Change e' => ((e', s), Ok None)
  end.
Definition lazy_run (es : E * lazy) (os : list lazy_op) : E * lazy := fold_left (fun es o => fst (lazy_step es o)) os es.
End Lazy.
Arguments lazy : clear implicits. Arguments lazy_op : clear implicits.
Arguments Get {E V}. Arguments Clear {E V}. Arguments Update {E V}. Arguments AddGetters {E V}. Arguments Change {E V}.

(* ---------------------------------------------------------------- the main loop *)
Section Run.
Context {U V : Type}.         (* U: everything the algorithm, the problem and the hooks act on *)
Variable vnone : V.
Variable vnat : nat -> V.
(* What happens, in order.  The trace is not part of the code: it records calls of registered functions. *)
Inductive event := EBefore (i : nat) | EStep | EAfter (i : nat) | ELog (i : nat) (status : dict V) | EEnd (i : nat) (status : dict V).
Record world := mkWorld { w_user : U; w_trace : list event }.
Definition silent := U -> U * ret V.
Definition listener := dict V -> U -> U * ret V.
Record config := {
  before_step : list silent; after_step : list silent; log_hook : list listener; end_of_run : list listener;
  alg_step : U -> U * option exn;            (* the algorithm's _step *)
  problem_status : U -> dict V }.
Record search := mkSearch { s_world : world; s_status : lazy U V; s_steps : nat }.

Definition traced {A} (ev : A -> event) (f : A -> U -> U * ret V) : callable (S := world) (A := A) (V := V) :=
  fun a w => let (u, r) := f a (w_user w) in (mkWorld u (w_trace w ++ [ev a]), r).
Fixpoint number {A B} (f : nat -> A -> B) (i : nat) (l : list A) : list B :=
  match l with [] => [] | x :: t => f i x :: number f (S i) t end.
Definition run_silent (ev : nat -> event) (fs : list silent) : list (callable (S := world) (A := unit) (V := V)) :=
  number (fun i f => traced (fun _ => ev i) (fun _ => f)) 0 fs.
Definition run_listeners (ev : nat -> dict V -> event) (fs : list listener) : list (callable (S := world) (A := dict V) (V := V)) :=
  number (fun i f => traced (ev i) f) 0 fs.

(* `hook(dict(self.status))` if the hook has functions (searchalgorithm.py:396-397, 427-428) *)
Definition notify (ev : nat -> dict V -> event) (fs : list listener) (s : search) : search * result unit :=
  match fs with
  | [] => (s, Ok tt)
  | _ => let (l, d) := status_dict (w_user (s_world s)) (s_status s) in
         match d with
         | Err e => (mkSearch (s_world s) l (s_steps s), Err e)
         | Ok d => let (w, r) := hook_loop (run_listeners ev fs) d (s_world s) None in
                   (mkSearch w l (s_steps s), rmap (fun _ => tt) r)
         end
  end.
(* searchalgorithm.py:380-397 (the date of the first step is left out) *)
Definition search_step (c : config) (s : search) : search * result unit :=
  let (w1, r1) := hook_loop (run_silent EBefore (before_step c)) tt (s_world s) None in
  match r1 with
  | Err e => (mkSearch w1 (s_status s) (s_steps s), Err e)
  | Ok _ =>
    let st := clear_status (s_status s) in
    let (u, x) := alg_step c (w_user w1) in
    let w2 := mkWorld u (w_trace w1 ++ [EStep]) in
    match x with
    | Some e => (mkSearch w2 st (s_steps s), Err e)
    | None =>
      let n := s_steps s + 1 in
      let st := update_status vnone st [("iter"%string, vnat n)] in
      let st := update_status vnone st (problem_status c u) in
      let (w3, r3) := accumulate_dict (run_silent EAfter (after_step c)) tt w2 in
      match r3 with
      | Err e => (mkSearch w3 st n, Err e)
      | Ok extra => notify ELog (log_hook c) (mkSearch w3 (update_status vnone st extra) n)
      end
    end
  end.
Fixpoint search_steps (c : config) (n : nat) (s : search) : search * result unit :=
  match n with
  | O => (s, Ok tt)
  | S n' => let (s', r) := search_step c s in match r with Err e => (s', Err e) | Ok _ => search_steps c n' s' end
  end.
(* searchalgorithm.py:409-428 *)
Definition search_run (c : config) (n : nat) (s : search) : search * result unit :=
  let (s', r) := search_steps c n s in
  match r with Err e => (s', Err e) | Ok _ => notify EEnd (end_of_run c) s' end.
End Run.
Arguments config : clear implicits. Arguments search : clear implicits. Arguments event : clear implicits. Arguments world : clear implicits.

(* ---------------------------------------------------------------- loggers *)
(* logging.py:92-101; the second component tells whether _log is called *)
Definition logger_call (interval : Z) (after_first_step : bool) (count : Z) : Z * result bool :=
  let (n, count') := if after_first_step then (count, (count + 1)%Z) else ((count + 1)%Z, (count + 1)%Z) in
  (count', if (interval =? 0)%Z then Err ZeroDivisionError else Ok (n mod interval =? 0)%Z).
Fixpoint logger_calls (interval : Z) (after_first_step : bool) (count : Z) (n : nat) : Z * result (list bool) :=
  match n with
  | O => (count, Ok [])
  | S n' => let (count', r) := logger_call interval after_first_step count in
            match r with
            | Err e => (count', Err e)
            | Ok b => let (c, rest) := logger_calls interval after_first_step count' n' in (c, rmap (cons b) rest)
            end
  end.
(* PicklingLogger: _last_generation and the generations saved (logging.py:255-269, 366-382) *)
Record pickler := mkPickler { pk_count : Z; pk_last : option nat; pk_saved : list nat }.
Definition pk_save (gen : nat) (p : pickler) : pickler := mkPickler (pk_count p) (Some gen) (pk_saved p ++ [gen]).
(* the log hook at generation gen *)
Definition pk_log (interval : Z) (after_first_step : bool) (gen : nat) (p : pickler) : result pickler :=
  let (c, r) := logger_call interval after_first_step (pk_count p) in
  bind r (fun b => let p' := mkPickler c (pk_last p) (pk_saved p) in Ok (if b : bool then pk_save gen p' else p')).
(* the end-of-run hook at generation gen *)
Definition pk_final (gen : nat) (p : pickler) : pickler :=
  match pk_last p with None => pk_save gen p | Some l => if Nat.ltb l gen then pk_save gen p else p end.
Fixpoint pk_gens (interval : Z) (af : bool) (gen n : nat) (p : pickler) : result pickler :=
  match n with O => Ok p | S n' => bind (pk_log interval af (gen + 1) p) (pk_gens interval af (gen + 1) n') end.
(* searcher.run(n) from generation gen *)
Definition pk_run (interval : Z) (af : bool) (gen n : nat) (p : pickler) : result pickler :=
  rmap (pk_final (gen + n)) (pk_gens interval af gen n p).

(* several calls of run, one after another *)
Fixpoint pk_runs (interval : Z) (af : bool) (gen : nat) (ns : list nat) (p : pickler) : result pickler :=
  match ns with [] => Ok p | n :: t => bind (pk_run interval af gen n p) (pk_runs interval af (gen + n) t) end.

(* ---------------------------------------------------------------- restarting *)
Section Restart.
Context {I : Type}.                       (* states of the wrapped algorithm *)
Variable construct : nat -> I.            (* algorithm_class(problem, popsize=...) *)
Variable istep : I -> I.
Variable population : I -> option nat.    (* size of `population`; None while it is None *)
Variable stops : I -> bool.               (* evals.std() < min_fitness_stdev, or is_terminated *)
Variable multiplier : Q.
Record restart := mkRestart { r_alg : I; r_popsize : nat; r_num : nat }.
(* modify_restart.py:60-64; `None.evals` *)
Definition ipop_terminated (i : I) : result bool := match population i with None => Err AttributeError | Some _ => Ok (stops i) end.
(* int(multiplier * len(population)); `len(None)` *)
Definition ipop_size (i : I) : result nat :=
  match population i with None => Err TypeError | Some n => Ok (Z.to_nat (Qfloor (multiplier * inject_Z (Z.of_nat n)))) end.
(* restart.py:59-62 with modify_restart.py:28-31, 66-72 *)
Definition ipop_restart (s : restart) : result restart :=
  bind (if Nat.leb 1 (r_num s) then ipop_size (r_alg s) else Ok (r_popsize s)) (fun p =>
  Ok (mkRestart (construct p) p (r_num s + 1))).
(* restart.py:48-49: the first start *)
Definition restart_init (popsize : nat) : restart := mkRestart (construct popsize) popsize 1.
(* restart.py:68-74 *)
Definition ipop_step (s : restart) : result restart :=
  let s' := mkRestart (istep (r_alg s)) (r_popsize s) (r_num s) in
  bind (ipop_terminated (r_alg s')) (fun t => if t then ipop_restart s' else Ok s').
(* The plain Restart: same arguments every time; terminated = is_terminated *)
Definition plain_step (s : restart) : restart :=
  let i := istep (r_alg s) in
  if stops i then mkRestart (construct (r_popsize s)) (r_popsize s) (r_num s + 1) else mkRestart i (r_popsize s) (r_num s).
(* reading the status item "algorithm_terminated" (restart.py:41) *)
Definition ipop_status (s : restart) : result bool := ipop_terminated (r_alg s).
Fixpoint ipop_steps (n : nat) (s : restart) : result restart :=
  match n with O => Ok s | S n' => bind (ipop_step s) (ipop_steps n') end.
End Restart.

(* Model of the configuration of VecGymNE (neuroevolution/vecgymne.py) and GymNE (neuroevolution/gymne.py):
   arguments of the constructors, the number of environments which exist at a time, action noise; and of
   calling methods of remote problems (core.py). *)
From Coq Require Import QArith Qround String.
From Verif Require Import Prelude WorkModel.
Close Scope Q_scope.
Open Scope nat_scope.

(* ---------------------------------------------------------------- remote calls *)
(* A positional argument of a remote call: a list or tuple, a dictionary, or another value. *)
Inductive py {X : Type} := PSeq (l : list X) | PDict (d : list (string * X)) | PVal (x : X).
Arguments py : clear implicits.
Section Remote.
Context {X St R : Type}.
(* a method of the object which the actor holds: name, state, args, kwargs *)
Variable method : string -> St -> list X -> list (string * X) -> St * result R.

(* core.py:174-187 and 247-265 EvaluationActor.call and call_on_env, called by actor.call.remote(name, ...): ray
   compares the number of arguments with the signature (method_name, args, kwargs) before anything is sent.  The outer
   result is that of remote(), the inner one is raised by ray.get. *)
Definition remote_call (name : string) (given : list (py X)) (s : St) : result (St * result R) :=
  match given with
  | [PSeq args; PDict kwargs] => Ok (method name s args kwargs)
  | [_; _] => Ok (s, Err TypeError)
  | _ => Err TypeError
  end.
(* ray.get of a list: the results in the order of the list, or the first error *)
Definition ray_get (l : list (result R)) : result (list R) := sequence l.
(* core.py:341-348 RemoteMethod.__call__; actors = None if the problem is not parallelized *)
Definition invoke_all (name : string) (args : list X) (kwargs : list (string * X)) (actors : option (list St))
  : option (list St) * result (list R) :=
  match actors with
  | None => (None, Err TypeError)                                   (* iterating over None *)
  | Some l =>
      match sequence (map (remote_call name [PSeq args; PDict kwargs]) l) with
      | Ok rs => (Some (map fst rs), ray_get (map snd rs))
      | Err e => (Some l, Err e)
      end
  end.
(* core.py:2068-2075 and 2104-2111 all_remote_problems, all_remote_envs: is_remote is False on the main instance *)
Definition all_remote (is_remote : bool) (actors : option (list St)) : result (option (list St)) :=
  if is_remote then Err RuntimeError else Ok actors.
End Remote.

(* ---------------------------------------------------------------- arguments of the constructors *)
(* int(x) *)
Definition py_int (q : Q) : Z := if Qle_bool 0 q then Qfloor q else Qceiling q.
(* vecgymne.py:365-393: for other lengths the error message reads an attribute which does not exist yet *)
Definition vec_schedule (s : option (list Q)) : result (option (Z * Z * Q)) :=
  match s with
  | None => Ok None
  | Some [t; b] => Ok (Some (py_int t, py_int t, b))
  | Some [t0; t1; b] => Ok (Some (py_int t0, py_int t1, b))
  | Some _ => Err AttributeError
  end.
(* rl.py:222-240 AliveBonusScheduleWrapper.__init__, by gymne.py:312-317 *)
Definition gym_schedule (s : option (list Q)) : result (option (Z * Z * Q)) :=
  match s with
  | None => Ok None
  | Some [t0; t1; b] => Ok (Some (py_int t0, py_int t1, b))
  | Some [t; b] => Ok (Some (py_int t, py_int t, b))
  | Some _ => Err ValueError
  end.

Inductive number_of_actors := NoActors | Actors (n : Z) | ActorsNamed (name : string).
Inductive gpus := NoGpus | Gpus (q : Q) | GpusNamed (name : string).
Inductive target := NoTarget | AuxDevice | Device (d : string).
(* vecgymne.py:402-420 the device for SyncVectorEnv *)
Definition simulator_target (device : option string) (num_actors : number_of_actors) (num_gpus : gpus) : result target :=
  let device_is_cpu := match device with None => true | Some d => String.eqb d "cpu" end in
  bind (match num_actors with
        | NoActors => Ok false
        | ActorsNamed _ => Err TypeError                            (* '>' between str and int *)
        | Actors n => if (1 <? n)%Z then
                        match num_gpus with
                        | NoGpus => Ok false
                        | GpusNamed _ => Err TypeError
                        | Gpus q => Ok (negb (Qle_bool q 0))
                        end
                      else Ok false
        end) (fun actors_use_gpu =>
  Ok (match device_is_cpu, device with
      | false, Some d => Device d
      | _, _ => if actors_use_gpu then AuxDevice else NoTarget
      end)).

(* gymne.py:218-238: env, env_name (absent or a name) and whether a network is given *)
Definition gym_env_maker (env env_name : option string) (network : bool) : result string :=
  bind (match env, env_name with
        | Some e, None => Ok e
        | None, Some e => Ok e
        | _, _ => Err ValueError
        end) (fun e => if network then Ok e else Err ValueError).
(* gymne.py:281-291 the arguments for the base class, of which num_subbatches is not one; core.py:1283-1290 *)
Definition problem_subbatches (num_subbatches subbatch_size : option nat) : result (option nat * option nat) :=
  match num_subbatches, subbatch_size with
  | Some _, Some _ => Err ValueError
  | _, _ => Ok (num_subbatches, subbatch_size)
  end.
Definition gym_subbatches (num_subbatches subbatch_size : option nat) : result (option nat * option nat) :=
  problem_subbatches None subbatch_size.
(* vecgymne.py:425-436 *)
Definition vec_subbatches (num_subbatches subbatch_size : option nat) : result (option nat * option nat) :=
  problem_subbatches num_subbatches subbatch_size.

(* core.py:2579-2584: the pieces of a batch for the actors *)
Definition pieces_for {Row} (sub : result (option nat * option nat)) (num_actors : nat) (batch : list Row) : result (list (list Row)) :=
  bind sub (fun p => rmap snd (choose_pieces (fst p) (snd p) num_actors batch)).

(* spaces of an environment *)
Inductive space := Box (shape : list nat) | Discrete (n : nat) | OtherSpace.
Definition is_box (s : space) : bool := match s with Box _ => true | _ => false end.
Definition is_discrete (s : space) : bool := match s with Discrete _ => true | _ => false end.
(* len(space.low): only a Box has the attribute low, and its length is that of the leftmost dimension *)
Definition len_low (s : space) : result nat :=
  match s with Box (n :: _) => Ok n | Box [] => Err TypeError | _ => Err AttributeError end.
(* gymne.py:44-54 ensure_space_types: the observation space is looked at twice *)
Definition ensure_space_types (observation action : space) : result unit :=
  if negb (is_box observation) then Err TypeError
  else if negb (is_box observation || is_discrete observation) then Err TypeError
  else Ok tt.
(* gymne.py:253-271: lengths of observations and actions *)
Definition gym_lengths (observation action : space) : result (nat * nat) :=
  bind (len_low observation) (fun o =>
  bind (match action with Discrete n => Ok n | _ => len_low action end) (fun a =>
  bind (ensure_space_types observation action) (fun _ => Ok (o, a)))).

(* ---------------------------------------------------------------- numbers of environments *)
(* An instance of VecGymNE: _actor_max_num_envs and _actor_max_num_envs_ready; the size of the environment stored in
   _env (None: none) and _num_envs. *)
Record inst := mkI { i_max : option nat; i_ready : bool; i_env : option nat; i_num : option nat }.
(* the main instance with max_num_envs, the number of actors (0: none) and the actors, if they have been created *)
Record vg := mkV { v_max : option nat; v_nactors : nat; v_main : inst; v_actors : option (list inst) }.
Definition new_vg (max : option nat) (nactors : nat) : vg := mkV max nactors (mkI None false None None) None.

(* vecgymne.py:496-503 and 544-545 _get_env *)
Definition get_env (k : nat) (i : inst) : inst :=
  match i_env i, i_num i with
  | Some e, Some n => if Nat.ltb n k then mkI (i_max i) (i_ready i) (Some k) (Some k) else i
  | _, _ => mkI (i_max i) (i_ready i) (Some k) (Some k)
  end.
(* vecgymne.py:736-742 _evaluate_batch for n solutions; the numbers of solutions evaluated together *)
Definition evaluate_batch (n : nat) (i : inst) : result (inst * list nat) :=
  match i_max i with
  | None => Ok (get_env n i, [n])
  | Some m => bind (piece_sizes n None (Some m)) (fun sizes => Ok (fold_left (fun i k => get_env k i) sizes i, sizes))
  end.
(* pickling: the attribute _env is not serialized (vecgymne.py:573-576) *)
Definition pickled (i : inst) : inst := mkI (i_max i) (i_ready i) None (i_num i).
(* vecgymne.py:453-456 _set_actor_max_num_envs *)
Definition inst_method (name : string) (i : inst) (args : list nat) (kwargs : list (string * nat)) : inst * result unit :=
  if String.eqb name "_set_actor_max_num_envs" then
    match args, kwargs with
    | [n], [] => (mkI (Some n) true (i_env i) (i_num i), Ok tt)
    | _, _ => (i, Err TypeError)
    end
  else (i, Err AttributeError).
(* vecgymne.py:447-450: the loop over the actors; actors behind the first refused call are not reached *)
Fixpoint send_limits (limits : list nat) (actors : list inst) : list inst * result unit :=
  match limits, actors with
  | n :: ls, a :: r =>
      match remote_call inst_method "_set_actor_max_num_envs" [PVal n] a with
      | Ok (a', _) => let '(r', e) := send_limits ls r in (a' :: r', e)
      | Err e => (a :: r, Err e)
      end
  | _, _ => (actors, Ok tt)
  end.
(* core.py:1972-2047 (the part which creates the actors) with vecgymne.py:440-451 *)
Definition parallelize (g : vg) : vg * result unit :=
  let g := if Nat.eqb (v_nactors g) 0 then g
           else match v_actors g with
                | Some _ => g
                | None => mkV (v_max g) (v_nactors g) (v_main g) (Some (repeat (pickled (v_main g)) (v_nactors g)))
                end in
  let i := v_main g in
  if i_ready i then (g, Ok tt)
  else match v_actors g with
       | None => (mkV (v_max g) (v_nactors g) (mkI (v_max g) true (i_env i) (i_num i)) None, Ok tt)
       | Some l =>
           match v_max g with
           | None => (mkV (v_max g) (v_nactors g) (mkI (i_max i) true (i_env i) (i_num i)) (Some l), Ok tt)
           | Some m =>
               match split_workload m (length l) with
               | Err e => (g, Err e)
               | Ok limits =>
                   match send_limits limits l with
                   | (l', Err e) => (mkV (v_max g) (v_nactors g) i (Some l'), Err e)
                   | (l', Ok _) => (mkV (v_max g) (v_nactors g) (mkI (i_max i) true (i_env i) (i_num i)) (Some l'), Ok tt)
                   end
               end
           end
       end.

(* the pieces which the actors evaluate: (actor, number of solutions) in the order of the pool *)
Fixpoint evaluate_pieces (pieces : list (nat * nat)) (actors : list inst) : result (list inst) :=
  match pieces with
  | [] => Ok actors
  | (a, n) :: r =>
      match nth_error actors a with
      | None => Err IndexError
      | Some i => bind (evaluate_batch n i) (fun p => evaluate_pieces r (upd actors a (fst p)))
      end
  end.
Inductive op := Evaluate (n : nat) (pieces : list (nat * nat)) | ToPolicy | Clone.
(* evaluate (core.py:2545, 2568-2595), to_policy (vecgymne.py:941) and clone or pickling (core.py:2706-2729) *)
Definition step (g : vg) (o : op) : vg * result unit :=
  match o with
  | Evaluate n pieces =>
      match parallelize g with
      | (g, Err e) => (g, Err e)
      | (g, Ok _) =>
          match v_actors g with
          | None => match evaluate_batch n (v_main g) with
                    | Ok (i, _) => (mkV (v_max g) (v_nactors g) i None, Ok tt)
                    | Err e => (g, Err e)
                    end
          | Some l => match evaluate_pieces pieces l with
                      | Ok l => (mkV (v_max g) (v_nactors g) (v_main g) (Some l), Ok tt)
                      | Err e => (g, Err e)
                      end
          end
      end
  | ToPolicy => (mkV (v_max g) (v_nactors g) (get_env 1 (v_main g)) (v_actors g), Ok tt)
  | Clone => (mkV (v_max g) (v_nactors g) (pickled (v_main g)) None, Ok tt)
  end.
(* the whole history: the states after each operation with its result *)
Fixpoint history (g : vg) (ops : list op) : list (op * vg * result unit) :=
  match ops with [] => [] | o :: r => let '(g', e) := step g o in (o, g', e) :: history g' r end.

(* ---------------------------------------------------------------- action noise *)
(* vecgymne.py:841-844: rand holds the outcomes of torch.rand_like *)
Definition vec_noise (stdev : option Q) (rand action : list Q) : list Q :=
  match stdev with None => action | Some s => map2 (fun a u => (a + u * s)%Q) action rand end.
(* gymne.py:342-346: gauss holds the outcomes of the standard normal distribution *)
Definition gym_noise (stdev : option Q) (gauss action : list Q) : list Q :=
  match stdev with None => action | Some s => map2 (fun a z => (a + (0 + s * z))%Q) action gauss end.

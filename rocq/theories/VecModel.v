(* Model of how vectorized environments are made by name (neuroevolution/net/vecrl.py: make_vector_env, make_gym_env,
   make_brax_env), of the class VectorEnvFromBrax, and of moving merged info dictionaries to a device.
   Simplifications: gym.make and brax.envs.create are not modelled: the result says what they are called with.  Values of
   keyword arguments are integers, booleans, None or opaque objects, on which int() fails with TypeError.  The spaces of all
   copies of an environment agree and are supported.  brax is installed.  The wrapped environment is described together with
   the arguments of TorchWrapper. *)
From Coq Require Import String Ascii QArith.
From Verif Require Import Prelude SpaceModel.
Close Scope Q_scope.
Open Scope nat_scope.

(* ---------------------------------------------------------------- keyword arguments *)
Inductive val := VInt (z : Z) | VBool (b : bool) | VNone | VObj (id : nat).
Definition kwargs := list (string * val).
Fixpoint kget (d : kwargs) (k : string) : option val :=
  match d with [] => None | (k', v) :: r => if String.eqb k k' then Some v else kget r k end.
Fixpoint kset (d : kwargs) (k : string) (v : val) : kwargs :=
  match d with [] => [(k, v)] | (k', v') :: r => if String.eqb k k' then (k', v) :: r else (k', v') :: kset r k v end.
(* dict.update *)
Definition kupdate (d e : kwargs) : kwargs := fold_left (fun d kv => kset d (fst kv) (snd kv)) e d.
Definition among (l : list string) (k : string) : bool := existsb (String.eqb k) l.
(* what remains for **kwargs when the named parameters have been bound *)
Definition without (names : list string) (d : kwargs) : kwargs := filter (fun kv => negb (among names (fst kv))) d.
(* int(v), bool(v) *)
Definition py_int (v : val) : result Z :=
  match v with VInt z => Ok z | VBool b => Ok (if b then 1 else 0)%Z | _ => Err TypeError end.
Definition truth (v : val) : bool := match v with VInt z => negb (z =? 0)%Z | VBool b => b | VNone => false | VObj _ => true end.
Definition given (v : option val) : bool := match v with None => false | Some VNone => false | Some _ => true end.

(* ---------------------------------------------------------------- environments *)
Inductive env :=
  | GymEnv (name : string) (args : kwargs)                                     (* gym.make(name, **args) *)
  | SyncVec (copies : list (string * kwargs)) (empty_info : bool) (num_episodes : option Z) (device : option val)
  | BraxEnv (old : bool) (name : string) (num_envs : Z) (args : kwargs).        (* create(name, batch_size=num_envs, **args) *)
(* arguments of TorchWrapper *)
Record conversions := mkC { force_classic_api : bool; discrete_to_continuous_act : bool; clip_actions : bool }.
Definition wrapped : Type := env * conversions.

(* vecrl.py:1601-1655 SyncVectorEnv.__init__ with num_envs copies *)
Definition sync_vec (copies : list (string * kwargs)) (empty_info : bool) (num_episodes device : option val) : result env :=
  match copies with
  | [] => Err ValueError
  | _ =>
      bind (if given num_episodes
            then match num_episodes with
                 | Some v => bind (py_int v) (fun n => if (n <=? 0)%Z then Err ValueError else Ok (Some n))
                 | None => Ok None
                 end
            else Ok None) (fun n => Ok (SyncVec copies empty_info n (if given device then device else None)))
  end.
(* vecrl.py:668-761 make_gym_env; k holds the keyword arguments other than the four common ones *)
Definition own_names : list string := ["empty_info"; "num_episodes"; "device"]%string.
Definition make_gym_env (name : string) (num_envs : option nat) (c : conversions) (k : kwargs) : result wrapped :=
  let empty_info := match kget k "empty_info" with Some v => truth v | None => false end in
  let num_episodes := kget k "num_episodes" in
  let device := kget k "device" in
  let args := without own_names k in
  bind (match num_envs with
        | None => if empty_info then Err ValueError
                  else if given num_episodes then Err ValueError
                  else if given device then Err ValueError
                  else Ok (GymEnv name args)
        | Some n => sync_vec (repeat (name, args) n) empty_info num_episodes device
        end) (fun e => Ok (e, c)).

(* str.startswith *)
Fixpoint starts_with (p s : string) : option string :=
  match p, s with
  | EmptyString, _ => Some s
  | String a p', String b s' => if Ascii.eqb a b then starts_with p' s' else None
  | String _ _, EmptyString => None
  end.
(* vecrl.py:1380-1396: the loop over the keyword arguments *)
Fixpoint scan_kwargs (k : kwargs) (num_envs : option Z) (auto_reset : option bool) : result (option Z * option bool) :=
  match k with
  | [] => Ok (num_envs, auto_reset)
  | (key, v) :: r =>
      if among ["batch_size"; "num_envs"]%string key then
        match num_envs with
        | None => bind (py_int v) (fun n => scan_kwargs r (Some n) auto_reset)
        | Some _ => Err ValueError
        end
      else if among ["autoreset"; "auto_reset"]%string key then
        match auto_reset with
        | None => scan_kwargs r num_envs (Some (truth v))
        | Some _ => Err ValueError
        end
      else scan_kwargs r num_envs auto_reset
  end.
(* vecrl.py:1367-1413 VectorEnvFromBrax.__init__: filtered_kwargs stays empty *)
Definition vector_env_from_brax (name : string) (k : kwargs) : result env :=
  let '(old, name) := match starts_with "old::" name with Some r => (true, r) | None => (false, name) end in
  let filtered_kwargs := [] in
  bind (scan_kwargs k None None) (fun p =>
  let auto_reset := match snd p with None => true | Some b => b end in
  match fst p with
  | None => Err ValueError
  | Some n => if auto_reset then Ok (BraxEnv old name n filtered_kwargs) else Err ValueError
  end).
(* vecrl.py:616-665 make_brax_env *)
Definition make_brax_env (name : string) (num_envs : option nat) (c : conversions) (k : kwargs) : result wrapped :=
  let config := match num_envs with Some n => kset k "num_envs" (VInt (Z.of_nat n)) | None => k end in
  bind (vector_env_from_brax name config) (fun e => Ok (e, c)).

(* str.split("::", maxsplit=1): the part before the first occurrence and the part behind it *)
Fixpoint split_name (s : string) : option (string * string) :=
  match s with
  | EmptyString => None
  | String a r =>
      match starts_with "::" s with
      | Some rest => Some (EmptyString, rest)
      | None => match split_name r with Some (x, y) => Some (String a x, y) | None => None end
      end
  end.
(* a call fn(name, force_classic_api=..., num_envs=..., ..., **k) *)
Definition common_names : list string := ["env_name"; "force_classic_api"; "num_envs"; "discrete_to_continuous_act"; "clip_actions"]%string.
Definition call (fn : string -> option nat -> conversions -> kwargs -> result wrapped)
    (name : string) (num_envs : option nat) (c : conversions) (k : kwargs) : result wrapped :=
  if existsb (fun kv => among common_names (fst kv)) k then Err TypeError else fn name num_envs c k.
(* vecrl.py:764-859 make_vector_env *)
Definition make_vector_env (name : string) (num_envs : option nat) (c : conversions) (gym_kwargs brax_kwargs : option kwargs) (k : kwargs) : result wrapped :=
  let gym_kwargs := match gym_kwargs with Some d => d | None => [] end in
  let brax_kwargs := match brax_kwargs with Some d => d | None => [] end in
  match split_name name with
  | None => call make_gym_env name num_envs c (kupdate k gym_kwargs)
  | Some (registry, rest) =>
      if String.eqb registry "gym" then call make_gym_env rest num_envs c (kupdate k gym_kwargs)
      else if String.eqb registry "brax" then call make_brax_env rest num_envs c (kupdate k brax_kwargs)
      else Err ValueError
  end.

(* ---------------------------------------------------------------- brax: seeds and the end of episodes *)
Section Brax.
Variables (State Action : Type).
Variable brax_reset : Z -> State.                                  (* with the key made from a seed *)
Variable brax_step : State -> Action -> State.
Variable state_done : State -> list Q.
Variable state_truncation : State -> option (list Q).              (* state.info["truncation"], if there *)
Record brax := mkB { given_seed : option Z; last_state : option State }.
(* vecrl.py:1439-1440 *)
Definition brax_seed (s : option Z) (b : brax) : brax := mkB s (last_state b).
(* vecrl.py:1442-1462; random: the outcome of random.randint *)
Definition reset (seed : option Z) (random : Z) (b : brax) : brax :=
  let s := match seed with None => match given_seed b with None => random | Some s => s end | Some s => s end in
  mkB None (Some (brax_reset s)).
(* vecrl.py:1464-1466 *)
Definition convert_to_bool (x : Q) : bool := negb (Qle_bool (if Qle_bool 0 x then x else - x)%Q (1 # 10000)%Q).
(* vecrl.py:1468-1471 *)
Definition terminated_and_truncated (done : list Q) : list bool * list bool :=
  let terminated := map convert_to_bool done in (terminated, map (fun _ => false) terminated).
(* vecrl.py:1473-1477: truncation is not used *)
Definition terminated_and_truncated2 (done truncation : list Q) : list bool * list bool :=
  let done := map convert_to_bool done in
  let truncated := map (fun _ => false) done in
  (map2 (fun d t => d && negb t) done truncated, truncated).
(* vecrl.py:1479-1490; a step before the first reset fails inside brax *)
Definition brax_env_step (a : Action) (b : brax) : result (brax * (list bool * list bool)) :=
  match last_state b with
  | None => Err AttributeError
  | Some s =>
      let s := brax_step s a in
      Ok (mkB (given_seed b) (Some s),
          match state_truncation s with
          | Some t => terminated_and_truncated2 (state_done s) t
          | None => terminated_and_truncated (state_done s)
          end)
  end.
End Brax.
Arguments given_seed {State} _.
Arguments last_state {State} _.
Arguments brax_seed {State} _ _.
Arguments reset {State} _ _ _ _.
Arguments brax_env_step {State Action} _ _ _ _ _.

(* ---------------------------------------------------------------- info dictionaries on a device *)
(* an entry of the merged dictionary: numpy array, list, or tensor *)
Inductive moved := Same (e : entry) | Tensor (l : list (option value)).
(* convertible: torch.as_tensor accepts an array made from values with this identity (not so for arrays of strings or objects);
   np.stack of values of which one is not convertible is not convertible either *)
Definition entry_ok (convertible : nat -> bool) (x : option value) : bool :=
  match x with Some (Num _ id) => convertible id | _ => false end.
(* vecrl.py:1666-1684 __move_to_target_device for a dictionary *)
Definition move (convertible : nat -> bool) (on_device : bool) (e : entry) : result moved :=
  if on_device then
    match e with
    | Stacked l => if forallb (entry_ok convertible) l then Ok (Tensor l) else Err TypeError
    | Listed l => Ok (Same e)
    end
  else Ok (Same e).
Definition reported_info (convertible : nat -> bool) (on_device : bool) (infos : list dict) : result (list (nat * moved)) :=
  sequence (map (fun ke => rmap (pair (fst ke)) (move convertible on_device (snd ke))) (batch_info_dicts infos)).

(* Model of how environments of the classic gym API and of the new one are used: TorchWrapper (neuroevolution/net/vecrl.py) with the
   conversion of its flags and actions, and reset_env and take_step_in_env (neuroevolution/net/rl.py).
   The environment is an arbitrary state machine. Conversions between array libraries keep the values, so that observations, rewards
   and infos are abstract. Numbers are rational; the tolerance 1e-4 is the decimal number. The rows of an action belong to the
   sub-environments (one row if the environment is not vectorized). Combining the flags of differently many sub-environments raises
   (broadcasting is not modelled). An exception raised by the environment itself is not modelled. *)
From Coq Require Import QArith Qabs.
From Verif Require Import Prelude.
Close Scope Q_scope.
Open Scope nat_scope.

(* an array of flags: of booleans, of integers, or of floating point numbers *)
Inductive flags := FBool (l : list bool) | FInt (l : list Z) | FFloat (l : list Q).
(* vecrl.py:223-251 (convert_to_torch_bool) *)
Definition to_bools (f : flags) : list bool :=
  match f with
  | FBool l => l
  | FFloat l => map (fun x => if Qlt_le_dec (1 # 10000) (Qabs x) then true else false) l
  | FInt l => map (fun z => negb (Z.eqb z 0)) l
  end.

Section Env.
Context {S O Rw I : Type}.
(* what reset() returns: an observation, a pair, or a tuple of another length *)
Inductive raw_reset := RPlain (o : O) | RPair (o : O) (i : I) | RTuple.
(* what step() returns: a tuple of four, of five, of another number of elements, or no tuple *)
Inductive raw_step := S4 (o : O) (r : Rw) (d : flags) (i : I) | S5 (o : O) (r : Rw) (d d2 : flags) (i : I) | STuple | SOther.
(* what the environment is given as its action: numbers, or integers *)
Inductive action := ACont (rows : list (list Q)) | ADisc (l : list nat).
Record env := { env_reset : S -> S * raw_reset; env_step : S -> action -> S * raw_step }.

(* torch.argmax over the last dimension *)
Variable argmax : list Q -> nat.

(* vecrl.py:405-465 (TorchWrapper.__init__): whether discrete actions are to be given as scores, and the bounds used for clipping
   (lower, upper; None: infinite), if any *)
Record config := { c_classic : bool; c_scores : bool; c_bounds : option (list (option Q * option Q)) }.
(* the state of the wrapper: that of the environment, and whether the array type has been inferred *)
Record wrapper := { w_env : S; w_known : bool }.
Definition new_wrapper (s : S) : wrapper := {| w_env := s; w_known := false |}.

(* vecrl.py:538-550: what is sent to the environment *)
Definition qmax (a b : Q) : Q := if Qlt_le_dec a b then b else a.
Definition qmin (a b : Q) : Q := if Qlt_le_dec a b then a else b.
Definition clip1 (b : option Q * option Q) (x : Q) : Q :=
  let x := match fst b with None => x | Some l => qmax x l end in
  match snd b with None => x | Some u => qmin x u end.
Definition prepare (c : config) (rows : list (list Q)) : action :=
  if c_scores c then ADisc (map argmax rows)
  else ACont (match c_bounds c with None => rows | Some bs => map (fun row => map2 clip1 bs row) rows end).

(* what the wrapper returns *)
Inductive outcome :=
| OObs (o : O) | OObsInfo (o : O) (i : I)
| O4 (o : O) (r : Rw) (d : list bool) (i : I) | O5 (o : O) (r : Rw) (d d2 : list bool) (i : I).

(* vecrl.py:488-524 (reset); unpacking a tuple of another length raises ValueError *)
Definition wreset (e : env) (c : config) (w : wrapper) : wrapper * result outcome :=
  let '(s, raw) := env_reset e (w_env w) in
  match raw with
  | RTuple => ({| w_env := s; w_known := w_known w |}, Err ValueError)
  | RPair o i => ({| w_env := s; w_known := true |}, Ok (if c_classic c then OObs o else OObsInfo o i))
  | RPlain o => ({| w_env := s; w_known := true |}, Ok (OObs o))
  end.
(* vecrl.py:584-588: done | done2 *)
Definition combine_flags (a b : list bool) : result (list bool) :=
  if length a =? length b then Ok (map2 orb a b) else Err RuntimeError.
(* vecrl.py:526-596 (step) *)
Definition wstep (e : env) (c : config) (w : wrapper) (rows : list (list Q)) : wrapper * result outcome :=
  if w_known w then
    let '(s, raw) := env_step e (w_env w) (prepare c rows) in
    ({| w_env := s; w_known := w_known w |},
     match raw with
     | SOther => Err TypeError
     | STuple => Err ValueError
     | S5 o r d d2 i =>
         if c_classic c then rmap (fun d => O4 o r d i) (combine_flags (to_bools d) (to_bools d2))
         else Ok (O5 o r (to_bools d) (to_bools d2) i)
     | S4 o r d i => Ok (O4 o r (to_bools d) i)
     end)
  else (w, Err ValueError).

Inductive op := Reset | Step (rows : list (list Q)).
Definition wdo (e : env) (c : config) (w : wrapper) (o : op) : wrapper * result outcome :=
  match o with Reset => wreset e c w | Step rows => wstep e c w rows end.
Fixpoint wrun (e : env) (c : config) (w : wrapper) (ops : list op) : wrapper * list (result outcome) :=
  match ops with
  | [] => (w, [])
  | o :: t => let '(w1, r) := wdo e c w o in let '(w2, rs) := wrun e c w1 t in (w2, r :: rs)
  end.

(* ---- rl.py, for an environment that is not vectorized; the truth value of a flag ---- *)
Inductive scalar_flag := VBool (b : bool) | VInt (z : Z) | VFloat (q : Q).
Definition truthy (f : scalar_flag) : bool :=
  match f with VBool b => b | VInt z => negb (Z.eqb z 0) | VFloat q => if Qeq_dec q 0 then false else true end.
(* rl.py:63-80 (reset_env); None: a tuple, which is returned as it is *)
Definition reset_env (raw : raw_reset) : option O :=
  match raw with RPlain o => Some o | RPair o _ => Some o | RTuple => None end.
(* rl.py:106-127 (take_step_in_env): the last of "terminated or truncated" that is looked at is the value *)
Inductive scalar_step := T4 (o : O) (r : Rw) (d : scalar_flag) (i : I) | T5 (o : O) (r : Rw) (d d2 : scalar_flag) (i : I) | TTuple | TOther.
Definition take_step (raw : scalar_step) : result (O * Rw * scalar_flag * I) :=
  match raw with
  | T4 o r d i => Ok (o, r, d, i)
  | T5 o r d d2 i => Ok (o, r, if truthy d then d else d2, i)
  | TTuple => Err ValueError
  | TOther => Err TypeError
  end.
End Env.
Arguments raw_reset : clear implicits.
Arguments raw_step : clear implicits.
Arguments env : clear implicits.
Arguments outcome : clear implicits.
Arguments scalar_step : clear implicits.

(* Model of rollouts: VecGymNE._evaluate_subbatch (neuroevolution/vecgymne.py) over a SyncVectorEnv, and GymNE._rollout / run
   (neuroevolution/gymne.py) over a single environment with net/rl.py's AliveBonusScheduleWrapper.
   Simplifications: the tensors "per env" are one list of records; conversions and clipping of actions belong to the environment's step
   (the action space wrappers are not modelled); no action noise; rewards and scores are exact; devices are not modelled. *)
From Coq Require Import QArith.
From Verif Require Import Prelude EnvModel.
Close Scope Q_scope.
Open Scope nat_scope.

Section ROLL.
Variables ES A O I P H NS : Type.
Variable env_step : nat -> ES -> A -> ES * sres O I.
Variable env_reset : nat -> ES -> option Z -> ES * (O * I).
Variable seed_of : Z -> nat -> Z.
Variable dummy_observation : O.
Variable empty_info : I.
Variable policy : P -> O -> H -> A * H.            (* parameters, observation, hidden state *)
Variable h0 : H.                                    (* the hidden state after a reset of the policy *)
Variable num_episodes : nat.
Variable decrease_rewards_by : Q.                   (* 0 when not given *)
Variable schedule : option (Z * Z * Q).             (* alive bonus schedule (t0, t1, bonus) *)

(* rl.py:253-266: the bonus which the wrapper adds at timestep t *)
Definition wrapper_bonus (t : Z) (reward : Q) : Q :=
  match schedule with
  | None => reward
  | Some (t0, t1, b) =>
    if (t1 <=? t)%Z then (reward + b)%Q
    else if (t0 <? t1)%Z && (t0 <=? t)%Z then (reward + (inject_Z (t - t0) / inject_Z (t1 - t0)) * b)%Q
    else reward
  end.

(* ---- VecGymNE ---- *)
(* one environment of the batch *)
Record lane := { l_obs : O; l_par : P; l_hid : H; l_score : option Q; l_eps : nat; l_active : bool; l_t : Z }.
(* RunningNorm over the observations of the active environments: vecgymne.py:604-647 *)
Variable normf : NS -> list O -> NS * list O.
(* vecgymne.py:822-831: the normalized rows are put back at the places of the mask *)
Fixpoint put_back (lanes : list lane) (os : list O) : list lane :=
  match lanes with
  | [] => []
  | l :: t => if l_active l then
                match os with
                | o :: os' => {| l_obs := o; l_par := l_par l; l_hid := l_hid l; l_score := l_score l; l_eps := l_eps l; l_active := l_active l; l_t := l_t l |} :: put_back t os'
                | [] => l :: put_back t []
                end
              else l :: put_back t os
  end.
Definition normalize (ns : NS) (lanes : list lane) : NS * list lane :=
  let '(ns1, os) := normf ns (map l_obs (filter l_active lanes)) in (ns1, put_back lanes os).

(* vecgymne.py:850-890 for one environment: reward, alive bonus, score, hidden state, number of episodes *)
Definition update_lane (l : lane) (h : H) (r : vres O I) : lane :=
  let done := v_term r || v_trunc r in
  let active := l_active l in
  let reward := option_map (fun q => (q - decrease_rewards_by)%Q) (v_reward r) in
  let t1_ := if active then (l_t l + 1)%Z else l_t l in
  let score1 := match schedule with
                | None => l_score l
                | Some (t0, t1, b) =>
                  let s := if active && (t1 <=? t1_)%Z then option_map (fun q => (q + b)%Q) (l_score l) else l_score l in
                  if (t0 <? t1)%Z && active && (t0 <=? t1_)%Z && (t1_ <? t1)%Z
                  then option_map (fun q => (q + b * (inject_Z (t1_ - t0) / inject_Z (t1 - t0)))%Q) s else s
                end in
  let t2_ := if active && done then 0%Z else t1_ in
  let score2 := if active then match score1, reward with Some a, Some b => Some (a + b)%Q | _, _ => None end else score1 in
  {| l_obs := v_obs r; l_par := l_par l; l_hid := if done then h0 else h; l_score := score2; l_eps := if done then S (l_eps l) else l_eps l;
     l_active := active; l_t := t2_ |}.
(* vecgymne.py:893-897: only the first num_solutions entries change *)
Definition update_active (num_solutions : nat) (i : nat) (l : lane) : lane :=
  if i <? num_solutions
  then {| l_obs := l_obs l; l_par := l_par l; l_hid := l_hid l; l_score := l_score l; l_eps := l_eps l;
          l_active := l_active l && (l_eps l <? num_episodes); l_t := l_t l |}
  else l.
Definition count_active (lanes : list lane) : nat := length (filter l_active lanes).

(* vecgymne.py:837-905, the loop *)
Fixpoint vec_loop (fuel num_solutions : nat) (v : venv ES) (ns : NS) (lanes : list lane) (total_timesteps : nat)
  : result (venv ES * NS * list lane * nat) :=
  match fuel with
  | 0 => Err OutOfFuel
  | S f =>
    let acts := map (fun l => policy (l_par l) (l_obs l) (l_hid l)) lanes in
    match venv_step env_step env_reset dummy_observation empty_info (Some num_episodes) v (map fst acts) with
    | (_, Err e) => Err e
    | (v1, Ok rs) =>
      let lanes1 := map3 update_lane lanes (map snd acts) rs in
      let total1 := total_timesteps + count_active lanes in
      let lanes2 := map2 (update_active num_solutions) (seq 0 (length lanes1)) lanes1 in
      if negb (existsb l_active (firstn num_solutions lanes2)) then Ok (v1, ns, lanes2, total1)
      else let '(ns1, lanes3) := normalize ns lanes2 in vec_loop f num_solutions v1 ns1 lanes3 total1
    end
  end.
(* vecgymne.py:744-799 and 907-916; the environments beyond the solutions run copies of the first solution and are not active.
   [v] is the existing vector environment, with at least as many environments as there are solutions. The first solution is given
   separately, since a batch is not empty. Returns fitnesses, timesteps and episodes. *)
Definition evaluate_subbatch (fuel : nat) (v : venv ES) (ns : NS) (first : P) (rest : list P) : result (list (option Q) * nat * nat) :=
  let solutions := first :: rest in
  let num_solutions := length solutions in
  let num_envs := length (ve_envs v) in
  if num_envs <? num_solutions then Err AssertionError
  else
    let '(v1, ois) := venv_reset env_reset seed_of (Some num_episodes) v None in
    let params := solutions ++ repeat first (num_envs - num_solutions) in
    let lanes := map3 (fun i p oi => {| l_obs := fst oi; l_par := p; l_hid := h0; l_score := Some 0%Q; l_eps := 0; l_active := i <? num_solutions; l_t := 0%Z |})
                      (seq 0 num_envs) params ois in
    let '(ns1, lanes1) := normalize ns lanes in
    bind (vec_loop fuel num_solutions v1 ns1 lanes1 0) (fun r =>
      let '(_, _, lanes2, total) := r in
      let scores := map l_score (firstn num_solutions lanes2) in
      let fitnesses := if 1 <? num_episodes then map (option_map (fun q => (q / inject_Z (Z.of_nat num_episodes))%Q)) scores else scores in
      Ok (fitnesses, total, num_solutions * num_episodes)).

(* ---- GymNE ---- *)
Variable gnorm : O -> O.                            (* normalization of an observation, when the statistics do not change *)
Variable episode_length : option nat.
(* gymne.py:391-414, the loop of _rollout; [wt] is the timestep counter of the wrapper; returns the environment, the cumulative reward
   and the number of interactions *)
Fixpoint rollout_loop (fuel : nat) (i : nat) (p : P) (s : ES) (o : O) (h : H) (wt : Z) (t : nat) (cumulative : Q) : result (ES * Q * nat) :=
  match fuel with
  | 0 => Err OutOfFuel
  | S f =>
    let '(a, h1) := policy p o h in
    let '(s1, r) := env_step i s a in
    let wt1 := (wt + 1)%Z in
    let reward := (wrapper_bonus wt1 (r_reward r) - decrease_rewards_by)%Q in
    let done := r_term r || r_trunc r in
    let c1 := (cumulative + reward)%Q in
    if done || match episode_length with Some n => n <=? S t | None => false end then Ok (s1, c1, S t)
    else rollout_loop f i p s1 (gnorm (r_obs r)) h1 wt1 (S t) c1
  end.
(* gymne.py:361-414: the policy and the environment are reset, without a seed *)
Definition rollout (fuel i : nat) (p : P) (s : ES) : result (ES * Q * nat) :=
  let '(s1, oi) := env_reset i s None in rollout_loop fuel i p s1 (gnorm (fst oi)) h0 0%Z 0 0%Q.
Fixpoint rollouts (fuel i : nat) (p : P) (s : ES) (n : nat) : result (list (Q * nat)) :=
  match n with
  | 0 => Ok []
  | S k => bind (rollout fuel i p s) (fun r => let '(s1, c, t) := r in rmap (cons (c, t)) (rollouts fuel i p s1 k))
  end.
(* rl.py:30-46 with method "avg"; total / count, with total None for no values *)
Definition average (l : list Q) : result Q :=
  match l with
  | [] => Err TypeError
  | q :: t => Ok (fold_left Qplus t q / inject_Z (Z.of_nat (length l)))%Q
  end.
(* gymne.py:420-475 and 636-644: the cumulative reward, averaged over the episodes *)
Definition gym_evaluate (fuel i : nat) (p : P) (s : ES) : result Q :=
  bind (rollouts fuel i p s num_episodes) (fun l => average (map fst l)).
End ROLL.

Arguments l_obs {O P H} _.
Arguments l_par {O P H} _.
Arguments l_hid {O P H} _.
Arguments l_score {O P H} _.
Arguments l_eps {O P H} _.
Arguments l_active {O P H} _.
Arguments l_t {O P H} _.

Arguments put_back {O P H} _ _.
Arguments normalize {O P H NS} _ _ _.
Arguments update_lane {O I P H} _ _ _ _ _ _.
Arguments update_active {O P H} _ _ _ _.
Arguments count_active {O P H} _.
Arguments vec_loop {ES A O I P H NS} _ _ _ _ _ _ _ _ _ _ _ _ _ _ _ _.
Arguments evaluate_subbatch {ES A O I P H NS} _ _ _ _ _ _ _ _ _ _ _ _ _ _ _ _.
Arguments rollout_loop {ES A O I P H} _ _ _ _ _ _ _ _ _ _ _ _ _ _ _.
Arguments rollout {ES A O I P H} _ _ _ _ _ _ _ _ _ _ _ _.
Arguments rollouts {ES A O I P H} _ _ _ _ _ _ _ _ _ _ _ _ _.
Arguments gym_evaluate {ES A O I P H} _ _ _ _ _ _ _ _ _ _ _ _ _.

(* Model of neuroevolution/net/vecrl.py, class SyncVectorEnv, over arbitrary sub-environments.
   Simplifications: actions, observations and infos are arbitrary values; arrays over the sub-environments are lists; merging the info
   dictionaries, moving to a device and the conversion of observations to the dtype of the first sub-environment are not modelled;
   rewards of sub-environments are rational numbers, and the NaN reported for finished ones is None. *)
From Coq Require Import QArith.
From Verif Require Import Prelude.
Close Scope Q_scope.
Open Scope nat_scope.

Section ENV.
Variables ES A O I : Type.
(* what the step method of a sub-environment returns *)
Record sres := { r_obs : O; r_reward : Q; r_term : bool; r_trunc : bool; r_info : I }.
(* what is reported for one sub-environment *)
Record vres := { v_obs : O; v_reward : option Q; v_term : bool; v_trunc : bool; v_info : I }.
Variable env_step : nat -> ES -> A -> ES * sres.                  (* step of the sub-environment with the given index *)
Variable env_reset : nat -> ES -> option Z -> ES * (O * I).       (* reset, with an optional seed *)
Variable seed_of : Z -> nat -> Z.                                  (* RandomState(s).randint(0, 2**32, num_envs)[i] *)
Variable dummy_observation : O.
Variable empty_info : I.
Variable num_episodes : option nat.

(* the sub-environments with their entries of __num_episodes_counter, and the pending __random_state *)
Record venv := { ve_envs : list (ES * nat); ve_seed : option Z }.
(* vecrl.py:1601-1655: the counters start with 1 *)
Definition new_venv (states : list ES) : result venv :=
  match states with
  | [] => Err ValueError
  | _ => match num_episodes with
         | Some O => Err ValueError
         | _ => Ok {| ve_envs := map (fun s => (s, 1)) states; ve_seed := None |}
         end
  end.
(* vecrl.py:1728-1731 *)
Definition venv_seed (v : venv) (seed : option Z) : venv := {| ve_envs := ve_envs v; ve_seed := seed |}.
(* vecrl.py:1779-1783: the loop over the sub-environments, with 1657-1664 *)
Fixpoint reset_loop (seed : option Z) (i : nat) (l : list (ES * nat)) : list (ES * nat) * list (O * I) :=
  match l with
  | [] => ([], [])
  | (s, c) :: t =>
    let '(s1, oi) := env_reset i s (option_map (fun z => seed_of z i) seed) in
    let '(t1, ois) := reset_loop seed (S i) t in
    ((s1, c) :: t1, oi :: ois)
  end.
(* vecrl.py:1767-1790; [kw] is the keyword argument seed, if given *)
Definition venv_reset (v0 : venv) (kw : option (option Z)) : venv * list (O * I) :=
  let v := match kw with Some s => venv_seed v0 s | None => v0 end in
  let envs := match num_episodes with Some n => map (fun e => (fst e, n)) (ve_envs v) | None => ve_envs v end in
  let '(envs1, ois) := reset_loop (ve_seed v) 0 envs in
  ({| ve_envs := envs1; ve_seed := None |}, ois).

(* vecrl.py:1843-1856 *)
Definition is_active_env (c : nat) : bool := match num_episodes with None => true | Some _ => 0 <? c end.
Definition is_last_episode (c : nat) : bool := match num_episodes with None => false | Some _ => c =? 1 end.
Definition decrement_counter (c : nat) : nat := match num_episodes with None => c | Some _ => c - 1 end.
(* vecrl.py:1858-1874 apply_step *)
Definition apply_step (i : nat) (e : ES * nat) (a : A) : (ES * nat) * vres :=
  let '(s, c) := e in
  if negb (is_active_env c) then (e, {| v_obs := dummy_observation; v_reward := None; v_term := true; v_trunc := true; v_info := empty_info |})
  else
    let '(s1, r) := env_step i s a in
    if r_term r || r_trunc r then
      let was_last := is_last_episode c in
      let c1 := decrement_counter c in
      let '(s2, oi) := env_reset i s1 None in
      ((s2, c1), if negb was_last then {| v_obs := fst oi; v_reward := Some (r_reward r); v_term := r_term r; v_trunc := r_trunc r; v_info := snd oi |}
                 else {| v_obs := r_obs r; v_reward := Some (r_reward r); v_term := r_term r; v_trunc := r_trunc r; v_info := r_info r |})
    else ((s1, c), {| v_obs := r_obs r; v_reward := Some (r_reward r); v_term := r_term r; v_trunc := r_trunc r; v_info := r_info r |}).
(* vecrl.py:1876-1888 *)
Fixpoint step_loop (i : nat) (l : list (ES * nat)) (acts : list A) : list (ES * nat) * list vres :=
  match l, acts with
  | e :: t, a :: ta =>
    let '(e1, r) := apply_step i e a in
    let '(t1, rs) := step_loop (S i) t ta in
    (e1 :: t1, r :: rs)
  | _, _ => ([], [])
  end.
(* vecrl.py:1815-1905 *)
Definition venv_step (v : venv) (acts : list A) : venv * result (list vres) :=
  if negb (length acts =? length (ve_envs v)) then (v, Err ValueError)
  else let '(envs, rs) := step_loop 0 (ve_envs v) acts in ({| ve_envs := envs; ve_seed := ve_seed v |}, Ok rs).
(* a sequence of steps *)
Fixpoint venv_run (v : venv) (l : list (list A)) : venv * result (list (list vres)) :=
  match l with
  | [] => (v, Ok [])
  | a :: t => match venv_step v a with
              | (v1, Err e) => (v1, Err e)
              | (v1, Ok rs) => let '(v2, r) := venv_run v1 t in (v2, rmap (cons rs) r)
              end
  end.
End ENV.

(* vecrl.py:1611-1637: the checks of the spaces of the sub-environments *)
Inductive space := Box (shape : list nat) | Discrete (n : nat) | OtherSpace.
Definition shape_eqb (a b : list nat) : bool := if list_eq_dec Nat.eq_dec a b then true else false.
Definition check_first (obs act : space) : result unit :=
  match obs with
  | Box _ => match act with OtherSpace => Err TypeError | _ => Ok tt end
  | _ => Err TypeError
  end.
(* the shape of the first observation space is compared with the attribute .shape of the others: () for Discrete *)
Definition space_shape (s : space) : list nat := match s with Box l => l | _ => [] end.
Definition check_other (obs0 act0 obs act : space) : result unit :=
  if negb (shape_eqb (space_shape obs) (space_shape obs0)) then Err ValueError
  else match act with
       | Discrete n => match act0 with
                       | Discrete n0 => if negb (n =? n0) then Err ValueError else Ok tt
                       | _ => Err TypeError
                       end
       | Box _ => match act0 with
                  | Box _ => if negb (shape_eqb (space_shape obs) (space_shape obs0)) then Err ValueError else Ok tt
                  | _ => Err TypeError
                  end
       | OtherSpace => Err AssertionError
       end.
Definition check_spaces (l : list (space * space)) : result unit :=
  match l with
  | [] => Err ValueError
  | (o0, a0) :: t => bind (check_first o0 a0) (fun _ => rmap (fun _ => tt) (sequence (map (fun oa => check_other o0 a0 (fst oa) (snd oa)) t)))
  end.

Arguments r_obs {O I} _.
Arguments r_reward {O I} _.
Arguments r_term {O I} _.
Arguments r_trunc {O I} _.
Arguments r_info {O I} _.
Arguments v_obs {O I} _.
Arguments v_reward {O I} _.
Arguments v_term {O I} _.
Arguments v_trunc {O I} _.
Arguments v_info {O I} _.
Arguments ve_envs {ES} _.
Arguments ve_seed {ES} _.
Arguments new_venv {ES} _ _.
Arguments venv_seed {ES} _ _.
Arguments reset_loop {ES O I} _ _ _ _ _.
Arguments venv_reset {ES O I} _ _ _ _ _.
Arguments apply_step {ES A O I} _ _ _ _ _ _ _ _.
Arguments step_loop {ES A O I} _ _ _ _ _ _ _ _.
Arguments venv_step {ES A O I} _ _ _ _ _ _ _.
Arguments venv_run {ES A O I} _ _ _ _ _ _ _.

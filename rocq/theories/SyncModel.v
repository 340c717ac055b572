(* Model of the exchange of observation statistics and counters between a reinforcement learning problem and its actors
   (neuroevolution/gymne.py, neuroevolution/vecgymne.py, core.py). Observation normalization is switched on.
   Data sent between processes are copies. What an actor observes during an evaluation is an argument: any sequence is possible. *)
From Coq Require Import Reals.
From Verif Require Import Prelude NormModel.
Close Scope R_scope.
Open Scope nat_scope.

(* ---- GymNE ---- *)
(* gymne.py:272-279: the statistics and counters of one problem object *)
Record gstate := G { g_stats : rstat; g_collected : rstat; g_episodes : nat; g_interactions : nat }.
Definition g_new : gstate := G None None 0 0.

(* gymne.py:324-332 (_normalize_observation, update_stats=True) *)
Definition g_observe (g : gstate) (x : list num) : result gstate :=
  bind (rs_update (g_stats g) x) (fun st =>
  bind (rs_update (g_collected g) x) (fun co => Ok (G st co (g_episodes g) (g_interactions g)))).
(* gymne.py:383-406: one episode: an observation at the reset and one at each step *)
Definition episode := (list num * list (list num))%type.
Definition g_episode (g : gstate) (e : episode) : result gstate :=
  let (x0, xs) := e in
  bind (g_observe g x0) (fun g =>
  bind (fold_left (fun r x => bind r (fun g => rmap (fun g => G (g_stats g) (g_collected g) (g_episodes g) (S (g_interactions g))) (g_observe g x))) xs (Ok g)) (fun g =>
  Ok (G (g_stats g) (g_collected g) (S (g_episodes g)) (g_interactions g)))).
Definition g_work (g : gstate) (es : list episode) : result gstate :=
  fold_left (fun r e => bind r (fun g => g_episode g e)) es (Ok g).
(* gymne.py:530-539 (_use_sync_data_from_main, set_observation_stats): reset, then update with the received copy *)
Definition g_from_main (g : gstate) (received : rstat) : result gstate :=
  bind (rs_merge None received) (fun st => Ok (G st (g_collected g) (g_episodes g) (g_interactions g))).
(* gymne.py:541-554 (_make_sync_data_for_main): counters and the statistics collected since the last time *)
Definition g_for_main (g : gstate) : gstate * (nat * nat * rstat) :=
  (G (g_stats g) None (g_episodes g) (g_interactions g), (g_episodes g, g_interactions g, g_collected g)).
(* gymne.py:556-573 (_use_sync_data_from_actors) *)
Definition g_from_actors (g : gstate) (received : list (nat * nat * rstat)) : result gstate :=
  let step r d := let '(e, i, delta) := d in
    bind r (fun '(g, te, ti) => bind (rs_merge (g_stats g) delta) (fun st =>
      Ok (G st (g_collected g) (g_episodes g) (g_interactions g), te + e, ti + i))) in
  bind (fold_left step received (Ok (g, 0, 0))) (fun '(g, te, ti) => Ok (G (g_stats g) (g_collected g) te ti)).

(* core.py:2308-2327 (_sync_before, _sync_after) around core.py:2554 (_evaluate_all) or the remote gradient computation:
   works says which episodes each actor went through *)
Definition g_round (main : gstate) (actors : list gstate) (works : list (list episode)) : result (gstate * list gstate) :=
  bind (sequence (map (fun a => g_from_main a (g_stats main)) actors)) (fun actors =>
  bind (sequence (map2 g_work actors works)) (fun actors =>
  let sent := map g_for_main actors in
  bind (g_from_actors main (map snd sent)) (fun main => Ok (main, map fst sent)))).

(* the life of a problem with actors: parallel evaluations, and episodes run by the main problem (gymne.py:420-475, update_stats=True). The actors
   are there from the beginning (they are made by the first evaluation, or by all_remote_problems(); LifeModel.v models when and from what) *)
Inductive gop := GRound (works : list (list episode)) | GRun (es : list episode).
Definition g_step (sys : gstate * list gstate) (o : gop) : result (gstate * list gstate) :=
  let (main, actors) := sys in
  match o with
  | GRound works => g_round main actors works
  | GRun es => rmap (fun m => (m, actors)) (g_work main es)
  end.
Definition g_history (n : nat) (os : list gop) : result (gstate * list gstate) :=
  fold_left (fun r o => bind r (fun sys => g_step sys o)) os (Ok (g_new, repeat g_new n)).

(* gymne.py:519-534 with identities: the RunningStat objects are numbered; get_observation_stats returns the live object number own,
   set_observation_stats resets that object and then updates it with the given object *)
Definition set_observation_stats (store : list rstat) (own arg : nat) : result (list rstat) :=
  let store1 := upd store own None in
  match nth_error store1 own, nth_error store1 arg with
  | Some a, Some b => rmap (upd store1 own) (rs_merge a b)
  | _, _ => Err KeyError
  end.

(* ---- VecGymNE ---- *)
(* vecgymne.py: like above with RunningNorm objects, None before the first observation *)
Record vstate := V { v_stats : option norm; v_collected : option norm; v_episodes : nat; v_interactions : nat }.
Definition v_new : vstate := V None None 0 0.
(* vecgymne.py:590-594 (_make_running_norm) *)
Definition v_ensure (w : nat) (r : option norm) : norm := match r with None => new_norm w default_minvar None | Some s => s end.
(* vecgymne.py:604-643 with update_stats=True, for a batch of rows (vecgymne.py:822-831 passes the rows of the active environments, at least one) *)
Definition v_observe (v : vstate) (w : nat) (rows : list (list num)) : result vstate :=
  bind (update (v_ensure w (v_collected v)) (XBatch w rows) None) (fun co =>
  match update_and_normalize (v_ensure w (v_stats v)) (XBatch w rows) None with
  | (st, Ok _) => Ok (V (Some st) (Some co) (v_episodes v) (v_interactions v))
  | (_, Err e) => Err e
  end).
Definition v_work (v : vstate) (w : nat) (batches : list (list (list num))) : result vstate :=
  fold_left (fun r rows => bind r (fun v => v_observe v w rows)) batches (Ok v).
(* vecgymne.py:667-675 *)
Definition v_from_main (v : vstate) (received : option norm) : vstate := V received (v_collected v) (v_episodes v) (v_interactions v).
(* vecgymne.py:677-693 *)
Definition v_for_main (v : vstate) : vstate * option norm := (V (v_stats v) None (v_episodes v) (v_interactions v), v_collected v).
(* vecgymne.py:695-701 (update_observation_stats): without statistics the received object is taken (also None);
   otherwise RunningNorm.update(None) converts None to a tensor, which raises an error *)
Definition v_update_stats (v : vstate) (rn : option norm) : result vstate :=
  match v_stats v, rn with
  | None, _ => Ok (V rn (v_collected v) (v_episodes v) (v_interactions v))
  | Some s, Some x => rmap (fun s' => V (Some s') (v_collected v) (v_episodes v) (v_interactions v)) (merge s x None)
  | Some s, None => Err TypeError
  end.
(* vecgymne.py:703-715 (the counters are as in GymNE and left out here) *)
Definition v_from_actors (v : vstate) (received : list (option norm)) : result vstate :=
  fold_left (fun r d => bind r (fun v => v_update_stats v d)) received (Ok v).
Definition v_round (w : nat) (main : vstate) (actors : list vstate) (works : list (list (list (list num)))) : result (vstate * list vstate) :=
  let actors := map (fun a => v_from_main a (v_stats main)) actors in
  bind (sequence (map2 (fun a b => v_work a w b) actors works)) (fun actors =>
  let sent := map v_for_main actors in
  bind (v_from_actors main (map snd sent)) (fun main => Ok (main, map fst sent))).
Definition v_history (w n : nat) (rounds : list (list (list (list (list num))))) : result (vstate * list vstate) :=
  fold_left (fun r works => bind r (fun '(main, actors) => v_round w main actors works)) rounds (Ok (v_new, repeat v_new n)).

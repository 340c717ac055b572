(* Model of the life of a parallelized reinforcement learning problem (GymNE): when its actors are made and from what, killing them, and clones
   (pickling works the same way) with the states of the actors kept in the main object. Uses the model of one synchronized evaluation (SyncModel);
   observation normalization is switched on, data sent between processes are copies, random seeds and hooks are left out. *)
From Coq Require Import Reals.
From Verif Require Import Prelude NormModel SyncModel.
Close Scope R_scope.
Open Scope nat_scope.

(* core.py:1280-1295: the main object, its actors (None: not made), and the states of actors kept for the next time that actors are made
   (episode and interaction counters, gymne.py:575-579) *)
Record life := Life { l_main : gstate; l_actors : option (list gstate); l_remote : option (list (nat * nat)) }.
Definition l_new : life := Life g_new None None.
(* core.py:117-145 (EvaluationActor.__init__) and gymne.py:581-592: an actor holds a copy of the main object; the counters are overwritten
   if a state is given, and otherwise stay those of the copy *)
Definition make_actor (main : gstate) (state : option (nat * nat)) : gstate :=
  match state with
  | None => main
  | Some (e, i) => G (g_stats main) (g_collected main) e i
  end.
(* core.py:1972-2047 (_parallelize), for n actors, 0 < n *)
Definition parallelize (n : nat) (l : life) : life :=
  match l_actors l with
  | Some _ => l
  | None =>
      let states := match l_remote l with None => repeat None n | Some rs => map Some rs end in
      Life (l_main l) (Some (map (make_actor (l_main l)) states)) None
  end.
(* core.py:2545-2557 (evaluate): works says which episodes each actor goes through *)
Definition l_eval (n : nat) (l : life) (works : list (list episode)) : result life :=
  let l := parallelize n l in
  match l_actors l with
  | None => Ok l
  | Some actors => rmap (fun r => Life (fst r) (Some (snd r)) (l_remote l)) (g_round (l_main l) actors works)
  end.
(* gymne.py:420-475 with update_stats=True, by the main object *)
Definition l_run (l : life) (es : list episode) : result life :=
  rmap (fun m => Life m (l_actors l) (l_remote l)) (g_work (l_main l) es).
(* core.py:2112-2128 (kill_actors): None is not iterable *)
Definition l_kill (l : life) : result life :=
  match l_actors l with None => Err TypeError | Some _ => Ok (Life (l_main l) None (l_remote l)) end.
(* core.py:2706-2731 (_get_cloned_state): first the states of the actors are fetched into the original; returns the original and the clone *)
Definition l_clone (l : life) : life * life :=
  let remote := match l_actors l with None => l_remote l | Some actors => Some (map (fun a => (g_episodes a, g_interactions a)) actors) end in
  (Life (l_main l) (l_actors l) remote, Life (l_main l) None remote).

(* LGo: from now on, the clone is used; LCopy: a clone is made, the original is used further; LStart: all_remote_problems(), core.py:2049-2075 *)
Inductive lop := LEval (works : list (list episode)) | LRun (es : list episode) | LKill | LGo | LCopy | LStart.
Definition l_step (n : nat) (l : life) (o : lop) : result life :=
  match o with
  | LEval works => l_eval n l works
  | LRun es => l_run l es
  | LKill => l_kill l
  | LGo => Ok (snd (l_clone l))
  | LCopy => Ok (fst (l_clone l))
  | LStart => Ok (parallelize n l)
  end.
Definition l_history (n : nat) (os : list lop) : result life := fold_left (fun r o => bind r (fun l => l_step n l o)) os (Ok l_new).

(* What the statistics of a distributed reinforcement learning problem should be. *)
From Coq Require Import Reals.
From Verif Require Import Prelude NormModel NormSpec SyncModel.
Close Scope R_scope.
Open Scope nat_scope.

(* episodes in terms of real observations *)
Definition repisode := (list R * list (list R))%type.
Definition lift_ep (e : repisode) : episode := (lift (fst e), map lift (snd e)).
Definition ep_obs (e : repisode) : obs := fst e :: snd e.
Definition eps_obs (es : list repisode) : obs := flat_map ep_obs es.
Definition eps_steps (es : list repisode) : nat := list_sum (map (fun e => length (snd e)) es).
Inductive rop := RRound (works : list (list repisode)) | RRun (es : list repisode).
Definition lift_op (o : rop) : gop :=
  match o with RRound works => GRound (map (map lift_ep) works) | RRun es => GRun (map lift_ep es) end.
(* every observation ever made, by any actor or by the main problem *)
Definition all_obs (os : list rop) : obs :=
  flat_map (fun o => match o with RRound works => flat_map eps_obs works | RRun es => eps_obs es end) os.
(* steps and episodes of the parallel evaluations *)
Definition all_steps (os : list rop) : nat :=
  list_sum (map (fun o => match o with RRound works => list_sum (map eps_steps works) | RRun es => 0 end) os).
Definition all_episodes (os : list rop) : nat :=
  list_sum (map (fun o => match o with RRound works => list_sum (map (@length repisode) works) | RRun es => 0 end) os).
(* n actors, observations of length d *)
Definition op_ok (n d : nat) (o : rop) : Prop :=
  match o with
  | RRound works => length works = n /\ Forall (fun x => length x = d) (flat_map eps_obs works)
  | RRun es => Forall (fun x => length x = d) (eps_obs es)
  end.
(* statistics of the given observations (NormSpec), or no statistics *)
Definition stats_are (d : nat) (r : option norm) (os : obs) : Prop :=
  match r with
  | None => os = []
  | Some s => os <> [] /\ n_count s = length os /\ mean s = Ok (spec_mean d os) /\ stdev s = Ok (spec_stdev d default_minvar os)
  end.

(* VecGymNE: per actor a list of batches of observations *)
Definition vwork := list obs.
Definition lift_vwork (b : vwork) : list (list (list num)) := map (map lift) b.
Definition vround_ok (n d : nat) (works : list vwork) : Prop :=
  length works = n /\ Forall (Forall (fun rows => rows <> [] /\ Forall (fun x => length x = d) rows)) works.
(* nobody is idle *)
Definition nobody_idle (works : list vwork) : Prop := Forall (fun b => b <> []) works.

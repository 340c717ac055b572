(* What the arguments of VecGymNE and GymNE should mean. *)
From Coq Require Import QArith String.
From Verif Require Import Prelude VgModel.
Close Scope Q_scope.
Open Scope nat_scope.

(* the values of num_actors in the documentation which are no numbers (vecgymne.py:235-249) *)
Definition documented_names : list string := ["max"; "num_cpus"; "num_gpus"; "num_devices"]%string.
(* several actors, each with a share of the GPUs *)
Definition gpu_actors (a : number_of_actors) (g : gpus) : Prop :=
  exists n q, a = Actors n /\ (n > 1)%Z /\ g = Gpus q /\ (0 < q)%Q.
Definition other_than_cpu (device : option string) (d : string) : Prop := device = Some d /\ d <> "cpu"%string.

(* a schedule (t, b) or (t0, t1, b) with the meaning (t0, t1, b) *)
Inductive schedule : list Q -> Z * Z * Q -> Prop :=
| sch2 t b : schedule [inject_Z t; b] (t, t, b)
| sch3 t0 t1 b : schedule [inject_Z t0; inject_Z t1; b] (t0, t1, b).

(* the number of environments which exist in all processes *)
Definition size (x : option nat) : nat := match x with Some n => n | None => 0 end.
Definition environments (g : vg) : nat :=
  size (i_env (v_main g)) + list_sum (map (fun i => size (i_env i)) (match v_actors g with Some l => l | None => [] end)).

(* operations with at least one solution, whose pieces go to existing actors *)
Definition sensible_op (nactors : nat) (o : op) : Prop :=
  match o with
  | Evaluate n pieces => 1 <= n /\ Forall (fun p => fst p < nactors) pieces
  | _ => True
  end.

(* supported spaces: observations in a Box, actions in a Box or Discrete (with at least one dimension) *)
Definition supported (observation action : space) (o a : nat) : Prop :=
  (exists s, observation = Box (o :: s)) /\ ((exists s, action = Box (a :: s)) \/ action = Discrete a).

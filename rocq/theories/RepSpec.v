(* Specification vocabulary for reports and loggers. *)
From Coq Require Import String.
From Verif Require Import Prelude FloatLib BatchModel BatchSpec LoopModel.

(* a population in which every solution has been evaluated *)
Definition evaluated {V} (senses : list bool) (b : batch V) : Prop :=
  wf b /\ b_desc b = senses /\ b_len b <> 0 /\ (forall j, j < length senses -> no_nan_col b j).
(* the values of one objective, solution after solution *)
Definition scores {V} (j : nat) (b : batch V) : list fl := map (score j) (rows b).
(* v is a lower median of l: it is a member, at least half of the members are not above it, and at least half are not below it *)
Definition count {A} (f : A -> bool) (l : list A) : nat := length (filter f l).
Definition lower_median (v : fl) (l : list fl) : Prop :=
  In v l /\ length l <= 2 * count (fun x => negb (flt v x)) l /\ length l < 2 * count (fun x => negb (flt x v)) l.
(* the only objective to report about: the one that was asked for, or the only one there is *)
Definition sole (obj_index : option nat) (n : nat) : option nat :=
  match obj_index, n with Some j, _ => Some j | None, 1 => Some 0 | None, _ => None end.
(* the prefix of a report: none if there is only one objective to report about *)
Definition report_key (single : bool) (j : string) (name : string) : string := if single then name else ("obj" ++ j ++ "_" ++ name)%string.
(* dictionaries (k, v) in which no key is one of [keys] *)
Definition avoids {W} (keys : list string) (d : dict W) : Prop := forall k, In k (map fst d) -> ~ In k keys.
(* names which the pickled dictionary uses for itself *)
Definition own_names : list string := ["obs_stats"; "policy"; "beginning_time"; "now"; "elapsed"]%string.
(* the file lies in the directory: its path is the directory, a separator if needed, and the name *)
Definition inside (dir f path : string) : Prop :=
  path = (dir ++ "/" ++ f)%string \/ (path = (dir ++ f)%string /\ (dir = ""%string \/ exists d, dir = (d ++ "/")%string)).

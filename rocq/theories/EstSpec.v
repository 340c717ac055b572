(* Specification of calls of functional samplers and gradient estimators: which parameters a call gives to the distribution. *)
From Coq Require Import String Permutation.
From Verif Require Import Prelude.

Section Calls.
  Context {V : Type}.
  (* the keys are unique: a Python dictionary *)
  Definition wf (d : list (string * V)) : Prop := NoDup (map fst d).
  (* either every required parameter by position, or every required parameter by name *)
  Definition accepted (required : list string) (args : list V) (kwargs : list (string * V)) : Prop :=
    (kwargs = [] /\ length args = length required) \/ (args = [] /\ Permutation (map fst kwargs) required).
  (* what the caller gives to the parameter k *)
  Inductive given (required : list string) (args : list V) (kwargs : list (string * V)) : string -> V -> Prop :=
  | by_position i k v : nth_error required i = Some k -> nth_error args i = Some v -> given required args kwargs k v
  | by_name k v : In (k, v) kwargs -> given required args kwargs k v.
  (* the distribution receives the fixed parameters, and what the caller gives for the others; nothing else *)
  Definition means (required : list string) (args : list V) (kwargs fixed parameters : list (string * V)) : Prop :=
    wf parameters /\
    forall k v, In (k, v) parameters <-> In (k, v) fixed \/ (~ In k (map fst fixed) /\ given required args kwargs k v).
  Definition special (k : string) : Prop := k = "objective_sense"%string \/ k = "ranking_method"%string.
  (* kwargs, in any order, consist of the settings (objective_sense, ranking_method) and of the parameters *)
  Definition splits (kwargs settings parameters : list (string * V)) : Prop :=
    wf kwargs /\ Permutation kwargs (settings ++ parameters) /\
    (forall kv, In kv settings -> special (fst kv)) /\ (forall kv, In kv parameters -> ~ special (fst kv)).
  (* the setting in force: the one of the call if there is one, otherwise the one of the construction *)
  Definition in_force (settings : list (string * V)) (name : string) (default : option V) (v : V) : Prop :=
    In (name, v) settings \/ (~ In name (map fst settings) /\ default = Some v).
End Calls.

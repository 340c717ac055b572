(* When the two interfaces of PGPE and CEM are expected to perform the same search. *)
From Coq Require Import Reals String.
From Verif Require Import Prelude ExtR FuncModel PgpeModel.
Open Scope R_scope.

(* the limit of component i *)
Definition limit_of (o : option rlimit) (i : nat) : option R :=
  match o with None => None | Some (LScalar x) => Some x | Some (LVec l) => nth_error l i end.
Definition fitting (n : nat) (o : option rlimit) : Prop := match o with Some (LVec l) => length l = n | _ => True end.
(* the search starts with nonnegative standard deviations inside the limits *)
Definition starts_inside (mn mx : option rlimit) (sigma : list R) : Prop :=
  forall i x, nth_error sigma i = Some x ->
    0 <= x /\ (forall l, limit_of mn i = Some l -> l <= x) /\ (forall u, limit_of mx i = Some u -> x <= u).
(* a maximum change which is a nonnegative number; at most 1 unless there is a lower limit, too *)
Definition change_limited (mn mc : option rlimit) : Prop :=
  mc <> None /\ forall i c, limit_of mc i = Some c -> 0 <= c /\ (mn = None -> c <= 1).
(* a lower and an upper limit, both positive *)
Definition range_limited (mn mx : option rlimit) : Prop :=
  mn <> None /\ mx <> None /\ forall i l, limit_of mn i = Some l \/ limit_of mx i = Some l -> 0 < l.
(* a standard deviation is a positive number (or NaN, as a consequence of a NaN gradient) *)
Definition positive (x : xr) : Prop := x = RNaN \/ exists y, x = RF y /\ 0 < y.
(* what can be expected of an estimate of gradients: one number per parameter *)
Definition per_parameter {V E} (n : nat) (gradients : dist -> list num -> list xr -> V -> E -> bool -> option string -> list R * list xr) : Prop :=
  forall d mu sigma v e b r, length (fst (gradients d mu sigma v e b r)) = n /\ length (snd (gradients d mu sigma v e b r)) = n.
Definition sense_name (maximize : bool) : string := if maximize then "max"%string else "min"%string.
(* the class has the center and the standard deviations of the functional search, and has evaluated what the functional
   search is about to ask for *)
Definition same_state {V E N} (draw : bool -> list num -> list xr -> nat -> N -> V) (evaluate : V -> N -> E)
    (n popsize : nat) (s : algo V E) (f : pgpe_state) (z : N) : Prop :=
  a_mu s = opt_ask n (p_opt f) /\ a_sigma s = p_stdev f /\
  exists v, pgpe_ask draw f popsize z = Ok v /\ a_pop s = Some (v, evaluate v z).
Definition same_state_cem {V E N} (draw : bool -> list num -> list xr -> nat -> N -> V) (evaluate : V -> N -> E)
    (popsize : nat) (s : algo V E) (f : cem_state) (z : N) : Prop :=
  a_mu s = m_center f /\ a_sigma s = m_stdev f /\
  a_pop s = Some (cem_ask draw f popsize z, evaluate (cem_ask draw f popsize z) z).

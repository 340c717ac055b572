(* What hooks, the status, the main loop, loggers and restarts are expected to do. *)
From Coq Require Import String QArith Qround.
From Verif Require Import Prelude LoopModel.
Close Scope Q_scope.
Open Scope nat_scope.

(* Call every function once, from left to right, and note what each returned. *)
Fixpoint call_all {S A V} (fs : list (A -> S -> S * ret V)) (a : A) (s : S) : S * list (ret V) :=
  match fs with
  | [] => (s, [])
  | f :: t => let (s1, o) := f a s in let (s2, os) := call_all t a s1 in (s2, o :: os)
  end.
Definition is_map {V} (o : ret V) : Prop := exists d, o = RMap d /\ NoDup (map fst d).
Definition is_seq {V} (o : ret V) : Prop := exists l, o = RSeq l.
Definition none_or {V} (P : ret V -> Prop) (o : ret V) : Prop := o = RNone \/ P o.
(* the value of a key in the last returned mapping which contains the key *)
Fixpoint last_wins {V} (k : string) (os : list (ret V)) : option V :=
  match os with
  | [] => None
  | o :: t => match last_wins k t with
              | Some v => Some v
              | None => match o with RMap d => dget k d | _ => None end
              end
  end.
Fixpoint joined {V} (os : list (ret V)) : list V :=
  match os with [] => [] | RSeq l :: t => l ++ joined t | _ :: t => joined t end.
(* an outcome which cannot follow the given ones *)
Definition conflict {V} (before : list (ret V)) (o : ret V) : Prop :=
  o = ROther \/ (is_map o /\ exists x, In x before /\ is_seq x) \/ (is_seq o /\ exists x, In x before /\ is_map x).
Definition harmonious {V} (os : list (ret V)) : Prop := Forall (none_or is_map) os \/ Forall (none_or is_seq) os.

(* ---- status histories *)
Definition is_clear {E V} (o : lazy_op E V) : Prop := o = Clear.
Definition stores {E V} (k : string) (o : lazy_op E V) : Prop := exists d, o = Update d /\ In k (map fst d).
Definition reads {E V} (k : string) (o : lazy_op E V) : Prop := o = Get k.
Definition key_count (k : string) (l : list string) : nat := List.length (filter (String.eqb k) l).

(* ---- one generation, n-th since the beginning *)
Section Generation.
Context {U V : Type}.
Variable vnat : nat -> V.
Variable c : config U V.
Variable getters : dict (U -> V).       (* the status getters of the algorithm *)
Definition quietly (fs : list (U -> U * ret V)) (u : U) : U * list (ret V) := call_all (map (fun f (_ : unit) => f) fs) tt u.
(* what the status must contain in the n-th generation: the after-step hooks come first, then the problem, then the counter,
   then the algorithm's own items, computed at the moment u of the reading *)
Definition status_at (n : nat) (at_step : U) (extra : list (ret V)) (u : U) (k : string) (v : V) : Prop :=
  match last_wins k extra with
  | Some x => v = x
  | None => match dget k (problem_status c at_step) with
            | Some x => v = x
            | None => if String.eqb k "iter" then v = vnat n else exists g, dget k getters = Some g /\ v = g u
            end
  end.
(* keys which the status may have kept from earlier generations are read as None; they are not constrained here *)
Definition status_ok (n : nat) (at_step : U) (extra : list (ret V)) (u : U) (d : dict V) : Prop :=
  forall k, (exists x, last_wins k extra = Some x) \/ In k (map fst (problem_status c at_step)) \/ k = "iter"%string \/
            In k (map fst getters) ->
  exists v, dget k d = Some v /\ status_at n at_step extra u k v.
(* d is the status with which the log hook is called *)
Inductive generation (n : nat) (u : U) : U -> list (event V) -> dict V -> Prop :=
| Generation u1 o1 u2 u3 o3 u4 o4 d :
    quietly (before_step c) u = (u1, o1) -> harmonious o1 ->
    alg_step c u1 = (u2, None) ->
    quietly (after_step c) u2 = (u3, o3) -> Forall (none_or is_map) o3 ->
    status_ok n u2 o3 u3 d ->
    call_all (log_hook c) d u3 = (u4, o4) -> harmonious o4 ->
    generation n u u4
      (map EBefore (seq 0 (List.length (before_step c))) ++ [EStep] ++ map EAfter (seq 0 (List.length (after_step c))) ++
       map (fun i => ELog i d) (seq 0 (List.length (log_hook c)))) d.
(* every mapping involved has each key once (as Python mappings do) *)
Definition proper : Prop :=
  (forall f u d, In f (before_step c) -> snd (f u) = RMap d -> NoDup (map fst d)) /\
  (forall f u d, In f (after_step c) -> snd (f u) = RMap d -> NoDup (map fst d)) /\
  (forall f a u d, In f (log_hook c) -> snd (f a u) = RMap d -> NoDup (map fst d)) /\
  (forall u, NoDup (map fst (problem_status c u))).
(* k generations after n earlier ones; the last argument is the status of the last generation, if any *)
Inductive generations : nat -> nat -> U -> U -> list (event V) -> option (dict V) -> Prop :=
| Gens_nil n u : generations n 0 u u [] None
| Gens_last n u u1 t d : generation (n + 1) u u1 t d -> generations n 1 u u1 t (Some d)
| Gens_cons n k u u1 u2 t1 t2 d1 d : generation (n + 1) u u1 t1 d1 -> generations (n + 1) k u1 u2 t2 (Some d) ->
    generations n (S k) u u2 (t1 ++ t2) (Some d).
(* counting events *)
Definition is_step (e : event V) : bool := match e with EStep => true | _ => false end.
Definition is_end (e : event V) : bool := match e with EEnd _ _ => true | _ => false end.
Definition steps_in (t : list (event V)) : nat := length (filter is_step t).
End Generation.

(* ---- loggers: the generations (counted from 1) at which something is logged *)
Definition due (interval : Z) (after_first_step : bool) (generation : Z) : Prop :=
  exists j, generation = (j * interval + (if after_first_step then 1 else 0))%Z.

(* the generation counter after each of a sequence of calls run(n) *)
Fixpoint ends (g : nat) (ns : list nat) : list nat := match ns with [] => [] | n :: t => (g + n) :: ends (g + n) t end.
Definition increasing (l : list nat) : Prop := forall i j x y, i < j -> nth_error l i = Some x -> nth_error l j = Some y -> x < y.

(* ---- restarting: the population size after r restarts *)
Fixpoint grown (m : Q) (p r : nat) : nat :=
  match r with O => p | S r' => Z.to_nat (Qfloor (m * inject_Z (Z.of_nat (grown m p r')))) end.
(* an algorithm whose population keeps the size it was constructed with, once it has made a step *)
Section Fixed.
Context {I : Type}.
Variable construct : nat -> I.
Variable istep : I -> I.
Variable population : I -> option nat.
Definition fixed_size : Prop := forall p k, population (Nat.iter (S k) istep (construct p)) = Some p.
End Fixed.

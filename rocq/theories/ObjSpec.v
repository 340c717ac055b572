(* What ObjectArrays should do: arrays are windows onto cells. *)
From Verif Require Import Prelude ObjModel.

Section SPEC.
Context {X E : Type}.
Variable freeze : X -> result E.
Variable kept : X -> bool.
(* the length of an array; its p-th place is a cell; what the cell holds *)
Definition len (st : state E) (h : nat) : option nat := option_map (fun a => length (a_indices a)) (nth_error (arrs st) h).
Definition cell (st : state E) (h p : nat) : option (nat * nat) :=
  match nth_error (arrs st) h with Some a => option_map (fun i => (a_store a, i)) (nth_error (a_indices a) p) | None => None end.
Definition holds (st : state E) (h p : nat) (e : elem E) : Prop :=
  exists s i l, cell st h p = Some (s, i) /\ nth_error (stores st) s = Some l /\ nth_error l i = Some e.
Definition read_only (st : state E) (h : nat) : Prop := exists a, nth_error (arrs st) h = Some a /\ a_ro a = true.
Definition writable (st : state E) (h : nat) : Prop := exists a, nth_error (arrs st) h = Some a /\ a_ro a = false.
(* places selected by a Python slice with positive step, in their order *)
Definition bound (n : nat) (default : Z) (z : option Z) : Z :=
  match z with None => default | Some z => if (z <? 0)%Z then Z.max 0 (z + Z.of_nat n) else Z.min z (Z.of_nat n) end.
Definition sliced (n : nat) (start stop : option Z) (step : Z) (ps : list nat) : Prop :=
  (forall i j p q, i < j -> nth_error ps i = Some p -> nth_error ps j = Some q -> p < q) /\
  (forall p, In p ps <-> (bound n 0 start <= Z.of_nat p < bound n (Z.of_nat n) stop)%Z /\ ((Z.of_nat p - bound n 0 start) mod step = 0)%Z).

(* programs: operations on arrays which the program has got hold of *)
Definition input_handles (x : input X) : list nat := match x with IArr h => [h] | IVal _ _ => [] end.
Definition handles (o : op X) : list nat :=
  match o with
  | New _ => [] | Get h _ => [h] | Set_ h _ xs => h :: flat_map input_handles xs | View h => [h] | Clone h => [h] | Repeat h _ => [h]
  | FromNumpy xs => flat_map input_handles xs
  | SetFrom h _ src => [h; src]
  end.
Definition gained (r : result (out E)) : list nat :=
  match r with Ok (OHandle h) => [h] | Ok (OElem (EArr h)) => [h] | _ => [] end.
Inductive session : state E -> list nat -> state E -> list nat -> Prop :=
  | session_start st av : session st av st av
  | session_step st av st1 av1 o st2 r : session st av st1 av1 -> (forall h, In h (handles o) -> In h av1) -> step freeze kept st1 o = (st2, r) ->
      session st av st2 (gained r ++ av1).
Definition empty : state E := St [] [].
Definition reachable (st : state E) : Prop := exists av, session empty [] st av.
(* no array contains an array which can be written to *)
Definition no_writable_inside (st : state E) : Prop :=
  forall s l h, nth_error (stores st) s = Some l -> In (EArr h) l -> read_only st h.
(* the ids of the values in an assignment tell different objects apart *)
Definition ids_identify (xs : list (input X)) : Prop := forall id x y, In (IVal id x) xs -> In (IVal id y) xs -> x = y.
End SPEC.

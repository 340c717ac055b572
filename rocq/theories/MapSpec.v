(* Specification vocabulary for MAPElites. *)
From Coq Require Import Sorted.
From Verif Require Import Prelude FloatLib BatchModel BatchSpec GaModel GaSpec MapModel.

(* x lies between the bounds; both bounds belong to the cell, NaN is never inside *)
Definition le_fl (a b : fl) : Prop := lt_fl a b \/ (a = b /\ a <> NaN).
Definition in_range (p : fl * fl) (x : fl) : Prop := le_fl (fst p) x /\ le_fl x (snd p).
(* the features (everything after the fitness) of an evaluation row lie in the cell *)
Definition fits (c : cell) (row : list fl) : Prop := Forall2 in_range c (tl row).
(* torch.argmax / torch.argmin: some position of an extreme value, NaN counting as extreme *)
Definition pick_ok (pick : bool -> list fl -> nat) : Prop :=
  forall d c, c <> [] -> pick d c < length c /\ forall j, j < length c -> beats d (nth j c NaN) (nth (pick d c) c NaN) = false.
(* the fitnesses are numbers, none of them the worst possible infinity *)
Definition acceptable {V} (maximize : bool) (f : V -> list fl) : Prop :=
  forall v, nth 0 (f v) NaN <> NaN /\ nth 0 (f v) NaN <> (if maximize then NInf else PInf).
Definition fitness {V} (f : V -> list fl) (v : V) : fl := nth 0 (f v) NaN.

(* v represents cell c after the candidates in `seen` have been considered *)
Definition represents {V} (maximize : bool) (f : V -> list fl) (c : cell) (seen : list V) (v : V) : Prop :=
  In v seen /\ fits c (f v) /\ forall x, In x seen -> fits c (f x) -> ~ better maximize (fitness f x) (fitness f v).

(* torch.linspace: the requested number of finite points, in order when the ends are in order *)
Definition linspace_ok (linspace : fl -> fl -> nat -> list fl) : Prop :=
  forall lb ub n, is_fin lb = true -> is_fin ub = true ->
    length (linspace lb ub n) = n /\ Forall (fun x => is_fin x = true) (linspace lb ub n) /\
    (flt ub lb = false -> StronglySorted le_fl (linspace lb ub n)).
(* x is strictly between the bounds *)
Definition strictly_in (p : fl * fl) (x : fl) : Prop := lt_fl (fst p) x /\ lt_fl x (snd p).

(* What users expect of controlled updates. *)
From Coq Require Import QArith Qabs.
From Verif Require Import Prelude ExtQ SigmaModel.
Close Scope Q_scope.
Open Scope nat_scope.

(* numerically equal *)
Definition xeq (a b : xq) : Prop := xle a b /\ xle b a.
(* the i-th component of an optional limit *)
Definition limit_at (o : option limit) (i : nat) : option xq :=
  match o with None => None | Some (Scalar v) => Some v | Some (Vec l) => nth_error l i end.
Definition above (o : option xq) (v : xq) : Prop := match o with None => True | Some l => xle l v end.
Definition below (o : option xq) (v : xq) : Prop := match o with None => True | Some u => xle v u end.
(* v differs from o by at most mc * |o| *)
Definition within_change (mc : option xq) (o v : xq) : Prop :=
  match mc with
  | None => True
  | Some (XF m) => exists q w, o = XF q /\ v = XF w /\ (Qabs (w - q) <= m * Qabs q)%Q
  | Some XPI => True
  | Some _ => False
  end.
Definition admissible (lb ub mc : option xq) (o v : xq) : Prop := v <> XNaN /\ above lb v /\ below ub v /\ within_change mc o v.
(* m is between a and b *)
Definition between (a m b : xq) : Prop := (xle a m /\ xle m b) \/ (xle b m /\ xle m a).
(* a limit fits vectors of length n and has no NaN *)
Definition fits (n : nat) (o : option limit) : Prop :=
  match o with None => True | Some (Scalar v) => v <> XNaN | Some (Vec l) => length l = n /\ Forall (fun v => v <> XNaN) l end.
(* a maximum change is a nonnegative number *)
Definition change_ok (n : nat) (o : option limit) : Prop :=
  match o with
  | None => True
  | Some (Scalar v) => exists m, v = XF m /\ (0 <= m)%Q
  | Some (Vec l) => length l = n /\ Forall (fun v => exists m, v = XF m /\ (0 <= m)%Q) l
  end.
(* the maximum change makes sense for the number o: it is a nonnegative number, or infinite for a nonzero o *)
Definition change_fine (mc : option xq) (o : xq) : Prop :=
  match mc with
  | None => True
  | Some (XF m) => (0 <= m)%Q /\ xfin o
  | Some XPI => exists q, o = XF q /\ ~ (q == 0)%Q
  | Some _ => False
  end.
(* every component of s is a number inside the bounds *)
Definition in_bounds (mn mx : option limit) (s : list xq) : Prop :=
  forall i v, nth_error s i = Some v -> v <> XNaN /\ above (limit_at mn i) v /\ below (limit_at mx i) v.
Definition numbers (s : list xq) : Prop := Forall (fun v => v <> XNaN) s.
Definition finites (s : list xq) : Prop := Forall xfin s.
(* what a search algorithm feeds into its sigma update: targets without NaN *)
Definition targets_ok {G} (n : nat) (follow : list xq -> G -> list xq) (xs : list G) : Prop :=
  forall s x, In x xs -> length s = n -> numbers s -> length (follow s x) = n /\ numbers (follow s x).
Definition finite_targets {G} (n : nat) (follow : list xq -> G -> list xq) (xs : list G) : Prop :=
  forall s x, In x xs -> length s = n -> finites s -> length (follow s x) = n /\ finites (follow s x).

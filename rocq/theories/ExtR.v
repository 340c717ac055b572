(* Extended reals: floats with exact arithmetic on finite values, infinities and NaN. *)
From Coq Require Import Reals Lra.
From Verif Require Import Prelude.
Open Scope R_scope.

Inductive xr := RNaN | RNI | RF (x : R) | RPI.
(* IEEE a <= b (false when either is NaN) *)
Definition rleb (a b : xr) : bool :=
  match a, b with
  | RNaN, _ | _, RNaN => false
  | RNI, _ => true | _, RPI => true
  | RF p, RF q => if Rle_dec p q then true else false
  | _, _ => false
  end.
Definition rnan (a : xr) : bool := match a with RNaN => true | _ => false end.
(* torch.max(a, b), torch.min(a, b): a NaN operand gives NaN *)
Definition rmax (a b : xr) : xr := if rnan a || rnan b then RNaN else if rleb a b then b else a.
Definition rmin (a b : xr) : xr := if rnan a || rnan b then RNaN else if rleb a b then a else b.
Definition rabs (a : xr) : xr := match a with RF x => RF (Rabs x) | RNI => RPI | a => a end.
Definition ropp (a : xr) : xr := match a with RF x => RF (- x) | RNI => RPI | RPI => RNI | RNaN => RNaN end.
Definition radd (a b : xr) : xr :=
  match a, b with
  | RNaN, _ | _, RNaN => RNaN
  | RPI, RNI | RNI, RPI => RNaN
  | RPI, _ | _, RPI => RPI
  | RNI, _ | _, RNI => RNI
  | RF p, RF q => RF (p + q)
  end.
Definition rsub (a b : xr) : xr := radd a (ropp b).
Definition rsign (a : xr) : comparison :=
  match a with
  | RF x => if Req_EM_T x 0 then Eq else if Rlt_dec x 0 then Lt else Gt
  | RNI => Lt | RPI => Gt | RNaN => Eq
  end.
Definition rmul (a b : xr) : xr :=
  match a, b with
  | RNaN, _ | _, RNaN => RNaN
  | RF p, RF q => RF (p * q)
  | _, _ => match rsign a, rsign b with
            | Eq, _ | _, Eq => RNaN
            | Gt, Gt | Lt, Lt => RPI
            | _, _ => RNI
            end
  end.

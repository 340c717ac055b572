(* Model of /repo/src/evotorch/tools/constraints.py on scalars (the public functions batch these over tensors with
   expects_ndim).  Real numbers instead of floating point; infinities are explicit; inputs are not NaN. *)
From Coq Require Import Reals String.
From Verif Require Import Prelude.
Open Scope R_scope.

Inductive er := NInf | Fin (r : R) | PInf.
Definition eopp (x : er) : er := match x with NInf => PInf | Fin r => Fin (- r) | PInf => NInf end.
(* x < y *)
Definition eltb (x y : er) : bool :=
  match x, y with
  | NInf, NInf => false | NInf, _ => true
  | Fin a, Fin b => if Rlt_dec a b then true else false
  | Fin _, PInf => true
  | _, _ => false
  end.

(* torch.nn.functional.relu *)
Definition relu (x : R) : R := Rmax 0 x.

(* constraints.py:6-19 *)
Definition violation (lhs : R) (cmp : string) (rhs : R) : result R :=
  if String.eqb cmp ">=" then Ok (relu (rhs - lhs))
  else if String.eqb cmp "<=" then Ok (relu (lhs - rhs))
  else if String.eqb cmp "==" then Ok (Rabs (lhs - rhs))
  else Err ValueError.

(* torch.pow for a base v >= 0 *)
Definition tpow (v e : R) : er :=
  if Rlt_dec 0 v then Fin (Rpower v e)
  else if Rlt_dec 0 e then Fin 0 else if Rlt_dec e 0 then PInf else Fin 1.

(* x + y where x is finite and y is not -inf *)
Definition eadd (x : R) (y : er) : er := match y with Fin b => Fin (x + b) | PInf => PInf | NInf => NInf end.

(* constraints.py:148-192; exp = None stands for NaN (argument omitted) *)
Definition penalty (lhs : R) (cmp : string) (rhs : R) (sign : string) (linear step : R) (exp : option R) (exp_inf : er)
  : result er :=
  bind (violation lhs cmp rhs) (fun v =>
  let pen := linear * v in
  let pen := pen + (if Rlt_dec 0 v then step else 0) in
  let exped := match exp with Some e => tpow v e | None => tpow v 0 end in
  let exped := if eltb exp_inf exped then exp_inf else exped in
  let pen := eadd pen (match exp with Some _ => exped | None => Fin 0 end) in
  if String.eqb sign "+" then Ok pen
  else if String.eqb sign "-" then Ok (eopp pen)
  else Err ValueError).

(* torch.log(x) for x >= 0, divided by a positive sharpness *)
Definition tlog_div (x sharpness : R) : er := if Rlt_dec 0 x then Fin (ln x / sharpness) else NInf.

(* constraints.py:52-85 *)
Definition log_barrier (lhs : R) (cmp : string) (rhs sharpness : R) (sign : string) (inf : er) : result er :=
  bind (if String.eqb cmp ">=" then Ok (relu (lhs - rhs))
        else if String.eqb cmp "<=" then Ok (relu (rhs - lhs))
        else Err ValueError) (fun log_input =>
  let res := tlog_div log_input sharpness in
  let inf := eopp inf in
  let res := if eltb res inf then inf else res in
  if String.eqb sign "-" then Ok res
  else if String.eqb sign "+" then Ok (eopp res)
  else Err ValueError).

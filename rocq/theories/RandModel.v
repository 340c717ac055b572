(* Model of the random tensor makers of /repo/src/evotorch/tools/misc.py.
   The output of the torch generator is an argument of the model; theorems quantify over it. *)
From Coq Require Import QArith.
From Verif Require Import Prelude.
Close Scope Q_scope.
Open Scope Z_scope.

(* The integer dtypes of tools/misc.py:1633: uint8, int8, int16, int32, int64. *)
Record idtype := { signed : bool; bits : Z }.
Definition uint8 := {| signed := false; bits := 8 |}.
Definition int8 := {| signed := true; bits := 8 |}.
Definition int16 := {| signed := true; bits := 16 |}.
Definition int32 := {| signed := true; bits := 32 |}.
Definition int64 := {| signed := true; bits := 64 |}.
Definition imin (d : idtype) : Z := if signed d then - 2 ^ (bits d - 1) else 0.
Definition imax (d : idtype) : Z := if signed d then 2 ^ (bits d - 1) - 1 else 2 ^ bits d - 1.
(* Fixed-width arithmetic wraps around: the representative of z modulo 2^bits within [imin, imax]. *)
Definition wrap (d : idtype) (z : Z) : Z := (z - imin d) mod 2 ^ bits d + imin d.

(* In-place arithmetic on one element.  torch.remainder on integers has the sign of the divisor (Z.modulo),
   and raises RuntimeError("ZeroDivisionError") when the divisor is zero. *)
Definition iadd d a b := wrap d (a + b).
Definition isub d a b := wrap d (a - b).
Definition irem (a b : Z) : result Z := if b =? 0 then Err RuntimeError else Ok (a mod b).

(* tools/misc.py:1639-1642, one element of the tensor with its (broadcast) bounds *)
Definition uniform_int_elem (d : idtype) (lb ub r : Z) : result Z :=
  let diff := iadd d (isub d ub lb) 1 in
  let out := isub d r lb in
  bind (irem out diff) (fun out => Ok (iadd d out lb)).

(* tools/misc.py:1633-1644: `raw` is what Tensor.random_() wrote; bounds are already cast to the dtype and broadcast *)
Definition make_uniform_int (d : idtype) (lb ub : option (list Z)) (raw : list Z) : result (list Z) :=
  match lb, ub with
  | None, None => sequence (map (fun r => irem r 2) raw)
  | Some l, Some u => sequence (map3 (uniform_int_elem d) l u raw)
  | _, _ => Err ValueError
  end.

(* tools/misc.py:1627-1630 *)
Definition uniform_bool_elem (lb ub r : bool) : bool :=
  let always_false := negb lb && negb ub in
  let always_true := lb && ub in
  let out := if always_false then false else r in
  if always_true then true else out.
(* tools/misc.py:1613-1632 *)
Definition make_uniform_bool (lb ub : option (list bool)) (raw : list bool) : result (list bool) :=
  match lb, ub with
  | None, None => Ok raw
  | Some l, Some u => Ok (map3 uniform_bool_elem l u raw)
  | _, _ => Err ValueError
  end.
(* tools/misc.py:1645-1655; real arithmetic instead of floating point *)
Definition make_uniform_float (lb ub : option (list Q)) (raw : list Q) : result (list Q) :=
  match lb, ub with
  | None, None => Ok raw
  | Some l, Some u => Ok (map3 (fun l u r => r * (u - l) + l)%Q l u raw)
  | _, _ => Err ValueError
  end.

(* tools/misc.py:1808-1809 (n within the range of the dtype) *)
Definition make_randint (n : Z) (raw : list Z) : result (list Z) := sequence (map (fun r => irem r n) raw).

(* Symmetric sampling.  A tensor of shape (n, L) is a list of rows. *)
Definition row := list Q.
Definition vadd (a b : row) : row := map2 Qplus a b.
Definition vmul (a b : row) : row := map2 Qmult a b.
Definition vneg (a : row) : row := map Qopp a.
(* out[1::2] = out[0::2]; out[1::2] *= -1, with out[0::2] filled from the generator *)
Fixpoint mirror (noise : list row) : list row :=
  match noise with [] => [] | z :: t => z :: vneg z :: mirror t end.
(* tools/misc.py:1725-1750.  noise k is the k-th row drawn by normal_();
   center and stdev are broadcast against rows *)
Definition make_gaussian (symmetric : bool) (center stdev : option row) (n : nat) (noise : nat -> row)
  : result (list row) :=
  bind (if symmetric then
          if Nat.odd n then Err ValueError else Ok (mirror (map noise (seq 0 (n / 2))))
        else Ok (map noise (seq 0 n)))
    (fun out => match center, stdev with
     | None, None => Ok out
     | Some c, Some s => Ok (map (fun r => vadd (vmul r s) c) out)
     | _, _ => Err ValueError
     end).

(* distributions.py:648-666 (SymmetricSeparableGaussian._unbatched_functional_sample):
   torch.normal(zeros, sigma) is sigma times a standard noise row; vmap(torch.stack)(...).reshape(-1, L)
   interleaves the two lists of rows *)
Fixpoint interleave (a b : list row) : list row :=
  match a, b with x :: a', y :: b' => x :: y :: interleave a' b' | _, _ => [] end.
Definition functional_sample (n : nat) (mu sigma : row) (noise : nat -> row) : result (list row) :=
  if Nat.odd n then Err ValueError else
  let positive := map (fun k => vmul (noise k) sigma) (seq 0 (n / 2)) in
  let negative := map vneg positive in
  Ok (interleave (map (fun r => vadd r mu) positive) (map (fun r => vadd r mu) negative)).
(* distributions.py SymmetricSeparableGaussian._fill 703-704: make_gaussian with center=mu, stdev=sigma, symmetric *)
Definition symmetric_fill (n : nat) (mu sigma : row) (noise : nat -> row) : result (list row) :=
  make_gaussian true (Some mu) (Some sigma) n noise.

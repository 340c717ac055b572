(* Model of evotorch.tools.structures.CBag on top of the CList model. *)
From Verif Require Import Prelude StructModel SortLib.
Open Scope Z_scope.

Section CBag.
Variable D : dops Z.           (* integer dtype of the values *)
Variable M : nat.              (* max_length *)
Variables low high : Z.        (* value_range, upper bound exclusive *)
Variable verify : bool.
Variable fallback : Z.         (* _pop_fallback of the underlying CList *)
Variable batch_dims : nat.     (* number of batch dimensions: _shuffle unpacks a 2-D shape *)

(* structures.py:2370-2386 *)
Definition bignum : Z := (high - low) + 1.
Definition shift : Z := if low <? 1 then 1 - low else 0.
Definition empty : Z := low - 1.

Record cbag := mkBag { cb_lanes : list (lane Z); cb_sampling : bool }.

(* structures.py:2404-2418, one row; noise is the row of gaussian_noise.argsort() *)
Definition shuffle_row (buf noise : list Z) : list Z :=
  let noisy := map2 (fun x nz => x + (if negb (x =? empty) then shift + nz * bignum else 0)) buf noise in
  let sorted := isort (fun a b => b <=? a) noisy in
  map (fun x => x mod bignum - shift) sorted.
Definition shuffle (ls : list (lane Z)) (noise : list (list Z)) : list (lane Z) :=
  map2 (fun l nz => mkLane (shuffle_row (lbuf l) nz) (lbeg l) (lend l)) ls noise.

Inductive cb_op :=
| CbPush (v : barg Z) (w : option (list bool))
| CbPop (noise : list (list Z)) (w : option (list bool))   (* noise: what the generator yields if asked *)
| CbLength
| CbClear.

(* push_ 2390-2402, pop_ 2420-2435, clear 2437-2443, length 2445-2450 *)
Definition cb_step (s : cbag) (o : cb_op) : cbag * result (cl_out (V := Z)) :=
  match o with
  | CbPush v w =>
      if cb_sampling s then (s, Err RuntimeError)
      else let (ls, r) := cl_step D M verify fallback (cb_lanes s) (ClAppend v w) in (mkBag ls (cb_sampling s), r)
  | CbPop noise w =>
      if cb_sampling s then
        let (ls, r) := cl_step D M verify fallback (cb_lanes s) (ClPop w) in (mkBag ls true, r)
      else if Nat.eqb batch_dims 1 then
        let (ls, r) := cl_step D M verify fallback (shuffle (cb_lanes s) noise) (ClPop w) in (mkBag ls true, r)
      else (s, Err ValueError)
  | CbLength => let (ls, r) := cl_step D M verify fallback (cb_lanes s) ClLength in (mkBag ls (cb_sampling s), r)
  | CbClear => (mkBag (map (fun l => mkLane (map (fun _ => empty) (lbuf l)) (-1) (-1)) (cb_lanes s)) false, Ok COUnit)
  end.

(* structures.py:2350-2388: n empty lists whose data is filled with _empty *)
Definition cb_new (n : nat) : cbag := mkBag (cl_new (repeat (repeat empty M) n)) false.
End CBag.

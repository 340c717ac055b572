(* Model of evotorch.tools.structures.CBag with the integers of its dtype: the sums of _shuffle wrap around.
   The other operations move values of the declared range without computing with them. *)
From Verif Require Import Prelude StructModel SortLib CBagModel.
Open Scope Z_scope.

(* the integer of the dtype with that many bits which is congruent to x (two's complement) *)
Definition wrap (bits : Z) (x : Z) : Z := (x + 2 ^ (bits - 1)) mod 2 ^ bits - 2 ^ (bits - 1).

Section Narrow.
Variable bits : Z.
Variable D : dops Z.
Variable M : nat.
Variables low high : Z.
Variable verify : bool.
Variable fallback : Z.
Variable batch_dims : nat.

(* structures.py:2404-2418, one row; wrapping after every operation or at the end is the same *)
Definition narrow_row (buf noise : list Z) : list Z :=
  let noisy := map2 (fun x nz => wrap bits (x + (if negb (x =? empty low) then shift low + nz * bignum low high else 0))) buf noise in
  let sorted := isort (fun a b => b <=? a) noisy in
  map (fun x => x mod bignum low high - shift low) sorted.
Definition narrow_shuffle (ls : list (lane Z)) (noise : list (list Z)) : list (lane Z) :=
  map2 (fun l nz => mkLane (narrow_row (lbuf l) nz) (lbeg l) (lend l)) ls noise.
(* pop_: structures.py:2420-2435; the others as in CBagModel *)
Definition narrow_step (s : cbag) (o : cb_op) : cbag * result (cl_out (V := Z)) :=
  match o with
  | CbPop noise w =>
      if cb_sampling s then
        let (ls, r) := cl_step D M verify fallback (cb_lanes s) (ClPop w) in (mkBag ls true, r)
      else if Nat.eqb batch_dims 1 then
        let (ls, r) := cl_step D M verify fallback (narrow_shuffle (cb_lanes s) noise) (ClPop w) in (mkBag ls true, r)
      else (s, Err ValueError)
  | _ => cb_step D M low high verify fallback batch_dims s o
  end.
End Narrow.

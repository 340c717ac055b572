(* Sizes which the code computes with floating point numbers: counts are multiplied by ratios, or divided by each other, and the result is
   rounded to an integer.  Numbers of type float are binary64; they are rational numbers here, and every operation gives the exact result,
   rounded to the nearest number with 53 significant bits, ties to even (without limits on the exponents: no overflow or underflow happens with
   counts and with ratios that are not tiny).  Everything is non-negative. *)
From Coq Require Import QArith Qround Qpower ZArith.
From Verif Require Import Prelude.
Close Scope nat_scope.
Open Scope Q_scope.

Definition pow2 (e : Z) : Q := Qpower 2 e.
(* the exponent of a positive number: pow2 (magnitude x) <= x < pow2 (magnitude x + 1) *)
Definition magnitude (x : Q) : Z :=
  let e := (Z.log2 (Qnum x) - Z.log2 (Zpos (Qden x)))%Z in if Qle_bool (pow2 e) x then e else (e - 1)%Z.
(* to the nearest integer, ties to even *)
Definition nearest (q : Q) : Z :=
  let f := Qfloor q in
  match Qcompare (q - inject_Z f) (1 # 2) with
  | Lt => f
  | Gt => (f + 1)%Z
  | Eq => if Z.even f then f else (f + 1)%Z
  end.
(* IEEE 754, round to nearest, 53 bits *)
Definition rnd (x : Q) : Q :=
  if Qle_bool x 0 then 0 else let u := pow2 (magnitude x - 52) in inject_Z (nearest (x / u)) * u.

(* int * float, float * float, and int / int, of Python; integers up to 2 ^ 53 are floats *)
Definition fmul (x y : Q) : Q := rnd (x * y).
Definition count (n : nat) : Q := inject_Z (Z.of_nat n).
Definition fdiv (a b : nat) : Q := rnd (count a / count b).

(* distributions.py:538: math.floor(num_samples * ratio) *)
Definition num_elites_f (num_samples : nat) (ratio : Q) : Z := Qfloor (fmul (count num_samples) ratio).
(* ga.py:988: int(popsize * elitism_ratio) *)
Definition cosyne_elites_f (popsize : nat) (ratio : Q) : Z := Qfloor (fmul (count popsize) ratio).
(* modify_restart.py:71: int(popsize_multiplier * len(population)) *)
Definition ipop_popsize_f (multiplier : Q) (popsize : nat) : Z := Qfloor (fmul multiplier (count popsize)).
(* ga.py:1014: int(popsize / 4) *)
Definition cosyne_parents_f (popsize : nat) : Z := Qfloor (fdiv popsize 4).
(* operators/base.py:352: int(len(parents) / 2); cmaes.py:235: int(np.floor(popsize / 2)) *)
Definition half_f (n : nat) : Z := Qfloor (fdiv n 2).
(* core.py:4639: math.ceil(total_size / max_size) *)
Definition num_pieces_f (total_size max_size : nat) : Z := Qceiling (fdiv total_size max_size).
(* core.py:2932-2934, 2943-2945: math.ceil((p / popsize) * quota) *)
Definition task_quota_f (p popsize quota : nat) : Z := Qceiling (fmul (fdiv p popsize) (count quota)).
(* operators/base.py:238-253 with cross_over_rate *)
Definition num_tournaments_f (n : nat) (rate : Q) : Z :=
  let f := fmul (count n) rate in
  let result1 := Qceiling f in
  let result2 := Qfloor f in
  if Z.eqb result1 result2 then (if negb (Z.eqb (result1 mod 2) 0) then result1 + 1 else result1)%Z
  else if Z.eqb (result1 mod 2) 0 then result1 else result2.

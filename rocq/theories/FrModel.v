(* The rank-based utilities as they are computed in the dtype of the fitnesses: /repo/src/evotorch/tools/ranking.py:24-81 with numbers of
   p significant bits (float32: 24, float64: 53, float16: 11, bfloat16: 8).  Numbers are rational, and every operation gives the exact
   result, rounded once to the nearest number with p significant bits, ties to even.  Exponents are not limited (utilities neither overflow
   nor underflow in float32 and float64), and operations in half precision are taken to round once. *)
From Coq Require Import QArith Qround Qpower ZArith.
From Verif Require Import Prelude FloatLib RankModel FpModel.
Close Scope nat_scope.
Open Scope Q_scope.

Section PRECISION.
  Variable p : Z.
  Definition unit_of (x : Q) : Q := pow2 (magnitude x - (p - 1)).
  Definition rnd_up (x : Q) : Q := inject_Z (nearest (x / unit_of x)) * unit_of x.
  (* IEEE 754, round to nearest, p bits *)
  Definition round_to (x : Q) : Q := match Qcompare x 0 with Lt => - rnd_up (- x) | Eq => 0 | Gt => rnd_up x end.

  (* ranking.py:77, 49: torch.arange(n, dtype=dtype) / (n - 1); 0 / 0 = NaN for n = 1 *)
  Definition linear_weight_f (n k : nat) : option Q :=
    if Nat.eqb n 1 then None else Some (round_to (round_to (count k) / round_to (count (n - 1)))).
  (* ranking.py:49: ... - 0.5 *)
  Definition centered_weight_f (n k : nat) : option Q := option_map (fun w => round_to (w - (1 # 2))) (linear_weight_f n k).

  Section Ranking.
    (* torch.argsort *)
    Variable sorter : bool -> list fl -> list nat.
    (* ranking.py:24-53 *)
    Definition centered_f (x : list fl) (higher_is_better : bool) : list (option Q) :=
      let n := length x in
      let indices := sorter (negb higher_is_better) x in
      scatter None indices (map (centered_weight_f n) (seq 0 n)).
    (* ranking.py:56-81 *)
    Definition linear_f (x : list fl) (higher_is_better : bool) : list (option Q) :=
      let n := length x in
      let indices := sorter (negb higher_is_better) x in
      scatter None indices (map (linear_weight_f n) (seq 0 n)).
  End Ranking.
End PRECISION.

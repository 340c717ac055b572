(* Vocabulary for the properties of the random tensor makers. *)
From Coq Require Import QArith.
From Verif Require Import Prelude RandModel.
Close Scope Q_scope.
Open Scope Z_scope.

Definition supported (d : idtype) : Prop := In d [uint8; int8; int16; int32; int64].
Definition representable (d : idtype) (z : Z) : Prop := imin d <= z <= imax d.
(* What Tensor.random_() can write: non-negative values of the dtype *)
Definition drawn (d : idtype) (r : Z) : Prop := 0 <= r <= imax d.

(* Rows a and b are mirror images of each other around c *)
Definition mirrored (c a b : row) : Prop :=
  length a = length c /\ length b = length c /\
  forall j qa qb qc, nth_error a j = Some qa -> nth_error b j = Some qb -> nth_error c j = Some qc ->
    (qa - qc == - (qb - qc))%Q.
(* Sum of the j-th column *)
Definition column_sum (rows : list row) (j : nat) : Q :=
  fold_right (fun r acc => nth j r 0%Q + acc)%Q 0%Q rows.

(* n rows; rows 2k and 2k+1 are mirrored around mu, row 2k being mu plus sigma times the k-th noise;
   every column sums to n times the center *)
Open Scope nat_scope.
Definition pairs_ok (n : nat) (mu sigma : row) (noise : nat -> row) (rows : list row) : Prop :=
  length rows = n /\
  (forall k, 2 * k < n -> exists a b, nth_error rows (2 * k) = Some a /\ nth_error rows (2 * k + 1) = Some b /\
     mirrored mu a b /\ a = vadd (vmul (noise k) sigma) mu) /\
  (forall j, j < length mu -> (column_sum rows j == inject_Z (Z.of_nat n) * nth j mu 0)%Q).


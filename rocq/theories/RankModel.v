(* Model of the fitness ranking methods (tools/ranking.py).  Fitnesses are floats of which only the
   order matters, except for `normalized`, which is modelled over the reals. *)
From Coq Require Import QArith Reals.
From Verif Require Import Prelude FloatLib.
Close Scope Q_scope.
Open Scope nat_scope.

(* ranks = torch.empty_like(x); ranks[indices] = weights   (d: the unspecified initial content) *)
Definition scatter {A} (d : A) (idx : list nat) (ws : list A) : list A :=
  fold_left (fun l p => upd l (fst p) (snd p)) (combine idx ws) (repeat d (length ws)).

(* torch.arange(n) / (n - 1): a float division, 0/0 = NaN (None) when n = 1 *)
Definition linear_weight (n k : nat) : option Q :=
  if Nat.eqb n 1 then None else Some (inject_Z (Z.of_nat k) / inject_Z (Z.of_nat (n - 1)))%Q.
Definition centered_weight (n k : nat) : option Q := option_map (fun q => q - (1 # 2))%Q (linear_weight n k).

Section Ranking.
(* torch.argsort *)
Variable sorter : bool -> list fl -> list nat.

(* ranking.py:24-53 centered *)
Definition centered (x : list fl) (higher_is_better : bool) : list (option Q) :=
  let n := length x in
  let indices := sorter (negb higher_is_better) x in
  scatter None indices (map (centered_weight n) (seq 0 n)).
(* ranking.py:56-81 linear *)
Definition linear (x : list fl) (higher_is_better : bool) : list (option Q) :=
  let n := length x in
  let indices := sorter (negb higher_is_better) x in
  scatter None indices (map (linear_weight n) (seq 0 n)).

Local Open Scope R_scope.
Definition rsum (l : list R) : R := fold_right Rplus 0 l.
(* ranking.py:112-114 *)
Definition nes_weight (n k : nat) : R := Rmax 0 (ln (INR n / 2 + 1) - ln (INR n - INR k)).
(* ranking.py:84-124 nes *)
Definition nes (x : list fl) (higher_is_better : bool) : list R :=
  let n := length x in
  let indices := sorter (negb higher_is_better) x in
  let ranks := scatter 0%nat indices (seq 0 n) in
  let utils := map (fun r => nth r (map (nes_weight n) (seq 0 n)) 0) ranks in
  let total := rsum utils in
  map (fun u => u / total - 1 / INR n) utils.
End Ranking.

Local Open Scope R_scope.
Definition rmean (l : list R) : R := rsum l / INR (length l).
(* torch.std: the unbiased estimator *)
Definition rstd (l : list R) : R :=
  sqrt (rsum (map (fun x => (x - rmean l) * (x - rmean l)) l) / INR (length l - 1)).
(* a / b for floats when the dividend is 0 whenever the divisor is: NaN (None) for 0/0 *)
Definition rdiv (a b : R) : option R := if Req_EM_T b 0 then None else Some (a / b).
(* ranking.py:127-160 normalized; the standard deviation of a single number is NaN *)
Definition normalized (x : list R) (higher_is_better : bool) : list (option R) :=
  let f := if higher_is_better then x else map Ropp x in
  let m := rmean f in
  if Nat.eqb (length f) 1 then map (fun _ => None) f else
  let s := rstd f in
  map (fun v => rdiv (v - m) s) f.
(* ranking.py:163-183 raw *)
Definition raw (x : list R) (higher_is_better : bool) : list R :=
  if higher_is_better then x else map Ropp x.

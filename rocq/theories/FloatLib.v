(* Floating point numbers where only order (and exact difference) matters.  A finite float is an
   integer multiple of the smallest positive float, so `Fin z` stands for z times that quantum. *)
From Verif Require Import Prelude SortLib.
From Coq Require Import Sorted.

Inductive fl := NaN | NInf | Fin (z : Z) | PInf.

(* IEEE comparison a < b (false when either is NaN) *)
Definition flt (a b : fl) : bool :=
  match a, b with
  | NaN, _ | _, NaN => false
  | NInf, NInf => false | NInf, _ => true | _, NInf => false
  | PInf, _ => false | _, PInf => true
  | Fin x, Fin y => Z.ltb x y
  end.
Definition is_nan (a : fl) : bool := match a with NaN => true | _ => false end.
Definition is_fin (a : fl) : bool := match a with Fin _ => true | _ => false end.
Definition feq (a b : fl) : bool := negb (is_nan a) && negb (is_nan b) && negb (flt a b) && negb (flt b a).
Definition fge (a b : fl) : bool := flt b a || feq a b.
Definition fneg (a : fl) : fl :=
  match a with NaN => NaN | NInf => PInf | PInf => NInf | Fin z => Fin (- z) end.
(* a - b: exact difference (the sign of a float difference is exact) *)
Definition fsub (a b : fl) : fl :=
  match a, b with
  | NaN, _ | _, NaN => NaN
  | Fin x, Fin y => Fin (x - y)
  | PInf, PInf => NaN | NInf, NInf => NaN
  | PInf, _ => PInf | NInf, _ => NInf
  | Fin _, PInf => NInf | Fin _, NInf => PInf
  end.
(* order used by torch's sorting functions: NaN is the greatest *)
Definition tle (a b : fl) : bool :=
  match a, b with _, NaN => true | NaN, _ => false | _, _ => negb (flt b a) end.

Definition at_ (c : list fl) (i : nat) : fl := nth i c NaN.
(* What torch.argsort guarantees: the result is a permutation of the indices which orders the
   values (no promise about ties). *)
Definition argsort_ok (sorter : bool -> list fl -> list nat) : Prop :=
  forall d c, Permutation (sorter d c) (seq 0 (length c)) /\
    StronglySorted (fun i j => (if d then tle (at_ c j) (at_ c i) else tle (at_ c i) (at_ c j)) = true) (sorter d c).
(* One such function (stable). *)
Definition stable_argsort (d : bool) (c : list fl) : list nat :=
  isort (fun i j => if d then tle (at_ c j) (at_ c i) else tle (at_ c i) (at_ c j)) (seq 0 (length c)).

(* torch.argmax / torch.argmin: first index of an extreme value; a NaN wins over everything. *)
Definition beats (maximum : bool) (x y : fl) : bool :=
  (is_nan x && negb (is_nan y)) || (if maximum then flt y x else flt x y) .
Fixpoint argext_from (maximum : bool) (best : nat) (bv : fl) (i : nat) (c : list fl) : nat :=
  match c with
  | [] => best
  | x :: t => if beats maximum x bv then argext_from maximum i x (S i) t
              else argext_from maximum best bv (S i) t
  end.
Definition argext (maximum : bool) (c : list fl) : result nat :=
  match c with [] => Err IndexError | x :: t => Ok (argext_from maximum 0 x 1 t) end.

Lemma flt_irrefl a : flt a a = false.
Proof. destruct a; cbn; auto. apply Z.ltb_irrefl. Qed.
Lemma flt_trans a b c : flt a b = true -> flt b c = true -> flt a c = true.
Proof. destruct a, b, c; cbn; try discriminate; auto. intros. lia. Qed.
Lemma flt_asym a b : flt a b = true -> flt b a = false.
Proof. destruct a, b; cbn; try discriminate; auto. lia. Qed.
Lemma flt_neg_trans a b c : is_nan b = false -> flt a b = false -> flt b c = false -> flt a c = false.
Proof. destruct a, b, c; cbn; try discriminate; auto. lia. Qed.
Lemma tle_total a b : tle a b = true \/ tle b a = true.
Proof. destruct a, b; cbn; auto. lia. Qed.
Lemma tle_trans a b c : tle a b = true -> tle b c = true -> tle a c = true.
Proof. destruct a, b, c; cbn; try discriminate; auto. lia. Qed.
Lemma tle_flt a b : is_nan a = false -> is_nan b = false -> tle a b = negb (flt b a).
Proof. destruct a, b; cbn; try discriminate; auto. Qed.

Lemma stable_argsort_ok : argsort_ok stable_argsort.
Proof.
  intros d c. split.
  - symmetry. apply isort_perm.
  - unfold stable_argsort. apply (isort_sorted (fun i j => if d then tle (at_ c j) (at_ c i) else tle (at_ c i) (at_ c j))).
    + intros x y. destruct d; apply tle_total.
    + intros x y z. destruct d; intros H1 H2; eapply tle_trans; eauto.
Qed.

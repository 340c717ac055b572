(* Square matrices and vectors of reals, as functions of indices below a dimension n. *)
From Coq Require Import Reals Lra.
From Verif Require Import Prelude.
Open Scope R_scope.

Definition vect := nat -> R.
Definition mat := nat -> nat -> R.
Definition veq (n : nat) (x y : vect) : Prop := forall i, (i < n)%nat -> x i = y i.
Definition meq (n : nat) (A B : mat) : Prop := forall i j, (i < n)%nat -> (j < n)%nat -> A i j = B i j.

Fixpoint sumn (n : nat) (f : nat -> R) : R := match n with O => 0 | S k => sumn k f + f k end.
Definition mmul (n : nat) (A B : mat) : mat := fun i j => sumn n (fun k => A i k * B k j).
Definition mv (n : nat) (A : mat) (x : vect) : vect := fun i => sumn n (fun k => A i k * x k).
Definition mid : mat := fun i j => if Nat.eqb i j then 1 else 0.
Definition mtr (A : mat) : mat := fun i j => A j i.
Definition mscale (k : R) (A : mat) : mat := fun i j => k * A i j.
Definition madd (A B : mat) : mat := fun i j => A i j + B i j.
Definition outer (x y : vect) : mat := fun i j => x i * y j.
Definition vplus (x y : vect) : vect := fun i => x i + y i.
Definition vminus (x y : vect) : vect := fun i => x i - y i.
Definition symmetric (n : nat) (A : mat) : Prop := meq n A (mtr A).

Lemma sumn_ext n f g : (forall i, (i < n)%nat -> f i = g i) -> sumn n f = sumn n g.
Proof. induction n; intros H; cbn; auto. rewrite IHn, (H n) by auto. auto. Qed.
Lemma sumn_zero n f : (forall i, (i < n)%nat -> f i = 0) -> sumn n f = 0.
Proof. induction n; intros H; cbn; auto. rewrite IHn, (H n) by auto. lra. Qed.
Lemma sumn_plus n f g : sumn n (fun i => f i + g i) = sumn n f + sumn n g.
Proof. induction n; cbn; [lra|]. rewrite IHn. ring. Qed.
Lemma sumn_minus n f g : sumn n (fun i => f i - g i) = sumn n f - sumn n g.
Proof. induction n; cbn; [lra|]. rewrite IHn. ring. Qed.
Lemma sumn_mul_l n k f : sumn n (fun i => k * f i) = k * sumn n f.
Proof. induction n; cbn; [lra|]. rewrite IHn. ring. Qed.
Lemma sumn_mul_r n k f : sumn n (fun i => f i * k) = sumn n f * k.
Proof. induction n; cbn; [lra|]. rewrite IHn. ring. Qed.
Lemma sumn_swap n m (f : nat -> nat -> R) : sumn n (fun i => sumn m (f i)) = sumn m (fun j => sumn n (fun i => f i j)).
Proof.
  induction n; cbn.
  - symmetry. apply sumn_zero. auto.
  - rewrite IHn, <- sumn_plus. auto.
Qed.
Lemma sumn_delta n i f : (i < n)%nat -> sumn n (fun k => (if Nat.eqb i k then 1 else 0) * f k) = f i.
Proof.
  induction n; intros H; [lia|]. cbn. destruct (Nat.eqb_spec i n) as [->|N].
  - rewrite sumn_zero; [lra|]. intros k Hk. destruct (Nat.eqb_spec n k); [lia|lra].
  - rewrite IHn by lia. lra.
Qed.
Lemma sumn_nonneg n f : (forall i, (i < n)%nat -> 0 <= f i) -> 0 <= sumn n f.
Proof. induction n; intros H; cbn; [lra|]. pose proof (H n ltac:(lia)). assert (0 <= sumn n f) by (apply IHn; auto). lra. Qed.

Lemma meq_refl n A : meq n A A. Proof. intros i j _ _. auto. Qed.
Lemma meq_sym n A B : meq n A B -> meq n B A. Proof. intros H i j Hi Hj. symmetry; auto. Qed.
Lemma meq_trans n A B C : meq n A B -> meq n B C -> meq n A C.
Proof. intros H K i j Hi Hj. rewrite H; auto. Qed.
Lemma mmul_ext n A A' B B' : meq n A A' -> meq n B B' -> meq n (mmul n A B) (mmul n A' B').
Proof. intros H K i j Hi Hj. apply sumn_ext. intros k Hk. rewrite H, K; auto. Qed.
Lemma mmul_assoc n A B C : meq n (mmul n (mmul n A B) C) (mmul n A (mmul n B C)).
Proof.
  intros i j Hi Hj. unfold mmul.
  rewrite (sumn_ext n _ (fun k => sumn n (fun l => A i l * B l k * C k j))) by (intros; rewrite sumn_mul_r; auto).
  rewrite sumn_swap. apply sumn_ext. intros l Hl. rewrite <- sumn_mul_l. apply sumn_ext. intros. ring.
Qed.
Lemma mmul_id_l n A : meq n (mmul n mid A) A.
Proof. intros i j Hi Hj. unfold mmul, mid. apply (sumn_delta n i (fun k => A k j)). auto. Qed.
Lemma mmul_id_r n A : meq n (mmul n A mid) A.
Proof.
  intros i j Hi Hj. unfold mmul, mid. rewrite (sumn_ext n _ (fun k => (if Nat.eqb j k then 1 else 0) * A i k)).
  - apply sumn_delta. auto.
  - intros k Hk. rewrite Nat.eqb_sym. ring.
Qed.
Lemma mv_mmul n A B x : veq n (mv n (mmul n A B) x) (mv n A (mv n B x)).
Proof.
  intros i Hi. unfold mv, mmul.
  rewrite (sumn_ext n _ (fun k => sumn n (fun l => A i l * B l k * x k))) by (intros; rewrite sumn_mul_r; auto).
  rewrite sumn_swap. apply sumn_ext. intros l Hl. rewrite <- sumn_mul_l. apply sumn_ext. intros. ring.
Qed.
Lemma mv_ext n A B x y : meq n A B -> veq n x y -> veq n (mv n A x) (mv n B y).
Proof. intros H K i Hi. apply sumn_ext. intros k Hk. rewrite H, K; auto. Qed.
Lemma mv_id n x : veq n (mv n mid x) x.
Proof. intros i Hi. unfold mv, mid. apply (sumn_delta n i x); auto. Qed.
Lemma mtr_mmul n A B : meq n (mtr (mmul n A B)) (mmul n (mtr B) (mtr A)).
Proof. intros i j Hi Hj. unfold mtr, mmul. apply sumn_ext. intros. ring. Qed.

(* The quadratic form of a matrix *)
Definition quad (n : nat) (A : mat) (x : vect) : R := sumn n (fun i => sumn n (fun j => x i * A i j * x j)).
Definition psd (n : nat) (A : mat) : Prop := forall x, 0 <= quad n A x.
Lemma quad_ext n A B x : meq n A B -> quad n A x = quad n B x.
Proof. intros H. apply sumn_ext. intros i Hi. apply sumn_ext. intros j Hj. rewrite H; auto. Qed.
Lemma quad_add n A B x : quad n (madd A B) x = quad n A x + quad n B x.
Proof.
  unfold quad, madd. rewrite <- sumn_plus. apply sumn_ext. intros i Hi. rewrite <- sumn_plus.
  apply sumn_ext. intros. ring.
Qed.
Lemma quad_scale n k A x : quad n (mscale k A) x = k * quad n A x.
Proof.
  unfold quad, mscale. rewrite <- sumn_mul_l. apply sumn_ext. intros i Hi. rewrite <- sumn_mul_l.
  apply sumn_ext. intros. ring.
Qed.
Lemma quad_outer n y x : quad n (outer y y) x = sumn n (fun i => x i * y i) * sumn n (fun i => x i * y i).
Proof.
  unfold quad, outer. rewrite <- sumn_mul_r. apply sumn_ext. intros i Hi.
  rewrite <- sumn_mul_l. apply sumn_ext. intros. ring.
Qed.
Lemma quad_outer_nonneg n y x : 0 <= quad n (outer y y) x.
Proof. rewrite quad_outer. apply Rle_0_sqr. Qed.
Lemma quad_mid n x : quad n mid x = sumn n (fun i => x i * x i).
Proof.
  unfold quad, mid. apply sumn_ext. intros i Hi.
  rewrite (sumn_ext n _ (fun j => (if Nat.eqb i j then 1 else 0) * (x i * x j))) by (intros; ring).
  apply (sumn_delta n i (fun j => x i * x j)). auto.
Qed.

(* Extended rationals: floats with exact arithmetic on finite values, infinities and NaN. *)
From Coq Require Import QArith Qabs.
From Verif Require Import Prelude.
Close Scope Q_scope.
Open Scope nat_scope.

Inductive xq := XNaN | XNI | XF (q : Q) | XPI.

(* IEEE a <= b (false when either is NaN) *)
Definition xleb (a b : xq) : bool :=
  match a, b with
  | XNaN, _ | _, XNaN => false
  | XNI, _ => true | _, XPI => true
  | XF p, XF q => Qle_bool p q
  | _, _ => false
  end.
Definition xnan (a : xq) : bool := match a with XNaN => true | _ => false end.
(* torch.max(a, b), torch.min(a, b): elementwise, a NaN operand gives NaN *)
Definition xmax (a b : xq) : xq := if xnan a || xnan b then XNaN else if xleb a b then b else a.
Definition xmin (a b : xq) : xq := if xnan a || xnan b then XNaN else if xleb a b then a else b.
Definition xabs (a : xq) : xq := match a with XF q => XF (Qabs q) | XNI => XPI | a => a end.
Definition xopp (a : xq) : xq := match a with XF q => XF (- q) | XNI => XPI | XPI => XNI | XNaN => XNaN end.
Definition xadd (a b : xq) : xq :=
  match a, b with
  | XNaN, _ | _, XNaN => XNaN
  | XPI, XNI | XNI, XPI => XNaN
  | XPI, _ | _, XPI => XPI
  | XNI, _ | _, XNI => XNI
  | XF p, XF q => XF (p + q)
  end.
Definition xsub (a b : xq) : xq := xadd a (xopp b).
(* the sign of an extended number *)
Definition xsgn (a : xq) : comparison :=
  match a with XF q => Qcompare q 0 | XNI => Lt | XPI => Gt | XNaN => Eq end.
Definition xmul (a b : xq) : xq :=
  match a, b with
  | XNaN, _ | _, XNaN => XNaN
  | XF p, XF q => XF (p * q)
  | _, _ => match xsgn a, xsgn b with
            | Eq, _ | _, Eq => XNaN
            | Gt, Gt | Lt, Lt => XPI
            | _, _ => XNI
            end
  end.
(* the order of extended numbers; NaN is not comparable *)
Definition xle (a b : xq) : Prop := xleb a b = true.
Definition xfin (a : xq) : Prop := exists q, a = XF q.

Lemma xle_refl a : a <> XNaN -> xle a a.
Proof. unfold xle. destruct a; cbn; auto; try congruence. intros _. apply Qle_bool_iff, Qle_refl. Qed.
Lemma xle_trans a b c : xle a b -> xle b c -> xle a c.
Proof. unfold xle. destruct a, b, c; cbn; auto; try discriminate. rewrite !Qle_bool_iff. apply Qle_trans. Qed.
Lemma xle_total a b : a <> XNaN -> b <> XNaN -> xle a b \/ xle b a.
Proof.
  unfold xle. destruct a, b; cbn; auto; try congruence. intros _ _. rewrite !Qle_bool_iff.
  destruct (Qlt_le_dec q q0) as [H|H]; [left; apply Qlt_le_weak|right]; auto.
Qed.
Lemma xle_nan a b : xle a b -> a <> XNaN /\ b <> XNaN.
Proof. unfold xle. destruct a, b; cbn; try discriminate; split; discriminate. Qed.
Lemma xle_F p q : xle (XF p) (XF q) <-> (p <= q)%Q.
Proof. unfold xle. cbn. apply Qle_bool_iff. Qed.
Lemma xmax_ok a b : a <> XNaN -> b <> XNaN ->
  (xle a b /\ xmax a b = b) \/ (xle b a /\ xmax a b = a).
Proof.
  intros Ha Hb. unfold xmax. assert (xnan a = false) by (destruct a; auto; congruence). assert (xnan b = false) by (destruct b; auto; congruence).
  rewrite H, H0. cbn [orb]. destruct (xleb a b) eqn:E; [left; auto|right]. split; auto.
  destruct (xle_total a b Ha Hb) as [T|T]; auto. unfold xle in T. congruence.
Qed.
Lemma xmin_ok a b : a <> XNaN -> b <> XNaN ->
  (xle a b /\ xmin a b = a) \/ (xle b a /\ xmin a b = b).
Proof.
  intros Ha Hb. unfold xmin. assert (xnan a = false) by (destruct a; auto; congruence). assert (xnan b = false) by (destruct b; auto; congruence).
  rewrite H, H0. cbn [orb]. destruct (xleb a b) eqn:E; [left; auto|right]. split; auto.
  destruct (xle_total a b Ha Hb) as [T|T]; auto. unfold xle in T. congruence.
Qed.
Lemma xmax_nan_l b : xmax XNaN b = XNaN. Proof. reflexivity. Qed.
Lemma xmax_nan_r a : xmax a XNaN = XNaN. Proof. destruct a; reflexivity. Qed.
Lemma xmin_nan_l b : xmin XNaN b = XNaN. Proof. reflexivity. Qed.
Lemma xmin_nan_r a : xmin a XNaN = XNaN. Proof. destruct a; reflexivity. Qed.
(* min(max(t, lo), hi) *)
Lemma clip_ok t lo hi : t <> XNaN -> xle lo hi ->
  let r := xmin (xmax t lo) hi in
  xle lo r /\ xle r hi /\ (xle lo t -> xle t hi -> r = t \/ (xle r t /\ xle t r)) /\
  ((xle t r /\ xle r lo) \/ r = t \/ (xle hi r /\ xle r t)).
Proof.
  intros Ht H. destruct (xle_nan _ _ H) as [Hl Hh]. cbv zeta.
  destruct (xmax_ok t lo Ht Hl) as [[A ->]|[A ->]].
  - destruct (xmin_ok lo hi Hl Hh) as [[B ->]|[B ->]].
    + split; [apply xle_refl; auto|]. split; [auto|]. split; [intros; right; auto|]. left. split; auto. apply xle_refl; auto.
    + split; [auto|]. split; [apply xle_refl; auto|]. split.
      * intros C D. right. split; auto. apply xle_trans with lo; auto.
      * left. split; auto. apply xle_trans with lo; auto.
  - destruct (xmin_ok t hi Ht Hh) as [[B ->]|[B ->]].
    + split; [auto|]. split; [auto|]. split; [left; auto|]. right; left; auto.
    + split; [auto|]. split; [apply xle_refl; auto|]. split; [intros; right; auto|]. right; right. split; auto. apply xle_refl; auto.
Qed.

From Coq Require Import Reals String Lra.
From Verif Require Import Prelude MatLib XnesModel XnesSpec.
Open Scope R_scope.


Lemma local_global n D z : consistent n D -> veq n (to_local n D (to_global n D z)) z.
Proof.
  intros [_ H] i Hi. unfold to_local, to_global.
  rewrite (mv_ext n (A_inv D) (A_inv D) _ (mv n (A D) z) (meq_refl _ _)) by (auto; intros k Hk; unfold vminus, vplus; ring).
  rewrite <- (mv_mmul n (A_inv D) (A D) z i Hi). rewrite (mv_ext n _ _ _ z H (fun _ _ => eq_refl)) by auto.
  apply mv_id; auto.
Qed.
Lemma global_local n D x : consistent n D -> veq n (to_global n D (to_local n D x)) x.
Proof.
  intros [H _] i Hi. unfold to_local, to_global. unfold vplus at 1.
  rewrite <- (mv_mmul n (A D) (A_inv D) _ i Hi). rewrite (mv_ext n _ _ _ _ H (fun _ _ => eq_refl)) by auto.
  rewrite mv_id by auto. unfold vminus. ring.
Qed.

Lemma get_set k v d : get k (set k v d) = Some v.
Proof.
  induction d as [|[k' v'] d IH]; cbn; [unfold get; cbn; rewrite String.eqb_refl; auto|].
  destruct (String.eqb_spec k' k) as [->|N]; unfold get in *; cbn.
  - rewrite String.eqb_refl. auto.
  - destruct (String.eqb_spec k' k); [contradiction|]. auto.
Qed.
Lemma get_set_other k k' v d : k <> k' -> get k' (set k v d) = get k' d.
Proof.
  intros N. induction d as [|[a b] d IH]; cbn.
  - unfold get; cbn. destruct (String.eqb_spec k k'); [contradiction|auto].
  - destruct (String.eqb_spec a k) as [->|Na]; unfold get in *; cbn.
    + destruct (String.eqb_spec k k'); [contradiction|auto].
    + destruct (String.eqb a k'); auto.
Qed.
Lemma default_get key other d d' : default_rate key other d = Ok d' ->
  get key d' = match get key d with Some v => Some v | None => get other d end /\
  (forall k, k <> key -> get k d' = get k d).
Proof.
  unfold default_rate. destruct (get key d) as [v|] eqn:E.
  - intros X; inversion X; subst. rewrite E. auto.
  - destruct (get other d) as [v|] eqn:F; [|discriminate]. intros X; inversion X; subst. rewrite get_set. split; auto.
    intros k Hk. apply get_set_other. auto.
Qed.

Lemma half_opp M : forall i j, mscale (-0.5) M i j = mscale (-1) (mscale 0.5 M) i j.
Proof. intros. unfold mscale. lra. Qed.

Section Upd.
Variable n : nat.
Variable matrix_exp : mat -> mat.
Hypothesis mexp_inv : forall M M' : mat, (forall i j, M' i j = - M i j) ->
  meq n (mmul n (matrix_exp M) (matrix_exp M')) mid.

Lemma update_consistent av am D d M lr opts D' lr' : consistent n D ->
  update n matrix_exp av am D d M lr opts = Ok (D', lr') -> consistent n D'.
Proof.
  intros [H1 H2] E. unfold update in E. destruct lr as [lr|]; [|discriminate].
  destruct (default_rate "d" "mu" lr) as [l1|]; [|discriminate]. cbn [bind] in E.
  destruct (default_rate "M" "sigma" l1) as [l2|]; [|discriminate]. cbn [bind] in E.
  match type of E with context [follow ?f av "d" d l2 opts] => destruct (follow f av "d" d l2 opts) as [ud|]; [|discriminate] end.
  cbn [bind] in E.
  match type of E with context [follow ?f am "M" M l2 opts] => destruct (follow f am "M" M l2 opts) as [uM|]; [|discriminate] end.
  cbn [bind] in E.
  inversion E; subst; clear E. unfold consistent; cbn.
  set (X := matrix_exp (mscale 0.5 uM)). set (Y := matrix_exp (mscale (-0.5) uM)).
  assert (XY : meq n (mmul n X Y) mid) by (apply mexp_inv; intros; unfold mscale; lra).
  assert (YX : meq n (mmul n Y X) mid) by (apply mexp_inv; intros; unfold mscale; lra).
  split.
  - apply (meq_trans n _ (mmul n (A D) (mmul n (mmul n X Y) (A_inv D)))).
    + apply (meq_trans n _ (mmul n (A D) (mmul n X (mmul n Y (A_inv D))))); [apply mmul_assoc|].
      apply mmul_ext; [apply meq_refl|]. apply meq_sym, mmul_assoc.
    + apply (meq_trans n _ (mmul n (A D) (A_inv D))); auto. apply mmul_ext; [apply meq_refl|].
      apply (meq_trans n _ (mmul n mid (A_inv D))); [apply mmul_ext; auto; apply meq_refl|apply mmul_id_l].
  - apply (meq_trans n _ (mmul n Y (mmul n (mmul n (A_inv D) (A D)) X))).
    + apply (meq_trans n _ (mmul n Y (mmul n (A_inv D) (mmul n (A D) X)))); [apply mmul_assoc|].
      apply mmul_ext; [apply meq_refl|]. apply meq_sym, mmul_assoc.
    + apply (meq_trans n _ (mmul n Y X)); auto. apply mmul_ext; [apply meq_refl|].
      apply (meq_trans n _ (mmul n mid X)); [apply mmul_ext; auto; apply meq_refl|apply mmul_id_l].
Qed.
End Upd.

(* distributed accumulation *)
Lemma moment_map n A p : forall zs, meq n (moment p (map (mv n A) zs)) (mmul n (mmul n A (moment p zs)) (mtr A)).
Proof.
  induction p as [|a p IH]; intros zs i j Hi Hj.
  - unfold moment; cbn. unfold mmul at 1. symmetry. apply sumn_zero. intros k Hk.
    unfold mmul. rewrite sumn_zero; [ring|]. intros; ring.
  - destruct zs as [|z zs].
    + unfold moment; cbn. unfold mmul at 1. symmetry. apply sumn_zero. intros k Hk.
      unfold mmul. rewrite sumn_zero; [ring|]. intros; ring.
    + specialize (IH zs i j Hi Hj). unfold moment in *. cbn [map map2 fold_right] in *. rewrite IH.
      set (T := fun k0 k => fold_right Rplus 0 (map2 (fun (a0 : R) (z0 : vect) => a0 * (z0 k0 * z0 k)) p zs)).
      change (a * (mv n A z i * mv n A z j) + mmul n (mmul n A T) (mtr A) i j =
              mmul n (mmul n A (fun k0 k => a * (z k0 * z k) + T k0 k)) (mtr A) i j).
      clearbody T. unfold mmul, mtr, mv.
      rewrite (sumn_ext n (fun k => sumn n (fun k0 => A i k0 * (a * (z k0 * z k) + T k0 k)) * A j k)
                 (fun k => a * (sumn n (fun k0 => A i k0 * z k0) * (A j k * z k)) + sumn n (fun k0 => A i k0 * T k0 k) * A j k)).
      * rewrite sumn_plus. f_equal. rewrite sumn_mul_l, sumn_mul_l. reflexivity.
      * intros k Hk. rewrite (sumn_ext n _ (fun k0 => a * z k * (A i k0 * z k0) + A i k0 * T k0 k)) by (intros; ring).
        rewrite sumn_plus, sumn_mul_l. ring.
Qed.
Lemma moment_ext n p : forall zs ys, Forall2 (veq n) zs ys -> meq n (moment p zs) (moment p ys).
Proof.
  induction p as [|a p IH]; intros zs ys H i j Hi Hj; [reflexivity|].
  destruct H as [|z y zs ys E H]; [reflexivity|]. unfold moment in *. cbn. rewrite (E i Hi), (E j Hj). f_equal. apply IH; auto.
Qed.
Lemma sample_moment n D p zs : standard n p zs ->
  meq n (moment p (map (fun z => vminus (to_global n D z) (mu D)) zs)) (mmul n (A D) (mtr (A D))).
Proof.
  intros [_ S]. apply (meq_trans n _ (moment p (map (mv n (A D)) zs))).
  - apply moment_ext. clear S. induction zs; cbn; constructor; auto.
    intros i Hi. unfold vminus, to_global, vplus. ring.
  - apply (meq_trans n _ (mmul n (mmul n (A D) (moment p zs)) (mtr (A D)))); [apply moment_map|].
    apply mmul_ext; [|apply meq_refl]. apply (meq_trans n _ (mmul n (A D) mid)); [|apply mmul_id_r].
    apply mmul_ext; auto. apply meq_refl.
Qed.

(* a shear is not normal *)
Definition shear : mat := fun i j => match i, j with 0%nat, 1%nat => 1 | _, _ => mid i j end.
Definition unshear : mat := fun i j => match i, j with 0%nat, 1%nat => -1 | _, _ => mid i j end.
Lemma sumn_shift n f : sumn (S n) f = f 0%nat + sumn n (fun i => f (S i)).
Proof. induction n; [cbn; lra|]. change (sumn (S (S n)) f) with (sumn (S n) f + f (S n)). rewrite IHn. cbn. ring. Qed.
Lemma shear_row c n (f : nat -> R) i : (2 <= n)%nat -> (i < n)%nat ->
  sumn n (fun k => (match i, k with 0%nat, 1%nat => c | _, _ => mid i k end) * f k) =
  if Nat.eqb i 0 then f 0%nat + c * f 1%nat else f i.
Proof.
  intros Hn Hi. destruct i as [|i].
  - destruct n as [|[|n]]; try lia. rewrite !sumn_shift. cbn [Nat.eqb mid].
    rewrite sumn_zero; [unfold mid; cbn; ring|]. intros k Hk. unfold mid. cbn. ring.
  - apply (sumn_delta n (S i) f). auto.
Qed.
Lemma shear_inv n : (2 <= n)%nat -> meq n (mmul n shear unshear) mid /\ meq n (mmul n unshear shear) mid.
Proof.
  intros Hn. split; intros i j Hi Hj; unfold mmul.
  - change (sumn n (fun k => (match i, k with 0%nat, 1%nat => 1 | _, _ => mid i k end) * unshear k j) = mid i j).
    rewrite (shear_row 1 n (fun k => unshear k j) i Hn Hi). destruct i as [|i]; cbn [Nat.eqb].
    + unfold unshear, mid. destruct j as [|[|j]]; cbn; lra.
    + reflexivity.
  - change (sumn n (fun k => (match i, k with 0%nat, 1%nat => -1 | _, _ => mid i k end) * shear k j) = mid i j).
    rewrite (shear_row (-1) n (fun k => shear k j) i Hn Hi). destruct i as [|i]; cbn [Nat.eqb].
    + unfold shear, mid. destruct j as [|[|j]]; cbn; lra.
    + reflexivity.
Qed.
Lemma shear_not_normal n : (2 <= n)%nat -> ~ meq n (mmul n (mtr shear) shear) (mmul n shear (mtr shear)).
Proof.
  intros Hn H. specialize (H 0%nat 0%nat ltac:(lia) ltac:(lia)). unfold mmul in H.
  pose proof (shear_row 1 n (fun k => mtr shear k 0%nat) 0 Hn ltac:(lia)) as R. cbn [Nat.eqb] in R.
  change (sumn n (fun k => shear 0%nat k * mtr shear k 0%nat) = mtr shear 0%nat 0%nat + 1 * mtr shear 1%nat 0%nat) in R.
  rewrite R in H. clear R.
  destruct n as [|[|n]]; try lia. rewrite !sumn_shift in H. unfold mtr, shear, mid in H. cbn in H.
  rewrite sumn_zero in H by (intros; cbn; ring). lra.
Qed.

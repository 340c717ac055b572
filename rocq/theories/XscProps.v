(* C198: the gradients of XNES are the derivatives of the weighted log-likelihood in the coordinates in which it makes its updates. *)
From Coq Require Import Reals String Lra.
From Verif Require Import Prelude MatLib CemModel XnesModel XnesSpec XnesProofs DistModel ScoreProofs XafModel.
Open Scope R_scope.

(* ---- spec ---- *)
Definition trace (n : nat) (M : mat) : R := sumn n (fun i => M i i).
Definition dot (n : nat) (x y : vect) : R := sumn n (fun i => x i * y i).
Definition mdot (n : nat) (X Y : mat) : R := sumn n (fun i => sumn n (fun j => X i j * Y i j)).
(* log-density of the normal distribution of x = mu + A z, up to a constant; logdet is the logarithm of the absolute value of the determinant *)
Definition log_density (n : nat) (logdet : mat -> R) (D : dist) (x : vect) : R :=
  - (dot n (to_local n D x) (to_local n D x) / 2) - logdet (A D).
Definition weighted (n : nat) (logdet : mat -> R) (w : list R) (xs : list vect) (D : dist) : R :=
  fold_right Rplus 0 (map2 (fun a x => a * log_density n logdet D x) w xs).
(* torch.matrix_exp along the line through V: the identity at 0, with the derivative V *)
Definition exp_line (n : nat) (mexp : mat -> mat) (V : mat) : Prop :=
  (forall M N, meq n M N -> meq n (mexp M) (mexp N)) /\ meq n (mexp (mscale 0 V)) mid /\
  forall i j, (i < n)%nat -> (j < n)%nat -> derivable_pt_lim (fun t => mexp (mscale t V) i j) 0 (V i j).
(* the logarithm of the determinant of A exp(t V) *)
Definition logdet_line (n : nat) (mexp : mat -> mat) (logdet : mat -> R) (A V : mat) : Prop :=
  (forall M N, meq n M N -> logdet M = logdet N) /\ forall t, logdet (mmul n A (mexp (mscale t V))) = logdet A + t * trace n V.
(* the distribution after an update with the given steps *)
Definition updated (n : nat) (mexp : mat -> mat) (D : dist) (d : vect) (M : mat) : result dist :=
  rmap fst (update n mexp (fun x => x) (fun x => x) D d M (Some [("mu"%string, 1); ("sigma"%string, 1)]) []).

(* ---- proofs ---- *)
Lemma sumn_lim n : forall (F : nat -> R -> R) (G : nat -> R) p, (forall i, (i < n)%nat -> derivable_pt_lim (F i) p (G i)) ->
  derivable_pt_lim (fun t => sumn n (fun i => F i t)) p (sumn n G).
Proof.
  induction n as [|n IH]; intros F G p H; cbn [sumn]; [apply derivable_pt_lim_const|].
  apply (derivable_pt_lim_plus (fun t => sumn n (fun i => F i t)) (F n)); auto.
Qed.
Lemma weighted_lim (F : R -> vect -> R) (G : vect -> R) p : (forall x, derivable_pt_lim (fun t => F t x) p (G x)) -> forall w xs,
  derivable_pt_lim (fun t => fold_right Rplus 0 (map2 (fun a x => a * F t x) w xs)) p (fold_right Rplus 0 (map2 (fun a x => a * G x) w xs)).
Proof.
  intros H. induction w as [|a w IH]; intros xs; [cbn; apply derivable_pt_lim_const|]. destruct xs as [|x xs]; [cbn; apply derivable_pt_lim_const|]. cbn [map2 fold_right].
  apply (derivable_pt_lim_plus (fun t => a * F t x)); [|apply IH]. apply derivable_pt_lim_scal. apply H.
Qed.
Lemma scaled_arg (f : R -> R) k l : derivable_pt_lim f 0 l -> derivable_pt_lim (fun t => f (k * t)) 0 (k * l).
Proof.
  intros H. apply (lim_val _ _ (l * k)); [ring|]. apply (derivable_pt_lim_comp (fun t => k * t) f 0 k l); [|rewrite Rmult_0_r; auto].
  apply (lim_val _ _ (k * 1)); [ring|]. apply (derivable_pt_lim_scal id k 0 1). apply derivable_pt_lim_id.
Qed.
Lemma sample_score n mexp logdet D x v V : consistent n D -> exp_line n mexp V -> logdet_line n mexp logdet (A D) V ->
  derivable_pt_lim (fun t => log_density n logdet {| mu := vplus (mu D) (mv n (A D) (fun i => 1 * (t * v i))); A := mmul n (A D) (mexp (mscale 0.5 (mscale 1 (mscale t V)))); A_inv := mmul n (mexp (mscale (-0.5) (mscale 1 (mscale t V)))) (A_inv D) |} x) 0
    (dot n (to_local n D x) v + mdot n (fun i j => to_local n D x i * to_local n D x j - mid i j) V / 2).
Proof.
  intros C (E0 & E1 & E2) (L1 & L2). set (z := to_local n D x).
  set (zt := fun t i => sumn n (fun k => mexp (mscale (-0.5 * t) V) i k * (z k - t * v k))).
  apply (lim_ext (fun t => (-1 / 2) * sumn n (fun i => zt t i * zt t i) + - (logdet (A D) + (0.5 * t) * trace n V))).
  { intros t. unfold log_density. cbn [A].
    assert (Q : logdet (mmul n (A D) (mexp (mscale 0.5 (mscale 1 (mscale t V))))) = logdet (A D) + (0.5 * t) * trace n V).
    { rewrite <- L2. apply L1. apply mmul_ext; [apply meq_refl|]. apply E0. intros i j _ _. unfold mscale. ring. }
    rewrite Q. set (D' := Build_dist _ _ _).
    assert (Z : veq n (to_local n D' x) (zt t)).
    { intros i Hi. unfold to_local, D'. cbn [A_inv mu]. rewrite (mv_mmul n _ (A_inv D) _ i Hi). unfold mv at 1, zt. apply sumn_ext. intros k Hk.
      assert (W : mexp (mscale (-0.5) (mscale 1 (mscale t V))) i k = mexp (mscale (-0.5 * t) V) i k) by (apply E0; auto; intros a b _ _; unfold mscale; ring). rewrite W. f_equal.
      assert (U : veq n (vminus x (vplus (mu D) (mv n (A D) (fun i0 => 1 * (t * v i0))))) (vminus (vminus x (mu D)) (mv n (A D) (fun i0 => t * v i0)))).
      { intros a Ha. unfold vminus, vplus. rewrite (mv_ext n (A D) (A D) _ (fun i0 => t * v i0) (meq_refl _ _)) by (auto; intros b Hb; ring). ring. }
      rewrite (mv_ext n _ _ _ _ (meq_refl n (A_inv D)) U k Hk).
      assert (S : forall p q, mv n (A_inv D) (vminus p q) k = mv n (A_inv D) p k - mv n (A_inv D) q k).
      { intros p q. unfold mv, vminus. rewrite <- sumn_minus. apply sumn_ext. intros. ring. }
      rewrite S. fold (to_local n D x k). unfold z, to_local. f_equal. rewrite <- (mv_mmul n (A_inv D) (A D) _ k Hk).
      rewrite (mv_ext n _ _ _ _ (proj2 C) (fun _ _ => eq_refl) k Hk). apply mv_id; auto. }
    assert (Y : dot n (to_local n D' x) (to_local n D' x) = sumn n (fun i => zt t i * zt t i)) by (apply sumn_ext; intros i Hi; rewrite Z by auto; reflexivity).
    rewrite Y. lra. }
  assert (Z0 : forall i, (i < n)%nat -> zt 0 i = z i).
  { intros i Hi. unfold zt. rewrite <- (mv_id n z i Hi). unfold mv. apply sumn_ext. intros k Hk. f_equal; [|ring].
    transitivity (mexp (mscale 0 V) i k); [apply E0; auto; intros a b _ _; unfold mscale; ring|apply E1; auto]. }
  assert (DZ : forall i, (i < n)%nat -> derivable_pt_lim (fun t => zt t i) 0 (sumn n (fun k => (-0.5) * V i k * z k - mid i k * v k))).
  { intros i Hi. unfold zt. apply (sumn_lim n (fun k t => mexp (mscale (-0.5 * t) V) i k * (z k - t * v k))). intros k Hk.
    apply (lim_val _ _ ((-0.5 * V i k) * (z k - 0 * v k) + mexp (mscale (-0.5 * 0) V) i k * (0 - 1 * v k))).
    { assert (Q : mexp (mscale (-0.5 * 0) V) i k = mid i k) by (transitivity (mexp (mscale 0 V) i k); [apply E0; auto; intros a b _ _; unfold mscale; ring|apply E1; auto]). rewrite Q. ring. }
    apply (derivable_pt_lim_mult (fun t => mexp (mscale (-0.5 * t) V) i k) (fun t => z k - t * v k)).
    - apply (scaled_arg (fun s => mexp (mscale s V) i k) (-0.5)). apply E2; auto.
    - apply (derivable_pt_lim_minus (fun _ => z k) (fun t => t * v k)); [apply derivable_pt_lim_const|].
      apply (lim_val _ _ (1 * v k + 0 * 0)); [ring|]. apply (derivable_pt_lim_mult id (fun _ => v k)); [apply derivable_pt_lim_id|apply derivable_pt_lim_const]. }
  apply (lim_val _ _ ((-1 / 2) * sumn n (fun i => sumn n (fun k => (-0.5) * V i k * z k - mid i k * v k) * zt 0 i + zt 0 i * sumn n (fun k => (-0.5) * V i k * z k - mid i k * v k)) + - (0 + (0.5 * 1) * trace n V))).
  { unfold dot, mdot, trace. rewrite Rplus_0_l. assert (Q : forall a b c d, a + - b = c + d / 2 -> a + - b = c + d / 2) by auto. clear Q.
    rewrite <- sumn_mul_l. replace (- (0.5 * 1 * sumn n (fun i => V i i))) with (sumn n (fun i => (-0.5) * V i i)) by (rewrite sumn_mul_l; lra).
    replace (sumn n (fun i => sumn n (fun j => (z i * z j - mid i j) * V i j)) / 2) with (sumn n (fun i => (/ 2) * sumn n (fun j => (z i * z j - mid i j) * V i j))) by (rewrite sumn_mul_l; lra).
    rewrite <- !sumn_plus. apply sumn_ext. intros i Hi. rewrite (Z0 i Hi), sumn_minus.
    assert (M1 : sumn n (fun k => mid i k * v k) = v i) by (apply (sumn_delta n i v Hi)).
    assert (M2 : sumn n (fun j => (z i * z j - mid i j) * V i j) = z i * sumn n (fun j => V i j * z j) - V i i).
    { rewrite (sumn_ext n _ (fun j => z i * (V i j * z j) - mid i j * V i j)) by (intros; ring). rewrite sumn_minus, sumn_mul_l. f_equal. apply (sumn_delta n i (fun j => V i j) Hi). }
    assert (M3 : sumn n (fun k => (-0.5) * V i k * z k) = (-0.5) * sumn n (fun k => V i k * z k)) by (rewrite <- sumn_mul_l; apply sumn_ext; intros; ring).
    rewrite M1, M2, M3. lra. }
  apply (derivable_pt_lim_plus (fun t => (-1 / 2) * sumn n (fun i => zt t i * zt t i)) (fun t => - (logdet (A D) + (0.5 * t) * trace n V))).
  - apply (derivable_pt_lim_scal (fun t => sumn n (fun i => zt t i * zt t i))).
    apply (sumn_lim n (fun i t => zt t i * zt t i)). intros i Hi. apply (derivable_pt_lim_mult (fun t => zt t i) (fun t => zt t i)); apply DZ; auto.
  - apply (derivable_pt_lim_opp (fun t => logdet (A D) + (0.5 * t) * trace n V)). apply (derivable_pt_lim_plus (fun _ => logdet (A D)) (fun t => 0.5 * t * trace n V)); [apply derivable_pt_lim_const|].
    apply (lim_val _ _ ((0.5 * 1) * trace n V + (0.5 * 0) * 0)); [ring|]. apply (derivable_pt_lim_mult (fun t => 0.5 * t) (fun _ => trace n V)); [|apply derivable_pt_lim_const].
    apply (derivable_pt_lim_scal id 0.5 0 1). apply derivable_pt_lim_id.
Qed.

(* C198: along every direction (v, V) of updates, the derivative at 0 of the weighted log-likelihood of the samples under the updated distribution is the
   inner product of v with the gradient for d, plus half of the inner product of V with the gradient for M *)
Theorem C198_score : forall n mexp logdet D w xs v V, consistent n D -> exp_line n mexp V -> logdet_line n mexp logdet (A D) V ->
  (forall t, exists D', updated n mexp D (fun i => t * v i) (mscale t V) = Ok D') /\
  derivable_pt_lim (fun t => match updated n mexp D (fun i => t * v i) (mscale t V) with Ok D' => weighted n logdet w xs D' | Err _ => 0 end) 0
    (dot n (d_grad n D w xs) v + mdot n (M_grad n D w xs) V / 2).
Proof.
  intros n mexp logdet D w xs v V C E L. split; [intros t; eexists; reflexivity|].
  apply (lim_val _ _ (fold_right Rplus 0 (map2 (fun a x => a * (dot n (to_local n D x) v + mdot n (fun i j => to_local n D x i * to_local n D x j - mid i j) V / 2)) w xs))).
  { revert xs. induction w as [|a w IH]; intros xs; [|destruct xs as [|x xs]]; cbn [map2 fold_right];
      try (unfold d_grad, M_grad, dot, mdot; cbn [map2 fold_right]; rewrite sumn_zero by (intros; ring); rewrite sumn_zero by (intros; apply sumn_zero; intros; ring); lra).
    rewrite IH. unfold d_grad, M_grad, dot, mdot. cbn [map2 fold_right].
    rewrite (sumn_ext n (fun i => (a * to_local n D x i + _) * v i) (fun i => a * (to_local n D x i * v i) + fold_right Rplus 0 (map2 (fun a0 x0 => a0 * to_local n D x0 i) w xs) * v i)) by (intros; ring).
    rewrite sumn_plus, sumn_mul_l.
    rewrite (sumn_ext n (fun i => sumn n (fun j => (a * _ + _) * V i j)) (fun i => a * sumn n (fun j => (to_local n D x i * to_local n D x j - mid i j) * V i j) + sumn n (fun j => fold_right Rplus 0 (map2 (fun a0 x0 => a0 * (to_local n D x0 i * to_local n D x0 j - mid i j)) w xs) * V i j))).
    2:{ intros i Hi. rewrite <- sumn_mul_l, <- sumn_plus. apply sumn_ext. intros; ring. }
    rewrite sumn_plus, sumn_mul_l. lra. }
  unfold updated, update, rmap. cbn. unfold weighted.
  apply (weighted_lim (fun t x => log_density n logdet {| mu := vplus (mu D) (mv n (A D) (fun i => 1 * (t * v i))); A := mmul n (A D) (mexp (mscale 0.5 (mscale 1 (mscale t V)))); A_inv := mmul n (mexp (mscale (-0.5) (mscale 1 (mscale t V)))) (A_inv D) |} x)).
  intros x. apply sample_score; auto.
Qed.
Print Assumptions C198_score.
(* diagonal matrices of the plane *)
Definition ex_exp : mat -> mat := fun M i j => if Nat.eqb i j then exp (M i i) else 0.
Definition ex_logdet : mat -> R := fun M => ln (M 0%nat 0%nat * M 1%nat 1%nat).
Definition ex_V : mat := fun i j => if Nat.eqb i j then match i with O => 1 | _ => -2 end else 0.
Definition ex_D : dist := {| mu := fun _ => 7; A := fun i j => if Nat.eqb i j then INR (i + 2) else 0; A_inv := fun i j => if Nat.eqb i j then / INR (i + 2) else 0 |}.
Example C198_example : consistent 2 ex_D /\ exp_line 2 ex_exp ex_V /\ logdet_line 2 ex_exp ex_logdet (A ex_D) ex_V.
Proof.
  split; [|split; [split; [|split]|split]].
  - split; intros i j Hi Hj; destruct i as [|[|i]], j as [|[|j]]; try lia; unfold mmul, mid; cbn; field.
  - intros M N H i j Hi Hj. unfold ex_exp. destruct (Nat.eqb i j); auto. rewrite H; auto.
  - intros i j Hi Hj. unfold ex_exp, mscale, mid. destruct (Nat.eqb i j); auto. rewrite Rmult_0_l. apply exp_0.
  - intros i j Hi Hj. unfold ex_exp, ex_V, mscale. destruct (Nat.eqb_spec i j) as [->|N]; [|apply derivable_pt_lim_const]. rewrite Nat.eqb_refl. set (k := match j with O => 1 | _ => -2 end).
    apply (lim_ext (fun t => exp (k * t))); [intros; f_equal; ring|]. apply (lim_val _ _ (k * exp 0)); [rewrite exp_0; ring|]. apply (scaled_arg exp k (exp 0)). apply derivable_pt_lim_exp.
  - intros M N H. unfold ex_logdet. rewrite (H 0%nat 0%nat), (H 1%nat 1%nat) by auto. reflexivity.
  - intros t. unfold ex_logdet, trace, mmul, ex_exp, mscale, ex_V, ex_D. cbn.
    replace ((0 + (1 + 1) * exp (t * 1) + 0 * 0) * (0 + 0 * 0 + (1 + 1 + 1) * exp (t * -2))) with (6 * (exp (t * 1) * exp (t * -2))) by ring. rewrite <- exp_plus, ln_mult, ln_exp by (try apply exp_pos; lra).
    replace (6) with ((1 + 1) * (1 + 1 + 1)) by ring. ring.
Qed.

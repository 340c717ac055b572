(* C217 for XNES: what it does on average where all solutions are equally good. *)
From Coq Require Import Reals String Lra.
From Verif Require Import Prelude MatLib RankModel CemModel DistModel ExpProps FlatProps XnesModel XnesSpec XnesProofs XafModel.
Open Scope R_scope.

(* ---- spec ---- *)
Definition trace (n : nat) (M : mat) : R := sumn n (fun i => M i i).
(* the volume spanned by a matrix: multiplicative, and exp(M) has volume e^trace(M) *)
Definition volume_of (n : nat) (mexp : mat -> mat) (det : mat -> R) : Prop :=
  (forall M N, det (mmul n M N) = det M * det N) /\ (forall M, det (mexp M) = exp (trace n M)).
(* the distribution at the end of a run with the given draws *)
Definition final (n : nat) mexp weigh ranking center_lr stdev_lr (f : vect -> R) (D : XnesModel.dist) (ds : list (list vect)) : XnesModel.dist :=
  match ds with
  | [] => D
  | zs :: r => match xnes n mexp weigh ranking center_lr stdev_lr f D zs r with Ok l => s_dist (last l (XafModel.fill n f D zs)) | Err _ => D end
  end.

Section FLATX.
Variables (n m : nat) (mexp : mat -> mat) (weigh : list R -> list R) (ranking : string) (center_lr stdev_lr c : R) (W : ExpProps.dist).
Hypothesis Pr : probabilities W.
Hypothesis Exp : exponential n mexp.
Notation f := (fun _ : vect => c).
Notation last_dist := (final n mexp weigh ranking center_lr stdev_lr f).
Notation st := (XafModel.fill n f).
Let w := centered_weights ranking (weigh (repeat c m)).
Definition nextx (D : XnesModel.dist) (zs : list vect) : XnesModel.dist :=
  let '(d, M) := grads n weigh ranking (st D zs) in
  {| mu := vplus (mu D) (mv n (A D) (fun i => center_lr * d i)); A := mmul n (A D) (mexp (mscale 0.5 (mscale stdev_lr M)));
     A_inv := mmul n (mexp (mscale (-0.5) (mscale stdev_lr M))) (A_inv D) |}.
Lemma step_nextx D zs zs' : XafModel.step n mexp weigh ranking center_lr stdev_lr f (st D zs) zs' = Ok (st (nextx D zs) zs').
Proof. reflexivity. Qed.
Lemma steps_ok r : forall s, exists l, XafModel.steps n mexp weigh ranking center_lr stdev_lr f s r = Ok (s :: l).
Proof.
  induction r as [|zs r IH]; intros s; cbn [XafModel.steps]; [exists []; auto|].
  assert (exists s1, XafModel.step n mexp weigh ranking center_lr stdev_lr f s zs = Ok s1) as (s1 & ->) by (eexists; reflexivity). cbn [bind]. destruct (IH s1) as (l & ->). cbn [rmap]. eexists. reflexivity.
Qed.
Lemma final_next D zs zs' r : last_dist D (zs :: zs' :: r) = last_dist (nextx D zs) (zs' :: r).
Proof.
  cbn [final]. unfold xnes. cbn [XafModel.steps]. rewrite step_nextx. cbn [bind]. destruct (steps_ok r (st (nextx D zs) zs')) as (l & ->). cbn [rmap].
  rewrite (last_default (_ :: l) (st (nextx D zs) zs') (st D zs)) by discriminate. reflexivity.
Qed.
Lemma nextx_consistent D zs : consistent n D -> consistent n (nextx D zs).
Proof.
  intros C. destruct (algorithm_update n mexp (fun x => x) (fun x => x) D (fst (grads n weigh ranking (st D zs))) (snd (grads n weigh ranking (st D zs))) false center_lr stdev_lr) as [D'|] eqn:E; [|discriminate].
  assert (D' = nextx D zs) as <- by (injection E as <-; reflexivity).
  unfold algorithm_update in E. destruct (update n mexp (fun x => x) (fun x => x) D _ _ _ _) as [[D1 lr']|] eqn:U; [|discriminate]. injection E as <-. eapply update_consistent; eauto.
Qed.
Lemma fits_flat D zs : length zs = m -> s_fits (st D zs) = repeat c m.
Proof. intros <-. cbn [XafModel.fill s_fits]. rewrite map_map. induction zs as [|z zs IH]; cbn; [auto|]. rewrite IH. reflexivity. Qed.
Lemma sums (g : vect -> R) (h : vect -> R) zs (v : list R) (p : vect -> vect) : (forall z, g (p z) = h z) -> fold_right Rplus 0 (map2 (fun a x => a * g x) v (map p zs)) = wsum v (map h zs).
Proof. intros H. unfold wsum, rsum. revert v. induction zs as [|z zs IH]; intros [|a v]; cbn; auto. rewrite H, IH. reflexivity. Qed.
Lemma d_flat D zs i : consistent n D -> length zs = m -> (i < n)%nat -> fst (grads n weigh ranking (st D zs)) i = wsum w (map (fun z => z i) zs).
Proof.
  intros C L Hi. unfold grads. cbv zeta. cbn [fst]. rewrite fits_flat by auto. fold w. unfold d_grad. cbn [XafModel.fill s_dist s_pop].
  apply (sums (fun x => to_local n D x i)). intros z. apply local_global; auto.
Qed.
Lemma M_flat D zs i : consistent n D -> length zs = m -> (i < n)%nat -> snd (grads n weigh ranking (st D zs)) i i = wsum w (map (fun z => z i * z i - 1) zs).
Proof.
  intros C L Hi. unfold grads. cbv zeta. cbn [snd]. rewrite fits_flat by auto. fold w. unfold M_grad. cbn [XafModel.fill s_dist s_pop].
  apply (sums (fun x => to_local n D x i * to_local n D x i - mid i i)). intros z. rewrite local_global by auto. unfold mid. rewrite Nat.eqb_refl. reflexivity.
Qed.
Lemma avg_n_sumn k (g : nat -> list vect -> R) : avg_n W m (fun zs => sumn k (fun i => g i zs)) = sumn k (fun i => avg_n W m (g i)).
Proof. induction k as [|k IH]; cbn [sumn]; [apply avg_n_const, Pr|]. rewrite (avg_n_plus W m (fun zs => sumn k (fun i => g i zs)) (g k)), IH. reflexivity. Qed.
(* a quantity which does not grow on average in one generation does not grow on average over a run *)
Lemma xruns_le (F : XnesModel.dist -> R) (P : XnesModel.dist -> Prop) :
  (forall D zs, P D -> P (nextx D zs)) -> (forall D, P D -> avg_n W m (fun zs => F (nextx D zs)) <= F D) ->
  forall k D, P D -> avg_runs W m (S k) (fun ds => F (last_dist D ds)) <= F D.
Proof.
  intros HP HF. induction k as [|k IH]; intros D PD.
  - cbn [avg_runs]. rewrite (avg_n_ext W m _ (fun _ => F D)) by reflexivity. rewrite avg_n_const by apply Pr. lra.
  - change (avg_runs W m (S (S k)) ?g) with (avg_n W m (fun zs => avg_runs W m (S k) (fun ds => g (zs :: ds)))).
    eapply Rle_trans; [|apply (HF D PD)]. apply avg_n_le; [apply Pr|]. intros zs E. eapply Rle_trans; [|apply (IH (nextx D zs)); apply HP; auto].
    apply Req_le. apply avg_runs_ext. intros zs' ds E'. rewrite final_next. reflexivity.
Qed.
Lemma xruns_eq (F : XnesModel.dist -> R) (P : XnesModel.dist -> Prop) :
  (forall D zs, P D -> P (nextx D zs)) -> (forall D, P D -> avg_n W m (fun zs => F (nextx D zs)) = F D) ->
  forall k D, P D -> avg_runs W m (S k) (fun ds => F (last_dist D ds)) = F D.
Proof.
  intros HP HF k D PD. apply Rle_antisym; [apply (xruns_le F P); auto; intros; apply Req_le; auto|].
  assert (Q : avg_runs W m (S k) (fun ds => - F (last_dist D ds)) <= - F D).
  - apply (xruns_le (fun D => - F D) P); auto. intros D1 P1. apply Req_le. transitivity (- avg_n W m (fun zs => F (nextx D1 zs))); [|rewrite (HF D1 P1); reflexivity].
    rewrite (avg_n_ext W m _ (fun zs => (-1) * F (nextx D1 zs))) by (intros; ring). rewrite avg_n_scale. ring.
  - rewrite avg_runs_opp in Q. lra.
Qed.
Lemma mu_still D j : consistent n D -> (forall i, (i < n)%nat -> avg W (fun z => z i) = 0) -> avg_n W m (fun zs => mu (nextx D zs) j) = mu D j.
Proof.
  intros C E. rewrite (avg_n_ext W m _ (fun zs => mu D j + sumn n (fun i => A D j i * center_lr * wsum w (map (fun z => z i) zs)))).
  - rewrite avg_n_plus, avg_n_const by apply Pr. rewrite (avg_n_sumn n (fun i zs => A D j i * center_lr * wsum w (map (fun z => z i) zs))). rewrite sumn_zero; [ring|].
    intros i Hi. rewrite avg_n_scale, (avg_n_wsum W m (fun z => z i)) by (auto; apply Pr). ring.
  - intros zs L. unfold nextx. destruct (grads n weigh ranking (st D zs)) as [d M] eqn:G. cbn [mu]. unfold vplus, mv. f_equal. apply sumn_ext. intros i Hi.
    rewrite <- (d_flat D zs i C L Hi), G. cbn [fst]. ring.
Qed.
Lemma volume_still D det : volume_of n mexp det -> consistent n D -> exists g : list vect -> R,
  (forall zs, length zs = m -> det (A (nextx D zs)) = det (A D) * exp (g zs)) /\ ((forall i, (i < n)%nat -> avg W (fun z => z i * z i) = 1) -> avg_n W m g = 0).
Proof.
  intros [V1 V2] C. exists (fun zs => sumn n (fun i => 0.5 * stdev_lr * wsum w (map (fun z => z i * z i - 1) zs))). split.
  - intros zs L. unfold nextx. destruct (grads n weigh ranking (st D zs)) as [d M] eqn:G. cbn [A]. rewrite V1, V2. f_equal. f_equal. unfold trace. apply sumn_ext. intros i Hi. unfold mscale.
    rewrite <- (M_flat D zs i C L Hi), G. cbn [snd]. ring.
  - intros E. transitivity (sumn n (fun i => avg_n W m (fun zs => 0.5 * stdev_lr * wsum w (map (fun z => z i * z i - 1) zs)))); [apply (avg_n_sumn n (fun i zs => 0.5 * stdev_lr * wsum w (map (fun z => z i * z i - 1) zs)))|]. apply sumn_zero. intros i Hi.
    rewrite avg_n_scale, (avg_n_wsum W m (fun z => z i * z i - 1)); [ring|apply Pr|]. rewrite avg_minus, avg_const, (E i Hi), (proj1 Pr). ring.
Qed.
End FLATX.

(* C217: where all solutions are equally good, the center of XNES does not move on average. The logarithm of the volume which its matrix spans does not
   change on average either, so the volume itself does not shrink on average *)
Theorem C217_xnes : forall n m mexp weigh ranking center_lr stdev_lr c W, probabilities W -> exponential n mexp ->
  forall k D, consistent n D ->
  ((forall i, (i < n)%nat -> avg W (fun z => z i) = 0) -> forall j, avg_runs W m (S k) (fun ds => mu (final n mexp weigh ranking center_lr stdev_lr (fun _ => c) D ds) j) = mu D j) /\
  (forall det, volume_of n mexp det -> (forall i, (i < n)%nat -> avg W (fun z => z i * z i) = 1) -> 0 < det (A D) ->
   avg_runs W m (S k) (fun ds => ln (det (A (final n mexp weigh ranking center_lr stdev_lr (fun _ => c) D ds)))) = ln (det (A D)) /\
   det (A D) <= avg_runs W m (S k) (fun ds => det (A (final n mexp weigh ranking center_lr stdev_lr (fun _ => c) D ds)))).
Proof.
  intros n m mexp weigh ranking clr slr c W Pr Ex k D C. split.
  - intros E j. apply (xruns_eq n m mexp weigh ranking clr slr c W Pr (fun D => mu D j) (consistent n)); auto.
    + intros; apply nextx_consistent; auto.
    + intros D1 C1. apply mu_still; auto.
  - intros det V E P0. set (P := fun D => consistent n D /\ 0 < det (A D)).
    assert (HP : forall D zs, P D -> P (nextx n mexp weigh ranking clr slr c D zs)).
    { intros D1 zs [C1 P1]. split; [apply nextx_consistent; auto|].
      destruct (volume_still n (length zs) mexp weigh ranking clr slr c W Pr D1 det V C1) as (g & G & _). rewrite (G zs eq_refl). apply Rmult_lt_0_compat; [auto|apply exp_pos]. }
    split.
    + apply (xruns_eq n m mexp weigh ranking clr slr c W Pr (fun D => ln (det (A D))) P); [auto| |split; auto].
      intros D1 [C1 P1]. destruct (volume_still n m mexp weigh ranking clr slr c W Pr D1 det V C1) as (g & G & Z).
      rewrite (avg_n_ext W m _ (fun zs => ln (det (A D1)) + g zs)); [rewrite avg_n_plus, avg_n_const, (Z E) by apply Pr; ring|].
      intros zs L. rewrite (G zs L), ln_mult, ln_exp by (auto; apply exp_pos). reflexivity.
    + enough (Q : avg_runs W m (S k) (fun ds => - det (A (final n mexp weigh ranking clr slr (fun _ => c) D ds))) <= - det (A D)) by (rewrite avg_runs_opp in Q by apply Pr; lra).
      apply (xruns_le n m mexp weigh ranking clr slr c W Pr (fun D => - det (A D)) P); [auto| |split; auto].
      intros D1 [C1 P1]. destruct (volume_still n m mexp weigh ranking clr slr c W Pr D1 det V C1) as (g & G & Z).
      apply Rle_trans with (avg_n W m (fun zs => - det (A D1) + (- det (A D1)) * g zs)); [|rewrite avg_n_plus, avg_n_scale, avg_n_const, (Z E) by apply Pr; lra].
      apply avg_n_le; [apply Pr|]. intros zs L. rewrite (G zs L). pose proof (exp_ineq1_le (g zs)) as I. pose proof (Rmult_le_compat_l _ _ _ (Rlt_le _ _ P1) I). lra.
Qed.
Print Assumptions C217_xnes.
(* the hypotheses can be met in two dimensions: the determinant, and the exponential of the diagonal *)
Definition ex_det (M : mat) : R := M 0%nat 0%nat * M 1%nat 1%nat - M 0%nat 1%nat * M 1%nat 0%nat.
Definition ex_mexp (M : mat) : mat := fun i j => if Nat.eqb i j then exp (M i i) else 0.
Example C217_xnes_example : volume_of 2 ex_mexp ex_det /\ exponential 2 ex_mexp /\ consistent 2 {| mu := fun _ => 5; A := mid; A_inv := mid |} /\
  forall k weigh, let W := [(1 / 2, fun _ : nat => 1); (1 / 2, fun _ : nat => -1)] in let D := {| mu := fun _ => 5; A := mid; A_inv := mid |} in
  avg_runs W 3 (S k) (fun ds => mu (final 2 ex_mexp weigh "nes" 1 1 (fun _ => 7) D ds) 1%nat) = 5 /\
  avg_runs W 3 (S k) (fun ds => ln (ex_det (A (final 2 ex_mexp weigh "nes" 1 1 (fun _ => 7) D ds)))) = 0.
Proof.
  assert (V : volume_of 2 ex_mexp ex_det).
  { split; intros; unfold ex_det, mmul, ex_mexp, trace; cbn; [ring|]. rewrite !Rplus_0_l, exp_plus. ring. }
  assert (X : exponential 2 ex_mexp).
  { intros M M' H i j Hi Hj. unfold mmul, ex_mexp, mid. cbn. assert (Q : forall x, exp x * exp (- x) = 1) by (intros x; rewrite <- exp_plus, Rplus_opp_r; apply exp_0).
    destruct i as [|[|i]], j as [|[|j]]; try lia; cbn; rewrite ?H, ?Q; ring. }
  assert (C : consistent 2 {| mu := fun _ => 5; A := mid; A_inv := mid |}) by (split; cbn; apply mmul_id_l).
  split; [exact V|]. split; [exact X|]. split; [exact C|]. intros k weigh W D. split.
  - destruct (C217_xnes 2 3 ex_mexp weigh "nes" 1 1 7 W) with (k := k) (D := D) as [Q _]; auto; [split; [unfold total, rsum; cbn; lra|repeat constructor; cbn; lra]|].
    apply Q. intros i _. unfold avg, rsum. cbn. lra.
  - destruct (C217_xnes 2 3 ex_mexp weigh "nes" 1 1 7 W) with (k := k) (D := D) as [_ Q]; auto; [split; [unfold total, rsum; cbn; lra|repeat constructor; cbn; lra]|].
    destruct (Q ex_det V) as [Q1 _]; [intros i _; unfold avg, rsum; cbn; lra|unfold D, ex_det, mid; cbn; lra|]. etransitivity; [exact Q1|]. rewrite <- ln_1. f_equal. unfold D, ex_det, mid. cbn. ring.
Qed.

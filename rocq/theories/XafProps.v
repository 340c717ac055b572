(* C197: XNES is invariant under invertible affine changes of the coordinates of the search space. *)
From Coq Require Import Reals String Lra.
From Verif Require Import Prelude MatLib CemModel XnesModel XnesSpec XnesProofs DistModel XafModel.
Open Scope R_scope.

(* ---- spec ---- *)
(* the point x in the new coordinates *)
Definition moved (n : nat) (T : mat) (b : vect) (x : vect) : vect := fun i => mv n T x i + b i.
(* the distribution which draws moved points: its center is moved, its matrix multiplied by T *)
Definition moved_dist (n : nat) (T Ti : mat) (b : vect) (D D' : dist) : Prop :=
  veq n (mu D') (moved n T b (mu D)) /\ meq n (A D') (mmul n T (A D)) /\ meq n (A_inv D') (mmul n (A_inv D) Ti).
Definition moved_state (n : nat) (T Ti : mat) (b : vect) (g : R -> R) (s s' : state) : Prop :=
  moved_dist n T Ti b (s_dist s) (s_dist s') /\ Forall2 (fun x x' => veq n x' (moved n T b x)) (s_pop s) (s_pop s') /\ s_fits s' = map g (s_fits s).
(* a function of vectors sees n coordinates; one of matrices n times n *)
Definition sees {X} (n : nat) (f : vect -> X) : Prop := forall x y, veq n x y -> f x = f y.
Definition sees_matrix (n : nat) (f : mat -> mat) : Prop := forall M N, meq n M N -> meq n (f M) (f N).

(* ---- proofs ---- *)
Lemma global_moved n T Ti b D D' z : moved_dist n T Ti b D D' -> veq n (to_global n D' z) (moved n T b (to_global n D z)).
Proof.
  intros (H1 & H2 & _) i Hi. unfold to_global, vplus at 1. rewrite H1 by auto. rewrite (mv_ext n _ _ z z H2 (fun _ _ => eq_refl) i Hi), (mv_mmul n T (A D) z i Hi). unfold moved.
  assert (E : mv n T (vplus (mu D) (mv n (A D) z)) i = mv n T (mu D) i + mv n T (mv n (A D) z) i).
  { unfold mv, vplus. rewrite <- sumn_plus. apply sumn_ext. intros. ring. }
  rewrite E. ring.
Qed.
Lemma local_moved n T Ti b D D' x x' : meq n (mmul n Ti T) mid -> moved_dist n T Ti b D D' -> veq n x' (moved n T b x) -> veq n (to_local n D' x') (to_local n D x).
Proof.
  intros HT (H1 & _ & H3) Hx i Hi. unfold to_local.
  assert (E : veq n (vminus x' (mu D')) (mv n T (vminus x (mu D)))).
  { intros k Hk. unfold vminus at 1. rewrite Hx, H1 by auto. unfold moved.
    assert (Q : mv n T (vminus x (mu D)) k = mv n T x k - mv n T (mu D) k) by (unfold mv, vminus; rewrite <- sumn_minus; apply sumn_ext; intros; ring). rewrite Q. ring. }
  rewrite (mv_ext n _ _ _ _ H3 E i Hi). rewrite (mv_mmul n (A_inv D) Ti _ i Hi). apply mv_ext; auto; [apply meq_refl|].
  intros k Hk. rewrite <- (mv_mmul n Ti T _ k Hk). rewrite (mv_ext n _ _ _ _ HT (fun _ _ => eq_refl) k Hk). apply mv_id; auto.
Qed.
Lemma sums_eq (f g : R -> vect -> R) (w : list R) : forall xs ys, Forall2 (fun x y => forall a, f a x = g a y) xs ys ->
  fold_right Rplus 0 (map2 f w xs) = fold_right Rplus 0 (map2 g w ys).
Proof.
  revert w. intros w xs ys F. revert w. induction F as [|x y xs ys H F IH]; intros [|a w]; cbn; auto. rewrite H, (IH w). reflexivity.
Qed.
Section RUN.
Variables (n : nat) (mexp : mat -> mat) (weigh : list R -> list R) (ranking : string) (center_lr stdev_lr : R).
Variables (T Ti : mat) (b : vect) (g : R -> R).
Hypothesis Exp : sees_matrix n mexp.
Hypothesis Inv : meq n (mmul n Ti T) mid.
Hypothesis Weigh : forall l, weigh (map g l) = weigh l.
Variables f f' : vect -> R.
Hypothesis Sees : sees n f'.
Hypothesis Moved : forall x, f' (moved n T b x) = g (f x).

Lemma fill_moved D D' zs : moved_dist n T Ti b D D' -> moved_state n T Ti b g (fill n f D zs) (fill n f' D' zs).
Proof.
  intros H. split; [exact H|]. cbn [s_pop s_fits fill]. split.
  - induction zs as [|z zs IH]; cbn; constructor; auto. apply (global_moved n T Ti b D D' z H).
  - rewrite !map_map. apply map_ext. intros z. rewrite <- Moved. apply Sees. apply (global_moved n T Ti b D D' z H).
Qed.
Lemma step_moved s s' zs : moved_state n T Ti b g s s' ->
  exists r r', step n mexp weigh ranking center_lr stdev_lr f s zs = Ok r /\ step n mexp weigh ranking center_lr stdev_lr f' s' zs = Ok r' /\ moved_state n T Ti b g r r'.
Proof.
  intros (HD & HP & HF). pose proof HD as (H1 & H2 & H3). unfold step, grads. rewrite HF, Weigh. set (w := centered_weights ranking (weigh (s_fits s))).
  unfold algorithm_update, update, algorithm_rates, algorithm_optimizers, rmap. cbn. eexists. eexists. split; [reflexivity|]. split; [reflexivity|].
  set (d := d_grad n (s_dist s) w (s_pop s)). set (d' := d_grad n (s_dist s') w (s_pop s')). set (M := M_grad n (s_dist s) w (s_pop s)). set (M' := M_grad n (s_dist s') w (s_pop s')).
  assert (L : Forall2 (fun x x' => veq n (to_local n (s_dist s') x') (to_local n (s_dist s) x)) (s_pop s) (s_pop s')).
  { clear - HD HP Inv. induction HP as [|x x' xs xs' Hx HP IH]; constructor; auto. apply (local_moved n T Ti b); auto. }
  assert (Ed : veq n d' d).
  { intros i Hi. unfold d, d', d_grad. symmetry. apply sums_eq. clear - L Hi. induction L as [|x x' xs xs' Hx HP IH]; constructor; auto. intros a. rewrite (Hx i Hi). reflexivity. }
  assert (EM : meq n M' M).
  { intros i j Hi Hj. unfold M, M', M_grad. symmetry. apply sums_eq. clear - L Hi Hj. induction L as [|x x' xs xs' Hx HP IH]; constructor; auto. intros a. rewrite (Hx i Hi), (Hx j Hj). reflexivity. }
  apply fill_moved. split; [|split]; cbn [mu A A_inv].
  - intros i Hi. unfold vplus. rewrite H1 by auto.
    assert (Q : mv n (A (s_dist s')) (fun k => center_lr * d' k) i = mv n T (mv n (A (s_dist s)) (fun k => center_lr * d k)) i).
    { rewrite <- (mv_mmul n T (A (s_dist s)) _ i Hi). apply mv_ext; auto. intros k Hk. rewrite Ed by auto. reflexivity. }
    rewrite Q. unfold moved.
    assert (E : forall x y, mv n T (fun k => x k + y k) i = mv n T x i + mv n T y i).
    { intros x y. unfold mv. rewrite <- sumn_plus. apply sumn_ext. intros. ring. }
    rewrite E. ring.
  - apply (meq_trans n _ (mmul n (mmul n T (A (s_dist s))) (mexp (mscale 0.5 (mscale stdev_lr M))))); [|apply mmul_assoc].
    apply mmul_ext; auto. apply Exp. intros i j Hi Hj. unfold mscale. rewrite EM by auto. reflexivity.
  - apply (meq_trans n _ (mmul n (mexp (mscale (-0.5) (mscale stdev_lr M))) (mmul n (A_inv (s_dist s)) Ti))); [|apply meq_sym, mmul_assoc].
    apply mmul_ext; auto. apply Exp. intros i j Hi Hj. unfold mscale. rewrite EM by auto. reflexivity.
Qed.
Lemma steps_moved : forall draws s s', moved_state n T Ti b g s s' ->
  exists r r', steps n mexp weigh ranking center_lr stdev_lr f s draws = Ok r /\ steps n mexp weigh ranking center_lr stdev_lr f' s' draws = Ok r' /\ Forall2 (moved_state n T Ti b g) r r'.
Proof.
  induction draws as [|zs draws IH]; intros s s' H; cbn [steps].
  - exists [s], [s']. repeat split; auto.
  - destruct (step_moved s s' zs H) as (r & r' & -> & -> & H1). cbn [bind]. destruct (IH r r' H1) as (q & q' & -> & -> & H2). cbn [rmap]. exists (s :: q), (s' :: q'). repeat split; auto.
Qed.
End RUN.

(* C197: let T be invertible, and let the new fitness of the moved point be g of the old fitness of the point, where g does not change the weights (g is
   the identity, or increasing and the weights come from ranks). Then a run of XNES in the new coordinates, begun with the moved distribution and with
   the same draws, is the moved run: in every generation the distribution and all solutions are the moved ones and have the same (g of the) fitnesses *)
Theorem C197_affine : forall n mexp weigh ranking center_lr stdev_lr T Ti b g f f' D D' zs draws,
  sees_matrix n mexp -> meq n (mmul n Ti T) mid -> (forall l, weigh (map g l) = weigh l) -> sees n f' -> (forall x, f' (moved n T b x) = g (f x)) ->
  moved_dist n T Ti b D D' ->
  exists run run', xnes n mexp weigh ranking center_lr stdev_lr f D zs draws = Ok run /\ xnes n mexp weigh ranking center_lr stdev_lr f' D' zs draws = Ok run' /\
    Forall2 (moved_state n T Ti b g) run run'.
Proof.
  intros n mexp weigh ranking clr slr T Ti b g f f' D D' zs draws H1 H2 H3 H4 H5 H6. unfold xnes. apply steps_moved; auto. apply fill_moved; auto.
Qed.
Print Assumptions C197_affine.
(* every distribution with an inverse, and every invertible T, give such a pair; the moved one has an inverse too *)
Theorem C197_moved_exists : forall n T Ti b D, meq n (mmul n Ti T) mid -> meq n (mmul n T Ti) mid -> consistent n D ->
  let D' := {| mu := moved n T b (mu D); A := mmul n T (A D); A_inv := mmul n (A_inv D) Ti |} in moved_dist n T Ti b D D' /\ consistent n D'.
Proof.
  intros n T Ti b D H1 H2 [C1 C2]. cbv zeta. split; [split; [|split]; cbn; try apply meq_refl; intros i Hi; reflexivity|]. split; cbn [A A_inv].
  - apply (meq_trans n _ (mmul n T (mmul n (A D) (mmul n (A_inv D) Ti)))); [apply mmul_assoc|].
    apply (meq_trans n _ (mmul n T Ti)); auto. apply mmul_ext; [apply meq_refl|]. apply (meq_trans n _ (mmul n (mmul n (A D) (A_inv D)) Ti)); [apply meq_sym, mmul_assoc|].
    apply (meq_trans n _ (mmul n mid Ti)); [|apply mmul_id_l]. apply mmul_ext; auto. apply meq_refl.
  - apply (meq_trans n _ (mmul n (A_inv D) (mmul n Ti (mmul n T (A D))))); [apply mmul_assoc|].
    apply (meq_trans n _ (mmul n (A_inv D) (A D))); auto. apply mmul_ext; [apply meq_refl|]. apply (meq_trans n _ (mmul n (mmul n Ti T) (A D))); [apply meq_sym, mmul_assoc|].
    apply (meq_trans n _ (mmul n mid (A D))); [|apply mmul_id_l]. apply mmul_ext; auto. apply meq_refl.
Qed.
Print Assumptions C197_moved_exists.
(* a shear of the plane with a translation *)
Definition ex_f : vect -> R := fun x => x 0%nat * x 0%nat + x 1%nat.
Definition ex_f' : vect -> R := fun y => ex_f (mv 2 unshear (fun i => y i - 5)).
Definition ex_exp : mat -> mat := fun M i j => mid i j + M i j + mmul 2 M M i j / 2.
Example C197_example : sees_matrix 2 ex_exp /\ meq 2 (mmul 2 unshear shear) mid /\ meq 2 (mmul 2 shear unshear) mid /\ sees 2 ex_f' /\
  (forall x, ex_f' (moved 2 shear (fun _ => 5) x) = ex_f x) /\ (forall l : list R, map Ropp (map (fun r => r) l) = map Ropp l).
Proof.
  split; [|split; [|split; [|split; [|split]]]].
  - intros M N H i j Hi Hj. unfold ex_exp. rewrite (H i j Hi Hj), (mmul_ext 2 _ _ _ _ H H i j Hi Hj). reflexivity.
  - apply shear_inv. auto.
  - apply shear_inv. auto.
  - intros x y H. unfold ex_f', ex_f, mv. cbn. rewrite (H 0%nat), (H 1%nat) by auto. reflexivity.
  - intros x. unfold ex_f', ex_f, moved, mv. cbn. unfold shear, unshear, mid. cbn. ring.
  - intros l. rewrite map_id. reflexivity.
Qed.

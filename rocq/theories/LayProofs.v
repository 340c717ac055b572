(* Lemmas about rounding, binning, linear layers and networks. *)
From Coq Require Import Reals String Lra Lia.
From Verif Require Import Prelude LayModel LaySpec.
Open Scope R_scope.

(* ---- rounding ---- *)
Lemma rne_nearest x : exists k, rne x = IZR k /\ nearest x k.
Proof.
  unfold rne. destruct (base_Int_part x) as [Q1 Q2]. set (f := Int_part x) in *.
  destruct (total_order_T (x - IZR f) (/ 2)) as [[G | G] | G].
  - exists f. split; [reflexivity |]. split.
    + rewrite Rabs_left1; lra.
    + intro E. rewrite Rabs_left1 in E; lra.
  - destruct (Z.even f) eqn:E.
    + exists f. split; [reflexivity |]. split; [| auto]. rewrite Rabs_left1; lra.
    + exists (f + 1)%Z. split; [reflexivity |]. unfold nearest. rewrite plus_IZR. split.
      * rewrite Rabs_right; lra.
      * intros _. rewrite Z.even_add, E. reflexivity.
  - exists (f + 1)%Z. split; [reflexivity |]. unfold nearest. rewrite plus_IZR. split.
    + rewrite Rabs_right; lra.
    + intro E. rewrite Rabs_right in E; lra.
Qed.

Lemma nearest_mono x y k l : nearest x k -> nearest y l -> x <= y -> (k <= l)%Z.
Proof.
  intros [Q1 Q2] [Q3 Q4] LE. destruct (Z_le_gt_dec k l) as [G | G]; [exact G | exfalso].
  assert (IZR l + 1 <= IZR k) as P by (rewrite <- plus_IZR; apply IZR_le; lia).
  pose proof (Rle_abs (IZR k - x)) as A1. pose proof (Rle_abs (- (IZR l - y))) as A2. rewrite Rabs_Ropp in A2.
  assert (IZR k - x = / 2) as E1 by lra. assert (y - IZR l = / 2) as E2 by lra.
  rewrite E1 in Q2. rewrite Rabs_right in Q2 by lra.
  replace (IZR l - y) with (- (/ 2)) in Q4 by lra. rewrite Rabs_Ropp, Rabs_right in Q4 by lra.
  specialize (Q2 eq_refl). specialize (Q4 eq_refl).
  assert (IZR k = IZR (l + 1)) as E by (rewrite plus_IZR; lra). apply eq_IZR in E. subst k.
  rewrite Z.even_add, Q4 in Q2. discriminate.
Qed.
Lemma nearest_unique x k l : nearest x k -> nearest x l -> k = l.
Proof. intros A B. pose proof (nearest_mono _ _ _ _ A B (Rle_refl _)). pose proof (nearest_mono _ _ _ _ B A (Rle_refl _)). lia. Qed.
Lemma nearest_self k : nearest (IZR k) k.
Proof. split; replace (IZR k - IZR k) with 0 by lra; rewrite Rabs_R0; [lra | intro; lra]. Qed.

(* ---- lists ---- *)
Lemma nth_firstn_lt (l : list R) n i : (i < n)%nat -> nth i (firstn n l) 0 = nth i l 0.
Proof. revert n i. induction l as [| a l IH]; intros [| n] [| i] G; cbn; try lia; auto. apply IH. lia. Qed.
Lemma nth_skipn (l : list R) n i : nth i (skipn n l) 0 = nth (n + i) l 0.
Proof. revert n. induction l as [| a l IH]; intros [| n]; cbn; auto. destruct i; reflexivity. Qed.
Lemma skipn_add {A} (l : list A) m n : skipn n (skipn m l) = skipn (m + n) l.
Proof. revert m. induction l as [| a l IH]; intros [| m]; cbn; auto. destruct n; reflexivity. Qed.

Lemma sum_ext n f g : (forall i, (i < n)%nat -> f i = g i) -> sum_below n f = sum_below n g.
Proof. induction n; cbn; intro Q; [reflexivity |]. rewrite IHn, Q by auto. reflexivity. Qed.
Lemma sum_left n f : sum_below (S n) f = f O + sum_below n (fun i => f (S i)).
Proof. induction n; [cbn; lra |]. cbn [sum_below] in *. rewrite IHn. lra. Qed.
Lemma dot_sum a b n : length a = n -> length b = n -> dot a b = sum_below n (fun i => nth i a 0 * nth i b 0).
Proof.
  revert b n. induction a as [| x a IH]; intros [| y b] [| n] LA LB; cbn in LA, LB; try discriminate; [reflexivity |].
  rewrite sum_left. unfold dot in *. cbn [map2 fold_right nth]. rewrite (IH b n); [reflexivity | lia | lia].
Qed.

Lemma chunks_length n w v : length (chunks n w v) = n.
Proof. revert v. induction n; intro v; cbn; auto. Qed.
Lemma chunks_nth n w v j : (j < n)%nat -> nth j (chunks n w v) nil = firstn w (skipn (j * w) v).
Proof.
  revert v j. induction n; intros v j G; [lia |]. destruct j; cbn [chunks nth]; [reflexivity |].
  rewrite IHn by lia. rewrite skipn_add. reflexivity.
Qed.

(* ---- linear layers ---- *)
Lemma count_size nin nout b : linear_count nin nout b = affine_size nin nout b.
Proof. unfold linear_count, affine_size. destruct b; nia. Qed.

Lemma map2_nth (f : R -> R -> R) a b n : length a = n -> length b = n ->
  length (map2 f a b) = n /\ forall j, (j < n)%nat -> nth j (map2 f a b) 0 = f (nth j a 0) (nth j b 0).
Proof.
  revert b n. induction a as [| x a IH]; intros [| y b] [| n] LA LB; cbn in LA, LB; try discriminate.
  - split; [reflexivity | intros; lia].
  - destruct (IH b n) as [E Q]; [lia | lia |]. cbn [map2 length]. split; [lia |]. intros [| j] G; cbn [nth]; [reflexivity |]. apply Q. lia.
Qed.

Lemma affine_ext th off nin nout b x x' j : (forall i, (i < nin)%nat -> x i = x' i) ->
  affine th off nin nout b x j = affine th off nin nout b x' j.
Proof. intro Q. unfold affine. f_equal. apply sum_ext. intros i G. rewrite Q by exact G. reflexivity. Qed.

Lemma linear_holds v off nin nout b x :
  (off + linear_count nin nout b <= length v)%nat -> length x = nin ->
  exists y, linear nin nout b (skipn off v) x = Ok y
            /\ holds y nout (affine (fun k => nth k v 0) off nin nout b (fun i => nth i x 0)).
Proof.
  intros LV LX. unfold linear. rewrite LX, Nat.eqb_refl.
  set (rows := chunks nout nin (firstn (nout * nin) (skipn off v))).
  assert (forall j, (j < nout)%nat -> nth j (map (fun row => dot row x) rows) 0
                    = sum_below nin (fun i => nth (off + j * nin + i) v 0 * nth i x 0)) as Q.
  { intros j G. rewrite (nth_indep _ 0 (dot nil x)) by (rewrite map_length; unfold rows; rewrite chunks_length; exact G).
    rewrite (map_nth (fun row => dot row x) rows nil j). unfold rows. rewrite chunks_nth by exact G.
    assert (off + nout * nin <= length v)%nat as LV' by (unfold linear_count in LV; destruct b; lia).
    assert ((S j) * nin <= nout * nin)%nat as LJ by (apply Nat.mul_le_mono_r; lia).
    rewrite (dot_sum _ _ nin).
    - apply sum_ext. intros i Gi. rewrite nth_firstn_lt by exact Gi. rewrite nth_skipn, nth_firstn_lt by (cbn in LJ; lia).
      rewrite nth_skipn. do 2 f_equal. lia.
    - rewrite firstn_length, skipn_length, firstn_length, skipn_length. cbn in LJ. lia.
    - exact LX. }
  assert (length (map (fun row => dot row x) rows) = nout) as LL by (rewrite map_length; apply chunks_length).
  unfold holds, affine. destruct b.
  - eexists. split; [reflexivity |].
    assert (length (firstn nout (skipn (nout * nin) (skipn off v))) = nout) as L2.
    { unfold linear_count in LV. rewrite firstn_length, !skipn_length. lia. }
    destruct (map2_nth Rplus _ _ nout LL L2) as [LM QM]. split; [exact LM |]. intros j G. rewrite QM, Q by exact G. f_equal.
    rewrite nth_firstn_lt by exact G. rewrite !nth_skipn. f_equal. lia.
  - eexists. split; [reflexivity |]. split; [exact LL |]. intros j G. rewrite Q by exact G. lra.
Qed.

(* ---- multilayer networks ---- *)
Lemma mlp_ext th l : forall off nin x x', (forall i, (i < nin)%nat -> x i = x' i) ->
  forall j, (j < mlp_out nin l)%nat -> mlp th off nin l x j = mlp th off nin l x' j.
Proof.
  induction l as [| d l IH]; intros off nin x x' Q j G; cbn in *; [auto |].
  apply IH; [| exact G]. intros i _. f_equal. apply affine_ext. exact Q.
Qed.

(* the layers of a network as it is built and the layers of the specification *)
Definition act_matches (a : option (list R -> list R)) (g : R -> R) : Prop :=
  match a with None => forall x, g x = x | Some f => forall l, f l = map g l end.
Definition shape_matches (s : shape) (d : dense) : Prop :=
  s_out s = d_size d /\ s_bias s = d_bias d /\ act_matches (s_act s) (d_act d).
Fixpoint chained (nin : nat) (l : list shape) : Prop := match l with nil => True | s :: t => s_in s = nin /\ chained (s_out s) t end.

Lemma ffn_count_size l : forall nin ds, chained nin l -> Forall2 shape_matches l ds -> ffn_count l = mlp_size nin ds.
Proof.
  induction l as [| s l IH]; intros nin ds C F; inversion F; subst; [reflexivity |]. destruct C as [<- C]. cbn.
  match goal with H : shape_matches s _ |- _ => destruct H as (E1 & E2 & _) end.
  rewrite (IH (s_out s) l') by assumption. rewrite count_size, E1, E2. reflexivity.
Qed.

Lemma act_apply a g y n f : act_matches a g -> holds y n f ->
  holds (match a with None => y | Some h => h y end) n (fun j => g (f j)).
Proof.
  intros M [LY QY]. destruct a as [h |]; cbn in M.
  - rewrite M. split; [rewrite map_length; exact LY |]. intros j G.
    rewrite (nth_indep _ 0 (g 0)) by (rewrite map_length, LY; exact G). rewrite map_nth, QY by exact G. reflexivity.
  - split; [exact LY |]. intros j G. rewrite M. auto.
Qed.

Lemma ffn_forward_holds v l : forall off nin ds x f, chained nin l -> Forall2 shape_matches l ds ->
  (off + mlp_size nin ds <= length v)%nat -> holds x nin f ->
  exists y, ffn_forward l (skipn off v) x = Ok y /\ holds y (mlp_out nin ds) (mlp (fun k => nth k v 0) off nin ds f).
Proof.
  induction l as [| s l IH]; intros off nin ds x f C F LV HX; inversion F; subst; [cbn; eauto |].
  destruct C as [<- C]. match goal with H : shape_matches s _ |- _ => destruct H as (E1 & E2 & E3) end.
  cbn [mlp_size] in LV. cbn [ffn_forward mlp_out mlp]. destruct HX as [LX QX].
  destruct (linear_holds v off (s_in s) (s_out s) (s_bias s) x) as (z & EZ & HZ).
  { rewrite count_size, E1, E2. lia. } { exact LX. }
  rewrite EZ. cbn [bind]. rewrite skipn_add, count_size, E1, E2 in *.
  apply (act_apply _ (d_act y) _ _ _ E3) in HZ.
  destruct (IH (off + affine_size (s_in s) (d_size y) (d_bias y))%nat (d_size y) l' _ _ C ltac:(assumption) ltac:(lia) HZ) as (w & EW & HW).
  exists w. split; [exact EW |]. destruct HW as [LW QW]. split; [exact LW |]. intros j G. rewrite QW by exact G.
  apply mlp_ext; [| exact G]. intros i Gi. f_equal. apply affine_ext. exact QX.
Qed.

(* C199, C200: SNES, PGPE and CEM follow shifts and rescalings of the coordinates of the search space. *)
From Coq Require Import QArith Reals String Lra.
From Verif Require Import Prelude MatLib RankModel RankProofs CemModel DistModel DistSpec DistProofs ClipUpModel ClipUpProofs FuncModel SafModel.
Close Scope Q_scope.
Open Scope R_scope.

(* ---- spec ---- *)
(* the point x in the new coordinates: coordinate j is multiplied by k j and moved by b j *)
Definition rescaled (k b x : vect) : vect := fun j => k j * x j + b j.
Definition agree (n : nat) (x y : vect) : Prop := forall j, (j < n)%nat -> x j = y j.
(* the limits on the standard deviations, in the new coordinates; the limit on changes is relative *)
Definition rescaled_limits (k : vect) (L : limits) : limits :=
  Limits (option_map (fun v j => k j * v j) (l_min L)) (option_map (fun v j => k j * v j) (l_max L)) (l_change L).
Definition rescaled_state {O} (n : nat) (k b : vect) (g : R -> R) (related : O -> O -> Prop) (s s' : state O) : Prop :=
  agree n (s_mu _ s') (rescaled k b (s_mu _ s)) /\ agree n (s_sigma _ s') (fun j => k j * s_sigma _ s j) /\
  Forall2 (fun x x' => agree n x' (rescaled k b x)) (s_pop _ s) (s_pop _ s') /\ s_fits _ s' = map g (s_fits _ s) /\ related (s_opt _ s) (s_opt _ s').
(* an optimizer whose steps are rescaled if the gradients are *)
Definition equivariant {O} (n : nat) (k : vect) (related : O -> O -> Prop) (follow : O -> vect -> option (O * vect)) : Prop :=
  forall o o' g g', related o o' -> agree n g' (fun j => k j * g j) ->
  match follow o g, follow o' g' with
  | Some (o1, d), Some (o1', d') => related o1 o1' /\ agree n d' (fun j => k j * d j)
  | None, None => True
  | _, _ => False
  end.
(* the same problem in other coordinates: the new fitness function gives the moved point the fitness of the point, changed by g in a way which
   neither the ranking nor the choice of elites notices; the elites are members of the population *)
Definition same_problem (n : nat) (k b : vect) (g : R -> R) (weigh : list R -> list R) (elite : list R -> list nat) (f f' : vect -> R) : Prop :=
  (forall j, (j < n)%nat -> 0 < k j) /\ (forall x y, agree n x y -> f' x = f' y) /\ (forall x, f' (rescaled k b x) = g (f x)) /\
  (forall l, weigh (map g l) = weigh l) /\ (forall l, elite (map g l) = elite l) /\ (forall l i, In i (elite l) -> (i < length l)%nat).

(* ---- proofs ---- *)
Lemma mu_term w k b xs m : plain_mu w (map (fun x => k * x + b) xs) (k * m + b) = k * plain_mu w xs m.
Proof. unfold plain_mu. rewrite <- wsum_scale, !map_map. f_equal. apply map_ext. intros. ring. Qed.
Lemma sigma_term' k b x m sg : k <> 0 -> sg <> 0 ->
  ((k * x + b - (k * m + b)) * (k * x + b - (k * m + b)) - k * sg * (k * sg)) / (k * sg) = k * (((x - m) * (x - m) - sg * sg) / sg).
Proof. intros K N. field. auto. Qed.
Lemma plain_sigma_term w k b xs m sg : k <> 0 -> sg <> 0 -> plain_sigma w (map (fun x => k * x + b) xs) (k * m + b) (k * sg) = k * plain_sigma w xs m sg.
Proof. intros K N. unfold plain_sigma. rewrite <- wsum_scale, !map_map. f_equal. apply map_ext. intros x. apply sigma_term'; auto. Qed.
Lemma sym_mu_term w k b xs m : symmetric_mu w (map (fun x => k * x + b) xs) (k * m + b) = k * symmetric_mu w xs m.
Proof. unfold symmetric_mu. rewrite (evens_map _ _ xs (le_n _)), <- wsum_scale, !map_map. f_equal. apply map_ext. intros. ring. Qed.
Lemma sym_sigma_term w k b xs m sg : k <> 0 -> sg <> 0 -> symmetric_sigma w (map (fun x => k * x + b) xs) (k * m + b) (k * sg) = k * symmetric_sigma w xs m sg.
Proof. intros K N. unfold symmetric_sigma. rewrite (evens_map _ _ xs (le_n _)), <- wsum_scale, !map_map. f_equal. apply map_ext. intros x. apply sigma_term'; auto. Qed.
Lemma exp_sigma_term w k b xs m sg : k <> 0 -> sg <> 0 -> exp_sigma w (map (fun x => k * x + b) xs) (k * m + b) (k * sg) = exp_sigma w xs m sg.
Proof. intros K N. unfold exp_sigma. rewrite !map_map. f_equal. apply map_ext. intros x. field. auto. Qed.
Lemma rsum_affine k b xs : rsum (map (fun x => k * x + b) xs) = k * rsum xs + INR (length xs) * b.
Proof.
  induction xs as [|x xs IH]; [unfold rsum; cbn; ring|]. unfold rsum in *. cbn [map fold_right]. rewrite IH. change (length (x :: xs)) with (S (length xs)). rewrite S_INR. ring.
Qed.
Lemma rmean_affine k b xs : xs <> [] -> rmean (map (fun x => k * x + b) xs) = k * rmean xs + b.
Proof.
  intros N. unfold rmean. rewrite map_length, rsum_affine. assert (INR (length xs) <> 0) by (apply not_0_INR; destruct xs; [congruence|cbn; lia]). field. auto.
Qed.
Lemma cmean_affine k b xs : cmean (map (fun x => k * x + b) xs) = option_map (fun m => k * m + b) (cmean xs).
Proof. destruct xs as [|x xs]; [reflexivity|]. unfold cmean. cbn [map]. cbn [option_map]. f_equal. apply (rmean_affine k b (x :: xs)). discriminate. Qed.
Lemma cstd_affine k b xs : 0 < k -> cstd (map (fun x => k * x + b) xs) = option_map (Rmult k) (cstd xs).
Proof.
  intros K. destruct xs as [|x [|y xs]]; try reflexivity. unfold cstd. cbn [map]. cbn [option_map]. f_equal.
  change ((k * x + b) :: (k * y + b) :: map (fun x => k * x + b) xs) with (map (fun x => k * x + b) (x :: y :: xs)). set (l := x :: y :: xs).
  assert (N : l <> []) by discriminate. clearbody l. unfold rstd. rewrite map_length, (rmean_affine k b l N), map_map.
  assert (E : rsum (map (fun x => (k * x + b - (k * rmean l + b)) * (k * x + b - (k * rmean l + b))) l) = k * k * rsum (map (fun x => (x - rmean l) * (x - rmean l)) l)).
  { generalize (rmean l). intros m. clear N. induction l as [|a l IH]; unfold rsum in *; cbn [map fold_right]; [ring|]. rewrite IH. ring. }
  rewrite E. unfold Rdiv. rewrite Rmult_assoc. rewrite sqrt_mult_alt by nra. rewrite sqrt_square by lra. reflexivity.
Qed.
Lemma Rmin_scale k a b : 0 < k -> Rmin (k * a) (k * b) = k * Rmin a b.
Proof. intros K. unfold Rmin. destruct (Rle_dec (k * a) (k * b)), (Rle_dec a b); nra. Qed.
Lemma Rmax_scale k a b : 0 < k -> Rmax (k * a) (k * b) = k * Rmax a b.
Proof. intros K. unfold Rmax. destruct (Rle_dec (k * a) (k * b)), (Rle_dec a b); nra. Qed.
Lemma limit_scale k lo hi ch old t : 0 < k -> limit_one (option_map (Rmult k) lo) (option_map (Rmult k) hi) ch (k * old) (k * t) = k * limit_one lo hi ch old t.
Proof.
  intros K. unfold limit_one. assert (A : Rabs (k * old) = k * Rabs old) by (rewrite Rabs_mult, (Rabs_right k); lra).
  assert (E1 : forall c, k * old - Rabs (k * old) * c = k * (old - Rabs old * c)) by (intros; rewrite A; ring).
  assert (E2 : forall c, k * old + Rabs (k * old) * c = k * (old + Rabs old * c)) by (intros; rewrite A; ring).
  destruct lo, hi, ch; cbn [option_map]; rewrite ?E1, ?E2, ?Rmax_scale, ?Rmin_scale by auto; reflexivity.
Qed.
Lemma finite_scale n (c : vect) (v v' : nat -> option R) : (forall j, (j < n)%nat -> v' j = option_map (Rmult (c j)) (v j)) ->
  match finite n v, finite n v' with Some a, Some a' => agree n a' (fun j => c j * a j) | None, None => True | _, _ => False end.
Proof.
  intros H. unfold finite.
  assert (E : forallb (fun j => match v' j with Some _ => true | None => false end) (seq 0 n) = forallb (fun j => match v j with Some _ => true | None => false end) (seq 0 n)).
  { assert (Q : forall l, (forall j, In j l -> (j < n)%nat) -> forallb (fun j => match v' j with Some _ => true | None => false end) l = forallb (fun j => match v j with Some _ => true | None => false end) l).
    { induction l as [|j l IH]; intros I; cbn; auto. rewrite H by (apply I; left; auto). rewrite IH by (intros; apply I; right; auto). destruct (v j); reflexivity. }
    apply Q. intros j I. apply in_seq in I. lia. }
  rewrite E. clear E. destruct (forallb (fun j => match v j with Some _ => true | None => false end) (seq 0 n)) eqn:F; [|exact Logic.I]. rewrite forallb_forall in F. intros j Hj. rewrite H by auto. specialize (F j). destruct (v j); [reflexivity|]. discriminate F. apply in_seq. lia.
Qed.
Lemma coord_scale n k b pop pop' j : (j < n)%nat -> Forall2 (fun x x' => agree n x' (rescaled k b x)) pop pop' -> coord pop' j = map (fun x => k j * x + b j) (coord pop j).
Proof. intros Hj F. unfold coord. induction F as [|x x' l l' H F IH]; cbn; auto. rewrite IH, (H j Hj). reflexivity. Qed.
Lemma Forall2_nth_lt {X Y} (P : X -> Y -> Prop) dx dy l l' : Forall2 P l l' -> forall i, (i < length l)%nat -> P (nth i l dx) (nth i l' dy).
Proof. intros F. induction F; intros [|i] H1; cbn in *; try lia; auto. apply IHF. lia. Qed.

Section RUN.
Variables (n : nat) (ranking : string) (weigh : list R -> list R) (elite : list R -> list nat) (O : Type) (follow : O -> vect -> option (O * vect)).
Variables (K : kind) (stdev_lr : R) (k b : vect) (g : R -> R) (related : O -> O -> Prop).
Hypothesis Pos : forall j, (j < n)%nat -> 0 < k j.
Hypothesis Weigh : forall l, weigh (map g l) = weigh l.
Hypothesis Elite : forall l, elite (map g l) = elite l.
Hypothesis Range : forall l i, In i (elite l) -> (i < length l)%nat.
Hypothesis Eq : equivariant n k related follow.
Variables f f' : vect -> R.
Hypothesis Sees : forall x y, agree n x y -> f' x = f' y.
Hypothesis Moved : forall x, f' (rescaled k b x) = g (f x).
Notation rel := (rescaled_state n k b g related).

Lemma draw_scale mu mu' sg sg' zs : agree n mu' (rescaled k b mu) -> agree n sg' (fun j => k j * sg j) ->
  Forall2 (fun x x' => agree n x' (rescaled k b x)) (draw K mu sg zs) (draw K mu' sg' zs).
Proof.
  intros H1 H2. assert (P : forall z, agree n (fun j => mu' j + sg' j * z j) (rescaled k b (fun j => mu j + sg j * z j))) by (intros z j Hj; rewrite H1, H2 by auto; unfold rescaled; ring).
  assert (M : forall z, agree n (fun j => mu' j - sg' j * z j) (rescaled k b (fun j => mu j - sg j * z j))) by (intros z j Hj; rewrite H1, H2 by auto; unfold rescaled; ring).
  destruct K; cbn [draw]; induction zs as [|z zs IH]; cbn [map flat_map app]; repeat constructor; auto.
Qed.
Lemma fill_rel mu mu' sg sg' o o' zs : agree n mu' (rescaled k b mu) -> agree n sg' (fun j => k j * sg j) -> related o o' -> rel (fill O K f mu sg o zs) (fill O K f' mu' sg' o' zs).
Proof.
  intros H1 H2 H3. pose proof (draw_scale mu mu' sg sg' zs H1 H2) as D. unfold rescaled_state, fill. cbn [s_mu s_sigma s_opt s_pop s_fits].
  do 2 (split; [assumption|]). split; [exact D|]. split; [|assumption]. clear - D Sees Moved.
  induction D as [|x x' l l' H D IH]; cbn; auto. rewrite IH, <- Moved. f_equal. apply Sees. exact H.
Qed.
Lemma chosen_scale s s' : length (s_fits _ s) = length (s_pop _ s) -> rel s s' ->
  Forall2 (fun x x' => agree n x' (rescaled k b x)) (chosen elite O s) (chosen elite O s').
Proof.
  intros L (H1 & H2 & H3 & H4 & H5). unfold chosen. rewrite H4, Elite. assert (R : forall i, In i (elite (s_fits _ s)) -> (i < length (s_pop _ s))%nat) by (intros i I; rewrite <- L; apply Range; auto).
  induction (elite (s_fits _ s)) as [|i l IH]; cbn; constructor.
  - apply (Forall2_nth_lt (fun x x' => agree n x' (rescaled k b x))); auto. apply R. left; auto.
  - apply IH. intros; apply R; right; auto.
Qed.
Definition factor (k : R) : R := match K with Exponential => 1 | _ => k end.
Lemma mu_grad_scale s s' j : (j < n)%nat -> length (s_fits _ s) = length (s_pop _ s) -> rel s s' ->
  mu_grad ranking weigh elite O K s' j = option_map (Rmult (k j)) (mu_grad ranking weigh elite O K s j).
Proof.
  intros Hj L R. pose proof (chosen_scale s s' L R) as C. destruct R as (H1 & H2 & H3 & H4 & H5). unfold mu_grad. rewrite H4, Weigh, (H1 j Hj). cbv zeta.
  rewrite (coord_scale n k b _ _ j Hj H3). unfold rescaled. destruct K.
  - rewrite mu_term, divide_scale. destruct (divide_grad _ _ _); reflexivity.
  - rewrite sym_mu_term, divide_scale. destruct (divide_grad _ _ _); reflexivity.
  - destruct (exp_weights _ _) as [w|]; cbn; auto. f_equal. apply mu_term.
  - rewrite (coord_scale n k b _ _ j Hj C), cmean_affine. destruct (cmean _); cbn; auto. f_equal. ring.
Qed.
Lemma sigma_grad_scale s s' j : (j < n)%nat -> length (s_fits _ s) = length (s_pop _ s) -> rel s s' ->
  sigma_grad ranking weigh elite O K s' j = option_map (Rmult (factor (k j))) (sigma_grad ranking weigh elite O K s j).
Proof.
  intros Hj L R. pose proof (chosen_scale s s' L R) as C. destruct R as (H1 & H2 & H3 & H4 & H5). pose proof (Pos j Hj) as Kj. unfold sigma_grad. rewrite H4, Weigh, (H1 j Hj), (H2 j Hj). cbv zeta.
  rewrite (coord_scale n k b _ _ j Hj H3). unfold rescaled, nonzero, factor.
  assert (Z : (if Req_EM_T (k j * s_sigma _ s j) 0 then true else false) = if Req_EM_T (s_sigma _ s j) 0 then true else false).
  { destruct (Req_EM_T (k j * s_sigma _ s j) 0) as [A|A], (Req_EM_T (s_sigma _ s j) 0) as [B|B]; auto; [apply Rmult_integral in A; lra|rewrite B in A; lra]. }
  destruct K.
  1-3: destruct (Req_EM_T (k j * s_sigma _ s j) 0) as [A|A], (Req_EM_T (s_sigma _ s j) 0) as [B|B]; try discriminate Z; try reflexivity.
  - rewrite plain_sigma_term, divide_scale by lra. destruct (divide_grad _ _ _); reflexivity.
  - rewrite sym_sigma_term, divide_scale by lra. destruct (divide_grad _ _ _); reflexivity.
  - destruct (exp_weights _ _) as [w|]; cbn; auto. f_equal. rewrite exp_sigma_term by lra. ring.
  - rewrite (coord_scale n k b _ _ j Hj C), cstd_affine by auto. destruct (cstd _); cbn; auto. f_equal. ring.
Qed.
Lemma new_sigma_scale c s d : 0 < c -> new_sigma K (c * s) (stdev_lr * (factor c * d)) = c * new_sigma K s (stdev_lr * d).
Proof. intros C. unfold new_sigma, factor, exp_new_sigma, plain_new_sigma. destruct K; try ring. rewrite Rmult_1_l. ring. Qed.
Lemma fill_length mu sg o zs (h : vect -> R) : length (s_fits _ (fill O K h mu sg o zs)) = length (s_pop _ (fill O K h mu sg o zs)).
Proof. cbn. apply map_length. Qed.
Lemma step_rel (L : limits) s s' zs : length (s_fits _ s) = length (s_pop _ s) -> rel s s' ->
  match step n ranking weigh elite O follow K stdev_lr L f s zs, step n ranking weigh elite O follow K stdev_lr (rescaled_limits k L) f' s' zs with
  | Some r, Some r' => length (s_fits _ r) = length (s_pop _ r) /\ rel r r' | None, None => True | _, _ => False end.
Proof.
  intros Len R. unfold step.
  pose proof (finite_scale n k _ _ (fun j Hj => mu_grad_scale s s' j Hj Len R)) as F1.
  pose proof (finite_scale n (fun j => factor (k j)) _ _ (fun j Hj => sigma_grad_scale s s' j Hj Len R)) as F2.
  destruct (finite n (mu_grad ranking weigh elite O K s)) as [gm|], (finite n (mu_grad ranking weigh elite O K s')) as [gm'|]; try contradiction; auto.
  destruct (finite n (sigma_grad ranking weigh elite O K s)) as [gs|], (finite n (sigma_grad ranking weigh elite O K s')) as [gs'|]; try contradiction; auto.
  destruct R as (H1 & H2 & H3 & H4 & H5). pose proof (Eq _ _ gm gm' H5 F1) as E. destruct (follow (s_opt _ s) gm) as [[o1 d]|], (follow (s_opt _ s') gm') as [[o1' d']|]; try contradiction; auto.
  destruct E as [E1 E2]. split; [apply fill_length|]. apply fill_rel; auto.
  - intros j Hj. rewrite (H1 j Hj), (E2 j Hj). unfold rescaled. ring.
  - intros j Hj. rewrite (H2 j Hj), (F2 j Hj), new_sigma_scale by auto.
    assert (A : forall o : option vect, at_coord (option_map (fun v i => k i * v i) o) j = option_map (Rmult (k j)) (at_coord o j)) by (intros [v|]; reflexivity).
    unfold rescaled_limits. cbn [l_min l_max l_change]. rewrite !A. apply limit_scale. auto.
Qed.
Lemma steps_rel (L : limits) : forall draws s s', length (s_fits _ s) = length (s_pop _ s) -> rel s s' ->
  Forall2 rel (steps n ranking weigh elite O follow K stdev_lr L f s draws) (steps n ranking weigh elite O follow K stdev_lr (rescaled_limits k L) f' s' draws).
Proof.
  induction draws as [|zs draws IH]; intros s s' Len R; cbn [steps]; constructor; auto.
  pose proof (step_rel L s s' zs Len R) as S. destruct (step n ranking weigh elite O follow K stdev_lr L f s zs), (step n ranking weigh elite O follow K stdev_lr (rescaled_limits k L) f' s' zs); try contradiction; auto.
  apply IH; tauto.
Qed.
End RUN.

(* optimizers *)
Lemma rate_equivariant n k : equivariant n k eq follow_rate.
Proof. intros lr lr' g g' <- H. cbn. split; auto. intros j Hj. rewrite (H j Hj). ring. Qed.
Lemma list_of_agree n c g g' : agree n g' (fun j => c * g j) -> map g' (seq 0 n) = scale c (map g (seq 0 n)).
Proof. intros H. unfold scale. rewrite map_map. apply map_ext_in. intros j I. apply in_seq in I. apply H. lia. Qed.
Definition clipup_times (c : R) (o o' : clipup) : Prop :=
  stepsize o' = c * stepsize o /\ momentum o' = momentum o /\ max_speed o' = c * max_speed o /\ solution_length o' = solution_length o /\ velocity o' = vscale c (velocity o).
Lemma add_scale c x y : add (scale c x) (scale c y) = scale c (add x y).
Proof. revert y. induction x as [|a x IH]; intros [|d y]; cbn; auto. unfold add, scale in *. rewrite IH. f_equal. ring. Qed.
Lemma clip_scale c v m : 0 < c -> clip (vscale c v) (c * m) = vscale c (clip v m).
Proof.
  intros C. destruct v as [v|]; [|reflexivity]. cbn [vscale clip]. rewrite norm_scale by lra.
  destruct (Rlt_dec (c * m) (c * norm v)) as [A|A], (Rlt_dec m (norm v)) as [B|B]; try (exfalso; nra); [|reflexivity]. cbn [vscale]. f_equal. unfold scale. rewrite !map_map. apply map_ext_in. intros a Ha.
  destruct (Req_dec a 0) as [E|E]; [subst; ring|]. pose proof (norm_pos _ _ Ha E). field. lra.
Qed.
Lemma clipup_equivariant n c : 0 < c -> equivariant n (fun _ => c) (clipup_times c) (follow_clipup n).
Proof.
  intros C o o' g g' (H1 & H2 & H3 & H4 & H5) G. unfold follow_clipup. rewrite (list_of_agree _ _ _ _ G), ascent_scale by auto. unfold ascent. rewrite H1, H2, H3, H4, H5.
  destruct (Nat.eqb _ _); [|exact Logic.I]. cbv zeta. set (u := unit_of (map g (seq 0 n))).
  lazymatch goal with |- context [clip ?x (c * max_speed o)] => lazymatch goal with |- context [clip ?y (max_speed o)] =>
    assert (E : clip x (c * max_speed o) = vscale c (clip y (max_speed o))) end end.
  { rewrite <- clip_scale by auto. f_equal. destruct u as [u|], (velocity o) as [v|]; try reflexivity. cbn [vscale vadd]. f_equal. rewrite <- add_scale. f_equal.
    - rewrite !scale_scale. f_equal. ring.
    - unfold scale. rewrite map_map. apply map_ext. intros. ring. }
  rewrite E. clear E. set (r := clip _ _). destruct r as [w|] eqn:R; cbn [vscale]; [|exact Logic.I]. split.
  - unfold clipup_times. cbn. auto 10.
  - intros j Hj. unfold scale. rewrite <- (map_nth (fun a => c * a)). rewrite Rmult_0_r. reflexivity.
Qed.
(* lists of numbers that may be NaN *)
Definition nscale (c : R) : option R -> option R := option_map (Rmult c).
Definition nscaled (k : vect) (l l' : list (option R)) : Prop := length l' = length l /\ forall j, nth j l' None = nscale (k j) (nth j l None).
Lemma map2_len {X Y Z} (f : X -> Y -> Z) a b : length (map2 f a b) = Nat.min (length a) (length b).
Proof. revert b. induction a; intros [|y b]; cbn; auto. Qed.
Lemma nth_map2_none (f : option R -> option R -> option R) : f None None = None -> forall a b j, length a = length b -> nth j (map2 f a b) None = f (nth j a None) (nth j b None).
Proof. intros F. induction a as [|x a IH]; intros [|y b] j L; try discriminate; cbn [map2]; [destruct j; auto|]. destruct j; cbn; auto. Qed.
Lemma nscaled_map2 k (f : option R -> option R -> option R) a a' b b' : f None None = None -> (forall c x y, f (nscale c x) (nscale c y) = nscale c (f x y)) ->
  length a = length b -> nscaled k a a' -> nscaled k b b' -> nscaled k (map2 f a b) (map2 f a' b').
Proof.
  intros F S L [L1 H1] [L2 H2]. split; [rewrite !map2_len; congruence|]. intros j. rewrite !nth_map2_none by (auto; congruence). rewrite H1, H2. apply S.
Qed.
Lemma nscaled_zeros k m : nscaled k (repeat (Some 0) m) (repeat (Some 0) m).
Proof.
  split; auto. intros j. destruct (Nat.lt_ge_cases j m).
  - rewrite (nth_indep _ None (Some 0)), nth_repeat by (rewrite repeat_length; auto). cbn. rewrite Rmult_0_r. reflexivity.
  - rewrite nth_overflow by (rewrite repeat_length; auto). reflexivity.
Qed.
Lemma nscaled_list n k g g' : agree n g' (fun j => k j * g j) -> nscaled k (map (fun j => Some (g j)) (seq 0 n)) (map (fun j => Some (g' j)) (seq 0 n)).
Proof.
  intros H. split; [rewrite !map_length; auto|]. intros j. destruct (Nat.lt_ge_cases j n).
  - rewrite !(nth_indep (map _ _) None (Some 0)) by (rewrite map_length, seq_length; auto).
    rewrite (nth_indep _ _ (Some (g' 0%nat))) by (rewrite map_length, seq_length; auto). rewrite (map_nth (fun j => Some (g' j))).
    rewrite (nth_indep _ _ (Some (g 0%nat))) by (rewrite map_length, seq_length; auto). rewrite (map_nth (fun j => Some (g j))).
    rewrite seq_nth by auto. cbn. rewrite H by auto. reflexivity.
  - rewrite !nth_overflow by (rewrite map_length, seq_length; auto). reflexivity.
Qed.
Lemma nscaled_neg k l l' : nscaled k l l' -> nscaled k (map (fun x => nmul (Some (-1)) x) l) (map (fun x => nmul (Some (-1)) x) l').
Proof.
  intros [L H]. split; [rewrite !map_length; auto|]. intros j. change None with (nmul (Some (-1)) None) at 1 2. rewrite !(map_nth (fun x => nmul (Some (-1)) x)), H.
  destruct (nth j l None); cbn; auto. f_equal. ring.
Qed.
Ltac nring := intros; repeat match goal with x : option R |- _ => destruct x end; cbn; auto; f_equal; ring.
Definition sgd_times (k : vect) (s s' : tsgd) : Prop :=
  ts_lr s' = ts_lr s /\ ts_momentum s' = ts_momentum s /\ ts_dampening s' = ts_dampening s /\ ts_nesterov s' = ts_nesterov s /\ ts_n s' = ts_n s /\
  match ts_buf s, ts_buf s' with None, None => True | Some b, Some b' => length b = ts_n s /\ nscaled k b b' | _, _ => False end.
Lemma sgd_step_scale k s s' g g' n : sgd_times k s s' -> length g = ts_n s -> ts_n s = n -> nscaled k g g' ->
  sgd_times k (fst (tsgd_step s g (repeat (Some 0) n))) (fst (tsgd_step s' g' (repeat (Some 0) n))) /\ nscaled k (snd (tsgd_step s g (repeat (Some 0) n))) (snd (tsgd_step s' g' (repeat (Some 0) n))).
Proof.
  intros (H1 & H2 & H3 & H4 & H5 & H6) Lg N G. unfold tsgd_step. rewrite H1, H2, H3, H4. cbv zeta.
  assert (Mv : forall d d', length d = n -> nscaled k d d' -> nscaled k (map2 (fun p d => nsub p (nmul (Some (ts_lr s)) d)) (repeat (Some 0) n) d) (map2 (fun p d => nsub p (nmul (Some (ts_lr s)) d)) (repeat (Some 0) n) d')).
  { intros d d' Ld D. apply nscaled_map2; auto using nscaled_zeros; [nring|]. rewrite repeat_length. auto. }
  destruct (Req_EM_T (ts_momentum s) 0).
  { cbn [fst snd]. split; [unfold sgd_times; auto 10|]. apply Mv; auto. congruence. }
  set (B := match ts_buf s with None => g | Some b => _ end). set (B' := match ts_buf s' with None => g' | Some b => _ end).
  assert (BB : length B = n /\ nscaled k B B').
  { subst B B'. destruct (ts_buf s) as [b|], (ts_buf s') as [b'|]; try contradiction; [|split; auto; congruence]. destruct H6 as [Lb Hb].
    split; [rewrite map2_len; lia|]. apply nscaled_map2; auto; [nring|congruence]. }
  destruct BB as [LB BB]. cbn [fst snd]. split.
  - unfold sgd_times. cbn. repeat (split; [congruence|]). exact BB.
  - destruct (ts_nesterov s); [|apply Mv; auto]. apply Mv; [rewrite map2_len; lia|]. apply nscaled_map2; auto; [nring|congruence].
Qed.
Definition cell_times (c : R) (x : cell) : cell := mkCell (nscale c (c_m x)) (nscale (c * c) (c_v x)) (nscale (c * c) (c_max x)).
Definition adam_times (c : R) (a a' : tadam) : Prop :=
  ta_lr a' = c * ta_lr a /\ ta_beta1 a' = ta_beta1 a /\ ta_beta2 a' = ta_beta2 a /\ ta_eps a' = c * ta_eps a /\ ta_amsgrad a' = ta_amsgrad a /\ ta_t a' = ta_t a /\
  ta_cells a' = map (cell_times c) (ta_cells a).
Lemma nsqrt_scale c x : 0 < c -> nsqrt (nscale (c * c) x) = nscale c (nsqrt x).
Proof.
  intros C. destruct x as [x|]; [|reflexivity]. cbn. destruct (Rlt_dec (c * c * x) 0) as [A|A], (Rlt_dec x 0) as [B|B]; cbn; auto; [exfalso; assert (0 < c * c) by nra; nra|exfalso; assert (0 < c * c) by nra; nra|].
  rewrite sqrt_mult_alt, sqrt_square by nra. reflexivity.
Qed.
Lemma ndiv_both c x y : 0 < c -> ndiv (nscale c x) (nscale c y) = ndiv x y.
Proof. intros C. destruct x as [x|], y as [y|]; cbn; auto. destruct (Req_EM_T (c * y) 0) as [A|A], (Req_EM_T y 0) as [B|B]; auto; [apply Rmult_integral in A; lra|rewrite B in A; lra|]. f_equal. field. lra. Qed.
Lemma ndiv_left c x y : ndiv (nscale c x) y = nscale c (ndiv x y).
Proof. destruct x as [x|], y as [y|]; cbn; auto. destruct (Req_EM_T y 0); cbn; auto. f_equal. unfold Rdiv. ring. Qed.
Lemma nmul_left c x y : nmul (nscale c x) y = nscale c (nmul x y).
Proof. nring. Qed.
Lemma nadd_scale c x y : nadd (nscale c x) (nscale c y) = nscale c (nadd x y).
Proof. nring. Qed.
Lemma nmax_scale c x y : 0 < c -> nmax (nscale c x) (nscale c y) = nscale c (nmax x y).
Proof. intros C. destruct x, y; cbn; auto. f_equal. apply Rmax_scale. auto. Qed.
Lemma adam_cell_scale c a a' t x g : 0 < c -> adam_times c a a' ->
  tadam_cell a' t (cell_times c x) (nscale c g) (Some 0) = (cell_times c (fst (tadam_cell a t x g (Some 0))), nscale c (snd (tadam_cell a t x g (Some 0)))).
Proof.
  intros C (H1 & H2 & H3 & H4 & H5 & H6 & H7). unfold tadam_cell. rewrite H1, H2, H3, H4, H5. cbv zeta. cbn [fst snd]. cbn [cell_times c_m c_v c_max].
  assert (Em : nadd (nscale c (c_m x)) (nmul (Some (1 - ta_beta1 a)) (nsub (nscale c g) (nscale c (c_m x)))) = nscale c (nadd (c_m x) (nmul (Some (1 - ta_beta1 a)) (nsub g (c_m x))))).
  { destruct (c_m x), g; cbn; auto. f_equal. ring. }
  assert (Ev : nadd (nmul (Some (ta_beta2 a)) (nscale (c * c) (c_v x))) (nmul (Some (1 - ta_beta2 a)) (nmul (nscale c g) (nscale c g))) = nscale (c * c) (nadd (nmul (Some (ta_beta2 a)) (c_v x)) (nmul (Some (1 - ta_beta2 a)) (nmul g g)))).
  { destruct (c_v x), g; cbn; auto. f_equal. ring. }
  rewrite Em, Ev. set (m := nadd (c_m x) _). set (v := nadd (nmul (Some (ta_beta2 a)) (c_v x)) _). assert (CC : 0 < c * c) by nra. rewrite nmax_scale by auto.
  assert (Eq : forall q, nadd (ndiv (nsqrt (nscale (c * c) q)) (nsqrt (Some (1 - ta_beta2 a ^ t)))) (Some (c * ta_eps a)) = nscale c (nadd (ndiv (nsqrt q) (nsqrt (Some (1 - ta_beta2 a ^ t)))) (Some (ta_eps a)))).
  { intros q. rewrite nsqrt_scale, ndiv_left by auto. rewrite <- nadd_scale. reflexivity. }
  f_equal.
  - unfold cell_times. destruct (ta_amsgrad a); reflexivity.
  - replace (if ta_amsgrad a then nscale (c * c) (nmax (c_max x) v) else nscale (c * c) v) with (nscale (c * c) (if ta_amsgrad a then nmax (c_max x) v else v)) by (destruct (ta_amsgrad a); reflexivity).
    rewrite Eq, ndiv_both by auto. change (Some (c * ta_lr a)) with (nscale c (Some (ta_lr a))). rewrite ndiv_left, nmul_left.
    destruct (nmul (ndiv (Some (ta_lr a)) _) _); cbn; auto. f_equal. ring.
Qed.
Lemma adam_cells_scale c a a' t n : 0 < c -> adam_times c a a' -> forall cells g,
  map3 (tadam_cell a' t) (map (cell_times c) cells) (map (nscale c) g) (repeat (Some 0) n) = map (fun r => (cell_times c (fst r), nscale c (snd r))) (map3 (tadam_cell a t) cells g (repeat (Some 0) n)).
Proof.
  intros C A. induction n as [|n IH]; intros [|x cells] [|y g]; cbn [map map3 repeat]; auto. rewrite (adam_cell_scale c a a') by auto. rewrite IH. reflexivity.
Qed.
Lemma nscaled_map c l : nscaled (fun _ => c) l (map (nscale c) l).
Proof. split; [apply map_length|]. intros j. change None with (nscale c None) at 1. apply map_nth. Qed.
Definition torch_times (k : vect) (c : R) (w w' : wrapped) : Prop :=
  match w, w' with
  | WSgd s, WSgd s' => sgd_times k s s'
  | WAdam a, WAdam a' => (forall j, k j = c) /\ adam_times c a a'
  | _, _ => False
  end.
Lemma torch_equivariant n k c : (0 < c) -> equivariant n k (torch_times k c) (follow_torch n).
Proof.
  intros C w w' g g' H G. unfold follow_torch, torch_ascent. pose proof (nscaled_list n k g g' G) as GS. destruct w as [a|s], w' as [a'|s']; try contradiction; cbn [torch_times] in H.
  - destruct H as [Kc A]. pose proof A as (H1 & H2 & H3 & H4 & H5 & H6 & H7). cbn [wrapped_length wrapped_step]. rewrite H7, !map_length, !seq_length.
    destruct (Nat.eqb n (length (ta_cells a))) eqn:En; cbn [negb]; [|exact Logic.I]. apply Nat.eqb_eq in En. rewrite <- En. cbn [fst snd].
    assert (GE : map (fun j => Some (g' j)) (seq 0 n) = map (nscale c) (map (fun j => Some (g j)) (seq 0 n))).
    { rewrite map_map. apply map_ext_in. intros j I. apply in_seq in I. cbn. rewrite G, Kc by lia. reflexivity. }
    rewrite GE. unfold tadam_step. cbv zeta. rewrite H6, H7, (adam_cells_scale c a a') by auto. set (r := map3 _ _ _ _). cbn [fst snd].
    assert (NS : nscaled k (map (fun x => nmul (Some (-1)) x) (map snd r)) (map (fun x => nmul (Some (-1)) x) (map snd (map (fun r => (cell_times c (fst r), nscale c (snd r))) r)))).
    { apply nscaled_neg. rewrite map_map. cbn [snd]. rewrite <- (map_map snd (nscale c)). destruct (nscaled_map c (map snd r)) as [L' N']. split; [exact L'|]. intros j. rewrite N', Kc. reflexivity. }
    pose proof (finite_scale n k (fun j => nth j (map (fun x => nmul (Some (-1)) x) (map snd r)) None) (fun j => nth j (map (fun x => nmul (Some (-1)) x) (map snd (map (fun r => (cell_times c (fst r), nscale c (snd r))) r))) None) (fun j _ => proj2 NS j)) as F.
    destruct (finite n _) as [v|], (finite n _) as [v'|]; try contradiction; cbn [option_map]; auto. split; [|exact F]. cbn [torch_times]. split; auto. unfold adam_times. cbn. rewrite !map_map. cbn. auto 10.
  - pose proof H as (H1 & H2 & H3 & H4 & H5 & H6). cbn [wrapped_length wrapped_step]. rewrite !map_length, !seq_length, H5.
    destruct (Nat.eqb n (ts_n s)) eqn:En; cbn [negb]; [|exact Logic.I]. apply Nat.eqb_eq in En. rewrite <- En. cbn [fst snd].
    destruct (sgd_step_scale k s s' (map (fun j => Some (g j)) (seq 0 n)) (map (fun j => Some (g' j)) (seq 0 n)) n H) as [S1 S2]; auto; [rewrite map_length, seq_length; auto|].
    pose proof (finite_scale n k (fun j => nth j (map (fun x => nmul (Some (-1)) x) (snd (tsgd_step s (map (fun j => Some (g j)) (seq 0 n)) (repeat (Some 0) n)))) None)
      (fun j => nth j (map (fun x => nmul (Some (-1)) x) (snd (tsgd_step s' (map (fun j => Some (g' j)) (seq 0 n)) (repeat (Some 0) n)))) None) (fun j _ => proj2 (nscaled_neg _ _ _ S2) j)) as F.
    destruct (finite n _) as [v|], (finite n _) as [v'|]; try contradiction; cbn [option_map]; auto.
Qed.
Lemma map_repeat {X Y} (h : X -> Y) x m : map h (repeat x m) = repeat (h x) m.
Proof. induction m; cbn; congruence. Qed.
Lemma Forall2_weaken {X Y} (P Q : X -> Y -> Prop) l l' : (forall x y, P x y -> Q x y) -> Forall2 P l l' -> Forall2 Q l l'.
Proof. intros I F. induction F; constructor; auto. Qed.
Lemma search_rel n ranking weigh elite O (follow : O -> vect -> option (O * vect)) K stdev_lr L k b g related f f' mu mu' sg sg' o o' zs draws :
  same_problem n k b g weigh elite f f' -> equivariant n k related follow -> agree n mu' (rescaled k b mu) -> agree n sg' (fun j => k j * sg j) -> related o o' ->
  Forall2 (rescaled_state n k b g related) (search n ranking weigh elite O follow K stdev_lr L f mu sg o zs draws)
    (search n ranking weigh elite O follow K stdev_lr (rescaled_limits k L) f' mu' sg' o' zs draws).
Proof.
  intros (P & S & M & W & El & R) E H1 H2 H3. unfold search. apply steps_rel; auto; [cbn; apply map_length|]. apply fill_rel; auto.
Qed.
Lemma sgd_fresh n k lr mom damp nest w : sgd_class n lr mom damp nest = Ok w -> torch_times k 1 w w.
Proof.
  unfold sgd_class, tsgd_init. cbv zeta. repeat match goal with |- context [if ?x then _ else _] => destruct x end; try discriminate; cbn; intros E; injection E as <-; cbn; unfold sgd_times; cbn; auto 10.
Qed.
Lemma clipup_fresh n c step mom speed o o' : clipup_init n step mom speed = Ok o -> clipup_init n (c * step) mom (option_map (Rmult c) speed) = Ok o' -> clipup_times c o o'.
Proof.
  unfold clipup_init. cbv zeta. intros H1 H2. repeat match goal with H : context [if ?x then _ else _] |- _ => destruct x end; try discriminate; injection H1 as <-; injection H2 as <-;
    unfold clipup_times; cbn; destruct speed; cbn; repeat split; auto; try ring; unfold scale; rewrite map_repeat, Rmult_0_r; reflexivity.
Qed.
Lemma adam_fresh n c lr b1 b2 eps ams w w' : adam_class n (Some lr) b1 b2 (Some eps) ams = Ok w -> adam_class n (Some (c * lr)) b1 b2 (Some (c * eps)) ams = Ok w' ->
  torch_times (fun _ => c) c w w'.
Proof.
  unfold adam_class, tadam_init. cbv zeta. intros H1 H2.
  assert (Z : map (cell_times c) (repeat (mkCell (Some 0) (Some 0) (Some 0)) n) = repeat (mkCell (Some 0) (Some 0) (Some 0)) n) by (rewrite map_repeat; unfold cell_times; cbn; rewrite !Rmult_0_r; reflexivity).
  destruct b1, b2; try discriminate; cbn in H1, H2;
  repeat match goal with H : context [if ?x then _ else _] |- _ => destruct x end; try discriminate; cbn in H1, H2; injection H1 as <-; injection H2 as <-;
    cbn; unfold adam_times; cbn; rewrite Z; auto 10.
Qed.

(* ---- theorems ---- *)
(* Every coordinate has a unit of its own: SNES, PGPE and CEM with a learning rate for the center. *)
Theorem C199_units : forall n ranking weigh elite K center_lr stdev_lr L k b g f f' mu mu' sigma sigma' zs draws,
  same_problem n k b g weigh elite f f' -> agree n mu' (rescaled k b mu) -> agree n sigma' (fun j => k j * sigma j) ->
  Forall2 (rescaled_state n k b g eq) (search n ranking weigh elite R follow_rate K stdev_lr L f mu sigma center_lr zs draws)
    (search n ranking weigh elite R follow_rate K stdev_lr (rescaled_limits k L) f' mu' sigma' center_lr zs draws).
Proof. intros. apply search_rel; auto. apply rate_equivariant. Qed.
(* The same with SGD, with or without (Nesterov) momentum. *)
Theorem C199_units_sgd : forall n ranking weigh elite K lr momentum dampening nesterov w stdev_lr L k b g f f' mu mu' sigma sigma' zs draws,
  same_problem n k b g weigh elite f f' -> agree n mu' (rescaled k b mu) -> agree n sigma' (fun j => k j * sigma j) ->
  sgd_class n lr momentum dampening nesterov = Ok w ->
  Forall2 (rescaled_state n k b g (fun _ _ => True)) (search n ranking weigh elite wrapped (follow_torch n) K stdev_lr L f mu sigma w zs draws)
    (search n ranking weigh elite wrapped (follow_torch n) K stdev_lr (rescaled_limits k L) f' mu' sigma' w zs draws).
Proof.
  intros n r we el K lr mo da ne w sl L k b g f f' mu mu' sg sg' zs draws S H1 H2 W.
  eapply Forall2_weaken; [|apply (search_rel n r we el wrapped (follow_torch n) K sl L k b g (torch_times k 1)); eauto using sgd_fresh; apply torch_equivariant; lra].
  unfold rescaled_state. tauto.
Qed.
(* ClipUp: one unit for all coordinates, in which the stepsize and the maximum speed are given too. *)
Theorem C200_unit_clipup : forall n ranking weigh elite K step momentum speed o o' stdev_lr L c b g f f' mu mu' sigma sigma' zs draws,
  0 < c -> same_problem n (fun _ => c) b g weigh elite f f' -> agree n mu' (rescaled (fun _ => c) b mu) -> agree n sigma' (fun j => c * sigma j) ->
  clipup_init n step momentum speed = Ok o -> clipup_init n (c * step) momentum (option_map (Rmult c) speed) = Ok o' ->
  Forall2 (rescaled_state n (fun _ => c) b g (fun _ _ => True)) (search n ranking weigh elite clipup (follow_clipup n) K stdev_lr L f mu sigma o zs draws)
    (search n ranking weigh elite clipup (follow_clipup n) K stdev_lr (rescaled_limits (fun _ => c) L) f' mu' sigma' o' zs draws).
Proof.
  intros n r we el K st mo sp o o' sl L c b g f f' mu mu' sg sg' zs draws C S H1 H2 O O'.
  eapply Forall2_weaken; [|apply (search_rel n r we el clipup (follow_clipup n) K sl L (fun _ => c) b g (clipup_times c)); eauto using clipup_fresh; apply clipup_equivariant; auto].
  unfold rescaled_state. tauto.
Qed.
(* Adam: the learning rate and epsilon are in that unit. *)
Theorem C200_unit_adam : forall n ranking weigh elite K lr beta1 beta2 eps amsgrad o o' stdev_lr L c b g f f' mu mu' sigma sigma' zs draws,
  0 < c -> same_problem n (fun _ => c) b g weigh elite f f' -> agree n mu' (rescaled (fun _ => c) b mu) -> agree n sigma' (fun j => c * sigma j) ->
  adam_class n (Some lr) beta1 beta2 (Some eps) amsgrad = Ok o -> adam_class n (Some (c * lr)) beta1 beta2 (Some (c * eps)) amsgrad = Ok o' ->
  Forall2 (rescaled_state n (fun _ => c) b g (fun _ _ => True)) (search n ranking weigh elite wrapped (follow_torch n) K stdev_lr L f mu sigma o zs draws)
    (search n ranking weigh elite wrapped (follow_torch n) K stdev_lr (rescaled_limits (fun _ => c) L) f' mu' sigma' o' zs draws).
Proof.
  intros n r we el K lr b1 b2 ep am o o' sl L c b g f f' mu mu' sg sg' zs draws C S H1 H2 O O'.
  eapply Forall2_weaken; [|apply (search_rel n r we el wrapped (follow_torch n) K sl L (fun _ => c) b g (torch_times (fun _ => c) c)); eauto using adam_fresh; apply torch_equivariant; auto].
  unfold rescaled_state. tauto.
Qed.
Print Assumptions C199_units.
Print Assumptions C199_units_sgd.
Print Assumptions C200_unit_clipup.
Print Assumptions C200_unit_adam.

(* ranks by counting, the best member as the only elite, exp of the fitness *)
Definition ex_weigh (l : list R) : list R := map (fun x => rsum (map (fun y => if Rlt_dec y x then 1 else 0) l)) l.
Definition ex_elite (l : list R) : list nat := filter (fun i => forallb (fun y => if Rlt_dec (nth i l 0) y then false else true) l) (seq 0 (length l)).
Definition ex_k (j : nat) : R := match j with 0%nat => 2 | _ => 1 / 3 end.
Definition ex_f (x : vect) : R := x 0%nat * x 0%nat + x 1%nat.
Definition ex_f' (y : vect) : R := exp ((y 0%nat - 5) / 2 * ((y 0%nat - 5) / 2) + 3 * (y 1%nat - 5)).
Lemma exp_lt_same x y : (if Rlt_dec (exp x) (exp y) then true else false) = if Rlt_dec x y then true else false.
Proof. destruct (Rlt_dec (exp x) (exp y)) as [A|A], (Rlt_dec x y) as [B|B]; auto; exfalso; [apply exp_lt_inv in A; lra|apply A, exp_increasing, B]. Qed.
Example C199_example : same_problem 2 ex_k (fun _ => 5) exp ex_weigh ex_elite ex_f ex_f' /\ (exists w, sgd_class 2 1 (Some (1 / 2)) None (Some true) = Ok w).
Proof.
  split.
  - unfold same_problem. split; [|split; [|split; [|split; [|split]]]].
    + intros [|j] _; cbn; lra.
    + intros x y H. unfold ex_f'. rewrite (H 0%nat), (H 1%nat) by lia. reflexivity.
    + intros x. unfold ex_f', ex_f, rescaled, ex_k. f_equal. field.
    + intros l. unfold ex_weigh. rewrite map_map. apply map_ext. intros x. f_equal. rewrite map_map. apply map_ext. intros y. pose proof (exp_lt_same y x) as E. destruct (Rlt_dec (exp y) (exp x)), (Rlt_dec y x); auto; discriminate.
    + intros l. unfold ex_elite. rewrite map_length. apply filter_ext_in. intros i I. apply in_seq in I.
      assert (N : nth i (map exp l) 0 = exp (nth i l 0)) by (rewrite (nth_indep _ _ (exp 0)) by (rewrite map_length; lia); apply map_nth). rewrite N.
      generalize (nth i l 0). intros a. clear. induction l as [|y l IH]; cbn; auto. rewrite IH. pose proof (exp_lt_same a y) as E. destruct (Rlt_dec (exp a) (exp y)), (Rlt_dec a y); auto; discriminate.
    + intros l i I. unfold ex_elite in I. apply filter_In in I. destruct I as [I _]. apply in_seq in I. lia.
  - unfold sgd_class, tsgd_init. cbv zeta. destruct (Rlt_dec 1 0); [lra|]. destruct (Rlt_dec (1 / 2) 0); [lra|]. destruct (Rlt_dec 0 (1 / 2)); [|lra]. destruct (Req_EM_T 0 0); [|lra]. cbn. eexists. reflexivity.
Qed.
Example C200_example : same_problem 2 (fun _ => 3) (fun _ => 5) (fun r => r) ex_weigh ex_elite ex_f (fun y => ex_f (fun j => (y j - 5) / 3)) /\ (exists o o', clipup_init 2 1 (9 / 10) None = Ok o /\ clipup_init 2 (3 * 1) (9 / 10) None = Ok o') /\
  (exists o o', adam_class 2 (Some 1) None None (Some 1) None = Ok o /\ adam_class 2 (Some (3 * 1)) None None (Some (3 * 1)) None = Ok o').
Proof.
  split.
  { unfold same_problem. split; [|split; [|split; [|split; [|split]]]]; try (intros l; rewrite map_id; reflexivity); [intros; lra| | |apply C199_example].
    - intros x y H. unfold ex_f. rewrite (H 0%nat), (H 1%nat) by lia. reflexivity.
    - intros x. unfold ex_f, rescaled. field. }
  unfold clipup_init, adam_class, tadam_init, in_unit. cbn. split; eexists; eexists.
  - split; repeat match goal with |- context [Rlt_dec ?a ?b] => destruct (Rlt_dec a b); [exfalso; lra|] end; reflexivity.
  - split; repeat match goal with |- context [Rlt_dec ?a ?b] => destruct (Rlt_dec a b); try (exfalso; lra) end; reflexivity.
Qed.

(* C23 for the whole runs of this model: the standard deviations stay within their limits, change by at most the allowed fraction, and are
   those which the distribution asked for whenever these are allowed *)
Definition within (L : limits) (j : nat) (v : R) : Prop := (forall m, l_min L = Some m -> m j <= v) /\ (forall m, l_max L = Some m -> v <= m j).
Definition changes_little (L : limits) (j : nat) (old v : R) : Prop := forall c, l_change L = Some c -> Rabs (v - old) <= Rabs old * c j.
Lemma limit_one_ok L j old t : (forall c, l_change L = Some c -> 0 <= c j) -> within L j old ->
  let v := limit_one (at_coord (l_min L) j) (at_coord (l_max L) j) (at_coord (l_change L) j) old t in
  within L j v /\ changes_little L j old v /\ forall w, within L j w -> changes_little L j old w -> Rabs (v - t) <= Rabs (w - t).
Proof.
  intros C W. destruct L as [lo hi ch]. unfold within, changes_little in *. cbn in *. destruct W as [W1 W2].
  assert (P : forall c, ch = Some c -> 0 <= Rabs old * c j) by (intros c E; pose proof (Rabs_pos old); pose proof (C c E); nra).
  unfold limit_one, at_coord. destruct ch as [c|], lo as [l|], hi as [h|]; cbn in *; try pose proof (P _ eq_refl) as HP; try pose proof (W1 _ eq_refl) as HL; try pose proof (W2 _ eq_refl) as HH; clear P W1 W2.
  all: split; [split; intros m E; try discriminate E; apply (f_equal (fun o => match o with Some f => f j | None => 0 end)) in E; rewrite <- E; clear E|split; [intros d E; try discriminate E; apply (f_equal (fun o => match o with Some f => f j | None => 0 end)) in E; rewrite <- E; clear E; apply Rabs_le|intros w [V1 V2] V3; try pose proof (V1 _ eq_refl) as H1; try pose proof (V2 _ eq_refl) as H2; try pose proof (V3 _ eq_refl) as H3; clear V1 V2 V3]].
  all: try match goal with H : Rabs (?w - ?o) <= ?b |- _ => assert (- b <= w - o <= b) by (revert H; unfold Rabs at 1; destruct (Rcase_abs (w - o)); lra); clear H end.
  all: repeat match goal with |- context [Rabs ?o * ?c] => generalize dependent (Rabs o * c); intros end.
  all: try (unfold Rmin, Rmax; repeat match goal with |- context [Rle_dec ?a ?b] => lazymatch a with context [Rle_dec _ _] => fail | _ => lazymatch b with context [Rle_dec _ _] => fail | _ => destruct (Rle_dec a b) end end end; try lra; apply Rabs_le; unfold Rabs; repeat match goal with |- context [Rcase_abs ?a] => destruct (Rcase_abs a) end; lra).
Qed.

Section SearchLimits.
Variables (n : nat) (ranking : string) (weigh : list R -> list R) (elite : list R -> list nat) (O : Type) (follow : O -> vect -> option (O * vect)).
Variables (K : kind) (stdev_lr : R) (L : limits) (f : vect -> R).
Definition step_ok (st st' : state O) : Prop := exists gs, finite n (sigma_grad ranking weigh elite O K st) = Some gs /\
  forall j, changes_little L j (s_sigma _ st j) (s_sigma _ st' j) /\
    forall w, within L j w -> changes_little L j (s_sigma _ st j) w ->
      Rabs (s_sigma _ st' j - new_sigma K (s_sigma _ st j) (stdev_lr * gs j)) <= Rabs (w - new_sigma K (s_sigma _ st j) (stdev_lr * gs j)).
Lemma steps_limits : (forall j c, l_change L = Some c -> 0 <= c j) -> forall draws st, (forall j, within L j (s_sigma _ st j)) ->
  (forall s j, In s (steps n ranking weigh elite O follow K stdev_lr L f st draws) -> within L j (s_sigma _ s j)) /\
  (forall t s s', nth_error (steps n ranking weigh elite O follow K stdev_lr L f st draws) t = Some s ->
     nth_error (steps n ranking weigh elite O follow K stdev_lr L f st draws) (S t) = Some s' -> step_ok s s').
Proof.
  intros C. induction draws as [|zs draws IH]; intros st W.
  - cbn. split; [intros s j [<-|[]]; auto|]. intros [|t] s s' E E'; cbn in E'; [discriminate|destruct t; discriminate].
  - cbn [steps]. destruct (step n ranking weigh elite O follow K stdev_lr L f st zs) as [st1|] eqn:S.
    2:{ split; [intros s j [<-|[]]; auto|]. intros [|t] s s' E E'; cbn in E'; [discriminate|destruct t; discriminate]. }
    assert (G : (forall j, within L j (s_sigma _ st1 j)) /\ step_ok st st1).
    { unfold step in S. destruct (finite n (mu_grad _ _ _ _ _ st)) as [gm|]; [|discriminate]. destruct (finite n (sigma_grad _ _ _ _ _ st)) as [gs|] eqn:EG; [|discriminate].
      destruct (follow (s_opt _ st) gm) as [[o d]|]; [|discriminate]. injection S as <-. cbn.
      split; [intros j; apply limit_one_ok; auto|]. exists gs. split; auto. intros j. cbn. apply limit_one_ok; auto. }
    destruct G as [G1 G2]. destruct (IH st1 G1) as [I1 I2]. split.
    + intros s j [<-|H]; auto.
    + intros [|t] s s' E E'; cbn [nth_error] in E, E'; [|eapply I2; eauto].
      injection E as <-. destruct draws; cbn in E'; injection E' as <-; auto.
Qed.
Theorem C23_search : forall mu sigma o zs draws, (forall j c, l_change L = Some c -> 0 <= c j) -> (forall j, within L j (sigma j)) ->
  let run := search n ranking weigh elite O follow K stdev_lr L f mu sigma o zs draws in
  (forall s j, In s run -> within L j (s_sigma _ s j)) /\
  (forall t s s', nth_error run t = Some s -> nth_error run (S t) = Some s' -> step_ok s s').
Proof. intros mu sigma o zs draws C W. apply steps_limits; auto. Qed.
End SearchLimits.
Print Assumptions C23_search.
Example C23_search_example : let L := Limits (Some (fun _ => 1)) (Some (fun _ => 3)) (Some (fun _ => 1 / 2)) in (forall j c, l_change L = Some c -> 0 <= c j) /\ (forall j, within L j 2).
Proof. cbn. split; [intros j c E; injection E as <-; lra|]. intros j. split; cbn; intros m E; injection E as <-; lra. Qed.

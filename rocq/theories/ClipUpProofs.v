From Coq Require Import Reals String Lra.
From Verif Require Import Prelude ClipUpModel ClipUpSpec.
Open Scope R_scope.

Lemma sumsq_nonneg x : 0 <= sumsq x.
Proof. induction x as [|a x IH]; unfold sumsq in *; cbn [fold_right]; [lra|]. pose proof (Rle_0_sqr a). unfold Rsqr in *. lra. Qed.
Lemma sumsq_pos x a : In a x -> a <> 0 -> 0 < sumsq x.
Proof.
  induction x as [|b x IH]; intros Hi Ha; [contradiction|]. unfold sumsq in *. cbn [fold_right].
  pose proof (sumsq_nonneg x) as N. unfold sumsq in N. destruct Hi as [->|Hi].
  - pose proof (Rsqr_pos_lt a Ha). unfold Rsqr in *. lra.
  - specialize (IH Hi Ha). pose proof (Rle_0_sqr b). unfold Rsqr in *. lra.
Qed.
Lemma sumsq_zero x : Forall (fun a => a = 0) x -> sumsq x = 0.
Proof. induction 1 as [|a x Ha _ IH]; unfold sumsq in *; cbn [fold_right]; [auto|]. rewrite IH, Ha. ring. Qed.
Lemma norm_nonneg x : 0 <= norm x. Proof. apply sqrt_pos. Qed.
Lemma norm_sq x : norm x * norm x = sumsq x. Proof. apply sqrt_sqrt, sumsq_nonneg. Qed.
Lemma norm_pos x a : In a x -> a <> 0 -> 0 < norm x.
Proof. intros. apply sqrt_lt_R0. eapply sumsq_pos; eauto. Qed.
Lemma norm_zero x : Forall (fun a => a = 0) x -> norm x = 0.
Proof. intros. unfold norm. rewrite sumsq_zero; auto. apply sqrt_0. Qed.
Lemma sumsq_map k (f : R -> R) x : (forall a, f a = k * a) -> sumsq (map f x) = k * k * sumsq x.
Proof. intros H. induction x as [|a x IH]; unfold sumsq in *; cbn [fold_right map]; [ring|]. rewrite IH, H. ring. Qed.
Lemma sumsq_scale k x : sumsq (scale k x) = k * k * sumsq x.
Proof. apply sumsq_map. auto. Qed.
Lemma norm_scale k x : 0 <= k -> norm (scale k x) = k * norm x.
Proof.
  intros H. unfold norm. rewrite sumsq_scale, sqrt_mult by (auto using sumsq_nonneg; apply Rle_0_sqr).
  f_equal. apply sqrt_square. auto.
Qed.
Lemma norm_le x m : 0 <= m -> norm x <= m -> at_most_long x m.
Proof.
  intros Hm H. split; auto. change (sumsq x <= m * m). rewrite <- norm_sq.
  apply Rmult_le_compat; auto using norm_nonneg.
Qed.
Lemma le_norm x m : at_most_long x m -> norm x <= m.
Proof.
  intros [Hm H]. change (sumsq x <= m * m) in H. unfold norm. rewrite <- (sqrt_square m) by auto. apply sqrt_le_1; auto using sumsq_nonneg.
  apply Rle_0_sqr.
Qed.

Lemma unit_of_gradient n g : gradient n g -> 0 < norm g /\ unit_of g = Some (scale (/ norm g) g) /\ length (scale (/ norm g) g) = n.
Proof.
  intros [L (a & Ha & N)]. pose proof (norm_pos _ _ Ha N) as P. split; auto.
  unfold unit_of. destruct (Req_EM_T (norm g) 0); [lra|]. split; [|unfold scale; rewrite map_length; auto].
  f_equal. unfold scale. apply map_ext. intros. unfold Rdiv. ring.
Qed.
Lemma unit_of_zero g : Forall (fun a => a = 0) g -> unit_of g = None.
Proof. intros H. unfold unit_of. rewrite norm_zero by auto. destruct (Req_EM_T 0 0); auto. congruence. Qed.

Lemma add_length x y : length x = length y -> length (add x y) = length x.
Proof. intros. unfold add. rewrite map2_length. lia. Qed.
Lemma scale_length k x : length (scale k x) = length x. Proof. apply map_length. Qed.
Lemma scale_scale a b x : scale a (scale b x) = scale (a * b) x.
Proof. unfold scale. rewrite map_map. apply map_ext. intros. ring. Qed.
Lemma scale_div m k x : scale m (map (fun a => a / k) x) = scale (m / k) x.
Proof. unfold scale. rewrite map_map. apply map_ext. intros. unfold Rdiv. ring. Qed.

(* the velocity before clipping *)
Definition raw (mom step : R) (v g : list R) : list R := add (scale mom v) (scale (step / norm g) g).
Lemma raw_length mom step v g : length v = length g -> length (raw mom step v g) = length g.
Proof. intros. unfold raw. rewrite add_length; rewrite !scale_length; auto. Qed.

Definition clipped (x : list R) (limit : R) : list R :=
  if Rlt_dec limit (norm x) then scale (limit / norm x) x else x.
Lemma clip_some x limit : clip (Some x) limit = Some (clipped x limit).
Proof.
  unfold clip, clipped. destruct (Rlt_dec limit (norm x)); auto. f_equal. unfold scale. apply map_ext. intros. ring.
Qed.
Lemma clipped_length x m : length (clipped x m) = length x.
Proof. unfold clipped. destruct (Rlt_dec _ _); auto. apply scale_length. Qed.
Lemma clipped_norm x m : 0 <= m -> norm (clipped x m) <= m /\ (m <= norm x -> norm (clipped x m) = m).
Proof.
  intros Hm. unfold clipped. destruct (Rlt_dec m (norm x)) as [L|L]; [|lra].
  assert (P : 0 < norm x) by lra. rewrite norm_scale.
  - replace (m / norm x * norm x) with m by (field; lra). lra.
  - apply Rmult_le_pos; auto. left. apply Rinv_0_lt_compat; auto.
Qed.

Lemma ascent_eq c v g : velocity c = Some v -> gradient (solution_length c) g ->
  ascent c g = Ok ({| stepsize := stepsize c; momentum := momentum c; max_speed := max_speed c;
                     solution_length := solution_length c;
                     velocity := Some (clipped (raw (momentum c) (stepsize c) v g) (max_speed c)) |},
                   Some (clipped (raw (momentum c) (stepsize c) v g) (max_speed c))).
Proof.
  intros V G. destruct (unit_of_gradient _ _ G) as (P & U & L). unfold ascent.
  destruct G as [Lg _]. rewrite Lg, Nat.eqb_refl, U, V. cbn [vscale vadd]. cbv zeta.
  rewrite clip_some. unfold raw.
  replace (map (fun a => a * stepsize c) (scale (/ norm g) g)) with (scale (stepsize c / norm g) g); auto.
  unfold scale. rewrite map_map. apply map_ext. intros. field. lra.
Qed.
Lemma ftell_eq s v g : fvelocity s = Some v -> gradient (length v) g ->
  fvelocity (fclipup_tell s g) = Some (clipped (raw (fmomentum s) (flr s) v g) (fmax_speed s)).
Proof.
  intros V G. destruct (unit_of_gradient _ _ G) as (P & U & L). unfold fclipup_tell. cbn [fvelocity].
  rewrite V, U. cbn [vscale vadd]. rewrite scale_scale. fold (flr s / norm g). fold (raw (fmomentum s) (flr s) v g). unfold clipped.
  destruct (Rlt_dec _ _); auto. f_equal. apply scale_div.
Qed.

(* the parameters remain legal and the velocity remains a vector *)
Definition inv (n : nat) (c : clipup) : Prop :=
  solution_length c = n /\ 0 <= stepsize c /\ 0 <= max_speed c /\ 0 <= momentum c <= 1 /\
  exists v, velocity c = Some v /\ length v = n.

Lemma init_inv n step mom speed c : clipup_init n step mom speed = Ok c -> inv n c.
Proof.
  unfold clipup_init. cbv zeta. repeat (destruct (Rlt_dec _ _); [discriminate|]).
  intros X; inversion X; subst; clear X. unfold inv; cbn. repeat split; try lra.
  exists (repeat 0 n). split; auto. apply repeat_length.
Qed.
Lemma ascent_ok n c g : inv n c -> gradient n g ->
  exists c' v, ascent c g = Ok (c', Some v) /\ inv n c' /\ velocity c' = Some v /\ at_most_long v (max_speed c') /\
    stepsize c' = stepsize c /\ momentum c' = momentum c /\ max_speed c' = max_speed c.
Proof.
  intros (N & S0 & M0 & Mo & v & V & L) G. subst n. rewrite (ascent_eq c v g V G). eexists _, _; split; [reflexivity|].
  destruct (clipped_norm (raw (momentum c) (stepsize c) v g) (max_speed c) M0) as [B _].
  split; [|cbn; repeat split; auto; apply norm_le; auto].
  unfold inv; cbn. repeat split; auto; try lra. eexists; split; eauto.
  destruct G as [Lg _]. rewrite clipped_length, raw_length by congruence. auto.
Qed.
Lemma set_ok n c k x : inv n c -> legal k x -> exists c', group_set c k x = Ok c' /\ inv n c' /\ velocity c' = velocity c.
Proof.
  intros (N & S0 & M0 & Mo & v & V & L) H.
  destruct H as [[-> H]|[[-> H]|[-> H]]]; eexists; (split; [reflexivity|]); unfold inv; cbn;
    (split; [repeat split; auto; try lra; eauto|auto]).
Qed.
Lemma op_ok n c o : inv n c -> legal_op n o -> exists c', apply_op c o = Ok c' /\ inv n c'.
Proof.
  intros I H. destruct o as [g|k x]; cbn in *.
  - destruct (ascent_ok n c g I H) as (c' & v & -> & I' & _). exists c'. auto.
  - destruct (set_ok n c k x I H) as (c' & -> & I' & _). eauto.
Qed.
Lemma ops_ok n l : forall c, inv n c -> Forall (legal_op n) l -> exists c', apply_ops c l = Ok c' /\ inv n c'.
Proof.
  induction l as [|o l IH]; intros c I H; cbn; eauto. pose proof (Forall_inv H). pose proof (Forall_inv_tail H).
  destruct (op_ok n c o I) as (c' & -> & I'); auto. cbn. apply IH; auto.
Qed.

(* functional *)
Definition finv (n : nat) (s : fclipup) : Prop :=
  0 <= fmax_speed s /\ (exists v, fvelocity s = Some v /\ length v = n) /\ (exists x, fcenter s = Some x /\ length x = n).
Lemma ftell_ok n s g : finv n s -> gradient n g ->
  finv n (fclipup_tell s g) /\ exists v, fvelocity (fclipup_tell s g) = Some v /\ at_most_long v (fmax_speed s).
Proof.
  intros (M & (v & V & L) & (x & X & Lx)) G. subst n. pose proof (ftell_eq s v g V G) as E.
  destruct (clipped_norm (raw (fmomentum s) (flr s) v g) (fmax_speed s) M) as [B _].
  assert (LL : length (clipped (raw (fmomentum s) (flr s) v g) (fmax_speed s)) = length v).
  { destruct G as [Lg _]. rewrite clipped_length, raw_length by congruence. auto. }
  split; [|eexists; split; [exact E|apply norm_le; auto]].
  split; [auto|]. split; [eexists; split; [exact E|auto]|].
  change (fcenter (fclipup_tell s g)) with (vadd (fcenter s) (fvelocity (fclipup_tell s g))).
  rewrite X, E. cbn [vadd]. eexists; split; [reflexivity|]. rewrite add_length; congruence.
Qed.
Lemma ftells_ok n l : forall s, finv n s -> Forall (gradient n) l -> finv n (tells s l) /\ fmax_speed (tells s l) = fmax_speed s.
Proof.
  induction l as [|g l IH]; intros s I H; [cbn; auto|]. pose proof (Forall_inv H). pose proof (Forall_inv_tail H).
  cbn. destruct (ftell_ok n s g I) as [I' _]; auto. destruct (IH _ I') as [A B]; auto.
Qed.
Lemma finit_inv center mom lr speed s : fclipup_init center mom lr speed = Ok s ->
  (forall x, lr = Some x -> 0 <= x) -> (forall x, speed = Some x -> 0 <= x) -> finv (length center) s.
Proof.
  intros E H1 H2. destruct lr as [l|], speed as [sp|]; cbn in E; inversion E; subst; clear E; unfold finv; cbn;
    (split; [try specialize (H1 _ eq_refl); try specialize (H2 _ eq_refl); lra|]);
    (split; [eexists; split; [reflexivity|apply repeat_length]|eexists; split; [reflexivity|auto]]).
Qed.

(* zero gradients *)
Lemma nan_ascent c g : velocity c = None -> length g = solution_length c ->
  exists c', ascent c g = Ok (c', None) /\ velocity c' = None /\ solution_length c' = solution_length c.
Proof.
  intros V L. unfold ascent. rewrite L, Nat.eqb_refl, V. cbn. eexists; split; [reflexivity|]. auto.
Qed.
Lemma zero_ascent c g : length g = solution_length c -> Forall (fun a => a = 0) g ->
  exists c', ascent c g = Ok (c', None) /\ velocity c' = None /\ solution_length c' = solution_length c.
Proof.
  intros L Z. unfold ascent. rewrite L, Nat.eqb_refl, unit_of_zero by auto.
  destruct (velocity c); cbn; eexists; (split; [reflexivity|auto]).
Qed.
Lemma nan_ops l : forall c c', velocity c = None -> apply_ops c l = Ok c' -> velocity c' = None.
Proof.
  induction l as [|o l IH]; intros c c' V E; cbn in E; [inversion E; subst; auto|].
  destruct (apply_op c o) as [d|] eqn:A; [|discriminate]. cbn in E. apply (IH d); auto.
  destruct o as [g|k x]; cbn in A.
  - unfold ascent in A. destruct (Nat.eqb _ _); [|discriminate]. cbn in A. inversion A; subst; cbn. rewrite V. reflexivity.
  - unfold group_set in A. destruct (lookup k param_group_items); [|discriminate].
    destruct (check_bound param_group_item_lb _ _ _); [|discriminate]. cbn in A.
    destruct (check_bound param_group_item_ub _ _ _); [|discriminate]. cbn in A. inversion A; subst. auto.
Qed.
Lemma nan_tells l : forall s, fvelocity s = None -> fcenter s = None -> fclipup_ask (tells s l) = None.
Proof.
  induction l as [|g l IH]; intros s V C; cbn; auto. apply IH; unfold fclipup_tell; cbn; rewrite V; cbn; auto.
  rewrite C. auto.
Qed.
Lemma zero_tell s g : Forall (fun a => a = 0) g -> fvelocity (fclipup_tell s g) = None /\ fcenter (fclipup_tell s g) = None.
Proof.
  intros Z. unfold fclipup_tell. rewrite unit_of_zero by auto. cbn. destruct (fvelocity s); cbn; destruct (fcenter s); auto.
Qed.

(* direction only *)
Lemma unit_of_scale k g : 0 < k -> unit_of (scale k g) = unit_of g.
Proof.
  intros K. unfold unit_of. rewrite norm_scale by lra. destruct (Req_EM_T (norm g) 0) as [E|E].
  - rewrite E, Rmult_0_r. destruct (Req_EM_T 0 0); congruence.
  - destruct (Req_EM_T (k * norm g) 0) as [F|F].
    + apply Rmult_integral in F. destruct F; [lra|contradiction].
    + f_equal. unfold scale. rewrite map_map. apply map_ext. intros a. field. split; auto. lra.
Qed.
Lemma ascent_scale c k g : 0 < k -> ascent c (scale k g) = ascent c g.
Proof. intros. unfold ascent. rewrite scale_length, unit_of_scale; auto. Qed.
Lemma ftell_scale s k g : 0 < k -> fclipup_tell s (scale k g) = fclipup_tell s g.
Proof. intros. unfold fclipup_tell. rewrite unit_of_scale; auto. Qed.

(* class and functional agree *)
Definition matching (c : clipup) (s : fclipup) : Prop :=
  stepsize c = flr s /\ momentum c = fmomentum s /\ max_speed c = fmax_speed s /\ velocity c = fvelocity s.
Lemma agree_step n c s g : matching c s -> inv n c -> gradient n g ->
  exists c' v, ascent c g = Ok (c', v) /\ matching c' (fclipup_tell s g) /\ inv n c' /\ v = fvelocity (fclipup_tell s g).
Proof.
  intros (A & B & C & D) I G. destruct (ascent_ok n c g I G) as (c' & v & E & I' & V & _).
  destruct I as (N & _ & _ & _ & v0 & V0 & L). subst n.
  pose proof (ascent_eq c v0 g V0 G) as F. rewrite E in F. inversion F; subst; clear F.
  assert (X := ftell_eq s v0 g). rewrite <- D, <- A, <- B, <- C, L in X. specialize (X V0 G).
  eexists _, _; split; [exact E|]. split; [|split; auto].
  unfold matching. cbn [stepsize momentum max_speed velocity flr fmomentum fmax_speed]. rewrite X. auto.
Qed.

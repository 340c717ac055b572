(* C127, C128: the class-based and the functional interface of PGPE and of CEM perform the same search. *)
From Coq Require Import Reals Lra Lia String.
From Verif Require Import Prelude RollProofs ExtR ClipUpModel FuncModel FuncSpec FuncProofs FuncProofs2 PgpeModel PgpeSpec PgpeProofs PgpeProofs2 PgpeProofs3.
Open Scope R_scope.

(* what the functional search accepts as limits and standard deviations *)
Lemma class_limit_ok n d o l : as_vector_like_center n d o = Ok l -> class_limit n o = Ok o.
Proof. destruct o as [[x|x]|]; cbn; auto. destruct (Nat.eqb (length x) n); [auto|discriminate]. Qed.
Lemma class_sigma_ok center stdev radius sg : Nat.eqb (length center) 0 = false ->
  functional_sigma Float32 (mkT center Float32 Cpu) stdev radius = Ok sg -> exists sg', class_sigma (length center) Float32 Cpu stdev radius = Ok sg'.
Proof.
  intros Z. unfold functional_sigma, class_sigma, to_stdev_init, stdev_from_radius. cbn [t_data].
  destruct stdev as [[x|x]|], radius as [[r|r]|]; try discriminate; rewrite ?Z; cbn [bind rmap]; eauto.
Qed.
Section Agreement.
  Context {values evals noise : Type}.
  Variable draw : bool -> list num -> list xr -> nat -> noise -> values.
  Variable compute_gradients : dist -> list num -> list xr -> values -> evals -> bool -> option string -> list R * list xr.
  Variable evaluate : values -> noise -> evals.
  Notation algo := (algo values evals).
  Notation step := (step draw compute_gradients evaluate).
  Notation run := (run draw compute_gradients evaluate).
  Notation pgpe_tell := (pgpe_tell compute_gradients).
  Notation pgpe_loop := (pgpe_loop draw compute_gradients evaluate).
  Notation cem_tell := (cem_tell compute_gradients).
  Notation cem_loop := (cem_loop draw compute_gradients evaluate).
  Notation same_state := (same_state draw evaluate).
  Notation same_state_cem := (same_state_cem draw evaluate).

  Lemma noises (zs : list noise) z : exists z0 rest, zs ++ [z] = z0 :: rest /\ removelast (z0 :: rest) = zs /\ last rest z0 = z.
  Proof.
    destruct zs as [|z0 zs]; [exists z, []; auto|]. exists z0, (zs ++ [z]). split; auto. split.
    - change (z0 :: zs ++ [z]) with ((z0 :: zs) ++ [z]). apply removelast_last.
    - apply last_last.
  Qed.
  Lemma pgpe_generic G popsize clr slr maximize ranking center stdev radius mn mx mc optimizer oconf symmetric (s0 : algo) f0 :
    pgpe_class popsize clr slr maximize (Some ranking) center stdev radius mn mx mc optimizer oconf symmetric = Ok s0 ->
    pgpe center clr slr (sense_name maximize) (Some ranking) optimizer oconf stdev radius mn mx mc symmetric = Ok f0 ->
    per_parameter (length center) compute_gradients -> guards draw compute_gradients evaluate G (length center) ->
    forall zs z, (forall z0 rest s1, zs ++ [z] = z0 :: rest -> step s0 z0 = Ok s1 -> settings s1 = settings s0 -> a_sigma s1 = a_sigma s0 -> G s1 rest) ->
    exists s f, run s0 (zs ++ [z]) = Ok s /\ pgpe_loop f0 popsize zs = Ok f /\ same_pgpe draw evaluate (length center) s f z /\ a_popsize s = popsize.
  Proof.
    intros HC HF PP HG zs z HS. destruct (noises zs z) as (z0 & rest & EQ & RL & LA).
    destruct (pgpe_begin draw compute_gradients evaluate _ _ _ _ _ _ _ _ _ _ _ _ _ _ _ _ z0 HC HF) as (P0 & s1 & ST & SM & SE & SG & PS).
    destruct (same_pgpe_run _ _ _ G _ PP HG P0 rest s1 f0 z0 SM (HS _ _ _ EQ ST SE SG)) as (s' & f' & R & LP & SM' & PS').
    exists s', f'. rewrite EQ. cbn [PgpeModel.run]. rewrite ST. cbn [bind]. split; auto. rewrite RL, PS in LP. split; auto. rewrite <- LA. split; auto. congruence.
  Qed.
  Lemma pgpe_observed n popsize s f z : same_pgpe draw evaluate n s f z -> a_popsize s = popsize -> same_state n popsize s f z.
  Proof.
    intros (E1 & E2 & _ & _ & N & _ & _ & _ & _ & _ & EV & EP) PS. split; auto. split; auto. eexists. split; [|exact EP].
    unfold pgpe_ask. rewrite PS in EV. rewrite EV, N, <- E1, <- E2, PS. reflexivity.
  Qed.
  Lemma cem_generic G popsize ratio maximize center stdev radius mn mx mc (s0 : algo) f0 :
    cem_class popsize ratio maximize center stdev radius mn mx mc = Ok s0 ->
    cem center ratio (sense_name maximize) stdev radius mn mx mc = Ok f0 ->
    per_parameter (length center) compute_gradients -> guards draw compute_gradients evaluate G (length center) ->
    forall zs z, (forall z0 rest s1, zs ++ [z] = z0 :: rest -> step s0 z0 = Ok s1 -> settings s1 = settings s0 -> a_sigma s1 = a_sigma s0 -> G s1 rest) ->
    exists s, run s0 (zs ++ [z]) = Ok s /\ same_cem draw evaluate (length center) s (cem_loop f0 popsize zs) z /\ a_popsize s = popsize.
  Proof.
    intros HC HF PP HG zs z HS. destruct (noises zs z) as (z0 & rest & EQ & RL & LA).
    destruct (cem_begin draw compute_gradients evaluate _ _ _ _ _ _ _ _ _ _ _ z0 HC HF) as (P0 & s1 & ST & SM & SE & SG & PS).
    destruct (same_cem_run _ _ _ G _ PP HG P0 rest s1 f0 z0 SM (HS _ _ _ EQ ST SE SG)) as (s' & R & SM' & PS').
    exists s'. rewrite EQ. cbn [PgpeModel.run]. rewrite ST. cbn [bind]. split; auto. rewrite RL, PS in SM'. rewrite <- LA. split; auto. congruence.
  Qed.
  Lemma cem_observed n popsize s f z : same_cem draw evaluate n s f z -> a_popsize s = popsize -> same_state_cem popsize s f z.
  Proof.
    intros (E1 & E2 & _ & _ & _ & _ & _ & _ & _ & _ & _ & EP) PS. split; auto. split; auto. unfold cem_ask. rewrite <- E1, <- E2, <- PS. exact EP.
  Qed.
  Lemma run_app zs : forall (s : algo) zs', run s (zs ++ zs') = bind (run s zs) (fun s => run s zs').
  Proof.
    induction zs as [|z zs IH]; intros s zs'; cbn [app PgpeModel.run bind]; auto.
    destruct (step s z); cbn [bind]; auto.
  Qed.
  Lemma loop_app popsize zs : forall f zs', pgpe_loop f popsize (zs ++ zs') = bind (pgpe_loop f popsize zs) (fun f => pgpe_loop f popsize zs').
  Proof.
    induction zs as [|z zs IH]; intros f zs'; cbn [app PgpeModel.pgpe_loop bind]; auto. destruct (pgpe_ask draw f popsize z); cbn [bind]; auto.
  Qed.
  Lemma cem_loop_app popsize zs : forall f zs', cem_loop f popsize (zs ++ zs') = cem_loop (cem_loop f popsize zs) popsize zs'.
  Proof. induction zs as [|z zs IH]; intros f zs'; cbn [app PgpeModel.cem_loop]; auto. Qed.
  Lemma starts_ok mn mx sigma (s0 : algo) : a_sigma s0 = map RF sigma -> starts_inside mn mx sigma -> ok_change mn mx (a_sigma s0).
  Proof.
    intros E H i x X. rewrite E, nth_error_map in X. destruct (nth_error sigma i) as [y|] eqn:Y; [|discriminate]. inversion X; subst x. right. exists y.
    split; auto. destruct (H i y Y) as (A & B & C). split; auto.
  Qed.
  Lemma class_limits d ev popsize clr slr maximize ranking center stdev radius mn mx mc optimizer oconf (s0 : algo) :
    gaussian_init d ev popsize clr slr maximize ranking center stdev radius mn mx mc optimizer oconf = Ok s0 ->
    a_min s0 = mn /\ a_max s0 = mx /\ a_change s0 = mc.
  Proof. intros H. apply gaussian_init_inv in H as (_ & sigma & opt & _ & _ & ->). auto. Qed.

(* ------------------------------------------------------------------ C127 *)
(* a limited change of the standard deviation *)
Theorem C127_change_partial : forall popsize center_lr stdev_lr maximize ranking center stdev radius mn mx mc optimizer oconf symmetric (s0 : algo) f0 sigma,
  pgpe_class popsize center_lr stdev_lr maximize (Some ranking) center stdev radius mn mx mc optimizer oconf symmetric = Ok s0 ->
  pgpe center center_lr stdev_lr (sense_name maximize) (Some ranking) optimizer oconf stdev radius mn mx mc symmetric = Ok f0 ->
  per_parameter (length center) compute_gradients ->
  change_limited mn mc -> a_sigma s0 = map RF sigma -> starts_inside mn mx sigma ->
  forall zs z, exists s f, run s0 (zs ++ [z]) = Ok s /\ pgpe_loop f0 popsize zs = Ok f /\ same_state (length center) popsize s f z.
Proof.
  intros. assert (P0 : (0 < length center)%nat) by (eapply (pgpe_begin draw compute_gradients evaluate); eauto).
  destruct (class_limits _ _ _ _ _ _ _ _ _ _ _ _ _ _ _ _ H) as (E1 & E2 & E3).
  destruct (pgpe_generic change_guard _ _ _ _ _ _ _ _ _ _ _ _ _ _ _ _ H H0 H1 (change_guards _ _ _ _ P0) zs z) as (s & f & R & LP & SM & PS);
    [|exists s, f; eauto using pgpe_observed].
  intros z0 rest s1 _ _ SE SG. destruct (settings_inv _ _ SE) as (_ & _ & _ & _ & _ & _ & F1 & F2 & F3).
  unfold change_guard. rewrite SG, F1, F2, F3, E1, E2, E3. split; auto. eapply starts_ok; eauto.
Qed.
(* no limit of the change: as long as the standard deviations of the class remain positive *)
Theorem C127_positive_partial : forall popsize center_lr stdev_lr maximize ranking center stdev radius mn mx optimizer oconf symmetric (s0 : algo) f0 zs z,
  pgpe_class popsize center_lr stdev_lr maximize (Some ranking) center stdev radius mn mx None optimizer oconf symmetric = Ok s0 ->
  pgpe center center_lr stdev_lr (sense_name maximize) (Some ranking) optimizer oconf stdev radius mn mx None symmetric = Ok f0 ->
  per_parameter (length center) compute_gradients ->
  (forall k s, run s0 (firstn k (zs ++ [z])) = Ok s -> Forall positive (a_sigma s)) ->
  exists s f, run s0 (zs ++ [z]) = Ok s /\ pgpe_loop f0 popsize zs = Ok f /\ same_state (length center) popsize s f z.
Proof.
  intros. assert (P0 : (0 < length center)%nat) by (eapply (pgpe_begin draw compute_gradients evaluate); eauto).
  destruct (class_limits _ _ _ _ _ _ _ _ _ _ _ _ _ _ _ _ H) as (E1 & E2 & E3).
  destruct (pgpe_generic (positive_guard draw compute_gradients evaluate) _ _ _ _ _ _ _ _ _ _ _ _ _ _ _ _ H H0 H1 (positive_guards _ _ _ _ P0) zs z) as (s & f & R & LP & SM & PS);
    [|exists s, f; eauto using pgpe_observed].
  intros z0 rest s1 EQ ST SE SG. destruct (settings_inv _ _ SE) as (_ & _ & _ & _ & _ & _ & F1 & F2 & F3).
  split; [congruence|]. intros k s' R. apply (H2 (S k)). rewrite EQ. cbn [firstn PgpeModel.run]. rewrite ST. exact R.
Qed.
(* limits of the range, both positive *)
Theorem C127_range_partial : forall popsize center_lr stdev_lr maximize ranking center stdev radius mn mx optimizer oconf symmetric (s0 : algo) f0,
  pgpe_class popsize center_lr stdev_lr maximize (Some ranking) center stdev radius mn mx None optimizer oconf symmetric = Ok s0 ->
  pgpe center center_lr stdev_lr (sense_name maximize) (Some ranking) optimizer oconf stdev radius mn mx None symmetric = Ok f0 ->
  per_parameter (length center) compute_gradients -> range_limited mn mx -> Forall positive (a_sigma s0) ->
  forall zs z, exists s f, run s0 (zs ++ [z]) = Ok s /\ pgpe_loop f0 popsize zs = Ok f /\ same_state (length center) popsize s f z.
Proof.
  intros. assert (P0 : (0 < length center)%nat) by (eapply (pgpe_begin draw compute_gradients evaluate); eauto).
  destruct (class_limits _ _ _ _ _ _ _ _ _ _ _ _ _ _ _ _ H) as (E1 & E2 & E3).
  destruct (pgpe_generic range_guard _ _ _ _ _ _ _ _ _ _ _ _ _ _ _ _ H H0 H1 (range_guards _ _ _ _ P0) zs z) as (s & f & R & LP & SM & PS);
    [|exists s, f; eauto using pgpe_observed].
  intros z0 rest s1 _ _ SE SG. destruct (settings_inv _ _ SE) as (_ & _ & _ & _ & _ & _ & F1 & F2 & F3).
  unfold range_guard. rewrite SG, F1, F2, F3, E1, E2, E3. auto.
Qed.
  Lemma positive_start (s0 : algo) zs z : a_change s0 = None -> (forall k s, run s0 (firstn k (zs ++ [z])) = Ok s -> Forall positive (a_sigma s)) ->
    forall z0 rest s1, zs ++ [z] = z0 :: rest -> step s0 z0 = Ok s1 -> settings s1 = settings s0 -> a_sigma s1 = a_sigma s0 -> positive_guard draw compute_gradients evaluate s1 rest.
  Proof.
    intros E H z0 rest s1 EQ ST SE SG. destruct (settings_inv _ _ SE) as (_ & _ & _ & _ & _ & _ & F1 & F2 & F3).
    split; [congruence|]. intros k s' R. apply (H (S k)). rewrite EQ. cbn [firstn PgpeModel.run]. rewrite ST. exact R.
  Qed.
  Lemma felem_zero l u t : felem l u RPI (RF 0) t = RNaN.
  Proof.
    unfold felem. cbn [rabs]. rewrite Rabs_R0. unfold rmul. cbn [rsign]. destruct (Req_EM_T 0 0) as [_|N]; [|congruence]. cbn. unfold rmax, rmin, rsub. cbn [ropp radd].
    cbn [rnan orb]. rewrite orb_true_r. reflexivity.
  Qed.
(* without any limit: as soon as the gradient leads a standard deviation below zero, the class has a negative standard
   deviation where the functional search has zero; and the functional search has NaN after the next tell, whatever it is told *)
Theorem C127_negative_refuted : forall popsize center_lr stdev_lr maximize ranking center stdev radius optimizer oconf symmetric (s0 : algo) f0 zs z z' s v e i x g,
  pgpe_class popsize center_lr stdev_lr maximize (Some ranking) center stdev radius None None None optimizer oconf symmetric = Ok s0 ->
  pgpe center center_lr stdev_lr (sense_name maximize) (Some ranking) optimizer oconf stdev radius None None None symmetric = Ok f0 ->
  per_parameter (length center) compute_gradients ->
  (forall k s, run s0 (firstn k (zs ++ [z])) = Ok s -> Forall positive (a_sigma s)) ->
  run s0 (zs ++ [z]) = Ok s -> a_pop s = Some (v, e) ->
  nth_error (a_sigma s) i = Some (RF x) ->
  nth_error (snd (compute_gradients (a_dist s) (a_mu s) (a_sigma s) v e maximize (Some ranking))) i = Some (RF g) ->
  x + stdev_lr * g < 0 ->
  exists s' f', run s0 (zs ++ [z; z']) = Ok s' /\ pgpe_loop f0 popsize (zs ++ [z]) = Ok f' /\
    nth_error (a_sigma s') i = Some (RF (x + stdev_lr * g)) /\ nth_error (p_stdev f') i = Some (RF 0) /\
    forall v' e', nth_error (p_stdev (pgpe_tell f' v' e')) i = Some RNaN.
Proof.
  intros until g. intros HC HF PP HP HR EP X GI NG.
  assert (P0 : (0 < length center)%nat) by (eapply (pgpe_begin draw compute_gradients evaluate); eauto).
  assert (HC' := HC). unfold pgpe_class in HC'. cbv zeta in HC'. apply gaussian_init_inv in HC' as (_ & sg & op & _ & _ & E0).
  destruct (pgpe_generic (positive_guard draw compute_gradients evaluate) _ _ _ _ _ _ _ _ _ _ _ _ _ _ _ _ HC HF PP (positive_guards _ _ _ _ P0) zs z) as (s2 & f & R & LP & SM & PS).
  { apply positive_start; auto. subst s0. reflexivity. }
  rewrite HR in R. inversion R; subst s2; clear R. set (n := length center) in *.
  assert (SET : a_stdev_lr s = stdev_lr /\ a_ranking s = Some ranking /\ a_maximize s = maximize /\ a_min s = None /\ a_max s = None /\ a_change s = None).
  { pose proof (run_settings draw compute_gradients evaluate _ _ _ HR) as SE. destruct (settings_inv _ _ SE) as (S1 & S2 & S3 & S4 & S5 & S6 & S7 & S8 & S9).
    rewrite S3, S4, S5, S7, S8, S9. subst s0. cbn. auto 10. }
  destruct SET as (S3 & S4 & S5 & S7 & S8 & S9).
  destruct SM as (E1 & E2 & L & O & N & E3 & E4 & E5 & E6 & LM & EV & EP0). cbv zeta in EP0. set (w := draw _ _ _ _ _) in *.
  assert (Ev : w = v) by congruence. assert (Ee : evaluate w z = e) by congruence. clear EP0. rename EP into EP0.
  destruct (PP (a_dist s) (a_mu s) (a_sigma s) v e (a_maximize s) (a_ranking s)) as [L1 L2].
  fold (gradient_at compute_gradients s v e) in L1, L2. destruct (osim_step n (a_opt s) (p_opt f) (a_center_lr s) _ O L1) as (c' & d & F & O' & A').
  destruct (class_step draw compute_gradients evaluate s z' v e c' d EP0 F) as (s' & ST & SS & EO & EM & ES & EP').
  exists s', (pgpe_tell f v e). replace (zs ++ [z; z']) with ((zs ++ [z]) ++ [z']) by (rewrite <- app_assoc; auto). rewrite run_app, HR. cbn [bind PgpeModel.run]. rewrite ST. cbn [bind].
  split; auto. split.
  { rewrite loop_app, LP. cbn [bind PgpeModel.pgpe_loop]. unfold pgpe_ask. rewrite <- PS, EV, N, <- E1, <- E2. cbn [bind]. fold w. rewrite Ee, Ev. reflexivity. }
  assert (GE : gradient_at compute_gradients s v e = compute_gradients (a_dist s) (a_mu s) (a_sigma s) v e maximize (Some ranking)) by (unfold gradient_at; congruence).
  rewrite GE in *. set (gr := snd _) in *.
  destruct (limits_fit _ _ _ _ _ _ _ P0 LM) as (F1 & F2 & F3 & L4 & L5 & L6). destruct LM as (A & B & C).
  assert (I : (i < n)%nat) by (rewrite <- L; apply nth_error_Some; congruence).
  assert (T : nth_error (moved (a_stdev_lr s) (a_sigma s) gr) i = Some (RF (x + stdev_lr * g))).
  { unfold moved. apply (map2_nth2 radd _ _ _ (RF x) (RF (stdev_lr * g))); auto. rewrite nth_error_map, GI, S3. reflexivity. }
  assert (PX : 0 < x).
  { assert (Q := HP (length (zs ++ [z])) s). rewrite firstn_all in Q. specialize (Q HR).
    pose proof (proj1 (Forall_forall _ _) Q _ (nth_error_In _ _ X)) as [|(y & E & Y)]; [discriminate|]. inversion E; subst; auto. }
  assert (TEQ : p_stdev (pgpe_tell f v e) = rmodify_vector (a_sigma s) (moved (a_stdev_lr s) (a_sigma s) gr) (p_min f) (p_max f) (p_change f)).
  { unfold PgpeModel.pgpe_tell. cbn [p_stdev]. rewrite N, <- E1, <- E2, <- E3, <- E4, <- E5, <- E6, S4, S5. reflexivity. }
  destruct (vector_nth n _ _ _ i A I) as (_ & _ & VA). destruct (vector_nth n _ _ _ i B I) as (_ & _ & VB). destruct (vector_nth n _ _ _ i C I) as (_ & _ & VC).
  rewrite S7, S8, S9 in *. cbn [limit_of] in VA, VB, VC.
  assert (Z : nth_error (p_stdev (pgpe_tell f v e)) i = Some (RF 0)).
  { rewrite TEQ. rewrite (rvector_nth _ _ _ _ _ _ _ _ _ _ _ X T VA VB VC). f_equal. unfold felem. cbn [rabs]. rewrite Rabs_right by lra.
    assert (M : rmul (RF x) RPI = RPI). { cbn. destruct (Req_EM_T x 0); [lra|]. destruct (Rlt_dec x 0); [lra|auto]. }
    rewrite M. unfold rsub. cbn [ropp radd]. unfold rmax, rmin. cbn [rnan orb rleb].
    destruct (Rle_dec (x + stdev_lr * g) 0); [reflexivity|lra]. }
  split; [rewrite ES; exact T|]. split; auto.
  intros v' e'. set (f' := pgpe_tell f v e) in *. assert (NE : p_n f' = n /\ p_min f' = p_min f /\ p_max f' = p_max f /\ p_change f' = p_change f) by auto.
  destruct NE as (N1 & N2 & N3 & N4). unfold PgpeModel.pgpe_tell. cbn [p_stdev]. rewrite N2, N3, N4.
  set (gr2 := snd _). assert (LG : length gr2 = n) by apply PP.
  destruct (nth_error gr2 i) as [g2|] eqn:G2; [|apply nth_error_None in G2; lia].
  assert (T2 : nth_error (map2 radd (p_stdev f') (map (rmul (RF (p_stdev_lr f'))) gr2)) i = Some (radd (RF 0) (rmul (RF (p_stdev_lr f')) g2))).
  { apply map2_nth2; [exact Z|]. rewrite nth_error_map, G2. reflexivity. }
  rewrite (rvector_nth _ _ _ _ _ _ _ _ _ _ _ Z T2 VA VB VC), felem_zero. reflexivity.
Qed.

(* ------------------------------------------------------------------ C128 *)
Theorem C128_change_partial : forall popsize ratio maximize center stdev radius mn mx mc (s0 : algo) f0 sigma,
  cem_class popsize ratio maximize center stdev radius mn mx mc = Ok s0 ->
  cem center ratio (sense_name maximize) stdev radius mn mx mc = Ok f0 ->
  per_parameter (length center) compute_gradients ->
  change_limited mn mc -> a_sigma s0 = map RF sigma -> starts_inside mn mx sigma ->
  forall zs z, exists s, run s0 (zs ++ [z]) = Ok s /\ same_state_cem popsize s (cem_loop f0 popsize zs) z.
Proof.
  intros. assert (P0 : (0 < length center)%nat) by (eapply (cem_begin draw compute_gradients evaluate); eauto).
  destruct (class_limits _ _ _ _ _ _ _ _ _ _ _ _ _ _ _ _ H) as (E1 & E2 & E3).
  destruct (cem_generic change_guard _ _ _ _ _ _ _ _ _ _ _ H H0 H1 (change_guards _ _ _ _ P0) zs z) as (s & R & SM & PS);
    [|exists s; eauto using cem_observed].
  intros z0 rest s1 _ _ SE SG. destruct (settings_inv _ _ SE) as (_ & _ & _ & _ & _ & _ & F1 & F2 & F3).
  unfold change_guard. rewrite SG, F1, F2, F3, E1, E2, E3. split; auto. eapply starts_ok; eauto.
Qed.
Theorem C128_positive_partial : forall popsize ratio maximize center stdev radius mn mx (s0 : algo) f0 zs z,
  cem_class popsize ratio maximize center stdev radius mn mx None = Ok s0 ->
  cem center ratio (sense_name maximize) stdev radius mn mx None = Ok f0 ->
  per_parameter (length center) compute_gradients ->
  (forall k s, run s0 (firstn k (zs ++ [z])) = Ok s -> Forall positive (a_sigma s)) ->
  exists s, run s0 (zs ++ [z]) = Ok s /\ same_state_cem popsize s (cem_loop f0 popsize zs) z.
Proof.
  intros. assert (P0 : (0 < length center)%nat) by (eapply (cem_begin draw compute_gradients evaluate); eauto).
  destruct (class_limits _ _ _ _ _ _ _ _ _ _ _ _ _ _ _ _ H) as (E1 & E2 & E3).
  destruct (cem_generic (positive_guard draw compute_gradients evaluate) _ _ _ _ _ _ _ _ _ _ _ H H0 H1 (positive_guards _ _ _ _ P0) zs z) as (s & R & SM & PS);
    [apply positive_start; auto|exists s; eauto using cem_observed].
Qed.
Theorem C128_range_partial : forall popsize ratio maximize center stdev radius mn mx (s0 : algo) f0,
  cem_class popsize ratio maximize center stdev radius mn mx None = Ok s0 ->
  cem center ratio (sense_name maximize) stdev radius mn mx None = Ok f0 ->
  per_parameter (length center) compute_gradients -> range_limited mn mx -> Forall positive (a_sigma s0) ->
  forall zs z, exists s, run s0 (zs ++ [z]) = Ok s /\ same_state_cem popsize s (cem_loop f0 popsize zs) z.
Proof.
  intros. assert (P0 : (0 < length center)%nat) by (eapply (cem_begin draw compute_gradients evaluate); eauto).
  destruct (class_limits _ _ _ _ _ _ _ _ _ _ _ _ _ _ _ _ H) as (E1 & E2 & E3).
  destruct (cem_generic range_guard _ _ _ _ _ _ _ _ _ _ _ H H0 H1 (range_guards _ _ _ _ P0) zs z) as (s & R & SM & PS);
    [|exists s; eauto using cem_observed].
  intros z0 rest s1 _ _ SE SG. destruct (settings_inv _ _ SE) as (_ & _ & _ & _ & _ & _ & F1 & F2 & F3).
  unfold range_guard. rewrite SG, F1, F2, F3, E1, E2, E3. auto.
Qed.
(* without any limit: once a standard deviation is zero (all parents share a coordinate), the class goes on with what it
   computes for this coordinate, the functional search has NaN after the next tell *)
Theorem C128_zero_refuted : forall popsize ratio maximize center stdev radius (s0 : algo) f0 zs z z' z'' s s' s'' v e v' e' i x g',
  cem_class popsize ratio maximize center stdev radius None None None = Ok s0 ->
  cem center ratio (sense_name maximize) stdev radius None None None = Ok f0 ->
  per_parameter (length center) compute_gradients ->
  (forall k s, run s0 (firstn k (zs ++ [z])) = Ok s -> Forall positive (a_sigma s)) ->
  run s0 (zs ++ [z]) = Ok s -> a_pop s = Some (v, e) ->
  nth_error (a_sigma s) i = Some (RF x) ->
  nth_error (snd (compute_gradients (a_dist s) (a_mu s) (a_sigma s) v e maximize None)) i = Some (RF (- x)) ->
  step s z' = Ok s' -> a_pop s' = Some (v', e') -> step s' z'' = Ok s'' ->
  nth_error (snd (compute_gradients (a_dist s') (a_mu s') (a_sigma s') v' e' maximize None)) i = Some (RF g') ->
  let f' := cem_loop f0 popsize (zs ++ [z]) in
  nth_error (a_sigma s') i = Some (RF 0) /\ nth_error (m_stdev f') i = Some (RF 0) /\
  nth_error (a_sigma s'') i = Some (RF g') /\ forall v2 e2, nth_error (m_stdev (cem_tell f' v2 e2)) i = Some RNaN.
Proof.
  intros until g'. intros HC HF PP HP HR EP X GI ST EPP ST2 GI2. cbv zeta.
  assert (P0 : (0 < length center)%nat) by (eapply (cem_begin draw compute_gradients evaluate); eauto).
  assert (HC' := HC). apply gaussian_init_inv in HC' as (_ & sg & op & _ & _ & E0).
  destruct (cem_generic (positive_guard draw compute_gradients evaluate) _ _ _ _ _ _ _ _ _ _ _ HC HF PP (positive_guards _ _ _ _ P0) zs z) as (s2 & R & SM & PS).
  { apply positive_start; auto. subst s0. reflexivity. }
  rewrite HR in R. inversion R; subst s2; clear R. set (n := length center) in *. set (f := cem_loop f0 popsize zs) in *.
  assert (SET : a_stdev_lr s = 1 /\ a_ranking s = None /\ a_maximize s = maximize /\ a_min s = None /\ a_max s = None /\ a_change s = None).
  { pose proof (run_settings draw compute_gradients evaluate _ _ _ HR) as SE. destruct (settings_inv _ _ SE) as (S1 & S2 & S3 & S4 & S5 & S6 & S7 & S8 & S9).
    rewrite S3, S4, S5, S7, S8, S9. subst s0. cbn. auto 10. }
  destruct SET as (S3 & S4 & S5 & S7 & S8 & S9).
  destruct SM as (E1 & E2 & L & LU & O & C1 & C2 & E4 & E5 & E6 & LM & EP0). cbv zeta in EP0. set (w := draw _ _ _ _ _) in *.
  assert (Ev : w = v) by congruence. assert (Ee : evaluate w z = e) by congruence. clear EP0. rename EP into EP0.
  assert (AK : cem_ask draw f popsize z = v). { rewrite <- Ev. unfold cem_ask, w. congruence. }
  assert (FE : cem_loop f0 popsize (zs ++ [z]) = cem_tell f v e).
  { rewrite cem_loop_app. fold f. cbn [PgpeModel.cem_loop]. cbv zeta. rewrite AK. rewrite Ev in Ee. rewrite Ee. reflexivity. }
  rewrite FE.
  assert (step_sigma : forall (s s' : algo) z v e i x g, step s z = Ok s' -> a_pop s = Some (v, e) -> a_opt s = CNone -> a_stdev_lr s = 1 -> a_min s = None -> a_max s = None -> a_change s = None ->
    nth_error (a_sigma s) i = Some (RF x) -> nth_error (snd (compute_gradients (a_dist s) (a_mu s) (a_sigma s) v e (a_maximize s) (a_ranking s))) i = Some (RF g) ->
    nth_error (a_sigma s') i = Some (RF (x + g)) /\ settings s' = settings s /\ a_opt s' = CNone).
  { clear. intros s s' z v e i x g ST EP O S3 S7 S8 S9 X GI.
    destruct (class_step draw compute_gradients evaluate s z v e CNone (map (fun x => Some (a_center_lr s * x)) (fst (gradient_at compute_gradients s v e))) EP) as (s2 & ST2 & SS & EO & EM & ES & _).
    { rewrite O. reflexivity. }
    rewrite ST in ST2. inversion ST2; subst s2. split; auto. rewrite ES, S7, S8, S9. unfold rmodify_tensor, moved. unfold gradient_at.
    apply (map2_nth2 radd _ _ _ (RF x) (RF g)); auto. rewrite nth_error_map, GI, S3. cbn. rewrite Rmult_1_l. reflexivity. }
  destruct (step_sigma s s' z' v e i x (- x) ST EP0 O S3 S7 S8 S9 X) as (Z1 & SS1 & O1). { rewrite S4, S5. auto. }
  rewrite Rplus_opp_r in Z1. split; auto.
  destruct (settings_inv _ _ SS1) as (T1 & T2 & T3 & T4 & T5 & T6 & T7 & T8 & T9).
  destruct (step_sigma s' s'' z'' v' e' i 0 g' ST2 EPP O1) as (Z2 & _ & _); try congruence.
  rewrite Rplus_0_l in Z2.
  destruct (limits_fit _ _ _ _ _ _ _ P0 LM) as (F1 & F2 & F3 & L4 & L5 & L6). destruct LM as (A & B & C).
  assert (I : (i < n)%nat) by (rewrite <- L; apply nth_error_Some; congruence).
  assert (PX : 0 < x).
  { assert (Q := HP (length (zs ++ [z])) s). rewrite firstn_all in Q. specialize (Q HR).
    pose proof (proj1 (Forall_forall _ _) Q _ (nth_error_In _ _ X)) as [|(y & E & Y)]; [discriminate|]. inversion E; subst; auto. }
  destruct (vector_nth n _ _ _ i A I) as (_ & _ & VA). destruct (vector_nth n _ _ _ i B I) as (_ & _ & VB). destruct (vector_nth n _ _ _ i C I) as (_ & _ & VC).
  rewrite S7, S8, S9 in *. cbn [limit_of] in VA, VB, VC.
  assert (Z : nth_error (m_stdev (cem_tell f v e)) i = Some (RF 0)).
  { unfold PgpeModel.cem_tell. cbn [m_stdev]. rewrite <- E1, <- E2, <- E5, <- E6, S5. rewrite (rvector_nth _ _ _ _ _ _ _ _ _ _ _ X (map2_nth2 radd _ _ _ _ _ X GI) VA VB VC).
    f_equal. unfold felem. cbn [rabs]. rewrite Rabs_right by lra.
    assert (M : rmul (RF x) RPI = RPI). { cbn. destruct (Req_EM_T x 0); [lra|]. destruct (Rlt_dec x 0); [lra|auto]. }
    rewrite M. unfold rsub. cbn [ropp radd]. rewrite Rplus_opp_r. unfold rmax, rmin. cbn [rnan orb rleb].
    destruct (Rle_dec 0 0); reflexivity. }
  split; auto. split; auto.
  intros v2 e2. set (f' := cem_tell f v e) in *. assert (NE : m_min f' = m_min f /\ m_max f' = m_max f /\ m_change f' = m_change f) by auto.
  destruct NE as (N2 & N3 & N4). unfold PgpeModel.cem_tell. cbn [m_stdev]. rewrite N2, N3, N4.
  set (gr2 := snd _). assert (LG : length gr2 = n) by apply PP.
  destruct (nth_error gr2 i) as [g2|] eqn:G2; [|apply nth_error_None in G2; lia].
  rewrite (rvector_nth _ _ _ _ _ _ _ _ _ _ _ Z (map2_nth2 radd _ _ _ _ _ Z G2) VA VB VC), felem_zero. reflexivity.
Qed.
(* both interfaces accept the same: what the functional search accepts is accepted by the class, for any population size
   in the case of CEM; in the case of PGPE, the class refuses exactly the population sizes with which ask fails *)
Theorem C128_accepts : forall center ratio maximize stdev radius mn mx mc f0,
  cem center ratio (sense_name maximize) stdev radius mn mx mc = Ok f0 ->
  forall popsize, exists s0 : algo, cem_class popsize ratio maximize center stdev radius mn mx mc = Ok s0.
Proof.
  intros center ratio maximize stdev radius mn mx mc f0 H popsize. unfold cem in H. cbv zeta in H.
  destruct (Nat.eqb (length center) 0) eqn:Z; [discriminate|].
  destruct (functional_sigma Float32 (mkT center Float32 Cpu) stdev radius) as [sg|] eqn:SG; [|discriminate]. cbn [bind] in H.
  destruct (as_vector_like_center (length center) (RF 0) mn) eqn:A; [|discriminate]. cbn [bind] in H.
  destruct (as_vector_like_center (length center) RPI mx) eqn:B; [|discriminate]. cbn [bind] in H.
  destruct (as_vector_like_center (length center) RPI mc) eqn:C; [|discriminate]. clear H.
  destruct (class_sigma_ok center stdev radius sg Z SG) as (sg' & SG').
  unfold cem_class, gaussian_init. cbv zeta. cbn [andb]. rewrite SG'. cbn [bind class_optimizer].
  rewrite (class_limit_ok _ _ _ _ A), (class_limit_ok _ _ _ _ B), (class_limit_ok _ _ _ _ C). cbn [bind]. eauto.
Qed.
Theorem C127_accepts : forall center center_lr stdev_lr maximize ranking stdev radius mn mx mc symmetric f0,
  0 <= center_lr ->
  pgpe center center_lr stdev_lr (sense_name maximize) (Some ranking) (Some "clipup"%string) None stdev radius mn mx mc symmetric = Ok f0 ->
  forall popsize z,
  (exists s0 : algo, pgpe_class popsize center_lr stdev_lr maximize (Some ranking) center stdev radius mn mx mc (Some "clipup"%string) None symmetric = Ok s0) <->
  (exists v, pgpe_ask draw f0 popsize z = Ok v).
Proof.
  intros center clr slr maximize ranking stdev radius mn mx mc symmetric f0 LR H popsize z. unfold pgpe in H. cbv zeta in H.
  destruct (Nat.eqb (length center) 0) eqn:Z; [discriminate|].
  destruct (functional_sigma Float32 (mkT center Float32 Cpu) stdev radius) as [sg|] eqn:SG; [|discriminate]. cbn [bind] in H.
  destruct (if String.eqb (sense_name maximize) "min" then _ else _) as [m|]; [|discriminate]. cbn [bind] in H.
  destruct (as_vector_like_center (length center) (RF 0) mn) eqn:A; [|discriminate]. cbn [bind] in H.
  destruct (as_vector_like_center (length center) RPI mx) eqn:B; [|discriminate]. cbn [bind] in H.
  destruct (as_vector_like_center (length center) RPI mc) eqn:C; [|discriminate]. cbn [bind] in H.
  destruct (functional_optimizer center clr (Some "clipup"%string) None) as [o|] eqn:O; [|discriminate]. cbn [bind] in H.
  inversion H; subst f0; clear H. unfold pgpe_ask. cbn [p_symmetric].
  destruct (class_sigma_ok center stdev radius sg Z SG) as (sg' & SG').
  unfold pgpe_class, gaussian_init. cbv zeta.
  destruct (symmetric && negb (Nat.even popsize)).
  - split; intros (? & E); discriminate.
  - split; [eauto|]. intros _. rewrite SG'. cbn [bind]. cbn -[clipup_init class_limit].
    unfold clipup_init. cbv zeta. destruct (Rlt_dec clr 0); [lra|]. destruct (Rlt_dec (9 / 10) 0); [lra|]. destruct (Rlt_dec 1 (9 / 10)); [lra|].
    destruct (Rlt_dec (clr * 2) 0); [lra|]. cbn [rmap bind].
    rewrite (class_limit_ok _ _ _ _ A), (class_limit_ok _ _ _ _ B), (class_limit_ok _ _ _ _ C). cbn [bind]. eauto.
Qed.
End Agreement.
Print Assumptions C127_accepts.
Print Assumptions C128_accepts.
Print Assumptions C127_change_partial.
Print Assumptions C127_positive_partial.
Print Assumptions C127_range_partial.
Print Assumptions C127_negative_refuted.
Print Assumptions C128_change_partial.
Print Assumptions C128_positive_partial.
Print Assumptions C128_range_partial.
Print Assumptions C128_zero_refuted.

(* ------------------------------------------------------------------ examples *)
(* two parameters; noise, samples and fitnesses are numbers; one of the sigma gradients is -infinity *)
Definition ex_draw (_ : bool) (_ : list num) (_ : list xr) (popsize z : nat) : nat := (popsize + z)%nat.
Definition ex_gradients (_ : dist) (_ : list num) (_ : list xr) (v e : nat) (_ : bool) (_ : option string) : list R * list xr := ([1; INR e], [RF 1; RNI]).
Definition ex_evaluate (v z : nat) : nat := (v * z)%nat.
Lemma ex_per_parameter : per_parameter 2 ex_gradients.
Proof. intros ? ? ? ? ? ? ?. split; reflexivity. Qed.
(* PGPE with its default settings *)
Example C127_example : exists s0 f0,
  pgpe_class (values := nat) (evals := nat) 10 (1 / 2) (1 / 10) true (Some "centered"%string) [5; 6] (Some (RScalar 2)) None None None (Some (LScalar (1 / 5))) (Some "clipup"%string) None true = Ok s0 /\
  pgpe [5; 6] (1 / 2) (1 / 10) "max" (Some "centered"%string) (Some "clipup"%string) None (Some (RScalar 2)) None None None (Some (LScalar (1 / 5))) true = Ok f0 /\
  forall zs z, exists s f, run ex_draw ex_gradients ex_evaluate s0 (zs ++ [z]) = Ok s /\ pgpe_loop ex_draw ex_gradients ex_evaluate f0 10 zs = Ok f /\
    same_state ex_draw ex_evaluate 2 10 s f z.
Proof.
  eexists (mkAlgo 10 (1 / 2) (1 / 10) (Some "centered"%string) true (mkDist true (Some "num_directions"%string) (Some "num_directions"%string) None) None None
    (Some (LScalar (1 / 5))) [Some 5; Some 6] [RF 2; RF 2] (CClip {| stepsize := 1 / 2; momentum := 9 / 10; max_speed := 1 / 2 * 2; solution_length := 2; velocity := Some [0; 0] |}) None), _.
  assert (HC : pgpe_class (values := nat) (evals := nat) 10 (1 / 2) (1 / 10) true (Some "centered"%string) [5; 6] (Some (RScalar 2)) None None None (Some (LScalar (1 / 5))) (Some "clipup"%string) None true
    = Ok (mkAlgo 10 (1 / 2) (1 / 10) (Some "centered"%string) true (mkDist true (Some "num_directions"%string) (Some "num_directions"%string) None) None None
    (Some (LScalar (1 / 5))) [Some 5; Some 6] [RF 2; RF 2] (CClip {| stepsize := 1 / 2; momentum := 9 / 10; max_speed := 1 / 2 * 2; solution_length := 2; velocity := Some [0; 0] |}) None)).
  { unfold pgpe_class, gaussian_init. cbn. unfold clipup_init. cbv zeta. destruct (Rlt_dec (1 / 2) 0); [lra|]. destruct (Rlt_dec (9 / 10) 0); [lra|].
    destruct (Rlt_dec 1 (9 / 10)); [lra|]. destruct (Rlt_dec (1 / 2 * 2) 0); [lra|]. reflexivity. }
  split; [exact HC|]. split; [reflexivity|]. intros zs z.
  refine (C127_change_partial ex_draw ex_gradients ex_evaluate 10 (1 / 2) (1 / 10) true "centered" [5; 6] (Some (RScalar 2)) None None None _ (Some "clipup"%string) None true _ _ [2; 2] HC eq_refl ex_per_parameter _ eq_refl _ zs z).
  - split; [discriminate|]. cbn. intros i c E. inversion E; subst. split; [lra|intros; lra].
  - intros i x E. destruct i as [|[|i]]; cbn in E; try (inversion E; subst; cbn; split; [lra|split; discriminate]). destruct i; discriminate.
Qed.
Example C128_example : exists s0 f0,
  cem_class (values := nat) (evals := nat) 10 (1 / 2) false [5; 6] (Some (RScalar 2)) None (Some (LScalar 1)) (Some (LVec [3; 4])) None = Ok s0 /\
  cem [5; 6] (1 / 2) "min" (Some (RScalar 2)) None (Some (LScalar 1)) (Some (LVec [3; 4])) None = Ok f0 /\
  forall zs z, exists s, run ex_draw ex_gradients ex_evaluate s0 (zs ++ [z]) = Ok s /\
    same_state_cem ex_draw ex_evaluate 10 s (cem_loop ex_draw ex_gradients ex_evaluate f0 10 zs) z.
Proof.
  eexists _, _. split; [reflexivity|]. split; [reflexivity|]. intros zs z.
  refine (C128_range_partial ex_draw ex_gradients ex_evaluate 10 (1 / 2) false [5; 6] (Some (RScalar 2)) None (Some (LScalar 1)) (Some (LVec [3; 4])) _ _ eq_refl eq_refl ex_per_parameter _ _ zs z).
  - split; [discriminate|]. split; [discriminate|]. intros i l [E|E]; cbn in E; [inversion E; lra|]. destruct i as [|[|i]]; cbn in E; try (inversion E; lra). destruct i; discriminate.
  - repeat (apply Forall_cons; [right; eexists; (split; [reflexivity|lra])|]); apply Forall_nil.
Qed.
(* without limits, the gradient 1 decreased to -30 leads below zero at learning rate 1/10 *)
Definition ex_down (_ : dist) (_ : list num) (_ : list xr) (v e : nat) (_ : bool) (_ : option string) : list R * list xr := ([1], [RF (-30)]).
Example C127_negative_example : exists s0 f0 s' f',
  pgpe_class (values := nat) (evals := nat) 10 (1 / 2) (1 / 10) false (Some "raw"%string) [5] (Some (RScalar 2)) None None None None (Some "sgd"%string) None false = Ok s0 /\
  pgpe [5] (1 / 2) (1 / 10) "min" (Some "raw"%string) (Some "sgd"%string) None (Some (RScalar 2)) None None None None false = Ok f0 /\
  run ex_draw ex_down ex_evaluate s0 [0%nat; 1%nat] = Ok s' /\ pgpe_loop ex_draw ex_down ex_evaluate f0 10 [0%nat] = Ok f' /\
  nth_error (a_sigma s') 0 = Some (RF (2 + 1 / 10 * -30)) /\ 2 + 1 / 10 * -30 < 0 /\ nth_error (p_stdev f') 0 = Some (RF 0).
Proof.
  assert (HC : pgpe_class (values := nat) (evals := nat) 10 (1 / 2) (1 / 10) false (Some "raw"%string) [5] (Some (RScalar 2)) None None None None (Some "sgd"%string) None false
    = Ok (mkAlgo 10 (1 / 2) (1 / 10) (Some "raw"%string) false (mkDist false (Some "num_solutions"%string) (Some "num_solutions"%string) None) None None None
        [Some 5] [RF 2] (CTorch (WSgd (mkTSgd (1 / 2) 0 0 false 1 None))) None)).
  { unfold pgpe_class, gaussian_init. cbn. unfold sgd_class, tsgd_init. cbv zeta. cbn [andb]. destruct (Rlt_dec (1 / 2) 0); [lra|]. destruct (Rlt_dec 0 0); [lra|]. reflexivity. }
  set (s0 := mkAlgo _ _ _ _ _ _ _ _ _ _ _ _ _) in HC.
  destruct (C127_negative_refuted ex_draw ex_down ex_evaluate 10 (1 / 2) (1 / 10) false "raw" [5] (Some (RScalar 2)) None (Some "sgd"%string) None false _ _ [] 0%nat 1%nat
    (fill_and_eval_pop ex_draw ex_evaluate s0 0%nat) 10%nat 0%nat 0%nat 2 (-30) HC eq_refl) as (s' & f' & R & LP & A & B & C).
  - intros ? ? ? ? ? ? ?. split; reflexivity.
  - intros k s. destruct k as [|k]; cbn; intros E; [|rewrite firstn_nil in E; cbn in E]; inversion E; subst; repeat (apply Forall_cons; [right; eexists; (split; [reflexivity|lra])|]); apply Forall_nil.
  - reflexivity.
  - reflexivity.
  - reflexivity.
  - reflexivity.
  - lra.
  - eexists s0, _, s', f'. split; [exact HC|]. split; [reflexivity|]. split; [exact R|]. split; [exact LP|]. split; auto. split; auto. lra.
Qed.
(* an odd population size is accepted by CEM and by non-symmetric PGPE, not by symmetric PGPE *)
Example C128_accepts_example :
  (exists s0, cem_class (values := nat) (evals := nat) 7 (1 / 2) false [5; 6] None (Some (RScalar 2)) None None None = Ok s0) /\
  exists f0, pgpe [5; 6] (1 / 2) (1 / 10) "max" (Some "centered"%string) (Some "clipup"%string) None None (Some (RScalar 2)) None None None true = Ok f0 /\
  (forall z, pgpe_ask ex_draw f0 7 z = Err ValueError) /\ forall z, pgpe_ask ex_draw f0 8 z = Ok (8 + z)%nat.
Proof.
  split.
  - destruct (cem [5; 6] (1 / 2) "min" None (Some (RScalar 2)) None None None) as [f0|] eqn:F; [|discriminate].
    exact (C128_accepts (values := nat) (evals := nat) [5; 6] (1 / 2) false None (Some (RScalar 2)) None None None f0 F 7).
  - eexists. split; [reflexivity|]. split; reflexivity.
Qed.

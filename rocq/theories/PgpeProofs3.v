(* The searches of both interfaces simulate each other. *)
From Coq Require Import Reals Lra Lia String.
From Verif Require Import Prelude RollProofs ExtR ClipUpModel FuncModel FuncSpec FuncProofs FuncProofs2 FuncProps PgpeModel PgpeSpec PgpeProofs PgpeProofs2.
Open Scope R_scope.

(* functional limits are those of the class, with defaults *)
Definition limits_match (n : nat) (mn mx mc : option rlimit) (fn fx fc : list xr) : Prop :=
  as_vector_like_center n (RF 0) mn = Ok fn /\ as_vector_like_center n RPI mx = Ok fx /\ as_vector_like_center n RPI mc = Ok fc.
Lemma limits_fit n mn mx mc fn fx fc : (0 < n)%nat -> limits_match n mn mx mc fn fx fc ->
  fitting n mn /\ fitting n mx /\ fitting n mc /\ length fn = n /\ length fx = n /\ length fc = n.
Proof.
  intros P (A & B & C). destruct (vector_nth n _ _ _ 0 A P) as (? & ? & _). destruct (vector_nth n _ _ _ 0 B P) as (? & ? & _).
  destruct (vector_nth n _ _ _ 0 C P) as (? & ? & _). auto 10.
Qed.
Lemma class_fitting n o : fitting n o -> class_limit n o = Ok o.
Proof. destruct o as [[x|l]|]; cbn; auto. intros ->. rewrite Nat.eqb_refl. auto. Qed.
(* a vector agrees when its components do *)
Lemma sigma_agree n mn mx mc fn fx fc o t : (0 < n)%nat -> limits_match n mn mx mc fn fx fc -> length o = n -> length t = n ->
  (forall i x y, nth_error o i = Some x -> nth_error t i = Some y ->
     celem (limit_of mn i) (limit_of mx i) (limit_of mc i) x y =
     felem (dl (limit_of mn i)) (du (limit_of mx i)) (du (limit_of mc i)) x y) ->
  rmodify_tensor o t mn mx mc = rmodify_vector o t fn fx fc.
Proof.
  intros P M Lo Lt H. destruct (limits_fit _ _ _ _ _ _ _ P M) as (F1 & F2 & F3 & L1 & L2 & L3). destruct M as (A & B & C).
  apply nth_error_ext. intros i. destruct (Nat.lt_ge_cases i n) as [L|L].
  - destruct (nth_error o i) as [x|] eqn:X; [|apply nth_error_None in X; lia]. destruct (nth_error t i) as [y|] eqn:Y; [|apply nth_error_None in Y; lia].
    rewrite (tensor_nth n _ _ _ _ _ _ _ _ Lo Lt F1 F2 F3 X Y), (H i x y X Y). symmetry. apply rvector_nth; auto.
    + destruct (vector_nth n _ _ _ i A L) as (_ & _ & ->). destruct (limit_of mn i); auto.
    + destruct (vector_nth n _ _ _ i B L) as (_ & _ & ->). destruct (limit_of mx i); auto.
    + destruct (vector_nth n _ _ _ i C L) as (_ & _ & ->). destruct (limit_of mc i); auto.
  - rewrite !(proj2 (nth_error_None _ _)); auto; [rewrite (rvector_length n); auto|rewrite (tensor_length n); auto].
Qed.
Definition moved (lr : R) (o g : list xr) : list xr := map2 radd o (map (rmul (RF lr)) g).
Lemma moved_length lr o g n : length o = n -> length g = n -> length (moved lr o g) = n.
Proof. intros. unfold moved. rewrite map2_length, map_length. lia. Qed.

(* first guard: a limited change *)
Definition ok_change (mn mx : option rlimit) (o : list xr) : Prop :=
  forall i x, nth_error o i = Some x -> x = RNaN \/ exists y, x = RF y /\ within (limit_of mn i) (limit_of mx i) y.
Lemma guard_change n mn mx mc fn fx fc lr o g : (0 < n)%nat -> limits_match n mn mx mc fn fx fc -> length o = n -> length g = n ->
  change_limited mn mc -> ok_change mn mx o ->
  rmodify_tensor o (moved lr o g) mn mx mc = rmodify_vector o (moved lr o g) fn fx fc /\ ok_change mn mx (rmodify_tensor o (moved lr o g) mn mx mc).
Proof.
  intros P M Lo Lg (NC & HC) OK. destruct (limits_fit _ _ _ _ _ _ _ P M) as (F1 & F2 & F3 & L1 & L2 & L3).
  pose proof (moved_length lr o g n Lo Lg) as Lt.
  assert (H : forall i x y, nth_error o i = Some x -> nth_error (moved lr o g) i = Some y ->
    celem (limit_of mn i) (limit_of mx i) (limit_of mc i) x y = felem (dl (limit_of mn i)) (du (limit_of mx i)) (du (limit_of mc i)) x y /\
    (celem (limit_of mn i) (limit_of mx i) (limit_of mc i) x y = RNaN \/
     exists z, celem (limit_of mn i) (limit_of mx i) (limit_of mc i) x y = RF z /\ within (limit_of mn i) (limit_of mx i) z)).
  { intros i x y X Y. assert (I : (i < n)%nat) by (rewrite <- Lo; apply nth_error_Some; congruence).
    destruct (OK i x X) as [-> |(v & -> & W)].
    - assert (y = RNaN) as ->.
      { unfold moved in Y. rewrite map2_nth_error, X in Y. destruct (nth_error (map _ _) i); inversion Y. reflexivity. }
      destruct (nan_case (limit_of mn i) (limit_of mx i) (limit_of mc i) (du (limit_of mc i))) as [-> ->]. auto.
    - destruct (limit_of mc i) as [c|] eqn:EC; [|apply (limit_none n) in EC; auto; contradiction].
      destruct (HC i c EC) as [C0 C1]. apply change_case; auto. intros E. apply C1. eapply limit_none; eauto. }
  split.
  - apply (sigma_agree n); auto. intros. apply H; auto.
  - intros i x X. assert (I : (i < n)%nat). { rewrite <- (tensor_length n o (moved lr o g) mn mx mc) by auto. apply nth_error_Some. congruence. }
    destruct (nth_error o i) as [x0|] eqn:X0; [|apply nth_error_None in X0; lia].
    destruct (nth_error (moved lr o g) i) as [y0|] eqn:Y0; [|apply nth_error_None in Y0; lia].
    rewrite (tensor_nth n _ _ _ _ _ _ _ _ Lo Lt F1 F2 F3 X0 Y0) in X. inversion X; subst x. apply (H i x0 y0); auto.
Qed.
(* second guard: no limit of the change, and the outcome is positive *)
Lemma guard_positive n mn mx fn fx fc lr o g : (0 < n)%nat -> limits_match n mn mx None fn fx fc -> length o = n -> length g = n ->
  Forall positive o -> Forall positive (rmodify_tensor o (moved lr o g) mn mx None) ->
  rmodify_tensor o (moved lr o g) mn mx None = rmodify_vector o (moved lr o g) fn fx fc.
Proof.
  intros P M Lo Lg PO PT. destruct (limits_fit _ _ _ _ _ _ _ P M) as (F1 & F2 & F3 & L1 & L2 & L3).
  pose proof (moved_length lr o g n Lo Lg) as Lt. apply (sigma_agree n); auto. intros i x y X Y.
  pose proof (proj1 (Forall_forall _ _) PO x (nth_error_In _ _ X)) as Px.
  pose proof (tensor_nth n _ _ _ _ _ _ _ _ Lo Lt F1 F2 F3 X Y) as T.
  pose proof (proj1 (Forall_forall _ _) PT _ (nth_error_In _ _ T)) as Pt. cbn [limit_of] in *.
  destruct Px as [-> |(v & -> & V)].
  - assert (y = RNaN) as ->.
    { unfold moved in Y. rewrite map2_nth_error, X in Y. destruct (nth_error (map _ _) i); inversion Y. reflexivity. }
    destruct (nan_case (limit_of mn i) (limit_of mx i) None (du None)) as [-> ->]. auto.
  - apply positive_case; auto.
Qed.
Lemma range_positive n mn mx o t : length o = n -> length t = n -> fitting n mn -> fitting n mx -> range_limited mn mx ->
  Forall positive (rmodify_tensor o t mn mx None).
Proof.
  intros Lo Lt F1 F2 (N1 & N2 & H). apply Forall_forall. intros x X. apply In_nth_error in X as (i & X).
  assert (I : (i < n)%nat). { rewrite <- (tensor_length n o t mn mx None) by (auto; exact I). apply nth_error_Some. congruence. }
  destruct (nth_error o i) as [x0|] eqn:X0; [|apply nth_error_None in X0; lia].
  destruct (nth_error t i) as [y0|] eqn:Y0; [|apply nth_error_None in Y0; lia].
  rewrite (tensor_nth n _ _ _ _ None _ _ _ Lo Lt F1 F2 Logic.I X0 Y0) in X. inversion X; subst x. clear X. cbn [limit_of].
  destruct (limit_of mn i) as [l|] eqn:El; [|apply (limit_none n) in El; auto; contradiction].
  destruct (limit_of mx i) as [u|] eqn:Eu; [|apply (limit_none n) in Eu; auto; contradiction].
  apply range_case; [apply (H i)|apply (H i)]; auto.
Qed.

Lemma last_cons' {A} (l : list A) : forall a d, last (a :: l) d = last l a.
Proof. induction l as [|b l IH]; intros a d; auto. change (last (a :: b :: l) d) with (last (b :: l) d). rewrite !IH. auto. Qed.

Section Simulation.
  Context {values evals noise : Type}.
  Variable draw : bool -> list num -> list xr -> nat -> noise -> values.
  Variable compute_gradients : dist -> list num -> list xr -> values -> evals -> bool -> option string -> list R * list xr.
  Variable evaluate : values -> noise -> evals.
  Notation algo := (algo values evals).
  Notation step := (step draw compute_gradients evaluate).
  Notation run := (run draw compute_gradients evaluate).
  Notation pgpe_tell := (pgpe_tell compute_gradients).
  Notation pgpe_loop := (pgpe_loop draw compute_gradients evaluate).
  Notation pgpe_ask := (pgpe_ask draw).
  Notation cem_tell := (cem_tell compute_gradients).
  Notation cem_loop := (cem_loop draw compute_gradients evaluate).
  Notation cem_ask := (cem_ask draw).

  (* what does not change *)
  Definition settings (s : algo) := (a_popsize s, a_center_lr s, a_stdev_lr s, a_ranking s, a_maximize s, a_dist s, (a_min s, a_max s, a_change s)).
  Lemma settings_inv s' s : settings s' = settings s -> a_popsize s' = a_popsize s /\ a_center_lr s' = a_center_lr s /\ a_stdev_lr s' = a_stdev_lr s /\
    a_ranking s' = a_ranking s /\ a_maximize s' = a_maximize s /\ a_dist s' = a_dist s /\ a_min s' = a_min s /\ a_max s' = a_max s /\ a_change s' = a_change s.
  Proof. unfold settings. intros E. inversion E. auto 10. Qed.
  Definition gradient_at (s : algo) (v : values) (e : evals) := compute_gradients (a_dist s) (a_mu s) (a_sigma s) v e (a_maximize s) (a_ranking s).
  Lemma class_step s z v e c d : a_pop s = Some (v, e) -> follow_mu (a_center_lr s) (a_opt s) (fst (gradient_at s v e)) = Ok (c, d) ->
    exists s', step s z = Ok s' /\ settings s' = settings s /\ a_opt s' = c /\ a_mu s' = map2 nadd (a_mu s) d /\
      a_sigma s' = rmodify_tensor (a_sigma s) (moved (a_stdev_lr s) (a_sigma s) (snd (gradient_at s v e))) (a_min s) (a_max s) (a_change s) /\
      (let w := draw (d_symmetric (a_dist s)) (a_mu s') (a_sigma s') (a_popsize s) z in a_pop s' = Some (w, evaluate w z)).
  Proof.
    intros P F. unfold PgpeModel.step. rewrite P. unfold update_distribution. unfold gradient_at in *. rewrite F. cbn [bind fst snd].
    eexists. split; [reflexivity|]. unfold settings, fill_and_eval_pop, moved. cbn. repeat split; auto.
  Qed.

  Lemma run_settings zs : forall s s', run s zs = Ok s' -> settings s' = settings s.
  Proof.
    induction zs as [|z zs IH]; intros s s' H; cbn [PgpeModel.run] in H; [inversion H; auto|].
    destruct (step s z) as [s1|] eqn:E; [|discriminate]. cbn [bind] in H. rewrite (IH _ _ H).
    unfold PgpeModel.step in E. destruct (a_pop s) as [[v e]|]; [|inversion E; reflexivity].
    unfold update_distribution in E. destruct (follow_mu _ _ _) as [[c d]|]; [|discriminate]. cbn [bind] in E. inversion E. reflexivity.
  Qed.

  Section Guard.
    (* a guard of the steps which the class is going to make *)
    Variable G : algo -> list noise -> Prop.
    Definition guards (n : nat) : Prop := forall s z zs s' g fn fx fc, G s (z :: zs) -> step s z = Ok s' -> length (a_sigma s) = n -> length g = n ->
      settings s' = settings s -> limits_match n (a_min s) (a_max s) (a_change s) fn fx fc ->
      a_sigma s' = rmodify_tensor (a_sigma s) (moved (a_stdev_lr s) (a_sigma s) g) (a_min s) (a_max s) (a_change s) ->
      a_sigma s' = rmodify_vector (a_sigma s) (moved (a_stdev_lr s) (a_sigma s) g) fn fx fc /\ G s' zs.

    (* ---------------------------------------------------------- PGPE *)
    Definition same_pgpe (n : nat) (s : algo) (f : pgpe_state) (z : noise) : Prop :=
      a_mu s = opt_ask n (p_opt f) /\ a_sigma s = p_stdev f /\ length (a_sigma s) = n /\ osim n (a_opt s) (p_opt f) /\
      p_n f = n /\ a_stdev_lr s = p_stdev_lr f /\ a_ranking s = Some (p_ranking f) /\ a_maximize s = p_maximize f /\
      a_dist s = pgpe_dist (p_symmetric f) /\ limits_match n (a_min s) (a_max s) (a_change s) (p_min f) (p_max f) (p_change f) /\
      p_symmetric f && negb (Nat.even (a_popsize s)) = false /\
      let w := draw (p_symmetric f) (a_mu s) (a_sigma s) (a_popsize s) z in a_pop s = Some (w, evaluate w z).
    Lemma same_pgpe_step n s f z z' zs : per_parameter n compute_gradients -> guards n -> (0 < n)%nat -> same_pgpe n s f z -> G s (z' :: zs) ->
      exists s' v, step s z' = Ok s' /\ pgpe_ask f (a_popsize s) z = Ok v /\ a_popsize s' = a_popsize s /\
        same_pgpe n s' (pgpe_tell f v (evaluate v z)) z' /\ G s' zs.
    Proof.
      intros PP HG P0 (E1 & E2 & L & O & N & E3 & E4 & E5 & E6 & LM & EV & EP) GS. cbv zeta in EP. set (v := draw _ _ _ _ _) in EP.
      destruct (PP (a_dist s) (a_mu s) (a_sigma s) v (evaluate v z) (a_maximize s) (a_ranking s)) as [L1 L2].
      fold (gradient_at s v (evaluate v z)) in L1, L2. destruct (osim_step n (a_opt s) (p_opt f) (a_center_lr s) _ O L1) as (c' & d & F & O' & A').
      destruct (class_step s z' v (evaluate v z) c' d EP F) as (s' & ST & SS & EO & EM & ES & EP').
      destruct (HG s z' zs s' _ _ _ _ GS ST L L2 SS LM ES) as [EV' GS'].
      exists s', v. split; auto. split. { unfold PgpeModel.pgpe_ask. rewrite EV, N, <- E1, <- E2. reflexivity. }
      destruct (settings_inv _ _ SS) as (S1 & S2 & S3 & S4 & S5 & S6 & S7 & S8 & S9). split; auto. split; auto.
      assert (GE : compute_gradients (pgpe_dist (p_symmetric f)) (opt_ask (p_n f) (p_opt f)) (p_stdev f) v (evaluate v z) (p_maximize f) (Some (p_ranking f))
                   = gradient_at s v (evaluate v z)).
      { unfold gradient_at. rewrite E6, E5, E4, E1, E2, N. reflexivity. }
      unfold PgpeModel.pgpe_tell. cbv zeta. rewrite GE. unfold same_pgpe. cbn [p_opt p_stdev p_n p_stdev_lr p_ranking p_maximize p_symmetric p_min p_max p_change].
      rewrite S1, S3, S4, S5, S6, S7, S8, S9, EO. fold (moved (p_stdev_lr f) (p_stdev f) (snd (gradient_at s v (evaluate v z)))).
      split; [rewrite EM, A', E1; auto|]. split; [rewrite EV', E2, E3; auto|].
      split. { rewrite ES. destruct (limits_fit _ _ _ _ _ _ _ P0 LM) as (F1 & F2 & F3 & _). apply tensor_length; auto. apply moved_length; auto. }
      repeat (split; auto). rewrite E6 in EP'. exact EP'.
    Qed.
    Lemma same_pgpe_run n : per_parameter n compute_gradients -> guards n -> (0 < n)%nat -> forall zs s f z, same_pgpe n s f z -> G s zs ->
      exists s' f', run s zs = Ok s' /\ pgpe_loop f (a_popsize s) (removelast (z :: zs)) = Ok f' /\
        same_pgpe n s' f' (last zs z) /\ a_popsize s' = a_popsize s.
    Proof.
      intros PP HG P0. induction zs as [|z' zs IH]; intros s f z SM GS.
      - exists s, f. cbn. auto.
      - destruct (same_pgpe_step n s f z z' zs PP HG P0 SM GS) as (s1 & v & ST & AK & PS & SM1 & GS1).
        destruct (IH s1 _ z' SM1 GS1) as (s' & f' & R & LP & SM' & PS'). exists s', f'.
        cbn [PgpeModel.run]. rewrite ST. cbn [bind]. split; auto.
        change (removelast (z :: z' :: zs)) with (z :: removelast (z' :: zs)). cbn [PgpeModel.pgpe_loop]. rewrite AK. cbn [bind].
        rewrite PS in LP. split; auto. split; [|congruence]. rewrite last_cons'. auto.
    Qed.

    (* ---------------------------------------------------------- CEM *)
    Definition same_cem (n : nat) (s : algo) (f : cem_state) (z : noise) : Prop :=
      a_mu s = m_center f /\ a_sigma s = m_stdev f /\ length (a_sigma s) = n /\ length (a_mu s) = n /\ a_opt s = CNone /\
      a_center_lr s = 1 /\ a_stdev_lr s = 1 /\ a_ranking s = None /\ a_maximize s = m_maximize f /\
      a_dist s = mkDist false None None (Some (m_ratio f)) /\ limits_match n (a_min s) (a_max s) (a_change s) (m_min f) (m_max f) (m_change f) /\
      let w := draw false (a_mu s) (a_sigma s) (a_popsize s) z in a_pop s = Some (w, evaluate w z).
    Lemma rmul_1 x : rmul (RF 1) x = x.
    Proof.
      destruct x as [| |x|]; cbn; auto; try (rewrite Rmult_1_l; auto);
        destruct (Req_EM_T 1 0); [lra| |lra|]; destruct (Rlt_dec 1 0); auto; lra.
    Qed.
    Lemma same_cem_step n s f z z' zs : per_parameter n compute_gradients -> guards n -> (0 < n)%nat -> same_cem n s f z -> G s (z' :: zs) ->
      exists s', step s z' = Ok s' /\ a_popsize s' = a_popsize s /\ G s' zs /\
        (let v := cem_ask f (a_popsize s) z in same_cem n s' (cem_tell f v (evaluate v z)) z').
    Proof.
      intros PP HG P0 (E1 & E2 & L & LU & O & C1 & C2 & E4 & E5 & E6 & LM & EP) GS. cbv zeta in EP. set (v := draw _ _ _ _ _) in EP.
      destruct (PP (a_dist s) (a_mu s) (a_sigma s) v (evaluate v z) (a_maximize s) (a_ranking s)) as [L1 L2].
      fold (gradient_at s v (evaluate v z)) in L1, L2.
      assert (F : follow_mu (a_center_lr s) (a_opt s) (fst (gradient_at s v (evaluate v z))) = Ok (CNone, map Some (fst (gradient_at s v (evaluate v z))))).
      { rewrite O, C1. cbn [follow_mu]. do 2 f_equal. apply map_ext. intros. f_equal. ring. }
      destruct (class_step s z' v (evaluate v z) _ _ EP F) as (s' & ST & SS & EO & EM & ES & EP').
      destruct (HG s z' zs s' _ _ _ _ GS ST L L2 SS LM ES) as [EV' GS'].
      exists s'. split; auto.
      destruct (settings_inv _ _ SS) as (S1 & S2 & S3 & S4 & S5 & S6 & S7 & S8 & S9). split; auto. split; auto.
      assert (EQ : cem_ask f (a_popsize s) z = v). { unfold PgpeModel.cem_ask, v. congruence. } cbv zeta. rewrite ?S1, EQ.
      assert (GE : compute_gradients (mkDist false None None (Some (m_ratio f))) (m_center f) (m_stdev f) v (evaluate v z) (m_maximize f) None
                   = gradient_at s v (evaluate v z)).
      { unfold gradient_at. rewrite E6, E5, E4, E1, E2. reflexivity. }
      unfold PgpeModel.cem_tell. cbv zeta. rewrite GE. unfold same_cem. cbn [m_center m_stdev m_min m_max m_change m_ratio m_maximize].
      rewrite S1, S2, S3, S4, S5, S6, S7, S8, S9, EO.
      split; [rewrite EM, E1; auto|].
      split. { rewrite EV', E2, C2. unfold moved. rewrite (map_ext _ (fun x => x)) by (apply rmul_1). rewrite map_id. auto. }
      split. { rewrite ES. destruct (limits_fit _ _ _ _ _ _ _ P0 LM) as (F1 & F2 & F3 & _). apply tensor_length; auto. apply moved_length; auto. }
      split. { rewrite EM, map2_length, map_length. lia. }
      repeat (split; auto). rewrite E6 in EP'. exact EP'.
    Qed.
    Lemma same_cem_run n : per_parameter n compute_gradients -> guards n -> (0 < n)%nat -> forall zs s f z, same_cem n s f z -> G s zs ->
      exists s', run s zs = Ok s' /\ same_cem n s' (cem_loop f (a_popsize s) (removelast (z :: zs))) (last zs z) /\ a_popsize s' = a_popsize s.
    Proof.
      intros PP HG P0. induction zs as [|z' zs IH]; intros s f z SM GS.
      - exists s. cbn. auto.
      - destruct (same_cem_step n s f z z' zs PP HG P0 SM GS) as (s1 & ST & PS & GS1 & SM1).
        destruct (IH s1 _ z' SM1 GS1) as (s' & R & LP & PS'). exists s'.
        cbn [PgpeModel.run]. rewrite ST. cbn [bind]. split; auto.
        change (removelast (z :: z' :: zs)) with (z :: removelast (z' :: zs)). cbn [PgpeModel.cem_loop]. cbv zeta.
        rewrite PS in LP. split; [|congruence]. rewrite last_cons'. auto.
    Qed.
  End Guard.

  (* ------------------------------------------------------------ guards *)
  Definition change_guard (s : algo) (zs : list noise) : Prop := change_limited (a_min s) (a_change s) /\ ok_change (a_min s) (a_max s) (a_sigma s).
  Lemma change_guards n : (0 < n)%nat -> guards change_guard n.
  Proof.
    intros P0 s z zs s' g fn fx fc (H1 & H2) _ L Lg SS LM ES. destruct (settings_inv _ _ SS) as (S1 & S2 & S3 & S4 & S5 & S6 & S7 & S8 & S9).
    destruct (guard_change n _ _ _ _ _ _ (a_stdev_lr s) (a_sigma s) g P0 LM L Lg H1 H2) as [E OK]. split; [congruence|].
    unfold change_guard. rewrite S7, S8, S9, ES. auto.
  Qed.
  Definition positive_guard (s : algo) (zs : list noise) : Prop :=
    a_change s = None /\ forall k s', run s (firstn k zs) = Ok s' -> Forall positive (a_sigma s').
  Lemma positive_guards n : (0 < n)%nat -> guards positive_guard n.
  Proof.
    intros P0 s z zs s' g fn fx fc (H1 & H2) ST L Lg SS LM ES. destruct (settings_inv _ _ SS) as (S1 & S2 & S3 & S4 & S5 & S6 & S7 & S8 & S9).
    assert (PO := H2 0%nat s eq_refl). assert (PT : Forall positive (a_sigma s')).
    { apply (H2 1%nat). cbn [firstn PgpeModel.run]. rewrite ST. reflexivity. }
    split.
    - rewrite ES in PT. rewrite ES. rewrite H1 in PT, LM |- *. apply (guard_positive n); auto.
    - split; [congruence|]. intros k s2 R. apply (H2 (S k)). cbn [firstn PgpeModel.run]. rewrite ST. exact R.
  Qed.
  (* with limits of the range, the run remains positive *)
  Definition range_guard (s : algo) (zs : list noise) : Prop := a_change s = None /\ range_limited (a_min s) (a_max s) /\ Forall positive (a_sigma s).
  Lemma range_guards n : (0 < n)%nat -> guards range_guard n.
  Proof.
    intros P0 s z zs s' g fn fx fc (H1 & H2 & H3) ST L Lg SS LM ES. destruct (settings_inv _ _ SS) as (S1 & S2 & S3 & S4 & S5 & S6 & S7 & S8 & S9).
    destruct (limits_fit _ _ _ _ _ _ _ P0 LM) as (F1 & F2 & F3 & _).
    assert (PT : Forall positive (a_sigma s')).
    { rewrite ES, H1. apply (range_positive n); auto. apply moved_length; auto. }
    split.
    - rewrite ES in PT. rewrite ES. rewrite H1 in PT, LM |- *. apply (guard_positive n); auto.
    - unfold range_guard. rewrite S7, S8, S9. auto.
  Qed.

  (* ------------------------------------------------------------ beginnings *)
  Lemma class_limit_ok n o o' : class_limit n o = Ok o' -> o' = o.
  Proof. destruct o as [[x|l]|]; cbn; try (intros E; inversion E; auto). destruct (Nat.eqb _ _); inversion H0. auto. Qed.
  Lemma sigma_length n dt dv stdev radius t : class_sigma n dt dv stdev radius = Ok t -> length (t_data t) = n.
  Proof.
    unfold class_sigma. destruct (to_stdev_init n stdev radius) as [[x|l]|]; cbn [bind]; try discriminate.
    - intros E; inversion E; subst. apply repeat_length.
    - destruct (Nat.eqb_spec (length l) n); [|discriminate]. intros E; inversion E; subst. auto.
  Qed.
  Lemma gaussian_init_inv d even popsize clr slr maximize ranking center stdev radius mn mx mc optimizer oconf (s : algo) :
    gaussian_init d even popsize clr slr maximize ranking center stdev radius mn mx mc optimizer oconf = Ok s ->
    even && negb (Nat.even popsize) = false /\
    exists sigma opt, class_sigma (length center) Float32 Cpu stdev radius = Ok sigma /\ class_optimizer (length center) clr optimizer oconf = Ok opt /\
      s = mkAlgo popsize clr slr ranking maximize d mn mx mc (map Some center) (map RF (t_data sigma)) opt None.
  Proof.
    unfold gaussian_init. cbv zeta. intros H. destruct (even && negb (Nat.even popsize)); [discriminate|]. split; auto.
    destruct (class_sigma _ _ _ _ _) as [sigma|] eqn:E1; [|discriminate]. cbn [bind] in H.
    destruct (class_optimizer _ _ _ _) as [opt|] eqn:E2; [|discriminate]. cbn [bind] in H.
    destruct (class_limit _ mn) as [mn'|] eqn:E3; [|discriminate]. cbn [bind] in H.
    destruct (class_limit _ mx) as [mx'|] eqn:E4; [|discriminate]. cbn [bind] in H.
    destruct (class_limit _ mc) as [mc'|] eqn:E5; [|discriminate]. cbn [bind] in H.
    apply class_limit_ok in E3, E4, E5. subst. exists sigma, opt. inversion H. auto.
  Qed.
  Lemma sense_ok maximize : (if String.eqb (sense_name maximize) "min" then Ok false else if String.eqb (sense_name maximize) "max" then Ok true else Err ValueError) = Ok maximize.
  Proof. destruct maximize; reflexivity. Qed.
  Lemma first_step s z : a_pop s = None -> step s z = Ok (fill_and_eval_pop draw evaluate s z).
  Proof. intros E. unfold PgpeModel.step. rewrite E. auto. Qed.
  Definition scalar_radius (radius : option real_or_vector) : Prop := match radius with Some (RVector _) => False | _ => True end.
  Lemma functional_radius dt center stdev radius t : functional_sigma dt center stdev radius = Ok t -> scalar_radius radius.
  Proof. destruct stdev as [[|]|], radius as [[|]|]; cbn; auto; discriminate. Qed.

  Lemma pgpe_begin popsize clr slr maximize ranking center stdev radius mn mx mc optimizer oconf symmetric (s : algo) f z :
    pgpe_class popsize clr slr maximize (Some ranking) center stdev radius mn mx mc optimizer oconf symmetric = Ok s ->
    pgpe center clr slr (sense_name maximize) (Some ranking) optimizer oconf stdev radius mn mx mc symmetric = Ok f ->
    (0 < length center)%nat /\ exists s1, step s z = Ok s1 /\ same_pgpe (length center) s1 f z /\ settings s1 = settings s /\ a_sigma s1 = a_sigma s /\ a_popsize s1 = popsize.
  Proof.
    unfold pgpe_class. cbv zeta. intros HC HF. apply gaussian_init_inv in HC as (EV & sigma & opt & ES & EO & ->).
    unfold pgpe in HF. cbv zeta in HF. destruct (Nat.eqb_spec (length center) 0) as [|NZ]; [discriminate|]. assert (P0 : (0 < length center)%nat) by lia.
    destruct (functional_sigma _ _ _ _) as [sigma'|] eqn:FS; [|discriminate]. cbn [bind] in HF. rewrite sense_ok in HF. cbn [bind] in HF.
    destruct (as_vector_like_center _ (RF 0) mn) as [fn|] eqn:E1; [|discriminate]. cbn [bind] in HF.
    destruct (as_vector_like_center _ RPI mx) as [fx|] eqn:E2; [|discriminate]. cbn [bind] in HF.
    destruct (as_vector_like_center _ RPI mc) as [fc|] eqn:E3; [|discriminate]. cbn [bind] in HF.
    destruct (functional_optimizer _ _ _ _) as [fo|] eqn:E4; [|discriminate]. cbn [bind] in HF. inversion HF; subst f; clear HF.
    assert (SG : sigma' = sigma).
    { pose proof (functional_radius _ _ _ _ _ FS) as SR.
      rewrite (C126_functional_partial Float32 (mkT center Float32 Cpu) stdev radius) in FS; auto. cbn [t_data t_dtype t_device] in FS. congruence. }
    subst sigma'. destruct (osim_init center clr optimizer oconf opt fo EO E4) as [OS OA].
    split; auto. rewrite first_step by auto. eexists. split; [reflexivity|].
    split; [|split; [reflexivity|split; reflexivity]].
    unfold same_pgpe, fill_and_eval_pop. cbn. rewrite OA, map_length, (sigma_length _ _ _ _ _ _ ES).
    repeat (split; auto).
  Qed.
  Lemma cem_begin popsize ratio maximize center stdev radius mn mx mc (s : algo) f z :
    cem_class popsize ratio maximize center stdev radius mn mx mc = Ok s ->
    cem center ratio (sense_name maximize) stdev radius mn mx mc = Ok f ->
    (0 < length center)%nat /\ exists s1, step s z = Ok s1 /\ same_cem (length center) s1 f z /\ settings s1 = settings s /\ a_sigma s1 = a_sigma s /\ a_popsize s1 = popsize.
  Proof.
    unfold cem_class. intros HC HF. apply gaussian_init_inv in HC as (EV & sigma & opt & ES & EO & ->).
    unfold cem in HF. cbv zeta in HF. destruct (Nat.eqb_spec (length center) 0) as [|NZ]; [discriminate|]. assert (P0 : (0 < length center)%nat) by lia.
    destruct (functional_sigma _ _ _ _) as [sigma'|] eqn:FS; [|discriminate]. cbn [bind] in HF.
    destruct (as_vector_like_center _ (RF 0) mn) as [fn|] eqn:E1; [|discriminate]. cbn [bind] in HF.
    destruct (as_vector_like_center _ RPI mx) as [fx|] eqn:E2; [|discriminate]. cbn [bind] in HF.
    destruct (as_vector_like_center _ RPI mc) as [fc|] eqn:E3; [|discriminate]. cbn [bind] in HF. rewrite sense_ok in HF. cbn [bind] in HF.
    inversion HF; subst f; clear HF.
    assert (SG : sigma' = sigma).
    { pose proof (functional_radius _ _ _ _ _ FS) as SR.
      rewrite (C126_functional_partial Float32 (mkT center Float32 Cpu) stdev radius) in FS; auto. cbn [t_data t_dtype t_device] in FS. congruence. }
    subst sigma'. cbn in EO. inversion EO; subst opt.
    split; auto. rewrite first_step by auto. eexists. split; [reflexivity|].
    split; [|split; [reflexivity|split; reflexivity]].
    unfold same_cem, fill_and_eval_pop. cbn. rewrite !map_length, (sigma_length _ _ _ _ _ _ ES).
    repeat (split; auto).
  Qed.
End Simulation.

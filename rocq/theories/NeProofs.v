(* Proofs about the life of neuroevolution problems. *)
From Verif Require Import Prelude NeModel.
Open Scope nat_scope.

Section P.
Variables V F Sg : Type.
Variable nparams : Sg -> nat.
Variable init : nat -> Sg -> list V.
Variable score : Sg -> list V -> F.
Notation proc := (proc V Sg).
Notation problem := (problem V Sg).
Notation heap := (list (netobj V Sg)).
Implicit Types (p : proc) (g : problem) (h : heap).

Definition sig_at h i : option Sg := option_map o_sig (nth_error h i).
Definition spec_sig h (sp : nspec Sg) : option Sg := match sp with NBuild s => Some s | NModule i => sig_at h i end.
Definition inv (s : Sg) p : Prop :=
  (forall i, p_inst p = Some i -> sig_at (p_heap p) i = Some s) /\ (forall sp, p_original p = Some sp -> spec_sig (p_heap p) sp = Some s).
Definition ready p : Prop := p_original p <> None \/ (p_inst p <> None /\ p_prepared p = true).

Lemma sig_at_app h k i s : sig_at h i = Some s -> sig_at (h ++ k) i = Some s.
Proof.
  unfold sig_at. destruct (nth_error h i) eqn:E; [|discriminate]. rewrite nth_error_app1; [rewrite E; auto|]. apply nth_error_Some. congruence.
Qed.
Lemma spec_sig_app h k sp s : spec_sig h sp = Some s -> spec_sig (h ++ k) sp = Some s.
Proof. destruct sp; cbn; auto. apply sig_at_app. Qed.
Lemma instantiate_ok s h sp : spec_sig h sp = Some s -> exists i h', instantiate_net init (Some sp) h = Ok (i, h') /\ sig_at h' i = Some s /\
  (exists k, h' = h ++ k) /\ (forall sp2 s2, spec_sig h sp2 = Some s2 -> spec_sig h' sp2 = Some s2).
Proof.
  destruct sp as [s'|i]; cbn; intros E.
  - injection E as ->. eexists _, _. split; [reflexivity|]. split; [|split].
    + unfold sig_at. rewrite nth_error_app2, Nat.sub_diag by lia. reflexivity.
    + eauto.
    + intros. apply spec_sig_app; auto.
  - exists i, h. split; auto. split; auto. split; auto. exists []. rewrite app_nil_r. auto.
Qed.
Lemma fill_ok s h i v : sig_at h i = Some s -> length v = nparams s ->
  exists h', fill nparams i v h = Ok h' /\ nth_error h' i = Some {| o_sig := s; o_params := v |} /\ (forall j, j <> i -> nth_error h' j = nth_error h j) /\
    (forall j, sig_at h' j = sig_at h j) /\ length h' = length h.
Proof.
  unfold sig_at, fill. intros E L. destruct (nth_error h i) as [o|] eqn:Eo; [|discriminate]. cbn in E. injection E as E. rewrite E, L, Nat.eqb_refl.
  assert (I : i < length h) by (apply nth_error_Some; congruence).
  eexists. split; [reflexivity|]. split; [apply upd_same; auto|]. split; [intros j N; apply upd_other; auto|]. split; [|apply upd_length].
  intros j. rewrite nth_error_upd. destruct (Nat.eqb_spec i j) as [<-|]; auto. rewrite Eo. destruct (Nat.ltb_spec i (length h)); [|lia]. cbn. congruence.
Qed.
Lemma fill_any h i v h' : fill nparams i v h = Ok h' -> (forall j, j <> i -> nth_error h' j = nth_error h j) /\ (forall j, sig_at h' j = sig_at h j) /\ length h' = length h.
Proof.
  unfold fill. destruct (nth_error h i) as [o|] eqn:Eo; [|discriminate]. destruct (_ =? _); [|discriminate]. intros E; injection E as <-.
  split; [intros j N; apply upd_other; auto|]. split; [|apply upd_length].
  intros j. unfold sig_at. rewrite nth_error_upd. destruct (Nat.eqb_spec i j) as [<-|]; auto. rewrite Eo. destruct (Nat.ltb_spec i (length h)) as [|K]; [reflexivity|].
  assert (i < length h) by (apply nth_error_Some; congruence). lia.
Qed.
Lemma spec_sig_ext h h' sp : (forall j, sig_at h' j = sig_at h j) -> spec_sig h' sp = spec_sig h sp.
Proof. intros H. destruct sp; cbn; auto. Qed.

(* parameterize_net, whatever the vector *)
Lemma parameterize_inv s p v p' r : inv s p -> parameterize_net nparams init p v = (p', r) ->
  inv s p' /\ p_original p' = p_original p /\ p_prepared p' = p_prepared p /\ (p_inst p <> None -> p_inst p' <> None).
Proof.
  intros [I1 I2] E. unfold parameterize_net in E. destruct (p_inst p) as [i|] eqn:Ei.
  - pose proof (I1 i eq_refl) as K. destruct (fill nparams i v (p_heap p)) as [h'|e] eqn:Ef; injection E as <- <-; cbn.
    + destruct (fill_any _ _ _ _ Ef) as (A & B & C). split; [split; cbn|split; [auto|split; [auto|congruence]]].
      * intros j Ej. injection Ej as <-. rewrite B. auto.
      * intros sp Es. rewrite (spec_sig_ext _ _ _ B). auto.
    + split; [split; cbn|split; [auto|split; [auto|congruence]]]; auto.
  - destruct (p_original p) as [sp|] eqn:Eo.
    2:{ cbn in E. injection E as <- <-. split; [|split; [congruence|split; [auto|congruence]]]. split; [rewrite Ei; discriminate|rewrite Eo; discriminate]. }
    destruct (instantiate_ok s (p_heap p) sp (I2 sp eq_refl)) as (i & h1 & E1 & S1 & _ & K1). rewrite E1 in E.
    destruct (fill nparams i v h1) as [h'|e] eqn:Ef; injection E as <- <-; cbn.
    + destruct (fill_any _ _ _ _ Ef) as (A & B & C). split; [split; cbn|split; [auto|split; [auto|congruence]]].
      * intros j Ej. injection Ej as <-. rewrite B. auto.
      * intros sp' Es. rewrite (spec_sig_ext _ _ _ B). auto.
    + split; [split; cbn|split; [auto|split; [auto|congruence]]]; [intros j Ej; injection Ej as <-; auto|]. intros sp' Es. auto.
Qed.
(* with a vector of the right length *)
Lemma parameterize_ok s p v : inv s p -> (p_original p <> None \/ p_inst p <> None) -> length v = nparams s ->
  exists p' i, parameterize_net nparams init p v = (p', Ok i) /\ p_inst p' = Some i /\ nth_error (p_heap p') i = Some {| o_sig := s; o_params := v |}.
Proof.
  intros [I1 I2] U L. unfold parameterize_net. destruct (p_inst p) as [i|] eqn:Ei.
  - destruct (fill_ok s (p_heap p) i v (I1 i eq_refl) L) as (h' & -> & N & _). eexists _, i. split; [reflexivity|]. auto.
  - destruct (p_original p) as [sp|] eqn:Eo; [|destruct U; contradiction].
    destruct (instantiate_ok s (p_heap p) sp (I2 sp eq_refl)) as (i & h1 & -> & S1 & _ & K1).
    destruct (fill_ok s h1 i v S1 L) as (h' & -> & N & _). eexists _, i. split; [reflexivity|]. auto.
Qed.
Lemma evaluate_one_inv s p v p' r : inv s p -> evaluate_one nparams init score p v = (p', r) ->
  inv s p' /\ p_original p' = p_original p /\ p_prepared p' = p_prepared p /\ (p_inst p <> None -> p_inst p' <> None).
Proof.
  intros I E. unfold evaluate_one in E. destruct (parameterize_net nparams init p v) as [p1 [i|e]] eqn:E1.
  - destruct (nth_error (p_heap p1) i); injection E as <- <-; eapply parameterize_inv; eauto.
  - injection E as <- <-. eapply parameterize_inv; eauto.
Qed.
Lemma evaluate_one_ok s p v : inv s p -> (p_original p <> None \/ p_inst p <> None) -> length v = nparams s ->
  exists p', evaluate_one nparams init score p v = (p', Ok (score s v)) /\ p_inst p' <> None.
Proof.
  intros I U L. destruct (parameterize_ok s p v I U L) as (p' & i & E & Ei & N). exists p'. unfold evaluate_one. rewrite E, N. split; [reflexivity|congruence].
Qed.
Lemma evaluate_batch_inv s : forall vs p p' r, inv s p -> evaluate_batch nparams init score p vs = (p', r) ->
  inv s p' /\ p_original p' = p_original p /\ p_prepared p' = p_prepared p /\ (p_inst p <> None -> p_inst p' <> None).
Proof.
  induction vs as [|v vs IH]; intros p p' r I E; cbn in E.
  - injection E as <- <-. auto.
  - destruct (evaluate_one nparams init score p v) as [p1 [f|e]] eqn:E1; destruct (evaluate_one_inv s p v p1 _ I E1) as (A & B & C & D).
    + destruct (evaluate_batch nparams init score p1 vs) as [p2 r2] eqn:E2. injection E as <- <-.
      destruct (IH _ _ _ A E2) as (A2 & B2 & C2 & D2). split; auto. split; [congruence|]. split; [congruence|auto].
    + injection E as <- <-. auto.
Qed.
Lemma evaluate_batch_ok s : forall vs p, inv s p -> (p_original p <> None \/ p_inst p <> None) -> Forall (fun v => length v = nparams s) vs ->
  exists p', evaluate_batch nparams init score p vs = (p', Ok (map (score s) vs)).
Proof.
  induction vs as [|v vs IH]; intros p I U HF; cbn; [eauto|]. inversion HF as [|? ? L HF']; subst.
  destruct (evaluate_one_ok s p v I U L) as (p1 & E1 & N1). rewrite E1. destruct (evaluate_one_inv s p v p1 _ I E1) as (A & _ & _ & _).
  destruct (IH p1 A (or_intror N1) HF') as (p2 & ->). eexists. reflexivity.
Qed.

(* preparing *)
Lemma start_inv s b p p' r : inv s p -> ready p -> start_preparations init b p = (p', r) ->
  inv s p' /\ ready p' /\ r = Ok tt /\ p_prepared p' = true /\ (b = true -> p_original p' = p_original p) /\ (p_prepared p = true -> p' = p) /\
  (b = false -> p_prepared p = false -> p_original p' = None /\ p_inst p' <> None).
Proof.
  intros [I1 I2] R E. unfold start_preparations in E. destruct (p_prepared p) eqn:Ep.
  - injection E as <- <-. repeat split; auto; try congruence. 
  - destruct b.
    + injection E as <- <-. split; [split; auto|]. split; [|repeat split; auto; congruence]. destruct R as [R|[_ R]]; [left; auto|congruence].
    + unfold prepare in E. destruct (p_original p) as [sp|] eqn:Eo; [|destruct R as [R|[_ R]]; congruence].
      destruct (instantiate_ok s (p_heap p) sp (I2 sp eq_refl)) as (i & h1 & E1 & S1 & _ & K1). rewrite E1 in E. injection E as <- <-. cbn.
      split; [split; cbn; [intros j Ej; injection Ej as <-; auto|discriminate]|]. split; [right; cbn; split; [discriminate|auto]|].
      repeat split; auto; try congruence.
Qed.
Lemma copied_inv s p : inv s p -> inv s (copied p).
Proof.
  intros [I1 I2]. unfold copied. destruct (p_original p) as [[s'|i]|] eqn:Eo.
  - split; cbn; [discriminate|]. intros sp E. injection E as <-. specialize (I2 _ eq_refl). exact I2.
  - specialize (I2 _ eq_refl). cbn in I2. unfold sig_at in I2. destruct (nth_error (p_heap p) i) as [o|] eqn:E; [|discriminate].
    split; cbn; [discriminate|]. intros sp Es. injection Es as <-. cbn. exact I2.
  - split; cbn; discriminate.
Qed.
Lemma copied_original p : (p_original (copied p) = None <-> p_original p = None) /\ p_prepared (copied p) = p_prepared p /\ p_inst (copied p) = None.
Proof.
  unfold copied. destruct (p_original p) as [[s'|i]|]; [cbn; repeat split; congruence| |cbn; repeat split; congruence].
  destruct (nth_error (p_heap p) i); cbn; repeat split; congruence.
Qed.

(* actors *)
Definition act_ok s p := inv s p /\ ready p.
Lemma actor_ok s p vs p' r : act_ok s p -> actor_evaluate nparams init score p vs = (p', r) -> act_ok s p' /\
  (Forall (fun v => length v = nparams s) vs -> r = Ok (map (score s) vs)).
Proof.
  intros [I R] E. unfold actor_evaluate in E. destruct (start_preparations init false p) as [p1 r1] eqn:E1.
  destruct (start_inv s false p p1 r1 I R E1) as (A & B & -> & C & _ & D & G).
  destruct (evaluate_batch_inv s vs p1 p' r A E) as (A2 & B2 & C2 & D2).
  assert (U : p_original p1 <> None \/ p_inst p1 <> None) by (destruct B as [B|[B _]]; auto).
  split.
  - split; auto. destruct B as [B|[B B']]; [left; congruence|right]. split; auto. congruence.
  - intros HF. destruct (evaluate_batch_ok s vs p1 A U HF) as (p2 & E2). congruence.
Qed.
Lemma pieces_ok s : forall pieces acts acts' r, Forall (act_ok s) acts -> evaluate_pieces nparams init score acts pieces = (acts', r) ->
  Forall (act_ok s) acts' /\ length acts' = length acts /\
  (Forall (fun kv => fst kv < length acts /\ Forall (fun v => length v = nparams s) (snd kv)) pieces -> r = Ok (map (score s) (concat (map snd pieces)))).
Proof.
  induction pieces as [|[k vs] pieces IH]; intros acts acts' r HA E; cbn in E.
  - injection E as <- <-. auto.
  - destruct (nth_error acts k) as [a|] eqn:Ea.
    2:{ injection E as <- <-. split; auto. split; auto. intros HF. inversion HF as [|? ? [L _] _]; subst. cbn in L. apply nth_error_None in Ea. lia. }
    assert (Aok : act_ok s a) by (eapply Forall_forall; [exact HA|]; eapply nth_error_In; eauto).
    destruct (actor_evaluate nparams init score a vs) as [a1 r1] eqn:E1. destruct (actor_ok s a vs a1 r1 Aok E1) as [A1 R1].
    assert (HU : Forall (act_ok s) (upd acts k a1)).
    { apply Forall_forall. intros b Hb. apply In_nth_error in Hb. destruct Hb as (j & Hj). rewrite nth_error_upd in Hj.
      destruct (k =? j); [destruct (k <? length acts); [injection Hj as <-; auto|discriminate]|]. eapply Forall_forall; [exact HA|]; eapply nth_error_In; eauto. }
    destruct r1 as [fs|e].
    + destruct (evaluate_pieces nparams init score (upd acts k a1) pieces) as [acts2 r2] eqn:E2. injection E as <- <-.
      destruct (IH _ _ _ HU E2) as (H1 & H2 & H3). rewrite upd_length in *. split; auto. split; auto. intros HF. inversion HF as [|? ? [L HL] HF']; subst.
      specialize (R1 HL). injection R1 as ->. rewrite (H3 HF'). cbn. rewrite map_app. reflexivity.
    + injection E as <- <-. split; auto. split; [apply upd_length|]. intros HF. inversion HF as [|? ? [L HL] HF']; subst. specialize (R1 HL). discriminate.
Qed.

(* the whole problem *)
Definition prob_ok s g : Prop := inv s (g_main g) /\ ready (g_main g) /\
  (g_num_actors g <> 0 -> p_original (g_main g) <> None) /\
  (g_num_actors g = 0 -> g_actors g = None) /\
  (forall acts, g_actors g = Some acts -> Forall (act_ok s) acts /\ length acts = g_num_actors g).
Definition valid_pieces (s : Sg) (n : nat) (pieces : list (nat * list (list V))) : Prop :=
  Forall (fun kv => (n = 0 \/ fst kv < n) /\ Forall (fun v => length v = nparams s) (snd kv)) pieces.

Lemma parallelize_ok s g : prob_ok s g -> prob_ok s (parallelize g) /\ g_main (parallelize g) = g_main g /\ g_num_actors (parallelize g) = g_num_actors g /\
  (g_num_actors g <> 0 -> exists acts, g_actors (parallelize g) = Some acts).
Proof.
  intros (I & R & N & Z & A). unfold parallelize. destruct (Nat.eqb_spec (g_num_actors g) 0) as [E|E].
  - split; [repeat split; auto; try (apply (A acts); auto); apply I|]. repeat split; auto. congruence.
  - destruct (g_actors g) as [acts|] eqn:Ea.
    + split; [|split; [auto|split; [auto|eauto]]]. split; [auto|]. split; [auto|]. split; [auto|]. split; [intros; congruence|]. intros acts' E'. apply A. congruence.
    + cbn. split; [|split; [auto|split; [auto|eauto]]]. split; [auto|]. split; [auto|]. split; [auto|]. split; [intros; cbn in *; congruence|]. cbn.
      intros acts E2. injection E2 as <-. split; [|apply repeat_length]. apply Forall_forall. intros a Ha. apply repeat_spec in Ha. subst a.
      split; [apply copied_inv; auto|]. left. intros C. apply (proj1 (copied_original (g_main g))) in C. apply (N E C).
Qed.
Lemma concat_valid s n pieces : valid_pieces s n pieces -> Forall (fun v => length v = nparams s) (concat (map snd pieces)).
Proof.
  induction 1 as [|[k vs] l [_ H] _ IH]; cbn; auto. apply Forall_app. auto.
Qed.
Lemma evaluate_ok s g pieces g' r : prob_ok s g -> evaluate nparams init score g pieces = (g', r) ->
  prob_ok s g' /\ g_num_actors g' = g_num_actors g /\
  (valid_pieces s (g_num_actors g) pieces -> r = Ok (map (score s) (concat (map snd pieces)))).
Proof.
  intros P E. destruct (parallelize_ok s g P) as (P1 & M1 & N1 & A1). unfold evaluate in E.
  destruct P1 as (I & R & N & Z & A). rewrite M1, N1 in *.
  set (b := (match g_actors (parallelize g) with Some _ => true | None => false end) && negb (g_num_actors g =? 0)) in *.
  destruct (start_preparations init b (g_main g)) as [m1 r1] eqn:E1.
  destruct (start_inv s b (g_main g) m1 r1 I R E1) as (I2 & R2 & -> & C2 & O2 & D2 & G2).
  destruct (g_actors (parallelize g)) as [acts|] eqn:Ea.
  - assert (NZ : g_num_actors g <> 0) by (intros Q; specialize (Z Q); congruence).
    assert (Eb : b = true) by (unfold b; destruct (Nat.eqb_spec (g_num_actors g) 0); [contradiction|reflexivity]).
    destruct (A acts eq_refl) as [HA HL].
    destruct (evaluate_pieces nparams init score acts pieces) as [acts2 r2] eqn:E2. injection E as <- <-.
    destruct (pieces_ok s pieces acts acts2 r2 HA E2) as (H1 & H2 & H3). split; [|split; [auto|]].
    + split; [auto|]. split; [auto|]. cbn. split; [intros _; rewrite (O2 Eb); auto|]. split; [intros; contradiction|].
      intros a2 Ea2. injection Ea2 as <-. split; auto. lia.
    + intros HV. apply H3. eapply Forall_impl; [|exact HV]. intros [k vs] [[K|K] L]; [contradiction|]. cbn in *. split; auto. lia.
  - assert (Zn : g_num_actors g = 0) by (destruct (Nat.eq_dec (g_num_actors g) 0) as [|Q]; auto; destruct (A1 Q) as (? & ?); discriminate).
    destruct (evaluate_batch nparams init score m1 (concat (map snd pieces))) as [m2 r2] eqn:E2. injection E as <- <-.
    destruct (evaluate_batch_inv s _ _ _ _ I2 E2) as (I3 & O3 & Pr3 & In3). split; [|split; [auto|]].
    + split; [auto|]. cbn. split; [destruct R2 as [R2|[R2 R2']]; [left; congruence|right; split; auto; congruence]|].
      split; [intros; contradiction|]. split; [auto|discriminate].
    + intros HV. destruct (evaluate_batch_ok s (concat (map snd pieces)) m1 I2) as (m3 & E3).
      * destruct R2 as [R2|[R2 _]]; auto.
      * eapply concat_valid; eauto.
      * congruence.
Qed.
Lemma make_net_inv s p v p' r : inv s p -> make_net nparams init p v = (p', r) ->
  inv s p' /\ p_original p' = p_original p /\ p_prepared p' = p_prepared p /\ (p_inst p <> None -> p_inst p' <> None).
Proof.
  intros I E. unfold make_net in E. destruct (parameterize_net nparams init p v) as [p1 [i|e]] eqn:E1; destruct (parameterize_inv s p v p1 _ I E1) as (A & B & C & D).
  - destruct (nth_error (p_heap p1) i) as [o|]; injection E as <- <-; auto. cbn. split; [|auto]. destruct A as [A1 A2]. split; cbn.
    + intros j Ej. apply sig_at_app. auto.
    + intros sp Es. apply spec_sig_app. auto.
  - injection E as <- <-. auto.
Qed.
(* a clone of a problem which still has the network it was given *)
Lemma clone_ok s g : inv s (g_main g) -> p_original (g_main g) <> None -> prob_ok s (clone g).
Proof.
  intros I O. unfold clone. split; [apply copied_inv; auto|]. cbn. destruct (copied_original (g_main g)) as (C1 & _ & _).
  split; [left; intros Q; apply O, C1; auto|]. split; [intros _ Q; apply O, C1; auto|]. split; auto. discriminate.
Qed.
Definition no_clone (ops : list (ne_op V)) := ~ In OpBecomeClone ops.
Definition evaluates (op : ne_op V) := match op with OpEvaluate _ => true | _ => false end.

Lemma step_ok s g op : prob_ok s g -> (op = OpBecomeClone -> p_original (g_main g) <> None) -> prob_ok s (ne_step nparams init score g op) /\
  g_num_actors (ne_step nparams init score g op) = g_num_actors g.
Proof.
  intros P HC. destruct op as [pieces|v| |]; cbn [ne_step].
  - destruct (evaluate nparams init score g pieces) as [g' r] eqn:E. destruct (evaluate_ok s g pieces g' r P E) as (A & B & _). auto.
  - destruct (make_net nparams init (g_main g) v) as [p' r] eqn:E. destruct P as (I & R & N & Z & A).
    destruct (make_net_inv s _ _ _ _ I E) as (I2 & O2 & Pr2 & In2). cbn. split; auto. split; [auto|]. cbn.
    split; [destruct R as [R|[R R']]; [left; congruence|right; split; auto; congruence]|]. split; [intros; rewrite O2; auto|]. auto.
  - unfold kill_actors. destruct (g_actors g) as [acts|] eqn:Ea; cbn; auto. split; auto. destruct P as (I & R & N & Z & A).
    split; [auto|]. cbn. split; [auto|]. split; [auto|]. split; auto. discriminate.
  - split; [|reflexivity]. destruct P as (I & _). apply clone_ok; auto.
Qed.
Lemma new_ok s sp given n : spec_sig given sp = Some s -> prob_ok s (new_problem sp given n).
Proof.
  intros E. split; [split; cbn; [discriminate|intros sp' E'; congruence]|]. cbn. split; [left; discriminate|]. split; [discriminate|]. split; auto. discriminate.
Qed.
(* the original network is kept while there are actors, or nothing was evaluated *)
Lemma step_original g op s : prob_ok s g -> (g_num_actors g <> 0 \/ evaluates op = false) -> p_original (g_main g) <> None ->
  p_original (g_main (ne_step nparams init score g op)) <> None.
Proof.
  intros P H O. destruct op as [pieces|v| |]; cbn [ne_step].
  - destruct H as [H|H]; [|discriminate]. destruct (evaluate nparams init score g pieces) as [g' r] eqn:E.
    destruct (evaluate_ok s g pieces g' r P E) as ((_ & _ & N & _) & B & _). apply N. cbn. congruence.
  - destruct (make_net nparams init (g_main g) v) as [p' r] eqn:E. destruct P as (I & _). cbn.
    destruct (make_net_inv s _ _ _ _ I E) as (_ & O2 & _). congruence.
  - unfold kill_actors. destruct (g_actors g); cbn; auto.
  - cbn. intros Q. apply (proj1 (copied_original (g_main g))) in Q. contradiction.
Qed.
Lemma run_original s : forall ops g, prob_ok s g -> p_original (g_main g) <> None -> (g_num_actors g <> 0 \/ forallb (fun op => negb (evaluates op)) ops = true) ->
  prob_ok s (ne_run nparams init score g ops) /\ p_original (g_main (ne_run nparams init score g ops)) <> None /\
  g_num_actors (ne_run nparams init score g ops) = g_num_actors g.
Proof.
  induction ops as [|op ops IH]; intros g P O H; [cbn; auto|]. cbn [ne_run fold_left].
  destruct (step_ok s g op P (fun _ => O)) as [P1 N1].
  assert (O1 : p_original (g_main (ne_step nparams init score g op)) <> None).
  { apply (step_original g op s P); auto. destruct H as [H|H]; auto. right. cbn in H. apply andb_prop in H. destruct H as [H _]. destruct (evaluates op); auto; discriminate. }
  destruct (IH _ P1 O1) as (A & B & C).
  - destruct H as [H|H]; [left; congruence|right]. cbn in H. apply andb_prop in H. tauto.
  - unfold ne_run in *. split; auto. split; auto. congruence.
Qed.
Lemma run_no_clone s : forall ops g, prob_ok s g -> no_clone ops -> prob_ok s (ne_run nparams init score g ops) /\
  g_num_actors (ne_run nparams init score g ops) = g_num_actors g.
Proof.
  induction ops as [|op ops IH]; intros g P H; [cbn; auto|]. cbn [ne_run fold_left].
  destruct (step_ok s g op P) as [P1 N1]; [intros ->; exfalso; apply H; left; auto|].
  destruct (IH _ P1) as [A B]; [intros Q; apply H; right; auto|]. unfold ne_run in *. split; auto. congruence.
Qed.

(* ---- without actors, an evaluation makes all later clones useless ---- *)
Definition spent g : Prop := g_num_actors g = 0 /\ g_actors g = None /\ p_original (g_main g) = None /\ p_prepared (g_main g) = true.
Lemma parameterize_fields p v p' r : parameterize_net nparams init p v = (p', r) -> p_original p' = p_original p /\ p_prepared p' = p_prepared p.
Proof.
  unfold parameterize_net. destruct (match p_inst p with Some i => _ | None => _ end) as [[i h]|e]; [|intros E; injection E as <- <-; auto].
  destruct (fill nparams i v h); intros E; injection E as <- <-; auto.
Qed.
Lemma evaluate_batch_fields : forall vs p p' r, evaluate_batch nparams init score p vs = (p', r) -> p_original p' = p_original p /\ p_prepared p' = p_prepared p.
Proof.
  induction vs as [|v vs IH]; intros p p' r E; cbn in E; [injection E as <- <-; auto|]. unfold evaluate_one in E.
  destruct (parameterize_net nparams init p v) as [p1 r1] eqn:E1. apply parameterize_fields in E1. destruct E1 as [A B].
  destruct r1 as [i|e]; [|injection E as <- <-; auto]. destruct (nth_error (p_heap p1) i); [|injection E as <- <-; auto].
  destruct (evaluate_batch nparams init score p1 vs) as [p2 r2] eqn:E2. injection E as <- <-. apply IH in E2. destruct E2. split; congruence.
Qed.
Lemma step_spent g op : spent g -> spent (ne_step nparams init score g op).
Proof.
  intros (A & B & C & D). destruct op as [pieces|v| |]; cbn [ne_step].
  - unfold evaluate, parallelize. rewrite A. cbn [Nat.eqb]. rewrite B. cbn [andb]. unfold start_preparations. rewrite D.
    destruct (evaluate_batch nparams init score (g_main g) _) as [m2 r2] eqn:E. apply evaluate_batch_fields in E. destruct E. cbn. repeat split; cbn; congruence.
  - unfold make_net. destruct (parameterize_net nparams init (g_main g) v) as [p1 r1] eqn:E. apply parameterize_fields in E. destruct E as [E1 E2].
    destruct r1 as [i|e]; [destruct (nth_error (p_heap p1) i)|]; repeat split; cbn; congruence.
  - unfold kill_actors. rewrite B. repeat split; cbn; auto.
  - destruct (copied_original (g_main g)) as (K1 & K2 & _). repeat split; cbn; auto; [apply K1; auto|congruence].
Qed.
Lemma run_spent : forall ops g, spent g -> spent (ne_run nparams init score g ops).
Proof. induction ops as [|op ops IH]; intros g H; cbn; auto. apply IH. apply step_spent. auto. Qed.
Lemma evaluate_spends s g pieces : prob_ok s g -> g_num_actors g = 0 -> spent (fst (evaluate nparams init score g pieces)) \/ p_prepared (g_main g) = true.
Proof.
  intros (I & R & N & Z & A) Zn. destruct (p_prepared (g_main g)) eqn:Ep; auto. left. unfold evaluate, parallelize. rewrite Zn. cbn [Nat.eqb].
  rewrite (Z Zn). cbn [andb]. destruct (start_preparations init false (g_main g)) as [m1 r1] eqn:E1.
  destruct (start_inv s false _ m1 r1 I R E1) as (_ & _ & -> & C & _ & _ & G). destruct (G eq_refl Ep) as [G1 G2].
  destruct (evaluate_batch nparams init score m1 _) as [m2 r2] eqn:E2. apply evaluate_batch_fields in E2. destruct E2. repeat split; cbn; congruence.
Qed.
(* without actors: prepared means spent, in every reachable state *)
Definition seq_inv g : Prop := g_num_actors g = 0 /\ g_actors g = None /\ (p_prepared (g_main g) = true -> p_original (g_main g) = None).
Lemma step_seq s g op : prob_ok s g -> seq_inv g -> p_prepared (g_main g) = false -> op <> OpBecomeClone \/ True ->
  spent (ne_step nparams init score g op) \/ (prob_ok s (ne_step nparams init score g op) /\ g_num_actors (ne_step nparams init score g op) = 0 /\
     p_prepared (g_main (ne_step nparams init score g op)) = false /\ evaluates op = false).
Proof.
  intros P (Zn & Ea & _) Ep _. assert (O : p_original (g_main g) <> None) by (destruct P as (_ & [R|[_ R]] & _); auto; congruence).
  destruct (step_ok s g op P (fun _ => O)) as [P1 N1]. destruct op as [pieces|v| |].
  - left. destruct (evaluate_spends s g pieces P Zn) as [K|K]; [exact K|congruence].
  - right. split; auto. split; [congruence|]. split; auto. cbn. unfold make_net. destruct (parameterize_net nparams init (g_main g) v) as [p1 r1] eqn:E. apply parameterize_fields in E.
    destruct r1 as [i|e]; [destruct (nth_error (p_heap p1) i)|]; cbn; destruct E; congruence.
  - right. split; auto. split; [congruence|]. split; auto. cbn. unfold kill_actors. rewrite Ea. auto.
  - right. split; auto. split; [congruence|]. split; auto. cbn. destruct (copied_original (g_main g)) as (_ & K & _). congruence.
Qed.
Lemma run_seq s : forall ops g, prob_ok s g -> seq_inv g -> p_prepared (g_main g) = false -> existsb evaluates ops = true ->
  spent (ne_run nparams init score g ops).
Proof.
  induction ops as [|op ops IH]; intros g P Q Ep H; [discriminate|]. cbn [ne_run fold_left].
  destruct (step_seq s g op P Q Ep (or_intror I)) as [K|(P1 & N1 & E1 & V1)].
  - apply run_spent. exact K.
  - cbn in H. rewrite V1 in H. cbn in H. apply IH; auto. destruct P1 as (_ & _ & _ & Z & _). split; auto. split; auto. congruence.
Qed.
Lemma spent_clone_fails g pieces : spent g -> concat (map snd pieces) <> [] -> snd (evaluate nparams init score (clone g) pieces) = Err TypeError.
Proof.
  intros (A & B & C & D) N. unfold evaluate, parallelize, clone. cbn [g_num_actors g_actors g_main]. rewrite A. cbn [Nat.eqb g_actors g_main g_num_actors andb].
  unfold copied. rewrite C. unfold start_preparations. cbn [p_prepared]. rewrite D.
  destruct (concat (map snd pieces)) as [|v vs]; [contradiction|]. reflexivity.
Qed.

(* ---- networks which are neither in use by the problem nor given to it stay as they are ---- *)
Definition untouched (j : nat) p : Prop := j < length (p_heap p) /\ p_inst p <> Some j /\ p_original p <> Some (NModule j).
Lemma instantiate_untouched j sp h i h' : j < length h -> instantiate_net init sp h = Ok (i, h') -> sp <> Some (NModule j) ->
  i <> j /\ nth_error h' j = nth_error h j /\ length h <= length h'.
Proof.
  intros L E N. destruct sp as [[s|k]|]; cbn in E; [| |discriminate]; injection E as <- <-.
  - split; [lia|]. split; [apply nth_error_app1; auto|rewrite app_length; lia].
  - split; [congruence|auto].
Qed.
Lemma parameterize_untouched j p v p' r : untouched j p -> parameterize_net nparams init p v = (p', r) ->
  untouched j p' /\ nth_error (p_heap p') j = nth_error (p_heap p) j.
Proof.
  intros (L & N1 & N2) E. unfold parameterize_net in E.
  destruct (match p_inst p with Some i => _ | None => _ end) as [[i h]|e] eqn:Ei.
  2:{ injection E as <- <-. split; [split; auto|auto]. }
  assert (K : i <> j /\ nth_error h j = nth_error (p_heap p) j /\ length (p_heap p) <= length h).
  { destruct (p_inst p) as [k|]; [injection Ei as <- <-; split; [congruence|auto]|]. eapply instantiate_untouched; eauto. }
  destruct K as (K1 & K2 & K3). destruct (fill nparams i v h) as [h'|e] eqn:Ef; injection E as <- <-; cbn.
  - apply fill_any in Ef. destruct Ef as (F1 & _ & F3). split; [split; cbn; [lia|split; [congruence|auto]]|]. rewrite F1 by auto. auto.
  - split; [split; cbn; [lia|split; [congruence|auto]]|]. auto.
Qed.
Lemma evaluate_batch_untouched j : forall vs p p' r, untouched j p -> evaluate_batch nparams init score p vs = (p', r) ->
  untouched j p' /\ nth_error (p_heap p') j = nth_error (p_heap p) j.
Proof.
  induction vs as [|v vs IH]; intros p p' r U E; cbn in E; [injection E as <- <-; auto|]. unfold evaluate_one in E.
  destruct (parameterize_net nparams init p v) as [p1 r1] eqn:E1. destruct (parameterize_untouched j p v p1 r1 U E1) as [A B].
  destruct r1 as [i|e]; [|injection E as <- <-; auto]. destruct (nth_error (p_heap p1) i); [|injection E as <- <-; auto].
  destruct (evaluate_batch nparams init score p1 vs) as [p2 r2] eqn:E2. injection E as <- <-. destruct (IH _ _ _ A E2) as [A2 B2]. split; congruence.
Qed.
Lemma start_untouched j b p p' r : untouched j p -> start_preparations init b p = (p', r) -> untouched j p' /\ nth_error (p_heap p') j = nth_error (p_heap p) j.
Proof.
  intros U E. unfold start_preparations in E. destruct (p_prepared p); [injection E as <- <-; auto|]. destruct b; [injection E as <- <-; auto|].
  unfold prepare in E. destruct (instantiate_net init (p_original p) (p_heap p)) as [[i h]|e] eqn:Ei; [|injection E as <- <-; auto].
  destruct U as (L & N1 & N2). destruct (instantiate_untouched j _ _ _ _ L Ei N2) as (K1 & K2 & K3). injection E as <- <-. cbn. split; [|auto].
  split; cbn; [lia|split; congruence].
Qed.
Lemma step_untouched j g op : untouched j (g_main g) -> op <> OpBecomeClone -> untouched j (g_main (ne_step nparams init score g op)) /\
  nth_error (p_heap (g_main (ne_step nparams init score g op))) j = nth_error (p_heap (g_main g)) j.
Proof.
  intros U NC. destruct op as [pieces|v| |]; cbn [ne_step]; [| | |contradiction].
  - unfold evaluate. assert (M : g_main (parallelize g) = g_main g) by (unfold parallelize; destruct (_ =? _); auto; destruct (g_actors g); auto). rewrite M.
    destruct (start_preparations init _ (g_main g)) as [m1 r1] eqn:E1. destruct (start_untouched j _ _ _ _ U E1) as [A B].
    destruct r1 as [[]|e]; [|cbn; auto]. destruct (g_actors (parallelize g)) as [acts|].
    + destruct (evaluate_pieces _ _ _ _ _). cbn. auto.
    + destruct (evaluate_batch nparams init score m1 _) as [m2 r2] eqn:E2. cbn. destruct (evaluate_batch_untouched j _ _ _ _ A E2). split; congruence.
  - unfold make_net. destruct (parameterize_net nparams init (g_main g) v) as [p1 r1] eqn:E1. destruct (parameterize_untouched j _ v p1 r1 U E1) as [A B]. cbn [g_main].
    destruct r1 as [i|e]; cbn [fst]; auto. destruct (nth_error (p_heap p1) i) as [o|] eqn:En; cbn [fst]; auto. destruct A as (A1 & A2 & A3). split.
    + split; cbn; [rewrite app_length; lia|auto].
    + cbn [p_heap]. rewrite nth_error_app1 by auto. auto.
  - unfold kill_actors. destruct (g_actors g); cbn; auto.
Qed.
Lemma run_untouched j : forall ops g, untouched j (g_main g) -> no_clone ops -> 
  nth_error (p_heap (g_main (ne_run nparams init score g ops))) j = nth_error (p_heap (g_main g)) j.
Proof.
  induction ops as [|op ops IH]; intros g U H; [reflexivity|]. cbn [ne_run fold_left].
  destruct (step_untouched j g op U) as [A B]; [intros ->; apply H; left; auto|]. unfold ne_run in IH. rewrite IH; auto. intros Q. apply H. right; auto.
Qed.
End P.

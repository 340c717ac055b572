(* Properties of the configuration of the Python logger. *)
From Verif Require Import Prelude LgModel LgSpec.

Lemma remove_mid pre h post : ~ In (h_id h) (map h_id pre) -> remove_handler h (pre ++ h :: post) = pre ++ post.
Proof.
  induction pre as [|x pre IH]; intros N; cbn [app remove_handler].
  - rewrite Nat.eqb_refl. reflexivity.
  - cbn [map In] in N. destruct (Nat.eqb_spec (h_id x) (h_id h)); [tauto|]. rewrite IH; tauto.
Qed.
Lemma remove_loop_spec fuel pre post : length post <= fuel -> NoDup (map h_id (pre ++ post)) -> remove_loop fuel (length pre) (pre ++ post) = pre ++ every_second post.
Proof.
  revert pre post. induction fuel as [fuel IH] using lt_wf_ind. intros pre post L D.
  destruct post as [|h [|k post]].
  - cbn [every_second]. rewrite app_nil_r. destruct fuel; [reflexivity|]. cbn [remove_loop]. rewrite (proj2 (nth_error_None pre (length pre))) by lia. reflexivity.
  - destruct fuel; [cbn in L; lia|]. cbn [remove_loop every_second]. rewrite nth_error_app2, Nat.sub_diag by lia. cbn [nth_error].
    rewrite map_app in D. cbn [map] in D. apply NoDup_remove_2 in D. rewrite app_nil_r in *. rewrite remove_mid by auto. rewrite app_nil_r.
    destruct fuel; [reflexivity|]. cbn [remove_loop]. rewrite (proj2 (nth_error_None pre (S (length pre)))) by lia. reflexivity.
  - destruct fuel; [cbn in L; lia|]. cbn [remove_loop every_second]. rewrite nth_error_app2, Nat.sub_diag by lia. cbn [nth_error].
    assert (D' := D). rewrite map_app in D'. cbn [map] in D'. apply NoDup_remove_2 in D'. rewrite remove_mid by (intros Q; apply D'; apply in_or_app; auto).
    replace (S (length pre)) with (length (pre ++ [k])) by (rewrite app_length; cbn; lia).
    replace (pre ++ k :: post) with ((pre ++ [k]) ++ post) by (rewrite <- app_assoc; reflexivity).
    rewrite IH; [rewrite <- app_assoc; reflexivity|lia|cbn in L; lia|].
    rewrite <- app_assoc. cbn [app]. rewrite map_app in *. cbn [map] in *. apply NoDup_remove_1 in D. exact D.
Qed.
Lemma removed s : logger_ok s -> remove_loop (length (l_handlers s)) 0 (l_handlers s) = every_second (l_handlers s).
Proof. intros [D _]. apply (remove_loop_spec _ [] (l_handlers s)); auto. Qed.
Lemma format_line p l : format p l = line p l.
Proof. destruct p, l; reflexivity. Qed.
Lemma two_handlers s level p l : l_handlers s = [mkH (l_next s - 2) Stdout BelowWarning (line p l); mkH (l_next s - 1) Stderr FromWarning (line p l)] ->
  l_propagate s = false -> 0 < level -> l_level s = level -> forall m, printed level p l m (emit s m).
Proof.
  intros H P L0 L m. unfold emit, effective_level. rewrite H, P, L. destruct (Nat.eqb_spec level 0); [lia|]. destruct (Nat.leb_spec level m).
  - cbn [app filter accepts h_filter]. unfold WARNING, accepts, WARNING. cbn [h_filter]. destruct (Nat.ltb_spec m 30).
    + rewrite (proj2 (Nat.leb_gt 30 m)) by lia. cbn. apply printed_stdout; auto.
    + rewrite (proj2 (Nat.leb_le 30 m)) by lia. cbn. apply printed_stderr; auto.
  - apply printed_nothing; auto.
Qed.

(* ------------------------------------------------------------------------------- C185 *)
Theorem C185_configured_partial : forall s logger_level p l override, logger_ok s -> 0 < logger_level ->
  (unconfigured s \/ (override = true /\ length (l_handlers s) <= 1)) ->
  let (s', out) := set_default_logger_config s logger_level p l override in
  out = [] /\ forall level, printed logger_level p l level (emit s' level).
Proof.
  intros s level p l o W L0 H. unfold set_default_logger_config.
  assert (N : negb o && has_handlers s = false).
  { destruct H as [[E [P|P]]|[-> _]]; [| |reflexivity]; unfold has_handlers; rewrite E, P; destruct o, (l_propagate s); reflexivity. }
  rewrite N. split; [reflexivity|]. rewrite format_line.
  assert (E : (if o then remove_loop (length (l_handlers s)) 0 (l_handlers s) else l_handlers s) = []).
  { rewrite removed by auto. destruct H as [[E _]|[-> H]]; [rewrite E; destruct o; reflexivity|]. destruct (l_handlers s) as [|a [|b r]]; [reflexivity..|cbn in H; lia]. }
  rewrite E. cbn [app]. apply two_handlers; auto. cbn [l_next l_handlers]. repeat f_equal; lia.
Qed.
(* without override, a logger which has handlers is left alone; its user is warned *)
Theorem C185_kept : forall s logger_level p l, (l_handlers s <> [] \/ (l_propagate s = true /\ l_above s <> [])) ->
  set_default_logger_config s logger_level p l false = (s, emit s 30).
Proof.
  intros s level p l H. unfold set_default_logger_config. assert (E : has_handlers s = true).
  { unfold has_handlers. destruct (l_handlers s); [|reflexivity]. destruct H as [H|[-> H]]; [congruence|]. destruct (l_above s); [congruence|reflexivity]. }
  rewrite E. reflexivity.
Qed.
(* with override every second of the previous handlers stays *)
Theorem C185_override_refuted : forall s logger_level p l, logger_ok s ->
  let s' := override_call logger_level p l s in
  (exists out err, l_handlers s' = every_second (l_handlers s) ++ [out; err]) /\
  forall a h r level, l_handlers s = a :: h :: r -> 0 < logger_level -> logger_level <= level -> h_filter h = AnyLevel ->
    In (h_target h, h_fields h) (emit s' level).
Proof.
  intros s level p l W s'. assert (E : l_handlers s' = every_second (l_handlers s) ++ [mkH (l_next s) Stdout BelowWarning (format p l); mkH (S (l_next s)) Stderr FromWarning (format p l)]).
  { unfold s', override_call, set_default_logger_config. cbn [negb andb fst l_handlers]. rewrite removed by auto. reflexivity. }
  split; [eauto|]. intros a h r m Eh L0 Lm F. unfold emit. replace (effective_level s') with level.
  - rewrite (proj2 (Nat.leb_le _ _) Lm). apply in_map_iff. exists h. split; [reflexivity|]. apply filter_In. split.
    + apply in_or_app. left. rewrite E, Eh. cbn. auto.
    + unfold accepts. rewrite F. reflexivity.
  - unfold s', override_call, set_default_logger_config, effective_level. cbn. destruct (Nat.eqb_spec level 0); lia.
Qed.
(* called again and again with override: after the second call messages from WARNING are printed twice, from the third call on those below WARNING *)
Definition shape (s : logger) : list filter_kind := map h_filter (l_handlers s).
Lemma every_second_in {A} (l : list A) : (forall x, In x (every_second l) -> In x l) /\ (forall x y, In x (every_second (y :: l)) -> In x l).
Proof.
  induction l as [|a l [IH1 IH2]]; [split; intros; contradiction|]. split.
  - intros x H. right. apply (IH2 x a). exact H.
  - intros x y H. cbn [every_second] in H. destruct H as [<-|H]; [left; auto|]. right. apply IH1. auto.
Qed.
Lemma every_second_map {A B} (f : A -> B) (l : list A) : map f (every_second l) = every_second (map f l) /\ forall y, map f (every_second (y :: l)) = every_second (map f (y :: l)).
Proof.
  induction l as [|a l [IH1 IH2]]; [split; reflexivity|]. split; [apply IH2|]. intros y. cbn [every_second map]. f_equal. exact IH1.
Qed.
Lemma every_second_nodup {A} (l : list A) : NoDup l -> NoDup (every_second l) /\ forall y, NoDup (y :: l) -> NoDup (every_second (y :: l)).
Proof.
  induction l as [|a l IH]; intros D; [split; intros; constructor|]. inversion D as [|? ? N D']; subst. destruct (IH D') as [IH1 IH2]. split; [apply IH2; auto|].
  intros y _. cbn [every_second]. constructor; [|auto]. intros H. apply N. apply every_second_in. auto.
Qed.
Lemma override_ok level p l s : logger_ok s -> logger_ok (override_call level p l s).
Proof.
  intros W. unfold override_call, set_default_logger_config. cbn [negb andb fst]. rewrite removed by auto. destruct W as [D F]. split; cbn [l_handlers l_next].
  - rewrite map_app. cbn [map h_id]. assert (B : forall i, In i (map h_id (every_second (l_handlers s))) -> i < l_next s).
    { intros i H. apply in_map_iff in H. destruct H as (h & <- & H). apply F, every_second_in. auto. }
    assert (D2 : NoDup (map h_id (every_second (l_handlers s)))) by (rewrite (proj1 (every_second_map _ _)); apply every_second_nodup; auto).
    revert B D2. generalize (map h_id (every_second (l_handlers s))) as ids. intros ids B D2.
    induction ids as [|i ids IH]; cbn [app].
    + constructor; [intros [E|[]]; lia|constructor; [intros []|constructor]].
    + inversion D2; subst. constructor; [|apply IH; auto; intros; apply B; right; auto]. intros Q. apply in_app_or in Q. destruct Q as [Q|Q]; [contradiction|].
      specialize (B i (or_introl eq_refl)). destruct Q as [Q|[Q|[]]]; lia.
  - intros h H. apply in_app_or in H. destruct H as [H|[<-|[<-|[]]]]; [|cbn; lia|cbn; lia]. apply every_second_in in H. specialize (F h H). lia.
Qed.
Definition sane (h : handler) : Prop := (h_filter h = BelowWarning /\ h_target h = Stdout) \/ (h_filter h = FromWarning /\ h_target h = Stderr).
Lemma repeated level p l s n : logger_ok s -> unconfigured s ->
  let s' := times (S (S n)) (override_call level p l) s in
  logger_ok s' /\ Forall sane (l_handlers s') /\ (forall h, In h (l_handlers s') -> h_fields h = line p l) /\ l_propagate s' = false /\ l_level s' = level /\
  shape s' = if n =? 0 then [FromWarning; BelowWarning; FromWarning] else [BelowWarning; BelowWarning; FromWarning].
Proof.
  intros W [U _]. assert (Step : forall t, logger_ok t -> Forall sane (l_handlers t) -> (forall h, In h (l_handlers t) -> h_fields h = line p l) ->
    let t' := override_call level p l t in logger_ok t' /\ Forall sane (l_handlers t') /\ (forall h, In h (l_handlers t') -> h_fields h = line p l) /\ l_propagate t' = false /\ l_level t' = level /\
    shape t' = every_second (shape t) ++ [BelowWarning; FromWarning]).
  { intros t Wt Ft Lt t'. split; [apply override_ok; auto|]. unfold t', shape, override_call, set_default_logger_config. cbn [negb andb fst l_handlers l_propagate l_level]. rewrite removed by auto. rewrite format_line.
    split; [|split; [|split; [auto|split; [auto|]]]].
    - apply Forall_app. split; [|constructor; [left; cbn; auto|constructor; [right; cbn; auto|constructor]]]. rewrite Forall_forall in *. intros h H. apply Ft, every_second_in. auto.
    - intros h H. apply in_app_or in H. destruct H as [H|[<-|[<-|[]]]]; auto. apply Lt, every_second_in. auto.
    - rewrite map_app, (proj1 (every_second_map _ _)). reflexivity. }
  induction n as [|n IH].
  - cbn [times Nat.eqb]. destruct (Step s) as (W1 & F1 & L1 & _ & _ & S1); [auto|rewrite U; constructor|rewrite U; intros ? []|].
    destruct (Step _ W1 F1 L1) as (W2 & F2 & L2 & P2 & V2 & S2). do 5 (split; auto). rewrite S2, S1. unfold shape. rewrite U. reflexivity.
  - destruct IH as (W1 & F1 & L1 & _ & _ & S1). destruct (Step _ W1 F1 L1) as (W2 & F2 & L2 & P2 & V2 & S2). cbn [times] in *.
    do 5 (split; auto). rewrite S2, S1. destruct (n =? 0); reflexivity.
Qed.
Theorem C185_repeated_refuted : forall s logger_level p l n level, logger_ok s -> unconfigured s -> 0 < logger_level -> logger_level <= level ->
  emit (times (S (S n)) (override_call logger_level p l) s) level =
  if n =? 0
  then if level <? 30 then [(Stdout, line p l)] else [(Stderr, line p l); (Stderr, line p l)]
  else if level <? 30 then [(Stdout, line p l); (Stdout, line p l)] else [(Stderr, line p l)].
Proof.
  intros s lv p l n m W U L0 Lm. destruct (repeated lv p l s n W U) as (_ & F & Lf & P & V & Sh). set (s' := times _ _ s) in *. clearbody s'.
  unfold emit, effective_level. rewrite P, V, app_nil_r. destruct (Nat.eqb_spec lv 0); [lia|]. rewrite (proj2 (Nat.leb_le _ _) Lm). unfold shape in Sh.
  destruct (l_handlers s') as [|a [|b [|c [|d r]]]]; try (destruct (n =? 0); discriminate Sh).
  inversion F as [|? ? Fa F1]; subst. inversion F1 as [|? ? Fb F2]; subst. inversion F2 as [|? ? Fc _]; subst.
  pose proof (Lf a (or_introl eq_refl)) as La. pose proof (Lf b (or_intror (or_introl eq_refl))) as Lb. pose proof (Lf c (or_intror (or_intror (or_introl eq_refl)))) as Lc.
  unfold sane in Fa, Fb, Fc. cbn [filter]. unfold accepts, WARNING.
  destruct (n =? 0); cbn [map] in Sh; injection Sh as Ea Eb Ec; rewrite Ea, Eb, Ec in *;
    (destruct Fa as [[Q Ta]|[Q Ta]]; try discriminate Q; clear Q); (destruct Fb as [[Q Tb]|[Q Tb]]; try discriminate Q; clear Q); (destruct Fc as [[Q Tc]|[Q Tc]]; try discriminate Q; clear Q);
    (destruct (Nat.ltb_spec m 30); [rewrite (proj2 (Nat.leb_gt 30 m)) by lia|rewrite (proj2 (Nat.leb_le 30 m)) by lia]); cbn [map]; rewrite ?Ta, ?Tb, ?Tc, ?La, ?Lb, ?Lc; reflexivity.
Qed.
Print Assumptions C185_configured_partial.
Print Assumptions C185_kept.
Print Assumptions C185_override_refuted.
Print Assumptions C185_repeated_refuted.
Example C185_example :
  let s := mkL [] 0 true 0 [] 30 in
  let s1 := fst (set_default_logger_config s 20 true false false) in
  logger_ok s /\ unconfigured s /\ emit s1 20 = [(Stdout, line true false)] /\ emit s1 40 = [(Stderr, line true false)] /\ emit s1 10 = [] /\
  fst (set_default_logger_config s1 10 true false false) = s1 /\
  emit (override_call 20 true false s1) 40 = [(Stderr, line true false); (Stderr, line true false)].
Proof.
  cbn zeta. split; [split; [constructor|intros ? []]|]. split; [split; [reflexivity|right; reflexivity]|]. repeat split; reflexivity.
Qed.

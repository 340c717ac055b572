From Coq Require Import QArith Lqa.
From Verif Require Import Prelude FloatLib BatchModel BatchSpec BatchProofs ParetoModel ParetoSpec ParetoProofs2 GaModel GaSpec GaProofs.
Close Scope Q_scope.
Open Scope nat_scope.

Section Ga.
Context {V : Type}.
Variable sorter : bool -> list fl -> list nat.
Variable co : list (list fl) -> list nat.
Variable qs : list Q -> list nat.
Variable ev : nat -> list V -> list (list fl).

Lemma kind_width (a b : batch V) : same_kind a b -> eval_width b = eval_width a.
Proof. intros (_ & H1 & H2). unfold eval_width, num_objs. congruence. Qed.

(* which batches come out of _make_extended_population *)
Lemma extended_inv cf ops (s : state V) s' p c : Forall legal ops -> wf (s_pop s) -> evaluates (eval_width (s_pop s)) ev ->
  extended ev cf ops s = Ok (s', p, c) ->
  same_kind (s_pop s) p /\ same_kind (s_pop s) c /\ same_kind (s_pop s) (s_pop s') /\
  b_vals p = b_vals (s_pop s) /\ b_vals (s_pop s') = b_vals (s_pop s) /\ s_first s' = false /\
  ((g_reeval cf && negb (g_first cf))%bool = false -> s_pop s' = p) /\
  ((g_reeval cf && negb (g_first cf))%bool = true -> s_pop s' = s_pop s).
Proof.
  intros HL W HE. unfold extended. destruct (g_reeval cf), (g_first cf); cbn [andb negb].
  - destruct (evaluate ev _ (s_pop s)) as [pop|] eqn:E1; [|discriminate]. cbn [bind].
    destruct (evaluate_inv ev _ _ _ HE E1) as (K1 & V1 & _).
    destruct (use_operators _ pop ops) as [ch|] eqn:E2; [|discriminate]. cbn [bind].
    pose proof (use_operators_kind ops _ _ _ HL (proj1 K1) E2) as K2. pose proof (same_kind_trans _ _ _ K1 K2) as K12.
    destruct (evaluate ev _ ch) as [ch'|] eqn:E3; [|discriminate]. cbn [bind]. intros X; injection X as <- <- <-.
    rewrite <- (kind_width _ _ K12) in HE. destruct (evaluate_inv ev _ _ _ HE E3) as (K3 & V3 & _).
    cbn. split; [auto|]. split; [eapply same_kind_trans; eauto|]. split; [auto|]. split; [auto|]. split; [auto|]. split; [auto|]. split; [auto|discriminate].
  - destruct (use_operators _ (s_pop s) ops) as [ch|] eqn:E2; [|discriminate]. cbn [bind].
    pose proof (use_operators_kind ops _ _ _ HL W E2) as K2.
    pose proof (cat_kind _ _ _ (same_kind_refl _ W) K2) as KC.
    destruct (evaluate ev _ (cat (s_pop s) ch)) as [wh|] eqn:E3; [|discriminate]. cbn [bind]. intros X; injection X as <- <- <-.
    rewrite <- (kind_width _ _ KC) in HE. destruct (evaluate_inv ev _ _ _ HE E3) as (K3 & V3 & _).
    pose proof (same_kind_trans _ _ _ KC K3) as KW. cbn.
    split; [eapply same_kind_trans; [exact KW|apply head_kind; apply KW]|].
    split; [eapply same_kind_trans; [exact KW|apply tail_kind; apply KW]|].
    split; [apply same_kind_refl; auto|]. split. { rewrite V3. cbn. unfold b_len. rewrite firstn_app, firstn_all, Nat.sub_diag. cbn. apply app_nil_r. }
    split; [auto|]. split; [auto|]. split; [discriminate|auto].
  - destruct (if s_first s then evaluate ev _ (s_pop s) else Ok (s_pop s)) as [pop|] eqn:E1; [|discriminate]. cbn [bind].
    assert (X1 : same_kind (s_pop s) pop /\ b_vals pop = b_vals (s_pop s)).
    { destruct (s_first s); [|injection E1 as <-; split; [apply same_kind_refl; auto|auto]]. destruct (evaluate_inv ev _ _ _ HE E1) as (K1 & V1 & _). auto. }
    destruct X1 as [K1 V1].
    destruct (use_operators _ pop ops) as [ch|] eqn:E2; [|discriminate]. cbn [bind].
    pose proof (use_operators_kind ops _ _ _ HL (proj1 K1) E2) as K2. pose proof (same_kind_trans _ _ _ K1 K2) as K12.
    destruct (evaluate ev _ ch) as [ch'|] eqn:E3; [|discriminate]. cbn [bind]. intros X; injection X as <- <- <-.
    rewrite <- (kind_width _ _ K12) in HE. destruct (evaluate_inv ev _ _ _ HE E3) as (K3 & V3 & _).
    cbn. split; [auto|]. split; [eapply same_kind_trans; eauto|]. split; [auto|]. split; [auto|]. split; [auto|]. split; [auto|]. split; [auto|discriminate].
  - destruct (if s_first s then evaluate ev _ (s_pop s) else Ok (s_pop s)) as [pop|] eqn:E1; [|discriminate]. cbn [bind].
    assert (X1 : same_kind (s_pop s) pop /\ b_vals pop = b_vals (s_pop s)).
    { destruct (s_first s); [|injection E1 as <-; split; [apply same_kind_refl; auto|auto]]. destruct (evaluate_inv ev _ _ _ HE E1) as (K1 & V1 & _). auto. }
    destruct X1 as [K1 V1].
    destruct (use_operators _ pop ops) as [ch|] eqn:E2; [|discriminate]. cbn [bind].
    pose proof (use_operators_kind ops _ _ _ HL (proj1 K1) E2) as K2. pose proof (same_kind_trans _ _ _ K1 K2) as K12.
    destruct (evaluate ev _ ch) as [ch'|] eqn:E3; [|discriminate]. cbn [bind]. intros X; injection X as <- <- <-.
    rewrite <- (kind_width _ _ K12) in HE. destruct (evaluate_inv ev _ _ _ HE E3) as (K3 & V3 & _).
    cbn. split; [auto|]. split; [eapply same_kind_trans; eauto|]. split; [auto|]. split; [auto|]. split; [auto|]. split; [auto|]. split; [auto|discriminate].
Qed.
Lemma extended_total cf ops (s : state V) : Forall legal ops -> Forall productive ops -> wf (s_pop s) -> evaluates (eval_width (s_pop s)) ev ->
  b_vals (s_pop s) <> [] -> exists e, extended ev cf ops s = Ok e.
Proof.
  intros HL HP W HE N. unfold extended.
  assert (G : forall k k2 k3 (pop : batch V) (h : batch V -> state V * batch V * batch V), wf pop -> b_vals pop <> [] -> exists e, bind (use_operators k pop ops) (fun ch => bind (evaluate ev k2 ch)
     (fun ch' => Ok (mkSt pop false k3, pop, ch'))) = Ok e).
  { intros k k2 k3 pop h Wp Np. destruct (use_operators_total ops k pop HL HP Wp Np) as (ch & -> & Nc). cbn [bind].
    destruct (evaluate_total ev k2 ch Nc) as [ch' ->]. cbn. eauto. }
  assert (h : batch V -> state V * batch V * batch V) by (intros b; exact (s, b, b)).
  assert (P : forall k, exists pop, evaluate ev k (s_pop s) = Ok pop /\ wf pop /\ b_vals pop <> []).
  { intros k. destruct (evaluate_total ev k _ N) as [pop E]. exists pop. split; [auto|]. destruct (evaluate_inv ev _ _ _ HE E) as (K1 & V1 & _).
    split; [apply K1|congruence]. }
  destruct (g_reeval cf), (g_first cf).
  - destruct (P (s_clock s)) as (pop & -> & Wp & Np). cbn [bind]. apply G; auto.
  - destruct (use_operators_total ops (s_clock s) (s_pop s) HL HP W N) as (ch & -> & Nc). cbn [bind].
    destruct (evaluate_total ev (s_clock s + length ops) (cat (s_pop s) ch)) as [wh ->]; [|cbn; eauto].
    cbn. intros X. apply app_eq_nil in X. tauto.
  - destruct (s_first s); [destruct (P (s_clock s)) as (pop & -> & Wp & Np)|]; cbn [bind]; apply G; auto.
  - destruct (s_first s); [destruct (P (s_clock s)) as (pop & -> & Wp & Np)|]; cbn [bind]; apply G; auto.
Qed.
Lemma extended_evaluated f cf ops (s : state V) s' p c : deterministic f ev ->
  g_reeval cf = true \/ s_first s = true \/ evaluated f (s_pop s) ->
  extended ev cf ops s = Ok (s', p, c) -> evaluated f p /\ evaluated f c.
Proof.
  intros HD HF. unfold extended.
  assert (EE : forall k (b b' : batch V), evaluate ev k b = Ok b' -> evaluated f b').
  { intros k b b' H. unfold evaluate in H. destruct (b_vals b) eqn:E; [discriminate|]. injection H as <-. unfold evaluated; cbn [b_ev b_vals]. apply HD. }
  destruct (g_reeval cf), (g_first cf).
  - destruct (evaluate ev _ (s_pop s)) as [pop|] eqn:E1; [|discriminate]. cbn [bind].
    destruct (use_operators _ pop ops) as [ch|] eqn:E2; [|discriminate]. cbn [bind].
    destruct (evaluate ev _ ch) as [ch'|] eqn:E3; [|discriminate]. cbn [bind]. intros X; injection X as <- <- <-. split; eapply EE; eauto.
  - destruct (use_operators _ (s_pop s) ops) as [ch|] eqn:E2; [|discriminate]. cbn [bind].
    destruct (evaluate ev _ (cat (s_pop s) ch)) as [wh|] eqn:E3; [|discriminate]. cbn [bind]. intros X; injection X as <- <- <-.
    split; [apply ev_head|apply ev_tail]; eapply EE; eauto.
  - destruct (if s_first s then evaluate ev _ (s_pop s) else Ok (s_pop s)) as [pop|] eqn:E1; [|discriminate]. cbn [bind].
    destruct (use_operators _ pop ops) as [ch|] eqn:E2; [|discriminate]. cbn [bind].
    destruct (evaluate ev _ ch) as [ch'|] eqn:E3; [|discriminate]. cbn [bind]. intros X; injection X as <- <- <-.
    split; [|eapply EE; eauto]. destruct (s_first s); [eapply EE; eauto|]. injection E1 as <-. destruct HF as [?|[?|?]]; auto; discriminate.
  - destruct (if s_first s then evaluate ev _ (s_pop s) else Ok (s_pop s)) as [pop|] eqn:E1; [|discriminate]. cbn [bind].
    destruct (use_operators _ pop ops) as [ch|] eqn:E2; [|discriminate]. cbn [bind].
    destruct (evaluate ev _ ch) as [ch'|] eqn:E3; [|discriminate]. cbn [bind]. intros X; injection X as <- <- <-.
    split; [|eapply EE; eauto]. destruct (s_first s); [eapply EE; eauto|]. injection E1 as <-. destruct HF as [?|[?|?]]; auto; discriminate.
Qed.

Hypothesis Hs : argsort_ok sorter.
Hypothesis Hco : reordering co.
Hypothesis Hqs : qargsort_ok qs.
Notation step := (ga_step sorter co qs ev).
Notation run := (ga_run sorter co qs ev).

Lemma step_size cf ops (s s' : state V) : Forall legal ops -> wf (s_pop s) -> evaluates (eval_width (s_pop s)) ev ->
  b_len (s_pop s) = g_popsize cf -> step cf ops s = Ok s' ->
  same_kind (s_pop s) (s_pop s') /\ b_len (s_pop s') = g_popsize cf /\ s_first s' = false.
Proof.
  intros HL W HE Hlen. unfold ga_step. destruct (extended ev cf ops s) as [[[s1 p] c]|] eqn:E; [|discriminate]. cbn [bind].
  destruct (extended_inv cf ops s s1 p c HL W HE E) as (Kp & Kc & Ks & Vp & Vs & F1 & _).
  assert (Lp : b_len p = g_popsize cf) by (unfold b_len in *; rewrite Vp; auto).
  assert (Ls : b_len (s_pop s1) = g_popsize cf) by (unfold b_len in *; rewrite Vs; auto).
  match goal with |- rmap _ ?r = Ok _ -> _ => destruct r as [pop|] eqn:ER; [|discriminate] end. cbn [rmap]. intros X; injection X as <-. cbn [s_pop s_first].
  split; [|split; [|auto]]; destruct (g_elitist cf).
  - pose proof (cat_kind _ _ _ Kp Kc) as KC. destruct (best_of_inv _ _ _ Hs Hco Hqs _ _ _ (proj1 KC) ER) as (_ & _ & _ & K & _). exact (same_kind_trans _ _ _ KC K).
  - destruct (b_len c <? g_popsize cf).
    + destruct (best_of _ _ _ (s_pop s1) _) as [ch|] eqn:EB; [|discriminate]. cbn in ER. injection ER as <-.
      destruct (best_of_inv _ _ _ Hs Hco Hqs _ _ _ (proj1 Ks) EB) as (_ & _ & _ & K & _). apply cat_kind; auto. exact (same_kind_trans _ _ _ Ks K).
    + destruct (Nat.eqb _ _); [injection ER as <-; auto|]. destruct (best_of_inv _ _ _ Hs Hco Hqs _ _ _ (proj1 Kc) ER) as (_ & _ & _ & K & _). exact (same_kind_trans _ _ _ Kc K).
  - pose proof (cat_kind _ _ _ Kp Kc) as KC. destruct (best_of_inv _ _ _ Hs Hco Hqs _ _ _ (proj1 KC) ER) as (_ & _ & _ & _ & L). rewrite cat_len in L. lia.
  - destruct (Nat.ltb_spec (b_len c) (g_popsize cf)).
    + destruct (best_of _ _ _ (s_pop s1) _) as [ch|] eqn:EB; [|discriminate]. cbn in ER. injection ER as <-.
      destruct (best_of_inv _ _ _ Hs Hco Hqs _ _ _ (proj1 Ks) EB) as (_ & _ & _ & _ & L). rewrite cat_len. lia.
    + destruct (Nat.eqb_spec (b_len c) (g_popsize cf)); [injection ER as <-; auto|].
      destruct (best_of_inv _ _ _ Hs Hco Hqs _ _ _ (proj1 Kc) ER) as (_ & _ & _ & _ & L). lia.
Qed.
Lemma run_size cf ops : forall n (s s' : state V), Forall legal ops -> wf (s_pop s) -> evaluates (eval_width (s_pop s)) ev ->
  b_len (s_pop s) = g_popsize cf -> run cf ops n s = Ok s' ->
  same_kind (s_pop s) (s_pop s') /\ b_len (s_pop s') = g_popsize cf /\ (n <> 0 -> s_first s' = false).
Proof.
  induction n as [|n IH]; cbn; intros s s' HL W HE Hlen H.
  - injection H as <-. split; [apply same_kind_refl; auto|]. split; [auto|]. congruence.
  - destruct (run cf ops n s) as [s1|] eqn:E; [|discriminate]. cbn in H. destruct (IH s s1 HL W HE Hlen E) as (K & L & _).
    rewrite <- (kind_width _ _ K) in HE. destruct (step_size cf ops s1 s' HL (proj1 K) HE L H) as (K2 & L2 & F2).
    split; [eapply same_kind_trans; eauto|]. auto.
Qed.

(* one objective: nothing can fail *)
Lemma step_total cf ops (s : state V) : Forall legal ops -> Forall productive ops -> wf (s_pop s) -> evaluates (eval_width (s_pop s)) ev ->
  num_objs (s_pop s) = 1 -> b_vals (s_pop s) <> [] -> exists s', step cf ops s = Ok s'.
Proof.
  intros HL HP W HE H1 N. unfold ga_step. destruct (extended_total cf ops s HL HP W HE N) as [[[s1 p] c] E]. rewrite E. cbn [bind].
  destruct (extended_inv cf ops s s1 p c HL W HE E) as (Kp & Kc & Ks & Vp & Vs & F1 & _).
  assert (Q : forall b n, same_kind (s_pop s) b -> exists b', best_of sorter co qs b n = Ok b').
  { intros b n K. apply best_of_total; auto; [apply K|]. left. destruct K as (_ & D & _). unfold num_objs in *. congruence. }
  destruct (g_elitist cf).
  - destruct (Q (cat p c) (g_popsize cf) (cat_kind _ _ _ Kp Kc)) as [b ->]. cbn. eauto.
  - destruct (_ <? _); [destruct (Q (s_pop s1) (g_popsize cf - b_len c) Ks) as [b ->]; cbn; eauto|].
    destruct (Nat.eqb _ _); [cbn; eauto|]. destruct (Q c (g_popsize cf) Kc) as [b ->]. cbn. eauto.
Qed.
Lemma run_total cf ops : forall n (s : state V), Forall legal ops -> Forall productive ops -> wf (s_pop s) -> evaluates (eval_width (s_pop s)) ev ->
  num_objs (s_pop s) = 1 -> b_len (s_pop s) = g_popsize cf -> 1 <= g_popsize cf -> exists s', run cf ops n s = Ok s'.
Proof.
  induction n as [|n IH]; cbn; intros s HL HP W HE H1 Hlen Hp; [eauto|].
  destruct (IH s HL HP W HE H1 Hlen Hp) as [s1 E]. rewrite E. cbn [bind].
  destruct (run_size cf ops n s s1 HL W HE Hlen E) as (K & L & _). apply step_total; auto; [apply K|rewrite (kind_width _ _ K); auto| |].
  - destruct K as (_ & D & _). unfold num_objs in *. congruence.
  - intros X. unfold b_len in L. rewrite X in L. cbn in L. lia.
Qed.

(* ------------------------------------------------------------------ elitism *)
Lemma at_least_spec d t x : at_least d t x = true <-> ~ better d t x.
Proof.
  unfold at_least, better. destruct d; rewrite negb_true_iff; rewrite flt_nlt; tauto.
Qed.
Lemma how_many_app d (f : V -> list fl) t a b : how_many d f t (a ++ b) = how_many d f t a + how_many d f t b.
Proof. unfold how_many. rewrite filter_app, app_length. auto. Qed.
Lemma how_many_perm d (f : V -> list fl) t a b : Permutation a b -> how_many d f t a = how_many d f t b.
Proof.
  unfold how_many. induction 1; cbn; auto; [destruct (at_least _ _ _); cbn; auto| |congruence].
  destruct (at_least d t (nth 0 (f x) NaN)), (at_least d t (nth 0 (f y) NaN)); cbn; auto.
Qed.
Lemma how_many_le d (f : V -> list fl) t a : how_many d f t a <= length a.
Proof. unfold how_many. induction a; cbn; auto. destruct (at_least _ _ _); cbn; lia. Qed.
Lemma how_many_all d (f : V -> list fl) t a : (forall v, In v a -> at_least d t (nth 0 (f v) NaN) = true) -> how_many d f t a = length a.
Proof. unfold how_many. induction a as [|x a IH]; cbn; intros H; auto. rewrite H by auto. cbn. f_equal. apply IH. auto. Qed.
Lemma how_many_none d (f : V -> list fl) t a : (forall v, In v a -> at_least d t (nth 0 (f v) NaN) = false) -> how_many d f t a = 0.
Proof. unfold how_many. induction a as [|x a IH]; cbn; intros H; auto. rewrite H by auto. apply IH. auto. Qed.
Lemma map_fst_rows (b : batch V) : wf b -> map fst (rows b) = b_vals b.
Proof.
  intros [W _]. unfold rows, rows_of, b_len in *. revert W. generalize (b_ev b). generalize (b_vals b) as vs. induction vs as [|v vs IH]; intros [|e es]; cbn; intros; try discriminate; auto.
  f_equal. apply IH. lia.
Qed.
Lemma rows_evaluated f (b : batch V) : wf b -> evaluated f b -> forall r, In r (rows b) -> snd r = f (fst r).
Proof.
  intros W E [v e] H. unfold rows, rows_of in H. rewrite E in H. cbn. clear -H. induction (b_vals b) as [|w vs IH]; cbn in H; [tauto|].
  destruct H as [H|H]; [injection H as <- <-; auto|auto].
Qed.
(* the selection of the best n solutions of an evaluated batch *)
Lemma best_of_keeps d f (b : batch V) n b' : wf b -> b_desc b = [d] -> evaluated f b -> nan_free f ->
  best_of sorter co qs b n = Ok b' ->
  evaluated f b' /\ exists rest, Permutation (b_vals b' ++ rest) (b_vals b) /\
    (forall x y, In x (b_vals b') -> In y rest -> ~ better d (nth 0 (f y) NaN) (nth 0 (f x) NaN)).
Proof.
  intros W Hd HE HN EB.
  assert (H1 : num_objs b = 1) by (unfold num_objs; rewrite Hd; auto).
  destruct (best_of_inv _ _ _ Hs Hco Hqs _ _ _ W EB) as (idx & ET & _ & K & _).
  split; [eapply take_ev; eauto|].
  assert (NC : no_nan_col b 0).
  { unfold no_nan_col. rewrite HE. apply Forall_map, Forall_forall. intros v _. apply HN. }
  destruct (take_best_ok sorter Hs b 0 d n W) as (b'' & rest & ET' & _ & P & HO); [rewrite Hd; auto|auto|].
  unfold best_of in EB. rewrite H1 in EB. cbn [Nat.leb] in EB. rewrite (take_best_none sorter b n H1) in EB. 
  change (Z.of_nat 0) with 0%Z in ET'. rewrite EB in ET'. injection ET' as <-.
  exists (map fst rest). split.
  - rewrite <- (map_fst_rows b' (proj1 K)), <- (map_fst_rows b W), <- map_app. apply Permutation_map. auto.
  - intros x y Hx Hy. apply in_map_iff in Hy. destruct Hy as (ry & <- & Hy).
    rewrite <- (map_fst_rows b' (proj1 K)) in Hx. apply in_map_iff in Hx. destruct Hx as (rx & <- & Hx).
    specialize (HO rx ry Hx Hy). unfold score in HO.
    rewrite (rows_evaluated f b W HE rx), (rows_evaluated f b W HE ry) in HO; auto.
    + eapply Permutation_in; [exact P|]. apply in_or_app; auto.
    + eapply Permutation_in; [exact P|]. apply in_or_app; auto.
Qed.
Lemma keeps_count d f t n (kept rest all : list V) : nan_free f -> Permutation (kept ++ rest) all -> length kept = Nat.min n (length all) ->
  (forall x y, In x kept -> In y rest -> ~ better d (nth 0 (f y) NaN) (nth 0 (f x) NaN)) ->
  Nat.min n (how_many d f t all) <= how_many d f t kept.
Proof.
  intros HN P L HO. rewrite <- (how_many_perm d f t _ _ P), how_many_app.
  destruct (existsb (fun x => negb (at_least d t (nth 0 (f x) NaN))) kept) eqn:E.
  - apply existsb_exists in E. destruct E as (x & Hx & Nx). apply negb_true_iff in Nx.
    rewrite (how_many_none d f t rest); [lia|]. intros y Hy. specialize (HO x y Hx Hy).
    destruct (at_least d t (nth 0 (f y) NaN)) eqn:Ey; auto. exfalso. apply at_least_spec in Ey.
    assert (X : ~ ~ better d t (nth 0 (f x) NaN)) by (rewrite <- at_least_spec; congruence).
    apply X. eapply better_ntrans; [|exact Ey|exact HO]. apply HN.
  - rewrite (how_many_all d f t kept).
    + assert (how_many d f t rest <= length rest) by apply how_many_le. apply Permutation_length in P. rewrite app_length in P. lia.
    + intros v Hv. destruct (at_least d t (nth 0 (f v) NaN)) eqn:Ev; auto.
      assert (existsb (fun x => negb (at_least d t (nth 0 (f x) NaN))) kept = true); [|congruence].
      apply existsb_exists. exists v. rewrite Ev. auto.
Qed.

Definition ready (f : V -> list fl) (cf : config) (s : state V) : Prop := g_reeval cf = true \/ s_first s = true \/ evaluated f (s_pop s).
Lemma step_elitist d f cf ops (s s' : state V) : Forall legal ops -> wf (s_pop s) -> evaluates (eval_width (s_pop s)) ev ->
  deterministic f ev -> nan_free f -> b_desc (s_pop s) = [d] -> b_len (s_pop s) = g_popsize cf -> g_elitist cf = true ->
  ready f cf s -> step cf ops s = Ok s' ->
  evaluated f (s_pop s') /\ forall t, how_many d f t (b_vals (s_pop s)) <= how_many d f t (b_vals (s_pop s')).
Proof.
  intros HL W HE HD HN Hd Hlen He HR. unfold ga_step. destruct (extended ev cf ops s) as [[[s1 p] c]|] eqn:E; [|discriminate]. cbn [bind].
  destruct (extended_inv cf ops s s1 p c HL W HE E) as (Kp & Kc & Ks & Vp & Vs & F1 & _).
  destruct (extended_evaluated f cf ops s s1 p c HD HR E) as [Ep Ec]. rewrite He.
  destruct (best_of _ _ _ (cat p c) _) as [pop|] eqn:EB; [|discriminate]. cbn [rmap]. intros X; injection X as <-. cbn [s_pop].
  pose proof (cat_kind _ _ _ Kp Kc) as KC.
  assert (Dc : b_desc (cat p c) = [d]) by (destruct KC as (_ & D & _); congruence).
  destruct (best_of_keeps d f _ _ _ (proj1 KC) Dc (ev_cat f _ _ Ep Ec) HN EB) as (Ev & rest & P & HO).
  split; [auto|]. intros t.
  destruct (best_of_inv _ _ _ Hs Hco Hqs _ _ _ (proj1 KC) EB) as (_ & _ & _ & _ & L).
  pose proof (keeps_count d f t (g_popsize cf) (b_vals pop) rest (b_vals (cat p c)) HN P L HO) as Q.
  change (b_vals (cat p c)) with (b_vals p ++ b_vals c) in Q. rewrite how_many_app, Vp in Q. pose proof (how_many_le d f t (b_vals (s_pop s))). unfold b_len in Hlen. lia.
Qed.
Lemma run_elitist d f cf ops : forall n (s s' : state V), Forall legal ops -> wf (s_pop s) -> evaluates (eval_width (s_pop s)) ev ->
  deterministic f ev -> nan_free f -> b_desc (s_pop s) = [d] -> b_len (s_pop s) = g_popsize cf -> g_elitist cf = true ->
  ready f cf s -> run cf ops n s = Ok s' ->
  ready f cf s' /\ (n <> 0 -> evaluated f (s_pop s')) /\ forall t, how_many d f t (b_vals (s_pop s)) <= how_many d f t (b_vals (s_pop s')).
Proof.
  induction n as [|n IH]; cbn; intros s s' HL W HE HD HN Hd Hlen He HR H.
  - injection H as <-. split; [auto|]. split; [congruence|auto].
  - destruct (run cf ops n s) as [s1|] eqn:E; [|discriminate]. cbn in H. destruct (run_size cf ops n s s1 HL W HE Hlen E) as (K & L & _).
    destruct (IH s s1 HL W HE HD HN Hd Hlen He HR E) as (R1 & _ & C1).
    assert (Hd1 : b_desc (s_pop s1) = [d]) by (destruct K as (_ & D & _); congruence).
    rewrite <- (kind_width _ _ K) in HE.
    destruct (step_elitist d f cf ops s1 s' HL (proj1 K) HE HD HN Hd1 L He R1 H) as (E2 & C2).
    split; [right; right; auto|]. split; [auto|]. intros t. etransitivity; [apply C1|apply C2].
Qed.

(* ------------------------------------------------------------------ evaluations of the population *)
Lemma best_of_evaluated f (b : batch V) n b' : wf b -> evaluated f b -> best_of sorter co qs b n = Ok b' -> evaluated f b'.
Proof. intros W E H. destruct (best_of_inv _ _ _ Hs Hco Hqs _ _ _ W H) as (idx & ET & _). eapply take_ev; eauto. Qed.
Lemma step_evaluated f cf ops (s s' : state V) : Forall legal ops -> wf (s_pop s) -> evaluates (eval_width (s_pop s)) ev ->
  deterministic f ev -> ready f cf s ->
  g_elitist cf = true \/ g_reeval cf = false \/ g_first cf = true ->
  step cf ops s = Ok s' -> evaluated f (s_pop s').
Proof.
  intros HL W HE HD HR HC. unfold ga_step. destruct (extended ev cf ops s) as [[[s1 p] c]|] eqn:E; [|discriminate]. cbn [bind].
  destruct (extended_inv cf ops s s1 p c HL W HE E) as (Kp & Kc & Ks & Vp & Vs & F1 & EQ & _).
  destruct (extended_evaluated f cf ops s s1 p c HD HR E) as [Ep Ec].
  match goal with |- rmap _ ?r = Ok _ -> _ => destruct r as [pop|] eqn:ER; [|discriminate] end. cbn [rmap]. intros X; injection X as <-. cbn [s_pop].
  destruct (g_elitist cf).
  - apply (best_of_evaluated f _ _ _ (proj1 (cat_kind _ _ _ Kp Kc)) (ev_cat f _ _ Ep Ec) ER).
  - assert (s_pop s1 = p). { apply EQ. destruct HC as [H|[H|H]]; [discriminate|rewrite H; auto|]. rewrite H. destruct (g_reeval cf); auto. }
    destruct (_ <? _).
    + destruct (best_of _ _ _ (s_pop s1) _) as [ch|] eqn:EB; [|discriminate]. cbn in ER. injection ER as <-.
      apply ev_cat; auto. eapply best_of_evaluated; [apply Ks| |exact EB]. congruence.
    + destruct (Nat.eqb _ _); [injection ER as <-; auto|]. apply (best_of_evaluated f _ _ _ (proj1 Kc) Ec ER).
Qed.
End Ga.

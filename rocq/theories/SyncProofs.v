(* Lemmas about distributed observation statistics. *)
From Coq Require Import Reals Lra.
From Verif Require Import Prelude NormModel NormSpec NormProofs SyncModel SyncSpec.
Close Scope R_scope.
Open Scope nat_scope.

Lemma Forall2_same_length {A B} {P : A -> B -> Prop} {l k} : Forall2 P l k -> length l = length k.
Proof. induction 1; cbn; auto. Qed.
Definition rs_repr (d : nat) (r : option norm) (os : obs) : Prop :=
  match r with
  | None => os = []
  | Some s => os <> [] /\ represents d default_minvar None s os
  end.
Lemma rs_repr_stats d r os : rs_repr d r os -> stats_are d r os.
Proof.
  destruct r as [s|]; cbn; auto. intros [N R]. split; auto. split; [eapply represents_count; eauto|].
  destruct (stats_represents _ _ _ _ _ R N) as (_ & M & S0). auto.
Qed.
Lemma rs_repr_count d r os : rs_repr d r os -> rs_count r = length os.
Proof. destruct r as [s|]; cbn; [intros [_ R]; eapply represents_count; eauto|intros ->; reflexivity]. Qed.
Lemma rs_update_repr d r os x : rs_repr d r os -> length x = d ->
  exists r', rs_update r (lift x) = Ok r' /\ rs_repr d r' (os ++ [x]).
Proof.
  intros R HL. unfold rs_update.
  assert (RS : represents d default_minvar None (match r with None => new_norm (length (lift x)) default_minvar None | Some s => s end) os).
  { destruct r as [s|]; cbn in R; [apply R|]. subst os. unfold lift. rewrite map_length, HL. reflexivity. }
  destruct (update_one _ _ _ _ _ x RS HL) as (s' & -> & R'). cbn. eexists. split; [reflexivity|]. cbn. split; auto.
  intros E. apply app_eq_nil in E. destruct E; discriminate.
Qed.
Lemma rs_merge_repr d r os x ox : rs_repr d r os -> rs_repr d x ox ->
  exists r', rs_merge r x = Ok r' /\ rs_repr d r' (os ++ ox).
Proof.
  intros R RX. unfold rs_merge. rewrite (rs_repr_count _ _ _ RX). destruct ox as [|o ox].
  - exists r. cbn. rewrite app_nil_r. auto.
  - replace (0 <? length (o :: ox)) with true by reflexivity. destruct x as [sx|]; [|cbn in RX; discriminate]. destruct r as [s|].
    + destruct R as [N R]. destruct RX as [NX RX]. destruct (merge_represents _ _ _ _ _ _ _ R RX) as (s' & -> & R'). cbn.
      eexists. split; [reflexivity|]. cbn. split; auto. intros E. apply app_eq_nil in E. destruct E; discriminate.
    + cbn in R. subst os. eexists. split; [reflexivity|]. exact RX.
Qed.

Record g_repr (d : nat) (g : gstate) (os oc : obs) (e i : nat) : Prop := {
  gr_stats : rs_repr d (g_stats g) os; gr_coll : rs_repr d (g_collected g) oc; gr_e : g_episodes g = e; gr_i : g_interactions g = i }.

Lemma g_observe_repr d g os oc e i x : g_repr d g os oc e i -> length x = d ->
  exists g', g_observe g (lift x) = Ok g' /\ g_repr d g' (os ++ [x]) (oc ++ [x]) e i.
Proof.
  intros [A B C D] HL. unfold g_observe. destruct (rs_update_repr d _ _ x A HL) as (st & -> & R1). cbn [bind].
  destruct (rs_update_repr d _ _ x B HL) as (co & -> & R2). cbn [bind]. eexists. split; [reflexivity|]. split; auto.
Qed.
Lemma g_steps_repr d e xs : forall g os oc i, g_repr d g os oc e i -> Forall (fun x => length x = d) xs ->
  exists g', fold_left (fun r x => bind r (fun g => rmap (fun g => G (g_stats g) (g_collected g) (g_episodes g) (S (g_interactions g))) (g_observe g x)))
    (map lift xs) (Ok g) = Ok g' /\ g_repr d g' (os ++ xs) (oc ++ xs) e (i + length xs).
Proof.
  induction xs as [|x xs IH]; intros g os oc i R HF; cbn [map fold_left].
  - exists g. rewrite !app_nil_r, Nat.add_0_r. auto.
  - inversion HF as [|? ? A B]; subst. cbn [bind]. destruct (g_observe_repr _ g os oc e i x R eq_refl) as (g1 & -> & [R1 R2 R3 R4]). cbn [rmap].
    destruct (IH (G (g_stats g1) (g_collected g1) (g_episodes g1) (S (g_interactions g1))) (os ++ [x]) (oc ++ [x]) (S i)) as (g2 & -> & R').
    + split; cbn; auto.
    + auto.
    + exists g2. split; auto. rewrite <- !app_assoc in R'. cbn [length]. replace (i + S (length xs)) with (S i + length xs) by lia. exact R'.
Qed.
Lemma g_episode_repr d g os oc e i ep : g_repr d g os oc e i -> Forall (fun x => length x = d) (ep_obs ep) ->
  exists g', g_episode g (lift_ep ep) = Ok g' /\ g_repr d g' (os ++ ep_obs ep) (oc ++ ep_obs ep) (S e) (i + length (snd ep)).
Proof.
  destruct ep as [x0 xs]. unfold ep_obs. cbn [fst snd]. intros R HF. inversion HF as [|? ? A B]; subst. unfold g_episode, lift_ep. cbn [fst snd].
  destruct (g_observe_repr _ g os oc e i x0 R eq_refl) as (g1 & -> & R1). cbn [bind].
  destruct (g_steps_repr _ e xs g1 _ _ i R1 B) as (g2 & -> & R2). cbn [bind]. eexists. split; [reflexivity|].
  rewrite <- !app_assoc in R2. destruct R2. split; cbn; auto.
Qed.
Lemma g_work_repr d es : forall g os oc e i, g_repr d g os oc e i -> Forall (fun x => length x = d) (eps_obs es) ->
  exists g', g_work g (map lift_ep es) = Ok g' /\ g_repr d g' (os ++ eps_obs es) (oc ++ eps_obs es) (e + length es) (i + eps_steps es).
Proof.
  unfold g_work, eps_obs, eps_steps. induction es as [|ep es IH]; intros g os oc e i R HF; cbn [map fold_left flat_map].
  - exists g. cbn [list_sum fold_right length]. rewrite !app_nil_r, !Nat.add_0_r. auto.
  - cbn [bind]. cbn [flat_map] in HF. apply Forall_app in HF. destruct HF as [A B].
    destruct (g_episode_repr d g os oc e i ep R A) as (g1 & -> & R1).
    destruct (IH _ _ _ _ _ R1 B) as (g2 & -> & R2). exists g2. split; auto.
    rewrite <- !app_assoc in R2. cbn [length]. cbn [list_sum fold_right]. change (fold_right Nat.add 0) with list_sum.
    replace (e + S (length es)) with (S e + length es) by lia.
    replace (i + (length (snd ep) + list_sum (map (fun e0 => length (snd e0)) es))) with (i + length (snd ep) + list_sum (map (fun e0 => length (snd e0)) es)) by lia.
    exact R2.
Qed.

(* actors between rounds: nothing collected, counters known *)
Definition actor_ok (d : nat) (a : gstate) (c : nat * nat) : Prop := g_collected a = None /\ g_episodes a = fst c /\ g_interactions a = snd c.
Lemma from_main_repr d M r cs : rs_repr d r M -> forall actors, Forall2 (actor_ok d) actors cs ->
  exists actors', sequence (map (fun a => g_from_main a r) actors) = Ok actors' /\
    Forall2 (fun a c => g_repr d a M [] (fst c) (snd c)) actors' cs.
Proof.
  intros R actors HF. induction HF as [|a c actors cs (A1 & A2 & A3) HF IH]; cbn [map sequence].
  - exists []. split; auto.
  - destruct IH as (actors' & -> & IH). unfold g_from_main at 1.
    destruct (rs_merge_repr d None [] r M eq_refl R) as (st & -> & R'). cbn [bind]. eexists. split; [reflexivity|]. constructor; auto.
    split; cbn; auto. rewrite A1. reflexivity.
Qed.
Lemma works_repr d M : forall actors cs works, Forall2 (fun a c => g_repr d a M [] (fst c) (snd c)) actors cs -> length works = length actors ->
  Forall (fun x => length x = d) (flat_map eps_obs works) ->
  exists actors', sequence (map2 g_work actors (map (map lift_ep) works)) = Ok actors' /\
    Forall2 (fun a '(c, w) => g_repr d a (M ++ eps_obs w) (eps_obs w) (fst c + length w) (snd c + eps_steps w)) actors' (combine cs works).
Proof.
  induction actors as [|a actors IH]; intros cs works HF HL HW; inversion HF as [|? c ? cs' A B]; subst; destruct works as [|w works]; try discriminate; cbn [map map2 sequence combine].
  - exists []. split; auto.
  - cbn [flat_map] in HW. apply Forall_app in HW. destruct HW as [W1 W2].
    destruct (g_work_repr d w a M [] (fst c) (snd c) A W1) as (a' & -> & RA).
    destruct (IH cs' works B) as (actors' & -> & IH'); [cbn in HL; lia|auto|]. eexists. split; [reflexivity|]. constructor; auto.
Qed.
Lemma from_actors_fold d : forall actors cs works M g te ti,
  Forall2 (fun a '(c, w) => rs_repr d (g_collected a) (eps_obs w) /\ g_episodes a = fst c + length w /\ g_interactions a = snd c + eps_steps w) actors (combine cs works) ->
  length cs = length works -> rs_repr d (g_stats g) M ->
  exists g', fold_left (fun r p => let '(e, i, delta) := p in
     bind r (fun '(g, te, ti) => bind (rs_merge (g_stats g) delta) (fun st => Ok (G st (g_collected g) (g_episodes g) (g_interactions g), te + e, ti + i))))
     (map snd (map g_for_main actors)) (Ok (g, te, ti)) = Ok (g', te + (list_sum (map fst cs) + list_sum (map (@length repisode) works)), ti + (list_sum (map snd cs) + list_sum (map eps_steps works))) /\
    rs_repr d (g_stats g') (M ++ flat_map eps_obs works) /\ g_collected g' = g_collected g.
Proof.
  induction actors as [|a actors IH]; intros cs works M g te ti HF HL R; destruct cs as [|c cs]; destruct works as [|w works]; try discriminate;
    cbn [combine] in HF; inversion HF as [|? ? ? ? A B]; subst.
  - exists g. cbn. rewrite app_nil_r, !Nat.add_0_r. auto.
  - destruct A as (A1 & A2 & A3). cbn [map fold_left]. unfold g_for_main at 2. cbn [snd]. cbn [bind].
    destruct (rs_merge_repr d _ _ _ _ R A1) as (st & -> & R'). cbn [bind].
    destruct (IH cs works (M ++ eps_obs w) (G st (g_collected g) (g_episodes g) (g_interactions g)) (te + g_episodes a) (ti + g_interactions a) B) as (g' & E & R2 & R3); [cbn in HL; lia|exact R'|].
    exists g'. split.
    + rewrite E. rewrite A2, A3. cbn [map list_sum fold_right]. change (fold_right Nat.add 0) with list_sum.
      f_equal. apply f_equal2; [apply f_equal2; [reflexivity|lia]|lia].
    + cbn [flat_map]. rewrite app_assoc. auto.
Qed.

Definition sys_repr (d n : nat) (sys : gstate * list gstate) (M : obs) (cs : list (nat * nat)) : Prop :=
  rs_repr d (g_stats (fst sys)) M /\ Forall2 (actor_ok d) (snd sys) cs /\ length cs = n /\ (exists oc, rs_repr d (g_collected (fst sys)) oc).
Lemma round_repr d n sys M cs works : sys_repr d n sys M cs -> length works = n ->
  Forall (fun x => length x = d) (flat_map eps_obs works) ->
  exists sys', g_step sys (GRound (map (map lift_ep) works)) = Ok sys' /\
    sys_repr d n sys' (M ++ flat_map eps_obs works) (map (fun '(c, w) => (fst c + length w, snd c + eps_steps w)) (combine cs works)) /\
    g_episodes (fst sys') = list_sum (map fst cs) + list_sum (map (@length repisode) works) /\
    g_interactions (fst sys') = list_sum (map snd cs) + list_sum (map eps_steps works).
Proof.
  destruct sys as [main actors]. intros (R & HA & HN & HC) HL HW. cbn [fst snd] in *. cbn [g_step]. unfold g_round.
  destruct (from_main_repr d M (g_stats main) cs R actors HA) as (a1 & -> & R1). cbn [bind].
  assert (L1 : length works = length a1) by (rewrite (Forall2_same_length R1); lia).
  destruct (works_repr d M a1 cs works R1 L1 HW) as (a2 & -> & R2). cbn [bind].
  unfold g_from_actors.
  destruct (from_actors_fold d a2 cs works M main 0 0) as (g' & -> & R3 & R4).
  - clear -R2. induction R2 as [|a [c w] ? ? [A B C D] HF IH]; constructor; auto.
  - lia.
  - exact R.
  - cbn [bind]. eexists. split; [reflexivity|]. cbn [fst snd g_stats g_episodes g_interactions]. split; [|split; reflexivity].
    split; [exact R3|]. cbn [fst snd]. split.
    + rewrite map_map. clear -R2. induction R2 as [|a [c w] ? ? [A B C D] HF IH]; cbn [map]; constructor; auto.
      split; [reflexivity|]. cbn. auto.
    + split; [rewrite map_length, combine_length; lia|]. rewrite R4. exact HC.
Qed.
Lemma run_repr d n sys M cs es : sys_repr d n sys M cs -> Forall (fun x => length x = d) (eps_obs es) ->
  exists sys', g_step sys (GRun (map lift_ep es)) = Ok sys' /\ sys_repr d n sys' (M ++ eps_obs es) cs /\
    g_interactions (fst sys') = g_interactions (fst sys) + eps_steps es.
Proof.
  destruct sys as [main actors]. intros (R & HA & HN & oc & HC) HW. cbn [fst snd] in *. cbn [g_step].
  destruct (g_work_repr d es main M oc (g_episodes main) (g_interactions main)) as (g' & -> & [A B C D]); [split; auto|auto|].
  cbn [rmap]. eexists. split; [reflexivity|]. cbn [fst snd]. split; [|auto]. split; [auto|]. cbn [fst snd]. split; [auto|]. split; [auto|]. exists (oc ++ eps_obs es). exact B.
Qed.

Lemma list_sum_zip (f : nat * nat -> nat) (g : list repisode -> nat) (h : nat * nat -> list repisode -> nat) cs works : length cs = length works ->
  (forall c w, h c w = f c + g w) ->
  list_sum (map (fun '(c, w) => h c w) (combine cs works)) = list_sum (map f cs) + list_sum (map g works).
Proof.
  intros HL HE. revert works HL. induction cs as [|c cs IH]; intros [|w works] HL; try discriminate; auto.
  cbn [combine map]. change (list_sum (?a :: ?l)) with (a + list_sum l). rewrite IH by (cbn in HL; lia). rewrite HE. lia.
Qed.
Lemma all_obs_snoc os o : all_obs (os ++ [o]) = all_obs os ++ match o with RRound works => flat_map eps_obs works | RRun es => eps_obs es end.
Proof. unfold all_obs. rewrite flat_map_app. cbn [flat_map]. rewrite app_nil_r. reflexivity. Qed.
Lemma list_sum_snoc l a : list_sum (l ++ [a]) = list_sum l + a.
Proof. rewrite list_sum_app. cbn. lia. Qed.

Lemma history_repr d n os : Forall (op_ok n d) os ->
  exists sys cs, g_history n (map lift_op os) = Ok sys /\ sys_repr d n sys (all_obs os) cs /\
    list_sum (map snd cs) = all_steps os /\ list_sum (map fst cs) = all_episodes os /\
    (forall pre works, os = pre ++ [RRound works] -> g_interactions (fst sys) = all_steps os /\ g_episodes (fst sys) = all_episodes os) /\
    (forall pre es, os = pre ++ [RRun es] -> exists sys0, g_history n (map lift_op pre) = Ok sys0 /\ g_interactions (fst sys) = g_interactions (fst sys0) + eps_steps es).
Proof.
  intros HF. induction os as [|o os IH] using rev_ind.
  - exists (g_new, repeat g_new n), (repeat (0, 0) n). split; [reflexivity|].
    assert (Z : forall k, list_sum (map snd (repeat (0, 0) k)) = 0 /\ list_sum (map fst (repeat (0, 0) k)) = 0).
    { induction k as [|k [IH1 IH2]]; cbn; auto. }
    split; [|split; [apply Z|split; [apply Z|split; intros pre w E; apply app_cons_not_nil in E; contradiction]]].
    split; [reflexivity|]. cbn [fst snd]. split; [|split; [apply repeat_length|exists []; reflexivity]].
    induction n as [|n IHn]; cbn; constructor; auto. split; [reflexivity|]. split; reflexivity.
  - apply Forall_app in HF. destruct HF as [HF HO]. inversion HO as [|? ? HO' _]; subst.
    destruct (IH HF) as (sys & cs & E & R & C1 & C2 & _). clear IH.
    unfold g_history in *. rewrite map_app, fold_left_app. cbn [map fold_left]. rewrite E. cbn [bind].
    rewrite all_obs_snoc. unfold all_steps, all_episodes in *. rewrite !map_app. cbn [map]. rewrite !list_sum_snoc.
    destruct o as [works|es]; cbn [op_ok] in HO'; cbn [lift_op].
    + destruct HO' as [HL HW]. pose proof R as (_ & _ & HN & _).
      destruct (round_repr d n sys (all_obs os) cs works R HL HW) as (sys' & -> & R' & E1 & E2).
      eexists sys', _. split; [reflexivity|]. split; [exact R'|].
      assert (S1 : list_sum (map snd (map (fun '(c, w) => (fst c + length w, snd c + eps_steps w)) (combine cs works))) = list_sum (map snd cs) + list_sum (map eps_steps works)).
      { rewrite map_map. rewrite <- (list_sum_zip snd eps_steps (fun c w => snd c + eps_steps w)) by (auto; lia).
        f_equal. apply map_ext. intros [c w]. reflexivity. }
      assert (S2 : list_sum (map fst (map (fun '(c, w) => (fst c + length w, snd c + eps_steps w)) (combine cs works))) = list_sum (map fst cs) + list_sum (map (@length repisode) works)).
      { rewrite map_map. rewrite <- (list_sum_zip fst (@length repisode) (fun c w => fst c + length w)) by (auto; lia).
        f_equal. apply map_ext. intros [c w]. reflexivity. }
      split; [rewrite S1, C1; reflexivity|]. split; [rewrite S2, C2; reflexivity|]. split.
      * intros pre w EQ. rewrite E1, E2, C1, C2. auto.
      * intros pre es EQ. apply app_inj_tail in EQ. destruct EQ; discriminate.
    + destruct (run_repr d n sys (all_obs os) cs es R HO') as (sys' & -> & R' & E1).
      exists sys', cs. split; [reflexivity|]. split; [exact R'|]. rewrite !Nat.add_0_r. split; [auto|]. split; [auto|]. split.
      * intros pre w EQ. apply app_inj_tail in EQ. destruct EQ; discriminate.
      * intros pre es' EQ. apply app_inj_tail in EQ. destruct EQ as [<- EQ]. injection EQ as <-. exists sys. auto.
Qed.

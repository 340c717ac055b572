(* Lemmas about distributed observation statistics of VecGymNE. *)
From Coq Require Import Reals Lra.
From Verif Require Import Prelude NormModel NormSpec NormProofs SyncModel SyncSpec SyncProofs.
Close Scope R_scope.
Open Scope nat_scope.

Lemma v_ensure_repr d r os : rs_repr d r os -> represents d default_minvar None (v_ensure d r) os.
Proof. destruct r as [s|]; cbn; [intros [_ R]; exact R|intros ->; reflexivity]. Qed.
Lemma v_observe_repr d v os oc rows : rs_repr d (v_stats v) os -> rs_repr d (v_collected v) oc -> rows <> [] -> Forall (fun x => length x = d) rows ->
  exists v', v_observe v d (map lift rows) = Ok v' /\ rs_repr d (v_stats v') (os ++ rows) /\ rs_repr d (v_collected v') (oc ++ rows).
Proof.
  intros R1 R2 HN HF. unfold v_observe.
  destruct (update_batch d _ _ _ _ rows None (v_ensure_repr _ _ _ R2) HF) as (co & -> & C2); [discriminate|right; exact HN|]. cbn [bind].
  destruct (update_batch d _ _ _ _ rows None (v_ensure_repr _ _ _ R1) HF) as (st & U & C1); [discriminate|right; exact HN|].
  unfold update_and_normalize. unfold update in U. rewrite U. cbn [selected] in C1, C2.
  assert (N1 : os ++ rows <> []) by (intros E; apply app_eq_nil in E; destruct E; contradiction).
  assert (N2 : oc ++ rows <> []) by (intros E; apply app_eq_nil in E; destruct E; contradiction).
  pose proof (represents_count _ _ _ _ _ C1) as HC.
  destruct (n_count st =? 0) eqn:E0; [apply Nat.eqb_eq in E0; rewrite HC in E0; destruct (os ++ rows); [congruence|discriminate]|].
  destruct (stats_represents _ _ _ _ _ C1 N1) as (-> & _). cbn [bind]. eexists. split; [reflexivity|]. cbn. auto.
Qed.
Lemma v_work_repr d bs : forall v os oc, rs_repr d (v_stats v) os -> rs_repr d (v_collected v) oc ->
  Forall (fun rows => rows <> [] /\ Forall (fun x => length x = d) rows) bs ->
  exists v', v_work v d (lift_vwork bs) = Ok v' /\ rs_repr d (v_stats v') (os ++ concat bs) /\ rs_repr d (v_collected v') (oc ++ concat bs).
Proof.
  unfold v_work, lift_vwork. induction bs as [|b bs IH]; intros v os oc R1 R2 HF; cbn [map fold_left concat].
  - exists v. rewrite !app_nil_r. auto.
  - inversion HF as [|? ? [A1 A2] B]; subst. cbn [bind]. destruct (v_observe_repr d v os oc b R1 R2 A1 A2) as (v1 & -> & S1 & S2).
    destruct (IH v1 _ _ S1 S2 B) as (v2 & -> & T1 & T2). exists v2. rewrite <- !app_assoc in T1, T2. auto.
Qed.
Lemma v_works_repr d M : forall actors works, Forall (fun a => rs_repr d (v_stats a) M /\ v_collected a = None) actors -> length works = length actors ->
  Forall (Forall (fun rows => rows <> [] /\ Forall (fun x => length x = d) rows)) works ->
  exists actors', sequence (map2 (fun a b => v_work a d b) actors (map lift_vwork works)) = Ok actors' /\
    Forall2 (fun a b => rs_repr d (v_collected a) (concat b)) actors' works.
Proof.
  induction actors as [|a actors IH]; intros [|b works] HA HL HW; try discriminate; cbn [map map2 sequence].
  - exists []. auto.
  - inversion HA as [|? ? [A1 A2] A3]; subst. inversion HW as [|? ? W1 W2]; subst.
    destruct (v_work_repr d b a M [] A1) as (a' & -> & R1 & R2); [rewrite A2; reflexivity|auto|].
    destruct (IH works A3) as (as' & -> & R3); [cbn in HL; lia|auto|]. eexists. split; [reflexivity|]. constructor; auto.
Qed.
Lemma v_from_actors_repr d : forall actors works v M, Forall2 (fun a b => rs_repr d (v_collected a) (concat b)) actors works ->
  Forall (fun b => concat b <> []) works -> rs_repr d (v_stats v) M ->
  exists v', v_from_actors v (map snd (map v_for_main actors)) = Ok v' /\ rs_repr d (v_stats v') (M ++ concat (map (@concat (list R)) works)).
Proof.
  unfold v_from_actors. induction actors as [|a actors IH]; intros works v M HF HN R; inversion HF as [|? b ? ws A B]; subst; cbn [map fold_left concat].
  - exists v. rewrite app_nil_r. auto.
  - inversion HN as [|? ? N1 N2]; subst. cbn [bind]. unfold v_update_stats at 2. cbn [v_for_main snd].
    destruct (v_collected a) as [x|] eqn:EC; [|cbn in A; contradiction]. destruct (v_stats v) as [s|] eqn:ES.
    + destruct A as [_ A]. destruct R as [RN R]. destruct (merge_represents _ _ _ _ _ _ _ R A) as (s' & -> & R'). cbn [rmap].
      assert (RR : rs_repr d (Some s') (M ++ concat b)).
      { split; auto. intros E. apply app_eq_nil in E. destruct E; contradiction. }
      destruct (IH ws (V (Some s') (v_collected v) (v_episodes v) (v_interactions v)) (M ++ concat b) B N2 RR) as (v' & -> & RV). exists v'. split; auto. rewrite <- app_assoc in RV. exact RV.
    + cbn in R. subst M. destruct (IH ws (V (Some x) (v_collected v) (v_episodes v) (v_interactions v)) (concat b) B N2 A) as (v' & -> & RV). exists v'. auto.
Qed.
Definition vsys_repr (d n : nat) (sys : vstate * list vstate) (M : obs) : Prop :=
  rs_repr d (v_stats (fst sys)) M /\ Forall (fun a => v_collected a = None) (snd sys) /\ length (snd sys) = n.
Lemma sequence_length {A} (l : list (result A)) r : sequence l = Ok r -> length r = length l.
Proof.
  revert r. induction l as [|[a|e] l IH]; cbn; intros r E; [injection E as <-; reflexivity| |discriminate].
  destruct (sequence l) as [r'|]; [|discriminate]. injection E as <-. cbn. f_equal. apply IH. reflexivity.
Qed.
Lemma v_round_repr d n sys M works : vsys_repr d n sys M -> vround_ok n d works -> nobody_idle works ->
  exists sys', v_round d (fst sys) (snd sys) (map lift_vwork works) = Ok sys' /\ vsys_repr d n sys' (M ++ concat (map (@concat (list R)) works)).
Proof.
  destruct sys as [main actors]. intros (R & HA & HN) [HL HW] HI. cbn [fst snd] in *. unfold v_round.
  destruct (v_works_repr d M (map (fun a => v_from_main a (v_stats main)) actors) works) as (as' & E & R1); auto.
  - apply Forall_forall. intros a Ha. apply in_map_iff in Ha. destruct Ha as (b & <- & Hb). cbn. split; auto. apply (proj1 (Forall_forall _ _) HA b Hb).
  - rewrite map_length, HN. exact HL.
  - rewrite E. cbn [bind].
    destruct (v_from_actors_repr d as' works main M R1) as (v' & -> & RV); auto.
    + apply Forall_forall. intros b Hb. specialize (proj1 (Forall_forall _ _) HI b Hb). specialize (proj1 (Forall_forall _ _) HW b Hb). clear.
      cbn beta. intros HF HN. destruct b as [|r b]; [exfalso; apply HN; reflexivity|]. inversion HF as [|? ? [N _] _]; subst. cbn. intros E. apply app_eq_nil in E. destruct E; contradiction.
    + cbn [bind]. eexists. split; [reflexivity|]. split; [exact RV|]. cbn [fst snd]. split.
      * apply Forall_forall. intros a Ha. apply in_map_iff in Ha. destruct Ha as (p & <- & Hp). apply in_map_iff in Hp. destruct Hp as (b & <- & _). reflexivity.
      * rewrite !map_length. rewrite (sequence_length _ _ E), map2_length, !map_length. lia.
Qed.
Lemma v_history_repr d n rounds : Forall (vround_ok n d) rounds -> Forall nobody_idle rounds ->
  exists sys, v_history d n (map (map lift_vwork) rounds) = Ok sys /\ vsys_repr d n sys (concat (map (fun works => concat (map (@concat (list R)) works)) rounds)).
Proof.
  intros HF HI. induction rounds as [|r rounds IH] using rev_ind.
  - eexists. split; [reflexivity|]. split; [reflexivity|]. cbn [fst snd]. rewrite repeat_length. split; auto.
    apply Forall_forall. intros a Ha. apply repeat_spec in Ha. subst. reflexivity.
  - apply Forall_app in HF. apply Forall_app in HI. destruct HF as [F1 F2], HI as [I1 I2]. inversion F2 as [|? ? F3 _]; subst. inversion I2 as [|? ? I3 _]; subst.
    destruct (IH F1 I1) as ([m a] & E & R). unfold v_history in *. rewrite map_app, fold_left_app. cbn [map fold_left]. rewrite E. cbn [bind].
    destruct (v_round_repr d n (m, a) _ r R F3 I3) as (sys' & ER & R'). cbn [fst snd] in ER. rewrite ER. eexists. split; [reflexivity|].
    rewrite map_app, concat_app. cbn [map concat]. rewrite app_nil_r. exact R'.
Qed.

(* an idle actor *)
Lemma v_from_actors_none ds : forall v s, v_stats v = Some s -> In None ds ->
  forall r, r = Ok v -> exists e, fold_left (fun r d => bind r (fun v => v_update_stats v d)) ds r = Err e.
Proof.
  assert (ERR : forall ds e, fold_left (fun r d => bind r (fun v => v_update_stats v d)) ds (Err e) = Err e).
  { intros l e. induction l; cbn; auto. }
  induction ds as [|dd ds IH]; intros v s HS HI r ->; [contradiction|]. cbn [fold_left bind]. unfold v_update_stats at 2. rewrite HS.
  destruct dd as [x|].
  - destruct HI as [HI|HI]; [discriminate|]. destruct (merge s x None) as [s'|e]; cbn [rmap].
    + apply (IH (V (Some s') (v_collected v) (v_episodes v) (v_interactions v)) s' eq_refl HI _ eq_refl).
    + rewrite ERR. eauto.
  - rewrite ERR. eauto.
Qed.
Lemma sequence_nth {A} (l : list (result A)) r k a : sequence l = Ok r -> nth_error l k = Some (Ok a) -> nth_error r k = Some a.
Proof.
  revert r k. induction l as [|[x|e] l IH]; cbn; intros r k E HK; [destruct k; discriminate| |discriminate].
  destruct (sequence l) as [r'|]; [|discriminate]. injection E as <-. destruct k as [|k]; cbn in *; [congruence|]. apply IH; auto.
Qed.
Lemma idle_round d main actors works s k : v_stats main = Some s -> Forall (fun a => v_collected a = None) actors ->
  length works = length actors -> nth_error works k = Some [] ->
  exists e, v_round d main actors works = Err e.
Proof.
  intros HS HA HL HK. unfold v_round. destruct (sequence _) as [as'|e] eqn:E; [|cbn; eauto]. cbn [bind].
  assert (HK2 : k < length actors) by (rewrite <- HL; apply nth_error_Some; congruence).
  destruct (nth_error actors k) as [a|] eqn:Ea; [|apply nth_error_None in Ea; lia].
  assert (Hnth : nth_error as' k = Some (v_from_main a (v_stats main))).
  { apply (sequence_nth _ _ _ _ E). rewrite map2_nth_error, nth_error_map, Ea, HK. reflexivity. }
  destruct (v_from_actors_none (map snd (map v_for_main as')) main s HS) with (r := @Ok vstate main) as [e Ee]; auto.
  - apply nth_error_In with k. rewrite !nth_error_map, Hnth. cbn. f_equal. apply (proj1 (Forall_forall _ _) HA). eapply nth_error_In; eauto.
  - unfold v_from_actors. rewrite Ee. cbn. eauto.
Qed.

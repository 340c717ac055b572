(* Proofs about MAPElites. *)
From Coq Require Import Sorted.
From Verif Require Import Prelude FloatLib BatchModel BatchSpec BatchProofs ParetoModel ParetoProofs2 GaModel GaSpec GaProofs GaProofs2 MapModel MapSpec.

Lemma flt_lt a b : flt a b = true <-> lt_fl a b.
Proof.
  split.
  - destruct a, b; cbn; intros H; try discriminate; constructor. lia.
  - destruct 1; cbn; auto. lia.
Qed.
Lemma fle_le a b : fle a b = true <-> le_fl a b.
Proof.
  unfold le_fl. rewrite <- flt_lt. destruct a as [| |x|], b as [| |y|]; unfold fle; cbn; split; intros H; auto; try discriminate; try (destruct H as [H|[H1 H2]]; congruence || discriminate);
    try (right; split; [reflexivity|discriminate]).
  - destruct (Z.ltb_spec x y); [auto|]. right. split; [f_equal; lia|discriminate].
  - destruct H as [H|[H _]]; [lia|]. injection H as ->. rewrite Z.ltb_irrefl. auto.
Qed.
Lemma fle_trans a b c : fle a b = true -> fle b c = true -> fle a c = true.
Proof. unfold fle. destruct a, b, c; cbn; auto; try discriminate. lia. Qed.
Lemma fle_total a b : is_nan a = false -> is_nan b = false -> fle a b = true \/ fle b a = true.
Proof. unfold fle. destruct a, b; cbn; auto; try discriminate. lia. Qed.

Definition fitsb (c : cell) (row : list fl) : bool := forallb (fun q => (fle (fst (fst q)) (snd q) && fle (snd q) (snd (fst q)))%bool) (combine c (skipn 1 row)).
Lemma fitsb_fits : forall c row, length c = length (tl row) -> (fitsb c row = true <-> fits c row).
Proof.
  intros c row. unfold fits, fitsb. replace (skipn 1 row) with (tl row) by (destruct row; auto). generalize (tl row). clear row.
  induction c as [|p c IH]; intros [|x l] H; cbn in *; try discriminate; [split; auto|]. injection H as H.
  rewrite !Bool.andb_true_iff, IH by auto. rewrite !fle_le. split.
  - intros [[A B] C]. constructor; [split; auto|auto].
  - intros F. inversion F; subst. destruct H3. auto.
Qed.
Lemma suitable_ok c row : length c = length (tl row) -> suitable c row = Ok (fitsb c row).
Proof.
  intros H. unfold suitable, fitsb. replace (skipn 1 row) with (tl row) by (destruct row; auto).
  rewrite H, Nat.eqb_refl. auto.
Qed.
Lemma map2_map {A B C D} (g : B -> C -> D) (h : A -> B) (k : A -> C) l : map2 g (map h l) (map k l) = map (fun x => g (h x) (k x)) l.
Proof. induction l; cbn; congruence. Qed.

Section Map.
Context {V : Type}.
Variable pick : bool -> list fl -> nat.
Variable ev : nat -> list V -> list (list fl).
Hypothesis Hpick : pick_ok pick.

Lemma best_for_cell_ok d (f : V -> list fl) values c : values <> [] -> (forall v, In v values -> length c = length (tl (f v))) ->
  exists i v, best_for_cell pick d values (map f values) c = Ok (v, f v, fitsb c (f v)) /\ nth_error values i = Some v /\
    forall x, In x values -> beats d (if fitsb c (f x) then fitness f x else if d then NInf else PInf)
                                    (if fitsb c (f v) then fitness f v else if d then NInf else PInf) = false.
Proof.
  intros HN HW. unfold best_for_cell.
  rewrite (sequence_map_all (suitable c) (fitsb c)).
  2: { intros row Hr. apply in_map_iff in Hr. destruct Hr as (v & <- & Hv). apply suitable_ok; auto. }
  cbn [bind]. rewrite map_map, map2_map.
  set (P := fun v => if fitsb c (f v) then nth 0 (f v) NaN else if d then NInf else PInf).
  change (map (fun x => if fitsb c (f x) then nth 0 (f x) NaN else if d then NInf else PInf) values) with (map P values).
  assert (NP : map P values <> []) by (destruct values; [congruence|discriminate]).
  destruct (Hpick d (map P values) NP) as [L B]. set (i := pick d (map P values)) in *. rewrite map_length in L, B.
  destruct (nth_error values i) as [v|] eqn:Ev; [|apply nth_error_None in Ev; lia].
  exists i, v. split.
  - rewrite !nth_error_map, Ev. cbn. destruct (map P values); [congruence|auto].
  - split; [auto|]. intros x Hx. apply In_nth_error in Hx. destruct Hx as [j Hj].
    assert (Lj : j < length values) by (apply nth_error_Some; congruence).
    assert (G : forall k w, nth_error values k = Some w -> nth k (map P values) NaN = P w).
    { intros k w Hw. apply nth_error_nth. rewrite nth_error_map, Hw. auto. }
    specialize (B j Lj). rewrite (G _ _ Hj), (G _ _ Ev) in B. exact B.
Qed.
(* the cell gets the best fitting candidate *)
Lemma cell_ok d (f : V -> list fl) values c v : acceptable d f -> In v values -> (forall v, In v values -> length c = length (tl (f v))) ->
  (forall x, In x values -> beats d (if fitsb c (f x) then fitness f x else if d then NInf else PInf)
                                    (if fitsb c (f v) then fitness f v else if d then NInf else PInf) = false) ->
  (fitsb c (f v) = true <-> exists x, In x values /\ fits c (f x)) /\ (fitsb c (f v) = true -> represents d f c values v).
Proof.
  intros HF Hv HW B. assert (FF := HF v). split; [split|].
  - intros H. exists v. split; auto. apply fitsb_fits; auto.
  - intros (x & Hx & Fx). apply fitsb_fits in Fx; auto. specialize (B x Hx). rewrite Fx in B.
    destruct (fitsb c (f v)); [auto|]. specialize (HF x). unfold fitness in B. 
    destruct HF as [HF1 HF2]. unfold beats in B. destruct d, (nth 0 (f x) NaN); cbn in B; congruence.
  - intros H. split; [auto|]. split; [apply fitsb_fits; auto|]. intros x Hx Fx. apply fitsb_fits in Fx; auto. specialize (B x Hx).
    rewrite Fx, H in B. pose proof (HF x) as FX. unfold fitness in *. unfold beats in B. apply Bool.orb_false_iff in B. destruct B as [_ B].
    intros Q. unfold better in Q. destruct d; apply flt_lt in Q; congruence.
Qed.

(* which cells are filled, and by what *)
Definition archive d (f : V -> list fl) (grid : list cell) (seen : list V) (s : mstate V) : Prop :=
  b_len (s_pop (m_st s)) = length grid /\ length (m_filled s) = length grid /\
  forall i c b v, nth_error grid i = Some c -> nth_error (m_filled s) i = Some b -> nth_error (b_vals (s_pop (m_st s))) i = Some v ->
    (b = true <-> exists x, In x seen /\ fits c (f x)) /\ (b = true -> represents d f c seen v).

Lemma map_step_ok d (f : V -> list fl) cf ops grid s s' pool seen : Forall legal ops -> wf (s_pop (m_st s)) ->
  deterministic f ev -> acceptable d f -> (forall v, length (f v) = eval_width (s_pop (m_st s))) ->
  Forall (fun c : cell => length c = b_ndata (s_pop (m_st s))) grid -> b_desc (s_pop (m_st s)) = [d] ->
  ready f cf (m_st s) -> archive d f grid seen s ->
  map_step pick ev cf ops grid s = Ok (s', pool) ->
  same_kind (s_pop (m_st s)) (s_pop (m_st s')) /\ evaluated f (s_pop (m_st s')) /\ s_first (m_st s') = false /\
  archive d f grid (seen ++ b_vals pool) s' /\ incl (b_vals (s_pop (m_st s))) (b_vals pool).
Proof.
  intros HL W HD HF Hw Hg Hd HR (A1 & A2 & A3) H. unfold map_step in H.
  assert (HE : evaluates (eval_width (s_pop (m_st s))) ev).
  { intros k vs. rewrite HD, map_length. split; auto. apply Forall_map, Forall_forall. auto. }
  destruct (extended ev cf ops (m_st s)) as [[[s1 p] c]|] eqn:E; [|discriminate]. cbn [bind] in H.
  destruct (extended_inv ev cf ops (m_st s) s1 p c HL W HE E) as (Kp & Kc & Ks & Vp & Vs & F1 & _).
  destruct (extended_evaluated ev f cf ops (m_st s) s1 p c HD HR E) as [Ep Ec].
  pose proof (cat_kind _ _ _ Kp Kc) as K. pose proof (ev_cat _ _ _ Ep Ec) as EV.
  assert (Dp : b_desc (cat p c) = [d]) by (destruct K as (_ & K & _); congruence). rewrite Dp in H.
  destruct (sequence (map _ grid)) as [best|] eqn:ES; [|discriminate]. cbn [bind] in H. injection H as <- <-.
  unfold evaluated in EV. rewrite EV in ES.
  assert (Lg : length best = length grid).
  { clear - ES. revert best ES. induction grid as [|g l IH]; cbn; intros best ES; [injection ES as <-; auto|].
    destruct (best_for_cell pick d _ _ g); [|discriminate]. destruct (sequence _) as [r|]; [|discriminate]. injection ES as <-. cbn. f_equal. auto. }
  assert (INC : incl (b_vals (s_pop (m_st s))) (b_vals (cat p c))) by (rewrite <- Vp; intros x Hx; cbn; apply in_or_app; auto).
  assert (HW : forall cl, In cl grid -> forall v, In v (b_vals (cat p c)) -> length cl = length (tl (f v))).
  { intros cl Hc v _. rewrite (proj1 (Forall_forall _ _) Hg cl Hc). specialize (Hw v). unfold eval_width, num_objs in Hw. rewrite Hd in Hw. cbn in Hw.
    destruct (f v); cbn in *; lia. }
  assert (NG : grid <> [] -> b_vals (cat p c) <> []).
  { intros NG X. assert (Y : b_vals (s_pop (m_st s)) = []). { apply incl_l_nil. rewrite <- X. auto. }
    unfold b_len in A1. rewrite Y in A1. destruct grid; [congruence|discriminate]. }
  assert (NB : forall i r, nth_error best i = Some r -> exists cl, nth_error grid i = Some cl /\ In (fst (fst r)) (b_vals (cat p c)) /\
     snd (fst r) = f (fst (fst r)) /\ snd r = fitsb cl (f (fst (fst r))) /\
     ((snd r = true <-> exists x, In x (b_vals (cat p c)) /\ fits cl (f x)) /\ (snd r = true -> represents d f cl (b_vals (cat p c)) (fst (fst r))))).
  { intros i r Hi. assert (Li : i < length grid) by (rewrite <- Lg; apply nth_error_Some; congruence).
    destruct (nth_error grid i) as [cl|] eqn:Eg; [|apply nth_error_None in Eg; lia]. exists cl. split; [auto|].
    assert (Ic : In cl grid) by (eapply nth_error_In; eauto).
    destruct (best_for_cell_ok d f (b_vals (cat p c)) cl) as (k & v & E1 & E2 & E3); [apply NG; intros X; rewrite X in Li; cbn in Li; lia|apply HW; auto|].
    assert (ER : r = (v, f v, fitsb cl (f v))).
    { clear - ES Hi Eg E1. revert i best ES Hi Eg. induction grid as [|g l IH]; intros i best ES Hi Eg; [destruct i; discriminate|]. cbn in ES.
      destruct (best_for_cell pick d _ _ g) as [rg|] eqn:EG; [|discriminate]. destruct (sequence _) as [rr|] eqn:EQ; [|discriminate]. injection ES as <-.
      destruct i as [|i]; cbn in *; [|eapply IH; eauto]. injection Eg as ->. injection Hi as <-. rewrite E1 in EG. injection EG as <-. auto. }
    subst r. cbn. split; [eapply nth_error_In; eauto|]. split; [auto|]. split; [auto|].
    apply cell_ok; auto. eapply nth_error_In; eauto. }
  cbn [m_st s_pop m_filled s_first]. split.
  { destruct K as ([K1 K2] & K3 & K4). split; [|cbn; auto]. split; [unfold b_len; cbn; rewrite !map_length; auto|].
    cbn. apply Forall_map, Forall_forall. intros r Hr. apply In_nth_error in Hr. destruct Hr as [i Hi]. destruct (NB i r Hi) as (_ & _ & _ & -> & _).
    rewrite Hw. unfold eval_width, num_objs. cbn. cbn in K3, K4. rewrite Hd; cbn; congruence. }
  split. { unfold evaluated. cbn. rewrite map_map. apply map_ext_in. intros r Hr. apply In_nth_error in Hr. destruct Hr as [i Hi]. destruct (NB i r Hi) as (_ & _ & _ & -> & _). auto. }
  split; [auto|]. split; [|exact INC]. split; [unfold b_len; cbn; rewrite map_length; auto|]. split; [cbn; rewrite map_length; auto|].
  intros i cl b v Hc Hb Hv. cbn in Hb, Hv. rewrite nth_error_map in Hb, Hv. destruct (nth_error best i) as [r|] eqn:Er; [|discriminate].
  cbn in Hb, Hv. injection Hb as <-. injection Hv as <-. destruct (NB i r Er) as (cl' & Hc' & In1 & _ & Es & S1 & S2). rewrite Hc in Hc'. injection Hc' as <-.
  (* the previous occupant of the cell is among the candidates *)
  assert (Li : i < length grid) by (apply nth_error_Some; congruence).
  destruct (nth_error (m_filled s) i) as [b0|] eqn:Eb; [|apply nth_error_None in Eb; lia].
  destruct (nth_error (b_vals (s_pop (m_st s))) i) as [v0|] eqn:Ev0; [|apply nth_error_None in Ev0; unfold b_len in A1; lia].
  destruct (A3 i cl b0 v0 Hc Eb Ev0) as [P1 P2].
  assert (In0 : In v0 (b_vals (cat p c))) by (apply INC; eapply nth_error_In; eauto).
  split; [split|].
  - intros Hs. apply S1 in Hs. destruct Hs as (x & Hx & Fx). exists x. split; [apply in_or_app; auto|auto].
  - intros (x & Hx & Fx). apply in_app_or in Hx. destruct Hx as [Hx|Hx]; [|apply S1; eauto].
    assert (Q : b0 = true) by (apply P1; eauto). destruct (P2 Q) as (_ & Fv & _). apply S1. eauto.
  - intros Hs. destruct (S2 Hs) as (I1 & F0 & Best). split; [apply in_or_app; auto|]. split; [auto|].
    intros x Hx Fx. apply in_app_or in Hx. destruct Hx as [Hx|Hx]; [|auto].
    assert (Q : b0 = true) by (apply P1; eauto). destruct (P2 Q) as (_ & Fv & B0).
    specialize (B0 x Hx Fx). specialize (Best v0 In0 Fv). intros X.
    pose proof (HF v0) as N0. unfold fitness in *. unfold better in *.
    assert (NN : is_nan (nth 0 (f v0) NaN) = false) by (destruct N0 as [N0 _], (nth 0 (f v0) NaN); auto; congruence).
    destruct d; rewrite <- flt_lt in X, B0, Best; apply Bool.not_true_is_false in B0; apply Bool.not_true_is_false in Best.
    + pose proof (flt_neg_trans _ _ _ NN Best B0). congruence.
    + pose proof (flt_neg_trans _ _ _ NN B0 Best). congruence.
Qed.
End Map.

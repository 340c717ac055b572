(* Runs of MAPElites and feature grids. *)
From Coq Require Import Sorted.
From Verif Require Import Prelude FloatLib BatchModel BatchSpec BatchProofs ParetoModel ParetoProofs2 GaModel GaSpec GaProofs GaProofs2 MapModel MapSpec MapProofs.

Section Map.
Context {V : Type}.
Variable pick : bool -> list fl -> nat.
Variable ev : nat -> list V -> list (list fl).
Hypothesis Hpick : pick_ok pick.

Lemma map_run_ok d (f : V -> list fl) cf ops grid : forall n s s' seen0 seen, Forall legal ops -> wf (s_pop (m_st s)) ->
  deterministic f ev -> acceptable d f -> (forall v, length (f v) = eval_width (s_pop (m_st s))) ->
  Forall (fun c : cell => length c = b_ndata (s_pop (m_st s))) grid -> b_desc (s_pop (m_st s)) = [d] ->
  ready f cf (m_st s) -> archive d f grid seen0 s ->
  map_run pick ev cf ops grid n s = Ok (s', seen) ->
  same_kind (s_pop (m_st s)) (s_pop (m_st s')) /\ archive d f grid (seen0 ++ seen) s' /\ ready f cf (m_st s') /\
  (0 < n -> evaluated f (s_pop (m_st s'))).
Proof.
  induction n as [|n IH]; intros s s' seen0 seen HL W HD HF Hw Hg Hd HR HA H.
  - cbn in H. injection H as <- <-. rewrite app_nil_r. split; [apply same_kind_refl; auto|]. split; [auto|]. split; [auto|lia].
  - cbn in H. destruct (map_run pick ev cf ops grid n s) as [[s1 seen1]|] eqn:E; [|discriminate]. cbn [bind fst snd] in H.
    destruct (map_step pick ev cf ops grid s1) as [[s2 pool]|] eqn:E2; [|discriminate]. cbn [bind fst snd] in H. injection H as <- <-.
    destruct (IH s s1 seen0 seen1 HL W HD HF Hw Hg Hd HR HA E) as (K & A & R & _).
    assert (Hw1 : forall v, length (f v) = eval_width (s_pop (m_st s1))) by (rewrite (kind_width _ _ K); auto).
    assert (Hd1 : b_desc (s_pop (m_st s1)) = [d]) by (destruct K as (_ & K & _); congruence).
    assert (Hg1 : Forall (fun c : cell => length c = b_ndata (s_pop (m_st s1))) grid) by (destruct K as (_ & _ & ->); auto).
    destruct (map_step_ok pick ev Hpick d f cf ops grid s1 s2 pool _ HL (proj1 K) HD HF Hw1 Hg1 Hd1 R A E2) as (K2 & E' & _ & A2 & _).
    split; [exact (same_kind_trans _ _ _ K K2)|]. split; [rewrite app_assoc; auto|]. split; [right; right; auto|auto].
Qed.
Lemma map_run_total d (f : V -> list fl) cf ops grid : forall n s seen0, Forall legal ops -> Forall productive ops -> wf (s_pop (m_st s)) ->
  deterministic f ev -> acceptable d f -> (forall v, length (f v) = eval_width (s_pop (m_st s))) ->
  Forall (fun c : cell => length c = b_ndata (s_pop (m_st s))) grid -> b_desc (s_pop (m_st s)) = [d] ->
  ready f cf (m_st s) -> archive d f grid seen0 s -> grid <> [] ->
  exists s' seen, map_run pick ev cf ops grid n s = Ok (s', seen).
Proof.
  induction n as [|n IH]; intros s seen0 HL HP W HD HF Hw Hg Hd HR HA NG; [cbn; eauto|].
  destruct (IH s seen0 HL HP W HD HF Hw Hg Hd HR HA NG) as (s1 & seen1 & E). cbn [map_run]. rewrite E. cbn [bind fst snd].
  destruct (map_run_ok d f cf ops grid n s s1 seen0 seen1 HL W HD HF Hw Hg Hd HR HA E) as (K & A & R & _).
  assert (Hw1 : forall v, length (f v) = eval_width (s_pop (m_st s1))) by (rewrite (kind_width _ _ K); auto).
  assert (Hd1 : b_desc (s_pop (m_st s1)) = [d]) by (destruct K as (_ & K & _); congruence).
  assert (Hg1 : Forall (fun c : cell => length c = b_ndata (s_pop (m_st s1))) grid) by (destruct K as (_ & _ & ->); auto).
  assert (HE : evaluates (eval_width (s_pop (m_st s1))) ev).
  { intros k vs. rewrite HD, map_length. split; auto. apply Forall_map, Forall_forall. auto. }
  assert (N1 : b_vals (s_pop (m_st s1)) <> []).
  { destruct A as (A & _). intros X. unfold b_len in A. rewrite X in A. destruct grid; [congruence|discriminate]. }
  unfold map_step. destruct (extended_total ev cf ops (m_st s1) HL HP (proj1 K) HE) as [[[s2 p] c] EX]; auto. rewrite EX. cbn [bind].
  destruct (extended_inv ev cf ops (m_st s1) s2 p c HL (proj1 K) HE EX) as (Kp & Kc & Ks & Vp & Vs & F1 & _).
  destruct (extended_evaluated ev f cf ops (m_st s1) s2 p c HD R EX) as [Ep Ec].
  pose proof (cat_kind _ _ _ Kp Kc) as K2. pose proof (ev_cat _ _ _ Ep Ec) as EV.
  assert (Dp : b_desc (cat p c) = [d]) by (destruct K2 as (_ & K2 & _); congruence). rewrite Dp.
  assert (NC : b_vals (cat p c) <> []) by (cbn; rewrite Vp; destruct (b_vals (s_pop (m_st s1))); [congruence|discriminate]).
  assert (Q : exists best, sequence (map (best_for_cell pick d (b_vals (cat p c)) (b_ev (cat p c))) grid) = Ok best).
  { rewrite EV. clear - Hg1 Hw1 Hd1 NC Hpick ev. induction grid as [|g l IHl]; [cbn; eauto|]. inversion Hg1; subst. destruct (IHl H2) as [best Eb].
    destruct (best_for_cell_ok pick ev Hpick d f (b_vals (cat p c)) g NC) as (i & v & E1 & _).
    { intros v _. specialize (Hw1 v). unfold eval_width, num_objs in Hw1. rewrite Hd1 in Hw1. cbn in Hw1. destruct (f v); cbn in *; lia. }
    cbn [map sequence]. rewrite E1, Eb. eauto. }
  destruct Q as [best ->]. cbn [bind]. eauto.
Qed.
(* a fresh instance *)
Lemma init_archive d (f : V -> list fl) grid like values : length values = length grid -> archive d f grid [] (map_init like values).
Proof.
  intros H. split; [auto|]. split; [cbn; rewrite map_length; auto|]. intros i c b v _ Hb _. cbn in Hb. rewrite nth_error_map in Hb.
  destruct (nth_error values i); [|discriminate]. injection Hb as <-. split; [split; [discriminate|intros (x & [] & _)]|discriminate].
Qed.
End Map.

(* ------------------------------------------------------------------------------- grids *)
Lemma le_fl_antisym a b : le_fl a b -> le_fl b a -> a = b.
Proof. rewrite <- !fle_le. unfold fle. destruct a, b; cbn; auto; try discriminate. intros. f_equal. lia. Qed.
Lemma le_fl_trans a b c : le_fl a b -> le_fl b c -> le_fl a c.
Proof. rewrite <- !fle_le. apply fle_trans. Qed.
Lemma le_fl_total a b : a <> NaN -> b <> NaN -> le_fl a b \/ le_fl b a.
Proof. intros A B. rewrite <- !fle_le. apply fle_total; [destruct a|destruct b]; auto; congruence. Qed.
Lemma le_pinf x : x <> NaN -> le_fl x PInf.
Proof. intros H. apply fle_le. destruct x; auto; congruence. Qed.
Lemma le_ninf x : x <> NaN -> le_fl NInf x.
Proof. intros H. apply fle_le. destruct x; auto; congruence. Qed.

Lemma unfold2_len l : length (unfold2 l) = length l - 1.
Proof. induction l as [|a [|b l] IH]; auto. change (unfold2 (a :: b :: l)) with ((a, b) :: unfold2 (b :: l)). cbn [length]. rewrite IH. cbn [length]. lia. Qed.
Lemma bins_cover x : x <> NaN -> forall l a, Forall (fun y => y <> NaN) l -> le_fl a x -> exists p, In p (unfold2 (a :: l ++ [PInf])) /\ in_range p x.
Proof.
  intros N. induction l as [|b l IH]; intros a F H.
  - exists (a, PInf). split; [cbn; auto|]. split; [auto|apply le_pinf; auto].
  - inversion F; subst. destruct (le_fl_total x b) as [L|L]; auto.
    + exists (a, b). split; [left; auto|split; auto].
    + destruct (IH b H3 L) as (p & P1 & P2). exists p. split; [right; exact P1|auto].
Qed.
Lemma unfold2_in l p : In p (unfold2 l) -> In (fst p) l /\ In (snd p) l.
Proof.
  induction l as [|a [|b l] IH]; [intros []|intros []|]. change (unfold2 (a :: b :: l)) with ((a, b) :: unfold2 (b :: l)).
  intros [<-|H]; [cbn; auto|]. destruct (IH H) as [H1 H2]. split; right; auto.
Qed.
Lemma bins_ordered l : StronglySorted le_fl l -> ForallOrdPairs (fun p q => le_fl (snd p) (fst q)) (unfold2 l).
Proof.
  induction l as [|a [|b l] IH]; intros HS; [constructor|constructor|]. change (unfold2 (a :: b :: l)) with ((a, b) :: unfold2 (b :: l)).
  inversion HS as [|? ? S1 S2]; subst. constructor; [|auto]. apply Forall_forall. intros q Hq. cbn. apply unfold2_in in Hq. destruct Hq as [Hq _].
  inversion S1 as [|? ? S3 S4]; subst. destruct Hq as [Hq|Hq]; [|apply (proj1 (Forall_forall _ _) S4); auto].
  inversion S2 as [|? ? T1 T2]; subst. right. split; auto. intros E. rewrite E in T1. destruct T1 as [X|[X Y]]; [inversion X|]. congruence.
Qed.

Lemma product_len {A} (ls : list (list A)) : length (product ls) = fold_right Nat.mul 1 (map (@length A) ls).
Proof.
  induction ls as [|l ls IH]; auto. cbn. rewrite <- IH. clear IH. induction l as [|x l IHl]; auto. cbn. rewrite app_length, map_length. lia.
Qed.
Lemma product_in {A} (ls : list (list A)) c : In c (product ls) <-> Forall2 (fun x l => In x l) c ls.
Proof.
  revert c. induction ls as [|l ls IH]; intros c; cbn.
  - split; [intros [<-|[]]; constructor|]. inversion 1; auto.
  - rewrite in_flat_map. split.
    + intros (x & Hx & Hc). apply in_map_iff in Hc. destruct Hc as (c' & <- & Hc). constructor; [auto|]. apply IH; auto.
    + inversion 1; subst. exists x. split; auto. apply in_map, IH. auto.
Qed.
Lemma FOP_app {A} (R : A -> A -> Prop) l l' : ForallOrdPairs R l -> ForallOrdPairs R l' -> (forall x y, In x l -> In y l' -> R x y) -> ForallOrdPairs R (l ++ l').
Proof.
  induction 1 as [|a l Ha Hl IH]; intros H' HC; cbn; auto. constructor.
  - apply Forall_app. split; auto. apply Forall_forall. intros y Hy. apply HC; cbn; auto.
  - apply IH; auto. intros x y Hx Hy. apply HC; cbn; auto.
Qed.
Lemma FOP_map {A B} (R : B -> B -> Prop) (g : A -> B) l : ForallOrdPairs (fun x y => R (g x) (g y)) l -> ForallOrdPairs R (map g l).
Proof. induction 1; cbn; constructor; auto. apply Forall_map. auto. Qed.
Lemma FOP_impl {A} (R R' : A -> A -> Prop) l : (forall x y, R x y -> R' x y) -> ForallOrdPairs R l -> ForallOrdPairs R' l.
Proof.
  intros H. induction 1 as [|a l Ha Hl IH]; constructor; auto. apply Forall_forall. intros y Hy. apply H. apply (proj1 (Forall_forall _ _) Ha). auto.
Qed.
Lemma FOP_nth {A} (R : A -> A -> Prop) l i j x y : ForallOrdPairs R l -> i < j -> nth_error l i = Some x -> nth_error l j = Some y -> R x y.
Proof.
  intros H. revert i j. induction H as [|a l Ha Hl IH]; intros i j Hij Hx Hy; [destruct i; discriminate|].
  destruct j as [|j]; [lia|]. destruct i as [|i]; cbn in *.
  - injection Hx as <-. apply (proj1 (Forall_forall _ _) Ha). eapply nth_error_In; eauto.
  - apply (IH i j); auto. lia.
Qed.

(* the earlier cell ends where the later one begins, or the other way round, in some dimension *)
Definition touching (c c' : cell) : Prop := forall x, Forall2 in_range c x -> Forall2 in_range c' x ->
  exists k p p' y, nth_error c k = Some p /\ nth_error c' k = Some p' /\ nth_error x k = Some y /\ y = snd p /\ y = fst p'.
Lemma product_touching (ls : list (list (fl * fl))) : Forall (ForallOrdPairs (fun p q => le_fl (snd p) (fst q))) ls -> ForallOrdPairs touching (product ls).
Proof.
  induction ls as [|l ls IH]; intros H; [repeat constructor|]. inversion H as [|? ? H1 H2]; subst. specialize (IH H2). cbn.
  induction H1 as [|p l Hp Hl IHl]; [constructor|]. cbn. apply FOP_app.
  - apply FOP_map. eapply FOP_impl; [|exact IH]. cbn. intros c c' T x Hx Hx'. inversion Hx; subst. inversion Hx'; subst.
    destruct (T _ H5 H8) as (k & q & q' & z & Q). exists (S k), q, q', z. exact Q.
  - apply IHl. constructor; auto.
  - intros c c' Hc Hc' x Hx Hx'. apply in_map_iff in Hc. destruct Hc as (t & <- & _). apply in_flat_map in Hc'. destruct Hc' as (q & Hq & Hc').
    apply in_map_iff in Hc'. destruct Hc' as (t' & <- & _). inversion Hx as [|? y ? ? R1 R2]; subst. inversion Hx' as [|? ? ? ? R1' R2']; subst.
    exists 0, p, q, y. cbn. repeat (split; [reflexivity|]). pose proof (proj1 (Forall_forall _ _) Hp q Hq) as L. cbn in L.
    destruct R1 as [_ U], R1' as [U' _]. assert (E : y = snd p) by (apply le_fl_antisym; auto; eapply le_fl_trans; eauto).
    split; [auto|]. apply le_fl_antisym; auto. rewrite E. auto.
Qed.

Section Grid.
Variable linspace : fl -> fl -> nat -> list fl.
Hypothesis Hlin : linspace_ok linspace.

Lemma fin_nan x : is_fin x = true -> x <> NaN.
Proof. destruct x; cbn; congruence. Qed.
Lemma feature_bins_ok lb ub n : is_fin lb = true -> is_fin ub = true -> (1 <= n)%Z ->
  exists bins, feature_bins linspace lb ub n = Ok bins /\ length bins = Z.to_nat n /\
    (forall x, x <> NaN -> exists p, In p bins /\ in_range p x) /\
    (flt ub lb = false -> ForallOrdPairs (fun p q => le_fl (snd p) (fst q)) bins).
Proof.
  intros H1 H2 Hn. unfold feature_bins. destruct (Z.ltb_spec (n - 1) 0); [lia|]. eexists; split; [reflexivity|].
  destruct (Hlin lb ub (Z.to_nat (n - 1)) H1 H2) as (L & F & SS). set (sp := linspace lb ub (Z.to_nat (n - 1))) in *.
  split. { rewrite unfold2_len. cbn. rewrite app_length. cbn. lia. }
  split.
  - intros x N. apply bins_cover; auto; [|apply le_ninf; auto]. eapply Forall_impl; [|exact F]. apply fin_nan.
  - intros HO. specialize (SS HO). apply bins_ordered. cbn [app]. clear L.
    assert (T : StronglySorted le_fl (sp ++ [PInf])).
    { clear - SS F. induction SS as [|a l SS IH Ha]; cbn; [repeat constructor|]. inversion F; subst. constructor; [auto|].
      apply Forall_app. split; auto. constructor; [|constructor]. apply le_pinf, fin_nan. auto. }
    constructor; [auto|]. apply Forall_app. split; [|repeat constructor].
    eapply Forall_impl; [|exact F]. intros a Ha. apply le_ninf, fin_nan. auto.
Qed.
Lemma grids_ok : forall lower upper bins, length upper = length lower -> length bins = length lower ->
  Forall (fun x => is_fin x = true) lower -> Forall (fun x => is_fin x = true) upper -> Forall (fun n => (1 <= n)%Z) bins ->
  exists grids, sequence (map (fun t => feature_bins linspace (fst (fst t)) (snd (fst t)) (snd t)) (zip3 lower upper bins)) = Ok grids /\
    length grids = length lower /\ map (@length (fl * fl)) grids = map Z.to_nat bins /\
    Forall (fun g => forall x, x <> NaN -> exists p, In p g /\ in_range p x) grids /\
    (Forall2 (fun l u => flt u l = false) lower upper -> Forall (ForallOrdPairs (fun p q => le_fl (snd p) (fst q))) grids).
Proof.
  induction lower as [|l lower IH]; intros [|u upper] [|n bins] L1 L2 F1 F2 F3; try discriminate.
  - exists []. cbn. repeat (split; [auto|]). auto.
  - inversion F1; subst. inversion F2; subst. inversion F3; subst. cbn in L1, L2.
    destruct (IH upper bins) as (gs & E & A & B & C & D); auto.
    destruct (feature_bins_ok l u n) as (g & Eg & Lg & Cg & Og); auto. exists (g :: gs). cbn. rewrite Eg, E. split; [auto|]. split; [auto|].
    split; [congruence|]. split; [constructor; auto|]. intros HO. inversion HO; subst. constructor; auto.
Qed.
Lemma cover_product : forall (gs : list (list (fl * fl))) xs, length xs = length gs -> Forall (fun x => x <> NaN) xs ->
  Forall (fun g => forall x, x <> NaN -> exists p, In p g /\ in_range p x) gs -> exists c, In c (product gs) /\ Forall2 in_range c xs.
Proof.
  induction gs as [|g gs IH]; intros [|x xs] HL HN HC; try discriminate; [exists []; cbn; auto|].
  inversion HN; subst. inversion HC; subst. destruct (IH xs) as (c & C1 & C2); auto. destruct (H3 x H1) as (p & P1 & P2).
  exists (p :: c). split; [|auto]. apply product_in. constructor; auto. apply product_in. auto.
Qed.
End Grid.

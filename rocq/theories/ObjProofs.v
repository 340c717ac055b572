(* Invariants of ObjectArrays. *)
From Verif Require Import Prelude ObjModel ObjSpec RandProofs ScoreProofs.

Lemma nth_lt {A} (l : list A) i x : nth_error l i = Some x -> i < length l.
Proof. intros H. apply nth_error_Some. congruence. Qed.
Lemma nth_some {A} (l : list A) i : i < length l -> exists x, nth_error l i = Some x.
Proof. intros H. destruct (nth_error l i) eqn:E; eauto. apply nth_error_None in E. lia. Qed.

Lemma upd_last {A} (l : list A) x y : upd (l ++ [x]) (length l) y = l ++ [y].
Proof. induction l as [|a l IH]; cbn; [reflexivity|]. rewrite IH. reflexivity. Qed.

Section P.
Context {X E : Type}.
Variable freeze : X -> result E.
Variable kept : X -> bool.
Notation state := (state E).
Notation elem := (elem E).
Implicit Types st : state.

(* only the given store is written to, by elements with the given property *)
Definition writes (P : elem -> Prop) (s : nat) st st' : Prop :=
  arrs st' = arrs st /\ length (stores st') = length (stores st) /\ (forall s', s' <> s -> nth_error (stores st') s' = nth_error (stores st) s') /\
  (forall l', nth_error (stores st') s = Some l' -> exists l, nth_error (stores st) s = Some l /\ length l' = length l /\ forall i e, nth_error l' i = Some e -> nth_error l i = Some e \/ P e).
Lemma writes_refl P s st : writes P s st st.
Proof. repeat split; auto. intros l E1. exists l. auto. Qed.
Lemma writes_trans P s st st1 st2 : writes P s st st1 -> writes P s st1 st2 -> writes P s st st2.
Proof.
  intros (A1 & L1 & O1 & C1) (A2 & L2 & O2 & C2). split; [congruence|]. split; [congruence|]. split; [intros s' Hs; rewrite O2, O1; auto|].
  intros l2 E2. destruct (C2 l2 E2) as (l1 & E1 & M1 & D1). destruct (C1 l1 E1) as (l & E0 & M0 & D0). exists l. split; auto. split; [congruence|].
  intros i e Hi. destruct (D1 i e Hi); auto.
Qed.
Lemma put_writes (P : elem -> Prop) st s i e : P e -> writes P s st (put _ st s i e).
Proof.
  intros HP. unfold put. destruct (nth_error (stores st) s) as [l|] eqn:El; [|apply writes_refl]. split; auto. split; [apply upd_length|]. cbn. split.
  - intros s' Hs. rewrite nth_error_upd. destruct (Nat.eqb_spec s s'); [congruence|reflexivity].
  - intros l' E'. rewrite nth_error_upd, Nat.eqb_refl in E'. destruct (s <? length (stores st)) eqn:Ls; [|discriminate]. injection E' as <-. exists l. split; auto. split; [apply upd_length|].
    intros j e' Hj. rewrite nth_error_upd in Hj. destruct (i =? j) eqn:Eij; auto. destruct (i <? length l); [|discriminate]. injection Hj as <-. auto.
Qed.
Lemma put_items_writes (P : elem -> Prop) self s : forall indices xs st m st' r,
  (forall st1 m1 x m2 e, arrs st1 = arrs st -> In x xs -> (forall id e, ilookup _ m1 id = Some e -> exists x, freeze x = Ok e) -> as_item _ _ freeze kept st1 self m1 x = Ok (m2, e) -> P e) ->
  (forall id e, ilookup _ m id = Some e -> exists x, freeze x = Ok e) ->
  put_items _ _ freeze kept st self s m indices xs = (st', r) -> writes P s st st' /\ gained r = [].
Proof.
  induction indices as [|i is IH]; intros xs st m st' r HP Hm Ep; cbn in Ep; [injection Ep as <- <-; split; [apply writes_refl|reflexivity]|].
  destruct xs as [|x t]; [injection Ep as <- <-; split; [apply writes_refl|reflexivity]|].
  destruct (as_item _ _ freeze kept st self m x) as [[m1 e]|e] eqn:Ea; [|injection Ep as <- <-; split; [apply writes_refl|reflexivity]].
  assert (Pe : P e) by (eapply HP; eauto; cbn; auto).
  assert (Ear : arrs (put _ st s i e) = arrs st) by (apply (put_writes P st s i e Pe)).
  apply IH in Ep.
  - destruct Ep as [W G]. split; auto. apply (writes_trans P s st (put _ st s i e)); auto. apply put_writes; auto.
  - intros st1 m2 y m3 e1 A1 Hy. apply HP; [congruence|cbn; auto].
  - intros id e1 Hl. unfold as_item in Ea. destruct x as [idx x|h].
    + destruct (ilookup _ m idx) as [e0|] eqn:El; [injection Ea as <- <-; eauto|]. destruct (freeze x) as [e0|] eqn:Ef; [|discriminate]. cbn in Ea. injection Ea as <- <-.
      destruct (kept x); eauto. cbn in Hl. destruct (idx =? id); eauto. injection Hl as <-. eauto.
    + destruct (h =? self); [injection Ea as <- <-; eauto|]. destruct (nth_error (arrs st) h) as [a|]; [|discriminate]. destruct (a_ro a); [|discriminate]. injection Ea as <- <-. eauto.
Qed.
Lemma put_elems_writes (P : elem -> Prop) self s : forall es i st st' r, (forall e, In e es -> P e) -> put_elems _ st self s i es = (st', r) ->
  writes P s st st' /\ (gained r = [] \/ gained r = [self]).
Proof.
  induction es as [|e es IH]; intros i st st' r HP Ep; cbn in Ep; [injection Ep as <- <-; split; [apply writes_refl|cbn; auto]|].
  destruct (as_own _ st self e) as [e1|] eqn:Ea; [|injection Ep as <- <-; split; [apply writes_refl|cbn; auto]].
  assert (e1 = e). { unfold as_own in Ea. destruct e as [|v|h]; try (injection Ea as <-; reflexivity). destruct (h =? self); [injection Ea as <-; reflexivity|]. destruct (nth_error (arrs st) h) as [a|]; [|discriminate]. destruct (a_ro a); [|discriminate]. injection Ea as <-. reflexivity. }
  subst e1. apply IH in Ep; [|intros; apply HP; cbn; auto]. destruct Ep as [W G]. split; auto. apply (writes_trans P s st (put _ st s i e)); auto. apply put_writes. apply HP. cbn. auto.
Qed.
Lemma put_each_writes (P : elem -> Prop) self s : forall xs i st st' r,
  (forall st1 x m2 e, arrs st1 = arrs st -> In x xs -> as_item _ _ freeze kept st1 self [] x = Ok (m2, e) -> P e) ->
  put_each _ _ freeze kept st self s i xs = (st', r) -> writes P s st st' /\ (gained r = [] \/ gained r = [self]).
Proof.
  induction xs as [|x t IH]; intros i st st' r HP Ep; cbn in Ep; [injection Ep as <- <-; split; [apply writes_refl|cbn; auto]|].
  destruct (as_item _ _ freeze kept st self [] x) as [[m1 e]|e] eqn:Ea; [|injection Ep as <- <-; split; [apply writes_refl|cbn; auto]].
  assert (Pe : P e) by (eapply HP; eauto; cbn; auto).
  assert (Ear : arrs (put _ st s i e) = arrs st) by (apply (put_writes P st s i e Pe)).
  apply IH in Ep; [|intros st1 y m2 e1 A1 Hy; apply HP; [congruence|cbn; auto]]. destruct Ep as [W G]. split; auto. apply (writes_trans P s st (put _ st s i e)); auto. apply put_writes; auto.
Qed.

Section INV.
Variable N0 : nat.
Definition safe st (h : nat) : Prop := exists a, nth_error (arrs st) h = Some a /\ (a_ro a = true \/ N0 <= a_store a).
Definition okelem st (e : elem) : Prop := match e with ENone => True | EVal v => exists x, freeze x = Ok v | EArr h => safe st h end.
Definition okarr st (a : arr) : Prop := exists l, nth_error (stores st) (a_store a) = Some l /\ Forall (fun i => i < length l) (a_indices a).
Definition inv st : Prop :=
  N0 <= length (stores st) /\ (forall h a, nth_error (arrs st) h = Some a -> okarr st a) /\
  (forall s l e, nth_error (stores st) s = Some l -> In e l -> okelem st e).
Definition grows st st' : Prop := exists t, arrs st' = arrs st ++ t.
Definition frame st st' : Prop := grows st st' /\ length (stores st) <= length (stores st') /\ (forall s, s < N0 -> nth_error (stores st') s = nth_error (stores st) s).
Lemma grows_nth st st' h a : grows st st' -> nth_error (arrs st) h = Some a -> nth_error (arrs st') h = Some a.
Proof. intros [t ->] Eh. rewrite nth_error_app1; auto. apply nth_lt in Eh. auto. Qed.
Lemma grows_refl st : grows st st.
Proof. exists []. rewrite app_nil_r. auto. Qed.
Lemma grows_trans a b c : grows a b -> grows b c -> grows a c.
Proof. intros [t1 E1] [t2 E2]. exists (t1 ++ t2). rewrite E2, E1, app_assoc. auto. Qed.
Lemma safe_grows st st' h : grows st st' -> safe st h -> safe st' h.
Proof. intros G (a & Ea & S). exists a. split; auto. eapply grows_nth; eauto. Qed.
Lemma okelem_grows st st' e : grows st st' -> okelem st e -> okelem st' e.
Proof. intros G. destruct e; cbn; auto. apply safe_grows; auto. Qed.
Lemma frame_trans a b c : frame a b -> frame b c -> frame a c.
Proof. intros (G1 & L1 & S1) (G2 & L2 & S2). split; [eapply grows_trans; eauto|]. split; [lia|]. intros s Hs. rewrite S2, S1; auto. Qed.
Lemma frame_refl st : frame st st.
Proof. split; [apply grows_refl|]. split; auto. Qed.

Lemma writes_inv s st st' : inv st -> N0 <= s -> writes (okelem st) s st st' -> inv st' /\ frame st st'.
Proof.
  intros (I1 & I2 & I3) Hs (A & L & O & C). assert (G : grows st st') by (exists []; rewrite app_nil_r; auto).
  split; [split; [lia|split]|split; [auto|split; [lia|intros s' Hs'; apply O; lia]]].
  - intros h a Eh. rewrite A in Eh. destruct (I2 h a Eh) as (l & El & F). destruct (Nat.eq_dec (a_store a) s) as [Es|Es].
    + assert (Ls : a_store a < length (stores st')) by (rewrite L; apply nth_lt in El; auto). destruct (nth_some _ _ Ls) as [l' El']. rewrite Es in El'.
      destruct (C l' El') as (l0 & El0 & Ll & _). exists l'. rewrite Es. split; auto. rewrite Es in El. assert (l0 = l) by congruence. subst. rewrite Ll. auto.
    + exists l. rewrite O by auto. auto.
  - intros s' l' e El' Hin. apply (okelem_grows st); auto. destruct (Nat.eq_dec s' s) as [->|Hn].
    + destruct (C l' El') as (l & El & _ & D). apply In_nth_error in Hin. destruct Hin as [i Hi]. destruct (D i e Hi) as [X0|X0]; auto. eapply I3; eauto. eapply nth_error_In; eauto.
    + rewrite O in El' by auto. eapply I3; eauto.
Qed.
Lemma add_store_inv st es ro : inv st -> (forall e, In e es -> okelem st e) ->
  let st' := St (stores st ++ [es]) (arrs st ++ [Arr (seq 0 (length es)) (length (stores st)) ro]) in
  inv st' /\ frame st st' /\ safe st' (length (arrs st)) /\ nth_error (arrs st') (length (arrs st)) = Some (Arr (seq 0 (length es)) (length (stores st)) ro) /\
  nth_error (stores st') (length (stores st)) = Some es.
Proof.
  intros (I1 & I2 & I3) Hes st'. assert (G : grows st st') by (eexists; reflexivity).
  assert (Es : nth_error (stores st') (length (stores st)) = Some es) by (cbn; rewrite nth_error_app2, Nat.sub_diag by auto; reflexivity).
  assert (Ea : nth_error (arrs st') (length (arrs st)) = Some (Arr (seq 0 (length es)) (length (stores st)) ro)) by (cbn; rewrite nth_error_app2, Nat.sub_diag by auto; reflexivity).
  assert (Ho : forall s, s < length (stores st) -> nth_error (stores st') s = nth_error (stores st) s) by (intros; cbn; apply nth_error_app1; auto).
  assert (Hl : length (stores st') = S (length (stores st))) by (cbn; rewrite app_length; cbn; lia).
  split; [split; [lia|split]|split; [split; [auto|split; [lia|intros; apply Ho; lia]]|split; [|auto]]].
  - intros h a Eh. cbn in Eh. destruct (Nat.lt_ge_cases h (length (arrs st))) as [Lh|Lh].
    + rewrite nth_error_app1 in Eh by auto. destruct (I2 h a Eh) as (l & El & F). exists l. split; auto. rewrite Ho; auto. apply nth_lt in El. auto.
    + rewrite nth_error_app2 in Eh by auto. destruct (h - length (arrs st)) as [|[|]]; try discriminate. cbn in Eh. injection Eh as <-. exists es. split; auto. apply Forall_forall. intros i Hi. apply in_seq in Hi. lia.
  - intros s l e El Hin. apply (okelem_grows st); auto. destruct (Nat.lt_ge_cases s (length (stores st))) as [Ls|Ls].
    + rewrite Ho in El by auto. eapply I3; eauto.
    + assert (s < length (stores st')) by (apply nth_lt in El; auto). assert (s = length (stores st)) by lia. subst s. rewrite Es in El. injection El as <-. auto.
  - eexists. split; [exact Ea|]. cbn. lia.
Qed.
Lemma add_window_inv st a : inv st -> okarr st a -> (a_ro a = true \/ N0 <= a_store a) ->
  let st' := St (stores st) (arrs st ++ [a]) in inv st' /\ frame st st' /\ safe st' (length (arrs st)).
Proof.
  intros (I1 & I2 & I3) Ha Hs st'. assert (G : grows st st') by (eexists; reflexivity). split; [split; [auto|split]|split].
  - intros h b Eh. cbn in Eh. destruct (Nat.lt_ge_cases h (length (arrs st))) as [Lh|Lh].
    + rewrite nth_error_app1 in Eh by auto. eapply I2; eauto.
    + rewrite nth_error_app2 in Eh by auto. destruct (h - length (arrs st)) as [|[|]]; try discriminate. cbn in Eh. injection Eh as <-. auto.
  - intros s l e El Hin. apply (okelem_grows st); auto. eapply I3; eauto.
  - split; auto.
  - exists a. split; auto. cbn. rewrite nth_error_app2, Nat.sub_diag by auto. reflexivity.
Qed.
Lemma int_index_lt n i p : int_index n i = Ok p -> p < n.
Proof. unfold int_index. destruct (_ || _) eqn:Eo; [discriminate|]. intros Ep. injection Ep as <-. apply orb_false_iff in Eo. destruct (i <? 0)%Z eqn:Ei; lia. Qed.
Lemma slice_positions_lt n a b s ps : slice_positions n a b s = Ok ps -> Forall (fun p => p < n) ps.
Proof.
  unfold slice_positions. set (a' := match a with None => 0%Z | Some z => _ end). set (b' := match b with None => Z.of_nat n | Some z => _ end). set (s' := match s with None => 1%Z | Some z => z end).
  assert (Ha : (0 <= a')%Z) by (unfold a', clip_bound; destruct a; lia). assert (Hb : (b' <= Z.of_nat n)%Z) by (unfold b', clip_bound; destruct b; lia). clearbody a' b' s'.
  destruct (s' <=? 0)%Z eqn:Es; [discriminate|]. intros Ep. injection Ep as <-. apply Forall_forall. intros p Hp. apply in_map_iff in Hp. destruct Hp as (k & <- & Hk). apply in_seq in Hk.
  assert (Hk' : (Z.of_nat k < (b' - a' + s' - 1) / s')%Z) by lia. assert (Hd : (s' * ((b' - a' + s' - 1) / s') <= b' - a' + s' - 1)%Z) by (apply Z.mul_div_le; lia). nia.
Qed.
Lemma positions_lt n i ps : positions n i = Ok ps -> Forall (fun p => p < n) ps.
Proof.
  destruct i as [z|a b s|l]; cbn [positions]; [|apply slice_positions_lt|].
  - destruct (int_index n z) as [p|] eqn:Ei; [|discriminate]. cbn. intros Ep. injection Ep as <-. constructor; auto. eapply int_index_lt; eauto.
  - revert ps. induction l as [|z l IH]; intros ps Ep; cbn in Ep; [injection Ep as <-; constructor|]. destruct (int_index n z) as [p|] eqn:Ei; [|discriminate]. cbn in Ep.
    destruct (sequence (map (int_index n) l)) as [ps'|]; [|discriminate]. cbn in Ep. injection Ep as <-. constructor; auto. eapply int_index_lt; eauto.
Qed.
Lemma select_lt l ps k : Forall (fun i => i < k) l -> Forall (fun p => p < length l) ps -> Forall (fun i => i < k) (select l ps).
Proof.
  intros Fl Fp. apply Forall_forall. intros i Hi. apply in_map_iff in Hi. destruct Hi as (p & <- & Hp). rewrite Forall_forall in Fl, Fp. apply Fl. apply nth_In. auto.
Qed.
Lemma fetch_ok st s i e : inv st -> fetch st s i = Ok e -> okelem st e.
Proof.
  intros (_ & _ & I3). unfold fetch. destruct (nth_error (stores st) s) as [l|] eqn:El; [|discriminate]. destruct (nth_error l i) as [x|] eqn:Ei; [|discriminate]. intros Ee. injection Ee as <-. eapply I3; eauto. eapply nth_error_In; eauto.
Qed.
Lemma fetch_all_ok st s l es : inv st -> sequence (map (fetch st s) l) = Ok es -> (forall e, In e es -> okelem st e) /\ length es = length l.
Proof.
  intros I. revert es. induction l as [|i l IH]; intros es Es; cbn in Es; [injection Es as <-; split; [intros e []|reflexivity]|].
  destruct (fetch st s i) as [e|] eqn:Ef; [|discriminate]. cbn in Es. destruct (sequence (map (fetch st s) l)) as [es'|]; [|discriminate]. cbn in Es. injection Es as <-.
  destruct (IH es' eq_refl) as [A B]. split; [|cbn; auto]. intros e' [<-|Hin]; auto. eapply fetch_ok; eauto.
Qed.
Lemma as_item_ok st st1 self m x m' e : arrs st1 = arrs st -> safe st self -> (forall id e, ilookup _ m id = Some e -> exists x, freeze x = Ok e) ->
  as_item _ _ freeze kept st1 self m x = Ok (m', e) -> okelem st e.
Proof.
  intros A Hs Hm. unfold as_item. destruct x as [id x|h].
  - destruct (ilookup _ m id) as [v|] eqn:El; [intros Ee; injection Ee as <- <-; cbn; eauto|]. destruct (freeze x) as [v|] eqn:Ef; [|discriminate]. cbn. intros Ee. injection Ee as <- <-. cbn. eauto.
  - destruct (h =? self) eqn:Eh; [intros Ee; injection Ee as <- <-; auto|]. rewrite A. destruct (nth_error (arrs st) h) as [a|] eqn:Ea; [|discriminate]. destruct (a_ro a) eqn:Er; [|discriminate].
    intros Ee. injection Ee as <- <-. exists a. auto.
Qed.
Lemma cycle_in : forall n (es all : list elem) e, In e (cycle _ es all n) -> In e es \/ In e all.
Proof.
  induction n as [|n IH]; intros es all e Hin; cbn in Hin; [contradiction|]. destruct es as [|x t].
  - destruct all as [|a t]; [contradiction|]. destruct Hin as [<-|Hin]; [cbn; auto|]. apply IH in Hin. cbn in *. tauto.
  - destruct Hin as [<-|Hin]; [cbn; auto|]. apply IH in Hin. cbn in *. tauto.
Qed.

Lemma clone_elems_in h new es es1 : sequence (map (clone_elem E h new) es) = Ok es1 -> length es1 = length es /\ (forall e, In e es1 -> e = EArr new \/ In e es).
Proof.
  revert es1. induction es as [|x t IH]; intros es1 Eq; cbn in Eq; [injection Eq as <-; split; [reflexivity|intros e []]|].
  destruct (clone_elem E h new x) as [y|] eqn:Ey; [|discriminate]. cbn in Eq. destruct (sequence (map (clone_elem E h new) t)) as [t1|]; [|discriminate]. cbn in Eq. injection Eq as <-.
  destruct (IH t1 eq_refl) as [L A]. split; [cbn; auto|]. intros e [<-|He].
  - destruct x as [|v|z]; cbn in Ey; [injection Ey as <-; cbn; auto|injection Ey as <-; cbn; auto|]. destruct (z =? h); [|discriminate]. injection Ey as <-. auto.
  - apply A in He. cbn. tauto.
Qed.
Ltac same := split; [assumption|split; [apply frame_refl|cbn; tauto]].
Lemma get_many_inv st h i st' r : inv st -> safe st h -> get_many _ st h i = (st', r) -> inv st' /\ frame st st' /\ (forall h', In h' (gained r) -> safe st' h').
Proof.
  intros I Sh. destruct Sh as (a & Ea & Sa). unfold get_many. rewrite Ea. destruct (positions (length (a_indices a)) i) as [ps|] eqn:Ep; [|intros Er; injection Er as <- <-; same].
  pose proof I as (I1 & I2 & I3). destruct (I2 h a Ea) as (l & El & F). pose proof (select_lt _ ps _ F (positions_lt _ _ _ Ep)) as FS.
  assert (W : forall st' r, (St (stores st) (arrs st ++ [Arr (select (a_indices a) ps) (a_store a) (a_ro a)]), Ok (OHandle (E:=E) (length (arrs st)))) = (st', r) -> inv st' /\ frame st st' /\ (forall h', In h' (gained r) -> safe st' h')).
  { intros st1 r1 Er. injection Er as <- <-. destruct (add_window_inv st (Arr (select (a_indices a) ps) (a_store a) (a_ro a)) I) as (J & Fr & S); [exists l; auto|auto|]. split; auto. split; auto. cbn. intros h' [<-|[]]. auto. }
  destruct i as [z|sa sb ss|lz]; auto.
  destruct (sequence (map (fetch st (a_store a)) (select (a_indices a) ps))) as [es|] eqn:Es; [|intros Er; injection Er as <- <-; same].
  intros Er. injection Er as <- <-. destruct (fetch_all_ok _ _ _ _ I Es) as [Ok1 Len]. rewrite <- Len.
  destruct (add_store_inv st es (a_ro a) I Ok1) as (J & Fr & S & _). split; auto. split; auto. cbn. intros h' [<-|[]]. auto.
Qed.
Lemma new_inv st n : inv st -> let st1 := fst (new_array _ n false st) in
  inv st1 /\ frame st st1 /\ safe st1 (length (arrs st)) /\ nth_error (arrs st1) (length (arrs st)) = Some (Arr (seq 0 n) (length (stores st)) false) /\ nth_error (stores st1) (length (stores st)) = Some (repeat ENone n).
Proof.
  intros I. cbn. destruct (add_store_inv st (repeat ENone n) false I) as (J & Fr & S & Ea & Es).
  - intros e He. apply repeat_spec in He. subst. cbn. auto.
  - rewrite repeat_length in *. auto.
Qed.
Lemma copy_items_inv self s src whole : forall is q st st' r, inv st -> N0 <= s -> safe st self -> copy_items _ st self s src whole q is = (st', r) ->
  inv st' /\ frame st st' /\ gained r = [].
Proof.
  induction is as [|i is IH]; intros q st st' r I Hs Sf Ec; cbn [copy_items] in Ec; [injection Ec as <- <-; split; [auto|split; [apply frame_refl|reflexivity]]|].
  destruct (get_int st src (Z.of_nat q)) as [e|] eqn:Eg; [|injection Ec as <- <-; split; [auto|split; [apply frame_refl|reflexivity]]].
  assert (Oe : okelem st e).
  { unfold get_int in Eg. destruct (nth_error (arrs st) src) as [a|]; [|discriminate]. destruct (int_index _ _) as [p|]; [|discriminate]. cbn [bind] in Eg. eapply fetch_ok; eauto. }
  destruct (as_given _ st self src whole e) as [e1|] eqn:Ea; [|injection Ec as <- <-; split; [auto|split; [apply frame_refl|reflexivity]]].
  assert (O1 : okelem st e1).
  { unfold as_given in Ea. destruct e as [|v|h]; try (injection Ea as <-; exact Oe). destruct (h =? self); [injection Ea as <-; exact Oe|]. destruct (whole && (h =? src)); [injection Ea as <-; exact Sf|].
    destruct (nth_error (arrs st) h) as [a|]; [|discriminate]. destruct (a_ro a); [injection Ea as <-; exact Oe|discriminate]. }
  destruct (writes_inv s st (put _ st s i e1) I Hs (put_writes (okelem st) st s i e1 O1)) as [J Fr].
  destruct (IH _ _ _ _ J Hs (safe_grows _ _ _ (proj1 Fr) Sf) Ec) as (J' & Fr' & G). split; [auto|]. split; [eapply frame_trans; eauto|exact G].
Qed.
Theorem step_inv st o st' r : inv st -> (forall h, In h (handles o) -> safe st h) -> step freeze kept st o = (st', r) ->
  inv st' /\ frame st st' /\ (forall h, In h (gained r) -> safe st' h).
Proof.
  intros I Hh Es. pose proof I as (I1 & I2 & I3).
  assert (Hset : forall h, safe st h -> forall a, nth_error (arrs st) h = Some a -> a_ro a = false -> N0 <= a_store a).
  { intros h (a & Ea & S) b Eb Rb. rewrite Ea in Eb. injection Eb as <-. destruct S; congruence. }
  assert (Hm : forall h i xs st' r, safe st h -> set_many _ _ freeze kept st h i xs = (st', r) -> inv st' /\ frame st st' /\ (forall h, In h (gained r) -> safe st' h)).
  { intros h i xs st1 r1 Sh. unfold set_many. destruct (nth_error (arrs st) h) as [a|] eqn:Ea; [|intros Er; injection Er as <- <-; same].
    destruct (a_ro a) eqn:Ro; [intros Er; injection Er as <- <-; same|]. destruct (positions _ i) as [ps|]; [|intros Er; injection Er as <- <-; same].
    destruct (length xs =? length ps); [|intros Er; injection Er as <- <-; same]. intros Ep.
    destruct (put_items_writes (okelem st) h (a_store a) (select (a_indices a) ps) xs st [] st1 r1) as [W G]; auto.
    - intros s2 m1 x m2 e A Hx Hmm. apply as_item_ok; auto.
    - intros id e Hl. discriminate.
    - destruct (writes_inv (a_store a) st st1 I (Hset h Sh a Ea Ro) W) as [J Fr]. split; auto. split; auto. rewrite G. intros h' []. }
  destruct o as [n|h i|h i xs|h|h|h sz|xs|h i src]; cbn [step handles] in *.
  - cbn in Es. injection Es as <- <-. destruct (new_inv st n I) as (J & Fr & S & _). split; auto. split; auto. cbn. intros h [<-|[]]. auto.
  - assert (Sh : safe st h) by (apply Hh; cbn; auto). destruct i as [z|a b s|l]; try (apply (get_many_inv st h _ st' r I Sh Es)).
    injection Es as <- <-. split; auto. split; [apply frame_refl|]. unfold get_int. destruct (nth_error (arrs st) h) as [a|]; [|cbn; tauto].
    destruct (int_index _ z) as [p|]; [|cbn; tauto]. cbn [bind rmap]. destruct (fetch st (a_store a) (nth p (a_indices a) 0)) as [e|] eqn:Ef; [|cbn; tauto]. apply fetch_ok in Ef; auto.
    destruct e as [|v|h']; cbn; try tauto. intros x [<-|[]]. exact Ef.
  - assert (Sh : safe st h) by (apply Hh; cbn; auto). destruct i as [z|a b s|l]; try (apply (Hm h _ xs st' r Sh Es)).
    assert (Ht : (st, @Err (out E) TypeError) = (st', r) -> inv st' /\ frame st st' /\ (forall h, In h (gained r) -> safe st' h)) by (intros Er; injection Er as <- <-; same).
    destruct xs as [|x [|x' xs]]; auto. unfold set_int in Es. destruct (nth_error (arrs st) h) as [a|] eqn:Ea; [|injection Es as <- <-; same].
    destruct (a_ro a) eqn:Ro; [injection Es as <- <-; same|]. destruct (int_index _ z) as [p|]; [|injection Es as <- <-; same].
    destruct (as_item _ _ freeze kept st h [] x) as [[m e]|] eqn:Ei; [|injection Es as <- <-; same]. injection Es as <- <-.
    destruct (writes_inv (a_store a) st (put _ st (a_store a) (nth p (a_indices a) 0) e) I (Hset h Sh a Ea Ro)) as [J Fr]; [|split; auto; split; auto; cbn; tauto].
    apply put_writes. apply (as_item_ok st st h [] x m e); auto. intros id v Hl. discriminate.
  - assert (Sh : safe st h) by (apply Hh; cbn; auto). unfold read_only_view in Es. destruct (get_many _ st h (Slice None None None)) as [st1 r1] eqn:Eg.
    destruct (get_many_inv st h _ st1 r1 I Sh Eg) as (J & Fr & Sg). unfold get_many in Eg. destruct Sh as (a & Ea & Sa). rewrite Ea in Eg.
    destruct (positions _ _) as [ps|] eqn:Ep; [|injection Eg as <- <-; injection Es as <- <-; same]. injection Eg as <- <-. cbn [arrs stores] in Es.
    rewrite nth_error_app2, Nat.sub_diag in Es by auto. cbn [nth_error a_indices a_store] in Es. injection Es as <- <-.
    assert (Eu : upd (arrs st ++ [Arr (select (a_indices a) ps) (a_store a) (a_ro a)]) (length (arrs st)) (Arr (select (a_indices a) ps) (a_store a) true) = arrs st ++ [Arr (select (a_indices a) ps) (a_store a) true]).
    { apply upd_last. }
    rewrite Eu. destruct (I2 h a Ea) as (l & El & F).
    destruct (add_window_inv st (Arr (select (a_indices a) ps) (a_store a) true) I) as (J' & Fr' & S); [exists l; split; auto; apply select_lt; auto; eapply positions_lt; eauto|auto|].
    split; auto. split; auto. cbn. intros h' [<-|[]]. auto.
  - unfold clone in Es. destruct (elements st h) as [es|] eqn:Ee; [|injection Es as <- <-; same].
    destruct (new_array _ (length es) false st) as [st1 new] eqn:En. destruct (new_inv st (length es) I) as (J & Fr & S & _). rewrite En in J, Fr, S. cbn [fst] in *. assert (new = length (arrs st)) by (injection En as _ <-; auto). subst new.
    destruct (sequence (map (clone_elem _ h (length (arrs st))) es)) as [es1|] eqn:Eq; [|injection Es as <- <-; split; auto; split; auto; cbn; tauto].
    destruct (put_elems_writes (okelem st1) (length (arrs st)) (length (stores st)) es1 0 st1 st' r) as [W G]; auto.
    + assert (Oes : forall e, In e es -> okelem st e) by (unfold elements in Ee; destruct (nth_error (arrs st) h); [|discriminate]; eapply fetch_all_ok; eauto).
      intros e He. destruct (clone_elems_in _ _ _ _ Eq) as [_ A]. destruct (A e He) as [->|Hin]; [exact S|]. apply (okelem_grows st); [apply Fr|auto].
    + destruct (writes_inv (length (stores st)) st1 st' J I1 W) as [J' Fr']. split; auto. split; [eapply frame_trans; eauto|].
      destruct G as [-> | ->]; cbn; [tauto|]. intros x [<-|[]]. eapply safe_grows; [apply Fr'|auto].
  - unfold repeat_array in Es. destruct sz as [n|[|n l]]; [injection Es as <- <-; same|injection Es as <- <-; same|].
    destruct (elements st h) as [es|] eqn:Ee; [|injection Es as <- <-; same].
    destruct (new_array _ (n * length es) false st) as [st1 new] eqn:En. destruct (new_inv st (n * length es) I) as (J & Fr & S & _). rewrite En in J, Fr, S. cbn [fst] in *. assert (new = length (arrs st)) by (injection En as _ <-; auto). subst new.
    destruct (put_elems_writes (okelem st1) (length (arrs st)) (length (stores st)) (cycle _ es es (n * length es)) 0 st1 st' r) as [W G]; auto.
    + assert (Oes : forall e, In e es -> okelem st e) by (unfold elements in Ee; destruct (nth_error (arrs st) h); [|discriminate]; eapply fetch_all_ok; eauto).
      intros e He. apply cycle_in in He. apply (okelem_grows st); [apply Fr|apply Oes; tauto].
    + destruct (writes_inv (length (stores st)) st1 st' J I1 W) as [J' Fr']. split; auto. split; [eapply frame_trans; eauto|].
      destruct G as [-> | ->]; cbn; [tauto|]. intros x [<-|[]]. eapply safe_grows; [apply Fr'|auto].
  - unfold from_numpy in Es.
    destruct (new_array _ (length xs) false st) as [st1 new] eqn:En. destruct (new_inv st (length xs) I) as (J & Fr & S & _). rewrite En in J, Fr, S. cbn [fst] in *. assert (new = length (arrs st)) by (injection En as _ <-; auto). subst new.
    destruct (put_each_writes (okelem st1) (length (arrs st)) (length (stores st)) xs 0 st1 st' r) as [W G]; auto.
    + intros s2 x m2 e A Hx. apply as_item_ok; auto. intros id v Hl. discriminate.
    + destruct (writes_inv (length (stores st)) st1 st' J I1 W) as [J' Fr']. split; auto. split; [eapply frame_trans; eauto|].
      destruct G as [-> | ->]; cbn; [tauto|]. intros x [<-|[]]. eapply safe_grows; [apply Fr'|auto].
  - assert (Sh : safe st h) by (apply Hh; cbn; auto). assert (Ss : safe st src) by (apply Hh; cbn; auto).
    assert (Hf : forall j, set_from _ st h j src = (st', r) -> inv st' /\ frame st st' /\ (forall h, In h (gained r) -> safe st' h)).
    { intros j Ef. unfold set_from in Ef. destruct (nth_error (arrs st) h) as [a|] eqn:Ea; [|injection Ef as <- <-; same]. destruct (a_ro a) eqn:Ro; [injection Ef as <- <-; same|].
      destruct (positions _ j) as [ps|]; [|injection Ef as <- <-; same]. destruct (nth_error (arrs st) src) as [b|]; [|injection Ef as <- <-; same].
      destruct (_ =? _); [|injection Ef as <- <-; same]. destruct (copy_items_inv _ _ _ _ _ _ _ _ _ I (Hset h Sh a Ea Ro) Sh Ef) as (J & Fr & G). rewrite G. split; auto. split; auto. intros h' []. }
    destruct i as [z|a b s|l]; [|exact (Hf _ Es)|exact (Hf _ Es)].
    unfold set_int in Es. destruct (nth_error (arrs st) h) as [a|] eqn:Ea; [|injection Es as <- <-; same].
    destruct (a_ro a) eqn:Ro; [injection Es as <- <-; same|]. destruct (int_index _ z) as [p|]; [|injection Es as <- <-; same].
    destruct (as_item _ _ freeze kept st h [] (IArr src)) as [[m e]|] eqn:Ei; [|injection Es as <- <-; same]. injection Es as <- <-.
    destruct (writes_inv (a_store a) st (put _ st (a_store a) (nth p (a_indices a) 0) e) I (Hset h Sh a Ea Ro)) as [J Fr]; [|split; auto; split; auto; cbn; tauto].
    apply put_writes. apply (as_item_ok st st h [] (IArr src) m e); auto; intros; try discriminate; cbn in *; intuition (subst; auto).
Qed.
End INV.
End P.

(* Sessions, slices, assignments. *)
From Verif Require Import Prelude ObjModel ObjSpec ObjProofs ScoreProofs.

(* ---- slices ---- *)
Lemma clip_is_bound n z d : clip_bound n z = bound n d (Some z).
Proof. unfold clip_bound, bound. destruct (z <? 0)%Z eqn:Ez; lia. Qed.
Lemma slice_positions_ok n a b s : (0 < match s with None => 1 | Some z => z end)%Z ->
  exists ps, slice_positions n a b s = Ok ps /\ sliced n a b (match s with None => 1 | Some z => z end)%Z ps.
Proof.
  intros Hs. unfold slice_positions.
  replace (match a with None => 0%Z | Some z => clip_bound n z end) with (bound n 0 a) by (destruct a as [z|]; auto; symmetry; apply clip_is_bound).
  replace (match b with None => Z.of_nat n | Some z => clip_bound n z end) with (bound n (Z.of_nat n) b) by (destruct b as [z|]; auto; symmetry; apply clip_is_bound).
  set (t := match s with None => 1%Z | Some z => z end) in *. destruct (t <=? 0)%Z eqn:Et; [lia|]. eexists. split; [reflexivity|].
  assert (Ha : (0 <= bound n 0 a)%Z) by (unfold bound; destruct a as [z|]; [destruct (z <? 0)%Z eqn:Ez; lia|lia]).
  unfold sliced. set (lo := bound n 0 a) in *. set (hi := bound n (Z.of_nat n) b). clearbody lo hi t. set (q := ((hi - lo + t - 1) / t)%Z).
  assert (Hq : (t * q <= hi - lo + t - 1)%Z) by (apply Z.mul_div_le; lia). split.
  - intros i j p r Hij Ei Ej. rewrite nth_error_map in Ei, Ej.
    destruct (nth_error (seq 0 (Z.to_nat q)) i) as [i'|] eqn:Si; [|discriminate]. destruct (nth_error (seq 0 (Z.to_nat q)) j) as [j'|] eqn:Sj; [|discriminate].
    assert (Hi : i' = i) by (assert (i < Z.to_nat q) by (rewrite <- (seq_length (Z.to_nat q) 0); eapply nth_lt; eauto); apply nth_error_nth with (d := 0) in Si; rewrite seq_nth in Si by auto; lia).
    assert (Hj : j' = j) by (assert (j < Z.to_nat q) by (rewrite <- (seq_length (Z.to_nat q) 0); eapply nth_lt; eauto); apply nth_error_nth with (d := 0) in Sj; rewrite seq_nth in Sj by auto; lia).
    subst i' j'. cbn in Ei, Ej. injection Ei as <-. injection Ej as <-. clear Si Sj Hq. nia.
  - intros p. rewrite in_map_iff. split.
    + intros (k & <- & Hk). apply in_seq in Hk. assert (Z.of_nat k < q)%Z by lia. rewrite Z2Nat.id by nia. split; [nia|]. replace (lo + Z.of_nat k * t - lo)%Z with (Z.of_nat k * t)%Z by ring. apply Z.mod_mul. lia.
    + intros [[H1 H2] H3]. apply Z_div_exact_full_2 in H3; [|lia]. set (k := ((Z.of_nat p - lo) / t)%Z) in *.
      assert (Hk : (0 <= k)%Z) by (unfold k; apply Z.div_pos; lia). exists (Z.to_nat k). split.
      * rewrite Z2Nat.id by auto. lia.
      * apply in_seq. assert (k + 1 <= q)%Z by (apply Z.div_le_lower_bound; nia). lia.
Qed.
Lemma slice_all n : slice_positions n None None None = Ok (seq 0 n).
Proof.
  unfold slice_positions. cbn [Z.leb Z.compare]. f_equal. replace (Z.to_nat ((Z.of_nat n - 0 + 1 - 1) / 1)) with n by (rewrite Z.div_1_r; lia).
  rewrite <- (map_id (seq 0 n)) at 2. apply map_ext. intros k. lia.
Qed.
Lemma select_seq l : select l (seq 0 (length l)) = l.
Proof.
  unfold select. induction l as [|a l IH]; cbn; auto. f_equal. rewrite <- IH at 2. rewrite <- seq_shift, map_map. reflexivity.
Qed.
Lemma sliced_nodup n a b s ps : sliced n a b s ps -> NoDup ps.
Proof.
  intros [H _]. apply NoDup_nth_error. intros i j Hi E. destruct (nth_some ps i Hi) as [p Ep]. rewrite Ep in E. symmetry in E.
  destruct (Nat.lt_total i j) as [L|[L|L]]; auto; [pose proof (H _ _ _ _ L Ep E)|pose proof (H _ _ _ _ L E Ep)]; lia.
Qed.
Lemma int_index_ok n i : (- Z.of_nat n <= i < Z.of_nat n)%Z -> int_index n i = Ok (Z.to_nat (i mod Z.of_nat n)).
Proof.
  intros H. unfold int_index. destruct (_ || _) eqn:Eo; [lia|]. f_equal. f_equal. destruct (i <? 0)%Z eqn:Ei.
  - rewrite <- (Z.mod_add i 1) by lia. rewrite Z.mod_small; lia.
  - rewrite Z.mod_small; lia.
Qed.
Lemma int_index_err n i : ~ (- Z.of_nat n <= i < Z.of_nat n)%Z -> int_index n i = Err IndexError.
Proof. intros H. unfold int_index. destruct (_ || _) eqn:Eo; auto. lia. Qed.
Lemma int_index_mod n i : (- Z.of_nat n <= i < Z.of_nat n)%Z -> Z.to_nat (i mod Z.of_nat n) < n.
Proof. intros H. pose proof (Z.mod_pos_bound i (Z.of_nat n)). lia. Qed.

Section P.
Context {X E : Type}.
Variable freeze : X -> result E.
Variable kept : X -> bool.
Implicit Types st : state E.
Notation session := (session freeze kept).
Notation reachable := (reachable freeze kept).

Theorem session_inv N0 st av st' av' : session st av st' av' -> inv freeze N0 st -> (forall h, In h av -> safe N0 st h) ->
  inv freeze N0 st' /\ frame N0 st st' /\ (forall h, In h av' -> safe N0 st' h).
Proof.
  intros S. induction S as [st av|st av st1 av1 o st2 r S IH Hh Es]; intros I Ha.
  - split; auto. split; auto. apply frame_refl.
  - destruct (IH I Ha) as (I1 & F1 & A1). destruct (step_inv freeze kept N0 st1 o st2 r I1 (fun h Hin => A1 h (Hh h Hin)) Es) as (I2 & F2 & A2).
    split; auto. split; [eapply frame_trans; eauto|]. intros h Hin. apply in_app_iff in Hin. destruct Hin as [Hin|Hin]; auto. eapply safe_grows; [apply F2|auto].
Qed.
Lemma empty_inv : inv freeze 0 (@empty E).
Proof. split; [lia|]. split; intros h; destruct h; discriminate. Qed.
Lemma reachable_inv st : reachable st -> inv freeze 0 st.
Proof. intros [av S]. apply (session_inv 0 _ _ _ _ S empty_inv). intros h []. Qed.

(* ---- windows have distinct cells ---- *)
Definition distinct_cells st : Prop := forall h a, nth_error (arrs st) h = Some a -> NoDup (a_indices a).
Lemma nodup_map_nth (l ps : list nat) : NoDup l -> NoDup ps -> Forall (fun p => p < length l) ps -> NoDup (select l ps).
Proof.
  intros Hl Hp. induction Hp as [|p ps Hn Hp IH]; intros F; cbn; [constructor|]. inversion F as [|? ? A B]; subst. constructor; auto.
  intros Hin. apply in_map_iff in Hin. destruct Hin as (q & Eq & Hq). rewrite Forall_forall in B. specialize (B q Hq). apply (proj1 (NoDup_nth l 0) Hl) in Eq; auto. subst. contradiction.
Qed.
Lemma arrs_put st s i e : arrs (put E st s i e) = arrs st.
Proof. unfold put. destruct (nth_error (stores st) s); auto. Qed.
Lemma arrs_put_items self s : forall is xs st m st' r, put_items X E freeze kept st self s m is xs = (st', r) -> arrs st' = arrs st.
Proof.
  induction is as [|i is IH]; intros xs st m st' r Ep; cbn in Ep; [injection Ep as <- <-; auto|]. destruct xs as [|x t]; [injection Ep as <- <-; auto|].
  destruct (as_item X E freeze kept st self m x) as [[m1 e]|]; [|injection Ep as <- <-; auto]. apply IH in Ep. rewrite Ep. apply arrs_put.
Qed.
Lemma arrs_put_elems self s : forall es i st st' r, put_elems E st self s i es = (st', r) -> arrs st' = arrs st.
Proof.
  induction es as [|e es IH]; intros i st st' r Ep; cbn in Ep; [injection Ep as <- <-; auto|]. destruct (as_own E st self e); [|injection Ep as <- <-; auto].
  apply IH in Ep. rewrite Ep. apply arrs_put.
Qed.
Lemma arrs_put_each self s : forall xs i st st' r, put_each X E freeze kept st self s i xs = (st', r) -> arrs st' = arrs st.
Proof.
  induction xs as [|e es IH]; intros i st st' r Ep; cbn in Ep; [injection Ep as <- <-; auto|]. destruct (as_item X E freeze kept st self [] e) as [[m1 e1]|]; [|injection Ep as <- <-; auto].
  apply IH in Ep. rewrite Ep. apply arrs_put.
Qed.
Lemma arrs_copy_items self s src whole : forall is q st st' r, copy_items E st self s src whole q is = (st', r) -> arrs st' = arrs st.
Proof.
  induction is as [|i is IH]; intros q st st' r Ec; cbn [copy_items] in Ec; [injection Ec as <- <-; auto|]. destruct (get_int st src (Z.of_nat q)) as [e|]; [|injection Ec as <- <-; auto].
  destruct (as_given E st self src whole e) as [e1|]; [|injection Ec as <- <-; auto]. apply IH in Ec. rewrite Ec. apply arrs_put.
Qed.
Lemma distinct_snoc st sts a : distinct_cells st -> NoDup (a_indices a) -> distinct_cells (St sts (arrs st ++ [a])).
Proof.
  intros D Ha h b Eb. cbn in Eb. destruct (Nat.lt_ge_cases h (length (arrs st))) as [L|L].
  - rewrite nth_error_app1 in Eb by auto. eauto.
  - rewrite nth_error_app2 in Eb by auto. destruct (h - length (arrs st)) as [|[|]]; try discriminate. injection Eb as <-. auto.
Qed.
Lemma distinct_same st st' : arrs st' = arrs st -> distinct_cells st -> distinct_cells st'.
Proof. intros A D h a Ea. rewrite A in Ea. eauto. Qed.
Lemma slice_positions_nodup n a b s ps : slice_positions n a b s = Ok ps -> NoDup ps.
Proof.
  intros Ep. destruct (Z.lt_ge_cases 0 (match s with None => 1 | Some z => z end)%Z) as [L|L].
  - destruct (slice_positions_ok n a b s L) as (ps' & Ep' & S). rewrite Ep in Ep'. injection Ep' as <-. eapply sliced_nodup; eauto.
  - unfold slice_positions in Ep. destruct (_ <=? 0)%Z eqn:Es; [discriminate|]. lia.
Qed.
Lemma get_many_distinct st h i st' r : (forall z, i <> At z) -> distinct_cells st -> get_many E st h i = (st', r) -> distinct_cells st'.
Proof.
  intros Hi D. unfold get_many. destruct (nth_error (arrs st) h) as [a|] eqn:Ea; [|intros Er; injection Er as <- <-; auto].
  destruct (positions _ i) as [ps|] eqn:Ep; [|intros Er; injection Er as <- <-; auto]. destruct i as [z|x y z|l].
  - destruct (Hi z eq_refl).
  - intros Er. injection Er as <- <-. apply distinct_snoc; auto. cbn. apply nodup_map_nth; [eauto|eapply slice_positions_nodup; eauto|eapply positions_lt; eauto].
  - destruct (sequence _) as [es|]; [|intros Er; injection Er as <- <-; auto]. intros Er. injection Er as <- <-. apply distinct_snoc; auto. cbn. apply seq_NoDup.
Qed.
Lemma step_distinct st o st' r : distinct_cells st -> step freeze kept st o = (st', r) -> distinct_cells st'.
Proof.
  intros D Es. assert (DN : forall n, distinct_cells (fst (new_array E n false st))) by (intros n; apply distinct_snoc; auto; cbn; apply seq_NoDup).
  destruct o as [n|h i|h i xs|h|h|h sz|xs|h i src]; cbn [step] in Es.
  - specialize (DN n). destruct (new_array E n false st) as [st1 h]. injection Es as <- <-. auto.
  - destruct i as [z|a b s|l].
    + injection Es as <- <-. exact D.
    + apply (get_many_distinct st h (Slice a b s) st' r); auto. discriminate.
    + apply (get_many_distinct st h (Fancy l) st' r); auto. discriminate.
  - assert (DM : forall i, set_many X E freeze kept st h i xs = (st', r) -> distinct_cells st').
    { intros j. unfold set_many. destruct (nth_error (arrs st) h) as [a|]; [|intros Er; injection Er as <- <-; auto]. destruct (a_ro a); [intros Er; injection Er as <- <-; auto|].
      destruct (positions _ j) as [ps|]; [|intros Er; injection Er as <- <-; auto]. destruct (_ =? _); [|intros Er; injection Er as <- <-; auto]. intros Ep. apply arrs_put_items in Ep. eapply distinct_same; eauto. }
    destruct i as [z|a b s|l]; [|exact (DM _ Es)|exact (DM _ Es)]. destruct xs as [|x [|]]; try (injection Es as <- <-; auto; fail). unfold set_int in Es. destruct (nth_error (arrs st) h) as [a|]; [|injection Es as <- <-; auto].
    destruct (a_ro a); [injection Es as <- <-; auto|]. destruct (int_index _ z); [|injection Es as <- <-; auto]. destruct (as_item X E freeze kept st h [] x) as [[m e]|]; [|injection Es as <- <-; auto].
    injection Es as <- <-. eapply distinct_same; [apply arrs_put|auto].
  - unfold read_only_view in Es. destruct (get_many E st h (Slice None None None)) as [st1 r1] eqn:Eg. assert (D1 : distinct_cells st1) by (eapply get_many_distinct; [|exact D|exact Eg]; discriminate).
    destruct r1 as [[| |v]|]; try (injection Es as <- <-; auto; fail). destruct (nth_error (arrs st1) v) as [a|] eqn:Ea; injection Es as <- <-; auto.
    intros h' b Eb. cbn in Eb. rewrite nth_error_upd in Eb. destruct (v =? h'); [|eauto]. destruct (_ <? _); [|discriminate]. injection Eb as <-. cbn. eauto.
  - unfold clone in Es. destruct (elements st h) as [es|]; [|injection Es as <- <-; auto]. specialize (DN (length es)). destruct (new_array E (length es) false st) as [st1 new]. cbn in DN.
    destruct (sequence _) as [es1|]; [|injection Es as <- <-; auto]. apply arrs_put_elems in Es. eapply distinct_same; eauto.
  - unfold repeat_array in Es. destruct sz as [n|[|n l]]; try (injection Es as <- <-; auto; fail). destruct (elements st h) as [es|]; [|injection Es as <- <-; auto].
    specialize (DN (n * length es)). destruct (new_array E (n * length es) false st) as [st1 new]. cbn in DN. apply arrs_put_elems in Es. eapply distinct_same; eauto.
  - unfold from_numpy in Es. specialize (DN (length xs)). destruct (new_array E (length xs) false st) as [st1 new]. cbn in DN. apply arrs_put_each in Es. eapply distinct_same; eauto.
  - assert (DF : forall j, set_from E st h j src = (st', r) -> distinct_cells st').
    { intros j Ef. unfold set_from in Ef. destruct (nth_error (arrs st) h) as [a|]; [|injection Ef as <- <-; auto]. destruct (a_ro a); [injection Ef as <- <-; auto|].
      destruct (positions _ j) as [ps|]; [|injection Ef as <- <-; auto]. destruct (nth_error (arrs st) src) as [b|]; [|injection Ef as <- <-; auto]. destruct (_ =? _); [|injection Ef as <- <-; auto].
      apply arrs_copy_items in Ef. eapply distinct_same; eauto. }
    destruct i as [z|a b s|l]; [|exact (DF _ Es)|exact (DF _ Es)]. unfold set_int in Es. destruct (nth_error (arrs st) h) as [a|]; [|injection Es as <- <-; auto].
    destruct (a_ro a); [injection Es as <- <-; auto|]. destruct (int_index _ z); [|injection Es as <- <-; auto]. destruct (as_item X E freeze kept st h [] (IArr src)) as [[m e]|]; [|injection Es as <- <-; auto].
    injection Es as <- <-. eapply distinct_same; [apply arrs_put|auto].
Qed.
Lemma reachable_distinct st : reachable st -> distinct_cells st.
Proof.
  intros [av S]. remember (@empty E) as st0 eqn:E0. remember (@nil nat) as av0. induction S as [st av|st av st1 av1 o st2 r S IH Hh Es].
  - subst. intros h a Ea. destruct h; discriminate.
  - eapply step_distinct; eauto.
Qed.

(* ---- reading and writing ---- *)
Lemma array_store st h a : inv freeze 0 st -> nth_error (arrs st) h = Some a -> exists l, nth_error (stores st) (a_store a) = Some l /\ Forall (fun i => i < length l) (a_indices a).
Proof. intros (_ & I2 & _). apply I2. Qed.
Lemma cell_nth st h a p i : nth_error (arrs st) h = Some a -> nth_error (a_indices a) p = Some i -> cell st h p = Some (a_store a, i).
Proof. intros Ea Ei. unfold cell. rewrite Ea, Ei. reflexivity. Qed.
Lemma holds_ex st h a p : inv freeze 0 st -> nth_error (arrs st) h = Some a -> p < length (a_indices a) ->
  exists e, fetch st (a_store a) (nth p (a_indices a) 0) = Ok e /\ holds st h p e.
Proof.
  intros I Ea Lp. destruct (array_store st h a I Ea) as (l & El & F). destruct (nth_some (a_indices a) p Lp) as [i Ei].
  assert (Li : i < length l) by (rewrite Forall_forall in F; apply F; eapply nth_error_In; eauto). destruct (nth_some l i Li) as [e Ee].
  exists e. split; [|exists (a_store a), i, l; split; [apply (cell_nth _ _ a); auto|auto]]. unfold fetch. rewrite El, (nth_error_nth _ _ _ Ei), Ee. reflexivity.
Qed.
Lemma holds_fun st h p e e' : holds st h p e -> holds st h p e' -> e = e'.
Proof. intros (s & i & l & A & B & C) (s' & i' & l' & A' & B' & C'). congruence. Qed.
Lemma put_nth st s i e s' l' : nth_error (stores (put E st s i e)) s' = Some l' -> exists l, nth_error (stores st) s' = Some l /\ length l' = length l /\
   forall j x, nth_error l' j = Some x -> (s' = s /\ j = i /\ x = e) \/ ((s' <> s \/ j <> i) /\ nth_error l j = Some x).
Proof.
  unfold put. destruct (nth_error (stores st) s) as [l0|] eqn:E0; cbn; intros El.
  - rewrite nth_error_upd in El. destruct (Nat.eqb_spec s s') as [->|Hs].
    + destruct (s' <? length (stores st)); [|discriminate]. injection El as <-. exists l0. split; auto. split; [apply upd_length|]. intros j x Hj. rewrite nth_error_upd in Hj.
      destruct (Nat.eqb_spec i j) as [->|Hi]; [|right; auto]. destruct (j <? length l0); [|discriminate]. injection Hj as <-. auto.
    + exists l'. split; [exact El|]. split; [reflexivity|]. intros j x Hj. right. split; auto.
  - exists l'. split; [exact El|]. split; [reflexivity|]. intros j x Hj. right. split; auto. left. intros ->. congruence.
Qed.
Lemma put_at st s i e l : nth_error (stores st) s = Some l -> i < length l -> exists l', nth_error (stores (put E st s i e)) s = Some l' /\ nth_error l' i = Some e.
Proof.
  intros El Li. unfold put. rewrite El. cbn. exists (upd l i e). rewrite !nth_error_upd, !Nat.eqb_refl. apply nth_lt in El. apply Nat.ltb_lt in El, Li. rewrite El, Li. auto.
Qed.
Lemma put_other st s i e s' l j : nth_error (stores st) s' = Some l -> s' <> s \/ j <> i -> exists l', nth_error (stores (put E st s i e)) s' = Some l' /\ nth_error l' j = nth_error l j.
Proof.
  intros El Hd. unfold put. destruct (nth_error (stores st) s) as [l0|] eqn:E0; [|eauto]. cbn. rewrite nth_error_upd. destruct (Nat.eqb_spec s s') as [->|Hs].
  - rewrite El in E0. injection E0 as <-. pose proof (nth_lt _ _ _ El) as Ls. apply Nat.ltb_lt in Ls. rewrite Ls. exists (upd l i e). split; auto. rewrite nth_error_upd. destruct (Nat.eqb_spec i j); auto. intuition congruence.
  - exists l. auto.
Qed.
Lemma cell_same st st' h p : arrs st' = arrs st -> cell st' h p = cell st h p.
Proof. intros A. unfold cell. rewrite A. reflexivity. Qed.
Lemma put_holds st s i e h p x l : nth_error (stores st) s = Some l -> i < length l ->
  holds (put E st s i e) h p x <-> (cell st h p = Some (s, i) /\ x = e) \/ (cell st h p <> Some (s, i) /\ holds st h p x).
Proof.
  intros El Li. unfold holds. split.
  - intros (s1 & i1 & l1 & A & B & C). rewrite (cell_same st) in A by apply arrs_put. destruct (put_nth _ _ _ _ _ _ B) as (l2 & E2 & _ & D). destruct (D _ _ C) as [(-> & -> & ->)|[Hd Hx]]; auto.
    right. split; [rewrite A; intros Q; injection Q as -> ->; intuition|]. exists s1, i1, l2. auto.
  - intros [[A ->]|[A (s1 & i1 & l1 & A1 & B1 & C1)]].
    + destruct (put_at st s i e l El Li) as (l' & B & C). exists s, i, l'. rewrite (cell_same st) by apply arrs_put. auto.
    + assert (Hd : s1 <> s \/ i1 <> i) by (destruct (Nat.eq_dec s1 s); [destruct (Nat.eq_dec i1 i)|]; auto; subst; congruence).
      destruct (put_other st s i e s1 l1 i1 B1 Hd) as (l' & B & C). exists s1, i1, l'. rewrite (cell_same st) by apply arrs_put. rewrite C. auto.
Qed.
(* consecutive writes *)
Fixpoint put_all st (s : nat) (is : list nat) (es : list (elem E)) : state E :=
  match is, es with i :: is, e :: es => put_all (put E st s i e) s is es | _, _ => st end.
Lemma put_store_length st s i e s' l : nth_error (stores st) s' = Some l -> exists l', nth_error (stores (put E st s i e)) s' = Some l' /\ length l' = length l.
Proof.
  intros El. unfold put. destruct (nth_error (stores st) s) as [l0|] eqn:E0; [|eauto]. cbn. rewrite nth_error_upd. destruct (Nat.eqb_spec s s') as [->|Hs]; [|eauto].
  pose proof (nth_lt _ _ _ El) as Ls. apply Nat.ltb_lt in Ls. rewrite Ls. eexists. split; [reflexivity|]. rewrite upd_length. congruence.
Qed.
Lemma put_all_arrs s : forall is es st, arrs (put_all st s is es) = arrs st.
Proof. induction is as [|i is IH]; intros [|e es] st; cbn; auto. rewrite IH. apply arrs_put. Qed.
Lemma put_all_holds s : forall is es st l h p x, nth_error (stores st) s = Some l -> Forall (fun i => i < length l) is -> NoDup is -> length is = length es ->
  holds (put_all st s is es) h p x <-> (exists k i, nth_error is k = Some i /\ cell st h p = Some (s, i) /\ nth_error es k = Some x) \/
     ((forall i, In i is -> cell st h p <> Some (s, i)) /\ holds st h p x).
Proof.
  induction is as [|i is IH]; intros [|e es] st l h p x El F ND L; try discriminate L; cbn [put_all].
  - split; [intros H; right; split; auto|]. intros [(k & i & A & _)|[_ H]]; auto. destruct k; discriminate.
  - inversion F as [|? ? Fi F']; subst. inversion ND as [|? ? Ni ND']; subst. destruct (put_store_length st s i e s l El) as (l' & El' & Ll).
    assert (F2 : Forall (fun i => i < length l') is) by (rewrite Ll; auto). injection L as L.
    rewrite (IH es _ l' h p x El' F2 ND' L), (cell_same st) by apply arrs_put. rewrite (put_holds st s i e h p x l El Fi). split.
    + intros [(k & j & A & B & C)|[A [[B ->]|[B C]]]].
      * left. exists (S k), j. auto.
      * left. exists 0, i. auto.
      * right. split; auto. intros j [<-|Hj]; auto.
    + intros [(k & j & A & B & C)|[A B]].
      * destruct k as [|k]; [|left; exists k, j; auto]. cbn in A, C. injection A as <-. injection C as <-. right. split; [|auto]. intros j Hj Q. rewrite B in Q. injection Q as <-. contradiction.
      * right. split; [intros j Hj; apply A; cbn; auto|]. right. split; auto. apply A. cbn. auto.
Qed.
Lemma put_items_all self s (all : list (input X)) : ids_identify all -> forall is xs es st m,
  (forall id e, ilookup E m id = Some e -> exists x, In (IVal id x) all /\ freeze x = Ok e) -> (forall x, In x xs -> In x all) -> length is = length xs ->
  Forall2 (fun x e => exists id v w, x = IVal id v /\ freeze v = Ok w /\ e = EVal w) xs es ->
  put_items X E freeze kept st self s m is xs = (put_all st s is es, Ok OUnit).
Proof.
  intros Hid. induction is as [|i is IH]; intros xs es st m Hm Hall L F; cbn; [reflexivity|].
  destruct F as [|x e xs es (id & v & w & -> & Ew & ->) F]; [discriminate L|].
  assert (Hin : In (IVal id v) all) by (apply Hall; cbn; auto). unfold as_item. destruct (ilookup E m id) as [e0|] eqn:El.
  - destruct (Hm id e0 El) as (v' & Hin' & Ef). rewrite (Hid id v' v Hin' Hin) in Ef. assert (e0 = w) by congruence. subst e0. apply IH; auto. intros x Hx. apply Hall. cbn. auto.
  - rewrite Ew. cbn [rmap]. apply IH; auto; [|intros x Hx; apply Hall; cbn; auto]. intros id' e' Hl. destruct (kept v); [eauto|]. cbn in Hl. destruct (Nat.eqb_spec id id') as [<-|Hn]; eauto.
    injection Hl as <-. exists v. auto.
Qed.
Lemma fetch_all st s l (is : list nat) : nth_error (stores st) s = Some l -> Forall (fun i => i < length l) is ->
  exists es, sequence (map (fetch st s) is) = Ok es /\ length es = length is /\ forall k i, nth_error is k = Some i -> nth_error es k = nth_error l i.
Proof.
  intros El F. induction F as [|i is Fi F (es & Es & Ls & H)]; cbn; [exists []; split; auto; split; auto; intros [|k] i; discriminate|].
  destruct (nth_some l i Fi) as [e Ee]. assert (Ef : fetch st s i = Ok e) by (unfold fetch; rewrite El, Ee; reflexivity). rewrite Ef. cbn. rewrite Es. cbn. exists (e :: es). split; auto. split; [cbn; auto|].
  intros [|k] j Ej; cbn in *; [injection Ej as <-; congruence|]. auto.
Qed.
Lemma put_elems_all self s : forall es i st, (forall e h, In e es -> e = EArr h -> h = self \/ exists a, nth_error (arrs st) h = Some a /\ a_ro a = true) ->
  put_elems E st self s i es = (put_all st s (seq i (length es)) es, Ok (OHandle self)).
Proof.
  induction es as [|e es IH]; intros i st H; cbn; [reflexivity|].
  assert (Ea : as_own E st self e = Ok e).
  { destruct e as [|v|h]; auto. cbn. destruct (h =? self) eqn:Eh; auto. destruct (H (EArr h) h) as [->|(a & Ea & Er)]; cbn; auto; [rewrite Nat.eqb_refl in Eh; discriminate|]. rewrite Ea, Er. reflexivity. }
  rewrite Ea. apply IH. intros e' h Hin ->. rewrite arrs_put. apply (H (EArr h)); cbn; auto.
Qed.
Lemma cycle_length : forall n (es all : list (elem E)), (all <> [] \/ n = 0) -> length (cycle E es all n) = n.
Proof. induction n as [|n IH]; intros es all H; cbn; auto. destruct es as [|e t]; [destruct all as [|a t]|]; cbn; [destruct H; congruence| |]; rewrite IH; auto; left; destruct H; congruence. Qed.
Lemma cycle_nth : forall n (es all pre : list (elem E)) k, all = pre ++ es -> k < n -> all <> [] -> nth_error (cycle E es all n) k = nth_error all ((length pre + k) mod length all).
Proof.
  induction n as [|n IH]; intros es all pre k Ea Hk Hne; [lia|]. cbn. destruct es as [|e t].
  - destruct all as [|a t] eqn:Eall; [congruence|]. rewrite app_nil_r in Ea. rewrite <- Ea. destruct k as [|k].
    + rewrite Nat.add_0_r, Nat.mod_same by (cbn; lia). reflexivity.
    + change (nth_error (a :: cycle E t (a :: t) n) (S k)) with (nth_error (cycle E t (a :: t) n) k). rewrite (IH t (a :: t) [a] k) by (auto; try lia; discriminate).
      f_equal. replace (length (a :: t) + S k) with (length [a] + k + 1 * length (a :: t)) by (cbn; lia). rewrite Nat.mod_add by (cbn; lia). reflexivity.
  - destruct k as [|k].
    + cbn [nth_error]. rewrite Nat.add_0_r, Nat.mod_small by (rewrite Ea, app_length; cbn; lia). rewrite Ea, nth_error_app2, Nat.sub_diag by auto. reflexivity.
    + cbn [nth_error]. rewrite (IH t all (pre ++ [e]) k) by (auto; try lia; rewrite <- app_assoc; auto). rewrite app_length. cbn [length]. do 2 f_equal. lia.
Qed.
End P.

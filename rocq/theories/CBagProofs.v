(* The CBag model satisfies the bag monitor. *)
From Verif Require Import Prelude StructModel StructSpec SortLib CListProofs CListRefine CListLanes CMemProofs CBagModel CBagSpec.
From Coq Require Import Sorted.
Open Scope Z_scope.

Lemma Forall2_nth_l {A B} (R : A -> B -> Prop) : forall l l' i a, Forall2 R l l' -> nth_error l i = Some a ->
  exists b, nth_error l' i = Some b /\ R a b.
Proof. intros l l' i a H; revert i; induction H; intros [|i] E; simpl in *; try discriminate; eauto. injection E as <-; eauto. Qed.
Lemma all_some_nth {A} : forall (l : list (option A)) r i, all_some l = Some r -> nth_error l i = option_map Some (nth_error r i).
Proof.
  induction l as [|[a|] l IH]; intros r i H; simpl in H; try discriminate.
  - injection H as <-. destruct i; reflexivity.
  - destruct (all_some l) as [t|]; [|discriminate]. injection H as <-. destruct i; simpl; auto.
Qed.
Lemma all_some_len {A} : forall (l : list (option A)) r, all_some l = Some r -> length r = length l.
Proof.
  induction l as [|[a|] l IH]; intros r H; simpl in H; try discriminate.
  - injection H as <-. reflexivity.
  - destruct (all_some l) as [t|]; [|discriminate]. injection H as <-. simpl; auto.
Qed.

Lemma remove_one_perm v l : In v l -> exists l', remove_one v l = Some l' /\ Permutation l (v :: l').
Proof.
  induction l as [|x t IH]; intros H; [destruct H|]. simpl. destruct (Z.eqb_spec v x) as [->|Hn]; [eauto|].
  destruct H as [->|H]; [congruence|]. destruct (IH H) as (l' & -> & HP). exists (x :: l'). split; auto.
  transitivity (x :: v :: l'); [constructor; auto|constructor].
Qed.
Lemma remove_one_Some v l l' : remove_one v l = Some l' -> Permutation l (v :: l').
Proof.
  revert l'; induction l as [|x t IH]; intros l'; simpl; [discriminate|].
  destruct (Z.eqb_spec v x) as [->|Hn]. - intros E; injection E as <-; auto.
  - destruct (remove_one v t) as [t'|]; [|discriminate]. intros E; injection E as <-.
    transitivity (x :: v :: t'); [constructor; auto|constructor].
Qed.

Lemma desc_total (x y : Z) : (y <=? x) = true \/ (x <=? y) = true. Proof. lia. Qed.
Lemma desc_trans (x y z : Z) : (y <=? x) = true -> (z <=? y) = true -> (z <=? x) = true. Proof. lia. Qed.
Lemma desc_anti (x y : Z) : (y <=? x) = true -> (x <=? y) = true -> x = y. Proof. lia. Qed.

Lemma sort_desc_split l1 e k : Forall (fun x => e < x) l1 ->
  isort (fun a b => b <=? a) (l1 ++ repeat e k) = isort (fun a b => b <=? a) l1 ++ repeat e k.
Proof.
  intros HF. apply (sorted_unique (fun a b => b <=? a) desc_anti).
  - apply isort_sorted; [exact desc_total | exact desc_trans].
  - apply sorted_app.
    + apply isort_sorted; [exact desc_total | exact desc_trans].
    + clear. induction k; simpl; constructor; auto. apply Forall_forall. intros x Hx. apply repeat_spec in Hx. lia.
    + intros x y Hx Hy. apply isort_In in Hx. apply repeat_spec in Hy. rewrite Forall_forall in HF. apply HF in Hx. lia.
  - etransitivity; [symmetry; apply isort_perm|]. apply Permutation_app_tail, isort_perm.
Qed.

Section Bag.
Variable D : dops Z.
Variable M : nat.
Hypothesis HM : (2 <= M)%nat.
Variables low high : Z.
Hypothesis Hlow : low <= 1.
Variable fallback : Z.
Hypothesis laws : unit_laws D.
Notation empty := (empty low).
Notation rep := (rep M).

Definition in_dom (x : Z) : Prop := low <= x < high.

Record fill (l : lane Z) (q : list Z) : Prop := {
  f_rep : rep l q;
  f_beg : q <> [] -> lbeg l = 0;
  f_rest : forall j, (length q <= j < M)%nat -> nth_error (lbuf l) j = Some empty;
  f_dom : Forall in_dom q }.

Lemma fill_buf l q : fill l q -> lbuf l = q ++ repeat empty (M - length q).
Proof.
  intros [Hr Hb He _]. assert (Hlen := rep_buf _ _ _ Hr). assert (Hc := rep_cap _ _ _ Hr).
  apply nth_error_ext. intros j. destruct (lt_dec j (length q)) as [Hj|Hj].
  - rewrite nth_error_app1 by auto. rewrite <- (rep_nth _ _ _ Hr) by auto.
    rewrite Hb by (intros ->; simpl in *; lia). f_equal. rewrite Z.add_0_l, Z.mod_small by lia. lia.
  - rewrite nth_error_app2 by lia. destruct (lt_dec j M) as [Hj'|Hj'].
    + rewrite He by lia. symmetry. apply nth_error_repeat. lia.
    + transitivity (@None Z); [|symmetry]; apply nth_error_None; rewrite ?repeat_length; lia.
Qed.

Lemma map2_app {A B C} (f : A -> B -> C) l1 l2 : forall r1 r2, length l1 = length r1 ->
  map2 f (l1 ++ l2) (r1 ++ r2) = map2 f l1 r1 ++ map2 f l2 r2.
Proof. induction l1 as [|a l1 IH]; intros [|b r1] r2 H; try discriminate; simpl; auto. f_equal. apply IH. auto. Qed.

Lemma shift_val : shift low = 1 - low.
Proof. unfold shift. destruct (Z.ltb_spec low 1); lia. Qed.

Lemma shuffle_fill l q nz : fill l q -> length nz = M -> forallb (fun z => 0 <=? z) nz = true ->
  exists q', rep (mkLane (shuffle_row low high (lbuf l) nz) (lbeg l) (lend l)) q' /\ Permutation q q'.
Proof.
  intros HF Hn Hnz. assert (Hbuf := fill_buf _ _ HF). destruct HF as [Hr Hb He Hd].
  assert (Hc := rep_cap _ _ _ Hr). assert (Hlen := rep_buf _ _ _ Hr).
  set (f := fun x z => x + (if negb (x =? empty) then shift low + z * bignum low high else 0)).
  set (n1 := firstn (length q) nz). set (n2 := skipn (length q) nz).
  assert (Hsplit : nz = n1 ++ n2) by (symmetry; apply firstn_skipn).
  assert (Hn1 : length n1 = length q) by (unfold n1; rewrite firstn_length; lia).
  assert (Hn2 : length n2 = (M - length q)%nat) by (unfold n2; rewrite skipn_length; lia).
  assert (H1 : map2 f (lbuf l) nz = map2 f q n1 ++ repeat empty (M - length q)).
  { rewrite Hbuf, Hsplit, map2_app by auto. f_equal. clearbody n2. clear - Hn2. revert n2 Hn2.
    induction (M - length q)%nat as [|k IH]; intros [|z n2] H; try discriminate; simpl; auto. f_equal; [|apply IH; auto].
    unfold f. rewrite Z.eqb_refl. cbn [negb]. lia. }
  assert (Hnz1 : forall z, In z n1 -> 0 <= z).
  { intros z Hz. rewrite forallb_forall in Hnz. specialize (Hnz z). rewrite Hsplit in Hnz. assert (Hz' := in_or_app n1 n2 z (or_introl Hz)). specialize (Hnz Hz'). lia. }
  assert (Hgt : Forall (fun x => empty < x) (map2 f q n1)).
  { apply Forall_forall. intros x Hx. apply In_nth_error in Hx. destruct Hx as [i Hx]. rewrite map2_nth_error in Hx.
    destruct (nth_error q i) as [v|] eqn:Ev; [|discriminate]. destruct (nth_error n1 i) as [z|] eqn:Ez; [|discriminate].
    injection Hx as <-. apply nth_error_In in Ez. apply Hnz1 in Ez. rewrite Forall_forall in Hd. apply nth_error_In in Ev. apply Hd in Ev.
    unfold f, CBagModel.empty, in_dom in *. destruct (Z.eqb_spec v (low - 1)); [lia|]. cbn [negb]. rewrite shift_val.
    assert (0 <= z * bignum low high) by (apply Z.mul_nonneg_nonneg; auto; unfold bignum; lia). lia. }
  set (dec := fun x => x mod bignum low high - shift low).
  assert (Hdec : map dec (map2 f q n1) = q).
  { apply nth_error_ext. intros i. rewrite nth_error_map, map2_nth_error.
    destruct (nth_error q i) as [v|] eqn:Ev; [|reflexivity].
    destruct (nth_some n1 i) as [z Ez]. { rewrite Hn1. apply nth_error_Some; congruence. }
    rewrite Ez. cbn [option_map]. f_equal. apply nth_error_In in Ev. rewrite Forall_forall in Hd. apply Hd in Ev.
    unfold dec, f, CBagModel.empty, in_dom in *. destruct (Z.eqb_spec v (low - 1)); [lia|]. cbn [negb].
    rewrite Z.add_assoc, Z.mod_add by (unfold bignum; lia). rewrite shift_val. rewrite Z.mod_small by (unfold bignum; lia). lia. }
  set (s1 := isort (fun a b => b <=? a) (map2 f q n1)).
  assert (Hs : shuffle_row low high (lbuf l) nz = map dec s1 ++ map dec (repeat empty (M - length q))).
  { unfold shuffle_row. fold f. rewrite H1, sort_desc_split by auto. fold s1. rewrite map_app. reflexivity. }
  assert (HP : Permutation q (map dec s1)).
  { rewrite <- Hdec at 1. apply Permutation_map, isort_perm. }
  exists (map dec s1). split; auto. assert (HPl := Permutation_length HP).
  constructor; cbn [lbuf lbeg lend]. 
  all: try rewrite Hs.
  - rewrite app_length, map_length with (l := repeat _ _), repeat_length. lia.
  - lia.
  - intros E. rewrite E in HPl. apply (rep_empty _ _ _ Hr). destruct q; auto; discriminate.
  - intros E. rewrite <- HPl. apply (rep_pos _ _ _ Hr). intros ->. apply Permutation_nil in HP. congruence.
  - intros i Hi. transitivity (nth_error (map dec s1 ++ map dec (repeat empty (M - length q))) i); [|apply nth_error_app1; auto].
    rewrite Hb by (intros ->; simpl in *; lia). f_equal. rewrite Z.add_0_l, Z.mod_small by lia. lia.
Qed.

(* pushing one element *)
Lemma push_one_lane l q va w m v l' out :
  fill l q -> (sel m = true -> (length q < M)%nat /\ in_dom v) ->
  expand RuntimeError 1 va = Ok [v] -> get_where 1 w = Ok w -> masks 1 w = [m] ->
  cl_push D M true (add_rejected M) (move_end_forward M) (-1) [l] va w = ([l'], Ok out) ->
  fill l' (if sel m then q ++ [v] else q).
Proof.
  intros HF Hsel Hva Hw Hm H.
  unfold cl_push in H. cbn [length] in H. rewrite Hw in H. unfold move in H. cbn [length] in H. rewrite Hm in H.
  cbn [map2] in H. destruct (true && _); [discriminate|].
  unfold cl_apply, get_ukeys in H. cbn [length] in H. rewrite Hw in H. cbn [bind expand repeat] in H. rewrite Hm in H.
  cbn [map2] in H. match type of H with context [if true && negb ?b then _ else _] => destruct (true && negb b) eqn:Eb; [discriminate|] end.
  cbn [bind fst] in H. rewrite Hva in H. cbn [bind map2 map3 sequence] in H.
  remember (move_end_forward M l m) as l1 eqn:El1.
  destruct (lane_modify (lbuf l1) (ukey M true l1 (-1)) (fun old => meth_cell D MSet m old v)) as [b'|] eqn:El; [|discriminate].
  cbn in H. injection H as <- _.
  destruct m as [[|]|]; cbn [sel] in *.
  2:{ (* unselected *) rewrite mef_false in El1. subst l1.
      assert (E : b' = lbuf l). { unfold lane_modify in El. destruct (tidx (length (lbuf l)) (ukey M true l (-1))); [|discriminate].
        destruct (nth_error (lbuf l) n) as [x|] eqn:Ex; [|discriminate]. injection El as <-. cbn.
        apply nth_error_ext. intros j. rewrite nth_error_upd. destruct (Nat.eqb_spec n j) as [->|]; auto.
        rewrite Ex. destruct (Nat.ltb_spec j (length (lbuf l))); auto. apply nth_error_None in H. congruence. }
      subst b'. destruct l; exact HF. }
  all: destruct (Hsel eq_refl) as [Hlt Hv]; assert (HF' := HF); destruct HF' as [Hr Hb He Hd];
       destruct (mef_rep M HM l q Hr Hlt) as [x Hx].
  all: change (move_end_forward M l (Some true)) with (move_end_forward M l None) in El1; rewrite <- El1 in Hx.
  all: assert (Hbeg : lbeg l1 = 0).
  1,3: rewrite El1; unfold move_end_forward, sel; rewrite !andb_true_r, (is_empty_rep M HM l q Hr); cbn [lbeg];
       destruct (Nat.eqb_spec (length q) 0); auto; apply Hb; intros ->; simpl in *; lia.
  all: assert (Hbf : lbuf l1 = lbuf l) by (rewrite El1; reflexivity).
  all: destruct (ukey_rep M HM true l1 (q ++ [x]) (-1) Hx) as (Hu1 & Hu2 & Hu3); [unfold key_in_capacity; lia|].
  all: assert (Hpi : py_index (length (q ++ [x])) (-1) = Some (length q)) by
       (unfold py_index; rewrite app_length; simpl length;
        replace ((0 <=? -1) && (-1 <? Z.of_nat (length q + 1))) with false by lia;
        replace ((- Z.of_nat (length q + 1) <=? -1) && (-1 <? 0)) with true by lia; f_equal; lia).
  all: destruct (Hu3 _ Hpi) as [_ Huk]; rewrite Hbeg, Z.add_0_l, Z.mod_small in Huk by lia.
  all: assert (Hlen := rep_buf _ _ _ Hr).
  all: rewrite Huk, Hbf in El; unfold lane_modify in El; rewrite Hlen, tidx_in in El by lia; rewrite Nat2Z.id in El.
  all: destruct (nth_error (lbuf l) (length q)) as [y|] eqn:Ey; [|discriminate].
  all: cbn [meth_cell] in El; assert (Eb' : b' = upd (lbuf l) (length q) v) by congruence; clear El.
  all: subst b'; constructor; cbn [lbuf lbeg lend].
  all: try (intros _; exact Hbeg).
  all: try (apply Forall_app; split; auto; fail).
  all: try (intros j Hj; rewrite app_length in Hj; simpl in Hj; rewrite upd_other by lia; apply He; lia).
  all: assert (Hx' := Hx); destruct Hx' as [X1 X2 X3 X4 X5]; constructor; cbn [lbuf lbeg lend].
  all: try (rewrite upd_length; auto; fail).
  all: try (rewrite app_length in *; simpl in *; lia).
  all: try (intros E; destruct q; discriminate).
  all: try (intros _; destruct X4 as [X4 X4']; [intros E; destruct q; discriminate|]; split; auto; rewrite X4', !app_length; auto).
  all: intros i Hi; rewrite app_length in Hi; simpl in Hi; rewrite Hbeg, Z.add_0_l, Z.mod_small, Nat2Z.id by lia;
       rewrite app_single_nth, nth_error_upd, Hlen.
  all: destruct (Nat.eqb_spec (length q) i) as [<-|Hni].
  1,3: rewrite Nat.ltb_irrefl, Nat.eqb_refl; replace (Nat.ltb (length q) M) with true by (symmetry; apply Nat.ltb_lt; lia); auto.
  all: replace (Nat.ltb i (length q)) with true by (symmetry; apply Nat.ltb_lt; lia);
       rewrite <- (rep_nth _ _ _ Hr) by lia; rewrite Hb by (intros ->; simpl in *; lia);
       rewrite Z.add_0_l, Z.mod_small, Nat2Z.id by lia; auto.
Qed.

(* specification side *)
Lemma push_pt b q v m : Permutation b q ->
  match q_append M q v m with
  | Some q' => exists b', push_one M b v m = Some b' /\ Permutation b' q'
  | None => push_one M b v m = None
  end.
Proof.
  intros HP. unfold q_append, push_one. rewrite (Permutation_length HP). destruct m; eauto.
  destruct (Nat.ltb (length q) M); auto. eexists; split; auto.
  transitivity (v :: q); auto. apply Permutation_cons_append.
Qed.
Lemma push_rel : forall bs qs vs ms, Forall2 (@Permutation Z) bs qs ->
  match all_some (map3 (q_append M) qs vs ms) with
  | Some qs' => exists bs', all_some (map3 (push_one M) bs vs ms) = Some bs' /\ Forall2 (@Permutation Z) bs' qs'
  | None => all_some (map3 (push_one M) bs vs ms) = None
  end.
Proof.
  intros bs qs vs ms H. revert vs ms. induction H as [|b q bs qs HP H IH]; intros vs ms.
  { simpl. eauto. }
  destruct vs as [|v vs], ms as [|m ms]; cbn [map3]; try (simpl; eauto; fail).
  specialize (IH vs ms). assert (Hpt := push_pt b q v m HP). rewrite !all_some_cons.
  destruct (q_append M q v m) as [q'|].
  - destruct Hpt as (b' & -> & HP'). destruct (all_some (map3 (q_append M) qs vs ms)) as [qs'|]; cbn [option_map].
    + destruct IH as (bs' & -> & HF). cbn [option_map]. eauto.
    + rewrite IH; auto.
  - rewrite Hpt. auto.
Qed.

Definition last_or (q : list Z) : Z := match q_get q (-1) with Some v => v | None => fallback end.

Lemma last_or_split q : q <> [] -> q = removelast q ++ [last_or q].
Proof.
  intros Hq. rewrite (app_removelast_last 0 Hq) at 1. f_equal. f_equal. unfold last_or, q_get, py_index.
  assert (0 < length q)%nat by (destruct q; simpl; [congruence|lia]).
  replace ((0 <=? -1) && (-1 <? Z.of_nat (length q))) with false by lia.
  replace ((- Z.of_nat (length q) <=? -1) && (-1 <? 0)) with true by lia.
  rewrite (app_removelast_last 0 Hq) at 2.
  assert (Hl := removelast_length q).
  rewrite nth_error_app2 by lia. replace (Z.to_nat (Z.of_nat (length q) + -1) - length (removelast q))%nat with 0%nat by lia.
  reflexivity.
Qed.

Lemma last_or_perm q : q <> [] -> Permutation q (last_or q :: removelast q).
Proof. intros Hq. rewrite (last_or_split q Hq) at 1. symmetry. apply Permutation_cons_append. Qed.

Lemma pop_rel : forall bs qs ms, Forall2 (@Permutation Z) bs qs ->
  match all_some (map2 q_pop qs ms) with
  | Some qs' => exists bs', all_some (map3 pop_one bs (map last_or qs) ms) = Some bs' /\ Forall2 (@Permutation Z) bs' qs'
  | None => existsb (fun b => b) (map2 wants_from_empty bs ms) = true
  end.
Proof.
  intros bs qs ms H. revert ms. induction H as [|b q bs qs HP H IH]; intros ms.
  { simpl. eauto. }
  destruct ms as [|m ms]; cbn [map3 map2 map]; try (simpl; eauto; fail).
  specialize (IH ms). rewrite !all_some_cons. cbn [existsb]. unfold wants_from_empty at 1. rewrite (Permutation_length HP).
  assert (Hpt : match q_pop q m with Some q' => exists b', pop_one b (last_or q) m = Some b' /\ Permutation b' q' | None => m = true /\ q = [] end).
  { unfold q_pop, pop_one. destruct m; eauto. destruct q as [|x q0] eqn:Eq; auto. rewrite <- Eq in *.
    assert (Hq : q <> []) by congruence. assert (Hs := last_or_perm q Hq).
    destruct (remove_one_perm (last_or q) b) as (b' & E & HP').
    { apply (Permutation_in _ (Permutation_sym HP)). apply (Permutation_in _ (Permutation_sym Hs)). left; auto. }
    exists b'. split; auto. apply Permutation_cons_inv with (a := last_or q).
    rewrite <- HP', HP. exact Hs. }
  destruct (q_pop q m) as [q'|].
  - destruct Hpt as (b' & -> & HP'). destruct (all_some (map2 q_pop qs ms)) as [qs'|]; cbn [option_map].
    + destruct IH as (bs' & -> & HF). cbn [option_map]. eauto.
    + rewrite IH; auto. apply orb_true_r.
  - destruct Hpt as [-> ->]. reflexivity.
Qed.

Variable n : nat.

Record binv (s : cbag) (b : bags) : Prop := {
  bi_n : length (cb_lanes s) = n;
  bi_ph : fst b = cb_sampling s;
  bi_q : exists qs, Forall2 (@Permutation Z) (snd b) qs /\
         (if cb_sampling s then Forall2 rep (cb_lanes s) qs else Forall2 fill (cb_lanes s) qs) }.

Lemma fill_reps ls qs : Forall2 fill ls qs -> Forall2 rep ls qs.
Proof. induction 1; constructor; auto. apply f_rep; auto. Qed.

Lemma pop_case ls qs bs w : length ls = n -> Forall2 rep ls qs -> Forall2 (@Permutation Z) bs qs -> mask_shaped n w = true ->
  exists b', bag_check M (true, bs) (CbPop [] w) (snd (cl_step D M true fallback ls (ClPop w))) = Some b' /\
    binv (mkBag (fst (cl_step D M true fallback ls (ClPop w))) true) b'.
Proof.
  intros Hn HR HP Hw.
  assert (Hc : op_covered D M (length ls) (ClPop w) = true) by (rewrite Hn; exact Hw).
  destruct (step_refines D M HM true fallback laws ls qs (ClPop w) HR Hc (or_introl eq_refl)) as [E1 E2].
  assert (E3 := step_len D M HM true fallback laws ls qs (ClPop w) HR Hc (or_introl eq_refl)).
  cbn [q_step] in E1, E2. rewrite <- (Forall2_len _ _ _ HR), Hn in E1, E2. unfold commit in E1, E2.
  assert (Hpr := pop_rel bs qs (mask_of n w) HP).
  assert (Hbn : length bs = n) by (rewrite (Forall2_len _ _ _ HP), <- (Forall2_len _ _ _ HR); auto).
  rewrite E1. destruct (all_some (map2 q_pop qs (mask_of n w))) as [qs'|]; cbn [fst snd] in *.
  - destruct Hpr as (bs' & Eb & HF). exists (true, bs').
    cbn [bag_check snd]. rewrite Hbn. change (map (fun q => match q_get q (-1) with Some v => v | None => fallback end) qs) with (map last_or qs).
    rewrite map_length, <- (Forall2_len _ _ _ HR), Hn, Nat.eqb_refl, Eb. split; auto.
    constructor; cbn [cb_lanes cb_sampling fst snd]; auto. { congruence. } eauto.
  - exists (true, bs). cbn [bag_check snd]. rewrite Hbn, Hpr. split; auto.
    constructor; cbn [cb_lanes cb_sampling fst snd]; auto. { congruence. } eauto.
Qed.

Lemma bag_step_ok s b o : binv s b -> bag_covered M n low high o = true ->
  exists b', bag_check M b o (snd (cb_step D M low high true fallback 1 s o)) = Some b' /\
    binv (fst (cb_step D M low high true fallback 1 s o)) b'.
Proof.
  intros [Hn Hph (qs & HP & Hqs)] Hc. destruct b as [ph bs]. cbn [fst snd] in *. subst ph.
  assert (Hbn : length bs = n).
  { rewrite (Forall2_len _ _ _ HP). destruct (cb_sampling s); rewrite <- (Forall2_len _ _ _ Hqs); auto. }
  destruct o as [v w|noise w| |]; cbn [bag_covered] in Hc; cbn [cb_step].
  - destruct (cb_sampling s) eqn:Es.
    { cbn. exists (true, bs). split; auto. constructor; cbn; auto. rewrite Es. eauto. }
    rewrite !andb_true_iff in Hc. destruct Hc as ((Hv & Hw) & Hdom).
    assert (HR := fill_reps _ _ Hqs).
    assert (Hcv : op_covered D M (length (cb_lanes s)) (ClAppend v w) = true) by (rewrite Hn; cbn; rewrite Hv, Hw; auto).
    destruct (step_refines D M HM true fallback laws (cb_lanes s) qs (ClAppend v w) HR Hcv (or_introl eq_refl)) as [E1 E2].
    assert (E3 := step_len D M HM true fallback laws (cb_lanes s) qs (ClAppend v w) HR Hcv (or_introl eq_refl)).
    destruct (cl_step D M true fallback (cb_lanes s) (ClAppend v w)) as [ls' r] eqn:Estep. cbn [fst snd] in *.
    cbn [q_step] in E1, E2. rewrite <- (Forall2_len _ _ _ HR), Hn in E1, E2. unfold commit in E1, E2.
    assert (Hpr := push_rel bs qs (arg_of n v) (mask_of n w) HP).
    cbn [bag_check fst snd]. rewrite Hbn.
    destruct (all_some (map3 (q_append M) qs (arg_of n v) (mask_of n w))) as [qs'|] eqn:Ea; cbn [fst snd] in *; subst r.
    + destruct Hpr as (bs' & -> & HF). exists (false, bs'). split; auto.
      constructor; cbn [cb_lanes cb_sampling fst snd]; auto. { congruence. }
      exists qs'. split; auto.
      apply Forall2_nth. { apply (Forall2_len _ _ _ E2). }
      intros i l' q' Hl' Hq'.
      assert (Hi : (i < n)%nat) by (rewrite <- Hn, <- E3; apply nth_error_Some; congruence).
      destruct (nth_some (cb_lanes s) i) as [l Hl]; [lia|].
      destruct (step_lane D M true fallback _ _ _ _ _ _ Estep Hl) as (l2 & Hl2 & Hone). rewrite Hl' in Hl2. injection Hl2 as <-.
      cbn [lane_op cl_step] in Hone.
      destruct (Forall2_nth_l _ _ _ _ _ Hqs Hl) as (q & Hq & Hfill).
      destruct (expand_lane RuntimeError n v (arg_of n v) i Hi (expand_ok _ _ _ Hv)) as (x & Hx & Hex).
      destruct (where_lane n w w i Hi (get_where_ok _ _ Hw)) as (_ & Hwl & m & Hm & Hml).
      assert (Hqa := all_some_nth _ _ i Ea). rewrite map3_nth_error, Hq, Hx, <- masks_sel, nth_error_map, Hm, Hq' in Hqa.
      cbn [option_map] in Hqa. injection Hqa as Hqa. unfold q_append in Hqa.
      assert (Hxd : in_dom x). { assert (Hd := forallb_nth _ _ _ _ Hdom Hx). cbn in Hd. unfold in_dom. lia. }
      assert (HR2 := push_one_lane l q (lane_arg i v) (lane_mask i w) m x l' (lane_out i COUnit) Hfill).
      replace q' with (if sel m then q ++ [x] else q).
      * eapply HR2; eauto. intros Hs. rewrite Hs in Hqa. split; auto. destruct (Nat.ltb_spec (length q) M); [auto|discriminate].
      * destruct (sel m); [destruct (Nat.ltb (length q) M)|]; congruence.
    + rewrite Hpr. exists (false, bs). split; auto. constructor; cbn [cb_lanes cb_sampling fst snd]; auto. { congruence. }
      exists qs. split; auto.
      (* a rejected push leaves the lanes as they were *)
      assert (Hls : ls' = cb_lanes s).
      { cbn [cl_step] in Estep. unfold cl_push in Estep. rewrite Hn, (get_where_ok _ _ Hw) in Estep. unfold move in Estep.
        destruct (true && existsb (fun b => b) (map2 (add_rejected M) (cb_lanes s) (masks (length (cb_lanes s)) w))) eqn:Ex.
        - injection Estep as <-. reflexivity.
        - exfalso. 
          destruct (push_batch D M HM true (move_end_forward M) (q_append M) (-1) (fun q v => q ++ [v]) (fun q v b => eq_refl)
             (fun l q => mef_rep M HM l q) (fun l => eq_refl) (mef_false M)
             ltac:(intros q0 x0 v0; unfold q_modify, py_index; rewrite app_length; simpl length;
               replace ((0 <=? -1) && (-1 <? Z.of_nat (length q0 + 1))) with false by lia;
               replace ((- Z.of_nat (length q0 + 1) <=? -1) && (-1 <? 0)) with true by lia;
               replace (Z.to_nat (Z.of_nat (length q0 + 1) + -1)) with (length q0) by lia;
               rewrite nth_error_app2, Nat.sub_diag by lia; simpl; rewrite upd_app_last; reflexivity)
             (cb_lanes s) qs (arg_of n v) (masks n w) HR) as [H1 _].
          { rewrite Hn, arg_of_length; auto. } { rewrite Hn, masks_length; auto. }
          rewrite masks_sel, Ea in H1. cbn [some_b negb] in H1. rewrite Hn, H1 in Ex. discriminate. }
      rewrite Hls. auto.
  - apply andb_true_iff in Hc. destruct Hc as [Hw Hnz].
    destruct (cb_sampling s) eqn:Es.
    + destruct (pop_case (cb_lanes s) qs bs w Hn Hqs HP Hw) as (b' & E & HI).
      exists b'. destruct (cl_step D M true fallback (cb_lanes s) (ClPop w)) as [ls r]. cbn [fst snd] in *.
      split; auto.
    + cbn [Nat.eqb].
      unfold noise_ok in Hnz. apply andb_true_iff in Hnz. destruct Hnz as [Hnl Hnz]. apply Nat.eqb_eq in Hnl.
      assert (Hsh : exists qs', Forall2 rep (shuffle low high (cb_lanes s) noise) qs' /\ Forall2 (@Permutation Z) qs qs').
      { rewrite <- Hn in Hnl. clear - Hqs Hnl Hnz HM Hlow. revert noise Hnl Hnz. induction Hqs as [|l q ls qs Hf HF IH]; intros noise Hnl Hnz.
        - exists []. destruct noise; split; constructor.
        - destruct noise as [|nz noise]; [discriminate|]. cbn in Hnz. rewrite !andb_true_iff in Hnz. destruct Hnz as [[Ha Hb] Hc].
          apply Nat.eqb_eq in Ha. destruct (IH noise) as (qs' & H1 & H2); auto.
          destruct (shuffle_fill l q nz Hf Ha Hb) as (q' & H3 & H4). exists (q' :: qs'). split; constructor; auto. }
      destruct Hsh as (qs' & HR' & HP').
      assert (HP2 : Forall2 (@Permutation Z) bs qs').
      { clear - HP HP'. revert qs' HP'. induction HP; intros qs' HP'; inversion HP'; subst; constructor; eauto. etransitivity; eauto. }
      assert (Hn' : length (shuffle low high (cb_lanes s) noise) = n).
      { unfold shuffle. rewrite map2_length. lia. }
      destruct (pop_case (shuffle low high (cb_lanes s) noise) qs' bs w Hn' HR' HP2 Hw) as (b' & E & HI).
      exists b'. destruct (cl_step D M true fallback (shuffle low high (cb_lanes s) noise) (ClPop w)) as [ls r]. cbn [fst snd] in *.
      split; auto.
  - cbn [cl_step fst snd bag_check].
    assert (HR : Forall2 rep (cb_lanes s) qs) by (destruct (cb_sampling s); auto; apply fill_reps; auto).
    exists (cb_sampling s, bs). split.
    + assert (E : map (lane_length M) (cb_lanes s) = map (fun b => Z.of_nat (length b)) bs).
      { clear - HR HP HM. revert bs HP. induction HR as [|l q ls qs Hr HR IH]; intros bs HP; inversion HP; subst; auto. cbn. f_equal; auto.
        rewrite (lane_length_rep M HM l q Hr). f_equal. symmetry. apply Permutation_length; auto. }
      rewrite E. destruct (list_eq_dec Z.eq_dec _ _); congruence.
    + constructor; cbn; eauto.
  - exists (false, map (fun _ => []) bs). cbn [fst snd bag_check]. split; auto.
    constructor; cbn [cb_lanes cb_sampling fst snd]; auto. { rewrite map_length; auto. }
    exists (map (fun _ => []) qs). split.
    + clear - HP. induction HP; cbn; constructor; auto.
    + assert (HR : Forall2 rep (cb_lanes s) qs) by (destruct (cb_sampling s); auto; apply fill_reps; auto).
      clear - HR HM. induction HR as [|l q ls qs Hr HR IH]; cbn; constructor; auto.
      assert (Hb := rep_buf _ _ _ Hr).
      constructor; cbn; auto; try congruence.
      * constructor; cbn; auto; try congruence; try lia. rewrite map_length; auto.
      * intros j Hj. rewrite nth_error_map. destruct (nth_some (lbuf l) j) as [x ->]; [lia|]. reflexivity.
Qed.

Lemma bag_run_ok : forall os s b, binv s b -> forallb (bag_covered M n low high) os = true ->
  exists b', bag_history M b os (snd (run (cb_step D M low high true fallback 1) s os)) = Some b' /\
    binv (fst (run (cb_step D M low high true fallback 1) s os)) b'.
Proof.
  induction os as [|o os IH]; intros s b HI Hc; cbn [run].
  { cbn. eauto. }
  cbn [forallb] in Hc. apply andb_true_iff in Hc. destruct Hc as [Hc1 Hc2].
  destruct (bag_step_ok s b o HI Hc1) as (b1 & E1 & HI1).
  destruct (cb_step D M low high true fallback 1 s o) as [s1 r1]. cbn [fst snd] in *.
  destruct (IH s1 b1 HI1 Hc2) as (b2 & E2 & HI2).
  destruct (run (cb_step D M low high true fallback 1) s1 os) as [s2 rs]. cbn [fst snd] in *.
  cbn [bag_history]. rewrite E1. eauto.
Qed.

Lemma bag_new_inv : binv (cb_new M low n) (false, repeat [] n).
Proof.
  constructor; cbn; auto.
  - unfold cl_new. rewrite map_length, repeat_length. auto.
  - exists (repeat [] n). split.
    + clear. induction n; simpl; constructor; auto.
    + clear - HM. induction n; simpl; constructor; auto.
      constructor; cbn; auto; try congruence.
      * constructor; cbn; auto; try congruence; try lia. apply repeat_length.
      * intros j Hj. apply nth_error_repeat; lia.
Qed.

(* the ledger, on the specification side *)
Lemma check_len s o r s' : length (snd s) = n -> bag_covered M n low high o = true -> bag_check M s o r = Some s' -> length (snd s') = n.
Proof.
  intros Hn Hc Ec. destruct s as [ph bs]. destruct o as [v w|noise w| |]; cbn [bag_check bag_covered fst snd] in *; rewrite ?Hn in Ec.
  - rewrite !andb_true_iff in Hc. destruct Hc as ((Hv & Hw) & _).
    destruct ph. { destruct r as [|[]]; try discriminate; injection Ec as <-; auto. }
    destruct (all_some (map3 (push_one M) bs (arg_of n v) (mask_of n w))) as [bs'|] eqn:Ea.
    + destruct r as [[]|]; try discriminate. injection Ec as <-. cbn. rewrite (all_some_len _ _ Ea), map3_length, Hn, arg_of_length, mask_of_length by auto. lia.
    + destruct r as [|[]]; try discriminate; injection Ec as <-; auto.
  - apply andb_true_iff in Hc. destruct Hc as [Hw _]. destruct r as [[vs| |]|[]]; try discriminate.
    + destruct (Nat.eqb_spec (length vs) n); [|discriminate].
      destruct (all_some (map3 pop_one bs vs (mask_of n w))) as [bs'|] eqn:Ea; [|discriminate]. injection Ec as <-.
      cbn. rewrite (all_some_len _ _ Ea), map3_length, Hn, mask_of_length by auto. lia.
    + destruct (existsb _ _); [|discriminate]. injection Ec as <-; auto.
  - destruct r as [[]|]; try discriminate. destruct (list_eq_dec _ _ _); [|discriminate]. injection Ec as <-; auto.
  - destruct r as [[]|]; try discriminate. injection Ec as <-; cbn. rewrite map_length; auto.
Qed.

Lemma ledger_perm : forall os rs s i lg b, (i < n)%nat -> length (snd s) = n ->
  forallb (bag_covered M n low high) os = true ->
  (exists bag, nth_error (snd s) i = Some bag /\ Permutation (fst lg) (snd lg ++ bag)) ->
  bag_history M s os rs = Some b ->
  exists bag, nth_error (snd b) i = Some bag /\
    Permutation (fst (ledger n i lg os rs)) (snd (ledger n i lg os rs) ++ bag).
Proof.
  induction os as [|o os IH]; intros [|r rs] s i lg b Hi Hn Hc (bag & Hb & HP) H; cbn in H; try discriminate.
  { injection H as <-. cbn. eauto. }
  destruct (bag_check M s o r) as [s'|] eqn:Ec; [|discriminate].
  cbn [forallb] in Hc. apply andb_true_iff in Hc. destruct Hc as [Hc1 Hc2].
  assert (Hn' := check_len _ _ _ _ Hn Hc1 Ec).
  cbn [ledger]. apply (IH rs s' i); auto. clear IH H.
  destruct s as [ph bs]. destruct o as [v w|noise w| |]; cbn [bag_check bag_covered fst snd ledger_step] in *; rewrite ?Hn in Ec.
  - rewrite !andb_true_iff in Hc1. destruct Hc1 as ((Hv & Hw) & _).
    destruct ph. { destruct r as [|[]]; try discriminate; injection Ec as <-; eauto. }
    destruct (all_some (map3 (push_one M) bs (arg_of n v) (mask_of n w))) as [bs'|] eqn:Ea.
    + destruct r as [[]|]; try discriminate. injection Ec as <-. cbn [snd].
      assert (Hq := all_some_nth _ _ i Ea). rewrite map3_nth_error, Hb in Hq.
      destruct (nth_some (arg_of n v) i) as [x Hx]. { rewrite arg_of_length; auto. }
      destruct (nth_some (mask_of n w) i) as [m Hm]. { rewrite mask_of_length; auto. }
      rewrite Hx, Hm in *. destruct (nth_error bs' i) as [bag'|]; [|discriminate]. cbn in Hq. injection Hq as Hq.
      exists bag'. split; auto. unfold push_one in Hq. destruct m.
      * destruct (Nat.ltb (length bag) M); [|discriminate]. injection Hq as <-. cbn.
        transitivity (x :: snd lg ++ bag); auto. apply Permutation_middle.
      * injection Hq as <-. auto.
    + destruct r as [|[]]; try discriminate; injection Ec as <-; eauto.
  - apply andb_true_iff in Hc1. destruct Hc1 as [Hw _]. destruct r as [[vs| |]|[]]; try discriminate.
    + destruct (Nat.eqb_spec (length vs) n); [|discriminate].
      destruct (all_some (map3 pop_one bs vs (mask_of n w))) as [bs'|] eqn:Ea; [|discriminate]. injection Ec as <-. cbn [snd].
      assert (Hq := all_some_nth _ _ i Ea). rewrite map3_nth_error, Hb in Hq.
      destruct (nth_some vs i) as [x Hx]; [lia|].
      destruct (nth_some (mask_of n w) i) as [m Hm]. { rewrite mask_of_length; auto. }
      rewrite Hx, Hm in *. destruct (nth_error bs' i) as [bag'|]; [|discriminate]. cbn in Hq. injection Hq as Hq.
      exists bag'. split; auto. unfold pop_one in Hq. destruct m.
      * apply remove_one_Some in Hq. cbn. rewrite HP, Hq. symmetry. apply Permutation_middle.
      * injection Hq as <-. auto.
    + destruct (existsb _ _); [|discriminate]. injection Ec as <-; eauto.
  - destruct r as [[]|]; try discriminate. destruct (list_eq_dec _ _ _); [|discriminate]. injection Ec as <-; eauto.
  - destruct r as [[]|]; try discriminate. injection Ec as <-; cbn. exists []. rewrite nth_error_map, Hb. auto.
Qed.
End Bag.

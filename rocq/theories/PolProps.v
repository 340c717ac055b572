(* C118-C120: policies with batches of networks; reset_tensors *)
From Verif Require Import Prelude ScoreProofs ObjProofs PolModel PolSpec PolProofs PolProofs2 PolProofs3 PolProofs4.

Lemma act_inv {row} (m : module row) r n i xs s o s' x : net_step m r n i (Act xs) s o s' -> nth_error xs i = Some x ->
  s' = Net (par s) (match skel m with None => hid s | Some t => Some (tmap (fun k => nth k (compute m (par s) x (hid s)) x) t) end) /\ exists v, o = Some v /\ nth_error (compute m (par s) x (hid s)) (out_ix m) = Some v.
Proof. intros H E. inversion H; subst. assert (x0 = x) by congruence. subst. eauto. Qed.
Lemma reset_inv {row} (m : module row) r n i sl c s o s' : net_step m r n i (Reset (Some sl) c) s o s' -> selected n sl i -> s' = Net (par s) (r (hid s)) /\ o = None.
Proof. intros H E. inversion H; subst; auto. contradiction. Qed.
Section C118.
  Context {row : Type}.
  Variable zero : row -> row.
  Variable poke : list Z -> row -> result row.
  Variable poke_single : sel -> row -> result row.
  Notation run := (run _ zero poke poke_single).
  Hypothesis zero_zero : forall r, zero (zero r) = zero r.

  Lemma after_set_all m n l0 h (b : bool) restart : length l0 = n -> step m zero poke poke_single (SetAll l0 b) h (Policy None None) = Ok (h ++ [Batch l0], Policy (Some (length h)) None, None) /\
    forall d : row, inv zero m n restart (h ++ [Batch l0]) (Policy (Some (length h)) None) (fun i => Net (nth i l0 d) None).
  Proof.
    intros L. split; [destruct b; reflexivity|]. intros d. exists (length h), l0. split; [reflexivity|]. rewrite nth_error_app2, Nat.sub_diag by lia. split; [reflexivity|]. split; [exact L|]. split.
    - intros i Hi. cbn. apply nth_error_nth'. lia.
    - cbn. auto.
  Qed.
  (* n networks: every history of calls succeeds, and the network number i returns what it would return on its own; a reset of chosen
     networks sets their hidden states to 0 *)
Theorem C118_independent m n w l0 b es h : 0 < n -> well_formed m w -> length l0 = n -> Forall (event_ok n) es ->
    exists h' p' outs, PolSpec.run m zero poke poke_single (SetAll l0 b :: es) h (Policy None None) = Ok (h', p', outs) /\ Forall (fun ys => length ys = n) outs /\
      forall i q, nth_error l0 i = Some q -> exists ys s', map (fun y => nth_error y i) outs = map Some ys /\ net_run m (option_map (tmap zero)) n i es (Net q None) ys s'.
  Proof.
    intros Hn W L F. destruct (nth_some l0 0) as (d & _); [lia|].
    destruct (after_set_all m n l0 h b (option_map (tmap zero)) L) as (E & I). specialize (I d).
    edestruct (run_ok zero poke poke_single m n w Hn zero_zero W (option_map (tmap zero)) eq_refl) as (h' & p' & outs & Er & Lo & R); [| |exact F|exact I|].
    - intros [t|]; cbn; auto. f_equal. rewrite tmap_tmap. apply tmap_ext. auto.
    - reflexivity.
    - exists h', p', outs. cbn [PolSpec.run]. rewrite E. cbn [bind]. rewrite Er. split; [reflexivity|]. split; [exact Lo|].
      intros i q Hq. assert (Hi : i < n) by (apply nth_lt in Hq; lia). specialize (R i Hi). cbn in R. rewrite (nth_error_nth l0 i d Hq) in R. exact R.
  Qed.
  (* if the network starts with a hidden state of zeros: such a reset makes them as new *)
Theorem C118_fresh_partial m n w l0 b es h : 0 < n -> well_formed m w -> (forall q x t, returns m t -> compute m q x (Some (tmap zero t)) = compute m q x None) ->
    length l0 = n -> Forall (event_ok n) es ->
    exists h' p' outs, PolSpec.run m zero poke poke_single (SetAll l0 b :: es) h (Policy None None) = Ok (h', p', outs) /\ Forall (fun ys => length ys = n) outs /\
      forall i q, nth_error l0 i = Some q -> exists ys s', map (fun y => nth_error y i) outs = map Some ys /\ net_run m (fun _ => None) n i es (Net q None) ys s'.
  Proof.
    intros Hn W Z L F. destruct (nth_some l0 0) as (d & _); [lia|].
    destruct (after_set_all m n l0 h b (fun _ => None) L) as (E & I). specialize (I d).
    edestruct (run_ok zero poke poke_single m n w Hn zero_zero W (fun _ => None) eq_refl) as (h' & p' & outs & Er & Lo & R); [| |exact F|exact I|].
    - reflexivity.
    - exact Z.
    - exists h', p', outs. cbn [PolSpec.run]. rewrite E. cbn [bind]. rewrite Er. split; [reflexivity|]. split; [exact Lo|].
      intros i q Hq. assert (Hi : i < n) by (apply nth_lt in Hq; lia). specialize (R i Hi). cbn in R. rewrite (nth_error_nth l0 i d Hq) in R. exact R.
  Qed.
  (* otherwise not: wherever a network tells a hidden state of zeros from no hidden state, the first action after reset([i]) is another one than
     the first action of a new network *)
Theorem C118_fresh_refuted m n w l0 xs xs' i q x x' t h : 0 < n -> well_formed m w -> length l0 = n -> length xs = n -> length xs' = n ->
    nth_error l0 i = Some q -> nth_error xs i = Some x -> nth_error xs' i = Some x' ->
    skel m = Some t ->
    nth_error (compute m q x' (Some (tmap zero (tmap (fun k => nth k (compute m q x None) x) t)))) (out_ix m) <> nth_error (compute m q x' None) (out_ix m) ->
    exists h' p' y1 y2, PolSpec.run m zero poke poke_single [SetAll l0 true; Act xs; Reset (Some (Ints [Z.of_nat i])) true; Act xs'] h (Policy None None) = Ok (h', p', [y1; y2]) /\
      nth_error y2 i <> nth_error (compute m q x' None) (out_ix m).
  Proof.
    intros Hn W L Lx Lx' Eq Ex Ex' Et D. assert (Hi : i < n) by (apply nth_lt in Eq; lia).
    destruct (C118_independent m n w l0 true [Act xs; Reset (Some (Ints [Z.of_nat i])) true; Act xs'] h Hn W L) as (h' & p' & outs & Er & Lo & R).
    { repeat constructor; auto; lia. }
    destruct (R i q Eq) as (ys & s' & Ey & N). exists h', p'.
    assert (Sel : selected n (Ints [Z.of_nat i]) i) by (exists 0; econstructor; [reflexivity|auto|auto]).
    inversion N as [|? ? ? o1 s1 ? ? S1 N1]; subst. destruct (act_inv _ _ _ _ _ _ _ _ x S1 Ex) as (-> & v1 & -> & O1).
    inversion N1 as [|? ? ? o2 s2 ? ? S2 N2]; subst. destruct (reset_inv _ _ _ _ _ _ _ _ _ S2 Sel) as (-> & ->).
    inversion N2 as [|? ? ? o3 s3 ? ? S3 N3]; subst. destruct (act_inv _ _ _ _ _ _ _ _ x' S3 Ex') as (-> & v3 & -> & O3). inversion N3; subst. cbn [par hid] in *. rewrite Et in O3. cbn [option_map] in O3.
    destruct outs as [|y1 [|y2 [|]]]; try discriminate. exists y1, y2. split; [exact Er|]. cbn in Ey. injection Ey as E1 E2. rewrite E2, <- O3. exact D.
  Qed.
End C118.

(* RNN and LSTM of evotorch.neuroevolution.net.layers do start with zeros *)
Section C118_layers.
  Context {K : Type}.
  Variable k0 : K.
  Variables add mul : K -> K -> K.
  Variables act tanh sigm : K -> K.
  Variables input_size hidden_size : nat.
  Lemma zero_seq (f : nat -> K) : zero_vec k0 (map f (seq 0 hidden_size)) = repeat k0 hidden_size.
  Proof. unfold zero_vec. rewrite map_map. generalize 0. induction hidden_size as [|k IH]; intros a; cbn; auto. f_equal. apply IH. Qed.
  Lemma zero_vec_twice (r : list K) : zero_vec k0 (zero_vec k0 r) = zero_vec k0 r.
  Proof. unfold zero_vec. rewrite map_map. reflexivity. Qed.
Theorem C118_recurrent poke poke_single n l0 b es h m : m = rnn k0 add mul act input_size hidden_size \/ m = lstm k0 add mul tanh sigm input_size hidden_size ->
    0 < n -> length l0 = n -> Forall (event_ok n) es ->
    exists h' p' outs, run m (zero_vec k0) poke poke_single (SetAll l0 b :: es) h (Policy None None) = Ok (h', p', outs) /\ Forall (fun ys => length ys = n) outs /\
      forall i q, nth_error l0 i = Some q -> exists ys s', map (fun y => nth_error y i) outs = map Some ys /\ net_run m (fun _ => None) n i es (Net q None) ys s'.
  Proof.
    intros M Hn L F. apply (C118_fresh_partial (zero_vec k0) poke poke_single zero_vec_twice m n (length (leaves (match skel m with Some t => t | None => Text end)))); auto; destruct M as [-> | ->].
    - repeat split; cbn; auto; injection H as <-; cbn; auto.
    - repeat split; cbn; auto; [|injection H as <-; cbn; auto..]. intros q x st. destruct (match st with Some (Iter [Tensor h0; Tensor c]) => (h0, c) | _ => _ end). reflexivity.
    - intros q x t (q' & x' & st & E). cbn in E. injection E as ->. cbn. unfold rnn_cell at 2. rewrite zero_seq. reflexivity.
    - intros q x t (q' & x' & st & E). cbn [lstm skel compute option_map tmap map] in *. injection E as ->.
      destruct (match st with Some (Iter [Tensor h0; Tensor c]) => (h0, c) | _ => _ end) as [h1 c1]. destruct (lstm_cell k0 add mul tanh sigm input_size hidden_size q' x' h1 c1) as [h2 c2] eqn:E2. cbn [nth tmap map].
      unfold lstm_cell in E2. injection E2 as <- <-. rewrite !zero_seq. reflexivity.
  Qed.
End C118_layers.

(* a policy whose parameters are a vector is one such network *)
Theorem C118_single {row} zero poke poke_single (m : module row) w q b es h : well_formed m w ->
  exists h' p' ys s', run1 m zero poke poke_single (Set1 q b :: es) h (Policy None None) = Ok (h', p', ys) /\ net_run m (fun _ => None) 1 0 (map as_batch es) (Net q None) ys s'.
Proof.
  intros W. destruct (run1_ok zero poke poke_single m w W (fun _ => None) es (h ++ [Single q]) (Policy (Some (length h)) None) (Net q None)) as (h' & p' & ys & s' & E & R).
  { exists (length h). cbn. rewrite nth_error_app2, Nat.sub_diag by lia. auto. }
  exists h', p', ys, s'. split; auto. cbn [run1]. destruct b; cbn [step1 new set_parameters reset params state bind]; rewrite E; reflexivity.
Qed.
(* and what a network does is determined by what it is given *)
Theorem C118_determined {row} (m : module row) restart n i es s ys s' : net_run m restart n i es s ys s' -> forall ys2 s2, net_run m restart n i es s ys2 s2 -> ys2 = ys /\ s2 = s'.
Proof.
  assert (Sel : forall sl j j', selects n sl j i -> selects n sl j' i -> (forall k, j < k -> ~ selects n sl k i) -> (forall k, j' < k -> ~ selects n sl k i) -> j = j').
  { intros sl j j' A B C D. destruct (Nat.lt_trichotomy j j') as [X|[X|X]]; auto; exfalso; [apply (C j')|apply (D j)]; auto. }
  assert (St : forall e s o s1 o' s2, net_step m restart n i e s o s1 -> net_step m restart n i e s o' s2 -> o' = o /\ s2 = s1).
  { intros e s0 o s1 o' s2 H H'. destruct H; inversion H'; subst; auto; try (split; congruence).
    - match goal with A : selects n sl ?a i, B : selects n sl ?b i, C : forall k, ?a < k -> _, D : forall k, ?b < k -> _ |- _ => assert (a = b) by (apply (Sel sl a b); auto) end. subst. split; congruence.
    - exfalso. match goal with A : ~ selected _ _ _ |- _ => apply A end. exists j. auto.
    - exfalso. match goal with A : ~ selected _ _ _ |- _ => apply A end. eexists. eauto.
    - assert (x0 = x) by congruence. subst. split; congruence. }
  induction 1 as [s|e es s o s1 ys s2 H R IH]; intros ys2 s2' R2; [inversion R2; auto|].
  inversion R2 as [|? ? ? o' s1' ys' ? H' R']; subst. destruct (St _ _ _ _ _ _ H H') as (-> & ->). destruct (IH _ _ R') as (-> & ->). auto.
Qed.

(* ---- C119 ---- *)
Section C119.
  Context {row : Type}.
  Variable zero : row -> row.
  Variable poke : list Z -> row -> result row.
  Variable poke_single : sel -> row -> result row.
  (* all tensors which the policy refers to exist *)
  Definition in_heap (h : heap row) (p : policy) : Prop :=
    (forall a, params p = Some a -> a < length h) /\ (forall t, state p = Some t -> Forall (fun a => a < length h) (leaves t)).
  Definition untouched (h h' : heap row) : Prop := forall a, a < length h -> nth_error h' a = nth_error h a.
  Lemma untouched_refl h : untouched h h.
  Proof. intros a _. reflexivity. Qed.
  Lemma reset_all_outside s : forall l h b, ~ In b l -> nth_error (fst (reset_all zero poke poke_single s l h)) b = nth_error h b.
  Proof.
    induction l as [|a l IH]; intros h b Hb; cbn; auto. destruct (nth_error h a) as [c|]; auto. destruct (cell_reset zero poke poke_single s c); auto.
    rewrite IH by (intro; apply Hb; right; auto). apply upd_other. intros ->; apply Hb; left; auto.
  Qed.
  Lemma reset_untouched p s h : in_heap h p -> untouched h (fst (fst (reset zero poke poke_single p s true h))).
  Proof.
    intros (_ & It). unfold reset. destruct s as [s|]; [|apply untouched_refl]. destruct (state p) as [t|]; [|apply untouched_refl].
    specialize (It t eq_refl). rewrite Forall_forall in It. destruct (deepcopy t h) as [h1 t1] eqn:Ed. destruct (deepcopy_ok t h h1 t1 It Ed) as (g & -> & Hg & Ho & Ll).
    rewrite reset_tensors_all. destruct (reset_all zero poke poke_single s (leaves (tmap g t)) h1) as [h2 r] eqn:Er. cbn. intros a Ha.
    assert (X := reset_all_outside s (leaves (tmap g t)) h1 a). rewrite Er in X. cbn in X. rewrite X, Ho; auto.
    rewrite leaves_tmap. intros Hi. apply in_map_iff in Hi. destruct Hi as (b & Eb & Hb). destruct (Hg b Hb). lia.
  Qed.
  (* calling the policy, resetting it (in the default way, also when that fails), and giving it new parameters changes no tensor that existed *)
Theorem C119_untouched_partial m p h : in_heap h p ->
    (forall x, untouched h (fst (fst (call m p x h)))) /\ (forall s, untouched h (fst (fst (reset zero poke poke_single p s true h)))) /\
    (forall a b, untouched h (fst (fst (set_parameters zero poke poke_single p a None b h)))).
  Proof.
    intros I. split; [|split].
    - assert (St : forall cells, untouched h (fst (fst (store m p cells h)))) by (intros cells a Ha; cbn; apply nth_error_app1; auto).
      intros x. unfold call. destruct (params p) as [a|]; [|apply untouched_refl]. destruct (nth_error h a) as [[r|l]|]; try apply untouched_refl.
      + destruct (single_row h x); [|apply untouched_refl]. destruct (osequence _); [apply St|apply untouched_refl].
      + destruct (batch_rows h (length l) x); [|apply untouched_refl]. destruct (osequence _); [|apply untouched_refl]. destruct (_ && _); [apply St|apply untouched_refl].
    - intros s. apply reset_untouched. auto.
    - intros a b. cbn. destruct b; apply untouched_refl.
  Qed.
  (* set_parameters with indices changes at most the tensor which was given with the last set_parameters without indices *)
Theorem C119_only_parameters p h s v b a : in_heap h p -> params p = Some a -> forall c, c < length h -> c <> a ->
    nth_error (fst (fst (set_parameters zero poke poke_single p v (Some s) b h))) c = nth_error h c.
  Proof.
    intros I Ep c Hc Nc. unfold set_parameters. rewrite Ep. destruct (nth_error h a) as [ca|]; [|auto]. destruct (nth_error h v) as [cv|]; [|auto].
    destruct (assign s cv ca) as [c'|]; [|auto]. destruct b; [|cbn; apply upd_other; auto].
    rewrite reset_untouched; [apply upd_other; auto| |rewrite upd_length; auto]. destruct I as (I1 & I2). split; [intros; rewrite upd_length; auto|].
    intros t Et. rewrite upd_length. auto.
  Qed.
  (* ... which it does change: the caller's tensor gets the new rows (whether or not resetting is asked for) *)
Theorem C119_parameters_refuted p h n ps s v vc b a : in_heap h p -> params p = Some a -> nth_error h a = Some (Batch ps) -> length ps = n ->
    valid n s -> nth_error h v = Some vc -> fits vc (width s) ->
    forall i j, selects n s j i -> (forall j', j < j' -> ~ selects n s j' i) ->
    exists ps', nth_error (fst (fst (set_parameters zero poke poke_single p v (Some s) b h))) a = Some (Batch ps') /\ nth_error ps' i = value vc j.
  Proof.
    intros (I1 & I2) Ep Ea L V Ev F i j Sj Lj. destruct (resolve_valid n s V) as (pos & Er & Lp & Np & Fp). destruct (broadcast_ok vc (width s) F) as (vs & Evs & Lv & Nv).
    assert (Eas : assign s vc (Batch ps) = Ok (Batch (put_rows pos vs ps))).
    { unfold assign. rewrite L, Er. cbn [bind]. rewrite Lp, Evs. cbn [bind]. destruct V; reflexivity. }
    exists (put_rows pos vs ps). assert (La := nth_lt _ _ _ Ea). split.
    - unfold set_parameters. rewrite Ep, Ea, Ev, Eas. destruct b; [|cbn; apply upd_same; auto].
      rewrite reset_untouched; [apply upd_same; auto| |rewrite upd_length; auto].
      split; [intros; rewrite upd_length; auto|]. intros t Et. rewrite upd_length. auto.
    - assert (Hin : In i pos) by (apply (selected_dec n s pos i Er Np); exists j; auto).
      assert (Hi : i < n) by (rewrite Forall_forall in Fp; auto).
      destruct (put_in pos vs ps i Hin) as (k & A & B & C); [lia|lia|]. rewrite C. assert (Lk := nth_lt _ _ _ A). rewrite Nv by lia. f_equal.
      destruct (Nat.lt_trichotomy j k) as [X|[X|X]]; auto; exfalso; [apply (Lj k X), Np; auto|apply (B j X), Np; auto].
  Qed.
End C119.

(* ---- C120 ---- *)
(* exactly the chosen rows of exactly the tensors in the collection are cleared *)
Theorem C120_reset {row} zero poke poke_single n s t (h : heap row) : (forall r, zero (zero r) = zero r) -> valid n s ->
  (forall a, In a (leaves t) -> exists rows, nth_error h a = Some (Batch rows) /\ length rows = n) ->
  exists h', reset_tensors zero poke poke_single s t h = (h', Ok tt) /\
    (forall a, ~ In a (leaves t) -> nth_error h' a = nth_error h a) /\
    (forall a rows, In a (leaves t) -> nth_error h a = Some (Batch rows) -> exists rows', nth_error h' a = Some (Batch rows') /\ length rows' = n /\
       forall i r, nth_error rows i = Some r -> (selected n s i -> nth_error rows' i = Some (zero r)) /\ (~ selected n s i -> nth_error rows' i = Some r)).
Proof.
  intros ZZ V H. destruct (resolve_valid n s V) as (pos & Er & Lp & Np & Fp). rewrite reset_tensors_all.
  destruct (reset_all_ok zero poke poke_single ZZ s n pos (ltac:(destruct V; exact I)) Er (leaves t) h H) as (h' & E & L & Ho & Hi). exists h'. split; auto. split; auto.
  intros a rows Ha Ea. exists (clear zero pos rows). rewrite (Hi a Ha). unfold rows_of. rewrite Ea. split; auto. destruct (H a Ha) as (rows' & Ea' & L'). rewrite Ea in Ea'. injection Ea' as <-.
  rewrite clear_length. split; auto. intros i r Hr. split; intros S1.
  - rewrite clear_in, Hr; auto. apply (selected_dec n s pos i Er Np). auto.
  - rewrite clear_out, Hr; auto. intros X. apply S1. apply (selected_dec n s pos i Er Np). auto.
Qed.
(* an index out of range, or a mask of the wrong length: IndexError, and nothing is changed *)
Theorem C120_invalid {row} zero poke poke_single n s t (h : heap row) : (forall l, s <> Tup l) -> ~ valid n s -> leaves t <> [] ->
  (forall a, In a (leaves t) -> exists rows, nth_error h a = Some (Batch rows) /\ length rows = n) ->
  reset_tensors zero poke poke_single s t h = (h, Err IndexError).
Proof.
  intros NT NV NE H. rewrite reset_tensors_all. destruct (leaves t) as [|a l]; [congruence|]. destruct (H a (or_introl eq_refl)) as (rows & Ea & L). cbn [reset_all]. rewrite Ea.
  unfold cell_reset. rewrite L. assert (resolve n s = Err IndexError) as ->; [|reflexivity].
  destruct s as [l0|l0|l0]; [| |congruence].
  - cbn. assert (X : ~ Forall (fun z => - Z.of_nat n <= z < Z.of_nat n)%Z l0) by (intro; apply NV; constructor; auto). clear -X. induction l0 as [|z l0 IH]; [exfalso; auto|]. cbn.
    unfold int_index at 1. destruct ((- Z.of_nat n <=? z) && (z <? Z.of_nat n))%Z eqn:E; auto. rewrite IH; auto. intros F. apply X. constructor; auto. lia.
  - cbn. destruct (Nat.eqb_spec (length l0) n) as [E|N]; auto. exfalso. apply NV. constructor. auto.
Qed.
(* A tuple of integers is also a sequence of integers, but: reset_tensors(x, (i, j, ...)) leaves all rows other than i as they are, and in the
   row i it clears at most the part x[i, j, ...]. *)
Theorem C120_tuple_refuted {row} zero poke poke_single n z z' l t (h : heap row) : (forall a, In a (leaves t) -> exists rows, nth_error h a = Some (Batch rows) /\ length rows = n) ->
  NoDup (leaves t) -> forall i, i < n -> (z = Z.of_nat i \/ z = Z.of_nat i - Z.of_nat n)%Z ->
  let h' := fst (reset_tensors zero poke poke_single (Tup (z :: z' :: l)) t h) in
  forall a rows, In a (leaves t) -> nth_error h a = Some (Batch rows) -> exists rows', nth_error h' a = Some (Batch rows') /\
    (forall k, k <> i -> nth_error rows' k = nth_error rows k) /\
    (forall r, nth_error rows i = Some r -> nth_error rows' i = Some r \/ exists r', nth_error rows' i = Some r' /\ poke (z' :: l) r = Ok r').
Proof.
  intros H ND i Hi Hz h'. subst h'. rewrite reset_tensors_all. revert h H ND. induction (leaves t) as [|b bs IH]; intros h H ND a rows Ha Ea; [contradiction|].
  cbn [reset_all]. destruct (H b (or_introl eq_refl)) as (rb & Eb & Lb). rewrite Eb. inversion ND as [|? ? Nb ND']; subst.
  assert (Lh := nth_lt _ _ _ Eb). destruct (int_index_spec (length rb) z) as (k & Ek & Hk & Hki); [lia|]. assert (k = i) as -> by (apply (Hki i Hi); auto).
  unfold cell_reset. cbn [resolve rmap]. rewrite Ek. cbn [rmap bind]. destruct (nth_some rb i Hk) as (r & Er). rewrite Er.
  destruct (poke (z' :: l) r) as [r'|e] eqn:Ep; cbn [rmap].
  - destruct (Nat.eq_dec b a) as [->|N].
    + rewrite reset_all_outside by auto. rewrite upd_same by auto. rewrite Ea in Eb. injection Eb as <-. exists (upd rows i r'). split; auto. split.
      * intros k Nk. apply upd_other. auto.
      * intros r0 E0. rewrite Er in E0. injection E0 as <-. right. exists r'. rewrite upd_same; auto.
    + destruct Ha as [|Ha]; [contradiction|]. apply (IH (upd h b (Batch (upd rb i r')))); auto.
      * intros c Hc. assert (Nc : b <> c) by (intros ->; contradiction). rewrite upd_other by auto. apply H. right. auto.
      * rewrite upd_other by auto. auto.
  - exists rows. split; auto.
Qed.
Print Assumptions C118_independent.
Print Assumptions C118_fresh_partial.
Print Assumptions C118_fresh_refuted.
Print Assumptions C118_recurrent.
Print Assumptions C118_single.
Print Assumptions C118_determined.
Print Assumptions C119_untouched_partial.
Print Assumptions C119_only_parameters.
Print Assumptions C119_parameters_refuted.
Print Assumptions C120_reset.
Print Assumptions C120_invalid.
Print Assumptions C120_tuple_refuted.

(* RNN with one input and one hidden unit over the integers: y = W1 x + b1 + W2 h + b2 *)
Definition net1 : module (list Z) := rnn 0%Z Z.add Z.mul (fun y => y) 1 1.
Definition noP (_ : list Z) (r : list Z) : result (list Z) := Ok r.
Definition noS (_ : sel) (r : list Z) : result (list Z) := Ok r.
Definition history : list (event (list Z)) :=
  [Act [[1]; [10]]; Act [[1]; [10]]; Reset (Some (Mask [false; true])) true; SetSome (Ints [-2]) (Single [5; 0; 0; 0]) false; Act [[1]; [10]]]%Z.
(* y = x + 2 h and y = 3 x + h + 1 *)
Example C118_example : exists h' p', run net1 (zero_vec 0%Z) noP noS (SetAll [[1; 2; 0; 0]; [3; 1; 1; 0]]%Z true :: history) [] (Policy None None) =
  Ok (h', p', [[[1]; [31]]; [[3]; [62]]; [[5]; [31]]]%Z).
Proof. eexists. eexists. vm_compute. reflexivity. Qed.
Example C118_history_ok : Forall (event_ok 2) history.
Proof. repeat constructor; lia. Qed.
Example C118_recurrent_example : exists h' p' outs, run net1 (zero_vec 0%Z) noP noS (SetAll [[1; 2; 0; 0]; [3; 1; 1; 0]]%Z true :: history) [] (Policy None None) = Ok (h', p', outs) /\ Forall (fun ys => length ys = 2) outs /\
  forall i q, nth_error [[1; 2; 0; 0]; [3; 1; 1; 0]]%Z i = Some q -> exists ys s', map (fun y => nth_error y i) outs = map Some ys /\ net_run net1 (fun _ => None) 2 i history (Net q None) ys s'.
Proof. apply (C118_recurrent 0%Z Z.add Z.mul (fun y => y) (fun y => y) (fun y => y) 1 1); auto using C118_history_ok; lia. Qed.
(* a network which starts with the hidden state [7] *)
Definition net7 : module (list Z) := Module (fun q x st => [rnn_cell 0%Z Z.add Z.mul (fun y => y) 1 1 q x (match st with Some (Tensor h) => h | _ => [7%Z] end)]) 0 (Some (Tensor 0)).
Lemma net7_ok : well_formed net7 1.
Proof. repeat split; cbn; auto; injection H as <-; cbn; auto. Qed.
Example C118_independent_example : exists h' p' outs, run net7 (zero_vec 0%Z) noP noS (SetAll [[1; 2; 0; 0]; [3; 1; 1; 0]]%Z true :: history) [] (Policy None None) = Ok (h', p', outs) /\ Forall (fun ys => length ys = 2) outs /\
  forall i q, nth_error [[1; 2; 0; 0]; [3; 1; 1; 0]]%Z i = Some q -> exists ys s', map (fun y => nth_error y i) outs = map Some ys /\ net_run net7 (option_map (tmap (zero_vec 0%Z))) 2 i history (Net q None) ys s'.
Proof. apply (C118_independent (zero_vec 0%Z) noP noS (zero_vec_twice 0%Z) net7 2 1); auto using net7_ok, C118_history_ok. Qed.
Example C118_fresh_example : exists h' p' y1 y2, run net7 (zero_vec 0%Z) noP noS [SetAll [[1; 2; 0; 0]]%Z true; Act [[1]]%Z; Reset (Some (Ints [0%Z])) true; Act [[1]]%Z] [] (Policy None None) = Ok (h', p', [y1; y2]) /\
  nth_error y2 0 <> Some [15%Z].
Proof. apply (C118_fresh_refuted (zero_vec 0%Z) noP noS (zero_vec_twice 0%Z) net7 1 1 [[1; 2; 0; 0]]%Z [[1]]%Z [[1]]%Z 0 [1; 2; 0; 0]%Z [1]%Z [1]%Z (Tensor 0) []); auto using net7_ok. discriminate. Qed.
Example C118_single_example : exists h' p', run1 net1 (zero_vec 0%Z) noP noS [Set1 [1; 2; 0; 0]%Z true; Act1 [1]%Z; Act1 [1]%Z; Reset1 true; Act1 [1]%Z] [] (Policy None None) = Ok (h', p', [[1]; [3]; [1]]%Z).
Proof. eexists. eexists. vm_compute. reflexivity. Qed.
Definition heap2 : heap (list Z) := [Batch [[1; 2]; [3; 4]; [5; 6]]; Batch [[7]; [8]; [9]]; Batch [[0]; [0]; [0]]]%Z.
Lemma heap2_ok : forall a, In a [0; 1; 0] -> exists rows, nth_error heap2 a = Some (Batch rows) /\ length rows = 3.
Proof. intros a [<-|[<-|[<-|[]]]]; eexists; (split; [reflexivity|reflexivity]). Qed.
Example C119_parameters_example : fst (fst (set_parameters (zero_vec 0%Z) noP noS (Policy (Some 0) None) 1 (Some (Ints [2; 0; -1]%Z)) true
    [Batch [[1; 2]; [3; 4]; [5; 6]]; Batch [[10; 20]; [30; 40]; [50; 60]]]%Z)) = [Batch [[30; 40]; [3; 4]; [50; 60]]; Batch [[10; 20]; [30; 40]; [50; 60]]]%Z.
Proof. reflexivity. Qed.
Example C119_parameters_refuted_example : exists ps', nth_error (fst (fst (set_parameters (zero_vec 0%Z) noP noS (Policy (Some 0) None) 1 (Some (Ints [2; 0; -1]%Z)) true
    [Batch [[1; 2]; [3; 4]; [5; 6]]; Batch [[10; 20]; [30; 40]; [50; 60]]]%Z))) 0 = Some (Batch ps') /\ nth_error ps' 2 = Some [50; 60]%Z.
Proof.
  apply (C119_parameters_refuted (zero_vec 0%Z) noP noS (Policy (Some 0) None) [Batch [[1; 2]; [3; 4]; [5; 6]]; Batch [[10; 20]; [30; 40]; [50; 60]]]%Z 3 [[1; 2]; [3; 4]; [5; 6]]%Z
    (Ints [2; 0; -1]%Z) 1 (Batch [[10; 20]; [30; 40]; [50; 60]]%Z) true 0) with (j := 2); auto.
  - split; cbn; [intros a E; injection E as <-; lia|discriminate].
  - constructor. repeat constructor; lia.
  - cbn. auto.
  - econstructor; [reflexivity|lia|right; reflexivity].
  - intros j' Hj X. inversion X as [l j0 z i E _ _|]; subst. apply nth_lt in E. cbn in E. lia.
Qed.
Example C119_untouched_example : in_heap heap2 (Policy (Some 0) (Some (Iter [Tensor 1; Tensor 2]))).
Proof. split; cbn; [intros a E; injection E as <-; lia|intros t E; injection E as <-; repeat constructor]. Qed.
Example C120_reset_example : exists h', reset_tensors (zero_vec 0%Z) noP noS (Ints [1; -1]%Z) (Iter [Tensor 0; Mapping [Tensor 1; Text; Iter [Tensor 0; Other]]]) heap2 = (h', Ok tt) /\
  h' = [Batch [[1; 2]; [0; 0]; [0; 0]]; Batch [[7]; [0]; [0]]; Batch [[0]; [0]; [0]]]%Z.
Proof.
  destruct (C120_reset (zero_vec 0%Z) noP noS 3 (Ints [1; -1]%Z) (Iter [Tensor 0; Mapping [Tensor 1; Text; Iter [Tensor 0; Other]]]) heap2 (zero_vec_twice 0%Z)) as (h' & E & _).
  - constructor. repeat constructor; lia.
  - exact heap2_ok.
  - exists h'. split; auto. vm_compute in E. congruence.
Qed.
Example C120_invalid_example : reset_tensors (zero_vec 0%Z) noP noS (Ints [1; 3]%Z) (Iter [Tensor 0; Tensor 1; Tensor 0]) heap2 = (heap2, Err IndexError).
Proof. apply (C120_invalid _ _ _ 3); auto using heap2_ok; [discriminate| |discriminate]. intros V. inversion V as [l F|]; subst. inversion F as [|? ? _ F2]; subst. inversion F2; subst. cbn in *. lia. Qed.
(* reset_tensors(x, (1, 2)) for a tensor of shape (3, 4) clears one element *)
Definition poke1 (l : list Z) (r : list Z) : result (list Z) := match l with [z] => bind (int_index (length r) z) (fun k => Ok (upd r k 0%Z)) | _ => Err IndexError end.
Example C120_tuple_example : reset_tensors (zero_vec 0%Z) poke1 noS (Tup [1; 2]%Z) (Tensor 0) [Batch [[1; 2; 3; 4]; [5; 6; 7; 8]; [9; 10; 11; 12]]%Z] = ([Batch [[1; 2; 3; 4]; [5; 6; 0; 8]; [9; 10; 11; 12]]%Z], Ok tt).
Proof. reflexivity. Qed.
Example C120_tuple_refuted_example : exists rows', nth_error (fst (reset_tensors (zero_vec 0%Z) poke1 noS (Tup [1; 2]%Z) (Tensor 0) heap2)) 0 = Some (Batch rows') /\
    (forall k, k <> 1 -> nth_error rows' k = nth_error [[1; 2]; [3; 4]; [5; 6]]%Z k) /\
    (forall r, nth_error [[1; 2]; [3; 4]; [5; 6]]%Z 1 = Some r -> nth_error rows' 1 = Some r \/ exists r', nth_error rows' 1 = Some r' /\ poke1 [2]%Z r = Ok r').
Proof.
  apply (C120_tuple_refuted (zero_vec 0%Z) poke1 noS 3 1 2 [] (Tensor 0) heap2); auto; try lia.
  - intros a [<-|[]]. apply heap2_ok. left. auto.
  - cbn. repeat constructor. intros [].
  - left. auto.
Qed.

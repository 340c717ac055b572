(* C49, C50: copies of object graphs: deep_clone, as_immutable, mutable_copy. *)
From Verif Require Import Prelude CloneModel CloneSpec CloneProofs CloneProofs2 CloneProofs3.

(* C50, for object graphs without a cycle through a tuple, without numpy arrays of objects, without read-only ObjectArrays and nested
   ObjectArrays (see the refutations below): deep_clone terminates, the clone looks like the original, including everything which is shared
   or cyclic; the original is unchanged; and the only objects which the two have in common are bytes and, if the caller has asked for it,
   objects of unrecognized types. *)
Theorem C50_deep_clone_partial (deepcopy return_ fail : bool) (h : heap) (v : val) (fuel : nat) :
  (deepcopy, return_, fail) = (true, false, false) \/ (deepcopy, return_, fail) = (false, true, false) \/ (deepcopy, return_, fail) = (false, false, true) ->
  wf_heap h -> wf_val h v -> no_cycle_through h KTup v -> clonable fail h v -> length h <= fuel ->
  exists h' w, deep_clone deepcopy return_ fail fuel h v = Ok (h', w) /\ isomorphic (fun k => k) h v h' w /\ untouched h h' /\
    (forall b n, within h' w b -> nth_error h' b = Some n -> b < length h -> n_kind n = KBytes \/ (return_ = true /\ n_kind n = KUnknown)).
Proof.
  intros Hfl Hwf Hv Hc Hcl Hf.
  assert (X : exists fb, fallback_of deepcopy return_ fail = Ok fb /\ rejects fb = fail /\ (fb = OtherwiseReturn -> return_ = true)).
  { destruct Hfl as [E|[E|E]]; injection E as -> -> ->; cbn; eexists; split; try reflexivity; split; try reflexivity; intros; auto; discriminate. }
  destruct X as (fb & Efb & Er & Eret). rewrite <- Er in Hcl.
  destruct (clone_iso fb h v fuel Hwf Hv Hc Hcl Hf) as (h' & m' & w & E & I & U & S).
  exists h', w. unfold deep_clone. rewrite Efb. cbn [bind]. rewrite E. cbn. split; auto. split; auto. split; auto.
  intros b n W En L. destruct (S b n W En L) as [K|[K1 K2]]; auto.
Qed.
Print Assumptions C50_deep_clone_partial.

(* exactly one of the three flags *)
Theorem C50_flags (deepcopy return_ fail : bool) (h : heap) (v : val) (fuel : nat) :
  Nat.b2n deepcopy + Nat.b2n return_ + Nat.b2n fail <> 1 -> deep_clone deepcopy return_ fail fuel h v = Err ValueError.
Proof. destruct deepcopy, return_, fail; cbn; intros; auto; lia. Qed.
Print Assumptions C50_flags.

(* l = [t, t, l, 7]; t = (tensor, {"k": l'}) where l' = [5]: shared, cyclic and nested *)
Definition graph : heap :=
  [ Node KList [] [] [VRef 1; VRef 1; VRef 0; VAtom 7];
    Node KTup [] [] [VRef 2; VRef 3];
    Node KTensor [1%Z; 2%Z] [] [];
    Node KDict [] [KStr 1] [VRef 4];
    Node KList [] [] [VAtom 5] ].
Tactic Notation "each_node" ident(x) ident(E) := destruct x as [|x]; [cbn in E; injection E as <-|destruct x as [|x]; [cbn in E; injection E as <-|destruct x as [|x]; [cbn in E; injection E as <-|destruct x as [|x]; [cbn in E; injection E as <-|destruct x as [|x]; [cbn in E; injection E as <-|destruct x; discriminate]]]]].
Lemma graph_wf : wf_heap graph.
Proof. intros x n c E Hin. each_node x E; cbn in *; intuition (try discriminate; try (match goal with X : VRef _ = VRef _ |- _ => injection X as <- end); lia). Qed.
Lemma graph_from_tuple : forall a, reach graph 2 a \/ reach graph 3 a -> a <> 1 /\ a <> 0.
Proof.
  assert (G : forall r a, reach graph r a -> r = 2 \/ r = 3 \/ r = 4 -> a = 2 \/ a = 3 \/ a = 4).
  { intros r a R. induction R as [r|r b c R IH (n & En & Hin)]; intros Hr; auto. specialize (IH Hr). destruct IH as [->|[->| ->]]; cbn in En; injection En as <-; cbn in Hin; repeat destruct Hin as [Hin|Hin]; try discriminate; try contradiction; injection Hin as <-; auto. }
  intros a [R|R]; apply G in R; auto; lia.
Qed.
Lemma graph_no_cycle : no_cycle_through graph KTup (VRef 0).
Proof.
  intros a n b W En K (m & Em & Hin) R. rewrite En in Em. injection Em as <-. each_node a En; cbn in K; try discriminate. cbn in Hin.
  destruct Hin as [X|[X|[]]]; injection X as <-; [destruct (graph_from_tuple 1 (or_introl R))|destruct (graph_from_tuple 1 (or_intror R))]; lia.
Qed.
Lemma graph_clonable f : clonable f graph (VRef 0).
Proof. intros a n W En. each_node a En; cbn; repeat split; intros; try discriminate; auto. Qed.
Example C50_example :
  exists h' w, deep_clone false false true 5 graph (VRef 0) = Ok (h', w) /\ isomorphic (fun k => k) graph (VRef 0) h' w /\
    (forall b, within h' w b -> 5 <= b) /\ kind_of h' w = Some KList /\ w <> VRef 0.
Proof.
  destruct (C50_deep_clone_partial false false true graph (VRef 0) 5) as (h' & w & E & I & U & S); auto using graph_wf, graph_no_cycle, graph_clonable; [cbn; lia|].
  exists h', w. split; auto. split; auto. assert (Ek : kind_of h' w = Some KList /\ w <> VRef 0).
  { vm_compute in E. injection E as <- <-. split; [reflexivity|discriminate]. }
  split; auto. intros b W. destruct (Nat.lt_ge_cases b 5) as [L|L]; auto. exfalso.
  assert (En : exists n, nth_error graph b = Some n) by (apply nth_some; exact L). destruct En as [n En].
  pose proof En as En'. rewrite <- (U b L) in En'. destruct (S b n W En' L) as [K|[K _]]; [|discriminate]. each_node b En; discriminate.
Qed.
Example C50_flags_example : deep_clone true true false 5 graph (VRef 0) = Err ValueError.
Proof. apply C50_flags. cbn. lia. Qed.

(* Without the restrictions, C50 is false. A cycle through a tuple: l = []; t = (l,); l.append(t). In the clone, the list contains a list
   instead of the tuple. *)
Definition tuple_cycle : heap := [Node KTup [] [] [VRef 1]; Node KList [] [] [VRef 0]].
Theorem C50_tuple_cycle_refuted (fuel : nat) :
  2 <= fuel -> exists h' w, deep_clone false false true fuel tuple_cycle (VRef 0) = Ok (h', w) /\ ~ isomorphic (fun k => k) tuple_cycle (VRef 0) h' w.
Proof.
  intros Hf.
  assert (E0 : deep_clone false false true fuel tuple_cycle (VRef 0) = Ok (tuple_cycle ++ [Node KList [] [] [VRef 3]; Node KList [] [] [VRef 2]; Node KTup [] [] [VRef 3]], VRef 4)) by (destruct fuel as [|[|[|f]]]; try lia; reflexivity).
  eexists. eexists. split; [exact E0|]. intros (B & R & F1 & F2 & D). cbn in R.
  assert (B1 : B 1 3).
  { destruct (D _ _ R) as (n & n' & E & E' & _ & _ & _ & FF). cbn in E, E'. injection E as <-. injection E' as <-. cbn in FF. inversion FF as [|? ? ? ? X Y]; subst. exact X. }
  destruct (D _ _ B1) as (n & n' & E & E' & _ & _ & _ & FF). cbn in E, E'. injection E as <-. injection E' as <-. cbn in FF. inversion FF as [|? ? ? ? X Y]; subst. cbn in X.
  pose proof (F1 _ _ _ R X). discriminate.
Qed.
Print Assumptions C50_tuple_cycle_refuted.
(* The clone of a numpy array of objects contains the very objects which the original contains. *)
Theorem C50_object_ndarray_refuted (deepcopy return_ fail : bool) (h : heap) (a c : nat) (n : node) (fuel : nat) :
  Nat.b2n deepcopy + Nat.b2n return_ + Nat.b2n fail = 1 -> 0 < fuel -> nth_error h a = Some n -> n_kind n = KObjectNdarray -> In (VRef c) (n_items n) ->
  exists h' b, deep_clone deepcopy return_ fail fuel h (VRef a) = Ok (h', VRef b) /\ b <> a /\ within h' (VRef b) c.
Proof.
  intros Hfl Hf En K Hin. destruct fuel as [|f]; [lia|]. exists (h ++ [n]), (length h). assert (La : a < length h) by (apply nth_lt in En; auto).
  assert (X : exists fb, fallback_of deepcopy return_ fail = Ok fb) by (destruct deepcopy, return_, fail; cbn in *; eauto; lia).
  destruct X as [fb Efb]. unfold deep_clone. rewrite Efb. cbn [bind walk mlookup]. rewrite En. unfold deep_clone_visit. rewrite K. cbn. split; auto. split; [lia|].
  apply (reach_step _ _ (length h)); [constructor|]. exists n. split; auto. rewrite nth_error_app2, Nat.sub_diag by auto. reflexivity.
Qed.
Print Assumptions C50_object_ndarray_refuted.
Example C50_object_ndarray_example :
  exists h' b, deep_clone true false false 3 [Node KObjectNdarray [] [] [VRef 1]; Node KList [] [] [VAtom 1]] (VRef 0) = Ok (h', VRef b) /\ b <> 0 /\ within h' (VRef b) 1.
Proof. eapply C50_object_ndarray_refuted; [reflexivity|lia|reflexivity|reflexivity|cbn; auto]. Qed.
(* The clone of a read-only ObjectArray is not read-only. *)
Lemma add_item_kind h b v x n : nth_error h x = Some n -> exists n', nth_error (add_item h b v) x = Some n' /\ n_kind n' = n_kind n.
Proof.
  intros E. destruct (Nat.eq_dec x b) as [->|Hx]; [|rewrite add_item_nth by auto; eauto]. rewrite (add_item_self _ _ _ _ E). eexists. split; [reflexivity|reflexivity].
Qed.
Lemma walk_kind visit : forall f h m v h' m' w x n, walk visit f h m v = Ok (h', m', w) -> nth_error h x = Some n -> exists n', nth_error h' x = Some n' /\ n_kind n' = n_kind n.
Proof.
  intros f. induction f as [|f IH]; intros h m v h' m' w x n E En; destruct v as [z|a]; cbn in E.
  1,3: injection E as <- <- <-; eauto.
  - destruct (mlookup m a); [|discriminate]. injection E as <- <- <-. eauto.
  - assert (HL : forall l h m b h' m' n, walk_items (walk visit f) h m b l = Ok (h', m') -> nth_error h x = Some n -> exists n', nth_error h' x = Some n' /\ n_kind n' = n_kind n).
    { clear - IH. induction l as [|v l IHl]; intros h m b h' m' n E En; cbn in E; [injection E as <- <-; eauto|].
      destruct (walk visit f h m v) as [[[h1 m1] v1]|] eqn:Ew; [|discriminate]. cbn in E. destruct (IH _ _ _ _ _ _ _ _ Ew En) as (n1 & E1 & K1).
      destruct (add_item_kind h1 b v1 x n1 E1) as (n2 & E2 & K2). destruct (IHl _ _ _ _ _ _ E E2) as (n3 & E3 & K3). exists n3. split; auto. congruence. }
    assert (HA : forall y, nth_error (h ++ y) x = Some n) by (intros y; rewrite nth_error_app1; [auto|apply nth_lt in En; auto]).
    destruct (mlookup m a); [injection E as <- <- <-; eauto|]. destruct (nth_error h a) as [na|]; [|discriminate]. destruct (visit h na).
    + injection E as <- <- <-. eauto.
    + injection E as <- <- <-. eauto.
    + destruct (walk_items _ _ _ _ _) as [[h1 m1]|] eqn:Ew; [|discriminate]. cbn in E. injection E as <- <- <-. exact (HL _ _ _ _ _ _ _ Ew (HA _)).
    + destruct (walk_items _ _ _ _ _) as [[h1 m1]|] eqn:Ew; [|discriminate]. cbn in E. injection E as <- <- <-. destruct (HL _ _ _ _ _ _ _ Ew (HA _)) as (n1 & E1 & K1).
      exists n1. split; auto. rewrite nth_error_app1; auto. apply nth_lt in E1. auto.
    + discriminate.
Qed.
Lemma walk_items_kind w : (forall h m v h' m' u x n, w h m v = Ok (h', m', u) -> nth_error h x = Some n -> exists n', nth_error h' x = Some n' /\ n_kind n' = n_kind n) ->
  forall l h m b h' m' x n, walk_items w h m b l = Ok (h', m') -> nth_error h x = Some n -> exists n', nth_error h' x = Some n' /\ n_kind n' = n_kind n.
Proof.
  intros IH. induction l as [|v l IHl]; intros h m b h' m' x n E En; cbn in E; [injection E as <- <-; eauto|].
  destruct (w h m v) as [[[h1 m1] v1]|] eqn:Ew; [|discriminate]. cbn in E. destruct (IH _ _ _ _ _ _ _ _ Ew En) as (n1 & E1 & K1).
  destruct (add_item_kind h1 b v1 x n1 E1) as (n2 & E2 & K2). destruct (IHl _ _ _ _ _ _ _ E E2) as (n3 & E3 & K3). exists n3. split; auto. congruence.
Qed.
Theorem C50_read_only_refuted (deepcopy return_ fail : bool) (h : heap) (a : nat) (n : node) (fuel : nat) (h' : heap) (w : val) :
  nth_error h a = Some n -> n_kind n = KObjectArray true -> deep_clone deepcopy return_ fail fuel h (VRef a) = Ok (h', w) ->
  kind_of h' w = Some (KObjectArray false) /\ ~ isomorphic (fun k => k) h (VRef a) h' w.
Proof.
  intros En K E. assert (X : kind_of h' w = Some (KObjectArray false)).
  { unfold deep_clone in E. destruct (fallback_of _ _ _) as [fb|]; [|discriminate]. cbn [bind] in E. destruct fuel as [|f]; [discriminate|]. cbn [walk mlookup] in E. rewrite En in E.
    unfold deep_clone_visit in E at 1. rewrite K in E. destruct (existsb _ _); [discriminate|].
    destruct (walk_items _ _ _ _ _) as [[h1 m1]|] eqn:Ew; [|discriminate]. cbn in E. injection E as <- <-. cbn.
    destruct (walk_items_kind _ (walk_kind _ f) _ _ _ _ _ _ (length h) (Node (KObjectArray false) (n_data n) (n_keys n) []) Ew) as (n' & E' & K').
    - rewrite nth_error_app2, Nat.sub_diag by auto. reflexivity.
    - rewrite E'. cbn. rewrite K'. reflexivity. }
  split; auto. intros (B & R & _ & _ & D). destruct w as [|b]; [discriminate|]. cbn in R, X. destruct (D _ _ R) as (x & y & Ex & Ey & Ky & _). rewrite Ey in X. cbn in X. injection X as X. congruence.
Qed.
Print Assumptions C50_read_only_refuted.
Example C50_read_only_example : exists h' w, deep_clone true false false 2 [Node (KObjectArray true) [] [] [VRef 1]; Node KImmutableList [] [] [VAtom 1]] (VRef 0) = Ok (h', w) /\
  kind_of h' w = Some (KObjectArray false).
Proof.
  assert (X : exists h' w, deep_clone true false false 2 [Node (KObjectArray true) [] [] [VRef 1]; Node KImmutableList [] [] [VAtom 1]] (VRef 0) = Ok (h', w)) by (eexists; eexists; reflexivity).
  destruct X as (h' & w & E). exists h', w. split; auto. eapply C50_read_only_refuted; [| |exact E]; reflexivity.
Qed.

(* C49, first half: as_immutable terminates (also on cyclic containers), leaves its argument unchanged, and gives an isomorphic graph of
   immutable objects, each being the immutable counterpart of the original one. *)
Theorem C49_as_immutable (h : heap) (v : val) (fuel : nat) :
  wf_heap h -> wf_val h v -> freezable h v -> length h <= fuel ->
  exists h' w, as_immutable fuel h v = Ok (h', w) /\ isomorphic frozen h v h' w /\ untouched h h' /\
    (forall b n, within h' w b -> nth_error h' b = Some n -> immutable_kind (n_kind n) = true).
Proof.
  intros Hwf Hv Hfr Hf. destruct (immutable_iso h v Hwf Hv Hfr fuel Hf) as (h' & m' & w & E & I & U & _ & _ & M).
  exists h', w. unfold as_immutable. rewrite E. cbn. split; auto. split; auto. split; auto. intros b n W En. apply (M b n W En).
Qed.
Print Assumptions C49_as_immutable.

(* what is immutable already is returned as it is *)
Theorem C49_idempotent (h : heap) (v : val) (fuel fuel' : nat) (h' : heap) (w : val) :
  wf_heap h -> wf_val h v -> freezable h v -> length h <= fuel -> as_immutable fuel h v = Ok (h', w) -> 0 < fuel' -> as_immutable fuel' h' w = Ok (h', w).
Proof.
  intros Hwf Hv Hfr Hf E Hf'. destruct (immutable_iso h v Hwf Hv Hfr fuel Hf) as (h1 & m1 & w1 & E1 & I & U & _ & Wv & M).
  unfold as_immutable in E. rewrite E1 in E. cbn in E. injection E as <- <-.
  unfold as_immutable. destruct w1 as [z|b]; [destruct fuel'; reflexivity|]. destruct fuel' as [|f']; [lia|]. cbn in Wv. destruct (nth_some h1 b Wv) as [n En].
  destruct (M b n (reach_refl _ b) En) as [K NB]. cbn [walk mlookup]. rewrite En.
  replace (as_immutable_visit h1 n) with Keep; [reflexivity|]. unfold as_immutable_visit. destruct (n_kind n) as [| | |[]| |[]| | | | | | | | |]; cbn in K; try discriminate; congruence.
Qed.
Print Assumptions C49_idempotent.

(* C49, second half: mutable_copy(as_immutable(x)) has the structure of x, with sharing and cycles, except that tuples have become lists;
   it has no object in common with x or with as_immutable(x). *)
Theorem C49_round_trip_partial (h : heap) (v : val) (fuel fuel' : nat) (h1 : heap) (w1 : val) :
  wf_heap h -> wf_val h v -> freezable h v -> no_tuple_keys h v -> no_object_arrays h v -> length h <= fuel ->
  as_immutable fuel h v = Ok (h1, w1) -> length h1 <= fuel' ->
  exists h2 w2, mutable_copy fuel' h1 w1 = Ok (h2, w2) /\ isomorphic thawed h v h2 w2 /\ untouched h h2 /\ untouched h1 h2 /\
    (forall b, within h2 w2 b -> length h1 <= b).
Proof.
  intros Hwf Hv Hfr Hnt Hno Hf E Hf'. destruct (immutable_iso h v Hwf Hv Hfr fuel Hf) as (h1' & m1 & w1' & E1 & I & U & W1 & V1 & M).
  unfold as_immutable in E. rewrite E1 in E. cbn in E. injection E as <- <-. rename h1' into h1. rename w1' into w1.
  assert (Hm : meltable h1 w1).
  { intros b n W En. destruct (M b n W En) as [K NB]. split; auto. split; auto.
    destruct (iso_within _ _ _ _ _ I) as (B & B1 & B2 & _). destruct (B1 b W) as (a & Wa & Bab). destruct (B2 a b Bab) as (n0 & n1 & E0 & E1' & K1 & Ks & _ & FF).
    rewrite En in E1'. injection E1' as <-. pose proof (Hfr a n0 Wa E0) as C. cbn beta in C. split; [|split].
    - intros ro Kro. rewrite K1 in Kro. destruct (n_kind n0) eqn:K0; cbn in Kro; try discriminate; try contradiction. exact (Hno a n0 Wa E0 _ K0).
    - intros L. rewrite K1 in L. assert (X : n_items n0 = []) by (destruct (n_kind n0); cbn in L; try discriminate; auto; contradiction). rewrite X in FF. inversion FF; auto.
    - rewrite Ks. exact (Hnt a n0 Wa E0). }
  destruct (mutable_iso h1 w1 fuel' W1 V1 Hm Hf') as (h2 & m2 & w2 & E2 & I2 & U2 & S).
  exists h2, w2. unfold mutable_copy. rewrite E2. cbn. split; auto. split; [|split; [|split; auto]].
  - apply (iso_ext (fun k => thawed (frozen k))); [|exact (iso_compose _ _ _ _ _ _ _ _ I I2)].
    intros k (a & n & Wa & En & <-). pose proof (Hfr a n Wa En) as C. cbn beta in C. destruct (n_kind n); cbn; auto; contradiction.
  - intros a La. assert (Ea : nth_error h1 a = nth_error h a) by (apply U; auto). rewrite <- Ea. apply U2.
    destruct (nth_some h a La) as [n En]. rewrite En in Ea. apply nth_lt in Ea. exact Ea.
Qed.
Print Assumptions C49_round_trip_partial.

Lemma graph_freezable : freezable graph (VRef 0).
Proof. intros a n W En. each_node a En; cbn; auto. repeat constructor. Qed.
Example C49_example :
  exists h1 w1 h2 w2, as_immutable 5 graph (VRef 0) = Ok (h1, w1) /\ kind_of h1 w1 = Some KImmutableList /\ mutable_copy 20 h1 w1 = Ok (h2, w2) /\
    isomorphic thawed graph (VRef 0) h2 w2 /\ kind_of h2 w2 = Some KList /\ as_immutable 1 h1 w1 = Ok (h1, w1).
Proof.
  destruct (C49_as_immutable graph (VRef 0) 5 graph_wf ltac:(cbn; lia) graph_freezable ltac:(cbn; lia)) as (h1 & w1 & E1 & _).
  assert (Ek : kind_of h1 w1 = Some KImmutableList /\ length h1 <= 20) by (vm_compute in E1; injection E1 as <- <-; split; [reflexivity|cbn; lia]). destruct Ek as [Ek Lk].
  destruct (C49_round_trip_partial graph (VRef 0) 5 20 h1 w1 graph_wf ltac:(cbn; lia) graph_freezable) as (h2 & w2 & E2 & I2 & _); auto.
  - intros a n W En. each_node a En; cbn; intros l X; intuition discriminate.
  - intros a n W En. each_node a En; cbn; intros; discriminate.
  - exists h1, w1, h2, w2. split; auto. split; auto. split; auto. split; auto. split.
    + vm_compute in E1. injection E1 as <- <-. vm_compute in E2. injection E2 as <- <-. reflexivity.
    + eapply C49_idempotent; [exact graph_wf| |exact graph_freezable| |exact E1|]; cbn; lia.
Qed.

(* The parts of C49 which are false. A tuple does not come back as a tuple. *)
Theorem C49_tuple_refuted (h : heap) (a : nat) (n : node) (fuel fuel' : nat) (h1 : heap) (w1 : val) (h2 : heap) (w2 : val) :
  nth_error h a = Some n -> n_kind n = KTup -> as_immutable fuel h (VRef a) = Ok (h1, w1) -> mutable_copy fuel' h1 w1 = Ok (h2, w2) ->
  kind_of h2 w2 = Some KList /\ ~ isomorphic (fun k => k) h (VRef a) h2 w2.
Proof.
  intros En K E1 E2. assert (X1 : kind_of h1 w1 = Some KImmutableList).
  { unfold as_immutable in E1. destruct fuel as [|f]; [discriminate|]. cbn [walk mlookup] in E1. rewrite En in E1. unfold as_immutable_visit in E1 at 1. rewrite K in E1.
    destruct (walk_items _ _ _ _ _) as [[hh mm]|] eqn:Ew; [|discriminate]. cbn in E1. injection E1 as <- <-. cbn.
    destruct (walk_items_kind _ (walk_kind _ f) _ _ _ _ _ _ (length h) (Node KImmutableList (n_data n) (n_keys n) []) Ew) as (n' & E' & K').
    - rewrite nth_error_app2, Nat.sub_diag by auto. reflexivity.
    - rewrite E'. cbn. rewrite K'. reflexivity. }
  destruct w1 as [|b]; [discriminate|]. cbn in X1. destruct (nth_error h1 b) as [nb|] eqn:Eb; [|discriminate]. injection X1 as X1.
  assert (X2 : kind_of h2 w2 = Some KList).
  { unfold mutable_copy in E2. destruct fuel' as [|f]; [discriminate|]. cbn [walk mlookup] in E2. rewrite Eb in E2. unfold mutable_copy_visit in E2 at 1. rewrite X1 in E2.
    destruct (walk_items _ _ _ _ _) as [[hh mm]|] eqn:Ew; [|discriminate]. cbn in E2. injection E2 as <- <-. cbn.
    destruct (walk_items_kind _ (walk_kind _ f) _ _ _ _ _ _ (length h1) (Node KList (n_data nb) (n_keys nb) []) Ew) as (n' & E' & K').
    - rewrite nth_error_app2, Nat.sub_diag by auto. reflexivity.
    - rewrite E'. cbn. rewrite K'. reflexivity. }
  split; auto. intros (B & R & _ & _ & D). destruct w2 as [|b2]; [discriminate|]. cbn in R, X2. destruct (D _ _ R) as (x & y & Ex & Ey & Ky & _). rewrite Ey in X2. cbn in X2. injection X2 as X2. congruence.
Qed.
Print Assumptions C49_tuple_refuted.
Example C49_tuple_example : exists h1 w1 h2 w2, as_immutable 9 graph (VRef 1) = Ok (h1, w1) /\ mutable_copy 30 h1 w1 = Ok (h2, w2) /\ kind_of h2 w2 = Some KList.
Proof. do 4 eexists. split; [reflexivity|]. split; [vm_compute; reflexivity|reflexivity]. Qed.
(* A dictionary with a tuple among its keys is made immutable, but mutable_copy then fails. *)
Theorem C49_tuple_key_refuted (h : heap) (a : nat) (n : node) (l : list key) (fuel fuel' : nat) :
  wf_heap h -> freezable h (VRef a) -> nth_error h a = Some n -> n_kind n = KDict -> In (KTuple l) (n_keys n) -> length h <= fuel -> 0 < fuel' ->
  exists h1 w1, as_immutable fuel h (VRef a) = Ok (h1, w1) /\ mutable_copy fuel' h1 w1 = Err TypeError.
Proof.
  intros Hwf Hfr En K Hin Hf Hf'. assert (La : wf_val h (VRef a)) by (cbn; apply nth_lt in En; auto).
  destruct (C49_as_immutable h (VRef a) fuel Hwf La Hfr Hf) as (h1 & w1 & E1 & (B & R & _ & _ & D) & _). exists h1, w1. split; auto.
  destruct w1 as [|b]; [contradiction|]. cbn in R. destruct (D _ _ R) as (x & y & Ex & Ey & Ky & _ & Kks & _). rewrite En in Ex. injection Ex as <-.
  destruct fuel' as [|f]; [lia|]. unfold mutable_copy. cbn [walk mlookup]. rewrite Ey. unfold mutable_copy_visit at 1. rewrite Ky, K. cbn [frozen]. rewrite Kks.
  replace (existsb _ (n_keys n)) with true; [reflexivity|]. symmetry. apply existsb_exists. exists (KTuple l). auto.
Qed.
Print Assumptions C49_tuple_key_refuted.
Example C49_tuple_key_example :
  exists h1 w1, as_immutable 4 [Node KDict [] [KTuple [KInt 1; KStr 2]] [VAtom 3]] (VRef 0) = Ok (h1, w1) /\ mutable_copy 4 h1 w1 = Err TypeError.
Proof.
  eapply C49_tuple_key_refuted with (l := [KInt 1; KStr 2]); [| |reflexivity|reflexivity|cbn; auto|cbn; lia|lia].
  - intros x n c E Hin. destruct x as [|[|]]; try discriminate. injection E as <-. cbn in Hin. intuition discriminate.
  - intros x n W E. destruct x as [|[|]]; try discriminate. injection E as <-. cbn. repeat constructor.
Qed.
(* A set which contains a tuple (or anything else with an identity, tensors excepted) cannot be made immutable. *)
Theorem C49_set_refuted (h : heap) (a c : nat) (n x : node) (fuel : nat) :
  nth_error h a = Some n -> n_kind n = KSet -> In (VRef c) (n_items n) -> nth_error h c = Some x -> n_kind x = KTup -> 0 < fuel ->
  as_immutable fuel h (VRef a) = Err TypeError.
Proof.
  intros En K Hin Ex Kx Hf. destruct fuel as [|f]; [lia|]. unfold as_immutable. cbn [walk mlookup]. rewrite En. unfold as_immutable_visit. rewrite K.
  replace (existsb _ (n_items n)) with true; [reflexivity|]. symmetry. apply existsb_exists. exists (VRef c). split; auto. cbn. rewrite Ex. cbn. rewrite Kx. reflexivity.
Qed.
Print Assumptions C49_set_refuted.
Example C49_set_example : as_immutable 9 [Node KSet [] [] [VAtom 4; VRef 1]; Node KTup [] [] [VAtom 1; VAtom 2]] (VRef 0) = Err TypeError.
Proof. eapply (C49_set_refuted _ 0 1); try reflexivity; [cbn; auto|lia]. Qed.
(* ... and neither can a dictionary with a key other than integers, strings and tuples of these. *)
Fixpoint acceptable_plain (k : key) {struct k} : acceptable_key k = true -> plain_key k.
Proof.
  destruct k as [z|z|l|z]; intros H; try constructor; [|discriminate H]. cbn in H. induction l as [|x l IH]; constructor.
  - apply acceptable_plain. cbn in H. destruct (acceptable_key x); [reflexivity|discriminate H].
  - apply IH. cbn in H. destruct (acceptable_key x); [exact H|discriminate H].
Qed.
Theorem C49_rejected_keys (h : heap) (a : nat) (n : node) (fuel : nat) (k : key) :
  nth_error h a = Some n -> n_kind n = KDict -> In k (n_keys n) -> ~ plain_key k -> 0 < fuel -> as_immutable fuel h (VRef a) = Err TypeError.
Proof.
  intros En K Hin Hk Hf. destruct fuel as [|f]; [lia|]. unfold as_immutable. cbn [walk mlookup]. rewrite En. unfold as_immutable_visit. rewrite K.
  destruct (forallb acceptable_key (n_keys n)) eqn:F; [|reflexivity]. exfalso. rewrite forallb_forall in F. apply Hk. apply acceptable_plain. auto.
Qed.
Print Assumptions C49_rejected_keys.
Example C49_rejected_keys_example : as_immutable 1 [Node KDict [] [KStr 1; KTuple [KOther 2]] [VAtom 4; VAtom 1]] (VRef 0) = Err TypeError.
Proof.
  eapply (C49_rejected_keys _ 0 _ 1 (KTuple [KOther 2])); try reflexivity; [cbn; auto| |lia].
  intros H. inversion H as [| |l F]; subst. inversion F as [|x l A B]; subst. inversion A.
Qed.

(* The copies which the traversal makes are isomorphic to the originals; composition; the three functions. *)
From Verif Require Import Prelude CloneModel CloneSpec CloneProofs.

Lemma within_edge h0 root a c : within h0 root a -> edge h0 a c -> within h0 root c.
Proof. destruct root as [|r]; cbn; [tauto|]. intros R E. apply (reach_step _ r a c); auto. Qed.

Section ISO.
Variable visit : heap -> node -> action.
Variable kinds : kind -> kind.
Variable h0 : heap.
Variable root : val.
Notation N := (length h0).
Notation act := (action_of visit h0).
Hypothesis Hwf : wf_heap h0.
Hypothesis Hroot : wf_val h0 root.
Hypothesis Hstable : forall h n, (forall x, x < N -> nth_error h x = nth_error h0 x) -> (forall c, In (VRef c) (n_items n) -> c < N) -> visit h n = visit h0 n.
Hypothesis Htuple : forall a b, within h0 root a -> act a = FillTuple -> edge h0 a b -> ~ reach h0 b a.
Hypothesis Hkeep : forall a c, within h0 root a -> act a = Keep -> edge h0 a c -> act c = Keep.
Hypothesis Hkinds : forall a n, within h0 root a -> nth_error h0 a = Some n ->
  match visit h0 n with
  | Keep => kinds (n_kind n) = n_kind n
  | Copy n1 => n1 = Node (kinds (n_kind n)) (n_data n) (n_keys n) [] /\ n_items n = []
  | Fill k => k = kinds (n_kind n)
  | FillTuple => kinds (n_kind n) = KTup
  | Fail _ => True
  end.
Theorem copy_iso f h' m' w : walk visit f h0 [] root = Ok (h', m', w) ->
  isomorphic kinds h0 root h' w /\ untouched h0 h' /\
  (forall b, within h' w b -> N <= b \/ (within h0 root b /\ act b = Keep)).
Proof.
  intros E. assert (L1 : leads h0 root [] root) by (destruct root; cbn; auto; intros g []).
  assert (L2 : in_scope h0 root root) by (destruct root; cbn; auto; constructor).
  destruct (walk_post visit h0 root Hwf Hroot Hstable Htuple f h0 [] [] root h' m' w (inv_init visit h0 root) L1 L2 E) as (HI & _ & _ & Hold & Him).
  set (B := fun a b => within h0 root a /\ ((act a = Keep /\ b = a) \/ (act a <> Keep /\ mlookup m' a = Some b))).
  assert (Hrel : forall v u, in_scope h0 root v -> image visit h0 m' v u -> related B v u).
  { intros v u Hs Hi. destruct v as [z|c]; cbn in *; [subst; reflexivity|].
    destruct (act c) eqn:Ec; [subst u; split; auto| | | |]; destruct Hi as (b & Eb & ->); split; auto; right; split; auto; congruence. }
  assert (Hdone : forall a b, B a b -> exists n n', nth_error h0 a = Some n /\ nth_error h' b = Some n' /\
       n_kind n' = kinds (n_kind n) /\ n_data n' = n_data n /\ n_keys n' = n_keys n /\ Forall2 (related B) (n_items n) (n_items n')).
  { intros a b [Wa Hab]. pose proof (root_lt visit h0 root Hwf Hroot Htuple a Wa) as La. destruct (nth_some h0 a La) as [n En]. pose proof (Hkinds a n Wa En) as HK.
    assert (Ea : act a = visit h0 n) by (unfold action_of; rewrite En; reflexivity).
    assert (Hin : forall u, In u (n_items n) -> in_scope h0 root u).
    { intros u Hu. destruct u as [|c]; cbn; auto. apply (within_edge h0 root a c Wa). exists n. auto. }
    destruct Hab as [[Hk ->]|[Hk Em]].
    - exists n, n. rewrite Hold by auto. split; auto. split; auto. rewrite Ea in Hk. rewrite Hk in HK. split; [congruence|]. split; auto. split; auto.
      assert (HA : forall u, In u (n_items n) -> related B u u).
      { intros u Hu. destruct u as [|c]; cbn; auto. assert (Ed : edge h0 a c) by (exists n; auto). split; [exact (within_edge h0 root a c Wa Ed)|]. left. split; auto. apply (Hkeep a c Wa); auto. congruence. }
      clear - HA. induction (n_items n) as [|u l IH]; constructor; [apply HA; cbn; auto|apply IH; intros; apply HA; cbn; auto].
    - destruct (i_done visit h0 root h' m' [] HI a b Em (fun X => X)) as [(n1 & En1 & D) _]. rewrite En in En1. injection En1 as <-.
      destruct (visit h0 n) as [|n1|k| |e] eqn:Ev; try contradiction.
      + destruct HK as [-> Hi]. exists n. eexists. split; auto. split; [exact D|]. cbn. rewrite Hi. auto.
      + destruct D as (ws & D1 & D2). exists n. eexists. split; auto. split; [exact D1|]. cbn. repeat split; auto.
        apply (Forall2_imp (image visit h0 m')); auto. 
      + destruct D as (ws & D1 & D2). exists n. eexists. split; auto. split; [exact D1|]. cbn. repeat split; auto.
        apply (Forall2_imp (image visit h0 m')); auto. }
  split; [|split].
  - exists B. split; [apply Hrel; auto|]. split; [|split; [|exact Hdone]].
    + intros a b b' [_ [[K1 ->]|[K1 E1]]] [_ [[K2 ->]|[K2 E2]]]; auto; congruence.
    + intros a a' b [W1 [[K1 ->]|[K1 E1]]] [W2 [[K2 E2]|[K2 E2]]]; auto.
      * apply (i_range visit h0 root h' m' [] HI) in E2. pose proof (root_lt visit h0 root Hwf Hroot Htuple a W1). lia.
      * subst b. apply (i_range visit h0 root h' m' [] HI) in E1. pose proof (root_lt visit h0 root Hwf Hroot Htuple a' W2). lia.
      * exact (i_inj visit h0 root h' m' [] HI a a' b E1 E2).
  - intros a La. apply (i_old visit h0 root h' m' [] HI a La).
  - intros b Wb. assert (X : exists a, B a b).
    { destruct w as [|r']; [contradiction|]. cbn in Wb. assert (Hr : exists a, B a r').
      { pose proof (Hrel _ _ L2 Him) as X. unfold related in X. destruct root as [|r]; [contradiction|]. exists r. exact X. }
      clear Him E. induction Wb as [|r' x y R IH Ed]; auto. destruct (IH Hr) as [a Ba]. destruct (Hdone a x Ba) as (n & n' & En & En' & _ & _ & _ & F).
      destruct Ed as (n2 & En2 & Hin). rewrite En' in En2. injection En2 as <-.
      clear - F Hin. induction F as [|u v l k Ruv F IHF]; [contradiction|]. destruct Hin as [->|Hin]; auto. destruct u as [|c]; [contradiction|]. exists c. exact Ruv. }
    destruct X as (a & Wa & [[K ->]|[K E1]]); auto. left. apply (i_range visit h0 root h' m' [] HI) in E1. lia.
Qed.
End ISO.

Lemma iso_compose k1 k2 h v h1 v1 h2 v2 : isomorphic k1 h v h1 v1 -> isomorphic k2 h1 v1 h2 v2 -> isomorphic (fun k => k2 (k1 k)) h v h2 v2.
Proof.
  intros (B1 & R1 & F1 & I1 & D1) (B2 & R2 & F2 & I2 & D2). exists (fun a c => exists b, B1 a b /\ B2 b c).
  assert (RC : forall u v w, related B1 u v -> related B2 v w -> related (fun a c => exists b, B1 a b /\ B2 b c) u w).
  { intros [x|x] [y|y] [z|z]; cbn; try tauto; [congruence|]. intros; eauto. }
  split; [eapply RC; eauto|]. split; [|split].
  - intros a c c' (b & X1 & X2) (b' & Y1 & Y2). assert (b = b') by eauto. subst. eauto.
  - intros a a' c (b & X1 & X2) (b' & Y1 & Y2). assert (b = b') by eauto. subst. eauto.
  - intros a c (b & X1 & X2). destruct (D1 a b X1) as (n & n1 & E1 & E2 & K1 & A1 & A2 & A3). destruct (D2 b c X2) as (n1' & n2 & E1' & E2' & K2 & B1' & B2' & B3).
    rewrite E2 in E1'. injection E1' as <-. exists n, n2. split; auto. split; auto. split; [congruence|]. split; [congruence|]. split; [congruence|].
    clear - A3 B3 RC. revert B3. generalize (n_items n2). induction A3 as [|u v l k Ruv A IH]; intros l2 B3; inversion B3; subst; constructor; eauto.
Qed.
Lemma iso_ext k k' h v h1 v1 : (forall x, (exists a n, within h v a /\ nth_error h a = Some n /\ n_kind n = x) -> k x = k' x) ->
  isomorphic k h v h1 v1 -> isomorphic k' h v h1 v1.
Proof.
  intros Hk (B & R & F & I & D). exists (fun a b => B a b /\ within h v a).
  assert (RW : forall u u', related B u u' -> (forall c, u = VRef c -> within h v c) -> related (fun a b => B a b /\ within h v a) u u').
  { intros [x|x] [y|y]; cbn; auto. }
  split; [apply RW; auto; intros c ->; constructor|]. split; [|split].
  - intros a b b' [X _] [Y _]. eauto.
  - intros a b b' [X _] [Y _]. eauto.
  - intros a b [X W]. destruct (D a b X) as (n & n1 & E1 & E2 & K1 & A1 & A2 & A3). exists n, n1. split; auto. split; auto.
    split; [rewrite K1; apply Hk; eauto|]. split; auto. split; auto. apply (Forall2_imp (related B)); auto. intros u u' Hin Ru. apply RW; auto.
    intros c ->. destruct v as [|r]; [contradiction|]. apply (reach_step _ r a c); auto. exists n. auto.
Qed.
(* what is within reach of a copy comes from what is within reach of the original *)
Lemma iso_within k h v h1 v1 : isomorphic k h v h1 v1 -> exists B : nat -> nat -> Prop, (forall b, within h1 v1 b -> exists a, within h v a /\ B a b) /\
  (forall a b, B a b -> exists n n', nth_error h a = Some n /\ nth_error h1 b = Some n' /\ n_kind n' = k (n_kind n) /\ n_keys n' = n_keys n /\ n_data n' = n_data n /\
      Forall2 (related B) (n_items n) (n_items n')) /\ related B v v1.
Proof.
  intros (B & R & F & I & D). exists B. split; [|split; auto].
  - intros b W. destruct v1 as [|r1]; [contradiction|]. cbn in W. destruct v as [|r]; [contradiction|]. cbn in R.
    assert (X : exists a, reach h r a /\ B a b).
    { induction W as [|r1 x y W IH Ed]; [exists r; split; auto; constructor|]. destruct (IH R) as (a & Ra & Ba). destruct (D a x Ba) as (n & n' & E1 & E2 & _ & _ & _ & A3).
      destruct Ed as (n2 & En2 & Hin). rewrite E2 in En2. injection En2 as <-.
      assert (Y : exists c, In (VRef c) (n_items n) /\ B c y).
      { clear - A3 Hin. induction A3 as [|u w l k Ruw A IH]; [contradiction|]. destruct Hin as [->|Hin].
        - destruct u as [|c]; [contradiction|]. exists c. cbn. auto.
        - destruct (IH Hin) as (c & Hc & Bc). exists c. cbn. auto. }
      destruct Y as (c & Hc & Bc). exists c. split; auto. apply (reach_step _ r a c); auto. exists n. auto. }
    destruct X as (a & Ra & Ba). exists a. auto.
  - intros a b X. destruct (D a b X) as (n & n1 & E1 & E2 & K1 & A1 & A2 & A3). exists n, n1. auto 8.
Qed.

(* ---- stability of the three visits ---- *)
Lemma kind_of_stable h0 h v : (forall x, x < length h0 -> nth_error h x = nth_error h0 x) -> (forall c, v = VRef c -> c < length h0) -> kind_of h v = kind_of h0 v.
Proof. intros H1 H2. destruct v as [|c]; cbn; auto. rewrite H1; auto. Qed.
Lemma existsb_stable (p : option kind -> bool) h0 h l : (forall x, x < length h0 -> nth_error h x = nth_error h0 x) -> (forall c, In (VRef c) l -> c < length h0) ->
  existsb (fun v => p (kind_of h v)) l = existsb (fun v => p (kind_of h0 v)) l.
Proof.
  intros H1 H2. induction l as [|v l IH]; auto. cbn [existsb]. rewrite IH by (intros; apply H2; cbn; auto). rewrite (kind_of_stable h0 h v); auto.
  intros c ->. apply H2. cbn. auto.
Qed.
Lemma deep_clone_stable fb h0 h n : (forall x, x < length h0 -> nth_error h x = nth_error h0 x) -> (forall c, In (VRef c) (n_items n) -> c < length h0) ->
  deep_clone_visit fb h n = deep_clone_visit fb h0 n.
Proof. intros H1 H2. unfold deep_clone_visit. rewrite (existsb_stable is_object_array h0 h); auto. Qed.
Lemma as_immutable_stable h0 h n : (forall x, x < length h0 -> nth_error h x = nth_error h0 x) -> (forall c, In (VRef c) (n_items n) -> c < length h0) ->
  as_immutable_visit h n = as_immutable_visit h0 n.
Proof. intros H1 H2. unfold as_immutable_visit. rewrite (existsb_stable becomes_unhashable h0 h); auto. Qed.

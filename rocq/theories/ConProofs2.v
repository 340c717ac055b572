(* Cast copies of containers are like the originals; what can be within reach of a copy. *)
From Verif Require Import Prelude CloneModel CloneSpec CloneProofs CloneProofs2 CloneProofs3 ConModel ConSpec ConProofs.

Section ALIKE.
Variable visit : heap -> node -> action.
Variable R : node -> node -> Prop.
Variable h0 : heap.
Variable root : val.
Notation N := (length h0).
Notation act := (action_of visit h0).
Hypothesis Hwf : wf_heap h0.
Hypothesis Hroot : wf_val h0 root.
Hypothesis Hstable : forall h n, (forall x, x < N -> nth_error h x = nth_error h0 x) -> (forall c, In (VRef c) (n_items n) -> c < N) -> visit h n = visit h0 n.
Hypothesis Htuple : forall a b, within h0 root a -> act a = FillTuple -> edge h0 a b -> ~ reach h0 b a.
Hypothesis HR : forall a n, within h0 root a -> nth_error h0 a = Some n ->
  match visit h0 n with
  | Keep => R n n /\ n_items n = []
  | Copy n1 => R n n1 /\ n_items n = [] /\ n_items n1 = []
  | Fill k => forall ws, R n (Node k (n_data n) (n_keys n) ws)
  | FillTuple => forall ws, R n (Node KTup (n_data n) (n_keys n) ws)
  | Fail _ => True
  end.
Theorem copy_alike f h' m' w : walk visit f h0 [] root = Ok (h', m', w) ->
  alike R h0 root h' w /\ untouched h0 h' /\
  (forall b, within h' w b -> N <= b \/ (within h0 root b /\ act b = Keep)).
Proof.
  intros E. assert (L1 : leads h0 root [] root) by (destruct root; cbn; auto; intros g []).
  assert (L2 : in_scope h0 root root) by (destruct root; cbn; auto; constructor).
  destruct (walk_post visit h0 root Hwf Hroot Hstable Htuple f h0 [] [] root h' m' w (inv_init visit h0 root) L1 L2 E) as (HI & _ & _ & Hold & Him).
  set (B := fun a b => within h0 root a /\ ((act a = Keep /\ b = a) \/ (act a <> Keep /\ mlookup m' a = Some b))).
  assert (Hrel : forall v u, in_scope h0 root v -> image visit h0 m' v u -> related B v u).
  { intros v u Hs Hi. destruct v as [z|c]; cbn in *; [subst; reflexivity|].
    destruct (act c) eqn:Ec; [subst u; split; auto| | | |]; destruct Hi as (b & Eb & ->); split; auto; right; split; auto; congruence. }
  assert (Hdone : forall a b, B a b -> within h0 root a /\ exists n n', nth_error h0 a = Some n /\ nth_error h' b = Some n' /\ R n n' /\ Forall2 (related B) (n_items n) (n_items n')).
  { intros a b [Wa Hab]. split; auto. pose proof (root_lt visit h0 root Hwf Hroot Htuple a Wa) as La. destruct (nth_some h0 a La) as [n En]. pose proof (HR a n Wa En) as HK.
    assert (Ea : act a = visit h0 n) by (unfold action_of; rewrite En; reflexivity).
    assert (Hin : forall u, In u (n_items n) -> in_scope h0 root u).
    { intros u Hu. destruct u as [|c]; cbn; auto. apply (within_edge h0 root a c Wa). exists n. auto. }
    destruct Hab as [[Hk ->]|[Hk Em]].
    - exists n, n. rewrite Hold by auto. split; auto. split; auto. rewrite Ea in Hk. rewrite Hk in HK. destruct HK as [HK ->]. split; auto.
    - destruct (i_done visit h0 root h' m' [] HI a b Em (fun X => X)) as [(n1 & En1 & D) _]. rewrite En in En1. injection En1 as <-.
      destruct (visit h0 n) as [|n1|k| |e] eqn:Ev; try contradiction.
      + destruct HK as (HK & Hi & Hi1). exists n, n1. rewrite Hi, Hi1. auto.
      + destruct D as (ws & D1 & D2). exists n. eexists. split; auto. split; [exact D1|]. split; [apply HK|]. cbn. apply (Forall2_imp (image visit h0 m')); auto.
      + destruct D as (ws & D1 & D2). exists n. eexists. split; auto. split; [exact D1|]. split; [apply HK|]. cbn. apply (Forall2_imp (image visit h0 m')); auto. }
  split; [|split].
  - exists B. split; [apply Hrel; auto|]. split; [|split; [|exact Hdone]].
    + intros a b b' [_ [[K1 ->]|[K1 E1]]] [_ [[K2 ->]|[K2 E2]]]; auto; congruence.
    + intros a a' b [W1 [[K1 ->]|[K1 E1]]] [W2 [[K2 E2]|[K2 E2]]]; auto.
      * apply (i_range visit h0 root h' m' [] HI) in E2. pose proof (root_lt visit h0 root Hwf Hroot Htuple a W1). lia.
      * subst b. apply (i_range visit h0 root h' m' [] HI) in E1. pose proof (root_lt visit h0 root Hwf Hroot Htuple a' W2). lia.
      * exact (i_inj visit h0 root h' m' [] HI a a' b E1 E2).
  - intros a La. apply (i_old visit h0 root h' m' [] HI a La).
  - intros b Wb. assert (X : exists a, B a b).
    { destruct w as [|r']; [contradiction|]. cbn in Wb. assert (Hr : exists a, B a r').
      { pose proof (Hrel _ _ L2 Him) as X. unfold related in X. destruct root as [|r]; [contradiction|]. exists r. exact X. }
      clear Him E. induction Wb as [|r' x y RR IH Ed]; auto. destruct (IH Hr) as [a Ba]. destruct (Hdone a x Ba) as (_ & n & n' & En & En' & _ & F).
      destruct Ed as (n2 & En2 & Hin). rewrite En' in En2. injection En2 as <-.
      clear - F Hin. induction F as [|u v l k Ruv F IHF]; [contradiction|]. destruct Hin as [->|Hin]; auto. destruct u as [|c]; [contradiction|]. exists c. exact Ruv. }
    destruct X as (a & Wa & [[K ->]|[K E1]]); auto. left. apply (i_range visit h0 root h' m' [] HI) in E1. lia.
Qed.
End ALIKE.

(* corresponding objects are within reach of each other *)
Lemma alike_back R h v h' w : alike R h v h' w -> exists B : nat -> nat -> Prop,
  (forall b, within h' w b -> exists a, within h v a /\ B a b) /\ (forall a, within h v a -> exists b, within h' w b /\ B a b) /\
  (forall a b, B a b -> exists n n', nth_error h a = Some n /\ nth_error h' b = Some n' /\ R n n' /\ Forall2 (related B) (n_items n) (n_items n')).
Proof.
  intros (B & RR & F & I & D). exists B. split; [|split].
  - intros b W. destruct w as [|r1]; [contradiction|]. destruct v as [|r]; [contradiction|]. cbn in W, RR.
    assert (X : exists a, B a b).
    { induction W as [|r1 x y W IH Ed]; eauto. destruct (IH RR) as (a & Ba). destruct (D a x Ba) as (_ & n & n' & E1 & E2 & _ & A3).
      destruct Ed as (n2 & En2 & Hin). rewrite E2 in En2. injection En2 as <-.
      clear - A3 Hin. induction A3 as [|u w l k Ruw A IH]; [contradiction|]. destruct Hin as [->|Hin]; [|apply IH; auto]. destruct u as [|c]; [contradiction|]. exists c. exact Ruw. }
    destruct X as (a & Ba). exists a. split; auto. apply (D a b Ba).
  - intros a W. destruct v as [|r]; [contradiction|]. destruct w as [|r1]; [contradiction|]. cbn in W, RR. cbn [within].
    assert (D' : forall a b, B a b -> exists n n', nth_error h a = Some n /\ nth_error h' b = Some n' /\ Forall2 (related B) (n_items n) (n_items n')).
    { intros x y Bxy. destruct (D x y Bxy) as (_ & n & n' & E1 & E2 & _ & A3). eauto. }
    clear D. induction W as [|r x y W IH Ed]; [exists r1; split; auto; constructor|]. destruct (IH RR) as (b & Rb & Bb). destruct (D' x b Bb) as (n & n' & E1 & E2 & A3).
    destruct Ed as (n2 & En2 & Hin). rewrite E1 in En2. injection En2 as <-.
    assert (Y : exists c, In (VRef c) (n_items n') /\ B y c).
    { clear - A3 Hin. induction A3 as [|u w l k Ruw A IH]; [contradiction|]. destruct Hin as [->|Hin].
      - destruct w as [|c]; [contradiction|]. exists c. cbn. auto.
      - destruct (IH Hin) as (c & Hc & Bc). exists c. cbn. auto. }
    destruct Y as (c & Hc & Bc). exists c. split; auto. apply (reach_step _ r1 b c); auto. exists n'. auto.
  - intros a b X. destruct (D a b X) as (_ & n & n1 & E1 & E2 & K1 & A3). eauto 8.
Qed.

Section CAST.
Variable conv : Z -> Z -> list Z -> list Z.
Variables dtype device : option Z.
Notation visit := (cast_visit conv dtype device).
Lemma data_parts n : 2 <= length (n_data n) -> n_data n = t_dtype n :: t_device n :: t_values n.
Proof. unfold t_dtype, t_device, t_values. destruct (n_data n) as [|d [|v l]]; cbn; intros; try lia. reflexivity. Qed.
Lemma as_asked_eq o x : as_asked o x = true -> match o with Some y => y | None => x end = x.
Proof. destruct o; cbn; auto. intros E. apply Z.eqb_eq in E. auto. Qed.
Lemma recast_cast n : n_kind n = KTensor -> 2 <= length (n_data n) -> cast_of conv dtype device n (recast conv dtype device n).
Proof.
  intros K L. unfold cast_of. rewrite K. exists (t_dtype n), (t_device n), (t_values n). split; [apply data_parts; auto|]. split; auto. split; auto.
  eexists. eexists. split; [reflexivity|]. split; [reflexivity|]. unfold recast. cbn [n_data]. f_equal. f_equal.
  destruct (Z.eqb_spec (match dtype with Some d => d | None => t_dtype n end) (t_dtype n)) as [Q|Q]; destruct (Z.eq_dec _ _); congruence.
Qed.
Lemma kept_cast n : n_kind n = KTensor -> 2 <= length (n_data n) -> as_asked dtype (t_dtype n) = true -> as_asked device (t_device n) = true -> cast_of conv dtype device n n.
Proof.
  intros K L A1 A2. unfold cast_of. rewrite K. exists (t_dtype n), (t_device n), (t_values n). split; [apply data_parts; auto|]. split; auto. split; auto.
  eexists. eexists. split; [reflexivity|]. split; [reflexivity|]. rewrite (as_asked_eq _ _ A1), (as_asked_eq _ _ A2). destruct (Z.eq_dec _ _); [apply data_parts; auto|congruence].
Qed.
Lemma cast_alike fuel h v : wf_heap h -> wf_val h v -> no_cycle_through h KTup v -> castable h v -> length h <= fuel ->
  exists h' w, cast_tensors_in_container conv dtype device fuel h v = Ok (h', w) /\ wf_heap h' /\ wf_val h' w /\ length h <= length h' /\
    alike (cast_of conv dtype device) h v h' w /\ untouched h h' /\
    (forall b n, within h' w b -> nth_error h' b = Some n -> b < length h -> n_kind n = KBytes \/ (n_kind n = KTensor /\ as_asked dtype (t_dtype n) = true /\ as_asked device (t_device n) = true)).
Proof.
  intros Hwf Hv Hc Hcl Hf.
  assert (Hst : forall h1 n, (forall x, x < length h -> nth_error h1 x = nth_error h x) -> (forall c, In (VRef c) (n_items n) -> c < length h) -> visit h1 n = visit h n) by reflexivity.
  assert (Ha : forall a n, nth_error h a = Some n -> action_of visit h a = visit h n) by (intros a n E; unfold action_of; rewrite E; reflexivity).
  assert (Htup : forall a b, within h v a -> action_of visit h a = FillTuple -> edge h a b -> ~ reach h b a).
  { intros a b W A Ed. pose proof Ed as (n & En & _). apply (Hc a n b W En); auto. rewrite (Ha a n En) in A. unfold cast_visit in A.
    destruct (n_kind n); cbn in A; try discriminate; auto. destruct (as_asked _ _ && as_asked _ _); discriminate. }
  assert (Hok : forall a n e, within h v a -> nth_error h a = Some n -> visit h n <> Fail e).
  { intros a n e W En. specialize (Hcl a n W En). cbn in Hcl. unfold cast_visit. destruct (n_kind n); cbn; try discriminate; try contradiction. destruct (as_asked _ _ && as_asked _ _); discriminate. }
  destruct (is_ok_ex _ (copy_terminates visit h v Hwf Hv Hst Htup Hok fuel Hf)) as [[[h' m'] w] E].
  exists h', w. unfold cast_tensors_in_container. rewrite E. cbn. split; auto.
  assert (HR : forall a n, within h v a -> nth_error h a = Some n ->
    match visit h n with
    | Keep => cast_of conv dtype device n n /\ n_items n = []
    | Copy n1 => cast_of conv dtype device n n1 /\ n_items n = [] /\ n_items n1 = []
    | Fill k => forall ws, cast_of conv dtype device n (Node k (n_data n) (n_keys n) ws)
    | FillTuple => forall ws, cast_of conv dtype device n (Node KTup (n_data n) (n_keys n) ws)
    | Fail _ => True
    end).
  { intros a n W En. specialize (Hcl a n W En). cbn in Hcl. unfold cast_visit.
    destruct (n_kind n) eqn:K; cbn [class_of]; try contradiction; try (intros ws; unfold cast_of; rewrite K; cbn; auto; fail).
    - split; auto. unfold cast_of. rewrite K. auto.
    - destruct Hcl as [L Hi]. destruct (as_asked dtype (t_dtype n) && as_asked device (t_device n)) eqn:A.
      + apply andb_prop in A. destruct A. split; auto. apply kept_cast; auto.
      + split; [apply recast_cast; auto|]. split; auto. }
  destruct (copy_alike visit (cast_of conv dtype device) h v Hwf Hv Hst Htup HR fuel h' m' w E) as (A & U & S).
  assert (WF : wf_heap h' /\ wf_val h' w /\ length h <= length h').
  { destruct (walk_wf visit) with (f := fuel) (h := h) (m := @nil (nat * nat)) (v := v) (h' := h') (m' := m') (w := w) as (F & W & L); auto.
    all: try (intros h1 n n1 c K Hin; unfold cast_visit in K; destruct (n_kind n); cbn in K; try discriminate;
      [ destruct (as_asked _ _ && as_asked _ _); [discriminate|]; injection K as <-; exact Hin
      | injection K as <-; cbn in Hin; apply in_map_iff in Hin; destruct Hin as (z & Hz & _); discriminate ]).
    all: try (split; [exact Hwf|intros a b X; discriminate]).
    split; [apply F|]. auto. }
  destruct WF as (W1 & W2 & W3). split; auto. split; auto. split; auto. split; auto. split; auto.
  intros b n Wb En Lb. destruct (S b Wb) as [X|[Wa K]]; [lia|]. rewrite (U b Lb) in En. rewrite (Ha b n En) in K. unfold cast_visit in K.
  specialize (Hcl b n Wa En). cbn in Hcl. destruct (n_kind n); cbn in K; try discriminate; auto.
  destruct (as_asked dtype (t_dtype n)), (as_asked device (t_device n)); try discriminate; auto.
Qed.
End CAST.

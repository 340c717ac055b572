(* The three copying functions. *)
From Verif Require Import Prelude CloneModel CloneSpec CloneProofs CloneProofs2.

Section WF.
Variable visit : heap -> node -> action.
Hypothesis Hcopy : forall h n n1 c, visit h n = Copy n1 -> In (VRef c) (n_items n1) -> In (VRef c) (n_items n).
Definition memo_in (h : heap) (m : memo) : Prop := forall a b, mlookup m a = Some b -> b < length h.
Definition fine (h : heap) (m : memo) : Prop := wf_heap h /\ memo_in h m.
Lemma wf_add h b v : wf_heap h -> wf_val h v -> wf_heap (add_item h b v).
Proof.
  intros H Hv x n c E Hin. rewrite add_item_length. destruct (Nat.eq_dec x b) as [->|Hx].
  - destruct (nth_error h b) as [nb|] eqn:Eb.
    + rewrite (add_item_self _ _ _ _ Eb) in E. injection E as <-. cbn in Hin. apply in_app_iff in Hin. destruct Hin as [Hin|[->|[]]]; [exact (H _ _ _ Eb Hin)|exact Hv].
    + unfold add_item in E. rewrite Eb in E. congruence.
  - rewrite add_item_nth in E by auto. exact (H _ _ _ E Hin).
Qed.
Lemma wf_push h n : wf_heap h -> (forall c, In (VRef c) (n_items n) -> c < S (length h)) -> wf_heap (h ++ [n]).
Proof.
  intros H Hn x y c E Hin. rewrite app_length. cbn. destruct (Nat.lt_ge_cases x (length h)) as [L|L].
  - rewrite nth_error_app1 in E by auto. specialize (H _ _ _ E Hin). lia.
  - rewrite nth_error_app2 in E by auto. destruct (x - length h) as [|[|]]; cbn in E; try discriminate. injection E as <-. specialize (Hn _ Hin). lia.
Qed.
Lemma wf_val_mono h h' v : length h <= length h' -> wf_val h v -> wf_val h' v.
Proof. destruct v; cbn; auto; lia. Qed.
Lemma walk_items_wf w : (forall h m v h' m' v', fine h m -> wf_val h v -> w h m v = Ok (h', m', v') -> fine h' m' /\ wf_val h' v' /\ length h <= length h') ->
  forall l h m b h' m', fine h m -> Forall (wf_val h) l -> walk_items w h m b l = Ok (h', m') -> fine h' m' /\ length h <= length h'.
Proof.
  intros Hw. induction l as [|v l IH]; intros h m b h' m' HF Hl E; cbn in E.
  - injection E as <- <-. auto.
  - destruct (w h m v) as [[[h1 m1] v1]|] eqn:Ew; [|discriminate]. cbn in E. inversion Hl as [|? ? Hv Hl']; subst.
    destruct (Hw _ _ _ _ _ _ HF Hv Ew) as ([F1 F2] & V1 & L1). apply IH in E.
    + rewrite add_item_length in E. split; [tauto|lia].
    + split; [apply wf_add; auto|]. intros a b' X. rewrite add_item_length. eauto.
    + apply Forall_forall. intros u Hu. apply (wf_val_mono h); [rewrite add_item_length; lia|]. rewrite Forall_forall in Hl'. auto.
Qed.
Lemma walk_wf : forall f h m v h' m' w, fine h m -> wf_val h v -> walk visit f h m v = Ok (h', m', w) -> fine h' m' /\ wf_val h' w /\ length h <= length h'.
Proof.
  induction f as [|f IH]; intros h m v h' m' w HF Hv E; destruct v as [z|a]; cbn in E.
  1,3: injection E as <- <- <-; auto.
  - destruct (mlookup m a) as [b|] eqn:Em; [|discriminate]. injection E as <- <- <-. split; auto. split; auto. exact (proj2 HF a b Em).
  - destruct (mlookup m a) as [b|] eqn:Em; [injection E as <- <- <-; split; auto; split; auto; exact (proj2 HF a b Em)|].
    destruct (nth_error h a) as [n|] eqn:En; [|discriminate]. 
    assert (HI : forall c, In (VRef c) (n_items n) -> c < length h) by (intros c Hc; exact (proj1 HF _ _ _ En Hc)).
    assert (HV : forall X, length h <= length X -> Forall (wf_val X) (n_items n)).
    { intros X LX. apply Forall_forall. intros [z|c] Hc; cbn; auto. specialize (HI c Hc). lia. }
    assert (HM : forall X, length h < length X -> memo_in X ((a, length h) :: m)).
    { intros X LX x b Ex. cbn in Ex. destruct (a =? x); [injection Ex as <-; lia|]. pose proof (proj2 HF x b Ex). lia. }
    destruct (visit h n) as [|n1|k| |e] eqn:Ev.
    + injection E as <- <- <-. auto.
    + injection E as <- <- <-. assert (length h < length (h ++ [n1])) by (rewrite app_length; cbn; lia). split; [split; [apply wf_push; [apply HF|]|apply HM; auto]|split; [cbn; lia|lia]].
      intros c Hc. apply (Hcopy _ _ _ _ Ev) in Hc. specialize (HI c Hc). lia.
    + set (hk := h ++ [_]) in *. assert (LK : length hk = S (length h)) by (unfold hk; rewrite app_length; cbn; lia).
      assert (HFk : fine hk ((a, length h) :: m)).
      { split; [apply wf_push; [apply HF|cbn; tauto]|apply HM; lia]. }
      clearbody hk. destruct (walk_items (walk visit f) hk _ _ (n_items n)) as [[h1 m1]|] eqn:Ew; [|discriminate]. cbn in E. injection E as <- <- <-.
      destruct (walk_items_wf (walk visit f) IH _ _ _ _ _ _ HFk (HV hk ltac:(lia)) Ew) as [F L]. split; auto. cbn. lia.
    + set (hk := h ++ [_]) in *. assert (LK : length hk = S (length h)) by (unfold hk; rewrite app_length; cbn; lia).
      assert (HFk : fine hk ((a, length h) :: m)).
      { split; [apply wf_push; [apply HF|cbn; tauto]|apply HM; lia]. }
      clearbody hk. destruct (walk_items (walk visit f) hk _ _ (n_items n)) as [[h1 m1]|] eqn:Ew; [|discriminate]. cbn in E. injection E as <- <- <-.
      destruct (walk_items_wf (walk visit f) IH _ _ _ _ _ _ HFk (HV hk ltac:(lia)) Ew) as [F L]. split; [split|cbn [wf_val]; rewrite app_length; cbn [length]; split; lia].
      * apply wf_push; [apply F|]. cbn. intros c Hc. destruct (nth_error h1 (length h)) as [nl|] eqn:El; [|contradiction]. pose proof (proj1 F _ _ _ El Hc). lia.
      * intros x b Ex. rewrite app_length. cbn in *. destruct (a =? x); [injection Ex as <-; lia|]. pose proof (proj2 F x b Ex). lia.
    + discriminate.
Qed.
End WF.

Lemma is_ok_ex {X} (r : result X) : is_ok r = true -> exists x, r = Ok x.
Proof. destruct r; cbn; [eauto|discriminate]. Qed.

(* ---- deep_clone ---- *)
Lemma clone_act fb h a n : nth_error h a = Some n -> action_of (deep_clone_visit fb) h a = deep_clone_visit fb h n.
Proof. intros E. unfold action_of. rewrite E. reflexivity. Qed.
Definition rejects (fb : fallback) : bool := match fb with OtherwiseFail => true | _ => false end.
Lemma clone_iso fb h v fuel : wf_heap h -> wf_val h v -> no_cycle_through h KTup v -> clonable (rejects fb) h v -> length h <= fuel ->
  exists h' m' w, walk (deep_clone_visit fb) fuel h [] v = Ok (h', m', w) /\ isomorphic (fun k => k) h v h' w /\ untouched h h' /\
    (forall b n, within h' w b -> nth_error h' b = Some n -> b < length h -> n_kind n = KBytes \/ (fb = OtherwiseReturn /\ n_kind n = KUnknown)).
Proof.
  intros Hwf Hv Hcyc Hcl Hf.
  assert (Htup : forall a b, within h v a -> action_of (deep_clone_visit fb) h a = FillTuple -> edge h a b -> ~ reach h b a).
  { intros a b W Ea Ed. destruct Ed as (n & En & Hin). rewrite (clone_act fb h a n En) in Ea. apply (Hcyc a n b W En); [|exists n; auto].
    unfold deep_clone_visit in Ea. destruct (n_kind n); try discriminate; auto; first [destruct (existsb _ _); discriminate | destruct fb; discriminate]. }
  assert (Hkp : forall a n, within h v a -> nth_error h a = Some n -> deep_clone_visit fb h n = Keep -> n_kind n = KBytes \/ (fb = OtherwiseReturn /\ n_kind n = KUnknown)).
  { intros a n W En E. unfold deep_clone_visit in E. destruct (n_kind n); try discriminate; auto; try (destruct (existsb _ _); discriminate). destruct fb; try discriminate. auto. }
  assert (Hoa : forall a n ro, within h v a -> nth_error h a = Some n -> n_kind n = KObjectArray ro -> existsb (fun v => is_object_array (kind_of h v)) (n_items n) = false).
  { intros a n ro W En K. destruct (existsb _ _) eqn:X; auto. apply existsb_exists in X. destruct X as (u & Hu & X). destruct u as [|c]; [discriminate|]. cbn in X.
    destruct (nth_error h c) as [x|] eqn:Ex; [|discriminate]. cbn in X. destruct (n_kind x) as [| | | | |r| | | | | | | | |] eqn:Kx; try discriminate. exfalso.
    destruct (Hcl a n W En) as (_ & _ & _ & _ & C). exact (C ro c x K Hu Ex r Kx). }
  assert (Hok : forall a n e, within h v a -> nth_error h a = Some n -> deep_clone_visit fb h n <> Fail e).
  { intros a n e W En. destruct (Hcl a n W En) as (C1 & C2 & C3 & C4 & C5). unfold deep_clone_visit. destruct (n_kind n) eqn:K; try discriminate.
    - rewrite (Hoa a n _ W En K). discriminate.
    - destruct fb; try discriminate. exfalso. apply C3; auto. }
  destruct (is_ok_ex _ (copy_terminates (deep_clone_visit fb) h v Hwf Hv (fun x n => deep_clone_stable fb h x n) Htup Hok fuel Hf)) as [[[h' m'] w] E].
  exists h', m', w. split; auto.
  destruct (copy_iso (deep_clone_visit fb) (fun k => k) h v Hwf Hv (fun x n => deep_clone_stable fb h x n) Htup) with (f := fuel) (h' := h') (m' := m') (w := w) as (I & U & S); auto.
  - intros a c W Ea (n & En & Hin). rewrite (clone_act fb h a n En) in Ea. destruct (Hcl a n W En) as (C1 & C2 & C3 & C4 & C5).
    destruct (Hkp a n W En Ea) as [K|[_ K]]; rewrite K in C4; rewrite C4 in Hin by reflexivity; contradiction.
  - intros a n W En. destruct (Hcl a n W En) as (C1 & C2 & C3 & C4 & C5). pose proof (Hoa a n) as HO. unfold deep_clone_visit. destruct n as [k d ks it]. cbn in *. destruct k as [| | |wr| |ro| | | | | | | |cls|]; auto.
    + rewrite C4 by reflexivity. auto.
    + rewrite C4 by reflexivity. auto.
    + rewrite C4 by reflexivity. auto.
    + congruence.
    + rewrite (HO ro) by auto. destruct ro; congruence.
    + destruct fb; auto. rewrite C4 by reflexivity. auto.
  - split; auto. split; auto. intros b n W En L. destruct (S b W) as [?|[Wb Kb]]; [lia|]. rewrite U in En by auto. rewrite (clone_act fb h b n En) in Kb. exact (Hkp b n Wb En Kb).
Qed.

(* ---- as_immutable ---- *)
Lemma imm_act h a n : nth_error h a = Some n -> action_of as_immutable_visit h a = as_immutable_visit h n.
Proof. intros E. unfold action_of. rewrite E. reflexivity. Qed.
Fixpoint plain_acceptable k (H : plain_key k) {struct H} : acceptable_key k = true.
Proof.
  destruct H as [z|z|l H]; auto. cbn. induction H as [|x l Hx H IH]; auto. cbn. rewrite (plain_acceptable x Hx). exact IH.
Qed.
Lemma plain_keys_acceptable l : Forall plain_key l -> forallb acceptable_key l = true.
Proof. induction 1 as [|x l Hx H IH]; auto. cbn. rewrite plain_acceptable; auto. Qed.
Lemma imm_tuple h n : as_immutable_visit h n <> FillTuple.
Proof. unfold as_immutable_visit. destruct (n_kind n) as [| | |[]| |[]| | | | | | | | |]; try discriminate; [destruct (existsb _ _)|destruct (forallb _ _)]; discriminate. Qed.
Lemma imm_copy h n n1 c : as_immutable_visit h n = Copy n1 -> In (VRef c) (n_items n1) -> In (VRef c) (n_items n).
Proof.
  unfold as_immutable_visit. destruct (n_kind n) as [| | |[]| |[]| | | | | | | | |]; try discriminate; try (injection 1 as <-; cbn; auto; fail).
  - injection 1 as <-. cbn. intros Hin. apply in_map_iff in Hin. destruct Hin as (z & X & _). discriminate.
  - destruct (existsb _ _); discriminate.
  - destruct (forallb _ _); discriminate.
Qed.
Section IMM.
Variable h : heap.
Variable v : val.
Hypothesis Hwf : wf_heap h.
Hypothesis Hv : wf_val h v.
Hypothesis Hfr : freezable h v.
Lemma imm_set a n : within h v a -> nth_error h a = Some n -> n_kind n = KSet -> existsb (fun u => becomes_unhashable (kind_of h u)) (n_items n) = false.
Proof.
  intros W En K. destruct (existsb _ _) eqn:X; auto. apply existsb_exists in X. destruct X as (u & Hu & X). destruct u as [|c]; [discriminate|]. cbn in X.
  pose proof (Hfr a n W En) as C. cbn beta in C. rewrite K in C. destruct (nth_error h c) as [x|] eqn:Ex; [|discriminate]. cbn in X. destruct (C c x Hu Ex) as [Kx|Kx]; rewrite Kx in X; discriminate.
Qed.
Lemma imm_ok a n e : within h v a -> nth_error h a = Some n -> as_immutable_visit h n <> Fail e.
Proof.
  intros W En. pose proof (Hfr a n W En) as C. cbn beta in C. pose proof (imm_set a n W En) as S. unfold as_immutable_visit. destruct (n_kind n) as [| | |[]| |[]| | | | | | | | |]; try contradiction; try discriminate.
  - rewrite S by auto. discriminate.
  - rewrite plain_keys_acceptable by auto. discriminate.
Qed.
Lemma imm_keep a n : within h v a -> nth_error h a = Some n -> as_immutable_visit h n = Keep <-> immutable_kind (n_kind n) = true.
Proof.
  intros W En. pose proof (Hfr a n W En) as C. cbn beta in C. pose proof (imm_set a n W En) as S. unfold as_immutable_visit. destruct (n_kind n) as [| | |[]| |[]| | | | | | | | |]; cbn; try contradiction; try (split; congruence).
  - rewrite S by auto. split; congruence.
  - rewrite plain_keys_acceptable by auto. split; congruence.
Qed.
Lemma immutable_iso fuel : length h <= fuel ->
  exists h' m' w, walk as_immutable_visit fuel h [] v = Ok (h', m', w) /\ isomorphic frozen h v h' w /\ untouched h h' /\ wf_heap h' /\ wf_val h' w /\
    (forall b n, within h' w b -> nth_error h' b = Some n -> immutable_kind (n_kind n) = true /\ n_kind n <> KBytes).
Proof.
  intros Hf.
  assert (Htup : forall a b, within h v a -> action_of as_immutable_visit h a = FillTuple -> edge h a b -> ~ reach h b a).
  { intros a b W Ea (n & En & _). rewrite (imm_act h a n En) in Ea. destruct (imm_tuple h n Ea). }
  destruct (is_ok_ex _ (copy_terminates as_immutable_visit h v Hwf Hv (fun x n => as_immutable_stable h x n) Htup imm_ok fuel Hf)) as [[[h' m'] w] E].
  exists h', m', w. split; auto.
  destruct (copy_iso as_immutable_visit frozen h v Hwf Hv (fun x n => as_immutable_stable h x n) Htup) with (f := fuel) (h' := h') (m' := m') (w := w) as (I & U & S); auto.
  - intros a c W Ea Ed. pose proof Ed as (n & En & Hin). rewrite (imm_act h a n En) in Ea. pose proof (Hfr a n W En) as C. cbn beta in C.
    pose proof (Hwf _ _ _ En Hin) as Lc. destruct (nth_some h c Lc) as [x Ex]. rewrite (imm_act h c x Ex).
    assert (Wc : within h v c) by (apply (within_edge h v a c W Ed)). apply (imm_keep c x Wc Ex).
    apply (imm_keep a n W En) in Ea. destruct (n_kind n) as [| | |[]| |[]| | | | | | | | |] eqn:K; cbn in *; try discriminate; try contradiction; try (rewrite C in Hin; contradiction); eauto.
  - intros a n W En. pose proof (Hfr a n W En) as C. pose proof (imm_set a n W En) as HS. unfold as_immutable_visit. destruct n as [k d ks it]. cbn in *.
    destruct k as [| | |[]| |[]| | | | | | | | |]; cbn; try contradiction; auto; try (rewrite C; auto; fail).
    + rewrite HS by auto. reflexivity.
    + rewrite plain_keys_acceptable by auto. reflexivity.
  - split; auto. split; auto.
    destruct (walk_wf as_immutable_visit imm_copy fuel h [] v h' m' w) as (F & F2 & _); auto.
    { split; auto. intros a b X. discriminate X. }
    split; [apply F|]. split; auto. intros b n W En.
    destruct (iso_within _ _ _ _ _ I) as (B & B1 & B2 & _). destruct (B1 b W) as (a & Wa & Bab). destruct (B2 a b Bab) as (n0 & n1 & E0 & E1 & K & _ & _).
    rewrite En in E1. injection E1 as <-. pose proof (Hfr a n0 Wa E0) as C. cbn beta in C. rewrite K. destruct (n_kind n0) as [| | |[]| |[]| | | | | | | | |]; cbn; try contradiction; split; auto; discriminate.
Qed.
End IMM.

(* ---- mutable_copy ---- *)
Lemma mut_act h a n : nth_error h a = Some n -> action_of mutable_copy_visit h a = mutable_copy_visit h n.
Proof. intros E. unfold action_of. rewrite E. reflexivity. Qed.
Definition meltable (h : heap) (v : val) : Prop :=
  all_within h v (fun n => immutable_kind (n_kind n) = true /\ n_kind n <> KBytes /\ (forall ro, n_kind n <> KObjectArray ro) /\ (leaf (n_kind n) = true -> n_items n = []) /\ forall l, ~ In (KTuple l) (n_keys n)).
Lemma mut_keys l : (forall x, ~ In (KTuple x) l) -> existsb (fun k => match k with KTuple _ => true | _ => false end) l = false.
Proof. intros H. destruct (existsb _ l) eqn:X; auto. apply existsb_exists in X. destruct X as ([| |t|] & Hin & X); try discriminate. destruct (H _ Hin). Qed.
Lemma mutable_iso h v fuel : wf_heap h -> wf_val h v -> meltable h v -> length h <= fuel ->
  exists h' m' w, walk mutable_copy_visit fuel h [] v = Ok (h', m', w) /\ isomorphic thawed h v h' w /\ untouched h h' /\ (forall b, within h' w b -> length h <= b).
Proof.
  intros Hwf Hv Hm Hf.
  assert (HT : forall n, mutable_copy_visit h n <> FillTuple).
  { intros n. unfold mutable_copy_visit. destruct (n_kind n); try discriminate. destruct (existsb _ _); discriminate. }
  assert (HK : forall n, mutable_copy_visit h n <> Keep).
  { intros n. unfold mutable_copy_visit. destruct (n_kind n); try discriminate. destruct (existsb _ _); discriminate. }
  assert (Htup : forall a b, within h v a -> action_of mutable_copy_visit h a = FillTuple -> edge h a b -> ~ reach h b a).
  { intros a b W Ea (n & En & _). rewrite (mut_act h a n En) in Ea. destruct (HT n Ea). }
  assert (Hok : forall a n e, within h v a -> nth_error h a = Some n -> mutable_copy_visit h n <> Fail e).
  { intros a n e W En. destruct (Hm a n W En) as (C1 & C2 & C2' & C3 & C4). unfold mutable_copy_visit. destruct (n_kind n) as [| | |[]| |[]| | | | | | | | |]; try discriminate; try congruence.
    rewrite mut_keys by auto. discriminate. }
  assert (Hst : forall x n, (forall i, i < length h -> nth_error x i = nth_error h i) -> (forall c, In (VRef c) (n_items n) -> c < length h) -> mutable_copy_visit x n = mutable_copy_visit h n) by reflexivity.
  destruct (is_ok_ex _ (copy_terminates mutable_copy_visit h v Hwf Hv Hst Htup Hok fuel Hf)) as [[[h' m'] w] E].
  exists h', m', w. split; auto.
  destruct (copy_iso mutable_copy_visit thawed h v Hwf Hv Hst Htup) with (f := fuel) (h' := h') (m' := m') (w := w) as (I & U & S); auto.
  - intros a c W Ea (n & En & Hin). rewrite (mut_act h a n En) in Ea. destruct (HK n Ea).
  - intros a n W En. destruct (Hm a n W En) as (C1 & C2 & C2' & C3 & C4). unfold mutable_copy_visit. destruct n as [k d ks it]. cbn in *.
    destruct k as [| | |[]| |[]| | | | | | | | |]; cbn in *; try congruence; auto; try (rewrite C3; auto; fail). rewrite mut_keys by auto. reflexivity.
  - split; auto. split; auto. intros b W. destruct (S b W) as [?|[Wb Kb]]; auto. pose proof (root_lt mutable_copy_visit h v Hwf Hv Htup b Wb) as Lb. destruct (nth_some h b Lb) as [n En].
    rewrite (mut_act h b n En) in Kb. destruct (HK n Kb).
Qed.

(* Lemmas about programs with read-only tensors. *)
From Coq Require Import String Ascii.
From Verif Require Import Prelude RoModel RoSpec.

(* names *)
Lemma ends_app base suffix : ends_with suffix (base ++ suffix)%string = true.
Proof.
  induction base as [| a b IH].
  - destruct suffix; cbn [append ends_with]; rewrite String.eqb_refl; reflexivity.
  - cbn [append ends_with]. rewrite IH. apply orb_true_r.
Qed.
Lemma ends_inv suffix s : ends_with suffix s = true -> exists b, s = (b ++ suffix)%string.
Proof.
  induction s as [| a r IH]; cbn [ends_with]; intros H.
  - destruct (String.eqb_spec "" suffix) as [E | _]; [exists ""%string; cbn [append]; exact E|discriminate].
  - destruct (String.eqb_spec (String a r) suffix) as [E | _]; [exists ""%string; cbn [append]; exact E|].
    destruct (IH H) as [b Eb]. exists (String a b). rewrite Eb at 1. reflexivity.
Qed.
Lemma append_assoc a b c : ((a ++ b) ++ c)%string = (a ++ b ++ c)%string.
Proof. induction a as [| x r IH]; cbn [append]; congruence. Qed.
Lemma append_length a b : String.length (a ++ b)%string = String.length a + String.length b.
Proof. induction a as [| x r IH]; cbn [append String.length]; lia. Qed.
Lemma append_char_inj a b x y : (a ++ String x "")%string = (b ++ String y "")%string -> a = b.
Proof.
  revert b; induction a as [| c r IH]; intros [| d s]; cbn [append]; intros H.
  - reflexivity.
  - injection H as _ H. destruct s; discriminate.
  - injection H as _ H. destruct r; discriminate.
  - injection H as -> H. f_equal; auto.
Qed.
Lemma in_place_blocked name : in_place_name name -> blocked name = true \/ is_disabled name = true.
Proof.
  intros [(base & -> & N)|[-> |(o & I0 & ->)]].
  - left. unfold blocked. rewrite ends_app. cbn [andb].
    destruct (ends_with "__" (base ++ "_")) eqn:E.
    + exfalso. apply N. destruct (ends_inv _ _ E) as [b Eb]. exists b.
      change "__"%string with ("_" ++ "_")%string in Eb. rewrite <- append_assoc in Eb. eapply append_char_inj. exact Eb.
    + rewrite andb_false_r. reflexivity.
  - right. reflexivity.
  - right. cbn [In] in I0. repeat (destruct I0 as [<- | I0]; [reflexivity|]). contradiction.
Qed.

(* writing *)
Lemma write_length m h x : length (write m h x) = length m.
Proof. unfold write. destruct (nth_error m (h_store h)); auto. apply upd_length. Qed.
Lemma write_other m h x s : h_store h <> s -> nth_error (write m h x) s = nth_error m s.
Proof. intros N. unfold write. destruct (nth_error m (h_store h)); auto. apply upd_other; auto. Qed.
Lemma write_all_length m l x : length (write_all m l x) = length m.
Proof. revert m x; induction l as [| h r IH]; intros m [| y x]; cbn [write_all]; auto. rewrite IH. apply write_length. Qed.
Lemma write_all_other m l x s : Forall (fun h => h_store h <> s) l -> nth_error (write_all m l x) s = nth_error m s.
Proof.
  revert m x; induction l as [| h r IH]; intros m [| y x] F; cbn [write_all]; auto. inversion F; subst.
  rewrite IH by auto. apply write_other; auto.
Qed.
Lemma write_cells_length s cells new : length (write_cells s cells new) = length s.
Proof. revert s new; induction cells as [| c r IH]; intros s [| x xs]; cbn [write_cells]; auto. rewrite IH. apply upd_length. Qed.
Lemma write_cells_other s cells new c d : ~ In c cells -> nth c (write_cells s cells new) d = nth c s d.
Proof.
  revert s new; induction cells as [| c0 r IH]; intros s [| x xs] N; cbn [write_cells]; auto.
  rewrite IH by (intro; apply N; right; auto).
  assert (nth_error (upd s c0 x) c = nth_error s c) as E by (apply upd_other; intro; apply N; left; auto).
  destruct (nth_error s c) as [y|] eqn:Ey.
  - rewrite (nth_error_nth _ _ _ Ey). apply nth_error_nth. exact E.
  - apply nth_error_None in Ey, E. rewrite !nth_overflow; auto.
Qed.
Lemma write_cells_read s cells new :
  NoDup cells -> Forall (fun c => c < length s) cells -> length new = length cells ->
  map (fun c => nth c (write_cells s cells new) 0%Z) cells = new.
Proof.
  revert s new; induction cells as [| c r IH]; intros s [| x xs] ND F L; try discriminate; [reflexivity|].
  inversion ND; subst. inversion F; subst. cbn [write_cells map]. f_equal.
  - rewrite write_cells_other by auto. apply nth_error_nth. apply upd_same; auto.
  - apply IH; auto. eapply Forall_impl; [|eassumption]. intros z Hz. cbn beta in *. rewrite upd_length. exact Hz.
Qed.

(* allocation *)
Lemma allocate_ok m args ro res m' hs : allocate m args ro res = Ok (m', hs) ->
  (exists ext, m' = m ++ ext) /\ length hs = length res /\
  forall h, In h hs ->
    (length m <= h_store h /\ exists a, h_kind h = result_kind a ro /\ exists data, In (Fresh a data) res) \/
    exists a k cells h0, In (View a k cells) res /\ nth_error args k = Some h0 /\ h_store h = h_store h0 /\ h_cells h = cells /\
      h_kind h = result_kind a ro.
Proof.
  revert m m' hs; induction res as [| r rest IH]; intros m m' hs H; cbn [allocate] in H.
  - injection H as <- <-. split; [exists []; rewrite app_nil_r; auto|]. split; auto. intros h [].
  - destruct r as [a data | a k cells].
    + destruct (allocate (m ++ [data]) args ro rest) as [[m1 hs1]|] eqn:E; [|discriminate]. cbn [bind fst snd] in H.
      injection H as <- <-. destruct (IH _ _ _ E) as ((ext & ->) & L & F).
      split; [exists (data :: ext); rewrite <- app_assoc; reflexivity|]. split; [cbn [length]; congruence|].
      intros h [<- | I0].
      * left. cbn [h_store h_kind]. split; [lia|]. exists a. split; auto. exists data. left; auto.
      * destruct (F _ I0) as [(Hl & a0 & Ek & d0 & I1)|(a0 & k & cells & h0 & I1 & R)].
        -- left. rewrite app_length in Hl. cbn [length] in Hl. split; [lia|]. exists a0. split; auto. exists d0. right; auto.
        -- right. exists a0, k, cells, h0. split; auto. right; auto.
    + destruct (nth_error args k) as [h0|] eqn:Ek; [|discriminate].
      destruct (allocate m args ro rest) as [[m1 hs1]|] eqn:E; [|discriminate]. cbn [bind fst snd] in H.
      injection H as <- <-. destruct (IH _ _ _ E) as (X & L & F).
      split; auto. split; [cbn [length]; congruence|].
      intros h [<- | I0].
      * right. exists a, k, cells, h0. cbn [h_store h_kind h_cells]. split; [left; auto|]. auto.
      * destruct (F _ I0) as [(Hl & a0 & Eq & d0 & I1)|(a0 & k1 & cells1 & h1 & I1 & R)].
        -- left. split; auto. exists a0. split; auto. exists d0. right; auto.
        -- right. exists a0, k1, cells1, h1. split; auto. right; auto.
Qed.
Lemma call_torch_inv m args c outs r : call_torch m args c outs = Ok r ->
  forallb is_tensor (args ++ outs) = true /\
  (forall v o, f_out c = Out v -> outs = [o] -> is_ro o = false) /\
  allocate (write_all m ((if f_inplace c then firstn 1 args else []) ++ outs) (f_new c)) (args ++ outs) (existsb is_ro (args ++ outs)) (f_res c)
    = Ok r.
Proof.
  unfold call_torch. destruct (forallb is_tensor (args ++ outs)); [|discriminate]. cbn [negb]. intros H.
  destruct (match f_out c, outs with Out _, [o] => if is_ro o then Err TypeError else Ok tt | _, _ => Ok tt end) eqn:E; [|discriminate].
  cbn [bind] in H. split; auto. split; auto. intros v o E1 ->. rewrite E1 in E. destruct (is_ro o); [discriminate|auto].
Qed.

Lemma get_in st v h : get st v = Ok h -> nth_error (vars st) v = Some h.
Proof. unfold get. destruct (nth_error (vars st) v); [congruence|discriminate]. Qed.
Lemma get_all_in st l hs : get_all st l = Ok hs -> Forall2 (fun v h => nth_error (vars st) v = Some h) l hs.
Proof.
  unfold get_all. revert hs; induction l as [| v r IH]; intros hs H; cbn [map sequence] in H.
  - injection H as <-. constructor.
  - destruct (get st v) as [h|] eqn:E; [|discriminate]. destruct (sequence (map (get st) r)) as [t|] eqn:E2; [|discriminate].
    injection H as <-. constructor; auto. apply get_in; auto.
Qed.
Lemma forall2_in {A B} (P : A -> B -> Prop) l m y : Forall2 P l m -> In y m -> exists x, In x l /\ P x y.
Proof.
  induction 1 as [| a b l m H F IH]; intros I0; [destruct I0|]. destruct I0 as [<- | I0].
  - exists a. split; auto. left; auto.
  - destruct (IH I0) as (x & I1 & P1). exists x. split; auto. right; auto.
Qed.
Lemma is_ro_kind h : is_ro h = true <-> h_kind h = ReadOnly.
Proof. unfold is_ro. destruct (h_kind h); split; congruence. Qed.

(* a call of a torch function that does not write through read-only tensors *)
Lemma torch_safe st c args outs m' hs s :
  guarded s st ->
  (forall h, In h args \/ In h outs -> exists v, nth_error (vars st) v = Some h) ->
  (f_inplace c = true -> forall h rest, args = h :: rest -> is_ro h = false) ->
  (forall h, In h outs -> (forall v o, f_out c = Out v -> outs = [o] -> is_ro o = false) -> is_ro h = false) ->
  call_torch (heap st) args c outs = Ok (m', hs) ->
  nth_error m' s = nth_error (heap st) s /\ length (heap st) <= length m' /\
  forall h, In h hs -> h_store h = s -> exists a k cells h0,
    In (View a k cells) (f_res c) /\ nth_error (args ++ outs) k = Some h0 /\ h_store h0 = s /\
    h_kind h = (if a then NpWrite else ReadOnly).
Proof.
  intros [Hs G] V WI WO E. destruct (call_torch_inv _ _ _ _ _ E) as (T & O1 & A). rewrite forallb_forall in T.
  assert (forall h, In h args \/ In h outs -> is_ro h = false -> h_store h <> s) as NS.
  { intros h I0 R Es. destruct (V h I0) as [v Ev]. destruct (G v h Ev Es) as [K | K].
    - apply is_ro_kind in K. congruence.
    - assert (is_tensor h = true) as Th by (apply T, in_or_app; destruct I0; auto). unfold is_tensor in Th. rewrite K in Th. discriminate. }
  destruct (allocate_ok _ _ _ _ _ _ A) as ((ext & ->) & _ & F). rewrite write_all_length in F.
  assert (Forall (fun h => h_store h <> s) ((if f_inplace c then firstn 1 args else []) ++ outs)) as FT.
  { apply Forall_app. split.
    - destruct (f_inplace c); [|constructor]. destruct args as [| h rest]; [constructor|]. cbn [firstn].
      constructor; [|constructor]. apply NS; [left; left; auto|]. eapply WI; eauto.
    - apply Forall_forall. intros h I0. apply NS; [right; auto|]. apply WO; auto. }
  split; [rewrite nth_error_app1 by (rewrite write_all_length; auto); apply write_all_other; auto|].
  split; [rewrite app_length, write_all_length; lia|].
  intros h I0 Es. destruct (F h I0) as [(Hl & _)|(a & k & cells & h0 & I1 & E1 & E2 & E3 & E4)]; [lia|].
  exists a, k, cells, h0. split; auto. split; auto. split; [congruence|]. rewrite E4. unfold result_kind.
  destruct a; auto. assert (existsb is_ro (args ++ outs) = true) as ->; auto.
  apply existsb_exists. exists h0. split; [eapply nth_error_In; eauto|].
  destruct (is_ro h0) eqn:R; auto. exfalso. apply (NS h0); [apply in_app_or; eapply nth_error_In; eauto| exact R | congruence].
Qed.

Definition harmless (s : nat) (h : handle) : Prop := h_store h = s -> h_kind h = ReadOnly \/ h_kind h = NpRead.
Lemma guarded_new s st m' hs :
  guarded s st -> nth_error m' s = nth_error (heap st) s -> length (heap st) <= length m' -> Forall (harmless s) hs ->
  nth_error (heap (State m' (vars st ++ hs))) s = nth_error (heap st) s /\ guarded s (State m' (vars st ++ hs)).
Proof.
  intros [Hs G] E L F. cbn [heap]. split; auto. split; [cbn [heap]; lia|]. cbn [vars]. intros v h Ev Es.
  destruct (Nat.lt_ge_cases v (length (vars st))) as [Hv | Hv].
  - rewrite nth_error_app1 in Ev by auto. eapply G; eauto.
  - rewrite nth_error_app2 in Ev by auto. rewrite Forall_forall in F. eapply F; eauto. eapply nth_error_In; eauto.
Qed.
Lemma nth_error_snoc {A} (l : list A) x s : s < length l -> nth_error (l ++ [x]) s = nth_error l s.
Proof. intros H. apply nth_error_app1; auto. Qed.

Lemma clone_safe s st h preserve : guarded s st ->
  nth_error (heap (bound_to_new st (clone_ro st h preserve))) s = nth_error (heap st) s /\
  guarded s (bound_to_new st (clone_ro st h preserve)).
Proof.
  intros G. pose proof (proj1 G) as Hs. unfold bound_to_new, clone_ro. cbn [fst snd]. apply guarded_new; auto.
  - apply nth_error_snoc; auto.
  - rewrite app_length; lia.
  - constructor; [|constructor]. intros Es. cbn [h_store] in Es. lia.
Qed.
Lemma same_heap_safe s st h : guarded s st -> harmless s h ->
  nth_error (heap (State (heap st) (vars st ++ [h]))) s = nth_error (heap st) s /\ guarded s (State (heap st) (vars st ++ [h])).
Proof. intros G H. apply guarded_new; auto. Qed.
Lemma new_data_safe s st k data : guarded s st ->
  nth_error (heap (State (heap st ++ [data]) (vars st ++ [Handle k (length (heap st)) (seq 0 (length data))]))) s = nth_error (heap st) s /\
  guarded s (State (heap st ++ [data]) (vars st ++ [Handle k (length (heap st)) (seq 0 (length data))])).
Proof.
  intros G. pose proof (proj1 G). apply guarded_new; auto.
  - apply nth_error_snoc; auto.
  - rewrite app_length; lia.
  - constructor; [|constructor]. intros Es. cbn [h_store] in Es. lia.
Qed.

Lemma outs_safe st c outs :
  no_output_in_tuple st c -> Forall2 (fun v h => nth_error (vars st) v = Some h) (outs_of (f_out c)) outs ->
  forall h, In h outs -> (forall v o, f_out c = Out v -> outs = [o] -> is_ro o = false) -> is_ro h = false.
Proof.
  intros N F h I0 O1. destruct (is_ro h) eqn:R; auto. exfalso. apply is_ro_kind in R.
  destruct (forall2_in _ _ _ _ F I0) as (v & Iv & Ev).
  destruct (f_out c) as [| v0 | l] eqn:E; cbn [outs_of] in *.
  - destruct Iv.
  - inversion F as [|a o l1 l2 Ea F2]; subst. inversion F2; subst. destruct I0 as [<- | []].
    specialize (O1 v0 o eq_refl eq_refl). apply is_ro_kind in R. congruence.
  - apply (N l v E Iv). exists h. auto.
Qed.
Lemma vars_of st args outs la lo :
  Forall2 (fun v h => nth_error (vars st) v = Some h) la args -> Forall2 (fun v h => nth_error (vars st) v = Some h) lo outs ->
  forall h, In h args \/ In h outs -> exists v, nth_error (vars st) v = Some h.
Proof.
  intros A B h [I0 | I0].
  - destruct (forall2_in _ _ _ _ A I0) as (v & _ & E). eauto.
  - destruct (forall2_in _ _ _ _ B I0) as (v & _ & E). eauto.
Qed.

Lemma method_safe s st v self c args outs m' hs :
  guarded s st -> honest_call c -> no_output_in_tuple st c ->
  nth_error (vars st) v = Some self -> Forall2 (fun v h => nth_error (vars st) v = Some h) (f_args c) args ->
  Forall2 (fun v h => nth_error (vars st) v = Some h) (outs_of (f_out c)) outs ->
  call_method st self c args outs = Ok (m', hs) ->
  nth_error m' s = nth_error (heap st) s /\ length (heap st) <= length m' /\ Forall (harmless s) hs.
Proof.
  intros G (HI & HA & HG) N Ev FA FO E.
  assert (forall h, In h (self :: args) \/ In h outs -> exists v, nth_error (vars st) v = Some h) as V.
  { intros h [[<- | I0] | I0].
    - exists v; auto.
    - apply (vars_of st args outs _ _ FA FO); auto.
    - apply (vars_of st args outs _ _ FA FO); auto. }
  assert (forall h, In h outs -> (forall v o, f_out c = Out v -> outs = [o] -> is_ro o = false) -> is_ro h = false) as WO
    by (apply (outs_safe st); auto).
  assert ((f_inplace c = true -> is_ro self = false) -> forall m1 hs1, call_torch (heap st) (self :: args) c outs = Ok (m1, hs1) ->
    nth_error m1 s = nth_error (heap st) s /\ length (heap st) <= length m1 /\
    forall h, In h hs1 -> h_store h = s -> exists a k cells h0,
      In (View a k cells) (f_res c) /\ nth_error ((self :: args) ++ outs) k = Some h0 /\ h_store h0 = s /\
      h_kind h = (if a then NpWrite else ReadOnly)) as TS.
  { intros W m1 hs1 E1. eapply torch_safe; eauto. intros Hi h rest Eq. injection Eq as <- _. auto. }
  unfold call_method in E. destruct (is_ro self) eqn:R; cbn [negb] in E.
  - destruct (blocked (f_name c)) eqn:B; [discriminate|]. destruct (is_disabled (f_name c)) eqn:D; [discriminate|].
    assert (f_inplace c = true -> true = false) as W.
    { intros Hi. destruct (in_place_blocked _ (HI Hi)); congruence. }
    specialize (TS W). pose proof (proj1 G) as Hs.
    assert (forall p, Ok (clone_ro st self p) = Ok (m', hs) ->
      nth_error m' s = nth_error (heap st) s /\ length (heap st) <= length m' /\ Forall (harmless s) hs) as CL.
    { intros p Ep. unfold clone_ro in Ep. injection Ep as <- <-. split; [apply nth_error_snoc; auto|]. split; [rewrite app_length; lia|].
      constructor; [|constructor]. intros Es. cbn [h_store] in Es. lia. }
    destruct (String.eqb_spec (f_name c) "clone") as [_ | _]; [eapply CL; eauto|].
    destruct (String.eqb (f_name c) "__getitem__" || String.eqb (f_name c) "reshape") eqn:Q.
    { destruct (call_torch (heap st) (self :: args) c outs) as [[m1 hs1]|]; [|discriminate]. cbn [rmap fst snd] in E. injection E as <- <-.
      destruct (TS _ _ eq_refl) as (T1 & T2 & T3). split; auto. split; auto. apply Forall_map, Forall_forall. intros h I0 Es.
      unfold mutable_if_independent in *. destruct (Nat.eqb_spec (h_store self) (h_store h)) as [Eh | Eh].
      - destruct (T3 h I0 Es) as (a & k & cells & h0 & I1 & _ & _ & Ek). destruct a; auto.
        destruct (HA _ _ I1) as [_ [X | X]]; rewrite X in Q; discriminate.
      - cbn [h_store] in Es. destruct (T3 h I0 Es) as (a & k & cells & h0 & I1 & E0 & E1 & _).
        assert (k = 0) as -> . { eapply HG; eauto. apply orb_true_iff in Q. destruct Q as [Q | Q]; apply String.eqb_eq in Q; auto. }
        cbn in E0. injection E0 as <-. congruence. }
    destruct (String.eqb (f_name c) "numpy" || String.eqb (f_name c) "__array__") eqn:Q2.
    { destruct (call_torch (heap st) (self :: args) c outs) as [[m1 hs1]|]; [|discriminate]. cbn [rmap fst snd] in E. injection E as <- <-.
      destruct (TS _ _ eq_refl) as (T1 & T2 & T3). split; auto. split; auto. apply Forall_map, Forall_forall. intros h I0 Es.
      unfold not_writeable in *. cbn [h_store h_kind] in *. destruct (T3 h I0 Es) as (a & k & cells & h0 & _ & _ & _ & Ek).
      rewrite Ek. destruct a; auto. }
    destruct (String.eqb (f_name c) "__copy__" || String.eqb (f_name c) "__deepcopy__"); [eapply CL; eauto|].
    destruct (TS _ _ E) as (T1 & T2 & T3). split; auto. split; auto. apply Forall_forall. intros h I0 Es.
    destruct (T3 h I0 Es) as (a & k & cells & h0 & I1 & _ & _ & Ek). destruct a; auto.
    destruct (HA _ _ I1) as [_ X]. apply orb_false_iff in Q2. destruct Q2 as [Q1 Q2]. apply String.eqb_neq in Q1, Q2. tauto.
  - destruct (TS (fun _ => eq_refl) _ _ E) as (T1 & T2 & T3). split; auto. split; auto. apply Forall_forall. intros h I0 Es.
    destruct (T3 h I0 Es) as (a & k & cells & h0 & I1 & E0 & E1 & Ek). destruct a; auto.
    destruct (HA _ _ I1) as [-> _]. cbn in E0. injection E0 as <-. destruct (proj2 G _ _ Ev E1) as [K | K].
    + apply is_ro_kind in K. congruence.
    + destruct (call_torch_inv _ _ _ _ _ E) as (T & _). cbn in T. unfold is_tensor at 1 in T. rewrite K in T. discriminate.
Qed.

Lemma step_safe s st o : guarded s st -> honest o -> allowed st o ->
  nth_error (heap (after st o)) s = nth_error (heap st) s /\ guarded s (after st o).
Proof.
  intros G HN AL. unfold after. destruct (step st o) as [st'|] eqn:E; [|auto].
  destruct o as [c | v c | v c | v p | v cv | data | data | v | v | v cells | v new]; cbn [step honest allowed] in *.
  - destruct (get_all st (f_args c)) as [args|] eqn:EA; [|discriminate]. cbn [bind] in E.
    destruct (get_all st (outs_of (f_out c))) as [outs|] eqn:EO; [|discriminate]. cbn [bind] in E.
    destruct (call_torch (heap st) args c outs) as [[m' hs]|] eqn:EC; [|discriminate]. cbn [rmap] in E. injection E as <-.
    pose proof (get_all_in _ _ _ EA) as FA. pose proof (get_all_in _ _ _ EO) as FO. destruct AL as (N & WI & WN).
    destruct HN as (HI & HA & HG).
    assert (forall h, In h args \/ In h outs -> exists v, nth_error (vars st) v = Some h) as V by (apply (vars_of st args outs _ _ FA FO)).
    destruct (torch_safe st c args outs m' hs s G V) as (T1 & T2 & T3); auto.
    { intros Hi h rest ->. destruct (is_ro h) eqn:R; auto. exfalso. inversion FA; subst. eapply WI; eauto. exists h. split; auto.
      apply is_ro_kind; auto. }
    { apply (outs_safe st); auto. }
    unfold bound_to_new. cbn [fst snd]. apply guarded_new; auto. apply Forall_forall. intros h I0 Es.
    destruct (T3 h I0 Es) as (a & k & cells & h0 & I1 & E0 & E1 & Ek). destruct a; auto. exfalso.
    destruct (HA _ _ I1) as [-> X]. destruct args as [| h1 rest].
    { cbn in E0. destruct outs as [| o1 r1]; [discriminate|]. injection E0 as ->.
      (* the first argument is an output *)
      destruct (call_torch_inv _ _ _ _ _ EC) as (T & O1 & _).
      assert (is_ro h0 = false) as R by (apply (outs_safe st c (h0 :: r1)); auto; left; auto).
      inversion FO as [|v0 ? ? ? Ev0]; subst. destruct (proj2 G _ _ Ev0 E1) as [K | K].
      - apply is_ro_kind in K. congruence.
      - cbn in T. unfold is_tensor at 1 in T. rewrite K in T. discriminate. }
    cbn in E0. injection E0 as ->. inversion FA as [|v0 ? l0 ? Ev0 ? Hl]; subst. destruct (proj2 G _ _ Ev0 E1) as [K | K].
    + apply (WN X v0); [match goal with H : _ :: _ = f_args c |- _ => rewrite <- H end; left; auto|]. exists h0. auto.
    + destruct (call_torch_inv _ _ _ _ _ EC) as (T & _). cbn in T. unfold is_tensor at 1 in T. rewrite K in T. discriminate.
  - destruct (get st v) as [self|] eqn:ES; [|discriminate]. cbn [bind] in E.
    destruct (get_all st (f_args c)) as [args|] eqn:EA; [|discriminate]. cbn [bind] in E.
    destruct (get_all st (outs_of (f_out c))) as [outs|] eqn:EO; [|discriminate]. cbn [bind] in E.
    destruct (call_method st self c args outs) as [[m' hs]|] eqn:EC; [|discriminate]. cbn [rmap] in E. injection E as <-.
    destruct (method_safe s st v self c args outs m' hs G HN AL (get_in _ _ _ ES) (get_all_in _ _ _ EA) (get_all_in _ _ _ EO) EC) as (T1 & T2 & T3).
    unfold bound_to_new. cbn [fst snd]. apply guarded_new; auto.
  - destruct (get st v) as [self|] eqn:ES; [|discriminate]. cbn [bind] in E.
    destruct (get_all st (f_args c)) as [args|] eqn:EA; [|discriminate]. cbn [bind] in E.
    set (c' := Call (f_name c) true (f_args c) NoOut (f_new c) [View false 0 (h_cells self)]) in *.
    destruct (call_method st self c' args []) as [[m' hs]|] eqn:EC; [|discriminate]. cbn [bind fst snd] in E.
    destruct hs as [| h hs]; [discriminate|]. injection E as <-.
    assert (honest_call c') as HC.
    { split; [intros _; exact HN|]. split.
      - intros k cells [X | []]. discriminate.
      - intros _ a k cells [X | []]. congruence. }
    destruct (method_safe s st v self c' args [] m' (h :: hs) G HC) as (T1 & T2 & T3); auto.
    { intros l v0 X. discriminate. }
    { apply get_in; auto. }
    { apply get_all_in; auto. }
    { constructor. }
    cbn [heap]. split; auto. inversion T3 as [|? ? T4 _]; subst. destruct G as [Hs G]. split; [cbn [heap]; lia|]. cbn [vars].
    intros w k Ew Ek. rewrite nth_error_upd in Ew. destruct (Nat.eqb v w).
    + destruct (Nat.ltb v (length (vars st))); [|discriminate]. injection Ew as <-. auto.
    + eapply G; eauto.
  - destruct (get st v) as [self|]; [|discriminate]. cbn [bind] in E. destruct (is_ro self); [|discriminate]. injection E as <-.
    apply clone_safe; auto.
  - destruct (get st v) as [self|]; [|discriminate]. cbn [bind] in E. injection E as <-. unfold make_ro. destruct cv.
    + apply clone_safe; auto.
    + apply same_heap_safe; auto. intros _. left; reflexivity.
  - injection E as <-. apply new_data_safe; auto.
  - injection E as <-. apply new_data_safe; auto.
  - destruct (get st v) as [self|] eqn:ES; [|discriminate]. cbn [bind] in E. destruct (is_tensor self) eqn:T; [|discriminate]. injection E as <-.
    apply same_heap_safe; auto. intros Es. cbn [h_store] in Es. exfalso. pose proof (get_in _ _ _ ES) as Ev.
    destruct (proj2 G _ _ Ev Es) as [K | K]; [apply AL; exists self; auto|]. unfold is_tensor in T. rewrite K in T. discriminate.
  - destruct (get st v) as [self|] eqn:ES; [|discriminate]. cbn [bind] in E. destruct (is_tensor self) eqn:T; [discriminate|]. injection E as <-.
    apply same_heap_safe; auto. intros Es. cbn [h_store] in Es. exfalso. pose proof (get_in _ _ _ ES) as Ev.
    destruct (proj2 G _ _ Ev Es) as [K | K]; [|apply (AL _ Ev K)]. unfold is_tensor in T. rewrite K in T. discriminate.
  - destruct (get st v) as [self|] eqn:ES; [|discriminate]. cbn [bind] in E. destruct (is_tensor self) eqn:T; [discriminate|]. injection E as <-.
    apply same_heap_safe; auto. intros Es. cbn [h_store h_kind] in *. exact (proj2 G _ _ (get_in _ _ _ ES) Es).
  - destruct (get st v) as [self|] eqn:ES; [|discriminate]. cbn [bind] in E. destruct (h_kind self) eqn:K; try discriminate. injection E as <-.
    assert (h_store self <> s) as NS. { intros Es. destruct (proj2 G _ _ (get_in _ _ _ ES) Es); congruence. }
    cbn [heap]. split; [apply write_other; auto|]. destruct G as [Hs G]. split; [cbn [heap]; rewrite write_length; auto|exact G].
Qed.

Lemma run_safe s p : forall st, guarded s st -> Forall honest p -> allowed_run st p ->
  nth_error (heap (run st p)) s = nth_error (heap st) s /\ guarded s (run st p).
Proof.
  induction p as [| o r IH]; intros st G H A; cbn [run allowed_run] in *; [auto|].
  inversion H; subst. destruct A as [A1 A2]. destruct (step_safe s st o G) as (E & G2); auto.
  destruct (IH _ G2) as (E2 & G3); auto. split; auto. congruence.
Qed.

(* C157: the dtype and the device of a search distribution. *)
From Verif Require Import Prelude CloneModel CloneSpec CloneProofs CloneProofs2 ConModel ConSpec ConProofs ConProofs2 ConProofs3 CloneProps ConProps.

(* the names of the parameters: none but the mandatory and the optional ones, and all the mandatory ones *)
Definition good_names (mandatory optional keys : list key) : Prop :=
  (forall k, In k keys -> In k mandatory \/ In k optional) /\ (forall k, In k mandatory -> In k keys).
(* every tensor among the parameters has the dtype and the device which the distribution reports *)
Definition uniform (h : heap) (D : dist) : Prop :=
  forall n, tensor_within h (d_params D) n -> exists d e, d_dtype D = Some d /\ has_dtype d n /\ d_device D = Some e /\ has_device e n.
(* a is a dictionary of parameters which can be cast *)
Definition parameters (h : heap) (a : nat) (p : node) : Prop :=
  wf_heap h /\ nth_error h a = Some p /\ n_kind p = KDict /\ castable h (VRef a) /\ no_cycle_through h KTup (VRef a) /\ NoDup (n_keys p) /\ length (n_items p) = length (n_keys p).

Theorem C157_names : forall mandatory optional keys, NoDup keys -> NoDup mandatory ->
  (check_correctness mandatory optional keys = Ok tt <-> good_names mandatory optional keys) /\
  (~ good_names mandatory optional keys -> check_correctness mandatory optional keys = Err ValueError).
Proof.
  intros m o keys N1 N2. destruct (check_correct m o keys N1 N2) as [X Y]. split; auto. intros H. apply Y. intros Z. apply H. apply X. exact Z.
Qed.
Print Assumptions C157_names.

Lemma tells_fun h v (has : Z -> node -> Prop) r q : (forall d1 d2 n, has d1 n -> has d2 n -> d1 = d2) -> tells h v has r -> tells h v has q -> r = q.
Proof.
  intros FUN T Y. destruct r as [d1|], q as [d|]; cbn in *; auto.
  - destruct T as [[n T] TT], Y as [_ YY]. f_equal. apply (FUN _ _ n); auto.
  - destruct T as [[n T] _]. destruct (Y n T).
  - destruct Y as [[n Y] _]. destruct (T n Y).
Qed.
Lemma dtype_fun d1 d2 n : has_dtype d1 n -> has_dtype d2 n -> d1 = d2. Proof. unfold has_dtype. congruence. Qed.
Lemma device_fun d1 d2 n : has_device d1 n -> has_device d2 n -> d1 = d2. Proof. unfold has_device. congruence. Qed.
Lemma tells_answer h v fuel r q : wf_heap h -> wf_val h v -> castable h v -> length h <= fuel -> tells h v has_dtype r -> tells h v has_device q ->
  dtype_of_container fuel h v = Ok r /\ device_of_container fuel h v = Ok q.
Proof.
  intros W V C L T1 T2. destruct (C154_attributes h v fuel W V (castable_well_formed _ _ C) L) as [X1 X2].
  assert (DET : forall (has : Z -> node -> Prop) (r : result (option Z)) q, (forall d1 d2 n, has d1 n -> has d2 n -> d1 = d2) ->
     match r with Ok r => tells h v has r /\ ~ stranger_within h v | Err e => (e = ValueError /\ mismatch h v has) \/ (e = TypeError /\ stranger_within h v) end ->
     tells h v has q -> r = Ok q).
  { intros has r0 q0 FUN Y T. destruct r0 as [r1|e]; [f_equal; apply (tells_fun h v has); tauto|].
    exfalso. destruct Y as [[_ (n1 & n2 & d1 & d2 & N1 & N2 & H1 & H2 & NE)]|[_ SW]]; [|exact (castable_no_stranger _ _ C SW)].
    destruct q0 as [d|]; cbn in T; [|destruct (T n1 N1)]. destruct T as [_ T]. apply NE. transitivity d; [apply (FUN _ _ n1)|apply (FUN _ _ n2)]; auto. }
  split; [apply (DET has_dtype); auto; apply dtype_fun|apply (DET has_device); auto; apply device_fun].
Qed.
Lemma mismatch_error h v fuel : wf_heap h -> wf_val h v -> castable h v -> length h <= fuel -> mismatch h v has_dtype -> dtype_of_container fuel h v = Err ValueError.
Proof.
  intros W V C L (n1 & n2 & d1 & d2 & T1 & T2 & H1 & H2 & NE). destruct (C154_attributes h v fuel W V (castable_well_formed _ _ C) L) as [X _].
  destruct (dtype_of_container fuel h v) as [[d|]|e].
  - exfalso. destruct X as [[_ X] _]. apply NE. transitivity d; [apply (dtype_fun _ _ n1)|apply (dtype_fun _ _ n2)]; auto.
  - destruct X as [X _]. destruct (X n1 T1).
  - destruct X as [[-> _]|[_ S]]; auto. destruct (castable_no_stranger _ _ C S).
Qed.

(* C157, for parameters whose tensors have one dtype and are on one device: the distribution has the dtype and the device which are asked
   for, or else those of the parameters, and so do its own parameters, which are in a new dictionary with the same names; the dictionary
   of the caller is unchanged. *)
Theorem C157_new_partial : forall conv mandatory optional fuel h a p dtype device rd rv,
  parameters h a p -> NoDup mandatory -> good_names mandatory optional (n_keys p) -> length h <= fuel ->
  tells h (VRef a) has_dtype rd -> tells h (VRef a) has_device rv ->
  exists h' D, dist_init conv mandatory optional fuel h (VRef a) dtype device = Ok (h', D) /\
    untouched h h' /\ uniform h' D /\
    d_dtype D = match dtype with Some d => Some d | None => rd end /\ d_device D = match device with Some d => Some d | None => rv end /\
    exists b q, d_params D = VRef b /\ length h <= b /\ nth_error h' b = Some q /\ n_kind q = KDict /\ n_keys q = n_keys p.
Proof.
  intros conv m o fuel h a p dtype device rd rv (W & E & K & C & NC & ND & LE) NM GN L T1 T2. unfold dist_init, keys_at. rewrite E.
  rewrite (proj2 (proj1 (C157_names m o (n_keys p) ND NM)) GN). cbn [bind].
  assert (V : wf_val h (VRef a)) by (cbn; apply nth_lt in E; auto).
  destruct (tells_answer h (VRef a) fuel rd rv W V C L T1 T2) as [A1 A2].
  assert (U0 : forall n, tensor_within h (VRef a) n -> exists d e, rd = Some d /\ has_dtype d n /\ rv = Some e /\ has_device e n).
  { intros n T. destruct rd as [d|]; [|destruct (T1 n T)]. destruct rv as [e|]; [|destruct (T2 n T)]. exists d, e. destruct T1 as [_ T1], T2 as [_ T2]. auto. }
  assert (CAST : (dtype, device) <> (None, None) ->
    exists h' w, cast_tensors_in_container conv dtype device fuel h (VRef a) = Ok (h', w) /\ untouched h h' /\
      uniform h' {| d_params := w; d_dtype := match dtype with Some d => Some d | None => rd end; d_device := match device with Some d => Some d | None => rv end |} /\
      exists b q, w = VRef b /\ length h <= b /\ nth_error h' b = Some q /\ n_kind q = KDict /\ n_keys q = n_keys p).
  { intros _. destruct (cast_alike conv dtype device fuel h (VRef a) W V NC C L) as (h' & w & EC & W1 & W2 & W3 & A & U & S). exists h', w. split; auto. split; auto.
    destruct (cast_tells conv dtype device _ _ _ _ C A) as (Q1 & Q2 & Q3 & Q4 & Q5). split.
    - intros n T. cbn in T. destruct (proj2 Q5 (ex_intro _ n T)) as [n0 T0]. destruct (U0 n0 T0) as (d & e & -> & _ & -> & _). cbn [d_dtype d_device].
      assert (X1 : exists x, match dtype with Some d => Some d | None => Some d end = Some x /\ has_dtype x n).
      { destruct dtype as [x|]; [exists x; split; auto|exists d; split; auto; destruct (Q1 _ eq_refl T1) as [_ Z]; auto]. }
      assert (X2 : exists x, match device with Some d => Some d | None => Some e end = Some x /\ has_device x n).
      { destruct device as [x|]; [exists x; split; auto|exists e; split; auto; destruct (Q2 _ eq_refl T2) as [_ Z]; auto]. }
      destruct X1 as (x1 & X1 & X1'). destruct X2 as (x2 & X2 & X2'). exists x1, x2. auto.
    - destruct A as (B & R & F & I & D). destruct w as [|b]; [contradiction|]. cbn in R. destruct (D a b R) as (_ & n & n' & E1 & E2 & CO & FF). rewrite E in E1. injection E1 as <-.
      exists b, n'. split; auto. assert (KN : n_kind n' = KDict /\ n_keys n' = n_keys p) by (unfold cast_of in CO; rewrite K in CO; tauto). destruct KN as [K1 K2].
      split; [|auto]. destruct (Nat.lt_ge_cases b (length h)) as [Lb|Lb]; auto. exfalso. destruct (S b n' (reach_refl _ b) E2 Lb) as [Z|[Z _]]; congruence. }
  assert (COPY : uniform (h ++ [p]) {| d_params := VRef (length h); d_dtype := rd; d_device := rv |}).
  { intros n (b & Wb & En & Kn). cbn [d_params d_dtype d_device] in *. destruct (push_within h p b W) as [->|(c & Ic & Rc)]; auto.
    - intros c Ic. eapply W; eauto.
    - rewrite push_new in En. injection En as <-. rewrite K in Kn. destruct Kn; discriminate.
    - assert (Lc : c < length h) by (eapply W; eauto). pose proof (wf_reach h c b W Lc Rc) as Lb. rewrite push_old in En by auto. apply U0. exists b. split; auto.
      apply (edge_reach h a c b); auto. exists p. auto. }
  assert (UN : untouched h (h ++ [p])) by (intros x Lx; apply push_old; auto).
  destruct dtype as [d|], device as [e|]; try (destruct CAST as (h' & w & -> & U & UF & (b & q & -> & B)); [discriminate|]; cbn [bind fst snd]; rewrite A1, A2; cbn [bind];
    eexists; eexists; split; [reflexivity|]; split; [exact U|]; split; [exact UF|]; split; [reflexivity|]; split; [reflexivity|]; exists b, q; split; [reflexivity|exact B]).
  cbn [shallow_copy]. rewrite E. cbn [bind fst snd]. rewrite A1, A2. cbn [bind]. eexists. eexists. split; [reflexivity|]. split; [exact UN|]. split; [exact COPY|].
  split; [reflexivity|]. split; [reflexivity|]. exists (length h), p. split; auto. split; auto. split; [apply push_new|auto].
Qed.
Print Assumptions C157_new_partial.

(* False: parameters of different dtypes are refused also if a dtype is asked for, although they can be cast to it. *)
Theorem C157_mixed_refuted : forall conv mandatory optional fuel h a p,
  parameters h a p -> NoDup mandatory -> good_names mandatory optional (n_keys p) -> length h <= fuel -> mismatch h (VRef a) has_dtype ->
  forall d, (forall device, dist_init conv mandatory optional fuel h (VRef a) (Some d) device = Err ValueError) /\
    exists h' w, cast_tensors_in_container conv (Some d) None fuel h (VRef a) = Ok (h', w) /\ forall fuel', length h' <= fuel' -> dtype_of_container fuel' h' w = Ok (Some d).
Proof.
  intros conv m o fuel h a p (W & E & K & C & NC & ND & LE) NM GN L M d.
  assert (V : wf_val h (VRef a)) by (cbn; apply nth_lt in E; auto). split.
  - intros device. unfold dist_init, keys_at. rewrite E. rewrite (proj2 (proj1 (C157_names m o (n_keys p) ND NM)) GN). cbn [bind].
    destruct (cast_alike conv (Some d) device fuel h (VRef a) W V NC C L) as (h' & w & EC & _). rewrite EC. cbn [bind].
    rewrite (mismatch_error h (VRef a) fuel W V C L M). reflexivity.
  - destruct (C156_cast_then_ask conv (Some d) None fuel h (VRef a) W V NC C L) as (h' & w & EC & X). exists h', w. split; auto. intros fuel' L'.
    destruct (X fuel' L') as (X1 & _). apply X1; auto. destruct M as (n1 & _ & _ & _ & T & _). eauto.
Qed.
Print Assumptions C157_mixed_refuted.

(* ---- modified_copy, with one parameter replaced ---- *)
Lemma set_item_spec keys : forall items k v, In k keys -> length items = length keys -> NoDup keys ->
  fst (set_item keys items k v) = keys /\ length (snd (set_item keys items k v)) = length keys /\ In v (snd (set_item keys items k v)) /\
  (forall x, In x (snd (set_item keys items k v)) -> x = v \/ In x items) /\
  (forall i k' x, nth_error keys i = Some k' -> nth_error items i = Some x -> k' <> k -> nth_error (snd (set_item keys items k v)) i = Some x) /\
  (forall i, nth_error keys i = Some k -> nth_error (snd (set_item keys items k v)) i = Some v).
Proof.
  induction keys as [|k0 keys IH]; intros [|v0 items] k v I L ND; cbn in L; try discriminate; [contradiction|]. cbn [set_item].
  inversion ND as [|? ? N1 N2]; subst. destruct (key_eqb k k0) eqn:Q.
  - apply key_eqb_eq in Q. subst k0. cbn [fst snd length]. split; auto. split; auto. split; [left; auto|]. split; [intros x [->|X]; auto; right; right; auto|]. split.
    + intros [|i] k' x E1 E2 N; cbn in *; [congruence|auto].
    + intros [|i] E1; cbn in *; auto. destruct N1. apply nth_error_In in E1. auto.
  - assert (Hk : k <> k0) by (intros ->; rewrite (proj2 (key_eqb_eq k0 k0) eq_refl) in Q; discriminate). destruct I as [->|I]; [congruence|].
    specialize (IH items k v I ltac:(lia) N2). destruct (set_item keys items k v) as [ks vs]. cbn [fst snd length] in *. destruct IH as (-> & L1 & I1 & S1 & O1 & K1).
    split; auto. split; [lia|]. split; [right; auto|]. split; [intros x [->|X]; [right; left; auto|]; destruct (S1 x X); auto; right; right; auto|]. split.
    + intros [|i] k' x E1 E2 N; cbn in *; [auto|]. eapply O1; eauto.
    + intros [|i] E1; cbn in *; auto. congruence.
Qed.
Lemma update_one p k v : update_dict p [(k, v)] = Node (n_kind p) (n_data p) (fst (set_item (n_keys p) (n_items p) k v)) (snd (set_item (n_keys p) (n_items p) k v)).
Proof. unfold update_dict. cbn [fold_left fst snd]. destruct (set_item _ _ _ _). reflexivity. Qed.
Definition castable_node (n : node) : Prop :=
  match n_kind n with
  | KTensor => 2 <= length (n_data n) /\ n_items n = []
  | KBytes => n_items n = []
  | KList | KTup | KSet | KDict | KImmutableList | KImmutableDict => True
  | _ => False end.
(* the dictionary with the replaced parameter, at the end of the heap *)
Lemma replaced h a p k t nt : parameters h a p -> In k (n_keys p) -> nth_error h t = Some nt -> n_kind nt = KTensor -> n_items nt = [] -> 2 <= length (n_data nt) ->
  let q := update_dict p [(k, VRef t)] in
  parameters (h ++ [q]) (length h) q /\ n_keys q = n_keys p /\
  (forall n, tensor_within (h ++ [q]) (VRef (length h)) n -> n = nt \/ tensor_within h (VRef a) n) /\
  (forall i k' x n, nth_error (n_keys p) i = Some k' -> k' <> k -> nth_error (n_items p) i = Some x -> tensor_within h x n -> tensor_within (h ++ [q]) (VRef (length h)) n) /\
  tensor_within (h ++ [q]) (VRef (length h)) nt.
Proof.
  intros (W & E & K & C & NC & ND & LE) I Et Kt It Lt q.
  assert (EQ : q = Node (n_kind p) (n_data p) (n_keys p) (n_items q)).
  { unfold q. rewrite update_one. cbn. destruct (set_item_spec (n_keys p) (n_items p) k (VRef t) I LE ND) as (-> & _). reflexivity. }
  assert (IQ : n_items q = snd (set_item (n_keys p) (n_items p) k (VRef t))) by (unfold q; rewrite update_one; reflexivity).
  destruct (set_item_spec (n_keys p) (n_items p) k (VRef t) I LE ND) as (_ & S1 & S2 & S3 & S4 & S5). rewrite <- IQ in *. clear IQ. clearbody q.
  assert (Lq : forall c, In (VRef c) (n_items q) -> c < length h).
  { intros c Ic. destruct (S3 _ Ic) as [X|X]; [injection X as ->; apply nth_lt in Et; auto|exact (W a p c E X)]. }
  assert (WQ : wf_heap (h ++ [q])).
  { intros x n c Ex Ic. rewrite app_length. cbn. destruct (Nat.lt_ge_cases x (length h)) as [Lx|Lx].
    - rewrite push_old in Ex by auto. specialize (W _ _ _ Ex Ic). lia.
    - rewrite nth_error_app2 in Ex by auto. destruct (x - length h) as [|[|]]; cbn in Ex; try discriminate. injection Ex as <-. specialize (Lq _ Ic). lia. }
  (* objects within reach of the new dictionary *)
  assert (RT : forall r b, reach h r b -> r = t -> b = t).
  { intros r b R. induction R as [r|r b c R IH (n & En & Ic)]; intros Er; auto. rewrite (IH Er), Et in En. injection En as <-. rewrite It in Ic. contradiction. }
  assert (WI : forall b, within (h ++ [q]) (VRef (length h)) b -> b = length h \/ b = t \/ (b < length h /\ within h (VRef a) b)).
  { intros b Wb. destruct (push_within h q b W Lq Wb) as [->|(c & Ic & Rc)]; auto. destruct (S3 _ Ic) as [X|X].
    - injection X as ->. right. left. apply (RT t); auto.
    - right. right. split; [apply (wf_reach h c b W (Lq c Ic) Rc)|]. apply (edge_reach h a c b); auto. exists p. auto. }
  assert (CN : forall b n, within (h ++ [q]) (VRef (length h)) b -> nth_error (h ++ [q]) b = Some n -> castable_node n).
  { intros b n Wb En. destruct (WI b Wb) as [->|[->|[Lb Wb']]].
    - rewrite push_new in En. injection En as <-. unfold castable_node. rewrite EQ. cbn [n_kind]. rewrite K. exact Logic.I.
    - rewrite push_old in En by (apply nth_lt in Et; auto). rewrite Et in En. injection En as <-. unfold castable_node. rewrite Kt. auto.
    - rewrite push_old in En by auto. exact (C b n Wb' En). }
  split; [|split; [rewrite EQ; reflexivity|split; [|split]]].
  - split; auto. split; [apply push_new|]. split; [rewrite EQ; exact K|]. split; [exact CN|]. split; [|split; [rewrite EQ; exact ND|rewrite EQ; exact S1]].
    intros b n c Wb En Kn Ed R. destruct (WI b Wb) as [->|[->|[Lb Wb']]].
    + rewrite push_new in En. injection En as <-. rewrite EQ in Kn. cbn in Kn. congruence.
    + rewrite push_old in En by (apply nth_lt in Et; auto). rewrite Et in En. injection En as <-. congruence.
    + rewrite push_old in En by auto. destruct Ed as (n' & En' & Ic). rewrite push_old in En' by auto. rewrite En in En'. injection En' as <-.
      assert (Lc : c < length h) by (eapply W; eauto). apply (push_reach h q c b W Lc) in R. apply (NC b n c Wb' En Kn); auto. exists n. auto.
  - intros n (b & Wb & En & Kn). destruct (WI b Wb) as [->|[->|[Lb Wb']]].
    + rewrite push_new in En. injection En as <-. rewrite EQ in Kn. cbn in Kn. rewrite K in Kn. destruct Kn; discriminate.
    + rewrite push_old in En by (apply nth_lt in Et; auto). left. congruence.
    + rewrite push_old in En by auto. right. exists b. auto.
  - intros i k' x n E1 N1 E2 (b & Wb & En & Kn). pose proof (S4 i k' x E1 E2 N1) as E3. apply nth_error_In in E3. destruct x as [|c]; [contradiction|]. cbn in Wb.
    exists b. pose proof (Lq c E3) as Lc. split; [|split; auto].
    + apply (edge_reach _ (length h) c b); [exists q; split; [apply push_new|auto]|]. apply push_reach; auto.
    + rewrite push_old; auto. apply nth_lt in En. auto.
  - exists t. split; [|split; auto].
    + apply (reach_step _ (length h) (length h) t); [constructor|]. exists q. split; [apply push_new|auto].
    + rewrite push_old by (apply nth_lt in Et; auto). auto.
Qed.

(* Replacing a parameter by a tensor of the same dtype and on the same device *)
Theorem C157_modify_partial : forall conv mandatory optional fuel h D a p k t nt dtype device d0 v0,
  d_params D = VRef a -> parameters h a p -> NoDup mandatory -> good_names mandatory optional (n_keys p) -> length h < fuel ->
  d_dtype D = Some d0 -> d_device D = Some v0 -> uniform h D ->
  In k (n_keys p) -> nth_error h t = Some nt -> n_kind nt = KTensor -> n_items nt = [] -> 2 <= length (n_data nt) -> has_dtype d0 nt -> has_device v0 nt ->
  exists h' D', modified_copy conv mandatory optional fuel h D dtype device [(k, VRef t)] = Ok (h', D') /\
    untouched h h' /\ uniform h' D' /\
    d_dtype D' = Some (match dtype with Some d => d | None => d0 end) /\ d_device D' = Some (match device with Some d => d | None => v0 end).
Proof.
  intros conv m o fuel h D a p k t nt dtype device d0 v0 ED P NM GN L E1 E2 U Ik Et Kt It Lt H1 H2.
  destruct (replaced h a p k t nt P Ik Et Kt It Lt) as (P' & KE & TW & _ & TN). set (q := update_dict p [(k, VRef t)]) in *.
  assert (UT : forall n, tensor_within (h ++ [q]) (VRef (length h)) n -> has_dtype d0 n /\ has_device v0 n).
  { intros n T. destruct (TW n T) as [->|T']; auto. rewrite <- ED in T'. destruct (U n T') as (d & e & X1 & X2 & X3 & X4). rewrite E1 in X1. rewrite E2 in X3. injection X1 as <-. injection X3 as <-. auto. }
  unfold modified_copy. rewrite ED. assert (EP : nth_error h a = Some p) by apply P. rewrite EP, E1, E2. fold q.
  destruct (C157_new_partial conv m o fuel (h ++ [q]) (length h) q (match dtype with Some d => Some d | None => Some d0 end) (match device with Some d => Some d | None => Some v0 end) (Some d0) (Some v0) P' NM) as (h' & D' & E & UN & UF & Q1 & Q2 & _).
  - rewrite KE. exact GN.
  - rewrite app_length. cbn. lia.
  - split; [eauto|]. intros n T. apply UT; auto.
  - split; [eauto|]. intros n T. apply UT; auto.
  - exists h', D'. split; [exact E|]. split.
    + intros x Lx. rewrite UN by (rewrite app_length; cbn; lia). apply push_old; auto.
    + split; auto. rewrite Q1, Q2. destruct dtype, device; auto.
Qed.
Print Assumptions C157_modify_partial.
(* False: replacing a parameter by a tensor of another dtype, while another parameter stays: ValueError, whichever dtype is asked for. *)
Theorem C157_modify_refuted : forall conv mandatory optional fuel h D a p k t nt d1 i k' x n2 d2 d0,
  d_params D = VRef a -> parameters h a p -> NoDup mandatory -> good_names mandatory optional (n_keys p) -> length h < fuel -> d_dtype D = Some d0 ->
  In k (n_keys p) -> nth_error h t = Some nt -> n_kind nt = KTensor -> n_items nt = [] -> 2 <= length (n_data nt) -> has_dtype d1 nt ->
  nth_error (n_keys p) i = Some k' -> k' <> k -> nth_error (n_items p) i = Some x -> tensor_within h x n2 -> has_dtype d2 n2 -> d1 <> d2 ->
  forall dtype device, modified_copy conv mandatory optional fuel h D dtype device [(k, VRef t)] = Err ValueError.
Proof.
  intros conv m o fuel h D a p k t nt d1 i k' x n2 d2 d0 ED P NM GN L E1 Ik Et Kt It Lt H1 I1 I2 I3 T2 H2 NE dtype device.
  destruct (replaced h a p k t nt P Ik Et Kt It Lt) as (P' & KE & _ & TO & TN). set (q := update_dict p [(k, VRef t)]) in *.
  unfold modified_copy. rewrite ED. assert (EP : nth_error h a = Some p) by apply P. rewrite EP, E1. fold q.
  assert (M : mismatch (h ++ [q]) (VRef (length h)) has_dtype).
  { exists nt, n2, d1, d2. split; auto. split; [eapply TO; eauto|auto]. }
  assert (X : exists d, match dtype with Some d => Some d | None => Some d0 end = Some d) by (destruct dtype; eauto). destruct X as [d ->].
  apply (C157_mixed_refuted conv m o fuel (h ++ [q]) (length h) q P' NM); auto; [rewrite KE; exact GN|rewrite app_length; cbn; lia].
Qed.
Print Assumptions C157_modify_refuted.

(* to(device): the distribution itself if it is there already; otherwise one whose tensors are on that device, with the same dtype *)
Theorem C157_to : forall conv mandatory optional fuel h D a p e device,
  d_params D = VRef a -> parameters h a p -> NoDup mandatory -> good_names mandatory optional (n_keys p) -> length h <= fuel ->
  tells h (VRef a) has_dtype (d_dtype D) -> tells h (VRef a) has_device (d_device D) -> d_device D = Some e ->
  exists h' D', dist_to conv mandatory optional fuel h D device = Ok (h', D') /\ untouched h h' /\
    d_device D' = Some device /\ d_dtype D' = d_dtype D /\ (e = device -> h' = h /\ D' = D) /\ (e <> device -> uniform h' D').
Proof.
  intros conv m o fuel h D a p e device ED P NM GN L T1 T2 E1. unfold dist_to. rewrite E1. destruct (Z.eqb_spec e device) as [->|N].
  - exists h, D. split; auto. split; [intros x Lx; auto|]. split; auto. split; auto. split; auto. congruence.
  - rewrite ED. destruct (C157_new_partial conv m o fuel h a p None (Some device) (d_dtype D) (d_device D) P NM GN L T1 T2) as (h' & D' & E & UN & UF & Q1 & Q2 & _).
    exists h', D'. split; auto. split; auto. split; auto. split; auto. split; [congruence|auto].
Qed.
Print Assumptions C157_to.

(* {"mu": tensor of dtype 3, "sigma": tensor of dtype 3}, and tensors of dtypes 4 and 3 *)
Definition params : heap := [Node KDict [] [KStr 1; KStr 2] [VRef 1; VRef 2]; Node KTensor [3; 0; 5]%Z [] []; Node KTensor [3; 0; 6]%Z [] []; Node KTensor [4; 0; 7]%Z [] []; Node KTensor [3; 0; 8]%Z [] []].
Lemma params_ok : parameters params 0 (Node KDict [] [KStr 1; KStr 2] [VRef 1; VRef 2]).
Proof.
  split; [|split; [reflexivity|split; [reflexivity|split; [|split; [|split; [|reflexivity]]]]]].
  - intros x n c E Hin. each_node x E; cbn in *; intuition (try discriminate; try (match goal with X : VRef _ = VRef _ |- _ => injection X as <- end); lia).
  - intros x n W E. each_node x E; cbn; auto.
  - intros x n b W E K. each_node x E; discriminate.
  - repeat constructor; cbn; intuition congruence.
Qed.
Lemma params_within n : tensor_within params (VRef 0) n -> n = Node KTensor [3; 0; 5]%Z [] [] \/ n = Node KTensor [3; 0; 6]%Z [] [].
Proof.
  intros (a & R & E & K). assert (X : a = 0 \/ a = 1 \/ a = 2).
  { assert (G : forall r a, reach params r a -> r = 0 -> a = 0 \/ a = 1 \/ a = 2); [|apply (G 0); auto]. clear. intros r a R.
    induction R as [r|r x y R IH (m & E & I)]; intros Er; auto. destruct (IH Er) as [->|[->| ->]].
    - cbn in E. injection E as <-. cbn in I. destruct I as [I|[I|[]]]; injection I as <-; auto.
    - cbn in E. injection E as <-. contradiction.
    - cbn in E. injection E as <-. contradiction. }
  destruct X as [->|[->| ->]]; cbn in E; injection E as <-; auto. cbn in K. destruct K; discriminate.
Qed.
Example C157_example :
  let D := {| d_params := VRef 0; d_dtype := Some 3%Z; d_device := Some 0%Z |} in
  parameters params 0 (Node KDict [] [KStr 1; KStr 2] [VRef 1; VRef 2]) /\ uniform params D /\ tells params (VRef 0) has_dtype (Some 3%Z) /\
  good_names [KStr 1; KStr 2] [] [KStr 1; KStr 2] /\
  modified_copy (fun _ _ l => l) [KStr 1; KStr 2] [] 6 params D (Some 4%Z) None [(KStr 1, VRef 3)] = Err ValueError /\
  is_ok (modified_copy (fun _ _ l => l) [KStr 1; KStr 2] [] 6 params D (Some 4%Z) None [(KStr 1, VRef 4)]) = true.
Proof.
  cbv zeta. split; [exact params_ok|]. split.
  - intros n T. apply params_within in T. destruct T as [->| ->]; exists 3%Z, 0%Z; repeat split.
  - split; [|split; [split; cbn; intuition congruence|split; reflexivity]]. split.
    + exists (Node KTensor [3; 0; 5]%Z [] []), 1. split; [|split; [reflexivity|left; reflexivity]]. apply (reach_step _ 0 0 1); [constructor|]. eexists. split; [reflexivity|cbn; auto].
    + intros n T. apply params_within in T. destruct T as [->| ->]; reflexivity.
Qed.
Example C157_names_example : good_names [KStr 1; KStr 2] [KStr 3] [KStr 2; KStr 3; KStr 1] /\ ~ good_names [KStr 1; KStr 2] [KStr 3] [KStr 2; KStr 3].
Proof. split; [split; cbn; intuition congruence|]. intros [_ H]. specialize (H (KStr 1) (or_introl eq_refl)). cbn in H. intuition congruence. Qed.

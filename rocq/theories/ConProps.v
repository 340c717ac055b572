(* Tensors in containers: properties C154 - C157. *)
From Verif Require Import Prelude CloneModel CloneSpec CloneProofs CloneProofs2 CloneProofs3 CloneProps ConModel ConSpec ConProofs ConProofs2.

Lemma class_tensor k : class_of k = CTensor <-> k = KTensor \/ k = KReadOnlyTensor.
Proof. destruct k; cbn; split; intros H; try discriminate; try (destruct H; discriminate); auto. Qed.
Lemma class_stranger k : class_of k = CUnknown <-> k = KUnknown \/ exists c, k = KClonable c.
Proof. destruct k; cbn; split; intros H; try discriminate; try (destruct H as [H|[c H]]; discriminate); eauto. Qed.
Lemma attr_says h v attr (has : Z -> node -> Prop) fuel : (forall n d, 2 <= length (n_data n) -> has d n <-> attr n = d) ->
  wf_heap h -> wf_val h v -> well_formed h v -> length h <= fuel ->
  match attr_of_container attr fuel h v with
  | Ok r => tells h v has r /\ ~ stranger_within h v
  | Err e => (e = ValueError /\ mismatch h v has) \/ (e = TypeError /\ stranger_within h v)
  end.
Proof.
  intros HA Hwf Hv HF Hf.
  assert (Hl : forall a n, within h v a -> nth_error h a = Some n -> (class_of (n_kind n) = CTensor \/ class_of (n_kind n) = CBasic) -> n_items n = []).
  { intros a n W En K. specialize (HF a n W En). cbn in HF. destruct (n_kind n); cbn in K; try (destruct K; discriminate); tauto. }
  assert (H2 : forall n, tensor_within h v n -> 2 <= length (n_data n)).
  { intros n (a & W & En & K). specialize (HF a n W En). cbn in HF. destruct K as [K|K]; rewrite K in HF; tauto. }
  assert (TW : forall a n, within h v a -> is_tensor h a n -> tensor_within h v n).
  { intros a n W [En K]. exists a. split; auto. split; auto. apply class_tensor; auto. }
  pose proof (attr_of_container_ok attr h Hwf v Hl fuel Hv Hf) as X. destruct (attr_of_container attr fuel h v) as [r|e].
  - destruct X as (X1 & X2 & X3). split.
    + destruct r as [d|]; cbn.
      * split; [destruct (X3 d eq_refl) as (a & n & W & T & _); exists n; eauto|]. intros n T. pose proof T as (a & W & En & K). apply HA; auto.
        specialize (X2 a n W (conj En (proj2 (class_tensor _) K))). congruence.
      * intros n (a & W & En & K). specialize (X2 a n W (conj En (proj2 (class_tensor _) K))). discriminate.
    + intros (a & n & W & En & K). apply (X1 a W). exists n. split; auto. apply class_stranger; auto.
  - destruct X as [[-> (v1 & t1 & n1 & v2 & t2 & n2 & [<-|[]] & [<-|[]] & W1 & W2 & T1 & T2 & A)]|[-> (u & a & [<-|[]] & W & n & En & K)]]; [left|right]; split; auto.
    + exists n1, n2, (attr n1), (attr n2). split; [eauto|]. split; [eauto|]. split; [apply HA; eauto|]. split; [apply HA; eauto|exact A].
    + exists a, n. split; auto. split; auto. apply class_stranger; auto.
Qed.
Lemma dtype_attr n d : 2 <= length (n_data n) -> has_dtype d n <-> t_dtype n = d.
Proof. unfold has_dtype, t_dtype. destruct (n_data n) as [|x [|y l]]; cbn; intros; try lia. split; congruence. Qed.
Lemma device_attr n d : 2 <= length (n_data n) -> has_device d n <-> t_device n = d.
Proof. unfold has_device, t_device. destruct (n_data n) as [|x [|y l]]; cbn; intros; try lia. split; congruence. Qed.

(* C154: whatever the container (with shared and cyclic parts): the answer is the dtype of all the tensors within reach, or None if there is
   none; ValueError means that two of them have different dtypes; TypeError means that there is an object of an unrecognized type. The same
   holds for devices. Nothing else can happen. *)
Theorem C154_attributes : forall h v fuel, wf_heap h -> wf_val h v -> well_formed h v -> length h <= fuel ->
  match dtype_of_container fuel h v with
  | Ok r => tells h v has_dtype r /\ ~ stranger_within h v
  | Err e => (e = ValueError /\ mismatch h v has_dtype) \/ (e = TypeError /\ stranger_within h v)
  end /\
  match device_of_container fuel h v with
  | Ok r => tells h v has_device r /\ ~ stranger_within h v
  | Err e => (e = ValueError /\ mismatch h v has_device) \/ (e = TypeError /\ stranger_within h v)
  end.
Proof. intros. split; [apply attr_says; auto using dtype_attr|apply attr_says; auto using device_attr]. Qed.
Print Assumptions C154_attributes.
(* So an answer is given exactly if there is one and all objects are of recognized types. *)
Theorem C154_answers : forall h v fuel, wf_heap h -> wf_val h v -> well_formed h v -> length h <= fuel ->
  forall r, dtype_of_container fuel h v = Ok r <-> (tells h v has_dtype r /\ ~ stranger_within h v).
Proof.
  intros h v fuel Hwf Hv HF Hf r. destruct (C154_attributes h v fuel Hwf Hv HF Hf) as [X _].
  destruct (dtype_of_container fuel h v) as [r1|e].
  - destruct X as [T S]. split; [intros E; injection E as <-; auto|]. intros [T' _]. f_equal. destruct r1 as [d1|], r as [d|]; cbn in *; auto.
    + destruct T as [[n T1] T2]. destruct T' as [_ T3]. specialize (T2 n T1). specialize (T3 n T1). unfold has_dtype in *. congruence.
    + destruct T as [[n T1] T2]. destruct (T' n T1).
    + destruct T' as [[n T1] T2]. destruct (T n T1).
  - split; [discriminate|]. intros [T' S]. destruct X as [[_ (n1 & n2 & d1 & d2 & T1 & T2 & H1 & H2 & N)]|[_ S']]; [|contradiction].
    destruct r as [d|]; cbn in T'; [|destruct (T' n1 T1)]. destruct T' as [_ T']. pose proof (T' n1 T1). pose proof (T' n2 T2). unfold has_dtype in *. congruence.
Qed.
Print Assumptions C154_answers.

(* two lists within each other, which share a dictionary with a tensor: l = [m, 7]; m = [l, {"k": t}]; with t of dtype 3 on device 0 *)
Definition cycle : heap := [Node KList [] [] [VRef 1; VAtom 7]; Node KList [] [] [VRef 0; VRef 2]; Node KDict [] [KStr 1] [VRef 3]; Node KTensor [3; 0; 10; 20]%Z [] []; Node KTensor [4; 0]%Z [] []].
Tactic Notation "each" ident(x) ident(E) := destruct x as [|x]; [cbn in E; injection E as <-|destruct x as [|x]; [cbn in E; injection E as <-|destruct x as [|x]; [cbn in E; injection E as <-|destruct x as [|x]; [cbn in E; injection E as <-|destruct x as [|x]; [cbn in E; injection E as <-|destruct x; discriminate]]]]].
Lemma cycle_wf : wf_heap cycle.
Proof. intros x n c E Hin. each x E; cbn in *; intuition (try discriminate; try (match goal with X : VRef _ = VRef _ |- _ => injection X as <- end); lia). Qed.
Example C154_example : wf_heap cycle /\ well_formed cycle (VRef 0) /\ dtype_of_container 5 cycle (VRef 0) = Ok (Some 3%Z) /\ dtype_of_container 5 cycle (VRef 1) = Ok (Some 3%Z).
Proof. split; [exact cycle_wf|]. split; [intros a n W E; each a E; cbn; auto|]. split; reflexivity. Qed.

(* C155: cast_tensors_in_container, for containers without a cycle through a tuple, made of tensors, bytes, lists, tuples, sets, dictionaries,
   immutable lists and dictionaries: it terminates; the result is like the original, with everything that is shared or cyclic, its tensors
   have the dtype and the device asked for, and the converted values; the original is unchanged; and the two have only bytes and tensors in
   common that are as asked for already. *)
Theorem C155_cast_partial : forall conv dtype device fuel h v,
  wf_heap h -> wf_val h v -> no_cycle_through h KTup v -> castable h v -> length h <= fuel ->
  exists h' w, cast_tensors_in_container conv dtype device fuel h v = Ok (h', w) /\
    alike (cast_of conv dtype device) h v h' w /\ untouched h h' /\
    (forall b n, within h' w b -> nth_error h' b = Some n -> b < length h ->
       n_kind n = KBytes \/ (n_kind n = KTensor /\ (forall d, dtype = Some d -> has_dtype d n) /\ (forall d, device = Some d -> has_device d n))).
Proof.
  intros conv dtype device fuel h v Hwf Hv Hc Hcl Hf. destruct (cast_alike conv dtype device fuel h v Hwf Hv Hc Hcl Hf) as (h' & w & E & W1 & W2 & W3 & A & U & S).
  exists h', w. split; auto. split; auto. split; auto. intros b n W En L. destruct (S b n W En L) as [K|(K & A1 & A2)]; auto. right. split; auto.
  assert (L2 : 2 <= length (n_data n)).
  { destruct (alike_back _ _ _ _ _ A) as (B' & X & _ & D'). destruct (X b W) as (a & Wa & Bab).
    destruct (D' a b Bab) as (n0 & n1 & E0 & E1 & C & _). rewrite En in E1. injection E1 as <-. specialize (Hcl a n0 Wa E0). cbn in Hcl. unfold cast_of in C. rewrite K in C.
    destruct (n_kind n0); try contradiction; try (destruct C as (_ & _ & C); discriminate).
    destruct C as (d & x & l & _ & _ & _ & d' & v' & _ & _ & ->). cbn. lia. }
  unfold as_asked in *. split; intros d ->; [apply dtype_attr|apply device_attr]; auto; symmetry; apply Z.eqb_eq; auto.
Qed.
Print Assumptions C155_cast_partial.
Lemma cycle_no_cycle : no_cycle_through cycle KTup (VRef 0).
Proof. intros a n b W En K. each a En; discriminate. Qed.
Lemma cycle_castable : castable cycle (VRef 0).
Proof.
  intros a n W E. each a E; cbn; auto.
Qed.
Example C155_example : castable cycle (VRef 0) /\ no_cycle_through cycle KTup (VRef 0) /\
  exists h' w, cast_tensors_in_container (fun _ _ l => map Z.opp l) (Some 8%Z) None 5 cycle (VRef 0) = Ok (h', w) /\
    skipn 5 h' = [Node KList [] [] [VRef 6; VAtom 7]; Node KList [] [] [VRef 5; VRef 7]; Node KDict [] [KStr 1] [VRef 8]; Node KTensor [8; 0; -10; -20]%Z [] []] /\ w = VRef 5.
Proof. split; [exact cycle_castable|]. split; [exact cycle_no_cycle|]. eexists. eexists. split; [reflexivity|]. split; reflexivity. Qed.

(* Without the restrictions, it is false. An immutable set becomes a list, not a set. *)
Theorem C155_immutable_set_refuted : forall conv dtype device fuel h a n h' w,
  nth_error h a = Some n -> n_kind n = KImmutableSet -> cast_tensors_in_container conv dtype device fuel h (VRef a) = Ok (h', w) ->
  exists b n', w = VRef b /\ nth_error h' b = Some n' /\ n_kind n' = KList.
Proof.
  intros conv dtype device fuel h a n h' w En K E. unfold cast_tensors_in_container in E.
  destruct fuel as [|f]; cbn [walk mlookup] in E; [discriminate|]. rewrite En in E. unfold cast_visit in E at 1. rewrite K in E. cbn [class_of] in E.
  destruct (walk_items _ _ _ _ _) as [[h1 m1]|] eqn:Ew; [|discriminate]. cbn in E. injection E as <- <-. exists (length h).
  destruct (walk_items_kind _ (walk_kind _ f) _ _ _ _ _ _ (length h) (Node KList (n_data n) (n_keys n) []) Ew) as (n' & E' & K').
  { rewrite nth_error_app2, Nat.sub_diag by auto. reflexivity. }
  exists n'. auto.
Qed.
Print Assumptions C155_immutable_set_refuted.
Example C155_immutable_set_example : exists h' w, cast_tensors_in_container (fun _ _ l => l) (Some 8%Z) None 2 [Node KImmutableSet [] [] [VAtom 1]] (VRef 0) = Ok (h', w) /\ kind_of h' w = Some KList.
Proof. eexists. eexists. split; reflexivity. Qed.
(* t = (l,) with l = [t]: in the copy, the list contains the temporary list instead of the tuple *)
Definition cast_cycle : heap := [Node KTup [] [] [VRef 1]; Node KList [] [] [VRef 0]].
Theorem C155_tuple_cycle_refuted : forall conv dtype device fuel, 2 <= fuel ->
  exists h' w, cast_tensors_in_container conv dtype device fuel cast_cycle (VRef 0) = Ok (h', w) /\ ~ alike (cast_of conv dtype device) cast_cycle (VRef 0) h' w.
Proof.
  intros conv dtype device fuel Hf.
  assert (E0 : cast_tensors_in_container conv dtype device fuel cast_cycle (VRef 0) = Ok (cast_cycle ++ [Node KList [] [] [VRef 3]; Node KList [] [] [VRef 2]; Node KTup [] [] [VRef 3]], VRef 4)) by (destruct fuel as [|[|[|f]]]; try lia; reflexivity).
  eexists. eexists. split; [exact E0|]. intros (B & R & F1 & F2 & D). cbn in R.
  assert (B1 : B 1 3).
  { destruct (D _ _ R) as (_ & n & n' & E & E' & _ & FF). cbn in E, E'. injection E as <-. injection E' as <-. cbn in FF. inversion FF as [|? ? ? ? X Y]; subst. exact X. }
  destruct (D _ _ B1) as (_ & n & n' & E & E' & _ & FF). cbn in E, E'. injection E as <-. injection E' as <-. cbn in FF. inversion FF as [|? ? ? ? X Y]; subst. cbn in X.
  pose proof (F1 _ _ _ R X). discriminate.
Qed.
Print Assumptions C155_tuple_cycle_refuted.

(* ---- casting, then asking ---- *)
Lemma castable_well_formed h v : castable h v -> well_formed h v.
Proof. intros C a n W E. specialize (C a n W E). cbn in *. destruct (n_kind n); auto; contradiction. Qed.
Lemma castable_no_stranger h v : castable h v -> ~ stranger_within h v.
Proof. intros C (a & n & W & E & K). specialize (C a n W E). cbn in C. destruct K as [K|[c K]]; rewrite K in C; auto. Qed.
Lemma cast_castable conv dtype device h v h' w : castable h v -> alike (cast_of conv dtype device) h v h' w -> castable h' w.
Proof.
  intros C A b n' W E. destruct (alike_back _ _ _ _ _ A) as (B & X & _ & D). destruct (X b W) as (a & Wa & Bab). destruct (D a b Bab) as (n & n1 & E0 & E1 & CO & F).
  rewrite E in E1. injection E1 as <-. specialize (C a n Wa E0). cbn in *. unfold cast_of in CO.
  destruct (n_kind n); try contradiction; try (destruct CO as (_ & _ & ->); auto; fail).
  - destruct CO as (_ & _ & ->). rewrite C in F. inversion F. auto.
  - destruct CO as (d & x & l & _ & -> & _ & d' & v' & _ & _ & ->). destruct C as [_ C]. rewrite C in F. inversion F. cbn. split; auto. lia.
Qed.
Lemma cast_tensors conv dtype device h v h' w : castable h v -> alike (cast_of conv dtype device) h v h' w ->
  (forall n', tensor_within h' w n' -> exists n, tensor_within h v n /\ n_kind n = KTensor /\ cast_of conv dtype device n n') /\
  (forall n, tensor_within h v n -> exists n', tensor_within h' w n' /\ n_kind n = KTensor /\ cast_of conv dtype device n n').
Proof.
  intros C A. destruct (alike_back _ _ _ _ _ A) as (B & X & Y & D). split.
  - intros n' (b & W & E & K). destruct (X b W) as (a & Wa & Bab). destruct (D a b Bab) as (n & n1 & E0 & E1 & CO & F). rewrite E in E1. injection E1 as <-. exists n.
    assert (Q : n_kind n = KTensor).
    { specialize (C a n Wa E0). cbn in C. unfold cast_of in CO. destruct (n_kind n); auto; try contradiction; destruct CO as (_ & _ & CO); rewrite CO in K; destruct K; discriminate. }
    split; auto. exists a. auto.
  - intros n (a & W & E & K). destruct (Y a W) as (b & Wb & Bab). destruct (D a b Bab) as (n0 & n1 & E0 & E1 & CO & F). rewrite E in E0. injection E0 as <-. exists n1.
    assert (Q : n_kind n = KTensor) by (specialize (C a n W E); cbn in C; destruct K as [K|K]; auto; rewrite K in C; contradiction).
    split; auto. exists b. split; auto. split; auto. unfold cast_of in CO. rewrite Q in CO. destruct CO as (d & x & l & _ & K1 & _). auto.
Qed.
Lemma cast_tells conv dtype device h v h' w : castable h v -> alike (cast_of conv dtype device) h v h' w ->
  (forall r, dtype = None -> tells h v has_dtype r -> tells h' w has_dtype r) /\ (forall r, device = None -> tells h v has_device r -> tells h' w has_device r) /\
  (forall d, dtype = Some d -> forall n, tensor_within h' w n -> has_dtype d n) /\ (forall d, device = Some d -> forall n, tensor_within h' w n -> has_device d n) /\
  ((exists n, tensor_within h v n) <-> exists n, tensor_within h' w n).
Proof.
  intros C A. destruct (cast_tensors conv dtype device h v h' w C A) as [X Y].
  assert (EX : (exists n, tensor_within h v n) <-> exists n, tensor_within h' w n).
  { split; intros [n T]; [destruct (Y n T) as (n' & T' & _)|destruct (X n T) as (n' & T' & _)]; eauto. }
  split; [|split; [|split; [|split; [|exact EX]]]].
  - intros [d|] -> T; cbn in *.
    + destruct T as [T1 T2]. split; [apply EX; auto|]. intros n' T'. destruct (X n' T') as (n & T & K & CO). unfold cast_of in CO. rewrite K in CO.
      destruct CO as (d1 & x & l & E & _ & _ & d' & v' & -> & -> & E'). specialize (T2 n T). unfold has_dtype in *. rewrite E in T2. rewrite E'. cbn in *. auto.
    + intros n' T'. destruct (X n' T') as (n & T1 & _). destruct (T n T1).
  - intros [d|] -> T; cbn in *.
    + destruct T as [T1 T2]. split; [apply EX; auto|]. intros n' T'. destruct (X n' T') as (n & T & K & CO). unfold cast_of in CO. rewrite K in CO.
      destruct CO as (d1 & x & l & E & _ & _ & d' & v' & -> & -> & E'). specialize (T2 n T). unfold has_device in *. rewrite E in T2. rewrite E'. cbn in *. auto.
    + intros n' T'. destruct (X n' T') as (n & T1 & _). destruct (T n T1).
  - intros d -> n' T'. destruct (X n' T') as (n & T & K & CO). unfold cast_of in CO. rewrite K in CO. destruct CO as (d1 & x & l & E & _ & _ & d' & v' & -> & -> & E'). unfold has_dtype. rewrite E'. reflexivity.
  - intros d -> n' T'. destruct (X n' T') as (n & T & K & CO). unfold cast_of in CO. rewrite K in CO. destruct CO as (d1 & x & l & E & _ & _ & d' & v' & -> & -> & E'). unfold has_device. rewrite E'. reflexivity.
Qed.

(* C156: after casting, the container has the dtype and the device asked for (if it has tensors at all); a dtype or a device that was not
   asked for stays what it was. *)
Theorem C156_cast_then_ask : forall conv dtype device fuel h v,
  wf_heap h -> wf_val h v -> no_cycle_through h KTup v -> castable h v -> length h <= fuel ->
  exists h' w, cast_tensors_in_container conv dtype device fuel h v = Ok (h', w) /\
    forall fuel', length h' <= fuel' ->
      (forall d, dtype = Some d -> (exists n, tensor_within h v n) -> dtype_of_container fuel' h' w = Ok (Some d)) /\
      (forall d, device = Some d -> (exists n, tensor_within h v n) -> device_of_container fuel' h' w = Ok (Some d)) /\
      (forall r, dtype = None -> dtype_of_container fuel h v = Ok r -> dtype_of_container fuel' h' w = Ok r) /\
      (forall r, device = None -> device_of_container fuel h v = Ok r -> device_of_container fuel' h' w = Ok r) /\
      ((forall n, ~ tensor_within h v n) -> dtype_of_container fuel' h' w = Ok None /\ device_of_container fuel' h' w = Ok None).
Proof.
  intros conv dtype device fuel h v Hwf Hv Hc Hcl Hf. destruct (cast_alike conv dtype device fuel h v Hwf Hv Hc Hcl Hf) as (h' & w & E & W1 & W2 & W3 & A & U & S).
  exists h', w. split; auto. intros fuel' Hf'. pose proof (cast_castable _ _ _ _ _ _ _ Hcl A) as Hcl'.
  destruct (cast_tells _ _ _ _ _ _ _ Hcl A) as (T1 & T2 & T3 & T4 & T5).
  destruct (C154_attributes h v fuel Hwf Hv (castable_well_formed _ _ Hcl) Hf) as [X1 X2].
  destruct (C154_attributes h' w fuel' W1 W2 (castable_well_formed _ _ Hcl') Hf') as [Y1 Y2].
  assert (DET : forall (has : Z -> node -> Prop) (r : result (option Z)) q, (forall d1 d2 n, has d1 n -> has d2 n -> d1 = d2) ->
     match r with Ok r => tells h' w has r /\ ~ stranger_within h' w | Err e => (e = ValueError /\ mismatch h' w has) \/ (e = TypeError /\ stranger_within h' w) end ->
     tells h' w has q -> r = Ok q).
  { intros has r q FUN Y T. destruct r as [r1|e].
    - destruct Y as [Y _]. f_equal. destruct r1 as [d1|], q as [d|]; cbn in *; auto.
      + destruct T as [[n T] TT], Y as [_ YY]. f_equal. apply (FUN _ _ n); auto.
      + destruct Y as [[n Y] _]. destruct (T n Y).
      + destruct T as [[n T] _]. destruct (Y n T).
    - exfalso. destruct Y as [[_ (n1 & n2 & d1 & d2 & N1 & N2 & H1 & H2 & NE)]|[_ SW]]; [|exact (castable_no_stranger _ _ Hcl' SW)].
      destruct q as [d|]; cbn in T; [|destruct (T n1 N1)]. destruct T as [_ T]. apply NE. transitivity d; [apply (FUN _ _ n1)|apply (FUN _ _ n2)]; auto. }
  assert (F1 : forall d1 d2 n, has_dtype d1 n -> has_dtype d2 n -> d1 = d2) by (unfold has_dtype; congruence).
  assert (F2 : forall d1 d2 n, has_device d1 n -> has_device d2 n -> d1 = d2) by (unfold has_device; congruence).
  split; [|split; [|split; [|split]]].
  - intros d Q EX. apply (DET has_dtype); auto. split; [apply T5; auto|auto].
  - intros d Q EX. apply (DET has_device); auto. split; [apply T5; auto|auto].
  - intros r Q X. rewrite X in X1. apply (DET has_dtype); auto. apply T1; auto. tauto.
  - intros r Q X. rewrite X in X2. apply (DET has_device); auto. apply T2; auto. tauto.
  - intros NT. assert (NT' : forall n, ~ tensor_within h' w n) by (intros n T; destruct (proj2 T5 (ex_intro _ n T)) as [m M]; exact (NT m M)).
    split; [apply (DET has_dtype)|apply (DET has_device)]; auto.
Qed.
Print Assumptions C156_cast_then_ask.
Example C156_example : (exists n, tensor_within cycle (VRef 0) n) /\
  rmap (fun hw => dtype_of_container 20 (fst hw) (snd hw)) (cast_tensors_in_container (fun _ _ l => l) (Some 8%Z) None 5 cycle (VRef 0)) = Ok (Ok (Some 8%Z)).
Proof.
  split; [|reflexivity]. exists (Node KTensor [3; 0; 10; 20]%Z [] []), 3. split; [|split; [reflexivity|left; reflexivity]].
  apply (reach_step _ 0 2 3); [apply (reach_step _ 0 1 2); [apply (reach_step _ 0 0 1); [constructor|]|]|]; eexists; (split; [reflexivity|cbn; auto]).
Qed.

(* Refinement of the CMemory and CDict models to maps from (batch item, key) to value. *)
From Verif Require Import Prelude StructModel StructSpec CListProofs CListRefine CListLanes.
Open Scope Z_scope.

Lemma sequence_all_ok {A} : forall (l : list (result A)),
  (forall i x, nth_error l i = Some x -> exists a, x = Ok a) -> exists r, sequence l = Ok r.
Proof.
  induction l as [|x l IH]; intros H; simpl; eauto.
  destruct (H 0%nat x eq_refl) as [a ->]. destruct IH as [r ->]; eauto. intros i x Hx. apply (H (S i) x Hx).
Qed.

Lemma nth_error_seq0 n i : (i < n)%nat -> nth_error (seq 0 n) i = Some i.
Proof.
  intros H. destruct (nth_error (seq 0 n) i) as [x|] eqn:E.
  - f_equal. apply nth_error_nth with (d := 0%nat) in E. rewrite seq_nth in E by auto. lia.
  - apply nth_error_None in E. rewrite seq_length in E. lia.
Qed.

Lemma nth_some {A} (l : list A) i : (i < length l)%nat -> exists x, nth_error l i = Some x.
Proof. intros. destruct (nth_error l i) eqn:E; eauto. apply nth_error_None in E; lia. Qed.

Lemma combine_nth_error {A B} : forall (l : list A) (l' : list B) i,
  nth_error (combine l l') i = match nth_error l i, nth_error l' i with Some a, Some b => Some (a, b) | _, _ => None end.
Proof.
  induction l as [|a l IH]; intros [|b l'] [|i]; simpl; auto. destruct (nth_error l i); auto.
Qed.

Lemma forallb_ext {A} (f g : A -> bool) (l : list A) : (forall x, f x = g x) -> forallb f l = forallb g l.
Proof. intros H. induction l; simpl; auto. rewrite H, IHl. reflexivity. Qed.

Section CMem.
Context {V : Type}.
Variables (n : nat) (off : Z) (K : nat).
Hypothesis HK : (1 <= K)%nat.

Record mrep (m : cmem V) (c : @cells V) : Prop := {
  mr_n : length (cm_data m) = n;
  mr_off : cm_off m = off;
  mr_K : cm_nkeys m = K;
  mr_len : forall i lane, nth_error (cm_data m) i = Some lane -> length lane = K;
  mr_val : forall i lane k, nth_error (cm_data m) i = Some lane -> in_range off K k = true ->
           nth_error lane (Z.to_nat (k - off)) = Some (c i k) }.

Lemma key_valid_in m c k : mrep m c -> key_valid m k = in_range off K k.
Proof. intros H. unfold key_valid, in_range. rewrite (mr_off _ _ H), (mr_K _ _ H). lia. Qed.

Lemma keys_none : forall ks, keys_in_range off K ks (repeat true (length ks)) = forallb (in_range off K) ks.
Proof. induction ks; simpl; auto. unfold keys_in_range in *. cbn. rewrite IHks. auto. Qed.

Lemma get_key_refines m c key w :
  mrep m c -> shaped n key = true -> mask_shaped n w = true ->
  (keys_in_range off K (arg_of n key) (mask_of n w) = true -> cm_get_key m key w = Ok (arg_of n key)) /\
  (keys_in_range off K (arg_of n key) (mask_of n w) = false -> cm_verify m = true -> cm_get_key m key w = Err KeyError).
Proof.
  intros H Hk Hw. unfold cm_get_key, cm_batch. rewrite (mr_n _ _ H), (expand_ok _ _ _ Hk). cbn [bind].
  assert (E : cm_verify m = true -> forallb (key_valid m) (match w with None => arg_of n key
      | Some ws => map2 (fun (b : bool) k => if b then k else if cm_verify m then cm_off m else 0) ws (arg_of n key) end)
      = keys_in_range off K (arg_of n key) (mask_of n w)).
  { intros Hv. rewrite Hv. assert (Hl := arg_of_length _ _ Hk). destruct w as [ws|]; cbn [mask_of].
    - unfold keys_in_range. generalize (arg_of n key). clear - H HK.
      induction ws as [|b ws IH]; intros [|k ks]; auto. cbn. rewrite <- IH. f_equal.
      rewrite (key_valid_in _ _ _ H). destruct b; cbn; auto.
      rewrite (mr_off _ _ H). unfold in_range. lia.
    - replace (repeat true n) with (repeat true (length (arg_of n key))) by (rewrite Hl; auto). rewrite keys_none. apply forallb_ext. intros k. apply (key_valid_in _ _ _ H). }
  destruct (cm_verify m) eqn:Hv; cbn [andb].
  - rewrite E by auto. split; intros ->; auto.
  - split; auto. discriminate.
Qed.

Lemma shape_nth {A} (b : barg A) i : shaped n b = true -> (i < n)%nat -> exists x, nth_error (arg_of n b) i = Some x.
Proof. intros H Hi. apply nth_some. rewrite arg_of_length; auto. Qed.

Lemma modify_refines (f : option bool -> V -> V -> V) (g : V -> V -> V) m c key value w :
  mrep m c -> shaped n key = true -> shaped n value = true -> mask_shaped n w = true ->
  (forall m old v, In m (masks n w) -> sel m = true -> f m old v = g old v) -> (forall old v, f (Some false) old v = old) ->
  forallb (fun kb => mem_key_ok off K (fst kb) (snd kb)) (combine (arg_of n key) (mask_of n w)) = true ->
  if keys_in_range off K (arg_of n key) (mask_of n w)
  then exists m', cm_modify m f key value w = (m', Ok tt) /\ cm_verify m' = cm_verify m /\
         mrep m' (write g c (arg_of n key) (arg_of n value) (mask_of n w))
  else cm_verify m = true -> cm_modify m f key value w = (m, Err KeyError).
Proof.
  intros H Hk Hv Hw Hf1 Hf2 Hok.
  destruct (get_key_refines m c key w H Hk Hw) as [G1 G2].
  unfold cm_modify, cm_batch, cm_address. rewrite (mr_n _ _ H), (get_where_ok _ _ Hw). cbn [bind].
  destruct (keys_in_range off K (arg_of n key) (mask_of n w)) eqn:Er.
  2:{ intros Hvf. rewrite G2 by auto. reflexivity. }
  rewrite G1 by auto. cbn [rmap bind]. rewrite (expand_ok _ _ _ Hv). cbn [bind].
  match goal with |- context [sequence ?s] => set (S := s) end.
  (* what happens in lane i *)
  assert (Hlane : forall i lane, nth_error (cm_data m) i = Some lane ->
     exists b' k v wm, nth_error S i = Some (Ok b') /\ nth_error (arg_of n key) i = Some k /\ nth_error (arg_of n value) i = Some v /\
       nth_error (masks n w) i = Some wm /\ length b' = K /\
       forall k', in_range off K k' = true ->
         nth_error b' (Z.to_nat (k' - off)) = Some (if sel wm then if k =? k' then g (c i k') v else c i k' else c i k')).
  { intros i lane Hl. assert (Hi : (i < n)%nat) by (rewrite <- (mr_n _ _ H); apply nth_error_Some; congruence).
    destruct (shape_nth key i Hk Hi) as [k Ek]. destruct (shape_nth value i Hv Hi) as [v Ev].
    destruct (nth_some (masks n w) i) as [wm Em]. { rewrite masks_length; auto. }
    assert (Ebs : nth_error (mask_of n w) i = Some (sel wm)) by (rewrite <- masks_sel, nth_error_map, Em; reflexivity).
    assert (ES : nth_error S i = Some (lane_modify lane (k - off) (fun old => f wm old v))).
    { unfold S. rewrite map3_nth_error, Hl, nth_error_map, Ek. cbn [option_map]. rewrite map2_nth_error, Em, Ev, (mr_off _ _ H). reflexivity. }
    assert (Hlen := mr_len _ _ H _ _ Hl).
    rewrite forallb_forall in Hok. unfold keys_in_range in Er. rewrite forallb_forall in Er.
    assert (HIn : In (k, sel wm) (combine (arg_of n key) (mask_of n w))).
    { apply nth_error_In with (n := i). rewrite combine_nth_error, Ek, Ebs. reflexivity. }
    specialize (Hok _ HIn). specialize (Er _ HIn). cbn [fst snd] in *.
    assert (HT : exists j, tidx (length lane) (k - off) = Some j /\ (j < K)%nat /\ (sel wm = true -> j = Z.to_nat (k - off))).
    { rewrite Hlen. unfold tidx, mem_key_ok, in_range in *.
      destruct ((0 <=? k - off) && (k - off <? Z.of_nat K)) eqn:E1; [eexists; split; [reflexivity|]; split; auto; lia|].
      destruct ((- Z.of_nat K <=? k - off) && (k - off <? 0)) eqn:E2; [eexists; split; [reflexivity|]; split; [lia|]; intros Hs; rewrite Hs in Er; lia|].
      exfalso. destruct (sel wm); lia. }
    destruct HT as (j & Ej & Hj & Hjs).
    destruct (nth_some lane j) as [x Ex]; [lia|].
    unfold lane_modify in ES. rewrite Ej, Ex in ES.
    exists (upd lane j (f wm x v)), k, v, wm. repeat (split; [auto; fail|]). split; [rewrite upd_length; auto|].
    intros k' Hk'. rewrite nth_error_upd, Hlen. rewrite (proj2 (Nat.ltb_lt j K) Hj).
    assert (Hv' := mr_val _ _ H _ _ k' Hl Hk').
    destruct (sel wm) eqn:Hs.
    - rewrite Hjs in * by auto. cbn in Er. unfold in_range in Er, Hk'.
      destruct (Z.eqb_spec k k') as [->|Hne].
      + rewrite Nat.eqb_refl. rewrite Hv' in Ex. injection Ex as <-. rewrite Hf1; auto. eapply nth_error_In; eauto.
      + destruct (Nat.eqb_spec (Z.to_nat (k - off)) (Z.to_nat (k' - off))); auto. lia.
    - destruct wm as [[|]|]; try discriminate. rewrite Hf2.
      destruct (Nat.eqb_spec j (Z.to_nat (k' - off))) as [->|]; auto. congruence. }
  destruct (sequence_all_ok S) as [r Hr].
  { intros i x Hx. destruct (nth_error (cm_data m) i) as [lane|] eqn:El.
    - destruct (Hlane i lane El) as (b' & k & v & wm & E & _). rewrite E in Hx. injection Hx as <-. eauto.
    - unfold S in Hx. rewrite map3_nth_error, El in Hx. discriminate. }
  rewrite Hr. eexists; split; [reflexivity|]. split; [reflexivity|].
  assert (HrS := fun i => sequence_nth _ _ i Hr).
  constructor; cbn.
  - rewrite (sequence_len _ _ Hr). unfold S. rewrite map3_length, map_length, map2_length, masks_length, !arg_of_length by auto.
    rewrite (mr_n _ _ H). lia.
  - apply (mr_off _ _ H).
  - apply (mr_K _ _ H).
  - intros i lane Hi. specialize (HrS i). rewrite Hi in HrS. cbn in HrS.
    destruct (nth_error (cm_data m) i) as [lane0|] eqn:El.
    + destruct (Hlane i lane0 El) as (b' & k & v & wm & E & _ & _ & _ & Hb & _). rewrite E in HrS. congruence.
    + unfold S in HrS. rewrite map3_nth_error, El in HrS. discriminate.
  - intros i lane k' Hi Hk'. specialize (HrS i). rewrite Hi in HrS. cbn in HrS.
    destruct (nth_error (cm_data m) i) as [lane0|] eqn:El.
    + destruct (Hlane i lane0 El) as (b' & k & v & wm & E & Ek & Ev & Em & Hb & Hval). rewrite E in HrS. injection HrS as <-.
      rewrite (Hval k' Hk'). unfold write. rewrite Ek, Ev. rewrite <- masks_sel, nth_error_map, Em. cbn. destruct (sel wm); auto.
    + unfold S in HrS. rewrite map3_nth_error, El in HrS. discriminate.
Qed.

Lemma get_refines m c key :
  mrep m c -> shaped n key = true ->
  if keys_in_range off K (arg_of n key) (repeat true n)
  then cm_get m key = Ok (map2 (fun i k => c i k) (seq 0 n) (arg_of n key))
  else cm_verify m = true -> cm_get m key = Err KeyError.
Proof.
  intros H Hk. destruct (get_key_refines m c key None H Hk eq_refl) as [G1 G2]. cbn [mask_of] in *.
  unfold cm_get, cm_address.
  destruct (keys_in_range off K (arg_of n key) (repeat true n)) eqn:Er.
  2:{ intros Hvf. rewrite G2 by auto. reflexivity. }
  rewrite G1 by auto. cbn [rmap bind].
  set (S := map2 lane_read (cm_data m) (map (fun k => k - cm_off m) (arg_of n key))).
  assert (Hlane : forall i, (i < n)%nat -> exists k, nth_error (arg_of n key) i = Some k /\ nth_error S i = Some (Ok (c i k))).
  { intros i Hi. destruct (shape_nth key i Hk Hi) as [k Ek]. exists k; split; auto.
    destruct (nth_some (cm_data m) i) as [lane El]; [rewrite (mr_n _ _ H); auto|].
    unfold S. rewrite map2_nth_error, El, nth_error_map, Ek. cbn. f_equal.
    replace (repeat true n) with (repeat true (length (arg_of n key))) in Er by (rewrite arg_of_length; auto). rewrite keys_none in Er. assert (Hr := forallb_nth _ _ _ _ Er Ek).
    unfold lane_read. rewrite (mr_len _ _ H _ _ El), (mr_off _ _ H). rewrite tidx_in by (unfold in_range in Hr; lia).
    rewrite (mr_val _ _ H _ _ k El Hr). reflexivity. }
  assert (HS : length S = n). { unfold S. rewrite map2_length, map_length, arg_of_length, (mr_n _ _ H) by auto. lia. }
  destruct (sequence_all_ok S) as [r Hr].
  { intros i x Hx. assert (Hi : (i < n)%nat) by (rewrite <- HS; apply nth_error_Some; congruence).
    destruct (Hlane i Hi) as (k & _ & E). rewrite E in Hx. injection Hx as <-. eauto. }
  rewrite Hr. f_equal. apply nth_error_ext. intros i. rewrite map2_nth_error.
  assert (Hs := sequence_nth _ _ i Hr).
  destruct (lt_dec i n) as [Hi|Hi].
  - destruct (Hlane i Hi) as (k & Ek & E). rewrite Ek, nth_error_seq0 by auto. rewrite E in Hs.
    destruct (nth_error r i); [|discriminate]. cbn in Hs. congruence.
  - replace (nth_error (seq 0 n) i) with (@None nat) by (symmetry; apply nth_error_None; rewrite seq_length; lia).
    apply nth_error_None. rewrite (sequence_len _ _ Hr), HS. lia.
Qed.

Variable D : dops V.
Hypothesis laws : unit_laws D.

Lemma meth_ok_cells mt w : meth_ok D mt w = true ->
  forall m old v, In m (masks n w) -> sel m = true -> meth_cell D mt m old v = meth_meaning D mt old v.
Proof.
  intros Hm m old v HIn Hs. apply meth_cell_sel; auto.
  destruct (meth_ok_masks D mt n w Hm) as [?|[?|Hf]]; auto. right; right.
  rewrite Forall_forall in Hf. apply Hf; auto.
Qed.

Lemma mem_step_refines m c o :
  mrep m c -> mem_covered D n off K o = true ->
  (cm_verify m = true \/ is_ok (snd (mem_step D n off K c o)) = true) ->
  snd (cm_step D m o) = snd (mem_step D n off K c o) /\
  cm_verify (fst (cm_step D m o)) = cm_verify m /\
  mrep (fst (cm_step D m o)) (fst (mem_step D n off K c o)).
Proof.
  intros H Hc Hok. destruct o as [k|mt k v w|k v md w]; cbn [mem_covered] in Hc; cbn [cm_step mem_step] in *.
  - assert (HG := get_refines m c k H Hc). cbn [fst snd] in *.
    destruct (keys_in_range off K (arg_of n k) (repeat true n)); auto.
    destruct Hok as [Hok|Hok]; [|discriminate]. auto.
  - rewrite !andb_true_iff in Hc. destruct Hc as ((((Hk & Hv) & Hw) & Hm) & Hko).
    assert (HG := modify_refines (meth_cell D mt) (meth_meaning D mt) m c k v w H Hk Hv Hw (meth_ok_cells mt w Hm) (fun old v => meth_cell_unsel D laws mt old v) Hko).
    unfold cm_apply. destruct (keys_in_range off K (arg_of n k) (mask_of n w)); cbn [fst snd].
    + destruct HG as (m' & -> & Hvf & Hr). auto.
    + destruct Hok as [Hok|Hok]; [|discriminate]. rewrite HG by auto. auto.
  - rewrite !andb_true_iff in Hc. destruct Hc as (((Hk & Hv) & Hw) & Hko).
    unfold cm_add_circular. destruct (d_isbool D) eqn:Hb.
    + destruct (get_key_refines m c k w H Hk Hw) as [G1 G2].
      unfold cm_batch, cm_address. rewrite (mr_n _ _ H), (get_where_ok _ _ Hw). cbn [bind].
      destruct (keys_in_range off K (arg_of n k) (mask_of n w)); cbn [fst snd] in *.
      * rewrite G1 by auto. cbn [rmap bind]. rewrite (expand_ok _ _ _ Hv). auto.
      * destruct Hok as [Hok|Hok]; [|discriminate]. rewrite G2 by auto. auto.
    + assert (HG := modify_refines (circ_cell D md) (fun old v => d_mod D (d_add D old v) md) m c k v w H Hk Hv Hw).
      specialize (HG ltac:(intros m0 old v0 _ Hs; unfold circ_cell; destruct m0 as [[|]|]; try discriminate; auto)).
      specialize (HG ltac:(intros; reflexivity) Hko).
      destruct (keys_in_range off K (arg_of n k) (mask_of n w)); cbn [fst snd].
      * destruct HG as (m' & -> & Hvf & Hr). auto.
      * destruct Hok as [Hok|Hok]; [|discriminate]. rewrite HG by auto. auto.
Qed.

Lemma mem_run_refines : forall os m c,
  mrep m c -> forallb (mem_covered D n off K) os = true ->
  (cm_verify m = true \/ forallb is_ok (snd (run (mem_step D n off K) c os)) = true) ->
  snd (run (cm_step D) m os) = snd (run (mem_step D n off K) c os) /\
  mrep (fst (run (cm_step D) m os)) (fst (run (mem_step D n off K) c os)).
Proof.
  induction os as [|o os IH]; intros m c H Hc Hok; cbn [run] in *; auto.
  cbn [forallb] in Hc. apply andb_true_iff in Hc. destruct Hc as [Hc1 Hc2].
  destruct (mem_step_refines m c o H Hc1) as (E1 & E2 & E3).
  { destruct Hok as [?|Hok]; auto. right. destruct (mem_step D n off K c o) as [c1 r1].
    destruct (run (mem_step D n off K) c1 os). cbn in *. apply andb_true_iff in Hok; tauto. }
  destruct (cm_step D m o) as [m1 r1], (mem_step D n off K c o) as [c1 r1']. cbn [fst snd] in *. subst r1'.
  destruct (IH m1 c1 E3 Hc2) as [E4 E5].
  { destruct Hok as [?|Hok]; [left; congruence|]. right. destruct (run (mem_step D n off K) c1 os). cbn in *. apply andb_true_iff in Hok; tauto. }
  destruct (run (cm_step D) m1 os), (run (mem_step D n off K) c1 os). cbn [fst snd] in *. split; congruence || auto.
Qed.
End CMem.

(* a new memory: n lanes of K cells *)
Definition cells_of {V} (d : V) (off : Z) (data : list (list V)) : @cells V :=
  fun i k => match nth_error data i with
             | Some lane => match nth_error lane (Z.to_nat (k - off)) with Some v => v | None => d end
             | None => d
             end.
Lemma mrep_init {V} (d : V) (data : list (list V)) K offset vf :
  Forall (fun lane => length lane = K) data ->
  let m := mkCmem data K offset vf in
  mrep (length data) (cm_off m) K m (cells_of d (cm_off m) data).
Proof.
  intros HF m. rewrite Forall_forall in HF. constructor; auto.
  - intros i lane Hi. apply HF. eapply nth_error_In; eauto.
  - intros i lane k Hi Hk. unfold cells_of. cbn in Hi. rewrite Hi.
    destruct (nth_some lane (Z.to_nat (k - cm_off m))) as [x Hx].
    { rewrite (HF lane) by (eapply nth_error_In; eauto). unfold in_range in Hk. lia. }
    rewrite Hx. reflexivity.
Qed.

Lemma bool_laws : unit_laws bool_ops.
Proof. split; intros []; reflexivity. Qed.

(* ------------------------------------------------------------------ CDict *)
Section CDictP.
Context {V : Type} (D : dops V).
Variables (n : nat) (off : Z) (K : nat).
Hypothesis HK : (1 <= K)%nat.
Hypothesis laws : unit_laws D.

Record drep (d : cdict V) (c : @maps V) : Prop := {
  dr_data : exists cd, mrep n off K (cd_data d) cd /\
            forall i k v, (i < n)%nat -> in_range off K k = true -> c i k = Some v -> cd i k = v;
  dr_exist : exists ce, mrep n off K (cd_exist d) ce /\
            forall i k, (i < n)%nat -> in_range off K k = true -> ce i k = match c i k with Some _ => true | None => false end;
  dr_verify : cm_verify (cd_exist d) = cm_verify (cd_data d) }.

Lemma keys_nth ks bs i k b : keys_in_range off K ks bs = true -> nth_error ks i = Some k -> nth_error bs i = Some b ->
  b = true -> in_range off K k = true.
Proof.
  intros H Hk Hb ->. unfold keys_in_range in H. assert (E := forallb_nth _ _ i (k, true) H).
  rewrite combine_nth_error, Hk, Hb in E. specialize (E eq_refl). cbn in E. auto.
Qed.

Lemma Forall2_nth {A B} (R : A -> B -> Prop) : forall l l', length l = length l' ->
  (forall i a b, nth_error l i = Some a -> nth_error l' i = Some b -> R a b) -> Forall2 R l l'.
Proof.
  induction l as [|a l IH]; intros [|b l'] Hlen H; try discriminate; constructor.
  - apply (H 0%nat); reflexivity.
  - apply IH; auto. intros i. apply (H (S i)).
Qed.

Lemma dict_step_refines d c o :
  drep d c -> dict_covered D n off K o = true ->
  (cm_verify (cd_data d) = true \/ is_ok (snd (dict_step D n off K c o)) = true) ->
  dict_out_ok (snd (cd_step D d o)) (snd (dict_step D n off K c o)) /\
  cm_verify (cd_data (fst (cd_step D d o))) = cm_verify (cd_data d) /\
  drep (fst (cd_step D d o)) (fst (dict_step D n off K c o)).
Proof.
  intros H Hc Hok. assert (H' := H). destruct H' as [(cd & Hd & Hdv) (ce & He & Hev) Hvf].
  destruct o as [k df|k|mt k v w|w]; cbn [dict_covered] in Hc; cbn [cd_step dict_step] in *.
  - apply andb_true_iff in Hc. destruct Hc as [Hk Hdf].
    assert (HG := get_refines n off K HK _ _ k Hd Hk). assert (HE := get_refines n off K HK _ _ k He Hk).
    assert (HL := arg_of_length _ _ Hk).
    destruct df as [df|]; cbn [fst snd] in *.
    + destruct (keys_in_range off K (arg_of n k) (repeat true n)) eqn:Er.
      * rewrite HE, HG. cbn [bind]. unfold cm_batch. rewrite (mr_n _ _ _ _ _ Hd), (expand_ok _ _ _ Hdf). cbn [bind].
        split; auto. cbn [dict_out_ok]. apply Forall2_nth.
        { rewrite !map3_length, !map2_length, !seq_length, HL. lia. }
        intros i a b. rewrite !map3_nth_error, !map2_nth_error.
        destruct (nth_error (seq 0 n) i) as [i'|] eqn:Ei; [|discriminate].
        destruct (nth_error (arg_of n k) i) as [k'|] eqn:Ek; [|discriminate].
        destruct (nth_error (arg_of n df) i) as [d'|]; [|discriminate].
        assert (Hi : (i < n)%nat) by (rewrite <- (seq_length n 0); apply nth_error_Some; congruence).
        rewrite nth_error_seq0 in Ei by auto. injection Ei as <-.
        assert (Hr : in_range off K k' = true) by (exact (keys_nth _ _ _ _ _ Er Ek (nth_error_repeat true Hi) eq_refl)).
        rewrite Hev by auto. intros E1 E2. injection E1 as <-. injection E2 as <-.
        destruct (c i k') as [v|] eqn:Ec; auto.
      * destruct Hok as [Hok|Hok]; [|discriminate]. rewrite HE by congruence. cbn. auto.
    + destruct (keys_in_range off K (arg_of n k) (repeat true n)) eqn:Er.
      * rewrite HG. cbn [rmap]. split; auto. cbn [dict_out_ok]. apply Forall2_nth.
        { rewrite !map2_length; auto. }
        intros i a b. rewrite !map2_nth_error.
        destruct (nth_error (seq 0 n) i) as [i'|] eqn:Ei; [|discriminate].
        destruct (nth_error (arg_of n k) i) as [k'|] eqn:Ek; [|discriminate].
        assert (Hi : (i < n)%nat) by (rewrite <- (seq_length n 0); apply nth_error_Some; congruence).
        rewrite nth_error_seq0 in Ei by auto. injection Ei as <-.
        assert (Hr : in_range off K k' = true) by (exact (keys_nth _ _ _ _ _ Er Ek (nth_error_repeat true Hi) eq_refl)).
        intros E1 E2. injection E1 as <-. injection E2 as <-. destruct (c i k') as [v|] eqn:Ec; auto.
      * destruct Hok as [Hok|Hok]; [|discriminate]. rewrite HG by congruence. cbn. auto.
  - assert (HE := get_refines n off K HK _ _ k He Hc). cbn [fst snd] in *.
    destruct (keys_in_range off K (arg_of n k) (repeat true n)) eqn:Er.
    + rewrite HE. cbn [rmap dict_out_ok]. split; auto. apply nth_error_ext. intros i. rewrite !map2_nth_error.
      destruct (nth_error (seq 0 n) i) as [i'|] eqn:Ei; auto.
      destruct (nth_error (arg_of n k) i) as [k'|] eqn:Ek; auto.
      assert (Hi : (i < n)%nat) by (rewrite <- (seq_length n 0); apply nth_error_Some; congruence).
      rewrite nth_error_seq0 in Ei by auto. injection Ei as <-.
      assert (Hr : in_range off K k' = true) by (exact (keys_nth _ _ _ _ _ Er Ek (nth_error_repeat true Hi) eq_refl)).
      rewrite Hev by auto. reflexivity.
    + destruct Hok as [Hok|Hok]; [|discriminate]. rewrite HE by congruence. cbn. auto.
  - assert (Hc' := Hc). cbn [mem_covered] in Hc'. rewrite !andb_true_iff in Hc'. destruct Hc' as ((((Hk & Hv) & Hw) & Hm) & Hko).
    assert (HG := modify_refines n off K HK (meth_cell D mt) (meth_meaning D mt) _ _ k v w Hd Hk Hv Hw (meth_ok_cells n D mt w Hm) (fun old v => meth_cell_unsel D laws mt old v) Hko).
    fold (cm_apply D mt (cd_data d) k v w) in HG.
    destruct (keys_in_range off K (arg_of n k) (mask_of n w)) eqn:Er.
    + destruct HG as (data' & EG & Hvf' & Hrep').
      assert (HN : drep (mkCdict data' (cd_exist d)) (dict_change (meth_meaning D mt) c (arg_of n k) (arg_of n v) (mask_of n w))).
      { constructor; cbn [cd_data cd_exist]; [| |congruence].
        * eexists; split; [exact Hrep'|]. intros i k0 x Hi Hk0. unfold dict_change, write.
           destruct (nth_error (arg_of n k) i) as [ki|]; [|auto]. destruct (nth_error (arg_of n v) i) as [vi|]; [|auto].
           destruct (nth_error (mask_of n w) i) as [[|]|]; auto. destruct (Z.eqb_spec ki k0); auto.
           destruct (c i k0) as [old|] eqn:Ec; [|discriminate]. cbn [option_map]. intros E; injection E as <-. rewrite (Hdv i k0 old); auto.
        * eexists; split; [exact He|]. intros i k0 Hi Hk0. rewrite Hev by auto. unfold dict_change.
           destruct (nth_error (arg_of n k) i) as [ki|]; [|auto]. destruct (nth_error (arg_of n v) i) as [vi|]; [|auto].
           destruct (nth_error (mask_of n w) i) as [[|]|]; auto. destruct (Z.eqb_spec ki k0); auto. destruct (c i k0); auto. }
      destruct mt.
      * clear HN. rewrite EG.
        assert (HE := modify_refines n off K HK (meth_cell bool_ops MSet) (fun _ v => v) _ _ k (Sc true) w He Hk eq_refl Hw).
        specialize (HE ltac:(intros m old v0 _ Hs; destruct m as [[|]|]; try discriminate; reflexivity) ltac:(intros; reflexivity) Hko).
        rewrite Er in HE. fold (cm_apply bool_ops MSet (cd_exist d) k (Sc true) w) in HE.
        destruct HE as (ex' & -> & Hvfe & Hrepe). cbn [fst snd rmap dict_out_ok cd_data]. split; auto. split; auto.
        constructor; cbn [cd_data cd_exist]; [| |congruence].
        -- eexists; split; [exact Hrep'|]. intros i k0 x Hi Hk0. unfold dict_set, write.
           destruct (nth_error (arg_of n k) i) as [ki|]; [|auto]. destruct (nth_error (arg_of n v) i) as [vi|]; [|auto].
           destruct (nth_error (mask_of n w) i) as [[|]|]; auto. destruct (Z.eqb_spec ki k0); auto. cbn. congruence.
        -- eexists; split; [exact Hrepe|]. intros i k0 Hi Hk0. unfold dict_set, write. cbn [arg_of].
           destruct (nth_error (arg_of n k) i) as [ki|] eqn:Eki; [|auto].
           destruct (shape_nth n v i Hv Hi) as [vi ->]. rewrite nth_error_repeat by auto.
           destruct (nth_error (mask_of n w) i) as [[|]|]; auto. destruct (Z.eqb_spec ki k0); auto.
      * rewrite EG; cbn [fst snd rmap dict_out_ok cd_data]; auto.
      * rewrite EG; cbn [fst snd rmap dict_out_ok cd_data]; auto.
      * rewrite EG; cbn [fst snd rmap dict_out_ok cd_data]; auto.
      * rewrite EG; cbn [fst snd rmap dict_out_ok cd_data]; auto.
    + destruct Hok as [Hok|Hok]; [|cbn in Hok; discriminate].
      destruct mt; rewrite HG by auto; cbn [fst snd rmap dict_out_ok cd_data]; (split; [auto|split; [auto|]]); destruct d; exact H.
  - destruct w as [w|]; [discriminate|]. cbn [fst snd dict_out_ok cd_data]. split; auto. split; auto.
    constructor; cbn [cd_data cd_exist]; auto.
    + exists cd. split; auto. discriminate.
    + exists (fun _ _ => false). split; auto. constructor; cbn.
      * rewrite map_length. apply (mr_n _ _ _ _ _ He).
      * apply (mr_off _ _ _ _ _ He).
      * apply (mr_K _ _ _ _ _ He).
      * intros i lane Hi. rewrite nth_error_map in Hi. destruct (nth_error (cm_data (cd_exist d)) i) as [l0|] eqn:El; [|discriminate].
        injection Hi as <-. rewrite map_length. apply (mr_len _ _ _ _ _ He _ _ El).
      * intros i lane k Hi Hk. rewrite nth_error_map in Hi. destruct (nth_error (cm_data (cd_exist d)) i) as [l0|] eqn:El; [|discriminate].
        injection Hi as <-. rewrite nth_error_map, (mr_val _ _ _ _ _ He _ _ _ El Hk). reflexivity.
Qed.

Lemma dict_run_refines : forall os d c,
  drep d c -> forallb (dict_covered D n off K) os = true ->
  (cm_verify (cd_data d) = true \/ forallb is_ok (snd (run (dict_step D n off K) c os)) = true) ->
  Forall2 dict_out_ok (snd (run (cd_step D) d os)) (snd (run (dict_step D n off K) c os)).
Proof.
  induction os as [|o os IH]; intros d c H Hc Hok; cbn [run] in *; auto. { constructor. }
  cbn [forallb] in Hc. apply andb_true_iff in Hc. destruct Hc as [Hc1 Hc2].
  destruct (dict_step_refines d c o H Hc1) as (E1 & E2 & E3).
  { destruct Hok as [?|Hok]; auto. right. destruct (dict_step D n off K c o) as [c1 r1].
    destruct (run (dict_step D n off K) c1 os). cbn in *. apply andb_true_iff in Hok; tauto. }
  destruct (cd_step D d o) as [m1 r1], (dict_step D n off K c o) as [c1 r1']. cbn [fst snd] in *.
  assert (E4 := IH m1 c1 E3 Hc2).
  destruct (run (cd_step D) m1 os), (run (dict_step D n off K) c1 os). cbn [fst snd] in *. constructor; auto.
  apply E4. destruct Hok as [?|Hok]; [left; congruence|]. right. cbn in Hok. apply andb_true_iff in Hok; tauto.
Qed.
End CDictP.

Lemma drep_init {V} (dv : V) (data : list (list V)) (ex : list (list bool)) K offset vf :
  length ex = length data ->
  Forall (fun lane => length lane = K) data -> Forall (fun lane => length lane = K) ex ->
  let m := mkCmem data K offset vf in
  drep (length data) (cm_off m) K (mkCdict m (mkCmem ex K offset vf))
    (fun i k => if cells_of false (cm_off m) ex i k then Some (cells_of dv (cm_off m) data i k) else None).
Proof.
  intros Hl HF HE m. constructor; auto.
  - exists (cells_of dv (cm_off m) data). split; [apply mrep_init; auto|].
    intros i k v _ _. destruct (cells_of false (cm_off m) ex i k); congruence.
  - exists (cells_of false (cm_off m) ex). split.
    + rewrite <- Hl. change (cm_off m) with (cm_off (mkCmem ex K offset vf)). apply mrep_init; auto.
    + intros i k _ _. destruct (cells_of false (cm_off m) ex i k); auto.
Qed.

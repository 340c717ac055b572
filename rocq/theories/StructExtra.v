(* Corollaries and counterexamples for the structures area. *)
From Verif Require Import Prelude StructModel StructSpec CListProofs CListRefine CListLanes CMemProofs
  CBagModel CBagSpec CBagProofs.
Open Scope Z_scope.

Definition zops : dops Z := mkDops Z.add Z.mul Z.modulo Z.opp (fun x => x) 0 1 false.
Lemma zops_laws : unit_laws zops. Proof. split; intros x; cbn; lia. Qed.

Section Corollaries.
Context {V : Type} (D : dops V).

Lemma clist_deque M verify fallback : (2 <= M)%nat -> unit_laws D ->
  forall bufs, Forall (fun b : list V => length b = M) bufs ->
  forall os, forallb (op_covered D M (length bufs)) os = true ->
  verify = true \/ forallb is_ok (snd (run (q_step D M fallback) (map (fun _ => []) bufs) os)) = true ->
  snd (run (cl_step D M verify fallback) (cl_new bufs) os) =
  snd (run (q_step D M fallback) (map (fun _ => []) bufs) os).
Proof.
  intros HM HL bufs Hb os Hc Hv.
  apply (run_refines D M HM verify fallback HL os _ _ (new_rep M HM bufs Hb)); auto.
  unfold cl_new. rewrite map_length. auto.
Qed.

Lemma run_lane M verify fallback : forall os ls i l,
  nth_error ls i = Some l ->
  forallb is_ok (snd (run (cl_step D M verify fallback) ls os)) = true ->
  snd (run (cl_step D M verify fallback) [l] (map (lane_op i) os)) =
    map (rmap (lane_out i)) (snd (run (cl_step D M verify fallback) ls os)) /\
  exists l', nth_error (fst (run (cl_step D M verify fallback) ls os)) i = Some l' /\
    fst (run (cl_step D M verify fallback) [l] (map (lane_op i) os)) = [l'].
Proof.
  induction os as [|o os IH]; intros ls i l Hl Hok; cbn [run map fst snd].
  { split; [reflexivity|]. eauto. }
  cbn [run] in Hok.
  destruct (cl_step D M verify fallback ls o) as [ls1 r] eqn:E.
  destruct (run (cl_step D M verify fallback) ls1 os) as [ls2 rs] eqn:E2. cbn [snd forallb] in Hok.
  apply andb_true_iff in Hok. destruct Hok as [Hr Hrs].
  destruct r as [out|e]; [|discriminate].
  destruct (step_lane D M verify fallback ls o ls1 out i l E Hl) as (l1 & Hl1 & S1).
  rewrite S1. destruct (IH ls1 i l1 Hl1) as (A & l' & B & C).
  { rewrite E2. exact Hrs. }
  rewrite E2 in A, B. cbn [fst snd] in A, B.
  destruct (run (cl_step D M verify fallback) [l1] (map (lane_op i) os)) as [x y] eqn:E3. cbn [fst snd] in *.
  split; [cbn; f_equal; auto|]. exists l'. auto.
Qed.

Lemma masked_run M verify fallback : unit_laws D -> forall os ls i l,
  nth_error ls i = Some l ->
  forallb is_ok (snd (run (cl_step D M verify fallback) ls os)) = true ->
  Forall (fun o => match op_mask o with Some w => nth_error w i = Some false
                   | None => match o with ClGet _ _ | ClLength => True | _ => False end end) os ->
  nth_error (fst (run (cl_step D M verify fallback) ls os)) i = Some l.
Proof.
  intros HL. induction os as [|o os IH]; intros ls i l Hl Hok Hm; cbn [run fst]; auto.
  cbn [run] in Hok. inversion Hm as [|? ? Ho Hos]; subst.
  destruct (cl_step D M verify fallback ls o) as [ls1 r] eqn:E.
  destruct (run (cl_step D M verify fallback) ls1 os) as [ls2 rs] eqn:E2. cbn [snd forallb] in Hok.
  apply andb_true_iff in Hok. destruct Hok as [Hr Hrs]. destruct r as [out|e]; [|discriminate].
  cbn [fst]. change ls2 with (fst (ls2, rs)). rewrite <- E2. apply IH; auto.
  2:{ rewrite E2. exact Hrs. }
  destruct (op_mask o) as [w|] eqn:Em.
  - eapply (masked_lane D M verify fallback HL); eauto.
  - destruct o; try contradiction; cbn in E; injection E as <- _; auto.
Qed.

(* A CMemory as its constructor leaves it: any data of the right shape. *)
Lemma cmem_cells (d0 : V) data K offset vf : (1 <= K)%nat -> unit_laws D ->
  Forall (fun lane : list V => length lane = K) data ->
  let off := match offset with None => 0 | Some o => o end in
  let m := mkCmem data K offset vf in
  forall os, forallb (mem_covered D (length data) off K) os = true ->
  vf = true \/ forallb is_ok (snd (run (mem_step D (length data) off K) (cells_of d0 off data) os)) = true ->
  snd (run (cm_step D) m os) = snd (run (mem_step D (length data) off K) (cells_of d0 off data) os).
Proof.
  intros HK HL Hd off m os Hc Hv.
  apply (mem_run_refines (length data) off K HK D HL os m _ (mrep_init d0 data K offset vf Hd)); auto.
Qed.

Lemma cdict_map data ex K offset vf : (1 <= K)%nat -> unit_laws D ->
  length ex = length data ->
  Forall (fun lane : list V => length lane = K) data -> Forall (fun lane : list bool => length lane = K) ex ->
  let off := match offset with None => 0 | Some o => o end in
  let n := length data in
  let d := mkCdict (mkCmem data K offset vf) (mkCmem ex K offset vf) in
  forall os, forallb (dict_covered D n off K) os = true ->
  vf = true \/ forallb is_ok (snd (run (dict_step D n off K) (fun _ _ => None) os)) = true ->
  Forall2 dict_out_ok (snd (run (cd_step D) d (CdClear None :: os)))
                      (Ok DUnit :: snd (run (dict_step D n off K) (fun _ _ => None) os)).
Proof.
  intros HK HL He Hd Hx off n d os Hc Hv.
  assert (Hpair : forall c, drep n off K d c -> Forall2 dict_out_ok (snd (run (cd_step D) d (CdClear None :: os)))
     (snd (run (dict_step D n off K) c (CdClear None :: os)))).
  { intros c Hr. apply (dict_run_refines D n off K HK HL); auto.
    destruct Hv as [->|Hv]; [left; reflexivity|right]. cbn [run dict_step].
    destruct (run (dict_step D n off K) (fun _ _ => None) os) as [a b]. cbn. exact Hv. }
  assert (Hf : forall c, snd (run (dict_step D n off K) c (CdClear None :: os)) =
     Ok DUnit :: snd (run (dict_step D n off K) (fun _ _ => None) os)).
  { intros c. cbn [run dict_step]. destruct (run (dict_step D n off K) (fun _ _ => None) os). reflexivity. }
  rewrite <- (Hf (fun i k => if cells_of false off ex i k then Some (cells_of (d_zero D) off data i k) else None)).
  apply Hpair. exact (drep_init (d_zero D) data ex K offset vf He Hd Hx).
Qed.
End Corollaries.

(* ---------------------------------------------------------------- CList: counterexamples *)
Section Refuted.
Context {V : Type} (D : dops V).

Lemma cap1_append fallback (v : V) bufs : bufs <> [] ->
  cl_step D 1 true fallback (cl_new bufs) (ClAppend (Sc v) None) = (cl_new bufs, Err IndexError) /\
  cl_step D 1 true fallback (cl_new bufs) ClLength = (cl_new bufs, Ok (COLens (map (fun _ => 1) bufs))).
Proof.
  intros Hb. split.
  - destruct bufs as [|b bufs]; [congruence|]. reflexivity.
  - cbn. f_equal. f_equal. f_equal. unfold cl_new. rewrite map_map. reflexivity.
Qed.

Lemma wrap_get M fallback (v : V) (buf : list V) : (2 <= M)%nat -> length buf = M ->
  exists s, cl_step D M true fallback (cl_new [buf]) (ClAppend (Sc v) None) = (s, Ok COUnit) /\
    cl_step D M true fallback s ClLength = (s, Ok (COLens [1])) /\
    cl_step D M true fallback s (ClGet (Sc (Z.of_nat M)) None) = (s, Ok (COVals [v])).
Proof.
  intros HM Hl.
  assert (Hnf : ((-1 - -1) mod Z.of_nat M =? Z.of_nat M - 1) = false).
  { rewrite Z.mod_small by lia. lia. }
  assert (Hnf0 : ((0 - 0) mod Z.of_nat M =? Z.of_nat M - 1) = false).
  { rewrite Z.mod_small by lia. lia. }
  exists [mkLane (upd buf 0 v) 0 0]. split; [|split].
  - cbn -[Z.modulo Z.of_nat Z.add Z.sub]. unfold cl_push. cbn -[Z.modulo Z.of_nat Z.add Z.sub].
    unfold move, add_rejected, is_full, sel. cbn -[Z.modulo Z.of_nat Z.add Z.sub]. rewrite Hnf.
    cbn -[Z.modulo Z.of_nat Z.add Z.sub]. unfold move_end_forward, is_empty, is_full. cbn -[Z.modulo Z.of_nat Z.add Z.sub].
    unfold cl_apply, get_ukeys, ukey, mod_ukey. cbn -[Z.modulo Z.of_nat Z.add Z.sub].
    replace (0 + -1 + 1) with 0 by lia.
    replace (Z.of_nat M <=? 0) with false by lia. cbn -[Z.modulo Z.of_nat Z.add Z.sub].
    unfold ukey_valid. cbn -[Z.modulo Z.of_nat Z.add Z.sub].
    replace (0 <? Z.of_nat M) with true by lia. cbn -[Z.modulo Z.of_nat Z.add Z.sub].
    unfold lane_modify, tidx. cbn -[Z.modulo Z.of_nat Z.add Z.sub]. rewrite Hl.
    replace (0 <? Z.of_nat M) with true by lia. cbn -[Z.modulo Z.of_nat Z.add Z.sub].
    destruct buf as [|b0 buf]; [cbn in Hl; lia|]. reflexivity.
  - cbn -[Z.modulo Z.of_nat Z.add Z.sub]. unfold lane_length, is_full. cbn -[Z.modulo Z.of_nat Z.add Z.sub].
    rewrite Hnf0. rewrite Z.mod_small by lia. reflexivity.
  - cbn -[Z.modulo Z.of_nat Z.add Z.sub]. unfold cl_get, get_ukeys, ukey, mod_ukey. cbn -[Z.modulo Z.of_nat Z.add Z.sub].
    replace (0 <=? Z.of_nat M) with true by lia. replace (0 + Z.of_nat M) with (Z.of_nat M) by lia.
    replace (Z.of_nat M <=? Z.of_nat M) with true by lia.
    replace (Z.of_nat M <? 0) with false by lia. cbn -[Z.modulo Z.of_nat Z.add Z.sub].
    replace (Z.of_nat M - Z.of_nat M) with 0 by lia.
    unfold ukey_valid. cbn -[Z.modulo Z.of_nat Z.add Z.sub].
    replace (0 <? Z.of_nat M) with true by lia. cbn -[Z.modulo Z.of_nat Z.add Z.sub].
    unfold lane_read, tidx. rewrite upd_length. cbn -[Z.modulo Z.of_nat Z.add Z.sub]. rewrite Hl.
    replace (0 <? Z.of_nat M) with true by lia. cbn -[Z.modulo Z.of_nat Z.add Z.sub].
    destruct buf as [|b0 buf]; [cbn in Hl; lia|]. reflexivity.
Qed.

Lemma masked_clear_fails M verify fallback (ls : list (lane V)) (w : list bool) : length w = length ls ->
  cl_step D M verify fallback ls (ClClear (Some w)) = (ls, Err AttributeError).
Proof. intros H. cbn. rewrite H, Nat.eqb_refl. reflexivity. Qed.

Lemma dict_masked_clear_fails (d : cdict V) (w : list bool) : length w = length (cm_data (cd_data d)) ->
  cd_step D d (CdClear (Some w)) = (d, Err AttributeError).
Proof. intros H. cbn. unfold cm_batch. rewrite H, Nat.eqb_refl. reflexivity. Qed.

Lemma multiply_adds (m : cmem V) k v : d_isbool D = false ->
  cm_apply D MMul m k v None = cm_apply D MAdd m k v None.
Proof.
  intros Hb. unfold cm_apply, cm_modify. cbn [get_where bind masks].
  destruct (cm_address m k None) as [addr|e]; [cbn [bind]|reflexivity].
  destruct (expand RuntimeError (cm_batch m) v) as [vals|e]; [cbn [bind]|reflexivity].
  assert (E : map2 (fun (wi : option bool) v old => meth_cell D MMul wi old v) (repeat None (cm_batch m)) vals =
              map2 (fun (wi : option bool) v old => meth_cell D MAdd wi old v) (repeat None (cm_batch m)) vals).
  { generalize (cm_batch m) as n. induction vals as [|x vals IH]; intros [|n]; cbn [repeat map2]; auto.
    rewrite IH. cbn [meth_cell]. rewrite Hb. reflexivity. }
  rewrite E. reflexivity.
Qed.

(* One multiplication or division with a mask does scale. *)
Lemma masked_scaling (d0 : V) data K offset vf : (1 <= K)%nat -> unit_laws D ->
  Forall (fun lane : list V => length lane = K) data ->
  let off := match offset with None => 0 | Some o => o end in
  let n := length data in
  forall mt k v w k2, (mt = MMul \/ mt = MDiv) ->
  shaped n k = true -> shaped n v = true -> length w = n -> shaped n k2 = true ->
  keys_in_range off K (arg_of n k) (repeat true n) = true ->
  keys_in_range off K (arg_of n k2) (repeat true n) = true ->
  snd (run (cm_step D) (mkCmem data K offset vf) [CmApply mt k v (Some w); CmGet k2]) =
    [Ok []; Ok (map2 (fun i kk => write (meth_meaning D mt) (cells_of d0 off data) (arg_of n k) (arg_of n v) w i kk)
                  (seq 0 n) (arg_of n k2))].
Proof.
  intros HK HL Hd off n mt k v w k2 Hmt Hk Hv Hw Hk2 Hr Hr2.
  assert (Hlk : length (arg_of n k) = n).
  { destruct k as [a|l]; cbn in *; [apply repeat_length|]. apply Nat.eqb_eq in Hk; auto. }
  assert (Hr' : keys_in_range off K (arg_of n k) w = true).
  { unfold keys_in_range in *. rewrite forallb_forall in *. intros [x b] Hin. cbn.
    destruct (In_nth_error _ _ Hin) as [i Hi]. rewrite combine_nth_error in Hi.
    destruct (nth_error (arg_of n k) i) as [x'|] eqn:E1; [|discriminate].
    destruct (nth_error w i) as [b'|] eqn:E2; [|discriminate]. injection Hi as -> ->.
    assert (Hi : (i < n)%nat) by (rewrite <- Hw; apply nth_error_Some; congruence).
    specialize (Hr (x, true)). cbn in Hr. rewrite Hr; [apply orb_true_r|].
    apply (nth_error_In _ i). rewrite combine_nth_error, E1, (nth_error_repeat true Hi). reflexivity. }
  assert (Hok : forallb (fun kb => mem_key_ok off K (fst kb) (snd kb)) (combine (arg_of n k) w) = true).
  { unfold keys_in_range in Hr. rewrite forallb_forall in *. intros [x b] Hin. cbn.
    destruct (In_nth_error _ _ Hin) as [i Hi]. rewrite combine_nth_error in Hi.
    destruct (nth_error (arg_of n k) i) as [x'|] eqn:E1; [|discriminate].
    destruct (nth_error w i) as [b'|] eqn:E2; [|discriminate]. injection Hi as -> ->.
    assert (Hi : (i < n)%nat) by (rewrite <- Hw; apply nth_error_Some; congruence).
    specialize (Hr (x, true)). cbn in Hr. unfold mem_key_ok.
    assert (E : in_range off K x = true).
    { apply Hr. apply (nth_error_In _ i). rewrite combine_nth_error, E1, (nth_error_repeat true Hi). reflexivity. }
    unfold in_range in E. lia. }
  set (os := [CmApply mt k v (Some w); CmGet k2]).
  assert (Hspec : snd (run (mem_step D n off K) (cells_of d0 off data) os) =
    [Ok []; Ok (map2 (fun i kk => write (meth_meaning D mt) (cells_of d0 off data) (arg_of n k) (arg_of n v) w i kk)
                  (seq 0 n) (arg_of n k2))]).
  { unfold os. cbn [run mem_step mask_of]. rewrite Hr'. cbn [run mem_step]. rewrite Hr2. reflexivity. }
  rewrite <- Hspec. apply cmem_cells; auto.
  - unfold os. fold n. fold off. cbn [forallb mem_covered mask_of mask_shaped]. rewrite Hk, Hv, Hk2, Hok.
    rewrite Hw, Nat.eqb_refl. unfold meth_ok. rewrite !orb_true_r. reflexivity.
  - right. fold n off. rewrite Hspec. reflexivity.
Qed.
End Refuted.

Lemma unbatched_pop (D : dops Z) M low high verify fallback (s : cbag) noise w : cb_sampling s = false ->
  cb_step D M low high verify fallback 0 s (CbPop noise w) = (s, Err ValueError).
Proof. intros H. cbn. rewrite H. reflexivity. Qed.

Lemma bag_conserves (D : dops Z) (M : nat) (low high fallback : Z) (n : nat) :
  (2 <= M)%nat -> low <= 1 -> unit_laws D ->
  forall os, forallb (bag_covered M n low high) os = true ->
  let outs := snd (run (cb_step D M low high true fallback 1) (cb_new M low n) os) in
  exists b, bag_history M (false, repeat [] n) os outs = Some b /\
    forall i, (i < n)%nat -> exists bag, nth_error (snd b) i = Some bag /\
      let lg := ledger n i ([], []) os outs in Permutation (fst lg) (snd lg ++ bag).
Proof.
  intros HM Hl HL os Hc outs.
  destruct (bag_run_ok D M HM low high Hl fallback HL n os _ _ (bag_new_inv M HM low high n) Hc) as (b & Hb & _).
  exists b. split; [exact Hb|]. intros i Hi.
  apply (ledger_perm M HM low high n os outs (false, repeat [] n) i ([], []) b Hi); auto.
  - cbn. apply repeat_length.
  - exists []. split; [|constructor]. cbn. apply nth_error_repeat. auto.
Qed.

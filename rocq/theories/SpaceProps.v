(* C61: batching and unbatching of spaces; C121: combination of info dictionaries *)
From Verif Require Import Prelude SpaceModel SpaceSpec.

Lemma through_small n : (0 < n <= 2 ^ 53)%Z -> through_float64 n = n.
Proof.
  intros H. unfold through_float64. destruct (Z.eq_dec n (2 ^ 53)) as [->|N]; [reflexivity|].
  assert (Z.log2 n < 53)%Z by (apply Z.log2_lt_pow2; lia). assert ((Z.log2 n - 52 <=? 0)%Z = true) as -> by lia. reflexivity.
Qed.
Lemma nodup_repeat (n : Z) l : l <> [] -> Forall (eq n) l -> unique l = [n].
Proof.
  intros NE F. unfold unique. induction l as [|x l IH]; [congruence|]. inversion F; subst. cbn. destruct l as [|y l]; [reflexivity|].
  inversion H2; subst. destruct (in_dec Z.eq_dec y (y :: l)) as [|X]; [|exfalso; apply X; left; auto]. apply IH; auto. discriminate.
Qed.
Lemma map_repeat' {A B} (f : A -> B) x k : map f (repeat x k) = repeat (f x) k.
Proof. induction k; cbn; congruence. Qed.
Lemma through_large n : (2 ^ 53 < n)%Z -> (1 <= Z.log2 n - 52)%Z /\ (0 < through_float64 n)%Z /\ (Z.odd n = true -> through_float64 n <> n) /\
  forall e, (2 ^ 52 * 2 ^ e <= n < 2 ^ 53 * 2 ^ e)%Z -> (2 * Z.abs (through_float64 n - n) <= 2 ^ e)%Z.
Proof.
  intros H. assert (L : (53 <= Z.log2 n)%Z) by (apply Z.log2_le_pow2; lia). set (e := (Z.log2 n - 52)%Z). assert (He : (1 <= e)%Z) by (unfold e; lia). split; auto.
  pose proof (Z.log2_spec n ltac:(lia)) as S. assert (T : through_float64 n = (2 ^ e * (if ((2 ^ e / 2 <? n mod 2 ^ e) || ((2 ^ e / 2 =? n mod 2 ^ e) && Z.odd (n / 2 ^ e)))%Z%bool then n / 2 ^ e + 1 else n / 2 ^ e))%Z).
  { unfold through_float64. fold e. cbv zeta. assert ((e <=? 0)%Z = false) as -> by lia. reflexivity. }
  assert (U : (2 ^ e = 2 * 2 ^ (e - 1))%Z) by (rewrite <- Z.pow_succ_r by lia; f_equal; lia).
  assert (P : (0 < 2 ^ (e - 1))%Z) by (apply Z.pow_pos_nonneg; lia).
  assert (B : (2 * Z.abs (through_float64 n - n) <= 2 ^ e)%Z).
  { rewrite T. rewrite U. set (u := (2 ^ (e - 1))%Z) in *. clearbody u. replace (2 * u / 2)%Z with u by (rewrite Z.mul_comm, Z.div_mul; lia).
    pose proof (Z.div_mod n (2 * u) ltac:(lia)) as D. pose proof (Z.mod_pos_bound n (2 * u) ltac:(lia)) as M. set (q := (n / (2 * u))%Z) in *. set (r := (n mod (2 * u))%Z) in *. clearbody q r.
    destruct (u <? r)%Z eqn:E1; cbn [orb]; [nia|]. destruct ((u =? r)%Z && Z.odd q) eqn:E2; nia. }
  split; [|split].
  - assert (2 ^ e <= n)%Z. { transitivity (2 ^ Z.log2 n)%Z; [apply Z.pow_le_mono_r; unfold e; lia|lia]. } lia.
  - intros O E. rewrite <- E, T in O. rewrite U, <- Z.mul_assoc, Z.odd_mul in O. discriminate.
  - intros e' He'. assert (0 <= e')%Z. { destruct (Z.lt_ge_cases e' 0); auto. rewrite (Z.pow_neg_r 2 e') in He' by auto. lia. }
    assert (e' = e). { unfold e. assert (Z.log2 n = 52 + e')%Z; [|lia]. apply Z.log2_unique; [lia|]. rewrite Z.pow_succ_r, Z.pow_add_r by lia. lia. } subst e'. exact B.
Qed.
Section C61.
  Context {V : Type}.
  Variable one : V.
  Variable mul : V -> V -> V.
  Hypothesis mul_one : forall v, mul one v = v.
  (* the batched space consists of copies *)
Theorem C61_copies_partial (s : space V) k : match s with Box _ _ _ _ => True | Discrete n st => (0 < n <= 2 ^ 53)%Z /\ st = 0%Z | _ => False end ->
    exists b, batch_space one mul s k = Ok b /\ copies k s b.
  Proof.
    destruct s as [sh l h dt|n st|sh v|]; cbn; intros H; try contradiction.
    - eexists. split; [reflexivity|]. constructor. intros j ix _ _. rewrite !mul_one. auto.
    - destruct H as (H & ->). unfold mk_multi. assert (E : map through_float64 (repeat n k) = repeat n k).
      { clear - H. induction k; cbn; auto. rewrite through_small, IHk; auto. }
      rewrite E. assert (forallb (fun m : Z => 0 <? m)%Z (repeat n k) = true) as ->.
      { apply forallb_forall. intros x Hx. apply repeat_spec in Hx. lia. }
      eexists. split; [reflexivity|]. rewrite repeat_length. constructor; [apply repeat_length|]. apply Forall_forall. intros x Hx. apply repeat_spec in Hx. auto.
  Qed.
  (* batching, then unbatching, gives the same space: Boxes with at least one dimension, Discrete spaces beginning at 0 *)
Theorem C61_roundtrip_partial (s : space V) k : 0 < k -> match s with Box sh _ _ _ => sh <> [] | Discrete n st => (0 < n <= 2 ^ 53)%Z /\ st = 0%Z | _ => False end ->
    exists b s', batch_space one mul s k = Ok b /\ unbatch_space b = Ok s' /\ same s s'.
  Proof.
    intros Hk Hs. destruct (C61_copies_partial s k) as (b & Eb & C); [destruct s; auto|]. exists b. destruct s as [sh l h dt|n st|sh v|]; try contradiction.
    - injection Eb as <-. cbn. destruct sh as [|d sh]; [congruence|]. cbn. destruct k; [lia|]. eexists. split; [reflexivity|]. split; [reflexivity|]. constructor. intros ix _. cbn. rewrite !mul_one. auto.
    - inversion C as [|? v Lv Fv]; subst. exists (Discrete n 0). split; auto. split; [|constructor]. cbn. rewrite (nodup_repeat n v); auto; [|destruct v; [cbn in Hk; lia|discriminate]]. cbn.
      destruct v as [|m v]; [cbn in Hk; lia|]. inversion Fv; subst. unfold mk_discrete. assert ((0 <? m)%Z = true) as -> by lia. reflexivity.
  Qed.
  (* unbatching a space which consists of copies, then batching, gives that space *)
Theorem C61_roundtrip_batched s b k : 0 < k -> copies k s b -> match s with Box sh _ _ _ => sh <> [] | Discrete n st => (0 < n <= 2 ^ 53)%Z | _ => True end ->
    exists s' b', unbatch_space b = Ok s' /\ same s s' /\ batch_space one mul s' k = Ok b' /\ same b b'.
  Proof.
    intros Hk C Hs. destruct C as [sh l h l' h' dt H|n v Lv Fv].
    - cbn. destruct sh as [|d sh]; [congruence|]. cbn. destruct k; [lia|]. do 2 eexists. split; [reflexivity|]. split; [|split; [reflexivity|]].
      + constructor. intros ix Hix. destruct (H 0 ix) as [-> ->]; auto; lia.
      + constructor. intros ix Hix. inversion Hix as [|i n0 ix' ? Hi Hix']; subst. cbn. rewrite !mul_one. destruct (H i ix' Hi Hix') as [-> ->]. destruct (H 0 ix') as [-> ->]; auto.
    - assert (NE : v <> []) by (destruct v; [cbn in Lv; lia|discriminate]). exists (Discrete n 0), (MultiDiscrete [k] v).
      assert (Hb : batch_space one mul (Discrete n 0) k = Ok (MultiDiscrete [k] v)).
      { destruct (C61_copies_partial (Discrete n 0) k (conj Hs eq_refl)) as (b & Eb & C). rewrite Eb. inversion C as [|? v' Lv' Fv']; subst. repeat f_equal.
        clear - Lv' Fv Fv'. revert v' Lv' Fv'. induction v as [|x v IH]; intros [|y v'] L F; try discriminate; auto. inversion F; inversion Fv; subst. f_equal. apply IH; auto. }
      split; [|split; [constructor|split; [exact Hb|constructor]]]. cbn. rewrite (nodup_repeat n v) by auto. cbn. destruct v as [|m v]; [congruence|]. inversion Fv; subst.
      unfold mk_discrete. assert ((0 <? m)%Z = true) as -> by lia. reflexivity.
  Qed.
  (* MultiDiscrete spaces whose numbers differ, and spaces of other kinds, are rejected *)
Theorem C61_rejected : (forall v : list Z, (exists a b, In a v /\ In b v /\ a <> b) -> unbatch_space (MultiDiscrete (V:=V) [length v] v) = Err ValueError) /\
    (forall n s, unbatch_space (Discrete (V:=V) n s) = Err TypeError) /\ unbatch_space (@OtherSpace V) = Err TypeError /\
    (forall k, batch_space one mul OtherSpace k = Err TypeError) /\ (forall k sh v, batch_space one mul (MultiDiscrete sh v) k = Err TypeError).
  Proof.
    repeat split; auto. intros v (a & b & Ha & Hb & N). unfold unbatch_space. cbn [length Nat.eqb negb]. assert (length (unique v) =? 1 = false) as ->; [|reflexivity].
    apply Nat.eqb_neq. intros L. apply (nodup_In Z.eq_dec) in Ha, Hb. unfold unique in L. destruct (nodup Z.eq_dec v) as [|x [|y l]]; try discriminate. destruct Ha as [<-|[]], Hb as [<-|[]]. congruence.
  Qed.
  (* The round trip fails: a Discrete space which begins at another number than 0 becomes one which begins at 0, *)
Theorem C61_start_refuted n st k : 0 < k -> (0 < n <= 2 ^ 53)%Z -> st <> 0%Z ->
    exists b s', batch_space one mul (Discrete n st) k = Ok b /\ unbatch_space b = Ok s' /\ ~ same (Discrete n st) s'.
  Proof.
    intros Hk Hn Hs. destruct (C61_roundtrip_partial (Discrete n 0) k Hk (conj Hn eq_refl)) as (b & s' & E & U & S). exists b, s'. split; [exact E|]. split; auto. inversion S; subst. intros X. inversion X; subst. congruence.
  Qed.
  (* and a Box without dimensions (a single number) cannot be unbatched. *)
Theorem C61_scalar_box_refuted l h dt k : exists b, batch_space one mul (Box [] l h dt) k = Ok b /\ unbatch_space b = Err ValueError.
  Proof. eexists. split; reflexivity. Qed.
  (* Discrete spaces with more than 2^53 elements: no odd number of elements survives, and what comes back is off by at most half a unit in the last of 53 binary places. *)
Theorem C61_large_refuted n st k : 0 < k -> (2 ^ 53 < n < 2 ^ 62)%Z ->
    exists m, batch_space one mul (Discrete (V:=V) n st) k = Ok (MultiDiscrete [k] (repeat m k)) /\ unbatch_space (MultiDiscrete (V:=V) [k] (repeat m k)) = Ok (Discrete m 0) /\
      (Z.odd n = true -> m <> n) /\ (forall e, (2 ^ 52 * 2 ^ e <= n < 2 ^ 53 * 2 ^ e)%Z -> (2 * Z.abs (m - n) <= 2 ^ e)%Z).
  Proof.
    intros Hk Hn. exists (through_float64 n). destruct (through_large n (proj1 Hn)) as (E & Hpos & Hodd & Hnear).
    split; [|split; [|split]]; auto.
    - cbn [batch_space]. unfold mk_multi. rewrite map_repeat', repeat_length.
      assert (forallb (fun m : Z => 0 <? m)%Z (repeat (through_float64 n) k) = true) as ->; auto.
      apply forallb_forall. intros x Hx. apply repeat_spec in Hx. lia.
    - cbn [unbatch_space length Nat.eqb negb]. rewrite (nodup_repeat (through_float64 n)); [|destruct k; [lia|discriminate]|apply Forall_forall; intros x Hx; apply repeat_spec in Hx; auto].
      cbn [length Nat.eqb negb]. destruct k; [lia|]. cbn [repeat]. unfold mk_discrete. assert ((0 <? through_float64 n)%Z = true) as -> by lia. reflexivity.
  Qed.
End C61.

(* ---- C121 ---- *)
Lemma set_same {A} (f : nat -> A) k x : set f k x k = x.
Proof. unfold set. rewrite Nat.eqb_refl. reflexivity. Qed.
Lemma set_other {A} (f : nat -> A) k j x : j <> k -> set f k x j = f j.
Proof. unfold set. destruct (Nat.eqb_spec j k); congruence. Qed.
(* what the two loops do for one key *)
Lemma first_spec k d : forall s, NoDup (map fst d) -> combined (first d s) k = combined s k /\
  single_shape (first d s) k = match lookup k d with Some (Num sh _) => Some sh | _ => single_shape s k end /\
  stackable (first d s) k = match lookup k d with Some (Obj _) => false | _ => stackable s k end.
Proof.
  unfold first. induction d as [|[k' v] d IH]; intros s ND; cbn; auto. inversion ND as [|? ? N ND']; subst.
  assert (L : k = k' -> lookup k d = None).
  { intros ->. clear - N. induction d as [|[j x] d IH]; cbn in *; auto. destruct (Nat.eqb_spec k' j) as [->|]; [exfalso; auto|]. apply IH. auto. }
  specialize (IH (match shape_of v with Some sh => Scan (combined s) (stackable s) (set (single_shape s) k' (Some sh)) | None => Scan (combined s) (set (stackable s) k' false) (single_shape s) end) ND').
  destruct IH as (A & B & C). rewrite A, B, C. destruct (Nat.eqb_spec k k') as [->|Nk].
  - rewrite (L eq_refl). destruct v; cbn; rewrite ?set_same; auto.
  - destruct v; cbn; rewrite ?set_other by auto; auto.
Qed.
Lemma visit_spec k d : forall keys s, NoDup keys ->
  (~ In k keys -> combined (visit keys d s) k = combined s k /\ stackable (visit keys d s) k = stackable s k /\ single_shape (visit keys d s) k = single_shape s k) /\
  (In k keys -> combined (visit keys d s) k = combined s k ++ [lookup k d] /\ single_shape (visit keys d s) k = single_shape s k /\
     stackable (visit keys d s) k = match lookup k d with Some (Num sh _) => if shapes_differ (Some sh) (single_shape s k) then false else stackable s k | _ => false end).
Proof.
  unfold visit. induction keys as [|j keys IH]; intros s ND; [split; [auto|intros []]|]. inversion ND as [|? ? N ND']; subst. cbn [fold_left].
  set (s1 := match lookup j d with Some v => _ | None => _ end). destruct (IH s1 ND') as (A & B).
  assert (S1 : k <> j -> combined s1 k = combined s k /\ stackable s1 k = stackable s k /\ single_shape s1 k = single_shape s k).
  { intros Nk. unfold s1. destruct (lookup j d) as [[sh id|id]|]; cbn [combined stackable single_shape shape_of]; rewrite ?set_other by auto; auto.
    unfold shapes_differ. destruct (single_shape s j) as [sh'|]; [destruct (list_eq_dec Nat.eq_dec sh sh')|]; rewrite ?set_other by auto; auto. }
  assert (S2 : k = j -> combined s1 k = combined s k ++ [lookup k d] /\ single_shape s1 k = single_shape s k /\
     stackable s1 k = match lookup k d with Some (Num sh _) => if shapes_differ (Some sh) (single_shape s k) then false else stackable s k | _ => false end).
  { intros <-. unfold s1. destruct (lookup k d) as [[sh id|id]|]; cbn [combined stackable single_shape shape_of]; rewrite ?set_same; auto.
    repeat split. unfold shapes_differ. destruct (single_shape s k) as [sh'|]; [destruct (list_eq_dec Nat.eq_dec sh sh')|]; rewrite ?set_same; auto. }
  split.
  - intros Hk. destruct (A (fun X => Hk (or_intror X))) as (-> & -> & ->). apply S1. intros ->. apply Hk. left. auto.
  - intros Hk. destruct (Nat.eq_dec k j) as [E|Nk].
    + destruct (A (fun X => N (eq_ind k (fun z => In z keys) X j E))) as (-> & -> & ->). destruct (S2 E) as (P1 & P2 & P3). auto.
    + destruct Hk as [->|Hk]; [congruence|]. destruct (B Hk) as (-> & -> & ->). destruct (S1 Nk) as (-> & -> & ->). auto.
Qed.
Lemma scan_spec keys k : NoDup keys -> In k keys -> forall infos i s, i <> 0 ->
  combined (scan_all keys i infos s) k = combined s k ++ column k infos /\
  (stackable (scan_all keys i infos s) k = true <-> stackable s k = true /\ Forall (fun d => exists sh id, lookup k d = Some (Num sh id) /\ single_shape s k = Some sh) infos).
Proof.
  intros ND Hk. induction infos as [|d infos IH]; intros i s Hi.
  - cbn. rewrite app_nil_r. split; auto. split; [auto|tauto].
  - cbn [scan_all]. rewrite (proj2 (Nat.eqb_neq i 0) Hi). destruct (IH (S i) (visit keys d s)) as (A & B); [lia|]. rewrite A, B.
    destruct (visit_spec k d keys s ND) as (_ & V). destruct (V Hk) as (V1 & V2 & V3). rewrite V1, V2, V3. split.
    + rewrite <- app_assoc. reflexivity.
    + split.
      * intros (C & F). destruct (lookup k d) as [[sh id|id]|] eqn:E; try discriminate. unfold shapes_differ in C. destruct (single_shape s k) as [sh'|] eqn:Es; [|discriminate].
        destruct (list_eq_dec Nat.eq_dec sh sh') as [->|]; [|discriminate]. split; auto. constructor; eauto.
      * intros (C & F). inversion F as [|? ? (sh & id & E & Es) F']; subst. rewrite E, Es. unfold shapes_differ. destruct (list_eq_dec Nat.eq_dec sh sh); [|congruence]. rewrite Es in F'. auto.
Qed.
Lemma entry_spec infos k keys s : Forall (fun d : dict => NoDup (map fst d)) infos -> NoDup keys -> In k keys -> infos <> [] ->
  s = scan_all keys 0 infos (Scan (fun _ => []) (fun _ => true) (fun _ => None)) -> combined s k = column k infos /\ (stackable s k = true <-> uniform k infos).
Proof.
  intros F ND Hk NE ->. destruct infos as [|d infos]; [congruence|]. inversion F as [|? ? Fd F']; subst. cbn [scan_all Nat.eqb].
  destruct (scan_spec keys k ND Hk infos 1 (visit keys d (first d (Scan (fun _ => []) (fun _ => true) (fun _ => None))))) as (A & B); [lia|]. rewrite A, B.
  destruct (visit_spec k d keys (first d (Scan (fun _ => []) (fun _ => true) (fun _ => None))) ND) as (_ & V). destruct (V Hk) as (V1 & V2 & V3). rewrite V1, V2, V3.
  destruct (first_spec k d (Scan (fun _ => []) (fun _ => true) (fun _ => None)) Fd) as (A1 & A2 & A3). rewrite A1, A2, A3. cbn. split; [reflexivity|]. unfold uniform. split.
  - intros (C & Fi). destruct (lookup k d) as [[sh id|id]|] eqn:E; try discriminate. exists sh. constructor; eauto. eapply Forall_impl; [|exact Fi]. intros d' (sh' & id' & E' & Es). exists id'. congruence.
  - intros (sh & Fs). inversion Fs as [|? ? (id & E) Fs']; subst. rewrite E. unfold shapes_differ. destruct (list_eq_dec Nat.eq_dec sh sh); [|congruence]. split; auto.
    eapply Forall_impl; [|exact Fs']. intros d' (id' & E'). eauto.
Qed.
Lemma lookup_in k d v : lookup k d = Some v -> In k (map fst d).
Proof. induction d as [|[j x] d IH]; cbn; [discriminate|]. destruct (Nat.eqb_spec k j) as [->|]; auto. Qed.
Lemma in_lookup k d : In k (map fst d) -> exists v, lookup k d = Some v.
Proof. induction d as [|[j x] d IH]; cbn; [intros []|]. destruct (Nat.eqb_spec k j) as [->|]; eauto. intros [->|H]; [congruence|]. auto. Qed.
(* The combined dictionary has every key which occurs, once; its entry has for each environment the value which that environment reported, or None;
   and it is an array exactly if all values are numeric and of one shape. *)
Theorem C121_combined infos : Forall (fun d : dict => NoDup (map fst d)) infos ->
  NoDup (map fst (batch_info_dicts infos)) /\ (forall k, In k (map fst (batch_info_dicts infos)) <-> occurs k infos) /\
  forall k e, In (k, e) (batch_info_dicts infos) -> (e = Stacked (column k infos) /\ uniform k infos) \/ (e = Listed (column k infos) /\ ~ uniform k infos).
Proof.
  intros F. unfold batch_info_dicts. set (s := scan_all _ _ _ _). rewrite map_map. cbn [fst]. rewrite map_id. assert (ND : NoDup (all_keys infos)) by apply NoDup_nodup. split; auto. split.
  - intros k. unfold all_keys. rewrite nodup_In, in_flat_map. split.
    + intros (d & Hd & Hk). destruct (in_lookup k d Hk) as (v & E). exists d, v. auto.
    + intros (d & v & Hd & E). exists d. split; auto. eapply lookup_in; eauto.
  - intros k e H. apply in_map_iff in H. destruct H as (k' & E & Hk). injection E as -> <-.
    destruct (entry_spec infos k (all_keys infos) s F ND Hk) as (A & B); [intros ->; destruct Hk|reflexivity|]. rewrite A. destruct (stackable s k) eqn:Es; [left|right]; (split; [reflexivity|]).
    + apply B. auto.
    + intros U. apply B in U. congruence.
Qed.
Print Assumptions C61_copies_partial.
Print Assumptions C61_roundtrip_partial.
Print Assumptions C61_roundtrip_batched.
Print Assumptions C61_rejected.
Print Assumptions C61_start_refuted.
Print Assumptions C61_scalar_box_refuted.
Print Assumptions C61_large_refuted.
Example C61_large_example : batch_space 1%Z Z.mul (Discrete (2 ^ 53 + 3) 0) 2 = Ok (MultiDiscrete [2] [2 ^ 53 + 4; 2 ^ 53 + 4]%Z).
Proof. reflexivity. Qed.
Print Assumptions C121_combined.

Definition arm : space Z := Box [2] (fun ix => match ix with [O] => (-1)%Z | _ => (-5)%Z end) (fun ix => match ix with [O] => 1%Z | _ => 5%Z end) 0.
Example C61_roundtrip_example : exists b s', batch_space 1%Z Z.mul arm 4 = Ok b /\ unbatch_space b = Ok s' /\ same arm s'.
Proof. apply (C61_roundtrip_partial 1%Z Z.mul Z.mul_1_l arm 4); [lia|discriminate]. Qed.
Example C61_discrete_example : exists b, batch_space 1%Z Z.mul (Discrete 3 0) 4 = Ok b /\ b = MultiDiscrete [4] [3; 3; 3; 3]%Z /\ unbatch_space b = Ok (Discrete 3 0).
Proof. eexists. repeat split. Qed.
Example C61_batched_example : exists s' b', unbatch_space (MultiDiscrete (V:=Z) [2] [3; 3]%Z) = Ok s' /\ same (Discrete 3 0) s' /\ batch_space 1%Z Z.mul s' 2 = Ok b' /\ same (MultiDiscrete [2] [3; 3]%Z) b'.
Proof. apply (C61_roundtrip_batched 1%Z Z.mul Z.mul_1_l (Discrete 3 0) (MultiDiscrete [2] [3; 3]%Z) 2); [lia| |lia]. constructor; auto. Qed.
Example C61_rejected_example : unbatch_space (MultiDiscrete (V:=Z) [2] [3; 4]%Z) = Err ValueError.
Proof. apply (proj1 (C61_rejected 1%Z Z.mul)). exists 3%Z, 4%Z. repeat split; [left|right; left|]; auto. discriminate. Qed.
Example C61_start_example : exists b s', batch_space 1%Z Z.mul (Discrete 3 (-1)) 2 = Ok b /\ unbatch_space b = Ok s' /\ ~ same (Discrete 3 (-1)) s'.
Proof. apply (C61_start_refuted 1%Z Z.mul Z.mul_1_l); lia. Qed.
(* keys 0: everywhere, numbers; 1: different shapes; 2: missing once; 3: strings *)
Definition infos3 : list dict := [[(0, Num [] 10); (1, Num [2] 11); (3, Obj 12)]; [(3, Obj 22); (0, Num [] 20); (1, Num [] 21); (2, Num [] 23)]].
Example C121_example : batch_info_dicts infos3 = [(3, Listed [Some (Obj 12); Some (Obj 22)]); (0, Stacked [Some (Num [] 10); Some (Num [] 20)]);
  (1, Listed [Some (Num [2] 11); Some (Num [] 21)]); (2, Listed [None; Some (Num [] 23)])].
Proof. reflexivity. Qed.
Example C121_distinct : Forall (fun d : dict => NoDup (map fst d)) infos3.
Proof. repeat constructor; cbn; intuition discriminate. Qed.

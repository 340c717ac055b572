(* Properties of the ways in which batches are made. *)
From Coq Require Import QArith.
From Verif Require Import Prelude FloatLib RandModel NewModel NewSpec.
Close Scope Q_scope.
Open Scope nat_scope.

Lemma repeat_all {A} (P : A -> Prop) x n : P x -> Forall P (repeat x n).
Proof. intros H. apply Forall_forall. intros y Hy. apply repeat_spec in Hy. subst. auto. Qed.

Section P.
Context {O : Type}.
Variable none_object : O.
Variable fresh : nat -> row.
Notation new_batch := (new_batch none_object fresh).
Notation generate_batch := (generate_batch none_object fresh).
Notation concat_batches := (concat_batches none_object fresh).
Notation cat := (cat none_object fresh).
Notation to_device := (to_device none_object fresh).
Implicit Types b : sbatch O.

Lemma nans_unevaluated n w : Forall (Forall (fun x => x = NaN)) (nan_rows n w).
Proof. apply repeat_all, repeat_all. reflexivity. Qed.
Lemma nans_width n w : Forall (fun r => length r = w) (nan_rows n w).
Proof. apply repeat_all, repeat_length. Qed.
Lemma fresh_shape n L : length (fresh_rows fresh n L) = n /\ Forall (fun r : row => length r = L) (fresh_rows fresh n L).
Proof.
  unfold fresh_rows. split; [rewrite map_length, seq_length; reflexivity|]. apply Forall_map, Forall_forall. intros i _.
  rewrite firstn_length, app_length, repeat_length. lia.
Qed.

(* a generator of decision values which does what it is asked for *)
Definition generates (p : problem O) : Prop :=
  forall n, exists d, p_generate p n = Ok d /\ vlen d = n /\
    match d with Num L rs => p_object p = false /\ L = p_len p /\ Forall (fun r : row => length r = L) rs | Objs _ => p_object p = true end.

(* C161: new batches of a problem *)
Theorem C161_problem : forall p n device empty,
  generates p -> (p_object p = true -> match device with Some d => d | None => p_dev p end = 0) ->
  exists b, new_batch (mkA (Some p) (Some n) device None None None empty) = Ok b /\
    shaped b /\ unevaluated b /\ vlen (s_vals b) = n /\ s_desc b = p_senses p /\ s_nobj b = length (p_senses p) /\
    s_width b = length (p_senses p) + p_ndata p /\
    s_dev b = match device with Some d => d | None => p_dev p end /\
    (empty <> Some true -> p_generate p n = Ok (s_vals b)).
Proof.
  intros p n device empty G D. unfold NewModel.new_batch. cbn [a_slice a_like a_merging a_problem a_device a_popsize a_empty].
  set (dev := match device with Some d => d | None => p_dev p end) in *.
  assert (Q : p_object p && negb (Nat.eqb dev 0) = false).
  { destruct (p_object p); auto. rewrite (D eq_refl). reflexivity. }
  rewrite Q. set (w := length (p_senses p) + p_ndata p).
  assert (H : forall d, vlen d = n -> match d with Num L rs => Forall (fun r : row => length r = L) rs | Objs _ => True end ->
    let b := mkS d (nan_rows n w) w (p_senses p) (length (p_senses p)) dev in
    @shaped O b /\ unevaluated b /\ vlen (s_vals b) = n).
  { intros d L F. split; [split; [exact F|split]|split; [apply nans_unevaluated|exact L]]; cbn [s_ev s_vals s_width].
    - unfold nan_rows. rewrite repeat_length. auto.
    - apply nans_width. }
  destruct (G n) as (d & Eg & Ln & K).
  assert (Gen : exists b, bind (p_generate p n) (fun d => Ok (mkS d (nan_rows n w) w (p_senses p) (length (p_senses p)) dev)) = Ok b /\
    shaped b /\ unevaluated b /\ vlen (s_vals b) = n /\ s_desc b = p_senses p /\ s_nobj b = length (p_senses p) /\
    s_width b = w /\ s_dev b = dev /\ (empty <> Some true -> p_generate p n = Ok (s_vals b))).
  { rewrite Eg. cbn [bind]. eexists. split; [reflexivity|]. destruct (H d Ln) as (H1 & H2 & H3).
    { destruct d; auto. apply K. }
    repeat split; auto; apply H1. }
  destruct empty as [[|]|]; [|exact Gen|exact Gen].
  destruct (fresh_shape n (p_len p)) as [F1 F2].
  eexists. split; [reflexivity|].
  destruct (H (if p_object p then Objs (repeat none_object n) else Num (p_len p) (fresh_rows fresh n (p_len p)))) as (H1 & H2 & H3).
  - destruct (p_object p); cbn; [apply repeat_length|auto].
  - destruct (p_object p); auto.
  - repeat split; auto; try apply H1. congruence.
Qed.

(* ... like another batch, uninitialised *)
Theorem C161_like_partial : forall b problem popsize device,
  match s_vals b with Objs _ => device = None \/ device = Some 0 | Num _ _ => True end ->
  exists b', new_batch (mkA problem popsize device None (Some b) None (Some true)) = Ok b' /\
    shaped b' /\ unevaluated b' /\ compatible b b' /\ s_desc b' = s_desc b /\ s_nobj b' = s_nobj b /\
    vlen (s_vals b') = match popsize with Some n => n | None => vlen (s_vals b) end.
Proof.
  intros b problem popsize device D. unfold NewModel.new_batch. cbn [a_slice a_like a_merging a_problem a_device a_popsize a_empty some].
  destruct b as [d ev w desc nobj dev]. cbn [s_vals s_dev s_width s_desc s_nobj] in *.
  set (n := match popsize with Some n => n | None => vlen d end).
  destruct d as [L rs|xs]; cbn [empty_like bind fst snd].
  - eexists. split; [reflexivity|]. destruct (fresh_shape n L) as [F1 F2].
    repeat split; cbn [s_vals s_ev s_width s_desc s_nobj vlen]; auto.
    + unfold nan_rows. rewrite repeat_length. reflexivity.
    + apply nans_width.
    + apply nans_unevaluated.
  - assert (E : empty_like none_object fresh (Objs xs) dev popsize device = Ok (Objs (repeat none_object n), 0)).
    { destruct D as [-> | ->]; reflexivity. }
    cbn [empty_like] in E. fold n in E |- *. rewrite E. cbn [bind fst snd].
    eexists. split; [reflexivity|]. repeat split; cbn [s_vals s_ev s_width s_desc s_nobj vlen]; auto.
    + unfold nan_rows. rewrite repeat_length. reflexivity.
    + apply nans_width.
    + apply nans_unevaluated.
    + apply repeat_length.
Qed.

(* ... but never filled with new solutions, whatever the problem *)
Theorem C161_like_refuted : forall b problem popsize device empty, empty <> Some true ->
  exists e, new_batch (mkA problem popsize device None (Some b) None empty) = Err e /\
    (match s_vals b with Num _ _ => e = AttributeError | Objs _ => True end).
Proof.
  intros b problem popsize device empty N. unfold NewModel.new_batch. cbn [a_slice a_like a_merging a_problem a_device a_popsize a_empty some].
  destruct (s_vals b) as [L rs|xs]; cbn [empty_like bind].
  - exists AttributeError. destruct empty as [[|]|]; auto. congruence.
  - destruct device as [[|d]|]; cbn [bind].
    + exists AttributeError. destruct empty as [[|]|]; auto. congruence.
    + exists ValueError. auto.
    + exists AttributeError. destruct empty as [[|]|]; auto. congruence.
Qed.

(* different ways of making a batch cannot be mixed *)
Theorem C161_exclusive : forall a,
  (some (a_slice a) = true /\ (some (a_like a) || some (a_merging a) || some (a_problem a) || some (a_popsize a) || some (a_empty a)) = true \/
   some (a_like a) = true /\ some (a_merging a) = true \/
   some (a_merging a) = true /\ (some (a_problem a) || some (a_popsize a) || some (a_empty a)) = true \/
   (some (a_slice a) || some (a_like a) || some (a_merging a) || some (a_problem a)) = false) ->
  new_batch a = Err ValueError.
Proof.
  intros [p n d s l m e]. unfold NewModel.new_batch. cbn [a_slice a_like a_merging a_problem a_device a_popsize a_empty].
  destruct s as [[src idx]|], l as [like|], m as [bs|], p as [pr|], n as [k|], e as [em|]; cbn [some orb andb];
    intros H; try reflexivity; try (exfalso; intuition discriminate); destruct d; reflexivity.
Qed.

(* moving to a device keeps everything *)
Theorem C161_to_device : forall b device, (exists L rs, s_vals b = Num L rs) ->
  exists b', to_device b device = Ok b' /\ s_dev b' = device /\ solutions b' = solutions b /\
    s_vals b' = s_vals b /\ s_desc b' = s_desc b /\ s_width b' = s_width b /\ s_nobj b' = s_nobj b.
Proof.
  intros b device (L & rs & E). unfold NewModel.to_device. rewrite E. destruct (Nat.eqb_spec device (s_dev b)) as [->|N].
  - exists b. repeat split; auto.
  - destruct (C161_like_partial b None None (Some device)) as (nb & En & _ & _ & (Cw & _) & Cd & Cn & _).
    { rewrite E. exact Logic.I. }
    rewrite En. cbn [bind]. eexists. split; [reflexivity|]. cbn [s_dev s_vals s_ev s_desc s_width s_nobj].
    unfold solutions. cbn [s_vals s_ev]. rewrite E. repeat split; auto.
    revert En. unfold NewModel.new_batch. cbn [a_slice a_like a_merging a_problem a_device a_popsize a_empty some].
    rewrite E. cbn [empty_like bind fst snd]. intros Q. injection Q as <-. reflexivity.
Qed.

(* C162: generate_batch *)
Theorem C162_uniform : forall p n empty noise, generates p -> (p_object p = true -> p_dev p = 0) ->
  exists b, generate_batch p (Some n) empty None None false noise = Ok b /\
    shaped b /\ unevaluated b /\ vlen (s_vals b) = n /\ s_desc b = p_senses p /\ s_dev b = p_dev p /\
    (empty = false -> p_generate p n = Ok (s_vals b)).
Proof.
  intros p n empty noise G D. unfold NewModel.generate_batch.
  destruct (C161_problem p n (Some (p_dev p)) (Some empty) G D) as (b & E & H1 & H2 & H3 & H4 & _ & _ & H5 & H6).
  exists b. repeat split; auto; try apply H1. intros ->. apply H6. discriminate.
Qed.

Theorem C162_gaussian : forall p n c s symmetric noise, p_object p = false ->
  length c = p_len p -> length s = p_len p -> (forall k, length (noise k) = p_len p) -> (symmetric = true -> Nat.even n = true) ->
  exists b rs, generate_batch p (Some n) false (Some c) (Some s) symmetric noise = Ok b /\
    make_gaussian symmetric (Some c) (Some s) n noise = Ok rs /\ s_vals b = Num (p_len p) rs /\
    vlen (s_vals b) = n /\ shaped b /\ unevaluated b /\ s_desc b = p_senses p /\ s_dev b = p_dev p.
Proof.
  intros p n c s symmetric noise HO Lc Ls Ln He. unfold NewModel.generate_batch.
  assert (E : exists b, new_batch (mkA (Some p) (Some n) (Some (p_dev p)) None None None (Some true)) = Ok b /\
    vlen (s_vals b) = n /\ shaped b /\ unevaluated b /\ s_desc b = p_senses p /\ s_dev b = p_dev p).
  { unfold NewModel.new_batch. cbn [a_slice a_like a_merging a_problem a_device a_popsize a_empty]. rewrite HO. cbn [andb].
    eexists. split; [reflexivity|]. cbn [s_vals s_desc s_dev]. destruct (fresh_shape n (p_len p)) as [F1 F2]. repeat split; auto; cbn [s_ev s_width s_vals vlen].
    - unfold nan_rows. rewrite repeat_length. auto.
    - apply nans_width.
    - apply nans_unevaluated. }
  destruct E as (b & -> & Lb & (_ & S2 & S3) & Ub & Db & Vb). cbn [bind]. rewrite Lb.
  assert (G : exists rs, make_gaussian symmetric (Some c) (Some s) n noise = Ok rs /\ length rs = n /\ Forall (fun r : row => length r = p_len p) rs).
  { assert (T : forall l : list row, Forall (fun r => length r = p_len p) l ->
      Forall (fun r => length r = p_len p) (map (fun r => vadd (vmul r s) c) l)).
    { intros l F. apply Forall_map. eapply Forall_impl; [|exact F]. intros r Hr. cbn beta in *. unfold vadd, vmul. rewrite !map2_length. lia. }
    unfold make_gaussian. destruct symmetric.
    - unfold Nat.odd. rewrite (He eq_refl). cbn [negb bind]. eexists. split; [reflexivity|]. rewrite map_length.
      assert (M : forall l, length (mirror l) = 2 * length l) by (induction l; cbn; lia).
      split.
      + rewrite M, map_length, seq_length. specialize (He eq_refl). apply Nat.even_spec in He. destruct He as (m & ->).
        replace (2 * m / 2) with m; [lia|]. rewrite (Nat.mul_comm 2 m), Nat.div_mul by lia. reflexivity.
      + apply T. generalize (seq 0 (n / 2)). induction l as [|k l IH]; cbn [map mirror]; auto. constructor; auto.
        constructor; auto. unfold vneg. rewrite map_length. auto.
    - cbn [bind]. eexists. split; [reflexivity|]. rewrite !map_length, seq_length. split; [reflexivity|].
      apply T. apply Forall_map, Forall_forall. auto. }
  destruct G as (rs & G & Lr & Fr). exists (mkS (Num (p_len p) rs) (s_ev b) (s_width b) (s_desc b) (s_nobj b) (s_dev b)), rs.
  rewrite G. cbn [bind s_vals vlen s_desc s_dev]. repeat split; cbn [s_vals s_ev s_width vlen]; auto. congruence.
Qed.

(* the documentation promises a center drawn from the initial bounds; there is none *)
Theorem C162_center_omitted_refuted : forall p popsize empty s symmetric noise,
  generate_batch p popsize empty None (Some s) symmetric noise = Err ValueError.
Proof. reflexivity. Qed.

Theorem C162_refused : forall p popsize empty c noise,
  generate_batch p popsize empty None None true noise = Err ValueError /\
  (forall s symmetric, generate_batch p popsize true (Some c) (Some s) symmetric noise = Err ValueError) /\
  (forall symmetric, generate_batch p popsize empty (Some c) None symmetric noise = Err ValueError) /\
  (forall s n, p_object p = false -> Nat.even n = false -> generate_batch p (Some n) false (Some c) (Some s) true noise = Err ValueError).
Proof.
  intros p popsize empty c noise. repeat split. intros s n HO Od. unfold NewModel.generate_batch, NewModel.new_batch.
  cbn [a_slice a_like a_merging a_problem a_device a_popsize a_empty]. rewrite HO. cbn [andb bind s_vals vlen].
  destruct (fresh_shape n (p_len p)) as [-> _]. unfold make_gaussian, Nat.odd. rewrite Od. reflexivity.
Qed.

(* C163: joining batches *)
Lemma seq_broadcast {A} L (rs : list (list A)) : Forall (fun r => length r = L) rs -> sequence (map (broadcast_row L) rs) = Ok rs.
Proof.
  induction 1 as [|r rs H F IH]; cbn [map sequence]; auto. unfold broadcast_row at 1. rewrite H, Nat.eqb_refl, IH. reflexivity.
Qed.
Lemma write_parts_ok {A} L (parts : list (list (list A))) : Forall (Forall (fun r => length r = L)) parts ->
  write_parts L parts = Ok (concat parts).
Proof.
  intros F. unfold write_parts.
  assert (E : sequence (map (fun rs => sequence (map (broadcast_row L) rs)) parts) = Ok parts).
  { induction F as [|rs parts H F IH]; cbn [map sequence]; auto. rewrite (seq_broadcast L rs H), IH. reflexivity. }
  rewrite E. reflexivity.
Qed.
Lemma sequence_map_Ok {A B} (f : A -> result B) (g : A -> B) l : (forall x, In x l -> f x = Ok (g x)) ->
  sequence (map f l) = Ok (map g l).
Proof. induction l as [|x l IH]; intros H; cbn [map sequence]; auto. rewrite (H x), IH; cbn; auto. intros y Hy. apply H. right; auto. Qed.

Definition rows_or_nil (d : values O) : list row := match d with Num _ rs => rs | Objs _ => [] end.
Definition objs_or_nil (d : values O) : list O := match d with Num _ _ => [] | Objs xs => xs end.

Lemma combine_concat {A B} (ls : list (list A * list B)) : Forall (fun p => length (fst p) = length (snd p)) ls ->
  combine (concat (map fst ls)) (concat (map snd ls)) = concat (map (fun p => combine (fst p) (snd p)) ls).
Proof.
  induction 1 as [|[l m] ls H F IH]; cbn [map concat]; auto. cbn [fst snd] in *. rewrite <- IH.
  generalize (concat (map fst ls)) (concat (map snd ls)). intros x y. revert m H.
  induction l as [|a l IHl]; intros [|c m] H; cbn in *; try lia; auto. f_equal. apply IHl. lia.
Qed.

Theorem C163_cat_partial : forall b bs, shaped b -> Forall shaped bs -> Forall (compatible b) bs ->
  exists r, cat (map Some (b :: bs)) = Ok r /\
    solutions r = concat (map solutions (b :: bs)) /\
    s_desc r = s_desc b /\ s_nobj r = s_nobj b /\ compatible b r /\ s_dev r = s_dev b.
Proof.
  intros b bs Sb Sbs C. unfold NewModel.cat.
  rewrite map_map. rewrite (sequence_map_Ok _ (fun x => x)) by reflexivity. rewrite map_id. cbn [bind].
  unfold NewModel.concat_batches, NewModel.new_batch. cbn [a_slice a_like a_merging a_problem a_device a_popsize a_empty some orb].
  set (all := b :: bs) in *.
  assert (SA : Forall shaped all) by (constructor; auto).
  assert (CA : Forall (compatible b) all).
  { constructor; auto. split; auto. destruct (s_vals b); auto. }
  unfold merge. unfold all at 1.
  assert (W : write_parts (s_width b) (map s_ev all) = Ok (concat (map s_ev all))).
  { apply write_parts_ok. apply Forall_map. rewrite Forall_forall in *. intros x Hx. destruct (CA x Hx) as [-> _]. apply (SA x Hx). }
  destruct (s_vals b) as [L rs|xs] eqn:Ev.
  - rewrite (sequence_map_Ok _ (fun x => rows_or_nil (s_vals x))).
    2:{ intros x Hx. rewrite Forall_forall in CA. destruct (CA x Hx) as [_ K]. rewrite Ev in K. destruct (s_vals x); [reflexivity|tauto]. }
    cbn [bind]. rewrite write_parts_ok.
    2:{ apply Forall_map. rewrite Forall_forall in *. intros x Hx. destruct (CA x Hx) as [_ K]. destruct (SA x Hx) as [K2 _].
        rewrite Ev in K. destruct (s_vals x); [subst; exact K2|tauto]. }
    cbn [rmap bind]. rewrite W. cbn [bind]. eexists. split; [reflexivity|]. cbn [s_desc s_nobj s_dev].
    repeat split; auto; [|cbn [s_vals]; rewrite Ev; reflexivity].
    unfold solutions at 1. cbn [s_vals s_ev].
    rewrite concat_map, map_map.
    pose proof (combine_concat (map (fun x : sbatch O => (map (@inl row O) (rows_or_nil (s_vals x)), s_ev x)) all)) as Q.
    rewrite !map_map in Q. cbn [fst snd] in Q. etransitivity; [apply Q|]; cycle 1.
    + f_equal. apply map_ext_in. intros x Hx. cbn [fst snd]. unfold solutions.
      rewrite Forall_forall in CA. destruct (CA x Hx) as [_ K]. rewrite Ev in K. destruct (s_vals x); [reflexivity|tauto].
    + apply Forall_map. rewrite Forall_forall in *. intros x Hx. cbn [fst snd]. destruct (SA x Hx) as (_ & K2 & _).
      destruct (CA x Hx) as [_ K]. rewrite Ev in K. rewrite K2, map_length. destruct (s_vals x); [reflexivity|tauto].
  - rewrite (sequence_map_Ok _ (fun x => objs_or_nil (s_vals x))).
    2:{ intros x Hx. rewrite Forall_forall in CA. destruct (CA x Hx) as [_ K]. rewrite Ev in K. destruct (s_vals x); [tauto|reflexivity]. }
    cbn [rmap bind]. rewrite W. cbn [bind]. eexists. split; [reflexivity|]. cbn [s_desc s_nobj s_dev].
    repeat split; auto; [|cbn [s_vals]; rewrite Ev; reflexivity].
    unfold solutions at 1. cbn [s_vals s_ev].
    rewrite concat_map, map_map.
    pose proof (combine_concat (map (fun x : sbatch O => (map (@inr row O) (objs_or_nil (s_vals x)), s_ev x)) all)) as Q.
    rewrite !map_map in Q. cbn [fst snd] in Q. etransitivity; [apply Q|]; cycle 1.
    + f_equal. apply map_ext_in. intros x Hx. cbn [fst snd]. unfold solutions.
      rewrite Forall_forall in CA. destruct (CA x Hx) as [_ K]. rewrite Ev in K. destruct (s_vals x); [tauto|reflexivity].
    + apply Forall_map. rewrite Forall_forall in *. intros x Hx. cbn [fst snd]. destruct (SA x Hx) as (_ & K2 & _).
      destruct (CA x Hx) as [_ K]. rewrite Ev in K. rewrite K2, map_length. destruct (s_vals x); [tauto|reflexivity].
Qed.

(* incompatible batches are not refused: solutions of length 1 are stretched ... *)
Theorem C163_stretched_refuted : forall L rs ev w desc nobj dev q e desc' nobj' dev', 2 <= L ->
  Forall (fun r : row => length r = L) rs -> Forall (fun r => length r = w) ev -> length e = w ->
  exists r, cat [Some (mkS (Num L rs) ev w desc nobj dev); Some (mkS (Num 1 [[q]]) [e] w desc' nobj' dev')] = Ok r /\
    s_vals r = Num L (rs ++ [repeat q L]).
Proof.
  intros L rs ev w desc nobj dev q e desc' nobj' dev' HL F Fe Le. unfold NewModel.cat. cbn [map sequence bind].
  unfold NewModel.concat_batches, NewModel.new_batch. cbn [a_slice a_like a_merging a_problem a_device a_popsize a_empty some orb].
  unfold merge. cbn [s_vals s_ev s_width map rows_of_values sequence bind].
  unfold write_parts at 1. cbn [map sequence]. rewrite (seq_broadcast L rs F). cbn [map sequence].
  unfold broadcast_row at 1. cbn [length]. destruct (Nat.eqb_spec 1 L); [lia|]. cbn [bind rmap concat].
  rewrite write_parts_ok by (repeat constructor; auto). cbn [bind]. eexists. split; [reflexivity|]. cbn [s_vals].
  rewrite app_nil_r. reflexivity.
Qed.
(* ... and batches of problems with other senses are taken over under the senses of the first *)
Theorem C163_senses_refuted : forall b b', shaped b -> shaped b' -> compatible b b' ->
  exists r, cat [Some b; Some b'] = Ok r /\ s_desc r = s_desc b /\ solutions r = solutions b ++ solutions b'.
Proof.
  intros b b' S1 S2 C. destruct (C163_cat_partial b [b'] S1) as (r & E & Es & Ed & _); auto.
  exists r. split; [exact E|]. split; auto. rewrite Es. cbn. rewrite app_nil_r. reflexivity.
Qed.

Theorem C163_refused :
  cat [] = Err AttributeError /\
  (forall bs, In None bs -> cat bs = Err TypeError) /\
  (forall b b' L L' rs rs' (r : row), s_vals b = Num L rs -> s_vals b' = Num L' rs' -> Forall (fun r : row => length r = L) rs ->
     In r rs' -> length r <> L -> length r <> 1 -> cat [Some b; Some b'] = Err RuntimeError).
Proof.
  repeat split.
  - intros bs I. unfold NewModel.cat.
    enough (E : sequence (map (fun x => match x with Some y => Ok y | None => Err TypeError end) bs) = @Err (list (sbatch O)) TypeError).
    { rewrite E. reflexivity. }
    induction bs as [|[b|] bs IH]; [destruct I| |reflexivity]. destruct I as [I|I]; [discriminate|]. cbn [map sequence].
    rewrite (IH I). reflexivity.
  - intros b b' L L' rs rs' r E E' F I N1 N2. unfold NewModel.cat. cbn [map sequence bind].
    unfold NewModel.concat_batches, NewModel.new_batch. cbn [a_slice a_like a_merging a_problem a_device a_popsize a_empty some orb].
    unfold merge. rewrite E. cbn [map]. rewrite E, E'. cbn [rows_of_values sequence bind].
    unfold write_parts at 1. cbn [map sequence]. rewrite (seq_broadcast L rs F). cbn [map sequence].
    assert (Q : sequence (map (broadcast_row L) rs') = Err RuntimeError).
    { clear E'. induction rs' as [|x rs'' IH]; [destruct I|]. cbn [map sequence]. unfold broadcast_row at 1.
      destruct (Nat.eqb_spec (length x) L) as [Ex|Ex].
      - destruct I as [->|I]; [congruence|]. rewrite (IH I). reflexivity.
      - destruct x as [|y [|y' x]]; try reflexivity. destruct I as [<-|I]; [cbn in N2; lia|]. rewrite (IH I). reflexivity. }
    rewrite Q. reflexivity.
Qed.

End P.
Print Assumptions C161_problem.
Print Assumptions C161_like_partial.
Print Assumptions C161_like_refuted.
Print Assumptions C161_exclusive.
Print Assumptions C161_to_device.
Print Assumptions C162_uniform.
Print Assumptions C162_gaussian.
Print Assumptions C162_center_omitted_refuted.
Print Assumptions C162_refused.
Print Assumptions C163_cat_partial.
Print Assumptions C163_stretched_refuted.
Print Assumptions C163_senses_refuted.
Print Assumptions C163_refused.

Definition ex_problem : problem nat :=
  mkP [false] 1 false 2 0 (fun n => Ok (Num 2 (map (fun i => [inject_Z (Z.of_nat i); 1%Q]) (seq 0 n)))).
Example C161_example : generates ex_problem /\
  rmap (@s_ev nat) (new_batch 0 (fun _ => []) (mkA (Some ex_problem) (Some 2) None None None None None)) = Ok [[NaN; NaN]; [NaN; NaN]] /\
  (exists b, new_batch 0 (fun _ => []) (mkA (Some ex_problem) (Some 2) None None None None None) = Ok b /\
     new_batch 0 (fun _ => []) (mkA None (Some 3) None None (Some b) None None) = Err AttributeError /\
     rmap (@s_dev nat) (to_device 0 (fun _ => []) b 1) = Ok 1).
Proof.
  split; [|split; [reflexivity|eexists; repeat split; reflexivity]].
  intros n. eexists. split; [reflexivity|]. cbn [vlen p_object p_len ex_problem]. rewrite map_length, seq_length.
  repeat split; auto. apply Forall_map, Forall_forall. reflexivity.
Qed.
Example C162_example :
  rmap (@s_vals nat) (generate_batch 0 (fun _ => []) ex_problem (Some 2) false (Some [1%Q; 1%Q]) (Some [2%Q; 3%Q]) true (fun _ => [1%Q; 2%Q]))
    = Ok (Num 2 [[3%Q; 7%Q]; [(-1)%Q; (-5)%Q]]).
Proof. reflexivity. Qed.
Example C163_example :
  let b n e := mkS (O := nat) (Num 2 [[inject_Z n; 0%Q]]) [[e]] 1 [true] 1 0 in
  shaped (b 1%Z NaN) /\ compatible (b 1%Z NaN) (b 2%Z (Fin 7)) /\
  rmap (@s_ev nat) (cat 0 (fun _ => []) [Some (b 1%Z NaN); Some (b 2%Z (Fin 7))]) = Ok [[NaN]; [Fin 7]].
Proof. repeat split; repeat constructor. Qed.

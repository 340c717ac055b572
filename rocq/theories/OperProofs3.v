From Coq Require Import QArith Lqa Sorted.
From Verif Require Import Prelude FloatLib SortLib BatchModel BatchSpec ParetoModel ParetoProofs RankProofs OperModel OperSpec OperProofs2.
Close Scope Q_scope.
Open Scope nat_scope.

Definition masked (mask : list bool) : list nat := filter (fun i => nth i mask false) (seq 0 (length mask)).

Lemma filter_perm {A} (p : A -> bool) l l' : Permutation l l' -> Permutation (filter p l) (filter p l').
Proof.
  induction 1; cbn; auto.
  - destruct (p x); auto.
  - destruct (p x), (p y); auto. apply perm_swap.
  - etransitivity; eauto.
Qed.
Lemma filter_split {A} (p : A -> bool) l : Permutation l (filter p l ++ filter (fun x => negb (p x)) l).
Proof.
  induction l as [|x l IH]; cbn; auto. destruct (p x); cbn; [constructor; auto|].
  apply Permutation_cons_app. auto.
Qed.
Lemma filter_prefix {A} (p : A -> bool) (R : A -> A -> Prop) l : StronglySorted R l ->
  (forall x y, In x l -> In y l -> R x y -> p y = true -> p x = true) -> filter p l = firstn (length (filter p l)) l.
Proof.
  induction 1 as [|x l H IH HF]; intros HP; cbn; auto. destruct (p x) eqn:E; cbn.
  - f_equal. apply IH. intros; eapply HP; eauto; right; auto.
  - assert (N : filter p l = []).
    { destruct (filter p l) as [|y t] eqn:Ef; auto. assert (In y (filter p l)) by (rewrite Ef; left; auto). apply filter_In in H0.
      destruct H0 as [Hy Py]. apply (proj1 (Forall_forall _ _) HF) in Hy as Rxy. assert (p x = true) by (apply (HP x y); auto; [left|right]; auto). congruence. }
    rewrite N. auto.
Qed.
Lemma select_prefix {A} k m (l : list A) : length l = k + m -> select (repeat true k ++ repeat false m) l = firstn k l.
Proof.
  revert l. induction k as [|k IH]; intros l L; cbn.
  - unfold select. clear -l. revert l. induction m as [|m IH]; intros [|x l]; cbn; auto.
  - destruct l as [|x l]; [discriminate|]. unfold select in *. cbn. f_equal. apply IH. cbn in L. lia.
Qed.
Lemma count_masked mask : count_true mask = length (masked mask).
Proof.
  unfold masked, count_true. induction mask as [|b mask IH]; auto. cbn [length seq filter nth].
  rewrite <- seq_shift, filter_map_swap. cbn [nth]. destruct b; cbn [filter length]; rewrite map_length, IH; auto.
Qed.
Lemma sort_mask_eq mask : sort_mask mask = repeat true (count_true mask) ++ repeat false (length mask - count_true mask).
Proof.
  unfold sort_mask. set (le := fun a b : bool => (a || negb b)%bool).
  assert (T : forall x y, le x y = true \/ le y x = true) by (intros [] []; cbn; auto).
  assert (Tr : forall x y z, le x y = true -> le y z = true -> le x z = true) by (intros [] [] []; cbn; auto).
  assert (An : forall x y, le x y = true -> le y x = true -> x = y) by (intros [] []; cbn; auto; discriminate).
  apply (sorted_unique le An).
  - apply isort_sorted; auto.
  - assert (S1 : forall b n, StronglySorted (fun x y => le x y = true) (repeat b n)).
    { intros b n. induction n; cbn; constructor; auto. apply Forall_forall. intros x Hx. apply repeat_spec in Hx. subst. destruct b; auto. }
    apply sorted_app; auto. intros x y Hx Hy. apply repeat_spec in Hx, Hy. subst. auto.
  - apply Permutation_trans with mask; [apply Permutation_sym, isort_perm|].
    unfold count_true. induction mask as [|b mask IH]; [cbn; auto|].
    assert (length (filter (fun x : bool => x) mask) <= length mask) by (clear; induction mask as [|[] m]; cbn; lia).
    destruct b; cbn [filter length repeat app]; [rewrite Nat.sub_succ; constructor; auto|].
    rewrite Nat.sub_succ_l by lia. cbn [repeat]. apply Permutation_cons_app. auto.
Qed.
Lemma count_le mask : count_true mask <= length mask.
Proof. unfold count_true. induction mask as [|[] m]; cbn; lia. Qed.
Lemma masked_In mask i : In i (masked mask) <-> nth i mask false = true.
Proof.
  unfold masked. rewrite filter_In, in_seq. split; [tauto|]. intros H. split; auto. destruct (le_lt_dec (length mask) i); [|lia].
  rewrite nth_overflow in H by auto. discriminate.
Qed.
Lemma masked_NoDup mask : NoDup (masked mask).
Proof. apply NoDup_filter, seq_NoDup. Qed.
Lemma seq_sorted a n : StronglySorted (fun x y => Nat.leb x y = true) (seq a n).
Proof. revert a. induction n; intros a; cbn; constructor; auto. apply Forall_forall. intros x Hx. apply in_seq in Hx. apply Nat.leb_le. lia. Qed.
Lemma filter_sorted {A} (R : A -> A -> Prop) p l : StronglySorted R l -> StronglySorted R (filter p l).
Proof.
  induction 1 as [|x l H IH HF]; cbn; [constructor|]. destruct (p x); auto. constructor; auto.
  apply Forall_forall. intros y Hy. apply filter_In in Hy. apply (proj1 (Forall_forall _ _) HF). tauto.
Qed.
Lemma map2_mask {A B} (f : bool -> A -> B) mask (g : nat -> A) :
  map2 f mask (map g (seq 0 (length mask))) = map (fun i => f (nth i mask false) (g i)) (seq 0 (length mask)).
Proof.
  apply nth_error_ext. intros i. rewrite map2_nth_error, !nth_error_map.
  destruct (nth_error (seq 0 (length mask)) i) as [k|] eqn:E; cbn.
  - assert (i < length mask) by (rewrite <- (seq_length (length mask) 0); apply nth_error_Some; congruence).
    apply nth_error_nth with (d := 0) in E. rewrite seq_nth in E by auto. cbn in E. subst k.
    destruct (nth_error mask i) as [b|] eqn:Eb; [|apply nth_error_None in Eb; lia]. rewrite (nth_error_nth _ _ _ Eb). auto.
  - destruct (nth_error mask i); auto.
Qed.

Lemma origins_eq mask : let n := length mask in
  select (sort_mask mask) (isort Nat.leb (map2 (fun (m : bool) i => if m then i else i + n + 1) mask (seq 0 n))) = masked mask.
Proof.
  cbn zeta. set (n := length mask). rewrite sort_mask_eq.
  assert (Lx : length (isort Nat.leb (map2 (fun (m : bool) i => if m then i else i + n + 1) mask (seq 0 n))) = n).
  { rewrite isort_length, map2_length, seq_length. unfold n. lia. }
  pose proof (count_le mask). rewrite select_prefix by (rewrite Lx; fold n; unfold n in *; lia).
  set (un := filter (fun i => negb (nth i mask false)) (seq 0 n)).
  assert (E : isort Nat.leb (map2 (fun (m : bool) i => if m then i else i + n + 1) mask (seq 0 n)) = masked mask ++ map (fun i => i + n + 1) un).
  { apply (sorted_unique Nat.leb).
    - intros x y A B. apply Nat.leb_le in A, B. lia.
    - apply isort_sorted.
      + intros x y. destruct (Nat.leb_spec x y); auto. right. apply Nat.leb_le. lia.
      + intros x y z A B. apply Nat.leb_le in A, B. apply Nat.leb_le. lia.
    - apply sorted_app.
      + apply filter_sorted, seq_sorted.
      + assert (K : forall l, StronglySorted (fun x y => Nat.leb x y = true) l -> StronglySorted (fun x y => Nat.leb x y = true) (map (fun i => i + n + 1) l)).
        { induction 1 as [|x l Hl IH HF]; cbn; constructor; auto. apply Forall_map. eapply Forall_impl; [|exact HF]. cbn. intros y Hy.
          apply Nat.leb_le in Hy. apply Nat.leb_le. lia. }
        apply K, filter_sorted, seq_sorted.
      + intros x y Hx Hy. apply in_map_iff in Hy. destruct Hy as (z & <- & Hz). unfold masked in Hx. apply filter_In in Hx. destruct Hx as [Hx _].
        apply in_seq in Hx. apply Nat.leb_le. fold n in Hx. lia.
    - apply Permutation_trans with (map2 (fun (m : bool) i => if m then i else i + n + 1) mask (seq 0 n)); [apply Permutation_sym, isort_perm|].
      pose proof (map2_mask (fun (m : bool) i => if m then i else i + n + 1) mask (fun i => i)) as MM. rewrite map_id in MM. fold n in MM. rewrite MM.
      set (g := fun i => if nth i mask false then i else i + n + 1).
      apply Permutation_trans with (map g (masked mask ++ un)).
      + apply Permutation_map. apply (filter_split (fun i => nth i mask false)).
      + rewrite map_app. apply Permutation_app.
        * rewrite (map_ext_in g (fun i => i)), map_id; auto. intros i Hi. apply masked_In in Hi. unfold g. rewrite Hi. auto.
        * rewrite (map_ext_in g (fun i => i + n + 1)); auto. intros i Hi. unfold un in Hi. apply filter_In in Hi. destruct Hi as [_ Hi].
          unfold g. destruct (nth i mask false); [discriminate|auto]. }
  rewrite E. rewrite count_masked. rewrite firstn_app, Nat.sub_diag, firstn_all. cbn. apply app_nil_r.
Qed.

Lemma targets_ok qsorter mask keys : qargsort_ok qsorter -> length keys = length mask -> Forall (fun u => u < 1)%Q keys ->
  let t := select (sort_mask mask) (qsorter (map2 (fun (m : bool) k => if m then k else 1%Q) mask keys)) in
  Permutation t (masked mask) /\ StronglySorted (fun i j => (nth i keys 0 <= nth j keys 0)%Q) t.
Proof.
  intros HQ L HF t. set (ks := map2 (fun (m : bool) k => if m then k else 1%Q) mask keys) in *.
  assert (Lk : length ks = length mask) by (unfold ks; rewrite map2_length; lia).
  destruct (HQ ks) as [HP HS]. rewrite Lk in HP.
  assert (Lq : length (qsorter ks) = length mask) by (apply Permutation_length in HP; rewrite seq_length in HP; auto).
  assert (KV : forall i, i < length mask -> nth i ks 0%Q = if nth i mask false then nth i keys 0%Q else 1%Q).
  { intros i Hi. apply nth_error_nth. unfold ks. rewrite map2_nth_error.
    destruct (nth_error mask i) as [m|] eqn:Em; [|apply nth_error_None in Em; lia].
    destruct (nth_error keys i) as [k|] eqn:Ek; [|apply nth_error_None in Ek; lia].
    rewrite (nth_error_nth _ _ _ Em), (nth_error_nth _ _ _ Ek). auto. }
  assert (E : t = filter (fun i => nth i mask false) (qsorter ks)).
  { unfold t. rewrite sort_mask_eq. pose proof (count_le mask). rewrite select_prefix by lia.
    assert (C : count_true mask = length (filter (fun i => nth i mask false) (qsorter ks))).
    { rewrite count_masked. unfold masked. apply Permutation_length. apply Permutation_sym, filter_perm. auto. }
    rewrite C. symmetry. apply (filter_prefix _ _ _ HS).
    intros x y Hx Hy Hxy Py. apply (Permutation_in _ HP) in Hx, Hy. apply in_seq in Hx, Hy.
    rewrite (KV x), (KV y), Py in Hxy by lia. destruct (nth x mask false); auto. exfalso.
    assert (nth y keys 0 < 1)%Q.
    { apply (proj1 (Forall_forall _ _) HF). apply nth_In. lia. }
    lra. }
  rewrite E. split; [unfold masked; apply filter_perm; auto|].
  assert (HS2 := filter_sorted _ (fun i => nth i mask false) _ HS).
  assert (IN : forall i, In i (filter (fun i => nth i mask false) (qsorter ks)) -> i < length mask /\ nth i mask false = true).
  { intros i Hi. apply filter_In in Hi. destruct Hi as [Hi Pi]. apply (Permutation_in _ HP) in Hi. apply in_seq in Hi. split; auto. lia. }
  clear -HS2 IN KV. induction HS2 as [|x l H IH HFF]; constructor.
  - apply IH. intros; apply IN; right; auto.
  - apply Forall_forall. intros y Hy. apply (proj1 (Forall_forall _ _) HFF) in Hy as Hxy.
    destruct (IN x (or_introl eq_refl)) as [Lx Px]. destruct (IN y (or_intror Hy)) as [Ly Py].
    rewrite (KV x), (KV y), Px, Py in Hxy; auto.
Qed.

Lemma fst_combine {A B} (a : list A) : forall b : list B, length b = length a -> map fst (combine a b) = a.
Proof. induction a as [|x a IH]; intros [|y b] L; cbn in *; try lia; auto. f_equal. apply IH. lia. Qed.
Lemma permute_column_ok {A} (d : A) qsorter col mask keys : qargsort_ok qsorter ->
  length col = length mask -> length keys = length mask -> Forall (fun u => u < 1)%Q keys ->
  exists targets,
    Permutation targets (masked mask) /\ StronglySorted (fun i j => (nth i keys 0 <= nth j keys 0)%Q) targets /\
    length (permute_column d qsorter col mask keys) = length col /\
    (forall k i t, nth_error (masked mask) k = Some i -> nth_error targets k = Some t ->
       nth_error (permute_column d qsorter col mask keys) i = nth_error col t) /\
    (forall i, nth i mask false = false -> nth_error (permute_column d qsorter col mask keys) i = nth_error col i) /\
    Permutation (permute_column d qsorter col mask keys) col.
Proof.
  intros HQ Lc Lk HF. destruct (targets_ok qsorter mask keys HQ Lk HF) as [TP TS].
  set (t := select (sort_mask mask) (qsorter (map2 (fun (m : bool) k => if m then k else 1%Q) mask keys))) in *.
  unfold permute_column. rewrite origins_eq. fold t. set (o := masked mask) in *.
  assert (Lt : length t = length o) by (apply Permutation_length; auto).
  assert (F : map fst (combine o (map (fun x => nth x col d) t)) = o).
  { apply fst_combine. rewrite map_length. auto. }
  assert (Bo : forall i, In i o -> i < length col).
  { intros i Hi. unfold o, masked in Hi. apply filter_In in Hi. destruct Hi as [Hi _]. apply in_seq in Hi. lia. }
  destruct (scatter_fold (combine o (map (fun x => nth x col d) t)) col) as (Ls & I & O).
  { rewrite F. apply masked_NoDup. }
  { intros p Hp. apply (in_map fst) in Hp. rewrite F in Hp. auto. }
  set (new := fold_left (fun l p => upd l (fst p) (snd p)) (combine o (map (fun x => nth x col d) t)) col) in *.
  assert (Hnew : forall k i s, nth_error o k = Some i -> nth_error t k = Some s -> nth_error new i = nth_error col s).
  { intros k i s Hi Hs. specialize (I (i, nth s col d)). cbn in I. rewrite I.
    - assert (In s o) by (apply (Permutation_in _ TP); eapply nth_error_In; eauto). symmetry. apply nth_error_nth'. auto.
    - apply nth_error_In with k. rewrite CMemProofs.combine_nth_error, Hi, (map_nth_error _ _ _ Hs). auto. }
  assert (Hold : forall i, nth i mask false = false -> nth_error new i = nth_error col i).
  { intros i Hi. apply O. rewrite F. intros X. apply masked_In in X. congruence. }
  exists t. split; [auto|]. split; [auto|]. split; [auto|]. split; [auto|]. split; [auto|].
  (* new is col read at a permutation of the positions *)
  assert (P1 : Permutation (seq 0 (length col)) (o ++ filter (fun i => negb (nth i mask false)) (seq 0 (length col)))).
  { unfold o, masked. rewrite Lc. apply filter_split. }
  set (un := filter (fun i => negb (nth i mask false)) (seq 0 (length col))) in *.
  assert (EN : Permutation new (map (fun i => nth i new d) (o ++ un))).
  { rewrite (list_tab new d) at 1. unfold tab. rewrite Ls. apply Permutation_map. auto. }
  assert (EC : Permutation col (map (fun i => nth i col d) (t ++ un))).
  { rewrite (list_tab col d) at 1. unfold tab. apply Permutation_map. eapply Permutation_trans; [exact P1|]. apply Permutation_app_tail, Permutation_sym, TP. }
  apply Permutation_trans with (1 := EN). apply Permutation_trans with (2 := Permutation_sym EC).
  rewrite !map_app. apply Permutation_app.
  - assert (E : map (fun i => nth i new d) o = map (fun i => nth i col d) t); [|rewrite E; auto].
    apply nth_error_ext. intros k. rewrite !nth_error_map. destruct (nth_error o k) as [i|] eqn:Ei, (nth_error t k) as [s|] eqn:Es; cbn; auto.
    + f_equal. specialize (Hnew k i s Ei Es). assert (Hs : In s o) by (apply (Permutation_in _ TP); eapply nth_error_In; eauto).
      rewrite (nth_error_nth' col d (Bo s Hs)) in Hnew. apply nth_error_nth. auto.
    + apply nth_error_None in Es. assert (k < length o) by (apply nth_error_Some; congruence). lia.
    + apply nth_error_None in Ei. assert (k < length t) by (apply nth_error_Some; congruence). lia.
  - rewrite (map_ext_in (fun i => nth i new d) (fun i => nth i col d)); auto. intros i Hi. unfold un in Hi. apply filter_In in Hi.
    destruct Hi as [Hi Pi]. apply in_seq in Hi. apply nth_error_nth. rewrite Hold.
    + apply nth_error_nth'. lia.
    + destruct (nth i mask false); [discriminate|auto].
Qed.

Lemma col_nth {A} (d : A) (m : list (list A)) n l j i : shaped n l m -> j < l -> i < n ->
  nth_error (col_at d j m) i = gene m i j.
Proof.
  intros [Ln Fm] Hj Hi. unfold col_at, gene. rewrite nth_error_map. destruct (nth_error m i) as [r|] eqn:Er; [|apply nth_error_None in Er; lia].
  cbn. symmetry. apply nth_error_nth'. apply nth_error_In in Er. apply (proj1 (Forall_forall _ _) Fm) in Er. lia.
Qed.
Lemma gene_some {A} (m : list (list A)) n l i j : shaped n l m -> i < n -> j < l -> exists x, gene m i j = Some x.
Proof.
  intros [Ln Fm] Hi Hj. unfold gene. destruct (nth_error m i) as [r|] eqn:Er; [|apply nth_error_None in Er; lia].
  apply nth_error_In in Er. apply (proj1 (Forall_forall _ _) Fm) in Er. destruct (nth_error r j) as [x|] eqn:Ex; [eauto|].
  apply nth_error_None in Ex. lia.
Qed.
Lemma gene_col {A} (m : list (list A)) n l d j : shaped n l m -> j < l -> col m j = map Some (col_at d j m).
Proof.
  intros HS Hj. apply nth_error_ext. intros i. unfold col. rewrite !nth_error_map.
  destruct (le_lt_dec n i) as [H|H].
  - destruct HS as [L _]. destruct (nth_error (seq 0 (length m)) i) eqn:E1.
    + assert (i < length (seq 0 (length m))) by (apply nth_error_Some; congruence). rewrite seq_length in H0. lia.
    + unfold col_at. rewrite nth_error_map. destruct (nth_error m i) eqn:E2; auto. assert (i < length m) by (apply nth_error_Some; congruence). lia.
  - rewrite (col_nth d m n l j i HS Hj H).
    rewrite nth_error_nth' with (d := 0) by (rewrite seq_length; destruct HS; lia). rewrite seq_nth by (destruct HS; lia). cbn.
    destruct (gene_some m n l i j HS H Hj) as (x & ->). auto.
Qed.
Lemma permute_rows_gene {A} (d : A) qsorter l (rows : list (list A)) mask keys i j :
  i < length rows -> j < l ->
  gene (permute_rows d qsorter l rows mask keys) i j =
  Some (nth i (permute_column d qsorter (col_at d j rows) (col_at false j mask) (col_at 0%Q j keys)) d).
Proof.
  intros Hi Hj. unfold gene, permute_rows. rewrite nth_error_map.
  rewrite nth_error_nth' with (d := 0) by (rewrite seq_length; auto). rewrite seq_nth by auto. cbn.
  rewrite nth_error_map, nth_error_map. rewrite nth_error_nth' with (d := 0) by (rewrite seq_length; auto). rewrite seq_nth by auto. cbn. auto.
Qed.
Lemma permute_rows_shape {A} (d : A) qsorter l (rows : list (list A)) mask keys :
  shaped (length rows) l (permute_rows d qsorter l rows mask keys).
Proof.
  split; unfold permute_rows; [rewrite map_length, seq_length; auto|]. apply Forall_map. apply Forall_forall. intros i _.
  rewrite !map_length, seq_length. auto.
Qed.
Lemma permute_rows_ok {A} (d : A) qsorter n l (rows : list (list A)) mask keys : qargsort_ok qsorter ->
  shaped n l rows -> shaped n l mask -> shaped n l keys -> all_genes (fun u => u < 1)%Q keys ->
  let new := permute_rows d qsorter l rows mask keys in
  shaped n l new /\
  forall j, j < l ->
    Permutation (col new j) (col rows j) /\
    (forall i, gene mask i j = Some false -> gene new i j = gene rows i j) /\
    exists targets, Permutation targets (selected_rows mask j) /\
      StronglySorted (fun a b => (key_at keys a j <= key_at keys b j)%Q) targets /\
      forall k i t, nth_error (selected_rows mask j) k = Some i -> nth_error targets k = Some t -> gene new i j = gene rows t j.
Proof.
  intros HQ SR SM SK HK new. pose proof (permute_rows_shape d qsorter l rows mask keys) as SN. fold new in SN.
  assert (Ln : length rows = n) by apply SR. rewrite Ln in SN. split; [auto|]. intros j Hj.
  assert (Lm : length mask = n) by apply SM. assert (Lk : length keys = n) by apply SK.
  destruct (permute_column_ok d qsorter (col_at d j rows) (col_at false j mask) (col_at 0%Q j keys) HQ) as (t & TP & TS & LC & T1 & T2 & T3).
  { unfold col_at. rewrite !map_length. lia. } { unfold col_at. rewrite !map_length. lia. }
  { unfold col_at. apply Forall_map. apply Forall_forall. intros r Hr. pose proof (proj1 (Forall_forall _ _) HK _ Hr) as Hr1.
    destruct SK as [_ SK]. pose proof (proj1 (Forall_forall _ _) SK _ Hr) as Hr2. cbn in Hr2. apply (proj1 (Forall_forall _ _) Hr1). apply nth_In. lia. }
  set (nc := permute_column d qsorter (col_at d j rows) (col_at false j mask) (col_at 0%Q j keys)) in *.
  assert (Lnc : length nc = n) by (rewrite LC; unfold col_at; rewrite map_length; auto).
  assert (GN : forall i, i < n -> gene new i j = nth_error nc i).
  { intros i Hi. unfold new. rewrite permute_rows_gene by lia. symmetry. fold nc. apply nth_error_nth'. lia. }
  assert (MM : masked (col_at false j mask) = selected_rows mask j).
  { unfold masked, selected_rows, col_at. rewrite map_length. apply filter_ext_in. intros i Hi. apply in_seq in Hi.
    pose proof (col_nth false mask n l j i SM Hj ltac:(lia)) as E. unfold col_at in E.
    destruct (gene_some mask n l i j SM ltac:(lia) Hj) as (x & Ex). rewrite Ex in *. apply nth_error_nth. auto. }
  assert (KK : forall i, i < n -> nth i (col_at 0%Q j keys) 0%Q = key_at keys i j).
  { intros i Hi. pose proof (col_nth 0%Q keys n l j i SK Hj Hi) as E. destruct (gene_some keys n l i j SK Hi Hj) as (x & Ex).
    unfold key_at. rewrite Ex in *. apply nth_error_nth. auto. }
  assert (MB : forall i, In i (selected_rows mask j) -> i < n).
  { intros i Hi. unfold selected_rows in Hi. apply filter_In in Hi. destruct Hi as [Hi _]. apply in_seq in Hi. lia. }
  split; [|split].
  - rewrite (gene_col new n l d j SN Hj), (gene_col rows n l d j SR Hj). apply Permutation_map.
    assert (E : col_at d j new = nc); [|rewrite E; auto].
    apply nth_error_ext. intros i. destruct (le_lt_dec n i) as [H|H].
    + transitivity (@None A); [|symmetry]; apply nth_error_None; [|lia]. unfold col_at. rewrite map_length. destruct SN; lia.
    + rewrite (col_nth d new n l j i SN Hj H). auto.
  - intros i Hi. assert (H : i < n). { unfold gene in Hi. destruct (nth_error mask i) eqn:E; [|discriminate]. rewrite <- Lm. apply nth_error_Some. congruence. }
    rewrite GN by auto. rewrite T2; [apply (col_nth d rows n l j i SR Hj H)|].
    apply nth_error_nth. rewrite (col_nth false mask n l j i SM Hj H). auto.
  - exists t. rewrite MM in TP, T1. split; [auto|]. split.
    + assert (B : forall i, In i t -> i < n) by (intros i Hi; apply MB, (Permutation_in _ TP); auto).
      clear -TS B KK. induction TS as [|x t H IH HF]; constructor; [apply IH; intros; apply B; right; auto|].
      apply Forall_forall. intros y Hy. apply (proj1 (Forall_forall _ _) HF) in Hy as Hxy. rewrite !KK in Hxy; auto; apply B; [right|left]; auto.
    + intros k i s Hi Hs. assert (In i (selected_rows mask j)) by (eapply nth_error_In; eauto).
      assert (In s (selected_rows mask j)) by (apply (Permutation_in _ TP); eapply nth_error_In; eauto).
      rewrite GN by auto. rewrite (T1 k i s Hi Hs). apply (col_nth d rows n l j s SR Hj). auto.
Qed.

From Coq Require Import QArith Lqa.
From Verif Require Import Prelude WorkModel WorkSpec.
Close Scope Q_scope.
Open Scope nat_scope.

Lemma upd_app_mid {A} (l1 : list A) x l2 y : upd (l1 ++ x :: l2) (length l1) y = l1 ++ y :: l2.
Proof. induction l1; cbn; auto. f_equal. auto. Qed.

Lemma nth_error_mid {A} (l1 : list A) x l2 : nth_error (l1 ++ x :: l2) (length l1) = Some x.
Proof. rewrite nth_error_app2 by lia. rewrite Nat.sub_diag. reflexivity. Qed.

Lemma repeat_snoc {A} (x : A) n : repeat x n ++ [x] = repeat x (S n).
Proof. symmetry. apply (repeat_cons n x). Qed.

Lemma incr_loop b n : forall e, e <= n ->
  fold_left incr (seq 0 e) (repeat b n) = repeat (b + 1) e ++ repeat b (n - e).
Proof.
  induction e as [|e IH]; intros He.
  { cbn. rewrite Nat.sub_0_r. reflexivity. }
  rewrite seq_S, fold_left_app, IH by lia. cbn [fold_left Nat.add].
  assert (Hn : n - e = S (n - S e)) by lia. rewrite Hn. change (repeat b (S (n - S e))) with (b :: repeat b (n - S e)).
  unfold incr.
  pose proof (nth_error_mid (repeat (b + 1) e) b (repeat b (n - S e))) as H1.
  pose proof (upd_app_mid (repeat (b + 1) e) b (repeat b (n - S e)) (b + 1)) as H2.
  rewrite repeat_length in H1, H2. rewrite H1, H2.
  rewrite <- repeat_snoc, <- app_assoc. reflexivity.
Qed.

Lemma list_sum_repeat x n : list_sum (repeat x n) = x * n.
Proof. induction n; cbn [repeat]; [cbn; lia|]. unfold list_sum in *. cbn [fold_right]. rewrite IHn. lia. Qed.

Lemma ceil_div_needed n m : 1 <= m -> ceil_div n m = pieces_needed n m.
Proof.
  intros Hm. unfold ceil_div, pieces_needed.
  pose proof (Nat.div_mod n m ltac:(lia)) as E. pose proof (Nat.mod_upper_bound n m ltac:(lia)) as B.
  destruct (Nat.eqb_spec (n mod m) 0) as [H|H]; symmetry.
  - apply (Nat.div_unique _ _ _ (m - 1)); lia.
  - apply (Nat.div_unique _ _ _ (n mod m - 1)); lia.
Qed.

Lemma even_split_canon w n : 1 <= n ->
  even_split w n (repeat (w / n + 1) (w mod n) ++ repeat (w / n) (n - w mod n)).
Proof.
  intros Hn. assert (Hm : w mod n < n) by (apply Nat.mod_upper_bound; lia).
  split; [|split].
  - rewrite app_length, !repeat_length. lia.
  - rewrite list_sum_app, !list_sum_repeat.
    rewrite (Nat.div_mod w n) at 5 by lia.
    generalize (w / n) (w mod n) Hm. clear. intros q r Hr. nia.
  - intros i j x y Hij Hx Hy.
    assert (G : forall k z, nth_error (repeat (w / n + 1) (w mod n) ++ repeat (w / n) (n - w mod n)) k = Some z ->
                (k < w mod n /\ z = w / n + 1) \/ (w mod n <= k /\ z = w / n)).
    { intros k z Hk. destruct (Nat.lt_ge_cases k (w mod n)) as [L|L].
      - left. split; auto. rewrite nth_error_app1 in Hk by (rewrite repeat_length; auto).
        rewrite nth_error_repeat in Hk by auto. congruence.
      - right. split; auto. rewrite nth_error_app2 in Hk by (rewrite repeat_length; auto).
        rewrite repeat_length in Hk. apply nth_error_In in Hk. apply repeat_spec in Hk. auto. }
    apply G in Hx. apply G in Hy. lia.
Qed.

Lemma split_workload_ok w n : 1 <= n -> exists l, split_workload w n = Ok l /\ even_split w n l.
Proof.
  intros Hn. unfold split_workload. destruct (Nat.eqb_spec n 0); [lia|].
  rewrite incr_loop. 2:{ pose proof (Nat.mod_upper_bound w n). lia. }
  eexists. split; [reflexivity|]. apply even_split_canon; auto.
Qed.

Lemma split_workload_zero w : split_workload w 0 = Err ZeroDivisionError.
Proof. reflexivity. Qed.

Lemma sizes_by_count_ok w n : 1 <= n -> exists l, sizes_by_count w n = Ok l /\ even_split w n l.
Proof.
  intros Hn. unfold sizes_by_count. destruct (Nat.eqb_spec n 0); [lia|].
  replace (w - w / n * n) with (w mod n).
  2:{ rewrite Nat.mod_eq by lia. lia. }
  rewrite incr_loop. 2:{ pose proof (Nat.mod_upper_bound w n). lia. }
  eexists. split; [reflexivity|]. apply even_split_canon; auto.
Qed.

(* ------------------------------------------------------------------ slices *)
Lemma piece_slices_chain sizes : forall b, chain b (b + list_sum sizes) (piece_slices b sizes).
Proof.
  induction sizes as [|s t IH]; intros b.
  - cbn. lia.
  - change (list_sum (s :: t)) with (s + list_sum t). cbn [piece_slices chain].
    split; [auto|]. split; [lia|]. rewrite Nat.add_assoc. auto.
Qed.

Lemma piece_slices_length sizes : forall b, length (piece_slices b sizes) = length sizes.
Proof. induction sizes; intros; cbn; auto. Qed.

Lemma piece_slices_sizes sizes : forall b, map (fun ab => snd ab - fst ab) (piece_slices b sizes) = sizes.
Proof. induction sizes as [|s t IH]; intros b; cbn; auto. f_equal; [lia|auto]. Qed.

Lemma chain_le from upto sl : chain from upto sl -> from <= upto.
Proof.
  revert from; induction sl as [|[a b] t IH]; intros from H; cbn in H; [lia|].
  destruct H as (-> & Hb & Ht). apply IH in Ht. lia.
Qed.

Lemma nth_error_firstn' {A} (l : list A) n i :
  nth_error (firstn n l) i = if Nat.ltb i n then nth_error l i else None.
Proof.
  revert n i; induction l as [|x l IH]; intros [|n] [|i]; cbn [firstn nth_error]; auto.
  - destruct (Nat.ltb (S i) (S n)); auto.
  - rewrite IH. reflexivity.
Qed.
Lemma nth_error_skipn' {A} (l : list A) n i : nth_error (skipn n l) i = nth_error l (n + i).
Proof.
  revert l; induction n as [|n IH]; intros [|x l]; cbn; auto. destruct i; auto.
Qed.

Lemma skipn_skipn' {A} (l : list A) a b : skipn a (skipn b l) = skipn (b + a) l.
Proof. apply nth_error_ext. intros i. rewrite !nth_error_skipn'. f_equal. lia. Qed.

Lemma chain_concat {A} (l : list A) sl : forall from, chain from (length l) sl ->
  concat (map (slice l) sl) = skipn from l.
Proof.
  induction sl as [|[a b] t IH]; intros from H; cbn in H |- *.
  - subst. rewrite skipn_all. reflexivity.
  - destruct H as (-> & Hb & Ht). rewrite (IH b Ht). unfold slice. cbn.
    rewrite <- (firstn_skipn (b - from) (skipn from l)) at 2. f_equal.
    rewrite skipn_skipn'. f_equal. lia.
Qed.


Lemma slice_nth {A} (l : list A) a b i :
  nth_error (slice l (a, b)) i = if Nat.ltb i (b - a) then nth_error l (a + i) else None.
Proof. unfold slice. cbn. rewrite nth_error_firstn', nth_error_skipn'. reflexivity. Qed.

Lemma slice_length {A} (l : list A) a b : b <= length l -> length (slice l (a, b)) = b - a.
Proof. intros H. unfold slice. cbn. rewrite firstn_length, skipn_length. lia. Qed.

Lemma sizes_loop_spec total m : 1 <= m -> forall n cur, cur <= total ->
  (n = ceil_div (total - cur) m) ->
  list_sum (sizes_loop n total m cur) = total - cur /\
  length (sizes_loop n total m cur) = n /\
  Forall (fun s => 1 <= s <= m) (sizes_loop n total m cur) /\
  (forall i s, nth_error (sizes_loop n total m cur) i = Some s -> i + 1 < n -> s = m).
Proof.
  intros Hm. induction n as [|n IH]; intros cur Hc Hn.
  - assert (total - cur = 0).
    { unfold ceil_div in Hn. symmetry in Hn. apply Nat.div_small_iff in Hn; lia. }
    cbn. repeat split; auto; try lia; intros [|i] s; discriminate.
  - cbn [sizes_loop]. unfold ceil_div in Hn.
    assert (Hd : total - cur <> 0).
    { intros E. rewrite E in Hn. rewrite Nat.div_small in Hn by lia. lia. }
    destruct (Nat.ltb_spec total (cur + m)) as [L|L].
    + assert (n = 0).
      { assert ((total - cur + m - 1) / m = 1); [|lia]. symmetry. apply (Nat.div_unique _ _ _ (total - cur - 1)); lia. }
      subst n. cbn. repeat split; auto; try lia. constructor; [lia|constructor].
    + destruct (IH (cur + m)) as (A & B & C & E).
      * lia.
      * unfold ceil_div. assert (H : (total - cur + m - 1) / m = S ((total - (cur + m) + m - 1) / m)); [|lia].
        replace (total - cur + m - 1) with ((total - (cur + m) + m - 1) + 1 * m) by lia.
        rewrite Nat.div_add by lia. lia.
      * cbn [list_sum fold_right length]. unfold list_sum in A. rewrite A.
        split; [lia|]. split; [lia|]. split; [constructor; [lia|auto]|].
        intros [|i] s Hs Hi; cbn in Hs; [congruence|]. apply (E i); auto. lia.
Qed.

Lemma sizes_by_max_ok total m : 1 <= m -> exists l, sizes_by_max total m = Ok l /\
  list_sum l = total /\ length l = ceil_div total m /\ Forall (fun s => 1 <= s <= m) l /\
  (forall i s, nth_error l i = Some s -> i + 1 < length l -> s = m).
Proof.
  intros Hm. unfold sizes_by_max. destruct (Nat.eqb_spec m 0); [lia|].
  destruct (sizes_loop_spec total m Hm (ceil_div total m) 0) as (A & B & C & E); try lia.
  { rewrite Nat.sub_0_r. reflexivity. }
  eexists. split; [reflexivity|]. rewrite Nat.sub_0_r in A. repeat split; auto.
  intros i s Hs Hi. rewrite B in Hi. eauto.
Qed.

Lemma split_count {A} (batch : list A) k : 1 <= k ->
  exists sl pieces, split_batch batch (Some k) None = Ok (sl, pieces) /\
    length sl = k /\ pieces = map (slice batch) sl /\
    chain 0 (length batch) sl /\ concat pieces = batch /\
    even_split (length batch) k (map (fun ab => snd ab - fst ab) sl).
Proof.
  intros Hk. destruct (sizes_by_count_ok (length batch) k Hk) as (l & E & Hs).
  unfold split_batch. cbn [piece_sizes]. rewrite E. cbn [rmap].
  eexists _, _. split; [reflexivity|].
  assert (Hc : chain 0 (length batch) (piece_slices 0 l)).
  { replace (length batch) with (0 + list_sum l) by (destruct Hs as (_ & -> & _); auto). apply piece_slices_chain. }
  repeat split; auto.
  - rewrite piece_slices_length. apply Hs.
  - rewrite (chain_concat batch _ 0 Hc). reflexivity.
  - rewrite piece_slices_sizes. apply Hs.
  - rewrite piece_slices_sizes. apply Hs.
  - rewrite piece_slices_sizes in H0, H1. eapply Hs; eauto.
  - rewrite piece_slices_sizes in H0, H1. eapply Hs; eauto.
Qed.

Lemma split_max {A} (batch : list A) m : 1 <= m ->
  exists sl pieces, split_batch batch None (Some m) = Ok (sl, pieces) /\
    length sl = pieces_needed (length batch) m /\ pieces = map (slice batch) sl /\
    chain 0 (length batch) sl /\ concat pieces = batch /\
    Forall (fun ab => 1 <= snd ab - fst ab <= m) sl /\
    (forall i ab, nth_error sl i = Some ab -> i + 1 < length sl -> snd ab - fst ab = m).
Proof.
  intros Hm. destruct (sizes_by_max_ok (length batch) m Hm) as (l & E & Hs & Hl & Hf & He).
  unfold split_batch. cbn [piece_sizes]. rewrite E. cbn [rmap].
  eexists _, _. split; [reflexivity|].
  assert (Hc : chain 0 (length batch) (piece_slices 0 l)).
  { replace (length batch) with (0 + list_sum l) by auto. apply piece_slices_chain. }
  repeat split; auto.
  - rewrite piece_slices_length, <- ceil_div_needed; auto.
  - rewrite (chain_concat batch _ 0 Hc). reflexivity.
  - rewrite <- (piece_slices_sizes l 0) in Hf. rewrite Forall_map in Hf. exact Hf.
  - intros i ab Hi Hlt. rewrite piece_slices_length in Hlt. apply (He i); auto.
    rewrite <- (piece_slices_sizes l 0). rewrite nth_error_map, Hi. reflexivity.
Qed.

(* ------------------------------------------------------------------ evaluation *)
Lemma write_slice_nth {A} (l : list A) a b vs i : a <= b -> b <= length l -> length vs = b - a ->
  nth_error (write_slice l (a, b) vs) i =
  if Nat.leb a i && Nat.ltb i b then nth_error vs (i - a) else nth_error l i.
Proof.
  intros H1 H2 H3. unfold write_slice. cbn [fst snd].
  assert (Hf : length (firstn a l) = a) by (rewrite firstn_length; lia).
  destruct (Nat.leb_spec a i) as [L|L]; cbn [andb].
  - rewrite nth_error_app2 by lia. rewrite Hf. destruct (Nat.ltb_spec i b).
    + rewrite nth_error_app1 by lia. reflexivity.
    + rewrite nth_error_app2 by lia. rewrite nth_error_skipn'. f_equal. lia.
  - rewrite nth_error_app1 by lia. rewrite nth_error_firstn'. destruct (Nat.ltb_spec i a); [reflexivity|lia].
Qed.

Lemma write_slice_length {A} (l : list A) a b vs : a <= b -> b <= length l -> length vs = b - a ->
  length (write_slice l (a, b) vs) = length l.
Proof. intros. unfold write_slice. cbn. rewrite !app_length, firstn_length, skipn_length. lia. Qed.

Section Gather.
Context {Row Ev : Type} (f : Row -> Ev) (g : list Row -> list Ev).
Hypothesis rowwise : forall l, g l = map f l.
Variable batch : list Row.
Variable sl : list (nat * nat).
Hypothesis Hsl : Forall (fun ab => fst ab <= snd ab /\ snd ab <= length batch) sl.

Definition in_piece (r : nat) (i : nat) : bool :=
  match nth_error sl i with Some (a, b) => Nat.leb a r && Nat.ltb r b | None => false end.

Lemma gather_spec order : forall ev, length ev = length batch ->
  length (gather g sl (map (slice batch) sl) order ev) = length batch /\
  forall r, nth_error (gather g sl (map (slice batch) sl) order ev) r =
    if existsb (in_piece r) order then nth_error (map f batch) r else nth_error ev r.
Proof.
  induction order as [|i order IH]; intros ev Hev; cbn [gather fold_left existsb].
  { auto. }
  rewrite nth_error_map.
  destruct (nth_error sl i) as [[a b]|] eqn:Ei; cbn [option_map].
  - rewrite Forall_forall in Hsl. destruct (Hsl (a, b) (nth_error_In _ _ Ei)) as [H1 H2]. cbn in H1, H2.
    assert (Hg : length (g (slice batch (a, b))) = b - a).
    { rewrite rowwise, map_length. apply slice_length. auto. }
    destruct (IH (write_slice ev (a, b) (g (slice batch (a, b))))) as [L N].
    { rewrite write_slice_length; auto. lia. }
    split; [exact L|]. intros r. etransitivity; [apply N|].
    unfold in_piece at 2. rewrite Ei.
    destruct (existsb (in_piece r) order); [rewrite orb_true_r; reflexivity|]. rewrite orb_false_r.
    rewrite write_slice_nth; auto; try lia.
    destruct (Nat.leb_spec a r); destruct (Nat.ltb_spec r b); cbn [andb]; auto.
    rewrite rowwise, !nth_error_map, slice_nth. destruct (Nat.ltb_spec (r - a) (b - a)); [|lia].
    replace (a + (r - a)) with r by lia. reflexivity.
  - destruct (IH ev Hev) as [L N]. split; [exact L|]. intros r. etransitivity; [apply N|].
    unfold in_piece at 2. rewrite Ei. reflexivity.
Qed.
End Gather.

Lemma chain_in from upto sl : chain from upto sl ->
  Forall (fun ab => from <= fst ab /\ fst ab <= snd ab /\ snd ab <= upto) sl.
Proof.
  revert from; induction sl as [|[a b] t IH]; intros from H; cbn in H; [constructor|].
  destruct H as (-> & Hb & Ht). constructor.
  - cbn. apply chain_le in Ht. lia.
  - eapply Forall_impl; [|apply (IH b Ht)]. cbn. intros x Hx. lia.
Qed.

Lemma chain_covers from upto sl r : chain from upto sl -> from <= r < upto ->
  exists i a b, nth_error sl i = Some (a, b) /\ a <= r < b.
Proof.
  revert from; induction sl as [|[a b] t IH]; intros from H Hr; cbn in H; [lia|].
  destruct H as (-> & Hb & Ht). destruct (Nat.lt_ge_cases r b).
  - exists 0, from, b. split; [reflexivity|lia].
  - destruct (IH b Ht) as (i & a' & b' & Hi & Hab); [lia|]. exists (S i), a', b'. auto.
Qed.

Lemma gather_chain {Row Ev} (f : Row -> Ev) (g : list Row -> list Ev) batch sl order ev :
  (forall l, g l = map f l) -> chain 0 (length batch) sl -> Permutation order (seq 0 (length sl)) ->
  length ev = length batch ->
  gather g sl (map (slice batch) sl) order ev = map f batch.
Proof.
  intros Hg Hc Hp Hev.
  assert (Hf : Forall (fun ab => fst ab <= snd ab /\ snd ab <= length batch) sl).
  { eapply Forall_impl; [|apply (chain_in _ _ _ Hc)]. cbn. intros ab H. lia. }
  destruct (gather_spec f g Hg batch sl Hf order ev Hev) as [L N].
  apply nth_error_ext. intros r. rewrite N.
  destruct (existsb (in_piece sl r) order) eqn:E; [reflexivity|].
  destruct (Nat.lt_ge_cases r (length batch)) as [Hr|Hr].
  - exfalso. destruct (chain_covers 0 (length batch) sl r Hc) as (i & a & b & Hi & Hab); [lia|].
    assert (Hin : In i order).
    { apply (Permutation_in _ (Permutation_sym Hp)). apply in_seq. split; [lia|].
      cbn. apply nth_error_Some. congruence. }
    rewrite <- not_true_iff_false in E. apply E. apply existsb_exists. exists i. split; auto.
    unfold in_piece. rewrite Hi. lia.
  - rewrite (proj2 (nth_error_None ev r)) by lia. symmetry. apply nth_error_None. rewrite map_length. lia.
Qed.

Lemma evaluate_parallel {Row Ev} (f : Row -> Ev) (g : list Row -> list Ev) actors ns ss order batch ev :
  (forall l, g l = map f l) -> 1 <= actors ->
  (forall k, ns = Some k -> 1 <= k) -> (forall m, ss = Some m -> 1 <= m) ->
  length ev = length batch ->
  Permutation order (seq 0 (num_pieces ns ss actors (length batch))) ->
  evaluate_all g (Some actors) ns ss order batch ev = Ok (map f batch).
Proof.
  intros Hg Ha Hk Hm Hev Hp. unfold evaluate_all, choose_pieces. unfold num_pieces in Hp.
  destruct ns as [k|]; [|destruct ss as [m|]].
  - destruct (split_count batch k (Hk k eq_refl)) as (sl & p & E & Hl & -> & Hc & _). rewrite E. cbn [rmap fst snd].
    f_equal. apply gather_chain; auto. rewrite Hl. auto.
  - destruct (split_max batch m (Hm m eq_refl)) as (sl & p & E & Hl & -> & Hc & _). rewrite E. cbn [rmap fst snd].
    f_equal. apply gather_chain; auto. rewrite Hl. auto.
  - destruct (split_count batch actors Ha) as (sl & p & E & Hl & -> & Hc & _). rewrite E. cbn [rmap fst snd].
    f_equal. apply gather_chain; auto. rewrite Hl. auto.
Qed.

From Coq Require Import QArith Reals String Lra.
From Verif Require Import Prelude RankModel CemModel RankProofs DistModel DistSpec.
Close Scope Q_scope.
Open Scope R_scope.

Lemma divide_scale opt k g w : divide_grad opt (k * g) w = rmap (option_map (Rmult k)) (divide_grad opt g w).
Proof.
  assert (D : forall d, rdivo (k * g) d = option_map (Rmult k) (rdivo g d)).
  { intros d. unfold rdivo. destruct (Req_EM_T d 0); auto. cbn. f_equal. unfold Rdiv. ring. }
  unfold divide_grad. destruct opt as [o|]; auto.
  repeat match goal with |- context [if String.eqb o ?x then _ else _] => destruct (String.eqb o x) end; cbn; rewrite ?D; auto.
  destruct (cstd w); auto. rewrite D. auto.
Qed.
Lemma sequence_rmap {A B} (f : A -> B) (l : list (result A)) : sequence (map (rmap f) l) = rmap (map f) (sequence l).
Proof. induction l as [|[a|e] l IH]; cbn; auto. rewrite IH. destruct (sequence l); auto. Qed.

Lemma gradients_scale F G F' G' o r mu sigma mu' sigma' s s' w w' k :
  length mu = length mu' -> centered_weights r w' = centered_weights r w ->
  (forall j, (j < length mu)%nat ->
     F' (centered_weights r w) (column s' j) (nth j mu' 0) = k * F (centered_weights r w) (column s j) (nth j mu 0)) ->
  (forall j, (j < length mu)%nat ->
     G' (centered_weights r w) (column s' j) (nth j mu' 0) (nth j sigma' 0) =
     k * G (centered_weights r w) (column s j) (nth j mu 0) (nth j sigma 0)) ->
  gradients_of F' G' o r mu' sigma' s' w' = rmap (times k) (gradients_of F G o r mu sigma s w).
Proof.
  intros L W HF HG. unfold gradients_of. cbv zeta. rewrite W, <- L.
  set (cw := centered_weights r w) in *.
  assert (E1 : sequence (map (fun j => divide_grad (divide_mu o) (F' cw (column s' j) (nth j mu' 0)) cw) (seq 0 (length mu))) =
    rmap (map (option_map (Rmult k))) (sequence (map (fun j => divide_grad (divide_mu o) (F cw (column s j) (nth j mu 0)) cw) (seq 0 (length mu))))).
  { rewrite <- sequence_rmap, map_map. f_equal. apply map_ext_in. intros j Hj. apply in_seq in Hj.
    rewrite HF by lia. apply divide_scale. }
  assert (E2 : sequence (map (fun j => divide_grad (divide_sigma o) (G' cw (column s' j) (nth j mu' 0) (nth j sigma' 0)) cw) (seq 0 (length mu))) =
    rmap (map (option_map (Rmult k))) (sequence (map (fun j => divide_grad (divide_sigma o) (G cw (column s j) (nth j mu 0) (nth j sigma 0)) cw) (seq 0 (length mu))))).
  { rewrite <- sequence_rmap, map_map. f_equal. apply map_ext_in. intros j Hj. apply in_seq in Hj.
    rewrite HG by lia. apply divide_scale. }
  rewrite E1, E2.
  clear E1 E2. destruct (sequence (map (fun j => divide_grad (divide_mu o) (F cw (column s j) (nth j mu 0)) cw) _)) as [gm|]; cbn [rmap bind]; auto.
  destruct (sequence (map (fun j => divide_grad (divide_sigma o) (G cw (column s j) (nth j mu 0) (nth j sigma 0)) cw) _)) as [gs|]; cbn [rmap bind]; reflexivity.
Qed.
Lemma times_one g : times 1 g = g.
Proof.
  assert (M : forall l : list num, map (option_map (Rmult 1)) l = l).
  { induction l as [|[x|] l IH]; cbn; auto; rewrite IH; auto. rewrite Rmult_1_l. auto. }
  destruct g. unfold times. cbn. rewrite !M. auto.
Qed.
Lemma rmap_times_one r : rmap (times 1) r = r.
Proof. destruct r; cbn; auto. rewrite times_one. auto. Qed.

(* shifting the weights *)
Lemma rmean_shift w c : w <> [] -> rmean (map (fun x => x + c) w) = rmean w + c.
Proof.
  intros N. unfold rmean. rewrite map_length.
  assert (E : forall l, rsum (map (fun x => x + c) l) = rsum l + INR (length l) * c).
  { induction l as [|x l IH]; unfold rsum in *; cbn [map fold_right]; [cbn; lra|].
    rewrite IH. change (length (x :: l)) with (S (length l)). rewrite S_INR. ring. }
  rewrite E. assert (INR (length w) <> 0) by (apply not_0_INR; destruct w; [congruence|cbn; lia]). field. auto.
Qed.
Lemma centered_shift r w c : is_centering r = false -> centered_weights r (map (fun x => x + c) w) = centered_weights r w.
Proof.
  intros H. unfold centered_weights. rewrite H. destruct w as [|a w]; auto.
  rewrite map_map. apply map_ext. intros x. rewrite rmean_shift by congruence. ring.
Qed.

Lemma wsum_zero w c : Forall (fun x => x = 0) w -> wsum w c = 0.
Proof.
  intros H. revert c. induction H as [|x w Hx Hw IH]; intros [|y c]; unfold wsum, rsum in *; cbn [map2 fold_right]; auto.
  rewrite IH, Hx. ring.
Qed.
Lemma wsum_scale w k c : wsum w (map (Rmult k) c) = k * wsum w c.
Proof.
  revert c. induction w as [|x w IH]; intros [|y c]; unfold wsum, rsum in *; cbn [map map2 fold_right]; try ring.
  rewrite IH. ring.
Qed.
Lemma centered_const r c n : is_centering r = false -> Forall (fun x => x = 0) (centered_weights r (repeat c n)).
Proof.
  intros H. unfold centered_weights. rewrite H. apply Forall_forall. intros x Hx. apply in_map_iff in Hx.
  destruct Hx as (y & <- & Hy). assert (y = c) by (eapply repeat_spec; eauto). subst.
  assert (N : n <> O) by (intros ->; cbn in Hy; contradiction).
  unfold rmean. rewrite repeat_length.
  assert (E : rsum (repeat c n) = INR n * c).
  { clear. induction n; [cbn; lra|]. unfold rsum in *. cbn [repeat fold_right]. rewrite IHn, S_INR. ring. }
  rewrite E. field. apply not_0_INR. auto.
Qed.
Lemma divide_zero o w n : length w = n -> count_option o n -> divide_grad o 0 w = Ok (Some 0).
Proof.
  intros L [->|[[-> H]|[-> H]]]; cbn; auto; unfold rdivo; rewrite L.
  - destruct (Req_EM_T (INR n) 0) as [E|E]; [exfalso; apply (not_0_INR n); auto; lia|]. do 2 f_equal. unfold Rdiv. ring.
  - change (fst (Nat.divmod n 1 0 1)) with (n / 2)%nat.
    destruct (Req_EM_T (INR (n / 2)) 0) as [E|E]; [exfalso; apply (not_0_INR (n / 2)); auto; intros X; apply Nat.div_small_iff in X; lia|].
    do 2 f_equal. unfold Rdiv. ring.
Qed.
Lemma sequence_const {A} (x : A) n (l : list nat) : length l = n -> sequence (map (fun _ => Ok x) l) = Ok (repeat x n).
Proof. revert n. induction l; intros n H; subst; cbn in *; auto. rewrite (IHl _ eq_refl). auto. Qed.
Lemma evens_Forall {A} (P : A -> Prop) : forall n l, (length l <= n)%nat -> Forall P l -> Forall P (evens l) /\ Forall P (odds l).
Proof.
  induction n; intros [|x [|y l]] H F; cbn in *; try lia; auto.
  inversion F as [|? ? Px F']; subst. inversion F' as [|? ? Py F'']; subst.
  destruct (IHn l) as [A1 A2]; auto; lia.
Qed.
Lemma map2_zero (f : R -> R -> R) a b : f 0 0 = 0 -> Forall (fun x => x = 0) a -> Forall (fun x => x = 0) b ->
  Forall (fun x => x = 0) (map2 f a b).
Proof.
  intros F0 Ha. revert b. induction Ha as [|x a Hx Ha IH]; intros b Hb; cbn; auto.
  destruct Hb; auto. subst. constructor; auto.
Qed.
Lemma constant_zero F G o r mu sigma s c n : is_centering r = false ->
  (forall w xs m, Forall (fun x => x = 0) w -> F w xs m = 0) ->
  (forall w xs m sg, Forall (fun x => x = 0) w -> G w xs m sg = 0) ->
  count_option (divide_mu o) n -> count_option (divide_sigma o) n ->
  exists g, gradients_of F G o r mu sigma s (repeat c n) = Ok g /\ zero_gradient (length mu) g.
Proof.
  intros Hr HF HG O1 O2. unfold gradients_of. cbv zeta. pose proof (centered_const r c n Hr) as Z.
  assert (L : length (centered_weights r (repeat c n)) = n).
  { unfold centered_weights. rewrite Hr, map_length, repeat_length. auto. }
  set (cw := centered_weights r (repeat c n)) in *.
  rewrite (map_ext _ (fun _ => Ok (Some 0))) by (intros; rewrite HF by auto; eapply divide_zero; eauto).
  rewrite (sequence_const _ (length mu)) by apply seq_length. cbn [bind].
  rewrite (map_ext _ (fun _ => Ok (Some 0))) by (intros; rewrite HG by auto; eapply divide_zero; eauto).
  rewrite (sequence_const _ (length mu)) by apply seq_length. cbn [bind].
  eexists; split; reflexivity.
Qed.
Lemma sym_zero w xs m sg : Forall (fun x => x = 0) w -> symmetric_mu w xs m = 0 /\ symmetric_sigma w xs m sg = 0.
Proof.
  intros H. destruct (evens_Forall _ _ w (le_n _) H). unfold symmetric_mu, symmetric_sigma.
  split; apply wsum_zero; apply map2_zero; auto; field.
Qed.

(* translation and dilation of the search space *)
Lemma nth_translate d x j : length x = length d -> nth j (translate d x) 0 = nth j x 0 + nth j d 0.
Proof.
  revert d j. induction x as [|a x IH]; intros [|b d] [|j] H; cbn in *; try discriminate; try lra. apply IH. lia.
Qed.
Lemma nth_dilate k x j : nth j (dilate k x) 0 = k * nth j x 0.
Proof. revert j. induction x; intros [|j]; cbn; auto; lra. Qed.
Lemma column_translate n d s j : rows_of n s -> length d = n ->
  column (map (translate d) s) j = map (fun x => x + nth j d 0) (column s j).
Proof.
  intros H L. unfold column. rewrite !map_map. apply map_ext_in. intros r Hr.
  apply nth_translate. rewrite (proj1 (Forall_forall _ _) H r Hr). auto.
Qed.
Lemma column_dilate k s j : column (map (dilate k) s) j = map (Rmult k) (column s j).
Proof. unfold column. rewrite !map_map. apply map_ext. intros. apply nth_dilate. Qed.
Lemma evens_map {A B} (f : A -> B) : forall n l, (length l <= n)%nat -> evens (map f l) = map f (evens l).
Proof. induction n; intros [|x [|y l]] H; cbn in *; try lia; auto. rewrite IHn by lia. auto. Qed.
Lemma shift_diff xs (e m : R) : map (fun x => x - (m + e)) (map (fun x => x + e) xs) = map (fun x => x - m) xs.
Proof. rewrite map_map. apply map_ext. intros. ring. Qed.

Lemma plain_translate w xs e m sg :
  plain_mu w (map (fun x => x + e) xs) (m + e) = plain_mu w xs m /\
  plain_sigma w (map (fun x => x + e) xs) (m + e) sg = plain_sigma w xs m sg.
Proof.
  unfold plain_mu, plain_sigma. split; f_equal; rewrite map_map; apply map_ext; intros x; [ring|].
  replace (x + e - (m + e)) with (x - m) by ring. auto.
Qed.
Lemma sym_translate w xs e m sg :
  symmetric_mu w (map (fun x => x + e) xs) (m + e) = symmetric_mu w xs m /\
  symmetric_sigma w (map (fun x => x + e) xs) (m + e) sg = symmetric_sigma w xs m sg.
Proof.
  unfold symmetric_mu, symmetric_sigma. rewrite (evens_map _ _ xs (le_n _)).
  split; f_equal; rewrite map_map; apply map_ext; intros x; [ring|].
  replace (x + e - (m + e)) with (x - m) by ring. auto.
Qed.
Lemma sigma_term k x m sg : k <> 0 -> sg <> 0 ->
  ((k * x - k * m) * (k * x - k * m) - k * sg * (k * sg)) / (k * sg) = k * (((x - m) * (x - m) - sg * sg) / sg).
Proof.
  intros K N. field. auto.
Qed.
Lemma plain_dilate k w xs m sg : k <> 0 -> sg <> 0 ->
  plain_mu w (map (Rmult k) xs) (k * m) = k * plain_mu w xs m /\
  plain_sigma w (map (Rmult k) xs) (k * m) (k * sg) = k * plain_sigma w xs m sg.
Proof.
  intros K N. unfold plain_mu, plain_sigma. rewrite <- !wsum_scale, !map_map. split; f_equal; apply map_ext; intros x; [ring|].
  apply sigma_term; auto.
Qed.
Lemma sym_dilate k w xs m sg : k <> 0 -> sg <> 0 ->
  symmetric_mu w (map (Rmult k) xs) (k * m) = k * symmetric_mu w xs m /\
  symmetric_sigma w (map (Rmult k) xs) (k * m) (k * sg) = k * symmetric_sigma w xs m sg.
Proof.
  intros K N. unfold symmetric_mu, symmetric_sigma. rewrite (evens_map _ _ xs (le_n _)), <- !wsum_scale, !map_map.
  split; f_equal; apply map_ext; intros x; [ring|]. apply sigma_term; auto.
Qed.

(* symmetric gradients are half of the plain ones *)
Fixpoint mirrored_col (m : R) (xs : list R) : Prop :=
  match xs with [] => True | [_] => False | x :: y :: t => x - m = - (y - m) /\ mirrored_col m t end.
Lemma half_mu : forall n w xs m, (length xs <= n)%nat -> length w = length xs -> mirrored_col m xs ->
  symmetric_mu w xs m = / 2 * plain_mu w xs m.
Proof.
  induction n; intros [|p [|q w]] [|x [|y xs]] m H L M; cbn in H, L, M; try lia; try contradiction;
    unfold symmetric_mu, plain_mu, wsum, rsum in *; cbn; try lra.
  destruct M as [E M]. rewrite (IHn w xs m) by (auto; lia). cbn. nra.
Qed.
Lemma half_sigma : forall n w xs m sg, (length xs <= n)%nat -> length w = length xs -> mirrored_col m xs ->
  symmetric_sigma w xs m sg = / 2 * plain_sigma w xs m sg.
Proof.
  induction n; intros [|p [|q w]] [|x [|y xs]] m sg H L M; cbn in H, L, M; try lia; try contradiction;
    unfold symmetric_sigma, plain_sigma, wsum, rsum in *; cbn; try lra.
  destruct M as [E M]. rewrite (IHn w xs m sg) by (auto; lia).
  replace ((y - m) * (y - m)) with ((x - m) * (x - m)) by (rewrite E; ring).
  unfold Rdiv. ring.
Qed.
Lemma mirrored_column mu s j : mirrored_samples mu s -> (j < length mu)%nat -> mirrored_col (nth j mu 0) (column s j).
Proof.
  intros [Ev M] Hj.
  assert (X : forall n l, (length l <= n)%nat -> Nat.even (length l) = true ->
    (forall k a b, nth_error l (2 * k) = Some a -> nth_error l (2 * k + 1) = Some b -> nth j a 0 - nth j mu 0 = - (nth j b 0 - nth j mu 0)) ->
    mirrored_col (nth j mu 0) (column l j)).
  { induction n; intros [|a [|b l]] H E K; cbn in H; try lia; cbn; auto; try discriminate.
    split; [apply (K 0%nat); auto|]. apply IHn; auto; [lia|]. intros k a' b' Ha Hb. apply (K (S k)).
    - replace (2 * S k)%nat with (S (S (2 * k))) by lia. auto.
    - replace (2 * S k + 1)%nat with (S (S (2 * k + 1))) by lia. auto. }
  apply (X (length s)); auto. intros. eapply M; eauto.
Qed.
Lemma centered_length r w : length (centered_weights r w) = length w.
Proof. unfold centered_weights. destruct (is_centering r); auto. apply map_length. Qed.

Lemma symmetric_is_half o r mu sigma s w : mirrored_samples mu s -> length w = length s ->
  symmetric_gradients o r mu sigma s w = rmap (times (/ 2)) (plain_gradients o r mu sigma s w).
Proof.
  intros M L. apply gradients_scale; auto; intros j Hj.
  - apply (half_mu (length (column s j))); auto; [rewrite centered_length, L; unfold column; rewrite map_length; auto|apply mirrored_column; auto].
  - apply (half_sigma (length (column s j))); auto; [rewrite centered_length, L; unfold column; rewrite map_length; auto|apply mirrored_column; auto].
Qed.

(* relative entropy *)
Lemma ln_ineq x : 0 < x -> ln x <= x - 1 /\ (ln x = x - 1 -> x = 1).
Proof.
  intros H. assert (E : forall y, y <> 0 -> 1 + y < exp y) by (intros; apply exp_ineq1; auto).
  destruct (Req_dec (ln x) 0) as [Z|N].
  - assert (x = 1) by (rewrite <- (exp_ln x H), Z; apply exp_0). subst. rewrite ln_1. split; lra.
  - specialize (E _ N). rewrite (exp_ln x H) in E. split; lra.
Qed.
Fixpoint kl_terms (mu0 sg0 mu1 sg1 : list R) : list R :=
  match mu0, sg0, mu1, sg1 with
  | a :: m0, s :: s0, b :: m1, t :: s1 =>
      (s * s / (t * t) - 1 - ln (s * s / (t * t)) + (b - a) * (b - a) / (t * t)) :: kl_terms m0 s0 m1 s1
  | _, _, _, _ => []
  end.
Lemma entropy_terms mu0 : forall sg0 mu1 sg1, length sg0 = length mu0 -> length mu1 = length mu0 -> length sg1 = length mu0 ->
  Forall (fun s => 0 < s) sg0 -> Forall (fun s => 0 < s) sg1 ->
  relative_entropy mu0 sg0 mu1 sg1 = 0.5 * rsum (kl_terms mu0 sg0 mu1 sg1).
Proof.
  induction mu0 as [|a mu0 IH]; intros [|s sg0] [|b mu1] [|t sg1] L1 L2 L3 P0 P1; cbn in L1, L2, L3; try discriminate.
  - unfold relative_entropy, rsum. cbn. lra.
  - pose proof (Forall_inv P0) as S0. pose proof (Forall_inv P1) as T0. cbn in S0, T0.
    specialize (IH sg0 mu1 sg1 ltac:(lia) ltac:(lia) ltac:(lia) (Forall_inv_tail P0) (Forall_inv_tail P1)).
    unfold relative_entropy, rsum in *. cbv zeta in *. cbn [kl_terms map map2 fold_right].
    change (length (a :: mu0)) with (S (length mu0)). rewrite S_INR.
    assert (T2 : 0 < t * t) by (apply Rmult_lt_0_compat; auto). assert (S2 : 0 < s * s) by (apply Rmult_lt_0_compat; auto).
    assert (LN : ln (s * s / (t * t)) = ln (s * s) - ln (t * t)).
    { unfold Rdiv. rewrite (ln_mult (s * s) (/ (t * t))) by (auto; apply Rinv_0_lt_compat; auto).
      rewrite (ln_Rinv (t * t)) by auto. ring. }
    rewrite LN. unfold Rdiv in *. lra.
Qed.
Lemma entropy_nonneg mu0 sg0 mu1 sg1 : length sg0 = length mu0 -> length mu1 = length mu0 -> length sg1 = length mu0 ->
  Forall (fun s => 0 < s) sg0 -> Forall (fun s => 0 < s) sg1 ->
  0 <= relative_entropy mu0 sg0 mu1 sg1 /\
  (relative_entropy mu0 sg0 mu1 sg1 = 0 <-> mu0 = mu1 /\ sg0 = sg1).
Proof.
  intros L1 L2 L3 P0 P1. rewrite entropy_terms by auto.
  assert (X : 0 <= rsum (kl_terms mu0 sg0 mu1 sg1) /\ (rsum (kl_terms mu0 sg0 mu1 sg1) = 0 <-> mu0 = mu1 /\ sg0 = sg1)).
  { revert sg0 mu1 sg1 L1 L2 L3 P0 P1.
    induction mu0 as [|a mu0 IH]; intros [|s sg0] [|b mu1] [|t sg1] L1 L2 L3 P0 P1; cbn in L1, L2, L3; try discriminate.
    - unfold rsum; cbn. split; [lra|tauto].
    - pose proof (Forall_inv P0) as S0. pose proof (Forall_inv P1) as T0. cbn in S0, T0.
      specialize (IH sg0 mu1 sg1 ltac:(lia) ltac:(lia) ltac:(lia) (Forall_inv_tail P0) (Forall_inv_tail P1)).
      destruct IH as [N Z]. unfold rsum in *. cbn [kl_terms fold_right].
      set (rest := fold_right Rplus 0 (kl_terms mu0 sg0 mu1 sg1)) in *.
      assert (T2 : 0 < t * t) by (apply Rmult_lt_0_compat; auto). assert (S2 : 0 < s * s) by (apply Rmult_lt_0_compat; auto).
      assert (Q : 0 < s * s / (t * t)) by (apply Rdiv_lt_0_compat; auto).
      destruct (ln_ineq _ Q) as [LI LE].
      assert (D0 : 0 <= (b - a) * (b - a) / (t * t)) by (apply Rmult_le_pos; [apply Rle_0_sqr|left; apply Rinv_0_lt_compat; auto]).
      set (q := s * s / (t * t)) in *. set (d := (b - a) * (b - a) / (t * t)) in *.
      split; [lra|]. split.
      + intros E. assert (rest = 0) by lra. assert (ln q = q - 1) by lra. assert (d = 0) by lra.
        destruct (proj1 Z) as [Z1 Z2]; auto. subst mu1 sg1.
        assert (q = 1) by auto. unfold q in H2. assert (s * s = t * t) by (apply (Rmult_eq_reg_r (/ (t * t))); [|apply Rinv_neq_0_compat; lra]; rewrite Rinv_r by lra; auto).
        assert (s = t) by nra. unfold d in H1. assert ((b - a) * (b - a) = 0).
        { apply (Rmult_eq_reg_r (/ (t * t))); [|apply Rinv_neq_0_compat; lra]. rewrite Rmult_0_l. auto. }
        assert (b = a) by nra. subst. auto.
      + intros [E1 E2]. inversion E1; inversion E2; subst. assert (q = 1) by (unfold q; field; lra).
        rewrite (proj2 Z) by auto. rewrite H, ln_1. unfold d. replace (b - b) with 0 by ring. unfold Rdiv. ring. }
  destruct X as [X Y]. split; [lra|]. rewrite <- Y. split; intros; lra.
Qed.

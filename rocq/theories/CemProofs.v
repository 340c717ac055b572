From Coq Require Import QArith Qround Reals Sorted Lra.
From Verif Require Import Prelude FloatLib SortLib BatchSpec BatchProofs RankModel RankSpec RankProofs CemModel.
Close Scope Q_scope.
Open Scope nat_scope.

Lemma num_elites_le n ratio : (0 <= ratio <= 1)%Q -> num_elites n ratio <= n.
Proof.
  intros [H0 H1]. unfold num_elites. assert (B : (Qfloor (inject_Z (Z.of_nat n) * ratio) <= Z.of_nat n)%Z).
  { rewrite Zle_Qle. eapply Qle_trans; [apply Qfloor_le|]. rewrite <- (Qmult_1_r (inject_Z (Z.of_nat n))) at 2.
    apply Qmult_le_compat_nonneg; split; try apply Qle_refl; auto; change 0%Q with (inject_Z 0); rewrite <- Zle_Qle; lia. }
  lia.
Qed.
Lemma raw_at evals hib i : at_ (raw_weights evals hib) i = if hib then at_ evals i else fneg (at_ evals i).
Proof. unfold raw_weights. destruct hib; auto. unfold at_. change NaN with (fneg NaN) at 1. apply map_nth. Qed.
Lemma raw_length evals hib : length (raw_weights evals hib) = length evals.
Proof. unfold raw_weights. destruct hib; auto. apply map_length. Qed.

Lemma elites_ok sorter n ratio evals hib : argsort_ok sorter -> length evals = n -> no_nan evals -> (0 <= ratio <= 1)%Q ->
  let idx := elite_indices sorter n ratio (raw_weights evals hib) in
  length idx = num_elites n ratio /\ NoDup idx /\ (forall i, In i idx -> i < n) /\
  (forall i j, In i idx -> j < n -> ~ In j idx -> ~ better hib (at_ evals j) (at_ evals i)).
Proof.
  intros Hs L HN HR idx. destruct (Hs true (raw_weights evals hib)) as [HP HS]. rewrite raw_length, L in HP.
  set (s := sorter true (raw_weights evals hib)) in *. set (k := num_elites n ratio). assert (Ls : length s = n) by (rewrite (Permutation_length HP); apply seq_length).
  assert (Ei : idx = firstn k s) by reflexivity. rewrite Ei.
  assert (ND : NoDup s) by (apply (Permutation_NoDup (Permutation_sym HP)), seq_NoDup).
  assert (APP : s = firstn k s ++ skipn k s) by (symmetry; apply firstn_skipn).
  split. { rewrite firstn_length. pose proof (num_elites_le n ratio HR). unfold k. lia. }
  split. { rewrite APP in ND. clear -ND. revert ND. generalize (firstn k s) (skipn k s). induction l as [|a l IH]; intros l0 H; [constructor|].
    inversion H; subst. constructor; eauto. intros C. apply H2. apply in_or_app; auto. }
  split. { intros i Hi. assert (In i s) by (rewrite APP; apply in_or_app; auto). apply (Permutation_in _ HP) in H. apply in_seq in H. lia. }
  intros i j Hi Hj Nj HB. assert (Ij : In j s) by (apply (Permutation_in _ (Permutation_sym HP)), in_seq; lia).
  rewrite APP in Ij. apply in_app_or in Ij. destruct Ij as [Ij|Ij]; [contradiction|].
  apply In_nth_error in Hi. destruct Hi as (p & Hp). apply In_nth_error in Ij. destruct Ij as (q & Hq).
  assert (Pk : p < length (firstn k s)) by (apply nth_error_Some; congruence).
  assert (E1 : nth_error s p = Some i) by (rewrite APP, nth_error_app1; auto).
  assert (E2 : nth_error s (length (firstn k s) + q) = Some j) by (rewrite APP, nth_error_app2 by (rewrite <- APP; lia); rewrite <- APP; replace (length (firstn k s) + q - length (firstn k s)) with q by lia; exact Hq).
  pose proof (sorted_nth _ _ _ _ _ _ HS (Nat.lt_le_trans _ _ _ Pk (Nat.le_add_r _ q)) E1 E2) as T. cbn in T. rewrite !raw_at in T.
  assert (Hi' : i < n). { assert (In i s) by (eapply nth_error_In; eauto). apply (Permutation_in _ HP) in H. apply in_seq in H. lia. }
  unfold no_nan in HN. rewrite Forall_forall in HN.
  assert (Ni : is_nan (at_ evals i) = false) by (apply HN, nth_In; lia). assert (Nj' : is_nan (at_ evals j) = false) by (apply HN, nth_In; lia).
  destruct hib; cbn in HB; apply flt_lt in HB.
  - rewrite tle_flt in T by auto. rewrite HB in T. discriminate.
  - destruct (at_ evals i), (at_ evals j); cbn in *; try discriminate; lia.
Qed.

Lemma column_length rows j : length (column rows j) = length rows.
Proof. apply map_length. Qed.
Lemma cem_targets_ok sorter maximize ratio mu sigma values evals :
  length sigma = length mu -> (forall m, In m mu -> m <> None) -> (forall m, In m sigma -> m <> None) ->
  let e := elites sorter values ratio (raw_weights evals maximize) in
  let r := cem_targets sorter maximize ratio mu sigma values evals in
  length (fst r) = length mu /\ length (snd r) = length mu /\
  forall j, j < length mu -> nth_error (fst r) j = Some (cmean (column e j)) /\ nth_error (snd r) j = Some (cstd (column e j)).
Proof.
  intros L Nm Ns e r. unfold r, cem_targets, cem_grads. cbv zeta. cbn [fst snd]. fold e.
  rewrite !map2_length, !map_length, !seq_length. split; [lia|]. split; [lia|]. intros j Hj.
  rewrite !map2_nth_error, !nth_error_map.
  assert (S : nth_error (seq 0 (length mu)) j = Some j) by (rewrite (nth_error_nth' _ 0) by (rewrite seq_length; auto); rewrite seq_nth by auto; reflexivity).
  rewrite S. cbn [option_map].
  destruct (nth_error mu j) as [[m|]|] eqn:Em. 2: { exfalso. apply (Nm None); auto. eapply nth_error_In; eauto. } 2: { apply nth_error_None in Em. lia. }
  destruct (nth_error sigma j) as [[q|]|] eqn:Es. 2: { exfalso. apply (Ns None); auto. eapply nth_error_In; eauto. } 2: { apply nth_error_None in Es. lia. }
  cbn [option_map nneg]. split; f_equal.
  - destruct (cmean (column e j)); cbn; auto. f_equal. lra.
  - destruct (cstd (column e j)); cbn; auto. f_equal. lra.
Qed.

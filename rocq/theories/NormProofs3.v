(* Lemmas about normalization, masks and NaN. *)
From Coq Require Import Reals Lra.
From Verif Require Import Prelude NormModel NormSpec NormProofs.
Close Scope R_scope.
Open Scope nat_scope.

Lemma lift_length x : length (lift x) = length x.
Proof. apply map_length. Qed.
Lemma represents_perm d mv c s k os os' : Permutation os os' -> represents d mv c s os -> represents d mv c k os' -> s = k.
Proof.
  intros P A B. red in A, B. subst s k. rewrite (Permutation_length P). destruct (length os' =? 0); auto.
  assert (E1 : sums d os = sums d os').
  { unfold sums. apply map_ext. intros j. f_equal. apply total_perm. apply column_perm. exact P. }
  assert (E2 : sumsqs d os = sumsqs d os').
  { unfold sumsqs. apply map_ext. intros j. f_equal. apply total_perm. apply Permutation_map. apply column_perm. exact P. }
  rewrite E1, E2. reflexivity.
Qed.

(* a masked update is an update by the selected rows *)
Lemma extract_masked s d rows m : Forall (fun r => length r = d) rows -> length m = length rows ->
  extract s (XBatch d (map lift rows)) (Some m) = extract s (XBatch d (map lift (selected (Some m) rows))) None.
Proof.
  intros HF HL. cbn [extract]. rewrite map_length, HL, Nat.eqb_refl. cbn [negb].
  rewrite apply_mask_lift, col_sum_sums, col_sum_sumsqs by (apply masked_rows; auto).
  rewrite col_sum_sums, col_sum_sumsqs by (apply selected_rows; auto).
  rewrite sums_masked, sumsqs_masked, (count_selected m rows), map_length by auto. reflexivity.
Qed.
Lemma represents_empty_batch d mv c s os rows mask : represents d mv c s os -> os <> [] -> Forall (fun r => length r = d) rows ->
  (forall m, mask = Some m -> length m = length rows) -> selected mask rows = [] ->
  update s (XBatch d (map lift rows)) mask = Ok s.
Proof.
  intros R HN HF HM HE. destruct (update_batch d mv c s os rows mask R HF HM (or_introl HN)) as (s' & -> & R').
  f_equal. rewrite HE, app_nil_r in R'. eapply represents_perm; [apply Permutation_refl|eauto|eauto].
Qed.

(* the invalid state *)
Definition poisoned (s : norm) : Prop := (exists a, n_sum s = Some a) /\ (exists b, n_sq s = Some b) /\ n_count s = 0.
Lemma poisoned_accumulate s a b n : poisoned s -> accumulate s a b n = Err AssertionError.
Proof.
  intros ((x & X) & (y & Y) & Z). unfold accumulate, has_no_data, has_data. rewrite X, Y, Z. reflexivity.
Qed.

(* NaN *)
Lemma nth_nadd (a b : list num) j : nth_error a j = Some (None : num) -> length b = length a -> nth_error (map2 nadd a b) j = Some None.
Proof.
  intros H HL. rewrite map2_nth_error. rewrite H.
  destruct (nth_error b j) as [v|] eqn:E; [|apply nth_error_None in E; assert (j < length a) by (apply nth_error_Some; congruence); lia].
  reflexivity.
Qed.
Lemma nth_nadd_r (a b : list num) j : nth_error b j = Some (None : num) -> length b = length a -> nth_error (map2 nadd a b) j = Some None.
Proof.
  intros H HL. rewrite map2_nth_error. rewrite H.
  destruct (nth_error a j) as [v|] eqn:E; [|apply nth_error_None in E; assert (j < length b) by (apply nth_error_Some; congruence); lia].
  destruct v; reflexivity.
Qed.
Lemma fold_nadd_length (rows : list (list num)) : forall acc : list num, Forall (fun r => length r = length acc) rows -> length (fold_left (map2 nadd) rows acc) = length acc.
Proof.
  induction rows as [|r rows IH]; intros acc HF; cbn; auto. inversion HF as [|? ? A B]; subst.
  assert (L : length (map2 nadd acc r) = length acc) by (rewrite map2_length; lia).
  rewrite IH; [exact L|]. rewrite L. exact B.
Qed.
Lemma fold_nadd_nan j (rows : list (list num)) : forall acc : list num, Forall (fun r => length r = length acc) rows ->
  (nth_error acc j = Some (None : num) \/ Exists (fun r => nth_error r j = Some (None : num)) rows) ->
  nth_error (fold_left (map2 nadd) rows acc) j = Some (None : num).
Proof.
  induction rows as [|r rows IH]; intros acc HF H; cbn.
  - destruct H as [H|H]; [exact H|inversion H].
  - inversion HF as [|? ? A B]; subst. assert (L : length (map2 nadd acc r) = length acc) by (rewrite map2_length; lia).
    apply IH; [rewrite L; exact B|]. destruct H as [H|H].
    + left. apply nth_nadd; auto.
    + inversion H as [? ? E|? ? E]; subst; [left; apply nth_nadd_r; auto|right; exact E].
Qed.
Lemma col_sum_length d rows : Forall (fun r => length r = d) rows -> length (col_sum d rows) = d.
Proof. intros HF. unfold col_sum. rewrite fold_nadd_length; rewrite repeat_length; auto. Qed.
Lemma col_sum_nan d j rows : Forall (fun r => length r = d) rows -> Exists (fun r => nth_error r j = Some (None : num)) rows ->
  nth_error (col_sum d rows) j = Some (None : num).
Proof. intros HF HE. unfold col_sum. apply fold_nadd_nan; [rewrite repeat_length; auto|right; exact HE]. Qed.
Lemma apply_mask_rows d m rows : Forall (fun r => length r = d) rows -> Forall (fun r => length r = d) (apply_mask m rows).
Proof.
  unfold apply_mask. intros HF. revert m. induction HF as [|r rows A B IH]; intros [|b m]; cbn; auto. constructor; auto. rewrite map_length. exact A.
Qed.
Lemma apply_mask_nan m rows i j r : length m = length rows -> nth_error rows i = Some r -> nth_error r j = Some (None : num) ->
  Exists (fun r => nth_error r j = Some (None : num)) (apply_mask m rows).
Proof.
  intros HL Hr Hj. apply Exists_exists. destruct (nth_error m i) as [b|] eqn:Eb.
  2:{ apply nth_error_None in Eb. assert (i < length rows) by (apply nth_error_Some; congruence). lia. }
  exists (map (nmul (Some (if b then 1%R else 0%R))) r). split.
  - apply nth_error_In with i. unfold apply_mask. rewrite map2_nth_error, Eb, Hr. reflexivity.
  - rewrite nth_error_map, Hj. reflexivity.
Qed.
Lemma map_nsquare_rows d (rows : list (list num)) : Forall (fun r => length r = d) rows -> Forall (fun r => length r = d) (map (map nsquare) rows).
Proof. intros HF. apply Forall_forall. intros x Hx. apply in_map_iff in Hx. destruct Hx as (r & <- & Hr). rewrite map_length. apply (proj1 (Forall_forall _ _) HF). exact Hr. Qed.

(* shapes of states *)
Definition shaped (s : norm) : Prop :=
  (forall a, n_sum s = Some a -> length a = n_dim s) /\ (forall b, n_sq s = Some b -> length b = n_dim s).
Definition rows_ok (x : input) : Prop := match x with XBatch w rows => Forall (fun r => length r = w) rows | _ => True end.
Lemma extract_length s x m sm sq n : verify s x = Ok tt -> rows_ok x -> extract s x m = Ok (sm, sq, n) ->
  length sm = n_dim s /\ length sq = n_dim s.
Proof.
  destruct x as [x|w rows|]; cbn [verify rows_ok extract]; intros HV HR HE.
  - destruct (length x =? n_dim s) eqn:E; [|discriminate]. apply Nat.eqb_eq in E. destruct m; [discriminate|]. inversion HE; subst.
    rewrite map_length. auto.
  - destruct (w =? n_dim s) eqn:E; [|discriminate]. apply Nat.eqb_eq in E. subst w. destruct m as [m|].
    + destruct (negb (length m =? length rows)); [discriminate|]. inversion HE; subst. split; apply col_sum_length.
      * apply apply_mask_rows; auto.
      * apply map_nsquare_rows, apply_mask_rows; auto.
    + inversion HE; subst. split; apply col_sum_length; auto. apply map_nsquare_rows; auto.
  - discriminate.
Qed.
Definition nan_at (j : nat) (s : norm) : Prop := exists a, n_sum s = Some a /\ nth_error a j = Some (None : num).
Lemma accumulate_shaped s sm sq n s' : shaped s -> length sm = n_dim s -> length sq = n_dim s -> accumulate s sm sq n = Ok s' ->
  shaped s' /\ n_dim s' = n_dim s.
Proof.
  intros [A B] H1 H2. unfold accumulate. destruct (has_no_data s).
  - intros E. inversion E; subst. cbn. split; auto. split; cbn; intros ? X; inversion X; subst; auto.
  - destruct (has_data s); [|discriminate]. destruct (n_sum s) as [a|]; [|discriminate]. destruct (n_sq s) as [b|]; [|discriminate].
    intros E. inversion E; subst. cbn. split; auto.
    specialize (A a eq_refl). specialize (B b eq_refl). split; cbn; intros ? X; inversion X; subst; rewrite map2_length; lia.
Qed.
Lemma accumulate_nan_new j s sm sq n s' : shaped s -> length sm = n_dim s -> nth_error sm j = Some (None : num) -> accumulate s sm sq n = Ok s' -> nan_at j s'.
Proof.
  intros [A B] HL HN. unfold accumulate. destruct (has_no_data s).
  - intros E. inversion E; subst. exists sm. auto.
  - destruct (has_data s); [|discriminate]. destruct (n_sum s) as [a|]; [|discriminate]. destruct (n_sq s) as [b|]; [|discriminate].
    intros E. inversion E; subst. exists (map2 nadd a sm). split; [reflexivity|]. specialize (A a eq_refl). apply nth_nadd_r; auto. lia.
Qed.
Lemma accumulate_nan_old j s sm sq n s' : shaped s -> length sm = n_dim s -> nan_at j s -> accumulate s sm sq n = Ok s' -> nan_at j s'.
Proof.
  intros [A B] HL (a & Ha & HN). unfold accumulate. destruct (has_no_data s) eqn:E0.
  - unfold has_no_data in E0. rewrite Ha in E0. discriminate.
  - destruct (has_data s); [|discriminate]. rewrite Ha. destruct (n_sq s) as [b|]; [|discriminate].
    intros E. inversion E; subst. exists (map2 nadd a sm). split; [reflexivity|]. specialize (A a Ha). apply nth_nadd; auto. lia.
Qed.
Lemma update_shaped s x m s' : shaped s -> rows_ok x -> update s x m = Ok s' -> shaped s' /\ n_dim s' = n_dim s.
Proof.
  intros HS HR. unfold update. destruct (verify s x) as [[]|] eqn:HV; [|discriminate]. cbn [bind].
  destruct (extract s x m) as [[[sm sq] n]|] eqn:HE; [|discriminate]. cbn [bind]. intros HA.
  destruct (extract_length _ _ _ _ _ _ HV HR HE) as [L1 L2]. apply (accumulate_shaped s sm sq n s'); auto.
Qed.
Lemma update_nan_old j s x m s' : shaped s -> rows_ok x -> nan_at j s -> update s x m = Ok s' -> nan_at j s'.
Proof.
  intros HS HR HN. unfold update. destruct (verify s x) as [[]|] eqn:HV; [|discriminate]. cbn [bind].
  destruct (extract s x m) as [[[sm sq] n]|] eqn:HE; [|discriminate]. cbn [bind]. intros HA.
  destruct (extract_length _ _ _ _ _ _ HV HR HE) as [L1 L2]. apply (accumulate_nan_old j s sm sq n s'); auto.
Qed.
Lemma nan_mean j s : nan_at j s -> exists mu, mean s = Ok mu /\ nth_error mu j = Some (None : num).
Proof. intros (a & Ha & HN). unfold mean. rewrite Ha. eexists. split; [reflexivity|]. rewrite nth_error_map, HN. reflexivity. Qed.

(* normalization of numbers *)
Definition norm_value (mv : R) (lb ub : option R) (os : obs) (j : nat) (v : R) : R :=
  let z := ((v - avg (column j os)) / sqrt (Rmax (variance (column j os)) mv))%R in
  let z := match lb with Some l => Rmax z l | None => z end in
  match ub with Some u => Rmin z u | None => z end.
Lemma stdev_pos mv l : (0 < mv)%R -> (0 < sqrt (Rmax (variance l) mv))%R.
Proof. intros H. apply sqrt_lt_R0. apply Rlt_le_trans with mv; auto. apply Rmax_r. Qed.
Lemma normalize_row_spec d mv lb ub os x : (0 < mv)%R -> length x = d ->
  normalize_row (spec_mean d os) (spec_stdev d mv os) lb ub (lift x) =
  lift (map (fun j => norm_value mv lb ub os j (nth j x 0%R)) (seq 0 d)).
Proof.
  intros HM HL. unfold normalize_row. rewrite (lift_sums d x HL). unfold sums, spec_mean, spec_stdev. rewrite !map2_map_map.
  unfold lift. rewrite map_map. apply map_ext. intros j. cbn [nlift2 nsub column map ndiv].
  destruct (Req_EM_T (sqrt (Rmax (variance (column j os)) mv)) 0) as [E|E].
  - pose proof (stdev_pos mv (column j os) HM). lra.
  - unfold norm_value, column. cbn [clamp total fold_right map]. rewrite Rplus_0_r. reflexivity.
Qed.
Lemma total_affine (a k : R) l : total (map (fun v => (v - a) / k)%R l) = ((total l - INR (length l) * a) / k)%R.
Proof.
  induction l as [|v l IH]; cbn [map length]; [cbn; unfold Rdiv; lra|]. rewrite !total_cons, IH, S_INR. unfold Rdiv. lra.
Qed.
Lemma avg_affine (a k : R) l : l <> [] -> (0 < k)%R -> avg (map (fun v => (v - a) / k)%R l) = ((avg l - a) / k)%R.
Proof.
  intros H HK. unfold avg. rewrite map_length, total_affine.
  assert (P : (0 < INR (length l))%R) by (apply lt_0_INR; destruct l; [congruence|cbn; lia]).
  field. split; lra.
Qed.
Lemma total_scale2 c l : total (map (fun v => v / c)%R l) = (total l / c)%R.
Proof. induction l as [|v l IH]; cbn [map]; [cbn; unfold Rdiv; lra|]. rewrite !total_cons, IH. unfold Rdiv. lra. Qed.
Lemma avg_scale c l : avg (map (fun v => v / c)%R l) = (avg l / c)%R.
Proof. unfold avg. rewrite map_length, total_scale2. unfold Rdiv. lra. Qed.
Lemma variance_affine (k : R) l : l <> [] -> (0 < k)%R -> variance (map (fun v => (v - avg l) / k)%R l) = (variance l / (k * k))%R.
Proof.
  intros H HK. unfold variance at 1. rewrite avg_affine by auto. rewrite map_map.
  rewrite (map_ext _ (fun v => (v - avg l) * (v - avg l) / (k * k))%R) by (intros v; field; lra).
  rewrite <- (map_map (fun v => (v - avg l) * (v - avg l))%R (fun v => v / (k * k))%R). apply avg_scale.
Qed.

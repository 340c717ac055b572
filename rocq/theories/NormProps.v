(* Properties of running observation statistics: C41, C42, C47, C102, C103, C104. *)
From Coq Require Import Reals Lra.
From Verif Require Import Prelude NormModel NormSpec NormProofs NormProofs2 NormProofs3 SyncModel SyncSpec SyncProofs SyncProofs2.
Close Scope R_scope.
Open Scope nat_scope.

(* ---- C41: the statistics are those of the observations, however these arrived ---- *)
Theorem C41_statistics d minvar clip b : well_formed d b ->
  exists s, run_build d minvar clip b = Ok s /\ n_count s = length (obs_of b) /\
    (obs_of b <> [] -> mean s = Ok (spec_mean d (obs_of b)) /\ stdev s = Ok (spec_stdev d minvar (obs_of b))).
Proof.
  intros W. destruct (build_represents d minvar clip b W) as (s & E & R). exists s. split; auto. split; [eapply represents_count; eauto|].
  intros N. destruct (stats_represents _ _ _ _ _ R N) as (_ & A & B). auto.
Qed.
Print Assumptions C41_statistics.
(* order, grouping and merging do not matter: not even for the stored state *)
Theorem C41_order_and_grouping d minvar clip b c : well_formed d b -> well_formed d c -> Permutation (obs_of b) (obs_of c) ->
  run_build d minvar clip b = run_build d minvar clip c.
Proof.
  intros W1 W2 P. destruct (build_represents d minvar clip b W1) as (s & -> & R1). destruct (build_represents d minvar clip c W2) as (k & -> & R2).
  f_equal. eapply represents_perm; eauto.
Qed.
Print Assumptions C41_order_and_grouping.
Example C41_example : exists b c : build,
  well_formed 2 b /\ well_formed 2 c /\ Permutation (obs_of b) (obs_of c) /\ b <> c /\ length (obs_of b) = 3.
Proof.
  exists (BMerge (BOne BNew [1; 2]%R) (BBatch BNew [[3; 4]; [5; 6]; [7; 8]]%R (Some [true; false; true]))),
         (BOne (BBatch (BOne BNew [7; 8]%R) [[3; 4]]%R None) [1; 2]%R).
  split; [|split; [|split; [|split]]].
  - cbn. split; [auto|]. split; [auto|]. split; [repeat constructor|]. split; [intros m E; injection E as <-; reflexivity|]. right. discriminate.
  - cbn. split; [|reflexivity]. split; [auto|]. split; [repeat constructor|]. split; [discriminate|]. right. discriminate.
  - cbn. apply (Permutation_rev [[1;2];[3;4];[7;8]]%R).
  - discriminate.
  - reflexivity.
Qed.

(* ---- C42: empty masks, masked-out rows, and the arrays of the caller ---- *)
(* False: an empty first update makes the object unusable; every later update with an array fails. *)
Theorem C42_empty_mask_refuted d minvar clip rows m : Forall (fun r => length r = d) rows -> length m = length rows ->
  count_true m = 0 ->
  exists s, update (new_norm d minvar clip) (XBatch d rows) (Some m) = Ok s /\ n_count s = 0 /\
    (forall x mask s', update s x mask <> Ok s') /\ (forall x, normalize s x = Err ValueError) /\
    (forall x s', 0 < n_count x -> merge s x None <> Ok s').
Proof.
  intros HF HL HC. unfold update at 1. cbn [verify new_norm n_dim]. rewrite Nat.eqb_refl. cbn [bind extract]. rewrite HL, Nat.eqb_refl. cbn [negb bind].
  rewrite HC. eexists. split; [reflexivity|]. split; [reflexivity|].
  assert (P : poisoned (with_data (new_norm d minvar clip) (Some (col_sum d (apply_mask m rows))) (Some (col_sum d (map (map nsquare) (apply_mask m rows)))) 0)).
  { split; [cbn; eauto|split; [cbn; eauto|reflexivity]]. }
  split; [|split].
  - intros x mask s'. unfold update. destruct (verify _ x) as [[]|e]; cbn [bind]; [|discriminate].
    destruct (extract _ x mask) as [[[a b] n]|e]; cbn [bind]; [|discriminate]. rewrite (poisoned_accumulate _ _ _ _ P). discriminate.
  - intros x. reflexivity.
  - intros x s' HX. unfold merge. assert (E : 0 <? n_count x = true) by (apply Nat.ltb_lt; auto). rewrite E.
    destruct (negb _); [discriminate|]. destruct (n_sum x) as [a|]; [|discriminate]. destruct (n_sq x) as [b|]; [|discriminate].
    rewrite (poisoned_accumulate _ _ _ _ P). discriminate.
Qed.
Print Assumptions C42_empty_mask_refuted.
(* False: a NaN in a row which the mask excludes makes the mean NaN, for ever. *)
Theorem C42_masked_nan_refuted s (rows : list (list num)) m i j (r : list num) s1 : shaped s -> Forall (fun r => length r = n_dim s) rows ->
  nth_error rows i = Some r -> nth_error m i = Some false -> nth_error r j = Some (None : num) ->
  update s (XBatch (n_dim s) rows) (Some m) = Ok s1 ->
  forall xs s2, Forall (fun p => rows_ok (fst p)) xs ->
    fold_left (fun r p => bind r (fun s => update s (fst p) (snd p))) xs (Ok s1) = Ok s2 ->
    exists mu, mean s2 = Ok mu /\ nth_error mu j = Some None.
Proof.
  intros HS HF Hr Hm Hj U. assert (U0 := U). unfold update in U. destruct (verify s (XBatch (n_dim s) rows)) as [[]|] eqn:HV; [|discriminate]. cbn [bind] in U.
  destruct (extract s (XBatch (n_dim s) rows) (Some m)) as [[[sm sq] n]|] eqn:HE; [|discriminate]. cbn [bind] in U.
  destruct (extract_length _ _ _ _ _ _ HV HF HE) as [L1 L2].
  assert (N1 : nan_at j s1).
  { cbn [extract] in HE. 
    destruct (length m =? length rows) eqn:EL.
    2:{ discriminate HE. } apply Nat.eqb_eq in EL. cbn [negb] in HE.
    inversion HE; subst. apply (accumulate_nan_new j s _ _ _ s1 HS L1) in U; [exact U|]. apply col_sum_nan; [apply apply_mask_rows; auto|].
    apply (apply_mask_nan m rows i j r EL Hr Hj). }
  destruct (update_shaped s (XBatch (n_dim s) rows) (Some m) s1 HS HF U0) as [HS1 _]. clear U0 U HE HV.
  intros xs. revert s1 N1 HS1. induction xs as [|[x k] xs IH]; intros s1 N1 HS1 s2 HX HR; cbn in HR.
  - injection HR as <-. apply nan_mean. exact N1.
  - inversion HX as [|? ? X1 X2]; subst. cbn [fst snd] in *. destruct (update s1 x k) as [s1'|e] eqn:EU.
    + destruct (update_shaped _ _ _ _ HS1 X1 EU) as [HS2 _]. apply (IH s1'); [exact (update_nan_old j s1 x k s1' HS1 X1 N1 EU)|exact HS2|exact X2|exact HR].
    + exfalso. clear -HR. revert HR. assert (ERR : forall l, fold_left (fun r p => bind r (fun s => update s (fst p) (snd p))) l (Err e) = @Err norm e) by (induction l; cbn; auto).
      rewrite ERR. discriminate.
Qed.
Print Assumptions C42_masked_nan_refuted.
Example C42_nan_example : exists s rows m r s1, shaped s /\ Forall (fun r => length r = n_dim s) rows /\
  nth_error rows 1 = Some r /\ nth_error m 1 = Some false /\ nth_error r 0 = Some None /\ update s (XBatch (n_dim s) rows) (Some m) = Ok s1.
Proof.
  exists (new_norm 1 default_minvar None), [[Some 1%R]; [None]], [true; false], [None]. eexists.
  split; [split; discriminate|]. split; [repeat constructor|]. repeat (split; [reflexivity|]). reflexivity.
Qed.
(* False: the array of a first single observation is kept and changed by the next update. *)
Theorem C42_alias_refuted h0 d x y same : x < length h0 -> y < length h0 -> x <> y ->
  length (hread h0 x) = d -> length (hread h0 y) = d ->
  hread (fst (hrun (h0, [new_hnorm d]) [HOne 0 x true; HOne 0 y same])) x = map2 nadd (hread h0 x) (hread h0 y).
Proof.
  intros Hx Hy Hxy Lx Ly. pose (h1 := (h0 ++ [map nsquare (hread h0 x)]) : heap).
  assert (S1 : hstep (h0, [new_hnorm d]) (HOne 0 x true) = Ok (h1, [HNorm d (Some x) (Some (length h0)) 1])).
  { unfold hstep. cbn [nth_error verify]. replace (n_dim (as_norm h0 (new_hnorm d))) with d by reflexivity. rewrite Lx, Nat.eqb_refl. reflexivity. }
  assert (Y1 : hread h1 y = hread h0 y) by (unfold h1; apply hread_app; auto).
  assert (X1 : hread h1 x = hread h0 x) by (unfold h1; apply hread_app; auto).
  assert (L1 : length h1 = length h0 + 1) by (unfold h1; rewrite app_length; reflexivity).
  assert (S2 : exists h' ns', hstep (h1, [HNorm d (Some x) (Some (length h0)) 1]) (HOne 0 y same) = Ok (h', ns') /\ hread h' x = map2 nadd (hread h0 x) (hread h0 y)).
  { unfold hstep. cbn [nth_error verify]. replace (n_dim (as_norm h1 (HNorm d (Some x) (Some (length h0)) 1))) with d by reflexivity.
    rewrite Y1, Ly, Nat.eqb_refl. cbn [bind].
    assert (HP : exists t ay, (if same then (h1, y) else (h1 ++ [hread h0 y], length h1)) = (h1 ++ t, ay) /\ ay < length (h1 ++ t) /\ hread (h1 ++ t) ay = hread h0 y).
    { destruct same; [exists [], y|exists [hread h0 y], (length h1)].
      - rewrite app_nil_r. split; [reflexivity|]. split; [lia|exact Y1].
      - split; [reflexivity|]. split; [rewrite app_length; cbn; lia|apply hread_here]. }
    destruct HP as (t & ay & -> & Hay & Vy). unfold h_accumulate. cbn [h_has_no_data h_has_data h_sum h_sq h_count Nat.ltb Nat.leb bind].
    eexists _, _. split; [reflexivity|].
    rewrite hread_upd_other by lia. rewrite hread_upd_same by (rewrite !app_length; lia).
    rewrite (hread_app (h1 ++ t) _ x) by (rewrite app_length; lia). rewrite (hread_app h1 t x) by lia. rewrite X1.
    rewrite (hread_app (h1 ++ t) _ ay) by auto. rewrite Vy. reflexivity. }
  destruct S2 as (h' & ns' & S2 & V). unfold hrun. cbn [fold_left]. rewrite S1, S2. exact V.
Qed.
Print Assumptions C42_alias_refuted.
Example C42_alias_example : exists (h0 : heap) x y, x < length h0 /\ y < length h0 /\ x <> y /\ length (hread h0 x) = 1 /\ length (hread h0 y) = 1 /\
  map2 nadd (hread h0 x) (hread h0 y) <> hread h0 x.
Proof.
  exists [[Some 1%R]; [Some 2%R]], 0, 1. cbn. repeat (split; [lia|]). unfold nadd, nlift2. intros E. injection E as E. lra.
Qed.
(* True: with real numbers in the masked-out rows, a masked update is an update by the selected rows. *)
Theorem C42_masked_rows_partial s d rows m : Forall (fun r => length r = d) rows -> length m = length rows ->
  update s (XBatch d (map lift rows)) (Some m) = update s (XBatch d (map lift (selected (Some m) rows))) None.
Proof.
  intros HF HL. unfold update. cbn [verify]. destruct (d =? n_dim s); [|reflexivity]. cbn [bind]. rewrite extract_masked; auto.
Qed.
Print Assumptions C42_masked_rows_partial.
(* True: once there are data, an update selecting nothing changes nothing. *)
Theorem C42_empty_mask_partial d minvar clip b s rows mask : well_formed d b -> obs_of b <> [] -> run_build d minvar clip b = Ok s ->
  Forall (fun r => length r = d) rows -> (forall m, mask = Some m -> length m = length rows) -> selected mask rows = [] ->
  update s (XBatch d (map lift rows)) mask = Ok s.
Proof.
  intros W N E HF HM HE. destruct (build_represents d minvar clip b W) as (s' & E' & R). rewrite E in E'. injection E' as <-.
  eapply represents_empty_batch; eauto.
Qed.
Print Assumptions C42_empty_mask_partial.
(* True: unless a first single observation is kept, no operation ever changes an array of the caller, several RunningNorm objects
   do not interfere, and all statistics are those of the arrays as the caller passed them. *)
Theorem C42_callers_arrays_partial h0 dims os : Forall (own_arrays h0) os ->
  (forall pre o post, os = pre ++ o :: post -> no_first_alias (hrun (h0, map new_hnorm dims) pre) o) ->
  let sys := hrun (h0, map new_hnorm dims) os in
  (forall x, x < length h0 -> hread (fst sys) x = hread h0 x) /\
  map (as_norm (fst sys)) (snd sys) = vrun h0 (map (fun d => new_norm d 0%R None) dims) os.
Proof.
  intros HO HA sys. destruct (hrun_sim h0 os (h0, map new_hnorm dims) (sim_init h0 dims) HO HA) as [(_ & R & _) V].
  split; [exact R|]. fold sys in V. rewrite <- V. cbn [fst snd]. rewrite map_map. reflexivity.
Qed.
Print Assumptions C42_callers_arrays_partial.
Example C42_arrays_example : exists (h0 : heap) os, length os = 4 /\ Forall (own_arrays h0) os /\
  (forall pre o post, os = pre ++ o :: post -> no_first_alias (hrun (h0, map new_hnorm [1; 1]) pre) o) /\
  In (HOne 0 1 true) os.
Proof.
  exists [[Some 1%R]; [Some 2%R]], [HBatch 0 [0; 1] None; HOne 0 1 true; HMerge 1 0; HOne 1 0 true].
  split; [reflexivity|]. split; [repeat constructor; cbn; lia|]. split; [|cbn; auto].
  intros pre o post E. destruct pre as [|p1 [|p2 [|p3 [|p4 pre]]]]; cbn [app] in E; inversion E; subst.
  - exact I.
  - intros s HS. cbn in HS. injection HS as <-. reflexivity.
  - exact I.
  - intros s HS. cbn in HS. injection HS as <-. reflexivity.
  - destruct pre; discriminate.
Qed.

(* ---- C102: normalization ---- *)
(* the value of every component, for every clip interval and every minimum variance > 0 *)
Theorem C102_normalize d minvar clip b s x : well_formed d b -> obs_of b <> [] -> run_build d minvar clip b = Ok s -> (0 < minvar)%R -> length x = d ->
  normalize s (XOne (lift x)) = Ok (XOne (lift (map (fun j =>
    let z := ((nth j x 0 - avg (column j (obs_of b))) / sqrt (Rmax (variance (column j (obs_of b))) minvar))%R in
    match clip with None => z | Some (lo, hi) => Rmin (Rmax z lo) hi end) (seq 0 d)))).
Proof.
  intros W N E HM HL. destruct (build_represents d minvar clip b W) as (s' & E' & R). rewrite E in E'. injection E' as <-.
  pose proof (represents_count _ _ _ _ _ R) as HC. pose proof (represents_dim _ _ _ _ _ R) as HD.
  unfold normalize. destruct (n_count s =? 0) eqn:E0; [apply Nat.eqb_eq in E0; rewrite HC in E0; destruct (obs_of b); [congruence|discriminate]|].
  cbn [verify]. rewrite lift_length, HL, HD, Nat.eqb_refl. cbn [bind].
  destruct (stats_represents _ _ _ _ _ R N) as (-> & _). cbn [bind normalize_input].
  assert (B : n_lb s = option_map fst clip /\ n_ub s = option_map snd clip) by (red in R; subst s; destruct (length (obs_of b) =? 0); auto).
  destruct B as [-> ->]. rewrite normalize_row_spec by auto. do 3 f_equal. apply map_ext. intros j. unfold norm_value.
  destruct clip as [[lo hi]|]; reflexivity.
Qed.
Print Assumptions C102_normalize.
(* the collected data themselves get mean 0, and variance 1 where the variance is not below the minimum *)
Theorem C102_standardizes d minvar b j : well_formed d b -> obs_of b <> [] -> (0 < minvar)%R ->
  let sd := sqrt (Rmax (variance (column j (obs_of b))) minvar) in
  let z := map (fun v => (v - avg (column j (obs_of b))) / sd)%R (column j (obs_of b)) in
  avg z = 0%R /\ (variance z <= 1)%R /\ ((minvar <= variance (column j (obs_of b)))%R -> variance z = 1%R).
Proof.
  intros W N HM sd z. assert (NC : column j (obs_of b) <> []) by (destruct (obs_of b); [congruence|discriminate]).
  pose proof (stdev_pos minvar (column j (obs_of b)) HM) as HS. fold sd in HS.
  assert (SQ : (sd * sd = Rmax (variance (column j (obs_of b))) minvar)%R).
  { apply sqrt_sqrt. apply Rle_trans with minvar; [lra|apply Rmax_r]. }
  assert (VZ : variance z = (variance (column j (obs_of b)) / Rmax (variance (column j (obs_of b))) minvar)%R).
  { unfold z. rewrite variance_affine, SQ by auto. reflexivity. }
  assert (P : (0 < Rmax (variance (column j (obs_of b))) minvar)%R) by (apply Rlt_le_trans with minvar; [auto|apply Rmax_r]).
  split; [|split].
  - unfold z. rewrite avg_affine by auto. unfold Rdiv. rewrite Rminus_diag_eq by reflexivity. apply Rmult_0_l.
  - rewrite VZ. apply Rmult_le_reg_r with (Rmax (variance (column j (obs_of b))) minvar); auto. unfold Rdiv. rewrite Rmult_assoc, Rinv_l, Rmult_1_r, Rmult_1_l by lra. apply Rmax_l.
  - intros HV. rewrite VZ, Rmax_left by auto. apply Rinv_r. lra.
Qed.
Print Assumptions C102_standardizes.
(* the layer made from the statistics computes the same, also for NaN inputs and rows of any batch *)
Theorem C102_layer s x y : normalize s (XOne x) = Ok (XOne y) -> exists l, to_layer s = Ok l /\ layer_forward l x = y.
Proof.
  unfold normalize, to_layer. destruct (n_count s =? 0); [discriminate|]. destruct (verify s (XOne x)); [|discriminate]. cbn [bind].
  destruct (stats s) as [[m sd]|]; [|discriminate]. cbn. intros E. injection E as <-. eexists. split; reflexivity.
Qed.
Print Assumptions C102_layer.
(* a batch is normalized row by row *)
Theorem C102_batch s w rows y : normalize s (XBatch w rows) = Ok y -> exists ys, y = XBatch w ys /\ length ys = length rows /\
  forall i r r', nth_error rows i = Some r -> nth_error ys i = Some r' -> length r = n_dim s -> normalize s (XOne r) = Ok (XOne r').
Proof.
  unfold normalize. destruct (n_count s =? 0); [discriminate|]. cbn [verify]. destruct (w =? n_dim s) eqn:EW; [|discriminate]. cbn [bind].
  destruct (stats s) as [[m sd]|]; [|discriminate]. cbn [bind normalize_input]. intros E. apply (f_equal (fun r => match r with Ok a => a | Err _ => y end)) in E. subst y.
  eexists. split; [reflexivity|]. split; [apply map_length|]. intros i r r' Hr Hr' HL. rewrite nth_error_map, Hr in Hr'. cbn in Hr'. injection Hr' as <-.
  rewrite HL, Nat.eqb_refl. reflexivity.
Qed.
Print Assumptions C102_batch.
(* update_and_normalize is update followed by normalize *)
Theorem C102_update_and_normalize s x mask s' y : update_and_normalize s x mask = (s', Ok y) ->
  update s x mask = Ok s' /\ normalize s' x = Ok y.
Proof.
  unfold update_and_normalize, update, normalize. destruct (verify s x) as [[]|] eqn:EV; cbn [bind]; [|discriminate].
  destruct (extract s x mask) as [[[sm sq] n]|] eqn:EX; cbn [bind]; [|discriminate].
  destruct (accumulate s sm sq n) as [k|] eqn:EA; [|discriminate]. intros E. injection E as E1 E2. subst k. split; [reflexivity|].
  destruct (n_count s' =? 0); [discriminate|].
  assert (HD : n_dim s' = n_dim s).
  { unfold accumulate in EA. destruct (has_no_data s); [injection EA as <-; reflexivity|]. destruct (has_data s); [|discriminate].
    destruct (n_sum s); [|discriminate]. destruct (n_sq s); [|discriminate]. injection EA as <-. reflexivity. }
  assert (EV' : verify s' x = Ok tt) by (rewrite <- EV; destruct x; cbn [verify]; rewrite ?HD; reflexivity).
  rewrite EV'. exact E2.
Qed.
Print Assumptions C102_update_and_normalize.
Example C102_example : exists b s, well_formed 1 b /\ obs_of b <> [] /\ run_build 1 default_minvar (Some (-1, 1)%R) b = Ok s /\ (0 < default_minvar)%R.
Proof.
  exists (BBatch BNew [[1]; [3]]%R None). eexists. split; [|split; [discriminate|split; [reflexivity|]]].
  - cbn. split; [auto|]. split; [repeat constructor|]. split; [discriminate|]. right. discriminate.
  - unfold default_minvar. lra.
Qed.

(* ---- C47: observation statistics across actors ---- *)
Theorem C47_statistics d n os : Forall (op_ok n d) os ->
  exists sys, g_history n (map lift_op os) = Ok sys /\ stats_are d (g_stats (fst sys)) (all_obs os).
Proof.
  intros HF. destruct (history_repr d n os HF) as (sys & cs & E & (R & _) & _). exists sys. split; auto. apply rs_repr_stats. exact R.
Qed.
Print Assumptions C47_statistics.
(* it does not matter which actor, or how many actors, did what *)
Theorem C47_distribution d n k os os' : Forall (op_ok n d) os -> Forall (op_ok k d) os' -> Permutation (all_obs os) (all_obs os') ->
  exists sys sys', g_history n (map lift_op os) = Ok sys /\ g_history k (map lift_op os') = Ok sys' /\ g_stats (fst sys) = g_stats (fst sys').
Proof.
  intros HF HF' P. destruct (history_repr d n os HF) as (sys & cs & E & (R & _) & _). destruct (history_repr d k os' HF') as (sys' & cs' & E' & (R' & _) & _).
  exists sys, sys'. split; auto. split; auto. unfold rs_repr in R, R'. destruct (g_stats (fst sys)) as [s|], (g_stats (fst sys')) as [t|]; auto.
  - f_equal. destruct R as [_ R], R' as [_ R']. eapply represents_perm; eauto.
  - rewrite R' in P. apply Permutation_sym, Permutation_nil in P. destruct R; congruence.
  - rewrite R in P. apply Permutation_nil in P. destruct R'; congruence.
Qed.
Print Assumptions C47_distribution.
(* VecGymNE: true if nobody is idle in any round *)
Theorem C47_vectorized_partial d n rounds : Forall (vround_ok n d) rounds -> Forall nobody_idle rounds ->
  exists sys, v_history d n (map (map lift_vwork) rounds) = Ok sys /\
    stats_are d (v_stats (fst sys)) (concat (map (fun works => concat (map (@concat (list R)) works)) rounds)).
Proof.
  intros HF HI. destruct (v_history_repr d n rounds HF HI) as (sys & E & (R & _)). exists sys. split; auto. apply rs_repr_stats. exact R.
Qed.
Print Assumptions C47_vectorized_partial.
(* False otherwise: once the main problem has statistics, an idle actor makes the evaluation fail *)
Theorem C47_idle_actor_refuted d n rounds works k : Forall (vround_ok n d) rounds -> Forall nobody_idle rounds -> rounds <> [] -> 0 < n ->
  length works = n -> nth_error works k = Some [] ->
  exists e, v_history d n (map (map lift_vwork) rounds ++ [works]) = Err e.
Proof.
  intros HF HI HN H0 HL HK. destruct (v_history_repr d n rounds HF HI) as ([m a] & E & (R & A & L)). cbn [fst snd] in *.
  unfold v_history in *. rewrite fold_left_app, E. cbn [fold_left bind].
  destruct (v_stats m) as [s|] eqn:ES.
  - apply (idle_round d m a works s k ES A); auto. lia.
  - exfalso. destruct rounds as [|r rounds]; [congruence|]. inversion HF as [|? ? [L1 F1] F2]; subst. inversion HI as [|? ? I1 I2]; subst.
    cbn [map concat] in R. apply app_eq_nil in R. destruct R as [R _]. destruct r as [|b r]; [cbn in L1; lia|].
    inversion I1 as [|? ? I3 I4]; subst. inversion F1 as [|? ? F3 F4]; subst. cbn [map concat] in R. apply app_eq_nil in R. destruct R as [R _].
    destruct b as [|rows b]; [apply I3; reflexivity|]. inversion F3 as [|? ? [N _] _]; subst. cbn [concat] in R. apply app_eq_nil in R. destruct R as [R _]. apply N. exact R.
Qed.
Print Assumptions C47_idle_actor_refuted.
Example C47_example : exists os, Forall (op_ok 2 1) os /\ length (all_obs os) = 5 /\ all_steps os = 2.
Proof.
  exists [RRound [[([1]%R, [[2]%R; [3]%R])]; []]; RRun [([4]%R, [[5]%R])]].
  split; [|split; reflexivity]. repeat constructor.
Qed.
Example C47_vectorized_example : exists rounds works, Forall (vround_ok 2 1) rounds /\ Forall nobody_idle rounds /\ rounds <> [] /\
  length (works : list (list (list (list num)))) = 2 /\ nth_error works 1 = Some [].
Proof.
  exists [[ [[[1]%R; [2]%R]]; [[[3]%R]] ]], [ [[[Some 1%R]]]; [] ].
  split; [repeat constructor; discriminate|]. split; [repeat constructor; discriminate|]. split; [discriminate|]. split; reflexivity.
Qed.

(* ---- C103: restoring observation statistics ---- *)
(* get_observation_stats returns the live object; setting it again (for instance to restore it later) erases the statistics. *)
Theorem C103_own_stats_refuted (store : list rstat) own r : nth_error store own = Some r ->
  exists store', set_observation_stats store own own = Ok store' /\ nth_error store' own = Some None.
Proof.
  intros H. assert (L : own < length store) by (apply nth_error_Some; congruence). unfold set_observation_stats.
  rewrite nth_upd_same by auto. cbn. eexists. split; [reflexivity|]. apply nth_upd_same. rewrite upd_len. exact L.
Qed.
Print Assumptions C103_own_stats_refuted.
(* True for another object: its statistics are taken over, and it stays as it is. *)
Theorem C103_other_stats_partial (store : list rstat) own arg (r : rstat) s : own <> arg -> own < length store -> nth_error store arg = Some r ->
  r = Some s -> 0 < n_count s ->
  exists store', set_observation_stats store own arg = Ok store' /\ nth_error store' own = Some r /\ nth_error store' arg = Some r /\
    (forall k, k <> own -> nth_error store' k = nth_error store k).
Proof.
  intros HN HL HA -> HC. unfold set_observation_stats. rewrite nth_upd_same, nth_upd_other, HA by auto. unfold rs_merge. cbn [rs_count].
  assert (E : 0 <? n_count s = true) by (apply Nat.ltb_lt; auto). rewrite E. cbn [rmap]. eexists. split; [reflexivity|].
  split; [apply nth_upd_same; rewrite upd_len; auto|]. split; [rewrite !nth_upd_other by auto; auto|]. intros k Hk. rewrite !nth_upd_other by auto. reflexivity.
Qed.
Print Assumptions C103_other_stats_partial.
Example C103_example : exists store s, nth_error store 0 = Some (Some s) /\ n_count s = 2 /\ nth_error store 1 = Some None.
Proof. exists [Some (Norm 1 (Some [Some 3%R]) (Some [Some 5%R]) 2 default_minvar None None); None]. eexists. split; [reflexivity|]. auto. Qed.

(* ---- C104: interaction and episode counters ---- *)
(* after a parallel evaluation the counters are the totals of all parallel evaluations *)
Theorem C104_counters_partial d n os works : Forall (op_ok n d) (os ++ [RRound works]) ->
  exists sys, g_history n (map lift_op (os ++ [RRound works])) = Ok sys /\
    g_interactions (fst sys) = all_steps (os ++ [RRound works]) /\ g_episodes (fst sys) = all_episodes (os ++ [RRound works]).
Proof.
  intros HF. destruct (history_repr d n _ HF) as (sys & cs & E & _ & _ & _ & T & _). exists sys. split; auto. apply (T os works eq_refl).
Qed.
Print Assumptions C104_counters_partial.
(* False: steps made by the main problem itself are forgotten at the next parallel evaluation; the counter can even decrease. *)
Theorem C104_run_forgotten_refuted d n os es works : Forall (op_ok n d) (os ++ [RRun es; RRound works]) ->
  list_sum (map eps_steps works) < eps_steps es -> (exists pre w, os = pre ++ [RRound w]) ->
  exists sys sys', g_history n (map lift_op (os ++ [RRun es])) = Ok sys /\ g_history n (map lift_op (os ++ [RRun es; RRound works])) = Ok sys' /\
    g_interactions (fst sys') < g_interactions (fst sys).
Proof.
  intros HF HLT (pre & w & ->).
  assert (HF1 : Forall (op_ok n d) ((pre ++ [RRound w]) ++ [RRun es])).
  { apply Forall_app in HF. destruct HF as [A B]. apply Forall_app. split; auto. inversion B; subst. constructor; auto. }
  assert (HF0 : Forall (op_ok n d) (pre ++ [RRound w])) by (apply Forall_app in HF; apply HF).
  destruct (history_repr d n _ HF0) as (sys0 & _ & E0 & _ & _ & _ & T0 & _). destruct (T0 pre w eq_refl) as [I0 _].
  destruct (history_repr d n _ HF1) as (sys & _ & E & _ & _ & _ & _ & T). destruct (T _ es eq_refl) as (sys0' & E0' & I1).
  rewrite E0 in E0'. injection E0' as <-.
  replace ((pre ++ [RRound w]) ++ [RRun es; RRound works]) with (((pre ++ [RRound w]) ++ [RRun es]) ++ [RRound works]) in * by (rewrite <- app_assoc; reflexivity).
  destruct (history_repr d n _ HF) as (sys' & _ & E' & _ & _ & _ & T' & _). destruct (T' _ works eq_refl) as [I' _].
  exists sys, sys'. split; auto. split; auto. rewrite I', I1, I0. unfold all_steps. rewrite !map_app, !list_sum_app. cbn [map list_sum fold_right]. lia.
Qed.
Print Assumptions C104_run_forgotten_refuted.
Example C104_example : exists os es works, Forall (op_ok 1 1) (os ++ [RRun es; RRound works]) /\ list_sum (map eps_steps works) < eps_steps es /\
  (exists pre w, os = pre ++ [RRound w]).
Proof.
  exists [RRound [[([1]%R, [[2]%R])]]], [([1]%R, [[2]%R; [3]%R; [4]%R])], [[([5]%R, [[6]%R])]].
  split; [repeat constructor|]. split; [cbn; lia|]. exists []. eexists. reflexivity.
Qed.

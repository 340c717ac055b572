(* Lemmas about running statistics. *)
From Coq Require Import Reals Lra.
From Verif Require Import Prelude NormModel NormSpec.
Close Scope R_scope.
Open Scope nat_scope.

Lemma total_app l k : total (l ++ k) = (total l + total k)%R.
Proof. unfold total. induction l as [|a l IH]; cbn; [lra|]. rewrite IH. lra. Qed.
Lemma total_cons a l : total (a :: l) = (a + total l)%R.
Proof. reflexivity. Qed.
Lemma total_perm l k : Permutation l k -> total l = total k.
Proof. induction 1; rewrite ?total_cons; try lra; auto. Qed.
Lemma column_app j a b : column j (a ++ b) = column j a ++ column j b.
Proof. apply map_app. Qed.
Lemma column_perm j a b : Permutation a b -> Permutation (column j a) (column j b).
Proof. apply Permutation_map. Qed.

Lemma map2_map_map {A B C D} (f : A -> B -> C) (g : D -> A) (k : D -> B) l :
  map2 f (map g l) (map k l) = map (fun x => f (g x) (k x)) l.
Proof. induction l as [|a l IH]; cbn; [|rewrite IH]; reflexivity. Qed.

Definition sums (d : nat) (os : obs) : list num := map (fun j => Some (total (column j os))) (seq 0 d).
Definition sumsqs (d : nat) (os : obs) : list num :=
  map (fun j => Some (total (map (fun x => x * x)%R (column j os)))) (seq 0 d).

Lemma sums_app d a b : map2 nadd (sums d a) (sums d b) = sums d (a ++ b).
Proof. unfold sums. rewrite map2_map_map. apply map_ext. intros j. cbn. rewrite column_app, total_app. reflexivity. Qed.
Lemma sumsqs_app d a b : map2 nadd (sumsqs d a) (sumsqs d b) = sumsqs d (a ++ b).
Proof. unfold sumsqs. rewrite map2_map_map. apply map_ext. intros j. cbn. rewrite column_app, map_app, total_app. reflexivity. Qed.

Lemma row_seq (x : list R) : x = map (fun j => nth j x 0%R) (seq 0 (length x)).
Proof.
  induction x as [|a x IH]; cbn; auto. f_equal. rewrite IH at 1. rewrite <- seq_shift, map_map. reflexivity.
Qed.
Lemma lift_sums d x : length x = d -> lift x = sums d [x].
Proof.
  intros <-. unfold lift, sums. rewrite (row_seq x) at 1. rewrite map_map. apply map_ext. intros j. cbn. f_equal. lra.
Qed.
Lemma square_lift x : map nsquare (lift x) = map Some (map (fun v => v * v)%R x).
Proof. unfold lift. rewrite !map_map. reflexivity. Qed.
Lemma nth_square j (r : list R) : nth j (map (fun v => v * v)%R r) 0%R = (nth j r 0 * nth j r 0)%R.
Proof. revert j. induction r as [|a r IH]; intros [|j]; cbn; auto; lra. Qed.
Lemma lift_sumsqs d x : length x = d -> map nsquare (lift x) = sumsqs d [x].
Proof.
  intros H. rewrite square_lift. change (map Some ?l) with (lift l). rewrite (lift_sums d) by (rewrite map_length; auto).
  unfold sums, sumsqs. apply map_ext_in. intros j Hj. apply in_seq in Hj. cbn. do 2 f_equal.
  apply nth_square.
Qed.

Lemma fold_sums d rows : forall acc, Forall (fun r => length r = d) rows ->
  fold_left (map2 nadd) (map lift rows) (sums d acc) = sums d (acc ++ rows).
Proof.
  induction rows as [|r rows IH]; intros acc HF; cbn; [rewrite app_nil_r; reflexivity|].
  inversion HF as [|? ? A B]; subst. rewrite (lift_sums (length r) r eq_refl), sums_app, IH, <- app_assoc by auto. reflexivity.
Qed.
Lemma repeat_seq {A} (a : A) n : forall k, repeat a n = map (fun _ => a) (seq k n).
Proof. induction n as [|n IH]; intros k; cbn; [|rewrite (IH (S k))]; reflexivity. Qed.
Lemma col_sum_sums d rows : Forall (fun r => length r = d) rows -> col_sum d (map lift rows) = sums d rows.
Proof.
  intros HF. unfold col_sum. replace (repeat (Some 0%R) d) with (sums d []).
  - apply fold_sums; auto.
  - unfold sums. cbn. symmetry. apply repeat_seq.
Qed.
Lemma fold_sumsqs d rows : forall acc, Forall (fun r => length r = d) rows ->
  fold_left (map2 nadd) (map (map nsquare) (map lift rows)) (sumsqs d acc) = sumsqs d (acc ++ rows).
Proof.
  induction rows as [|r rows IH]; intros acc HF; cbn; [rewrite app_nil_r; reflexivity|].
  inversion HF as [|? ? A B]; subst. rewrite (lift_sumsqs (length r) r eq_refl), sumsqs_app, IH, <- app_assoc by auto. reflexivity.
Qed.
Lemma col_sum_sumsqs d rows : Forall (fun r => length r = d) rows ->
  col_sum d (map (map nsquare) (map lift rows)) = sumsqs d rows.
Proof.
  intros HF. unfold col_sum. replace (repeat (Some 0%R) d) with (sumsqs d []).
  - apply fold_sumsqs; auto.
  - unfold sumsqs. cbn. symmetry. apply repeat_seq.
Qed.

(* masks *)
Definition masked (m : list bool) (rows : obs) : obs := map2 (fun (b : bool) r => map (Rmult (if b then 1 else 0)) r) m rows.
Lemma apply_mask_lift m rows : apply_mask m (map lift rows) = map lift (masked m rows).
Proof.
  unfold apply_mask, masked. revert m. induction rows as [|r rows IH]; intros [|b m]; cbn; auto. rewrite IH. f_equal.
  unfold lift. rewrite !map_map. reflexivity.
Qed.
Lemma masked_rows d m rows : Forall (fun r => length r = d) rows -> Forall (fun r => length r = d) (masked m rows).
Proof.
  unfold masked. intros HF. revert m. induction HF as [|r rows A B IH]; intros [|b m]; cbn; auto.
  constructor; auto. rewrite map_length. exact A.
Qed.
Lemma nth_scale k j (r : list R) : nth j (map (Rmult k) r) 0%R = (k * nth j r 0)%R.
Proof.
  revert j. induction r as [|a r IH]; intros [|j]; cbn; auto; lra.
Qed.
Lemma masked_total (f : R -> R) j : f 0%R = 0%R -> forall m rows, length m = length rows ->
  total (map f (column j (masked m rows))) = total (map f (column j (selected (Some m) rows))).
Proof.
  intros F0. unfold masked, column. cbn [selected]. induction m as [|b m IH]; intros [|r rows] HL; try discriminate; auto.
  cbn [map2 map combine filter fst snd]. rewrite nth_scale. destruct b; cbn [map fst snd]; rewrite ?total_cons, IH by (cbn in HL; lia).
  - rewrite Rmult_1_l. reflexivity.
  - rewrite Rmult_0_l, F0. lra.
Qed.
Lemma sums_masked d m rows : length m = length rows -> sums d (masked m rows) = sums d (selected (Some m) rows).
Proof.
  intros H. unfold sums. apply map_ext. intros j. f_equal. generalize (masked_total (fun x => x) j eq_refl m rows H). rewrite !map_id. auto.
Qed.
Lemma sumsqs_masked d m rows : length m = length rows -> sumsqs d (masked m rows) = sumsqs d (selected (Some m) rows).
Proof.
  intros H. unfold sumsqs. apply map_ext. intros j. f_equal. apply masked_total; auto. lra.
Qed.
Lemma count_selected {A} m (rows : list A) : length m = length rows -> count_true m = length (selected (Some m) rows).
Proof.
  unfold count_true. cbn [selected]. rewrite map_length. revert rows. induction m as [|b m IH]; intros [|r rows] H; try discriminate; auto.
  cbn in *. destruct b; cbn; rewrite (IH rows) by lia; reflexivity.
Qed.
Lemma selected_rows {A} (P : A -> Prop) mask rows : Forall P rows -> Forall P (selected mask rows).
Proof.
  intros HF. destruct mask as [m|]; [|exact HF]. cbn. apply Forall_forall. intros x Hx. apply in_map_iff in Hx.
  destruct Hx as ((b, y) & <- & Hy). apply filter_In in Hy. destruct Hy as [Hy _]. apply in_combine_r in Hy.
  apply (proj1 (Forall_forall _ _) HF). exact Hy.
Qed.

(* the stored data are those of the observations *)
Definition represents (d : nat) (minvar : R) (clip : option (R * R)) (s : norm) (os : obs) : Prop :=
  s = (if length os =? 0 then new_norm d minvar clip
       else Norm d (Some (sums d os)) (Some (sumsqs d os)) (length os) minvar (option_map fst clip) (option_map snd clip)).

Lemma represents_new d mv c : represents d mv c (new_norm d mv c) [].
Proof. reflexivity. Qed.
Lemma represents_reset d mv c s os : represents d mv c s os -> represents d mv c (reset s) [].
Proof. intros H. red in H. subst s. destruct (length os =? 0); reflexivity. Qed.
Lemma represents_dim d mv c s os : represents d mv c s os -> n_dim s = d.
Proof. intros H. red in H. subst s. destruct (length os =? 0); reflexivity. Qed.
Lemma represents_count d mv c s os : represents d mv c s os -> n_count s = length os.
Proof. intros H. red in H. subst s. destruct (length os =? 0) eqn:E; cbn; auto. apply Nat.eqb_eq in E. auto. Qed.

Lemma accumulate_represents d mv c s os new : represents d mv c s os -> (os <> [] \/ new <> []) ->
  exists s', accumulate s (sums d new) (sumsqs d new) (length new) = Ok s' /\ represents d mv c s' (os ++ new).
Proof.
  intros H HN. red in H. destruct os as [|o os].
  - cbn in H. subst s. destruct HN as [N|N]; [congruence|]. eexists. split; [reflexivity|]. red. cbn [app].
    destruct new; [congruence|]. reflexivity.
  - cbn [length Nat.eqb] in H. subst s. eexists. split.
    + unfold accumulate. cbn [has_no_data has_data n_sum n_sq n_count Nat.ltb Nat.leb]. reflexivity.
    + red. cbn [app length Nat.eqb]. unfold with_data. cbn [n_sum n_sq n_count n_dim n_minvar n_lb n_ub].
      rewrite sums_app, sumsqs_app. rewrite app_length. reflexivity.
Qed.
Lemma update_one d mv c s os x : represents d mv c s os -> length x = d ->
  exists s', update s (XOne (lift x)) None = Ok s' /\ represents d mv c s' (os ++ [x]).
Proof.
  intros H HL. pose proof (represents_dim _ _ _ _ _ H) as Hd. unfold update. cbn [verify]. unfold lift at 1. rewrite map_length, Hd, HL, Nat.eqb_refl.
  cbn [bind extract]. rewrite (lift_sumsqs d x HL), (lift_sums d x HL). apply accumulate_represents; auto. right. discriminate.
Qed.
Lemma update_batch d mv c s os rows mask : represents d mv c s os -> Forall (fun r => length r = d) rows ->
  (forall m, mask = Some m -> length m = length rows) -> (os <> [] \/ selected mask rows <> []) ->
  exists s', update s (XBatch d (map lift rows)) mask = Ok s' /\ represents d mv c s' (os ++ selected mask rows).
Proof.
  intros H HF HM HN. pose proof (represents_dim _ _ _ _ _ H) as Hd. unfold update. cbn [verify]. rewrite Hd, Nat.eqb_refl. cbn [bind extract].
  destruct mask as [m|].
  - rewrite map_length, (HM m eq_refl), Nat.eqb_refl. cbn [negb]. cbn [bind].
    rewrite apply_mask_lift, col_sum_sums, col_sum_sumsqs by (apply masked_rows; auto).
    rewrite sums_masked, sumsqs_masked, (count_selected m rows) by auto.
    apply accumulate_represents; auto.
  - rewrite col_sum_sums, col_sum_sumsqs, map_length by auto. apply accumulate_represents; auto.
Qed.
Lemma merge_represents d mv c s os x ox : represents d mv c s os -> represents d mv c x ox ->
  exists s', merge s x None = Ok s' /\ represents d mv c s' (os ++ ox).
Proof.
  intros H Hx. pose proof (represents_dim _ _ _ _ _ H) as Hd. red in Hx. unfold merge. destruct ox as [|o ox].
  - cbn in Hx. subst x. cbn. exists s. rewrite app_nil_r. auto.
  - cbn [length Nat.eqb] in Hx. subst x. cbn [n_count n_dim n_sum n_sq Nat.ltb Nat.leb]. rewrite Hd, Nat.eqb_refl. cbn [negb].
    apply (accumulate_represents d mv c s os (o :: ox)); auto. right. discriminate.
Qed.
Lemma build_represents d mv c b : well_formed d b ->
  exists s, run_build d mv c b = Ok s /\ represents d mv c s (obs_of b).
Proof.
  induction b as [|b IH x|b IH rows mask|b IH k IH2|b IH]; cbn [well_formed run_build obs_of].
  - intros _. eexists. split; [reflexivity|]. reflexivity.
  - intros [H HL]. destruct (IH H) as (s & -> & R). cbn [bind]. apply update_one; auto.
  - intros (H & HF & HM & HN). destruct (IH H) as (s & -> & R). cbn [bind]. apply update_batch; auto.
  - intros (H & H2). destruct (IH H) as (s & -> & R). destruct (IH2 H2) as (s2 & -> & R2). cbn [bind]. apply merge_represents; auto.
  - intros H. destruct (IH H) as (s & -> & R). cbn. eexists. split; [reflexivity|]. eapply represents_reset; eauto.
Qed.

(* mean and variance *)
Lemma avg_shift_total l a : total (map (fun x => (x - a) * (x - a))%R l) = (total (map (fun x => x * x) l) - 2 * a * total l + INR (length l) * (a * a))%R.
Proof.
  induction l as [|x l IH]; cbn [map length]; [cbn; lra|]. rewrite !total_cons, IH, S_INR. lra.
Qed.
Lemma variance_moments l : l <> [] ->
  variance l = (total (map (fun x => x * x) l) / INR (length l) - avg l * avg l)%R.
Proof.
  intros H. unfold variance. unfold avg at 1. rewrite map_length, avg_shift_total. unfold avg.
  assert (0 < INR (length l))%R by (apply lt_0_INR; destruct l; [congruence|cbn; lia]). field. lra.
Qed.
Lemma variance_nonneg l : (0 <= variance l)%R.
Proof.
  unfold variance. unfold avg at 1. rewrite map_length.
  assert (HT : forall a k, (0 <= total (map (fun x => (x - a) * (x - a)) k))%R).
  { intros a k. induction k as [|x k IH]; [cbn; lra|]. cbn [map]. rewrite total_cons.
    assert (S0 : (0 <= (x - a) * (x - a))%R) by apply Rle_0_sqr. lra. }
  destruct l as [|x l]; [cbn; unfold Rdiv; lra|].
  assert (0 < INR (length (x :: l)))%R by (apply lt_0_INR; cbn; lia).
  unfold Rdiv. apply Rmult_le_pos; [apply HT|]. left. apply Rinv_0_lt_compat. auto.
Qed.
Lemma variance_perm l k : Permutation l k -> variance l = variance k.
Proof.
  intros H. unfold variance, avg. rewrite !map_length, (Permutation_length H), (total_perm l k H).
  f_equal. apply total_perm. apply Permutation_map. exact H.
Qed.
Lemma column_length j (os : obs) : length (column j os) = length os.
Proof. apply map_length. Qed.

Lemma stats_represents d mv c s os : represents d mv c s os -> os <> [] ->
  stats s = Ok (spec_mean d os, spec_stdev d mv os) /\ mean s = Ok (spec_mean d os) /\ stdev s = Ok (spec_stdev d mv os).
Proof.
  intros H HN. red in H. destruct (length os =? 0) eqn:E; [destruct os; [congruence|discriminate]|].
  apply Nat.eqb_neq in E. subst s.
  assert (P : (INR (length os) <> 0)%R) by (apply not_0_INR; auto).
  assert (M : map (fun v => ndiv v (Some (INR (length os)))) (sums d os) = spec_mean d os).
  { unfold sums, spec_mean. rewrite map_map. apply map_ext. intros j. cbn. destruct (Req_EM_T (INR (length os)) 0); [congruence|].
    unfold avg. rewrite column_length. reflexivity. }
  assert (S1 : stats (Norm d (Some (sums d os)) (Some (sumsqs d os)) (length os) mv (option_map fst c) (option_map snd c)) = Ok (spec_mean d os, spec_stdev d mv os)).
  { unfold stats. cbn [n_sum n_sq n_minvar]. unfold count_num. cbn [n_count]. rewrite M. do 2 f_equal.
    unfold sumsqs, spec_mean, spec_stdev. rewrite !map_map, map2_map_map, map_map. apply map_ext. intros j. cbn.
    destruct (Req_EM_T (INR (length os)) 0); [congruence|]. cbn. do 3 f_equal.
    rewrite variance_moments, column_length; auto. destruct os; [congruence|discriminate]. }
  split; [exact S1|]. split.
  - unfold mean. cbn [n_sum]. unfold count_num. cbn [n_count]. rewrite M. reflexivity.
  - unfold stdev. rewrite S1. reflexivity.
Qed.

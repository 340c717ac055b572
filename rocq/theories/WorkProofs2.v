From Coq Require Import QArith Lqa.
From Verif Require Import Prelude WorkModel WorkSpec WorkProofs.
Close Scope Q_scope.
Open Scope nat_scope.

(* ------------------------------------------------------------------ averaging *)
Lemma nth_map2 {A B C} (f : A -> B -> C) xs ys i dx dy d :
  i < length xs -> i < length ys -> nth i (map2 f xs ys) d = f (nth i xs dx) (nth i ys dy).
Proof.
  revert ys i; induction xs as [|x xs IH]; intros [|y ys] [|i] H1 H2; cbn in *; try lia; auto. apply IH; lia.
Qed.

Lemma shaped_nth nkeys L g a : grads_shaped nkeys L g -> a < nkeys -> length (nth a g []) = L.
Proof. intros [H1 H2] Ha. rewrite Forall_forall in H2. apply H2. apply nth_In. lia. Qed.

Lemma shaped_step nkeys L w acc g : grads_shaped nkeys L acc -> grads_shaped nkeys L g ->
  grads_shaped nkeys L (map2 (map2 (fun x y => (x + w * y)%Q)) acc g).
Proof.
  intros [A1 A2] [B1 B2]. split; [rewrite map2_length; lia|].
  clear A1 B1. revert g B2. induction acc as [|x acc IH]; intros [|y g] B2; cbn; constructor.
  - inversion A2; inversion B2; subst. rewrite map2_length. lia.
  - inversion A2; inversion B2; subst. auto.
Qed.

Lemma comp_step nkeys L w acc g a c : grads_shaped nkeys L acc -> grads_shaped nkeys L g ->
  a < nkeys -> c < L ->
  comp a c (map2 (map2 (fun x y => (x + w * y)%Q)) acc g) = (comp a c acc + w * comp a c g)%Q.
Proof.
  intros HA HB Ha Hc. unfold comp.
  rewrite (nth_map2 _ acc g a [] [] []) by (destruct HA, HB; lia).
  rewrite (nth_map2 _ _ _ c 0%Q 0%Q 0%Q); [reflexivity| |]; erewrite shaped_nth; eauto.
Qed.

Lemma avg_fold nkeys L (w : fetched -> Q) a c fs : a < nkeys -> c < L ->
  Forall (fun f => grads_shaped nkeys L (f_grads f)) fs -> forall acc, grads_shaped nkeys L acc ->
  (comp a c (fold_left (fun acc f => map2 (map2 (fun x g => (x + w f * g)%Q)) acc (f_grads f)) fs acc)
   == comp a c acc + qsum (map (fun f => w f * comp a c (f_grads f)) fs))%Q.
Proof.
  intros Ha Hc Hf. induction Hf as [|f fs Hg Hf IH]; intros acc Hacc; cbn [fold_left map qsum fold_right].
  - ring.
  - rewrite IH by (apply shaped_step; auto). rewrite (comp_step nkeys L) by auto. unfold qsum. ring.
Qed.

Lemma zeros_shaped nkeys L : grads_shaped nkeys L (repeat (repeat 0%Q L) nkeys).
Proof.
  split; [apply repeat_length|]. apply Forall_forall. intros x Hx. apply repeat_spec in Hx. subst. apply repeat_length.
Qed.
Lemma zeros_comp nkeys L a c : comp a c (repeat (repeat 0%Q L) nkeys) = 0%Q.
Proof.
  unfold comp. destruct (Nat.lt_ge_cases a nkeys).
  - rewrite (nth_indep _ [] (repeat 0%Q L)) by (rewrite repeat_length; auto). rewrite nth_repeat. apply nth_repeat.
  - rewrite (nth_overflow (repeat _ nkeys)) by (rewrite repeat_length; auto). destruct c; reflexivity.
Qed.

Lemma avg_comp weighted nkeys L fs a c : a < nkeys -> c < L ->
  Forall (fun f => grads_shaped nkeys L (f_grads f)) fs ->
  (comp a c (avg_gradients weighted nkeys L fs) == qsum (map (fun f => weight weighted fs f * comp a c (f_grads f)) fs))%Q.
Proof.
  intros Ha Hc Hf. unfold avg_gradients.
  rewrite (avg_fold nkeys L (weight weighted fs) a c fs Ha Hc Hf _ (zeros_shaped nkeys L)).
  rewrite zeros_comp. ring.
Qed.

Lemma qsum_scale {A} (k : Q) (f : A -> Q) l : (qsum (map (fun x => f x * k) l) == qsum (map f l) * k)%Q.
Proof. induction l as [|x l IH]; cbn; [ring|]. unfold qsum in IH. rewrite IH. ring. Qed.
Lemma qsum_ext {A} (f g : A -> Q) l : (forall x, In x l -> (f x == g x)%Q) -> (qsum (map f l) == qsum (map g l))%Q.
Proof.
  induction l as [|x l IH]; intros H; cbn; [reflexivity|]. rewrite (H x) by (left; auto).
  unfold qsum in IH. rewrite IH by (intros; apply H; right; auto). reflexivity.
Qed.

Lemma qsum_perm l l' : Permutation l l' -> (qsum l == qsum l')%Q.
Proof.
  induction 1; cbn.
  - reflexivity.
  - unfold qsum in IHPermutation. rewrite IHPermutation. reflexivity.
  - ring.
  - rewrite IHPermutation1. auto.
Qed.

Lemma total_num_acc fs : forall k, fold_left (fun a f => a + f_num f) fs k = k + list_sum (map f_num fs).
Proof.
  induction fs as [|f fs IH]; intros k; cbn [fold_left map]; [cbn; lia|].
  rewrite IH. change (list_sum (f_num f :: map f_num fs)) with (f_num f + list_sum (map f_num fs)). lia.
Qed.
Lemma total_num_sum fs : total_num fs = list_sum (map f_num fs).
Proof. unfold total_num. rewrite total_num_acc. lia. Qed.

Lemma list_sum_perm l l' : Permutation l l' -> list_sum l = list_sum l'.
Proof. induction 1; cbn in *; unfold list_sum in *; cbn in *; lia. Qed.

Lemma qn_pos n : 0 < n -> (0 < qn n)%Q.
Proof. intros H. unfold qn, Qlt, inject_Z. cbn. lia. Qed.
Lemma qn_plus a b : (qn (a + b) == qn a + qn b)%Q.
Proof. unfold qn. rewrite <- inject_Z_plus. rewrite Nat2Z.inj_add. reflexivity. Qed.
Lemma qn_sum l : (qsum (map qn l) == qn (list_sum l))%Q.
Proof.
  induction l as [|x l IH]; [reflexivity|]. change (list_sum (x :: l)) with (x + list_sum l).
  rewrite qn_plus. cbn [map qsum fold_right]. unfold qsum in IH. rewrite IH. reflexivity.
Qed.

(* The weighted average times the number of solutions is the weighted sum. *)
Lemma avg_weighted nkeys L fs a c : a < nkeys -> c < L ->
  Forall (fun f => grads_shaped nkeys L (f_grads f)) fs -> 0 < list_sum (map f_num fs) ->
  (comp a c (avg_gradients true nkeys L fs) ==
   qsum (map (fun f => qn (f_num f) * comp a c (f_grads f)) fs) / qn (list_sum (map f_num fs)))%Q.
Proof.
  intros Ha Hc Hf Hp. rewrite avg_comp by auto.
  rewrite (qsum_ext _ (fun f => (qn (f_num f) * comp a c (f_grads f)) * / qn (list_sum (map f_num fs)))%Q).
  - rewrite qsum_scale. reflexivity.
  - intros f _. unfold weight. rewrite total_num_sum. unfold Qdiv. ring.
Qed.
Lemma avg_uniform nkeys L fs a c : a < nkeys -> c < L ->
  Forall (fun f => grads_shaped nkeys L (f_grads f)) fs ->
  (comp a c (avg_gradients false nkeys L fs) == qmean (map (fun f => comp a c (f_grads f)) fs))%Q.
Proof.
  intros Ha Hc Hf. rewrite avg_comp by auto. unfold qmean. rewrite map_length.
  rewrite (qsum_ext _ (fun f => comp a c (f_grads f) * / qn (length fs))%Q).
  - rewrite qsum_scale. reflexivity.
  - intros f _. unfold weight, Qdiv. ring.
Qed.

(* Order of the results does not matter. *)
Lemma avg_perm weighted nkeys L fs fs' a c : a < nkeys -> c < L ->
  Forall (fun f => grads_shaped nkeys L (f_grads f)) fs -> Permutation fs fs' ->
  (comp a c (avg_gradients weighted nkeys L fs) == comp a c (avg_gradients weighted nkeys L fs'))%Q.
Proof.
  intros Ha Hc Hf Hp. assert (Hf' := Permutation_Forall Hp Hf).
  rewrite !avg_comp by auto.
  rewrite (qsum_perm _ _ (Permutation_map (fun f => weight weighted fs f * comp a c (f_grads f))%Q Hp)).
  apply qsum_ext. intros f _. unfold weight. rewrite !total_num_sum.
  rewrite (list_sum_perm _ _ (Permutation_map f_num Hp)), (Permutation_length Hp). reflexivity.
Qed.

(* Every component stays between bounds common to all tasks. *)
Lemma weighted_between (lo hi : Q) (w v : fetched -> Q) fs :
  (forall f, In f fs -> (0 <= w f)%Q /\ (lo <= v f)%Q /\ (v f <= hi)%Q) ->
  (lo * qsum (map w fs) <= qsum (map (fun f => w f * v f) fs))%Q /\
  (qsum (map (fun f => w f * v f) fs) <= hi * qsum (map w fs))%Q.
Proof.
  induction fs as [|f fs IH]; intros H; cbn [map qsum fold_right].
  - split; lra.
  - destruct IH as [I1 I2]. { intros; apply H; right; auto. }
    destruct (H f (or_introl eq_refl)) as (Hw & Hl & Hh). unfold qsum in I1, I2.
    split; nra.
Qed.

Lemma weight_sum weighted fs : (weighted = true -> 0 < list_sum (map f_num fs)) -> fs <> [] ->
  (qsum (map (weight weighted fs) fs) == 1)%Q.
Proof.
  intros Hp Hn. unfold weight. destruct weighted.
  - rewrite (qsum_ext _ (fun f => qn (f_num f) * / qn (list_sum (map f_num fs)))%Q).
    + rewrite qsum_scale.
      assert (E : map (fun f => qn (f_num f)) fs = map qn (map f_num fs)) by (rewrite map_map; auto).
      rewrite E, qn_sum. field. intros E0. assert (H := qn_pos _ (Hp eq_refl)). lra.
    + intros f _. rewrite total_num_sum. reflexivity.
  - assert (E : forall (l : list fetched) (x : Q), (qsum (map (fun _ => x) l) == qn (length l) * x)%Q).
    { induction l as [|y l IH]; intros x; [cbn [map qsum fold_right length]; change (qn 0) with 0%Q; ring|]. cbn [map qsum fold_right length].
      unfold qsum in IH. rewrite IH. replace (S (length l)) with (length l + 1) by lia. rewrite qn_plus. change (qn 1) with 1%Q. ring. }
    rewrite E. field. intros E0.
    assert (H : 0 < length fs) by (destruct fs; cbn; [congruence|lia]). apply qn_pos in H. lra.
Qed.

Lemma weight_nonneg weighted fs f : (0 <= weight weighted fs f)%Q.
Proof.
  assert (G : forall n, (0 <= / qn n)%Q).
  { intros n. apply Qinv_le_0_compat. unfold qn, Qle, inject_Z. cbn. lia. }
  assert (G2 : forall n, (0 <= qn n)%Q) by (intros n; unfold qn, Qle, inject_Z; cbn; lia).
  unfold weight. destruct weighted; unfold Qdiv.
  - apply Qmult_le_0_compat; auto.
  - apply Qmult_le_0_compat; auto. lra.
Qed.

Lemma avg_between weighted nkeys L fs a c lo hi : a < nkeys -> c < L ->
  Forall (fun f => grads_shaped nkeys L (f_grads f)) fs -> fs <> [] ->
  (weighted = true -> 0 < list_sum (map f_num fs)) ->
  (forall f, In f fs -> (lo <= comp a c (f_grads f))%Q /\ (comp a c (f_grads f) <= hi)%Q) ->
  (lo <= comp a c (avg_gradients weighted nkeys L fs))%Q /\ (comp a c (avg_gradients weighted nkeys L fs) <= hi)%Q.
Proof.
  intros Ha Hc Hf Hn Hp H. rewrite avg_comp by auto.
  destruct (weighted_between lo hi (weight weighted fs) (fun f => comp a c (f_grads f)) fs) as [A B].
  { intros f Hi. destruct (H f Hi). repeat split; auto. apply weight_nonneg. }
  rewrite weight_sum in A, B by auto. split; lra.
Qed.

Lemma mean_acc fs : forall k,
  (fold_left (fun a f => a + qn (f_num f) * f_mean f) fs k == k + qsum (map (fun f => qn (f_num f) * f_mean f) fs))%Q.
Proof.
  induction fs as [|f fs IH]; intros k; cbn [fold_left map qsum fold_right]; [ring|]. rewrite IH. unfold qsum. ring.
Qed.

Lemma qsum_app l l' : (qsum (l ++ l') == qsum l + qsum l')%Q.
Proof. unfold qsum. induction l as [|x l IH]; cbn [app fold_right]; [ring|]. rewrite IH. ring. Qed.

(* If every task reports the mean of its own evaluations, the reported mean is the mean of
   all evaluations. *)
Lemma mean_eval_ok fs (evals : list (list Q)) :
  Forall2 (fun f e => f_num f = length e /\ (f_mean f == qmean e)%Q) fs evals ->
  (forall e, In e evals -> e <> []) ->
  (avg_mean_eval fs == qmean (concat evals))%Q.
Proof.
  intros H Hne. unfold avg_mean_eval, qmean. rewrite mean_acc, total_num_sum.
  assert (E1 : list_sum (map f_num fs) = length (concat evals)).
  { clear Hne. induction H as [|f e fs evals [Hf _] _ IH]; [reflexivity|]. cbn [map concat].
    rewrite app_length. change (list_sum (f_num f :: map f_num fs)) with (f_num f + list_sum (map f_num fs)). lia. }
  assert (E2 : (qsum (map (fun f => qn (f_num f) * f_mean f) fs) == qsum (concat evals))%Q).
  { clear E1. induction H as [|f e fs evals [Hf Hm] _ IH]; [reflexivity|]. cbn [map concat].
    rewrite qsum_app. cbn [qsum fold_right map]. unfold qsum in *. rewrite IH by (intros; apply Hne; right; auto).
    rewrite Hm, Hf. unfold qmean, qn, qsum. field. intros E0.
    assert (Hl : 0 < length e). { destruct e; [|cbn; lia]. exfalso. apply (Hne []); [left; auto|reflexivity]. }
    apply qn_pos in Hl. unfold qn in Hl. lra. }
  rewrite E2, E1. unfold qn. unfold Qdiv. ring.
Qed.

(* ------------------------------------------------------------------ task sizes *)
Lemma tasks_total popsize ss ns actors :
  (forall m, ss = Some m -> 1 <= m /\ popsize mod m = 0) -> (forall k, ns = Some k -> 1 <= k) -> 1 <= actors ->
  exists l, popsize_per_task popsize ss ns actors false = Ok l /\ list_sum l = popsize.
Proof.
  intros Hm Hk Ha. unfold popsize_per_task. destruct ss as [m|]; [|destruct ns as [k|]].
  - destruct (Hm m eq_refl) as [H1 H2]. destruct (Nat.eqb_spec m 0); [lia|]. rewrite H2. cbn [Nat.eqb bind].
    eexists. split; [reflexivity|]. rewrite list_sum_repeat. pose proof (Nat.div_mod popsize m). lia.
  - destruct (split_workload_ok popsize k (Hk k eq_refl)) as (l & E & _ & Hs & _). rewrite E. cbn. eauto.
  - destruct (split_workload_ok popsize actors Ha) as (l & E & _ & Hs & _). rewrite E. cbn. eauto.
Qed.

Lemma tasks_even popsize ss ns actors :
  (forall m, ss = Some m -> 1 <= m /\ popsize mod m = 0) -> (forall k, ns = Some k -> 1 <= k) -> 1 <= actors ->
  exists l, popsize_per_task popsize ss ns actors true = Ok l /\ Forall (fun p => p mod 2 = 0) l /\
    popsize <= list_sum l <= popsize + length l.
Proof.
  intros Hm Hk Ha. destruct (tasks_total popsize ss ns actors Hm Hk Ha) as (l & E & Hs).
  unfold popsize_per_task in *. destruct (match ss with Some _ => _ | None => _ end) as [l0|e]; [|discriminate].
  cbn [bind] in E |- *. injection E as ->. eexists. split; [reflexivity|]. split.
  - apply Forall_map, Forall_forall. intros p _. cbn beta. destruct (Nat.eqb_spec (p mod 2) 0) as [H|H]; [exact H|].
    pose proof (Nat.mod_upper_bound p 2 ltac:(lia)) as H2. rewrite Nat.add_mod by lia.
    replace (p mod 2) with 1 by lia. reflexivity.
  - rewrite map_length. subst popsize. clear. induction l as [|p l IH]; cbn [map list_sum fold_right length]; [cbn; lia|].
    unfold list_sum in IH. destruct (Nat.eqb (p mod 2) 0); lia.
Qed.

Lemma ceil_div_ge a b : 1 <= b -> a <= b * ceil_div a b.
Proof.
  intros Hb. unfold ceil_div.
  pose proof (Nat.div_mod (a + b - 1) b ltac:(lia)). pose proof (Nat.mod_upper_bound (a + b - 1) b ltac:(lia)). lia.
Qed.
Lemma ceil_div_lt a b : 1 <= b -> b * ceil_div a b < a + b.
Proof.
  intros Hb. unfold ceil_div.
  pose proof (Nat.div_mod (a + b - 1) b ltac:(lia)). pose proof (Nat.mod_upper_bound (a + b - 1) b ltac:(lia)). lia.
Qed.

Lemma quota_sum_ge popsize quota tasks : 1 <= popsize ->
  list_sum tasks * quota <= popsize * list_sum (quota_per_task popsize quota tasks) /\
  popsize * list_sum (quota_per_task popsize quota tasks) <= list_sum tasks * quota + popsize * length tasks.
Proof.
  intros Hp. induction tasks as [|p tasks [I1 I2]]; [cbn; lia|].
  cbn [quota_per_task map length].
  change (list_sum (p :: tasks)) with (p + list_sum tasks).
  change (map (fun p0 => ceil_div (p0 * quota) popsize) tasks) with (quota_per_task popsize quota tasks).
  change (list_sum (ceil_div (p * quota) popsize :: quota_per_task popsize quota tasks))
    with (ceil_div (p * quota) popsize + list_sum (quota_per_task popsize quota tasks)).
  pose proof (ceil_div_ge (p * quota) popsize Hp). pose proof (ceil_div_lt (p * quota) popsize Hp). lia.
Qed.

(* The quotas of the tasks together reach the requested total and exceed it by at most one per task. *)
Lemma quota_total popsize quota tasks : 1 <= popsize -> list_sum tasks = popsize ->
  quota <= list_sum (quota_per_task popsize quota tasks) <= quota + length tasks.
Proof.
  intros Hp Hs. destruct (quota_sum_ge popsize quota tasks Hp) as [A B]. rewrite Hs in A, B. nia.
Qed.

(* ------------------------------------------------------------------ seeds *)
Lemma actor_seed_inj base j k : (Z.of_nat j < supremum_seed)%Z -> (Z.of_nat k < supremum_seed)%Z ->
  actor_seed base j = actor_seed base k -> j = k.
Proof.
  unfold actor_seed. intros Hj Hk H.
  assert (Hs : (0 < supremum_seed)%Z) by reflexivity.
  pose proof (Z.div_mod (base + (Z.of_nat j + 1)) supremum_seed ltac:(lia)) as Ej.
  pose proof (Z.div_mod (base + (Z.of_nat k + 1)) supremum_seed ltac:(lia)) as Ek.
  rewrite H in Ej.
  remember ((base + (Z.of_nat j + 1)) / supremum_seed)%Z as qj. remember ((base + (Z.of_nat k + 1)) / supremum_seed)%Z as qk.
  remember ((base + (Z.of_nat k + 1)) mod supremum_seed)%Z as r.
  clear Heqqj Heqqk Heqr H. generalize dependent supremum_seed. intros s Hj Hk Hs Ej Ek.
  assert (Hd : (Z.of_nat j - Z.of_nat k = s * (qj - qk))%Z) by lia.
  assert (qj - qk = 0)%Z; [|nia].
  assert (- s < Z.of_nat j - Z.of_nat k < s)%Z by lia. nia.
Qed.

Lemma concat_seeds base n : concat (all_seeds base n) = map (actor_seed base) (seq 0 (4 * n)).
Proof.
  induction n as [|n IH]; [reflexivity|]. unfold all_seeds in *.
  rewrite (seq_S n 0), map_app, concat_app, IH.
  replace (4 * S n) with (4 * n + 4) by lia. rewrite seq_app, map_app. f_equal.
  cbn [map concat seq app]. rewrite !Nat.add_0_l.
  replace (4 * n + 0) with (4 * n) by lia. replace (4 * n + 1) with (S (4 * n)) by lia.
  replace (4 * n + 2) with (S (S (4 * n))) by lia. replace (4 * n + 3) with (S (S (S (4 * n)))) by lia. reflexivity.
Qed.

Lemma seeds_distinct base n : (4 * Z.of_nat n <= supremum_seed)%Z -> NoDup (concat (all_seeds base n)).
Proof.
  intros Hn. rewrite concat_seeds.
  assert (G : forall l, NoDup l -> (forall j, In j l -> (Z.of_nat j < supremum_seed)%Z) -> NoDup (map (actor_seed base) l)).
  { induction 1 as [|j l Hj Hl IH]; intros Hb; cbn; constructor.
    - intros Hin. apply in_map_iff in Hin. destruct Hin as (k & Ek & Hk).
      apply actor_seed_inj in Ek; [subst; auto| |]; apply Hb; [right|left]; auto.
    - apply IH. intros k Hk. apply Hb. right; auto. }
  apply G; [apply seq_NoDup|]. intros j Hj. apply in_seq in Hj. lia.
Qed.

Lemma seeds_range base n s : In s (concat (all_seeds base n)) -> (0 <= s < supremum_seed)%Z.
Proof.
  rewrite concat_seeds. intros H. apply in_map_iff in H. destruct H as (j & <- & _).
  unfold actor_seed. apply Z.mod_pos_bound. reflexivity.
Qed.

Lemma own_generator_fails base n : 1 <= n -> start_actors true base n = Err AttributeError.
Proof. intros Hn. destruct n as [|n]; [lia|]. reflexivity. Qed.

Lemma sequence_map_ok {A B} (f : A -> result B) (g : A -> B) l :
  (forall x, In x l -> f x = Ok (g x)) -> sequence (map f l) = Ok (map g l).
Proof.
  induction l as [|x l IH]; intros H; cbn; [reflexivity|].
  rewrite (H x) by (left; auto). rewrite IH by (intros y Hy; apply H; right; auto). reflexivity.
Qed.

Lemma nodup_concat_firstn {A} k (ll : list (list A)) : NoDup (concat ll) -> NoDup (concat (map (firstn k) ll)).
Proof.
  induction ll as [|l ll IH]; cbn; intros H; [constructor|].
  rewrite <- (firstn_skipn k l) in H. rewrite <- app_assoc in H.
  assert (I : forall x, In x (concat (map (firstn k) ll)) -> In x (concat ll)).
  { intros x Hx. apply in_concat in Hx. destruct Hx as (y & Hy & Hxy). apply in_map_iff in Hy.
    destruct Hy as (z & <- & Hz). apply in_concat. exists z. split; auto.
    rewrite <- (firstn_skipn k z). apply in_or_app; auto. }
  revert H. induction (firstn k l) as [|x t IHt]; cbn; intros H.
  - apply IH. clear - H. induction (skipn k l) as [|y u IHu]; cbn in H; [exact H|]. inversion H; auto.
  - inversion H as [|? ? Hx Ht]; subst. constructor; [|apply IHt; exact Ht].
    intros Hin. apply Hx. apply in_app_or in Hin. apply in_or_app. destruct Hin as [|Hin]; [left; auto|].
    right. apply in_or_app. right. auto.
Qed.

Lemma global_generator_ok base n : (4 * Z.of_nat n <= supremum_seed)%Z ->
  exists l, start_actors false base n = Ok l /\ length l = n /\ NoDup (concat l) /\
    Forall (fun s => length s = 3) l.
Proof.
  intros Hn. exists (map (firstn 3) (all_seeds base n)).
  split; [|split; [|split]].
  - unfold start_actors. apply sequence_map_ok. intros x Hx. unfold all_seeds in Hx.
    apply in_map_iff in Hx. destruct Hx as (i & <- & _). reflexivity.
  - unfold all_seeds. now rewrite !map_length, seq_length.
  - apply nodup_concat_firstn. apply seeds_distinct; auto.
  - apply Forall_forall. intros x Hx. apply in_map_iff in Hx. destruct Hx as (y & <- & Hy).
    unfold all_seeds in Hy. apply in_map_iff in Hy. destruct Hy as (i & <- & _). reflexivity.
Qed.

(* ------------------------------------------------------------------ adaptive population *)
Section Adaptive.
Variable popsize : nat.
Variable popsize_max : option nat.
Variable num_interactions : Z.
Variable made : nat -> Z.

Notation stops := (stops popsize popsize_max num_interactions made).

Lemma stops_dec k : {stops k} + {~ stops k}.
Proof.
  unfold WorkSpec.stops. destruct (Z_lt_dec num_interactions (made k)); [left; auto|].
  destruct popsize_max as [m|].
  - destruct (le_dec m (k * popsize)).
    + left. left. eauto.
    + right. intros [(m' & E & H)|H]; [injection E as ->|]; lia.
  - right. intros [(m & E & _)|H]; [discriminate|]. lia.
Qed.

Lemma max_reached_iff total : max_reached popsize_max total = true <-> exists m, popsize_max = Some m /\ m <= total.
Proof.
  unfold max_reached. destruct popsize_max as [m|].
  - rewrite Nat.leb_le. split; [eauto|]. intros (m' & E & H). congruence.
  - split; [discriminate|]. intros (m & E & _). discriminate.
Qed.

Lemma loop_sound : forall fuel k total k' total', total = k * popsize ->
  (adaptive_loop popsize popsize_max num_interactions made fuel k total = Ok (k', total') \/
   adaptive_loop_remote popsize popsize_max num_interactions made fuel k total = Ok (k', total')) ->
  k < k' /\ total' = k' * popsize /\ stops k' /\ forall j, k < j < k' -> ~ stops j.
Proof.
  induction fuel as [|fuel IH]; intros k total k' total' Ht H; cbn in H.
  { destruct H; discriminate. }
  assert (Ht' : total + popsize = S k * popsize) by lia.
  destruct (stops_dec (S k)) as [Hs|Hs].
  - assert (E : Ok (S k, total + popsize) = Ok (k', total')).
    { destruct Hs as [Hm|Hz].
      - rewrite <- Ht' in Hm. apply max_reached_iff in Hm. rewrite Hm in H.
        destruct (num_interactions <? made (S k))%Z; destruct H; auto.
      - apply Z.ltb_lt in Hz. rewrite Hz in H. destruct (max_reached popsize_max (total + popsize)); destruct H; auto. }
    injection E as <- <-. repeat split; auto. intros j Hj. lia.
  - assert (E1 : max_reached popsize_max (total + popsize) = false).
    { apply not_true_iff_false. intros E. apply Hs. left. rewrite <- Ht'. apply max_reached_iff. auto. }
    assert (E2 : (num_interactions <? made (S k))%Z = false).
    { apply not_true_iff_false. intros E. apply Hs. right. apply Z.ltb_lt. auto. }
    rewrite E1, E2 in H. apply IH in H; auto. destruct H as (A & B & C & D). repeat split; auto; [lia|].
    intros j Hj. destruct (Nat.eq_dec j (S k)); [subst; auto|]. apply D. lia.
Qed.

Lemma loop_complete K : stops K -> forall fuel k total, total = k * popsize -> k < K -> K - k <= fuel ->
  exists r r', adaptive_loop popsize popsize_max num_interactions made fuel k total = Ok r /\
       adaptive_loop_remote popsize popsize_max num_interactions made fuel k total = Ok r'.
Proof.
  intros HK. induction fuel as [|fuel IH]; intros k total Ht Hk Hf; [lia|]. cbn.
  assert (Ht' : total + popsize = S k * popsize) by lia.
  destruct (max_reached popsize_max (total + popsize)) eqn:E1; destruct (num_interactions <? made (S k))%Z eqn:E2; eauto.
  assert (K <> S k).
  { intros ->. destruct HK as [Hm|Hz].
    - rewrite <- Ht' in Hm. apply max_reached_iff in Hm. congruence.
    - apply Z.ltb_lt in Hz. congruence. }
  apply IH; auto; lia.
Qed.

(* Both loops give the same result. *)
Lemma loops_agree fuel k total :
  adaptive_loop popsize popsize_max num_interactions made fuel k total =
  adaptive_loop_remote popsize popsize_max num_interactions made fuel k total.
Proof.
  revert k total; induction fuel as [|fuel IH]; intros k total; cbn; auto. rewrite IH.
  destruct (max_reached popsize_max (total + popsize)); destruct (num_interactions <? made (S k))%Z; reflexivity.
Qed.

Lemma adaptive_ok fuel k total :
  adaptive_loop popsize popsize_max num_interactions made fuel 0 0 = Ok (k, total) ->
  1 <= k /\ total = k * popsize /\ stops k /\ (forall j, 1 <= j < k -> ~ stops j) /\
  (forall m, popsize_max = Some m -> 1 <= m -> 1 <= popsize -> total < m + popsize).
Proof.
  intros H. destruct (loop_sound fuel 0 0 k total) as (A & B & C & D); [lia|auto|].
  repeat split; auto; try (intros j Hj; apply D; lia).
  intros m Hm Hm1 Hp. subst total. destruct (Nat.eq_dec k 1); [subst; lia|].
  assert (Hn : ~ stops (k - 1)) by (apply D; lia).
  assert (~ m <= (k - 1) * popsize) by (intros Hle; apply Hn; left; eauto).
  replace (k * popsize) with ((k - 1) * popsize + popsize) by (destruct k; [lia|cbn; rewrite Nat.sub_0_r; lia]). lia.
Qed.

Lemma adaptive_terminates m : popsize_max = Some m -> 1 <= popsize ->
  exists r, adaptive_loop popsize popsize_max num_interactions made (S m) 0 0 = Ok r.
Proof.
  intros Hm Hp. destruct (loop_complete (S m)) with (fuel := S m) (k := 0) (total := 0) as (r & _ & E & _); eauto; try lia.
  left. exists m. split; auto. nia.
Qed.
End Adaptive.

(* ------------------------------------------------------------------ shapes *)
Lemma xnes_fails L w d M tasks : length d = L ->
  average_shaped L 2 ((w, xnes_grads d M) :: tasks) = Err RuntimeError.
Proof.
  intros Hd. unfold average_shaped, xnes_grads. cbn [average_tensors repeat add_task].
  unfold inplace_add at 1. rewrite repeat_length, Hd, Nat.eqb_refl. reflexivity.
Qed.

Lemma vec_tasks_ok L nkeys tasks :
  Forall (fun t => length (snd t) = nkeys /\ Forall (fun g => exists v, g = GVec v /\ length v = L) (snd t)) tasks ->
  exists r, average_shaped L nkeys tasks = Ok r.
Proof.
  unfold average_shaped.
  assert (G : forall accs gs w, length gs = length accs -> Forall (fun a => length a = L) accs ->
     Forall (fun g => exists v, g = GVec v /\ length v = L) gs ->
     exists accs', add_task accs w gs = Ok accs' /\ length accs' = length accs /\ Forall (fun a : list Q => length a = L) accs').
  { induction accs as [|a accs IH]; intros [|g gs] w Hl Ha Hg; cbn in Hl; try lia.
    - exists []. auto.
    - inversion Ha; inversion Hg; subst. destruct H5 as (v & -> & Hv).
      destruct (IH gs w) as (accs' & E & E1 & E2); auto.
      cbn [add_task inplace_add]. rewrite Hv, Nat.eqb_refl. cbn [bind]. rewrite E. cbn [rmap].
      eexists. split; [reflexivity|]. split; [cbn; lia|]. constructor; auto. rewrite map2_length. lia. }
  assert (G2 : forall tasks accs, length accs = nkeys -> Forall (fun a => length a = L) accs ->
     Forall (fun t => length (snd t) = nkeys /\ Forall (fun g => exists v, g = GVec v /\ length v = L) (snd t)) tasks ->
     exists r, average_tensors accs tasks = Ok r).
  { clear tasks. induction tasks as [|[w gs] tasks IH]; intros accs Hl Ha Ht; cbn [average_tensors]; eauto.
    inversion Ht as [|? ? [H1 H2] H3]; subst. cbn in H1, H2.
    destruct (G accs gs w) as (accs' & E & E1 & E2); auto. rewrite E. cbn [bind]. apply IH; auto. }
  apply G2; [apply repeat_length|]. apply Forall_forall. intros x Hx. apply repeat_spec in Hx. subst. apply repeat_length.
Qed.

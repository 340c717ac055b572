From Coq Require Import QArith Lqa Sorted.
From Verif Require Import Prelude FloatLib SortLib BatchModel BatchSpec ParetoModel ParetoProofs RankProofs RandProofs OperModel OperSpec.
Close Scope Q_scope.
Open Scope nat_scope.

(* ------------------------------------------------------------------ multi-point cross-over *)
Fixpoint par (points : list nat) (i : nat) : bool :=
  match points with [] => false | p :: t => xorb (p <=? i) (par t i) end.
Lemma mask_fold len points : forall m0 i, length m0 = len -> i < len ->
  nth_error (fold_left (fun mask p => map2 xorb mask (map (fun g => p <=? g) (seq 0 len))) points m0) i =
  option_map (fun b => xorb b (par points i)) (nth_error m0 i).
Proof.
  induction points as [|p t IH]; intros m0 i L Hi; cbn.
  - destruct (nth_error m0 i); cbn; auto. rewrite xorb_false_r; auto.
  - rewrite IH; auto; [|rewrite map2_length, map_length, seq_length; lia].
    rewrite map2_nth_error. destruct (nth_error m0 i) as [b|] eqn:E; cbn; auto.
    rewrite (map_nth_error _ i (seq 0 len) (d := i)); [|rewrite nth_error_nth' with (d := 0) by (rewrite seq_length; auto); rewrite seq_nth; auto].
    cbn. f_equal. rewrite xorb_assoc. auto.
Qed.
Lemma mask_fold_length len points : forall m0, length m0 = len ->
  length (fold_left (fun mask p => map2 xorb mask (map (fun g => p <=? g) (seq 0 len))) points m0) = len.
Proof. induction points as [|p t IH]; intros m0 L; cbn; auto. apply IH. rewrite map2_length, map_length, seq_length. lia. Qed.
Lemma mask_nth len points i : i < len -> nth_error (cross_mask len points) i = Some (par points i).
Proof.
  intros H. unfold cross_mask. rewrite mask_fold; auto; [|apply repeat_length].
  rewrite nth_error_nth' with (d := false) by (rewrite repeat_length; auto). rewrite nth_repeat. cbn [option_map]. rewrite xorb_false_l. auto.
Qed.
Lemma mask_length len points : length (cross_mask len points) = len.
Proof. apply mask_fold_length, repeat_length. Qed.
Lemma odd_S n : Nat.odd (S n) = negb (Nat.odd n).
Proof. rewrite Nat.odd_succ. unfold Nat.odd. rewrite negb_involutive. auto. Qed.
Lemma par_zero points : par points 0 = Nat.odd (count_occ Nat.eq_dec points 0).
Proof.
  induction points as [|p t IH]; cbn [par count_occ]; auto. rewrite IH. destruct (Nat.eq_dec p 0) as [->|N].
  - rewrite odd_S. cbn. auto.
  - destruct (Nat.leb_spec p 0); [lia|]. rewrite xorb_false_l. auto.
Qed.
Lemma par_succ points i : par points (S i) = xorb (par points i) (Nat.odd (count_occ Nat.eq_dec points (S i))).
Proof.
  induction points as [|p t IH]; cbn [par count_occ]; auto. rewrite IH. destruct (Nat.eq_dec p (S i)) as [->|N].
  - rewrite odd_S. destruct (Nat.leb_spec (S i) (S i)); [|lia]. destruct (Nat.leb_spec (S i) i); [lia|].
    destruct (par t i), (Nat.odd (count_occ Nat.eq_dec t (S i))); auto.
  - destruct (Nat.leb_spec p (S i)), (Nat.leb_spec p i); try lia; rewrite ?xorb_assoc; auto.
Qed.
Lemma map3_nth {A B C D} (f : A -> B -> C -> D) : forall xs ys zs i,
  nth_error (map3 f xs ys zs) i =
  match nth_error xs i, nth_error ys i, nth_error zs i with Some x, Some y, Some z => Some (f x y z) | _, _, _ => None end.
Proof.
  induction xs as [|x xs IH]; intros [|y ys] [|z zs] [|i]; cbn; auto; try (destruct (nth_error xs i)); auto; try destruct (nth_error ys i); auto.
Qed.
Lemma where_nth {A} m (a b : list A) i : nth_error (where_ m a b) i =
  match nth_error m i, nth_error a i, nth_error b i with Some m, Some x, Some y => Some (if m : bool then x else y) | _, _, _ => None end.
Proof. apply map3_nth. Qed.
Lemma crossed_ok {A} (cuts : list nat) (p1 p2 : list A) : length p1 = length p2 ->
  crossed cuts p1 p2 (where_ (cross_mask (length p1) cuts) p1 p2) (where_ (cross_mask (length p1) cuts) p2 p1).
Proof.
  intros L. unfold crossed. split; [|split].
  - unfold where_. rewrite map3_length, mask_length. lia.
  - unfold where_. rewrite map3_length, mask_length. lia.
  - exists (par cuts). split; [|split; [apply par_zero|apply par_succ]].
    intros i Hi. rewrite !where_nth, mask_nth by auto.
    destruct (nth_error p1 i) as [x|] eqn:E1; [|apply nth_error_None in E1; lia].
    destruct (nth_error p2 i) as [y|] eqn:E2; [|apply nth_error_None in E2; lia].
    destruct (par cuts i); auto.
Qed.

Lemma multi_point_ok {A} np draw (p1 p2 : list (list A)) n l :
  1 <= np -> (np = 1 -> 2 <= l) -> 1 <= n -> shaped n l p1 -> shaped n l p2 -> uniform_ints draw ->
  exists cuts children,
    cuts = (if Nat.eqb np 1 then map (map S) (draw n 1 (l - 1)) else draw n np (l + 1)) /\
    multi_point np draw p1 p2 = Ok children /\ length children = n + n /\ length cuts = n /\
    Forall (fun c => length c = np /\ Forall (fun x => if Nat.eqb np 1 then 1 <= x < l else x <= l) c) cuts /\
    forall k a b, nth_error p1 k = Some a -> nth_error p2 k = Some b ->
      exists cu c1 c2, nth_error cuts k = Some cu /\ nth_error children k = Some c1 /\ nth_error children (n + k) = Some c2 /\
        crossed cu a b c1 c2.
Proof.
  intros Hnp H1 Hn [L1 F1] [L2 F2] HU. destruct p1 as [|p0 p1']; [cbn in L1; lia|].
  assert (L0 : length p0 = l) by (inversion F1; auto).
  set (P1 := p0 :: p1') in *.
  set (cuts := if Nat.eqb np 1 then map (map S) (draw n 1 (l - 1)) else draw n np (l + 1)).
  assert (E : (if Nat.eqb np 1 then rmap (map (map (fun p => p + 1))) (randint draw (Z.of_nat (length P1)) 1 (length p0 - 1))
            else randint draw (Z.of_nat (length P1)) np (length p0 + 1)) = Ok cuts).
  { rewrite L1, L0. unfold cuts, randint. destruct (Nat.eqb_spec np 1) as [E1|N1].
    - destruct (Z.of_nat n <? 0)%Z eqn:EZ; [lia|]. destruct (Nat.eqb_spec (l - 1) 0) as [E0|_]; [specialize (H1 E1); lia|].
      cbn [andb rmap]. rewrite Nat2Z.id. f_equal. apply map_ext. intros r. apply map_ext. intros x. lia.
    - destruct (Z.of_nat n <? 0)%Z eqn:EZ; [lia|]. destruct (Nat.eqb_spec (l + 1) 0) as [E0|_]; [lia|]. cbn [andb].
      rewrite Nat2Z.id. auto. }
  assert (CO : length cuts = n /\ Forall (fun c => length c = np /\ Forall (fun x => if Nat.eqb np 1 then 1 <= x < l else x <= l) c) cuts).
  { unfold cuts. destruct (Nat.eqb_spec np 1) as [E1|N1].
    - specialize (H1 E1). destruct (HU n 1 (l - 1)) as [HL HF]; [left; lia|]. rewrite map_length. split; auto.
      apply Forall_map. eapply Forall_impl; [|exact HF]. cbn. intros r [Hr HX]. rewrite map_length. split; [lia|].
      apply Forall_map. eapply Forall_impl; [|exact HX]. cbn. intros; lia.
    - destruct (HU n np (l + 1)) as [HL HF]; [left; lia|]. split; auto.
      eapply Forall_impl; [|exact HF]. cbn. intros r [Hr HX]. split; [lia|]. eapply Forall_impl; [|exact HX]. cbn. intros; lia. }
  destruct CO as [CL CF].
  exists cuts, (map3 where_ (map (cross_mask l) cuts) P1 p2 ++ map3 where_ (map (cross_mask l) cuts) p2 P1).
  split; [auto|]. split; [|split; [|split; [|split]]]; auto.
  - unfold multi_point. fold P1. change (match P1 with [] => Err IndexError | p :: _ =>
      bind (if Nat.eqb np 1 then rmap (map (map (fun p => p + 1))) (randint draw (Z.of_nat (length P1)) 1 (length p - 1))
            else randint draw (Z.of_nat (length P1)) np (length p + 1)) (fun points =>
      Ok (map3 where_ (map (cross_mask (length p)) points) P1 p2 ++ map3 where_ (map (cross_mask (length p)) points) p2 P1)) end = 
      Ok (map3 where_ (map (cross_mask l) cuts) P1 p2 ++ map3 where_ (map (cross_mask l) cuts) p2 P1)).
    unfold P1 at 1. cbv iota beta. rewrite E. cbn [bind]. rewrite L0. auto.
  - rewrite app_length, !map3_length, map_length. lia.
  - intros k a b Ha Hb.
    assert (La : length a = l) by (apply nth_error_In in Ha; apply (proj1 (Forall_forall _ _) F1) in Ha; auto).
    assert (Lb : length b = l) by (apply nth_error_In in Hb; apply (proj1 (Forall_forall _ _) F2) in Hb; auto).
    assert (Hk : k < n) by (rewrite <- L1; apply nth_error_Some; congruence).
    destruct (nth_error cuts k) as [cu|] eqn:Ec; [|apply nth_error_None in Ec; lia].
    exists cu, (where_ (cross_mask l cu) a b), (where_ (cross_mask l cu) b a). split; [auto|].
    assert (LL : length (map3 where_ (map (cross_mask l) cuts) P1 p2) = n) by (rewrite map3_length, map_length; lia).
    split; [|split].
    + rewrite nth_error_app1 by (rewrite LL; auto). rewrite map3_nth. rewrite (map_nth_error _ _ _ Ec), Ha, Hb. auto.
    + rewrite nth_error_app2 by (rewrite LL; lia). rewrite LL. replace (n + k - n) with k by lia.
      rewrite map3_nth. rewrite (map_nth_error _ _ _ Ec), Ha, Hb. auto.
    + rewrite <- La. apply crossed_ok. lia.
Qed.

(* ------------------------------------------------------------------ cut and splice *)
Lemma cut_ok {A} draw k (p1 p2 : list A) : uniform_int draw -> p1 <> [] -> p2 <> [] ->
  exists a b c d, p1 = a ++ b /\ p2 = c ++ d /\ b <> [] /\ d <> [] /\
    length a = draw (2 * k) (length p1) /\ length c = draw (2 * k + 1) (length p2) /\
    cut_and_splice draw k p1 p2 = Ok (a ++ d, c ++ b).
Proof.
  intros HU H1 H2.
  assert (N1 : length p1 <> 0) by (destruct p1; [congruence|discriminate]).
  assert (N2 : length p2 <> 0) by (destruct p2; [congruence|discriminate]).
  pose proof (HU (2 * k) _ N1) as D1. pose proof (HU (2 * k + 1) _ N2) as D2.
  set (c1 := draw (2 * k) (length p1)) in *. set (c2 := draw (2 * k + 1) (length p2)) in *.
  exists (firstn c1 p1), (skipn c1 p1), (firstn c2 p2), (skipn c2 p2). rewrite !firstn_skipn. split; [auto|]. split; [auto|].
  split. { intros X. apply (f_equal (@length A)) in X. rewrite skipn_length in X. cbn in X. lia. }
  split. { intros X. apply (f_equal (@length A)) in X. rewrite skipn_length in X. cbn in X. lia. }
  rewrite !firstn_length. split; [lia|]. split; [lia|].
  unfold cut_and_splice. destruct (Nat.eqb_spec (length p1) 0); [lia|]. destruct (Nat.eqb_spec (length p2) 0); [lia|]. reflexivity.
Qed.
Lemma sequence_len {A} (l : list (result A)) : forall r, sequence l = Ok r -> length r = length l.
Proof.
  induction l as [|[a|e] l IH]; intros r; cbn; try discriminate; [intros X; injection X as <-; auto|].
  destruct (sequence l) as [r'|]; [|discriminate]. intros X; injection X as <-. cbn. f_equal. auto.
Qed.
Lemma splice_all_ok {A} draw (p1 p2 : list (list A)) n : uniform_int draw -> length p1 = n -> length p2 = n ->
  Forall (fun p => p <> []) p1 -> Forall (fun p => p <> []) p2 ->
  exists children, cut_and_splice_all draw p1 p2 = Ok children /\ length children = n + n /\
    forall k x y, nth_error p1 k = Some x -> nth_error p2 k = Some y ->
      exists a b c d, x = a ++ b /\ y = c ++ d /\ b <> [] /\ d <> [] /\
        length a = draw (2 * k) (length x) /\ length c = draw (2 * k + 1) (length y) /\
        nth_error children k = Some (a ++ d) /\ nth_error children (n + k) = Some (c ++ b).
Proof.
  intros HU L1 L2 F1 F2. unfold cut_and_splice_all.
  destruct (sequence_all (fun k cs => exists x y a b c d, nth_error p1 k = Some x /\ nth_error p2 k = Some y /\
     x = a ++ b /\ y = c ++ d /\ b <> [] /\ d <> [] /\ length a = draw (2 * k) (length x) /\ length c = draw (2 * k + 1) (length y) /\
     cs = (a ++ d, c ++ b)) (map3 (cut_and_splice draw) (seq 0 (length p1)) p1 p2)) as (out & E & H).
  - intros k r Hr. rewrite map3_nth in Hr.
    destruct (nth_error (seq 0 (length p1)) k) as [k'|] eqn:Ek; [|discriminate].
    destruct (nth_error p1 k) as [x|] eqn:Ex; [|discriminate]. destruct (nth_error p2 k) as [y|] eqn:Ey; [|discriminate].
    assert (k' = k). { apply nth_error_nth with (d := 0) in Ek. rewrite seq_nth in Ek; [lia|]. apply nth_error_Some. congruence. } subst k'.
    pose proof (nth_error_In _ _ Ex) as Ix. pose proof (nth_error_In _ _ Ey) as Iy.
    apply (proj1 (Forall_forall _ _) F1) in Ix. apply (proj1 (Forall_forall _ _) F2) in Iy.
    destruct (cut_ok draw k x y HU Ix Iy) as (a & b & c & d & Q1 & Q2 & Q3 & Q4 & Q5 & Q6 & Q7).
    injection Hr as <-. exists (a ++ d, c ++ b). split; [auto|]. exists x, y, a, b, c, d. auto 12.
  - rewrite E. cbn [rmap]. exists (map fst out ++ map snd out). split; auto.
    assert (LO : length out = n). { apply sequence_len in E. rewrite E, map3_length, seq_length. lia. }
    split; [rewrite app_length, !map_length; lia|].
    intros k x y Hx Hy. assert (Hk : k < n) by (rewrite <- L1; apply nth_error_Some; congruence).
    destruct (nth_error out k) as [cs|] eqn:Eo; [|apply nth_error_None in Eo; lia].
    destruct (proj2 H k cs Eo) as (x' & y' & a & b & c & d & Q1 & Q2 & Q3 & Q4 & Q5 & Q6 & Q7 & Q8 & Q9).
    rewrite Hx in Q1; injection Q1 as <-. rewrite Hy in Q2; injection Q2 as <-.
    exists a, b, c, d. split; [auto|]. split; [auto|]. split; [auto|]. split; [auto|]. split; [auto|]. split; [auto|]. split.
    + rewrite nth_error_app1 by (rewrite map_length; lia). rewrite (map_nth_error _ _ _ Eo), Q9. auto.
    + rewrite nth_error_app2 by (rewrite map_length; lia). rewrite map_length, LO. replace (n + k - n) with k by lia.
      rewrite (map_nth_error _ _ _ Eo), Q9. auto.
Qed.

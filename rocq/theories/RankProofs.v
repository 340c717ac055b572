From Coq Require Import QArith Reals Sorted Lqa Lra.
From Verif Require Import Prelude FloatLib SortLib BatchSpec BatchProofs RankModel RankSpec ParetoProofs.
Close Scope Q_scope.
Open Scope nat_scope.

(* ---------------------------------------------------------------- scatter *)
Lemma scatter_fold {A} (ps : list (nat * A)) : forall l, NoDup (map fst ps) -> (forall p, In p ps -> fst p < length l) ->
  length (fold_left (fun l p => upd l (fst p) (snd p)) ps l) = length l /\
  (forall p, In p ps -> nth_error (fold_left (fun l p => upd l (fst p) (snd p)) ps l) (fst p) = Some (snd p)) /\
  (forall i, ~ In i (map fst ps) -> nth_error (fold_left (fun l p => upd l (fst p) (snd p)) ps l) i = nth_error l i).
Proof.
  induction ps as [|(j, a) ps IH]; intros l HN HB; cbn [fold_left map fst] in *.
  - split; [auto|]. split; [intros ? []|auto].
  - inversion HN as [|? ? Hj HN']; subst. destruct (IH (upd l j a) HN') as (L & I & O).
    { intros p Hp. rewrite upd_length. apply HB. right; auto. }
    rewrite upd_length in L. split; [auto|]. split.
    + intros p [<-|Hp]; [|auto]. cbn. rewrite O by auto. apply upd_same. apply (HB (j, a)). left; auto.
    + intros i Hi. rewrite O by (intros C; apply Hi; right; auto). apply upd_other. intros ->. apply Hi. left; auto.
Qed.
Lemma scatter_ok {A} (d : A) idx ws : Permutation idx (seq 0 (length ws)) ->
  length (scatter d idx ws) = length ws /\
  forall k i w, nth_error idx k = Some i -> nth_error ws k = Some w -> nth_error (scatter d idx ws) i = Some w.
Proof.
  intros HP. assert (L : length idx = length ws) by (apply Permutation_length in HP; rewrite seq_length in HP; auto).
  assert (F : map fst (combine idx ws) = idx).
  { clear HP. revert ws L. induction idx as [|i idx IH]; intros [|w ws] L; cbn in *; try lia; auto. rewrite IH by lia. auto. }
  unfold scatter. destruct (scatter_fold (combine idx ws) (repeat d (length ws))) as (Ls & I & _).
  - rewrite F. apply (Permutation_NoDup (Permutation_sym HP)), seq_NoDup.
  - intros p Hp. rewrite repeat_length. apply (in_map fst) in Hp. rewrite F in Hp. apply (Permutation_in _ HP) in Hp. apply in_seq in Hp. lia.
  - rewrite repeat_length in Ls. split; [exact Ls|]. intros k i w Hi Hw. apply (I (i, w)). apply nth_error_In with k.
    rewrite CMemProofs.combine_nth_error, Hi, Hw. reflexivity.
Qed.
(* every position is written, so the result is a rearrangement of the weights *)
Lemma scatter_perm {A} (d : A) idx ws : Permutation idx (seq 0 (length ws)) -> Permutation (scatter d idx ws) ws.
Proof.
  intros HP. destruct (scatter_ok d idx ws HP) as [L N].
  assert (E : map (fun i => nth i (scatter d idx ws) d) idx = ws).
  { assert (LI : length idx = length ws) by (apply Permutation_length in HP; rewrite seq_length in HP; auto).
    apply nth_error_ext. intros k. rewrite nth_error_map. destruct (nth_error idx k) as [i|] eqn:Ei; cbn.
    - destruct (nth_error ws k) as [w|] eqn:Ew. + f_equal. apply nth_error_nth. eauto.
      + apply nth_error_None in Ew. assert (k < length idx) by (apply nth_error_Some; congruence). lia.
    - symmetry. apply nth_error_None. apply nth_error_None in Ei. lia. }
  rewrite <- E at 2. rewrite (list_tab (scatter d idx ws) d) at 1. unfold tab. apply Permutation_map. rewrite L. symmetry. exact HP.
Qed.

Lemma sorted_unique_in {A} (R : A -> A -> Prop) : forall l l', (forall x y, In x l -> In y l -> R x y -> R y x -> x = y) ->
  StronglySorted R l -> StronglySorted R l' -> Permutation l l' -> l = l'.
Proof.
  induction l as [|x l IH]; intros l' AS H H' HP.
  - apply Permutation_nil in HP; auto.
  - destruct l' as [|y l']; [symmetry in HP; apply Permutation_nil in HP; discriminate|].
    inversion H as [|? ? Hs HF]; subst. inversion H' as [|? ? Hs' HF']; subst. rewrite Forall_forall in *.
    assert (E : x = y).
    { assert (Hx : In x (y :: l')) by (apply (Permutation_in _ HP); left; auto).
      assert (Hy : In y (x :: l)) by (apply (Permutation_in _ (Permutation_sym HP)); left; auto).
      destruct Hx as [->|Hx]; auto. destruct Hy as [->|Hy]; auto. apply AS; auto. - left; auto. - right; auto. }
    subst y. f_equal. apply IH; auto. + intros; apply AS; auto; right; auto. + eapply Permutation_cons_inv; eauto.
Qed.

Lemma tie_free_sorted (s1 s2 : bool -> list fl -> list nat) (x y : list fl) d :
  argsort_ok s1 -> argsort_ok s2 -> length x = length y ->
  Forall (fun v => is_nan v = false) x -> Forall (fun v => is_nan v = false) y ->
  (forall i j, i < length x -> j < length x -> i <> j -> lt_fl (at_ x i) (at_ x j) \/ lt_fl (at_ x j) (at_ x i)) ->
  (forall i j, i < length x -> j < length x -> (lt_fl (at_ x i) (at_ x j) <-> lt_fl (at_ y i) (at_ y j))) ->
  s1 d x = s2 d y.
Proof.
  intros H1 H2 L Nx Ny TF OI. destruct (H1 d x) as [P1 S1]. destruct (H2 d y) as [P2 S2].
  assert (NN : forall (l : list fl) i, Forall (fun v => is_nan v = false) l -> i < length l -> is_nan (at_ l i) = false).
  { intros l i HF Hi. rewrite Forall_forall in HF. apply HF. apply nth_In. auto. }
  assert (B1 : forall i, In i (s1 d x) -> i < length x) by (intros i Hi; apply (Permutation_in _ P1) in Hi; apply in_seq in Hi; lia).
  assert (B2 : forall i, In i (s2 d y) -> i < length x) by (intros i Hi; apply (Permutation_in _ P2) in Hi; apply in_seq in Hi; lia).
  apply (sorted_unique_in (fun i j => (if d then tle (at_ x j) (at_ x i) else tle (at_ x i) (at_ x j)) = true)).
  - intros i j Hi Hj A B. destruct (Nat.eq_dec i j) as [|Hne]; auto. exfalso.
    destruct (TF i j (B1 i Hi) (B1 j Hj) Hne) as [C|C]; apply flt_lt in C; destruct d; rewrite tle_flt in A, B by auto; rewrite C in *; discriminate.
  - exact S1.
  - assert (G : forall l, (forall i, In i l -> i < length x) -> StronglySorted (fun i j => (if d then tle (at_ y j) (at_ y i) else tle (at_ y i) (at_ y j)) = true) l ->
       StronglySorted (fun i j => (if d then tle (at_ x j) (at_ x i) else tle (at_ x i) (at_ x j)) = true) l).
    { induction l as [|i l IH]; intros HB HS; inversion HS as [|? ? HS' HF]; subst; constructor.
      - apply IH; auto. intros; apply HB; right; auto.
      - apply Forall_forall. intros j Hj. pose proof (proj1 (Forall_forall _ _) HF j Hj) as HF0. cbv beta in HF0. assert (Hi : i < length x) by (apply HB; left; auto).
        assert (Hj' : j < length x) by (apply HB; right; auto).
        assert (E : forall a b, a < length x -> b < length x -> tle (at_ x a) (at_ x b) = tle (at_ y a) (at_ y b)).
        { intros a c Ha Hc. rewrite !tle_flt by (apply NN; auto; rewrite <- ?L; auto). f_equal. destruct (flt (at_ x c) (at_ x a)) eqn:E1.
          - apply flt_lt, OI, flt_lt in E1; auto. - symmetry. destruct (flt (at_ y c) (at_ y a)) eqn:E2; auto.
            apply flt_lt, OI, flt_lt in E2; auto. congruence. }
        destruct d; rewrite E; auto. }
    apply G; auto.
  - rewrite P1, P2, L. reflexivity.
Qed.

Section Rank.
Variable sorter : bool -> list fl -> list nat.
Hypothesis sorter_ok : argsort_ok sorter.

(* positions in the sorted order respect quality *)
Lemma scatter_monotone {A} (d : A) (w : nat -> A) (R : A -> A -> Prop) x hib :
  Forall (fun v => is_nan v = false) x -> (forall k l, k < l < length x -> R (w k) (w l)) ->
  let u := scatter d (sorter (negb hib) x) (map w (seq 0 (length x))) in
  length u = length x /\
  forall i j a b, i < length x -> j < length x -> better hib (at_ x j) (at_ x i) -> nth_error u i = Some a -> nth_error u j = Some b -> R a b.
Proof.
  intros HN HM u. destruct (sorter_ok (negb hib) x) as [HP HS].
  assert (HP' : Permutation (sorter (negb hib) x) (seq 0 (length (map w (seq 0 (length x)))))) by (rewrite map_length, seq_length; auto).
  destruct (scatter_ok d (sorter (negb hib) x) (map w (seq 0 (length x))) HP') as [L N]. fold u in L, N.
  rewrite map_length, seq_length in L. split; [exact L|]. intros i j a b Hi Hj HB Ha Hb.
  assert (POS : forall i, i < length x -> exists k, k < length x /\ nth_error (sorter (negb hib) x) k = Some i).
  { intros i0 H0. assert (In i0 (sorter (negb hib) x)) by (apply (Permutation_in _ (Permutation_sym HP)), in_seq; lia).
    apply In_nth_error in H. destruct H as (k & Hk). exists k. split; auto.
    assert (k < length (sorter (negb hib) x)) by (apply nth_error_Some; congruence). rewrite (Permutation_length HP), seq_length in H. auto. }
  destruct (POS i Hi) as (k & Hk & Ek). destruct (POS j Hj) as (l & Hl & El).
  assert (Wk : forall k, k < length x -> nth_error (map w (seq 0 (length x))) k = Some (w k)).
  { intros k0 H0. change (map w (seq 0 (length x))) with (tab (length x) w). rewrite tab_nth_error. destruct (Nat.ltb_spec k0 (length x)); [auto|lia]. }
  rewrite (N k i (w k) Ek (Wk k Hk)) in Ha. rewrite (N l j (w l) El (Wk l Hl)) in Hb. injection Ha as <-. injection Hb as <-.
  apply HM. split; [|auto]. destruct (Nat.lt_trichotomy k l) as [|[->|Hlt]]; auto; exfalso.
  - rewrite Ek in El. injection El as ->. destruct hib; cbn in HB; apply flt_lt in HB; rewrite flt_irrefl in HB; discriminate.
  - pose proof (sorted_nth _ _ _ _ _ _ HS Hlt El Ek) as Hs. cbn in Hs. rewrite Forall_forall in HN.
    assert (is_nan (at_ x i) = false) by (apply HN, nth_In; auto). assert (is_nan (at_ x j) = false) by (apply HN, nth_In; auto).
    destruct hib; cbn in HB, Hs; apply flt_lt in HB; rewrite tle_flt in Hs by auto; rewrite HB in Hs; discriminate.
Qed.

Lemma rank_perm {A} (d : A) (w : nat -> A) x hib :
  Permutation (scatter d (sorter (negb hib) x) (map w (seq 0 (length x)))) (map w (seq 0 (length x))).
Proof. apply scatter_perm. rewrite map_length, seq_length. apply sorter_ok. Qed.

(* ------------------------------------------------------------ linear and centered *)
Lemma lw_some n k : 2 <= n -> linear_weight n k = Some (inject_Z (Z.of_nat k) / inject_Z (Z.of_nat (n - 1)))%Q.
Proof. intros H. unfold linear_weight. destruct (Nat.eqb_spec n 1); [lia|auto]. Qed.
Lemma den_pos n : 2 <= n -> (0 < inject_Z (Z.of_nat (n - 1)))%Q.
Proof. intros H. change 0%Q with (inject_Z 0). rewrite <- Zlt_Qlt. lia. Qed.
Lemma lw_mono n k l : 2 <= n -> k < l < n -> olt (linear_weight n k) (linear_weight n l).
Proof.
  intros Hn [H _]. rewrite !lw_some by auto. cbn. pose proof (den_pos n Hn) as P. unfold Qdiv. apply Qmult_lt_compat_r.
  - apply Qinv_lt_0_compat; auto. - rewrite <- Zlt_Qlt. lia.
Qed.
Lemma cw_mono n k l : 2 <= n -> k < l < n -> olt (centered_weight n k) (centered_weight n l).
Proof.
  intros Hn H. pose proof (lw_mono n k l Hn H) as M. unfold centered_weight. rewrite !lw_some in * by auto. cbn in *. Lqa.lra.
Qed.
Lemma lw_range n k : 2 <= n -> k < n -> exists q, linear_weight n k = Some q /\ (0 <= q <= 1)%Q.
Proof.
  intros Hn H. rewrite lw_some by auto. eexists. split; [reflexivity|]. pose proof (den_pos n Hn) as P. split.
  - apply Qle_shift_div_l; auto. rewrite Qmult_0_l. change 0%Q with (inject_Z 0). rewrite <- Zle_Qle. lia.
  - apply Qle_shift_div_r; auto. rewrite Qmult_1_l. rewrite <- Zle_Qle. lia.
Qed.

Lemma osum_perm l l' : Permutation l l' -> (osum l == osum l')%Q.
Proof. unfold osum. induction 1; cbn [fold_right]; Lqa.lra. Qed.
Lemma osum_centered n : 2 <= n -> (osum (map (centered_weight n) (seq 0 n)) == 0)%Q.
Proof.
  intros Hn. pose proof (den_pos n Hn) as P.
  assert (G : forall m, (osum (map (centered_weight n) (seq 0 m)) ==
     inject_Z (Z.of_nat m * (Z.of_nat m - 1)) / (2 * inject_Z (Z.of_nat (n - 1))) - inject_Z (Z.of_nat m) * (1 # 2))%Q).
  { induction m as [|m IH].
    - cbn [seq map]. change (osum []) with 0%Q. change (inject_Z (Z.of_nat 0 * (Z.of_nat 0 - 1))) with 0%Q. change (inject_Z (Z.of_nat 0)) with 0%Q. field. Lqa.lra.
    - rewrite seq_S, map_app. cbn [map app Nat.add].
      assert (A : forall l z, (osum (l ++ [z]) == osum l + oval z)%Q) by (clear; unfold osum; induction l; intros; cbn [fold_right app]; [ring|rewrite IHl; ring]).
      rewrite A, IH. unfold centered_weight. rewrite lw_some by auto. cbn [option_map oval].
      replace (Z.of_nat (S m) * (Z.of_nat (S m) - 1))%Z with (Z.of_nat m * (Z.of_nat m - 1) + 2 * Z.of_nat m)%Z by nia.
      replace (Z.of_nat (S m)) with (Z.of_nat m + 1)%Z by lia. rewrite !inject_Z_plus, !inject_Z_mult. change (inject_Z 2) with 2%Q. change (inject_Z 1) with 1%Q.
      field. Lqa.lra. }
  rewrite G. replace (Z.of_nat n - 1)%Z with (Z.of_nat (n - 1)) by lia. rewrite inject_Z_mult. field. Lqa.lra.
Qed.

Lemma linear_ok x hib : 2 <= length x -> Forall (fun v => is_nan v = false) x ->
  let u := linear sorter x hib in
  length u = length x /\ (forall a, In a u -> exists q, a = Some q /\ (0 <= q <= 1)%Q) /\
  (forall i j a b, i < length x -> j < length x -> better hib (at_ x j) (at_ x i) -> nth_error u i = Some a -> nth_error u j = Some b -> olt a b).
Proof.
  intros Hn HN u. unfold u, linear. cbv zeta.
  destruct (scatter_monotone None (linear_weight (length x)) olt x hib HN) as [L M]. { intros; apply lw_mono; auto. }
  split; [exact L|]. split; [|exact M].
  intros a Ha. apply (Permutation_in _ (rank_perm None (linear_weight (length x)) x hib)) in Ha. apply in_map_iff in Ha.
  destruct Ha as (k & <- & Hk). apply in_seq in Hk. apply lw_range; auto. lia.
Qed.
Lemma centered_ok x hib : 2 <= length x -> Forall (fun v => is_nan v = false) x ->
  let u := centered sorter x hib in
  length u = length x /\ (forall a, In a u -> exists q, a = Some q /\ (-(1#2) <= q <= (1#2))%Q) /\ (osum u == 0)%Q /\
  (forall i j a b, i < length x -> j < length x -> better hib (at_ x j) (at_ x i) -> nth_error u i = Some a -> nth_error u j = Some b -> olt a b).
Proof.
  intros Hn HN u. unfold u, centered. cbv zeta.
  destruct (scatter_monotone None (centered_weight (length x)) olt x hib HN) as [L M]. { intros; apply cw_mono; auto. }
  split; [exact L|]. split; [|split; [|exact M]].
  - intros a Ha. apply (Permutation_in _ (rank_perm None (centered_weight (length x)) x hib)) in Ha. apply in_map_iff in Ha.
    destruct Ha as (k & <- & Hk). apply in_seq in Hk. destruct (lw_range (length x) k Hn) as (q & E & R); [lia|].
    unfold centered_weight. rewrite E. eexists. split; [reflexivity|]. Lqa.lra.
  - rewrite (osum_perm _ _ (rank_perm None (centered_weight (length x)) x hib)). apply osum_centered; auto.
Qed.

(* ------------------------------------------------------------ nes *)
Local Open Scope R_scope.
Lemma rsum_perm l l' : Permutation l l' -> rsum l = rsum l'.
Proof. unfold rsum. induction 1; cbn [fold_right]; lra. Qed.
Lemma rsum_nonneg l : (forall x, In x l -> 0 <= x) -> 0 <= rsum l.
Proof. unfold rsum. induction l as [|y l IH]; cbn [fold_right]; intros H; [lra|]. assert (0 <= y) by (apply H; left; auto). assert (0 <= fold_right Rplus 0 l) by (apply IH; intros; apply H; right; auto). lra. Qed.
Lemma rsum_map_affine l a c : rsum (map (fun u => u / a - c) l) = rsum l / a - INR (length l) * c.
Proof.
  unfold rsum, Rdiv. induction l as [|x l IH]; [cbn; ring|]. cbn [map fold_right length]. rewrite S_INR, IH. ring.
Qed.
Lemma nes_weight_nonneg n k : 0 <= nes_weight n k.
Proof. apply Rmax_l. Qed.
Lemma nes_weight_mono n k l : (k < l < n)%nat -> nes_weight n k <= nes_weight n l.
Proof.
  intros [H1 H2]. unfold nes_weight. apply Rle_max_compat_l. assert (ln (INR n - INR l) <= ln (INR n - INR k)); [|lra].
  assert (INR l < INR n) by (apply lt_INR; auto). assert (INR k < INR l) by (apply lt_INR; auto).
  left. apply ln_increasing; lra.
Qed.
Lemma nes_weight_top n : (1 <= n)%nat -> 0 < nes_weight n (n - 1).
Proof.
  intros H. unfold nes_weight. rewrite minus_INR by auto. change (INR 1) with 1. replace (INR n - (INR n - 1)) with 1 by ring. rewrite ln_1.
  assert (P : 0 < INR n) by (apply lt_0_INR; lia). assert (0 < ln (INR n / 2 + 1)).
  { rewrite <- ln_1. apply ln_increasing; lra. }
  apply Rlt_le_trans with (ln (INR n / 2 + 1) - 0); [lra|apply Rmax_r].
Qed.
Lemma nes_unfold x hib :
  let n := length x in
  let utils := scatter 0 (sorter (negb hib) x) (map (nes_weight n) (seq 0 n)) in
  nes sorter x hib = map (fun u => u / rsum (map (nes_weight n) (seq 0 n)) - 1 / INR n) utils.
Proof.
  cbv zeta. set (n := length x). set (idx := sorter (negb hib) x). unfold nes. cbv zeta. fold n idx.
  assert (HP : Permutation idx (seq 0 n)) by apply sorter_ok.
  assert (E : map (fun r => nth r (map (nes_weight n) (seq 0 n)) 0) (scatter 0%nat idx (seq 0 n)) = scatter 0 idx (map (nes_weight n) (seq 0 n))).
  { assert (P1 : Permutation idx (seq 0 (length (seq 0 n)))) by (rewrite seq_length; auto).
    assert (P2 : Permutation idx (seq 0 (length (map (nes_weight n) (seq 0 n))))) by (rewrite map_length, seq_length; auto).
    destruct (scatter_ok 0%nat idx (seq 0 n) P1) as [L1 N1]. destruct (scatter_ok 0 idx (map (nes_weight n) (seq 0 n)) P2) as [L2 N2].
    rewrite seq_length in L1. rewrite map_length, seq_length in L2.
    apply nth_error_ext. intros i. destruct (Nat.lt_ge_cases i n) as [Hi|Hi].
    - assert (In i idx) by (apply (Permutation_in _ (Permutation_sym HP)), in_seq; lia). apply In_nth_error in H. destruct H as (k & Hk).
      assert (Kn : (k < n)%nat) by (assert (k < length idx)%nat by (apply nth_error_Some; congruence); rewrite (Permutation_length HP), seq_length in H; auto).
      assert (Ek : nth_error (seq 0 n) k = Some k) by (rewrite (nth_error_nth' _ 0%nat) by (rewrite seq_length; auto); rewrite seq_nth by auto; reflexivity).
      rewrite nth_error_map, (N1 k i k Hk Ek). cbn [option_map].
      rewrite (N2 k i (nes_weight n k) Hk) by (rewrite nth_error_map, Ek; reflexivity). f_equal.
      apply (tab_nth n (nes_weight n) k 0 Kn).
    - rewrite !(proj2 (nth_error_None _ _)); auto; [rewrite L2; auto|rewrite map_length, L1; auto]. }
  pose proof (rsum_perm _ _ (rank_perm 0 (nes_weight n) x hib)) as RP. fold n in RP. fold idx in RP. rewrite E, RP. reflexivity.
Qed.
Lemma nes_total_pos n : (1 <= n)%nat -> 0 < rsum (map (nes_weight n) (seq 0 n)).
Proof.
  intros H. replace n with (S (n - 1)) at 2 by lia. rewrite seq_S, map_app. cbn [map].
  assert (A : forall l z, rsum (l ++ [z]) = rsum l + z) by (clear; induction l; intros; cbn; [ring|unfold rsum in *; rewrite IHl; ring]).
  rewrite A. replace (0 + (n - 1))%nat with (n - 1)%nat by lia. pose proof (nes_weight_top n H).
  assert (0 <= rsum (map (nes_weight n) (seq 0 (n - 1)))); [|lra]. apply rsum_nonneg. intros y Hy. apply in_map_iff in Hy.
  destruct Hy as (k & <- & _). apply nes_weight_nonneg.
Qed.
Lemma nes_ok x hib : (1 <= length x)%nat -> Forall (fun v => is_nan v = false) x ->
  let u := nes sorter x hib in
  length u = length x /\ rsum u = 0 /\ (forall a, In a u -> - (1 / INR (length x)) <= a <= 1 - 1 / INR (length x)) /\
  (forall i j a b, (i < length x)%nat -> (j < length x)%nat -> better hib (at_ x j) (at_ x i) -> nth_error u i = Some a -> nth_error u j = Some b -> a <= b) /\
  (exists a, In a u /\ - (1 / INR (length x)) < a).
Proof.
  intros Hn HN u. unfold u. rewrite nes_unfold. cbv zeta. set (n := length x) in *.
  set (T := rsum (map (nes_weight n) (seq 0 n))). pose proof (nes_total_pos n Hn) as HT. fold T in HT.
  set (ws := scatter 0 (sorter (negb hib) x) (map (nes_weight n) (seq 0 n))).
  destruct (scatter_monotone 0 (nes_weight n) Rle x hib HN) as [L M]. { intros; apply nes_weight_mono; auto. }
  fold n in L, M. fold ws in L, M. pose proof (rank_perm 0 (nes_weight n) x hib) as RP. fold n in RP. fold ws in RP.
  assert (Pn : 0 < INR n) by (apply lt_0_INR; lia).
  assert (LE : forall w, In w (map (nes_weight n) (seq 0 n)) -> w <= T).
  { unfold T. assert (NNG : forall y, In y (map (nes_weight n) (seq 0 n)) -> 0 <= y) by (intros y Hy; apply in_map_iff in Hy; destruct Hy as (k & <- & _); apply nes_weight_nonneg).
    revert NNG. generalize (map (nes_weight n) (seq 0 n)). clear. induction l as [|y l IH]; intros NN w Hw; [destruct Hw|].
    cbn. change (fold_right Rplus 0 l) with (rsum l). assert (0 <= y) by (apply NN; left; auto). assert (0 <= rsum l) by (apply rsum_nonneg; intros; apply NN; right; auto).
    destruct Hw as [->|Hw]; [lra|]. specialize (IH (fun y Hy => NN y (or_intror Hy)) w Hw). lra. }
  split; [rewrite map_length; auto|]. split; [|split; [|split]].
  - rewrite rsum_map_affine. rewrite (rsum_perm _ _ RP). fold T. rewrite L. field. split; lra.
  - intros a Ha. apply in_map_iff in Ha. destruct Ha as (w & <- & Hw). apply (Permutation_in _ RP) in Hw.
    pose proof (LE w Hw) as HL. apply in_map_iff in Hw. destruct Hw as (k & <- & _). pose proof (nes_weight_nonneg n k).
    assert (0 <= nes_weight n k / T) by (apply Rmult_le_pos; [auto|left; apply Rinv_0_lt_compat; auto]).
    assert (nes_weight n k / T <= 1) by (apply (Rmult_le_reg_r T); auto; unfold Rdiv; rewrite Rmult_assoc, Rinv_l by lra; lra). lra.
  - intros i j a b Hi Hj HB Ha Hb. rewrite nth_error_map in Ha, Hb.
    destruct (nth_error ws i) as [wi|] eqn:Ei; [|discriminate]. destruct (nth_error ws j) as [wj|] eqn:Ej; [|discriminate].
    cbn in Ha, Hb. injection Ha as <-. injection Hb as <-. pose proof (M i j wi wj Hi Hj HB Ei Ej) as Hle.
    assert (wi / T <= wj / T) by (apply Rmult_le_compat_r; [left; apply Rinv_0_lt_compat; auto|auto]). lra.
  - assert (Hin : In (nes_weight n (n - 1)) ws). { apply (Permutation_in _ (Permutation_sym RP)), in_map, in_seq. lia. }
    exists (nes_weight n (n - 1) / T - 1 / INR n). split; [apply in_map_iff; exists (nes_weight n (n - 1)); split; auto|].
    pose proof (nes_weight_top n Hn). assert (0 < nes_weight n (n - 1) / T) by (apply Rdiv_lt_0_compat; auto). lra.
Qed.
End Rank.

(* the utilities depend on the order of the fitnesses only *)
Lemma order_only (s1 s2 : bool -> list fl -> list nat) (x y : list fl) hib :
  argsort_ok s1 -> argsort_ok s2 -> length x = length y ->
  Forall (fun v => is_nan v = false) x -> Forall (fun v => is_nan v = false) y ->
  (forall i j, i < length x -> j < length x -> i <> j -> lt_fl (at_ x i) (at_ x j) \/ lt_fl (at_ x j) (at_ x i)) ->
  (forall i j, i < length x -> j < length x -> (lt_fl (at_ x i) (at_ x j) <-> lt_fl (at_ y i) (at_ y j))) ->
  centered s1 x hib = centered s2 y hib /\ linear s1 x hib = linear s2 y hib /\ nes s1 x hib = nes s2 y hib.
Proof.
  intros H1 H2 L Nx Ny TF OI. pose proof (tie_free_sorted s1 s2 x y (negb hib) H1 H2 L Nx Ny TF OI) as E.
  unfold centered, linear, nes. rewrite E, L. auto.
Qed.
(* a direction flip is a reversal of the order *)
Lemma order_only_flip (s1 s2 : bool -> list fl -> list nat) (x y : list fl) hib :
  argsort_ok s1 -> argsort_ok s2 -> length x = length y ->
  Forall (fun v => is_nan v = false) x -> Forall (fun v => is_nan v = false) y ->
  (forall i j, i < length x -> j < length x -> i <> j -> lt_fl (at_ x i) (at_ x j) \/ lt_fl (at_ x j) (at_ x i)) ->
  (forall i j, i < length x -> j < length x -> (lt_fl (at_ x i) (at_ x j) <-> lt_fl (at_ y j) (at_ y i))) ->
  centered s1 x hib = centered s2 y (negb hib) /\ linear s1 x hib = linear s2 y (negb hib) /\ nes s1 x hib = nes s2 y (negb hib).
Proof.
  intros H1 H2 L Nx Ny TF OI.
  assert (E : s1 (negb hib) x = s2 (negb (negb hib)) y).
  { set (s3 := fun d (c : list fl) => s2 (negb d) (map fneg c)).
    assert (NG : forall a b, tle a b = tle a b) by auto.
    (* sort the negated fitnesses *)
    assert (O : forall i, at_ (map fneg y) i = fneg (at_ y i)).
    { intros i. unfold at_. change NaN with (fneg NaN) at 1. apply map_nth. }
    transitivity (stable_argsort (negb hib) (map fneg y)).
    - apply (tie_free_sorted s1 stable_argsort x (map fneg y)); auto using stable_argsort_ok.
      + rewrite map_length; auto.
      + apply Forall_forall. intros v Hv. apply in_map_iff in Hv. destruct Hv as (w & <- & Hw). rewrite Forall_forall in Ny. specialize (Ny w Hw). destruct w; auto.
      + intros i j Hi Hj. rewrite OI by auto. rewrite !O. rewrite <- !flt_lt. destruct (at_ y i), (at_ y j); cbn; try tauto. split; intros; lia.
    - symmetry. destruct (H2 (negb (negb hib)) y) as [P2 S2]. destruct (stable_argsort_ok (negb hib) (map fneg y)) as [P3 S3]. rewrite map_length in P3.
      assert (B : forall i, In i (s2 (negb (negb hib)) y) -> i < length y) by (intros i Hi; apply (Permutation_in _ P2) in Hi; apply in_seq in Hi; lia).
      apply (sorted_unique_in (fun i j => (if negb (negb hib) then tle (at_ y j) (at_ y i) else tle (at_ y i) (at_ y j)) = true)).
      + intros i j Hi Hj A C. destruct (Nat.eq_dec i j) as [|Hne]; auto. exfalso.
        assert (Ni : is_nan (at_ y i) = false) by (rewrite Forall_forall in Ny; apply Ny, nth_In; auto).
        assert (Nj : is_nan (at_ y j) = false) by (rewrite Forall_forall in Ny; apply Ny, nth_In; auto).
        destruct (TF i j) as [D|D]; [rewrite L; auto|rewrite L; auto|auto| |]; apply OI in D; try (rewrite L; auto); apply flt_lt in D;
          destruct hib; cbn in A, C; rewrite tle_flt in A, C by auto; rewrite D in *; discriminate.
      + exact S2.
      + assert (G : forall l, (forall i, In i l -> i < length y) ->
          StronglySorted (fun i j => (if negb hib then tle (at_ (map fneg y) j) (at_ (map fneg y) i) else tle (at_ (map fneg y) i) (at_ (map fneg y) j)) = true) l ->
          StronglySorted (fun i j => (if negb (negb hib) then tle (at_ y j) (at_ y i) else tle (at_ y i) (at_ y j)) = true) l).
        { induction l as [|i l IH]; intros HB HS; inversion HS as [|? ? HS' HF]; subst; constructor.
          - apply IH; auto. intros; apply HB; right; auto.
          - rewrite Forall_forall in *. intros j Hj. specialize (HF j Hj). rewrite !O in HF.
            assert (Ni : is_nan (at_ y i) = false) by (apply Ny, nth_In, HB; left; auto).
            assert (Nj : is_nan (at_ y j) = false) by (apply Ny, nth_In, HB; right; auto).
            destruct hib; cbn [negb] in *; destruct (at_ y i), (at_ y j); cbn in *; try discriminate; auto; lia. }
        apply G; auto. intros i Hi. apply (Permutation_in _ P3) in Hi. apply in_seq in Hi. lia.
      + rewrite P2, P3. reflexivity. }
  unfold centered, linear, nes. rewrite E, L. auto.
Qed.

(* ------------------------------------------------------------ normalized *)
Local Open Scope R_scope.
Lemma rsum_map_shift l m s : rsum (map (fun v => (v - m) / s) l) = (rsum l - INR (length l) * m) / s.
Proof.
  unfold Rdiv. induction l as [|x l IH]; [cbn; ring|]. cbn [map length]. rewrite S_INR.
  change (rsum ((x - m) * / s :: map (fun v => (v - m) * / s) l)) with ((x - m) * / s + rsum (map (fun v => (v - m) * / s) l)).
  change (rsum (x :: l)) with (x + rsum l). rewrite IH. ring.
Qed.
Lemma rsum_map_scale (f : R -> R) l c : rsum (map (fun v => c * f v) l) = c * rsum (map f l).
Proof. induction l as [|x l IH]; cbn; [ring|]. change (fold_right Rplus 0) with rsum. rewrite IH. ring. Qed.
Lemma rsum_opp l : rsum (map Ropp l) = - rsum l.
Proof. induction l as [|x l IH]; cbn; [ring|]. change (fold_right Rplus 0) with rsum. rewrite IH. ring. Qed.
Lemma normalized_true_ok l : (2 <= length l)%nat -> rstd l <> 0 ->
  let u := map (fun v => (v - rmean l) / rstd l) l in
  rsum u = 0 /\ rstd u = 1.
Proof.
  intros Hn Hs u. assert (Pn : 0 < INR (length l)) by (apply lt_0_INR; lia).
  assert (S0 : rsum u = 0). { unfold u. rewrite rsum_map_shift. unfold rmean. field. split; [|auto]. lra. }
  split; auto. assert (M0 : rmean u = 0) by (unfold rmean; rewrite S0; unfold Rdiv; ring).
  unfold rstd at 1. rewrite M0.
  assert (E : rsum (map (fun x => (x - 0) * (x - 0)) u) = / (rstd l * rstd l) * rsum (map (fun x => (x - rmean l) * (x - rmean l)) l)).
  { unfold u. rewrite map_map. rewrite <- rsum_map_scale. f_equal. apply map_ext. intros x. field. auto. }
  rewrite E. unfold u. rewrite map_length.
  assert (Pn1 : 0 < INR (length l - 1)) by (apply lt_0_INR; lia).
  assert (Q0 : 0 <= rsum (map (fun x => (x - rmean l) * (x - rmean l)) l)).
  { apply rsum_nonneg. intros y Hy. apply in_map_iff in Hy. destruct Hy as (x & <- & _). apply Rle_0_sqr. }
  assert (SQ : rstd l * rstd l = rsum (map (fun x => (x - rmean l) * (x - rmean l)) l) / INR (length l - 1)).
  { unfold rstd. apply sqrt_sqrt. apply Rmult_le_pos; [auto|left; apply Rinv_0_lt_compat; auto]. }
  rewrite SQ. set (Q := rsum (map (fun x => (x - rmean l) * (x - rmean l)) l)) in *. assert (Q <> 0). { intros C. rewrite C in SQ. apply Hs. apply Rsqr_0_uniq. unfold Rsqr. rewrite SQ. unfold Rdiv. ring. }
  replace (/ (Q / INR (length l - 1)) * Q / INR (length l - 1)) with 1 by (field; split; lra). apply sqrt_1.
Qed.
Lemma rstd_opp l : rstd (map Ropp l) = rstd l.
Proof.
  unfold rstd. rewrite map_length. do 2 f_equal. f_equal. rewrite map_map. apply map_ext. intros x.
  assert (rmean (map Ropp l) = - rmean l) by (unfold rmean; rewrite rsum_opp, map_length; unfold Rdiv; ring). rewrite H. ring.
Qed.
Lemma rmean_opp (l : list R) : rmean (map Ropp l) = - rmean l.
Proof. unfold rmean; rewrite rsum_opp, map_length; unfold Rdiv; ring. Qed.
Lemma normalized_unfold (x : list R) (hib : bool) : (2 <= length x)%nat -> rstd x <> 0 ->
  let f := if hib then x else map Ropp x in
  normalized x hib = map Some (map (fun v => (v - rmean f) / rstd f) f).
Proof.
  intros Hn Hs f. unfold normalized. cbv zeta. fold f.
  assert (Lf : length f = length x) by (unfold f; destruct hib; [auto|apply map_length]).
  assert (Sf : rstd f = rstd x) by (unfold f; destruct hib; [auto|apply rstd_opp]).
  destruct (Nat.eqb_spec (length f) 1); [lia|]. rewrite map_map. apply map_ext. intros v. unfold rdiv.
  destruct (Req_EM_T (rstd f) 0); [congruence|reflexivity].
Qed.
Lemma normalized_ok x hib : (2 <= length x)%nat -> rstd x <> 0 ->
  exists u, normalized x hib = map Some u /\ length u = length x /\
  rsum u = 0 /\ rstd u = 1 /\
  normalized x (negb hib) = map Some (map Ropp u) /\
  (forall i j a b p q, nth_error x i = Some a -> nth_error x j = Some b -> nth_error u i = Some p -> nth_error u j = Some q ->
     ((if hib then a < b else b < a) <-> p < q)).
Proof.
  intros Hn Hs. pose proof (normalized_unfold x hib Hn Hs) as E1. pose proof (normalized_unfold x (negb hib) Hn Hs) as E2. cbv zeta in E1, E2.
  set (f := if hib then x else map Ropp x) in *.
  assert (Lf : length f = length x) by (unfold f; destruct hib; [auto|apply map_length]).
  assert (Sf : rstd f = rstd x) by (unfold f; destruct hib; [auto|apply rstd_opp]).
  destruct (normalized_true_ok f) as [A B]; [lia|congruence|].
  assert (Ps : 0 < rstd f). { rewrite Sf. destruct (sqrt_pos (rsum (map (fun v => (v - rmean x) * (v - rmean x)) x) / INR (length x - 1))) as [H|H]; [exact H|]. exfalso. apply Hs. symmetry. exact H. }
  eexists. split; [exact E1|]. split; [rewrite map_length; auto|]. split; [exact A|]. split; [exact B|].
  split.
  - rewrite E2. f_equal. rewrite map_map. assert (E : (if negb hib then x else map Ropp x) = map Ropp f).
    { unfold f. destruct hib; cbn; [reflexivity|]. rewrite map_map. rewrite <- (map_id x) at 1. apply map_ext. intros; ring. }
    rewrite E. rewrite map_map, rmean_opp, rstd_opp. apply map_ext. intros v. field. lra.
  - intros i j a b u v Hi Hj Hu Hv. rewrite nth_error_map in Hu, Hv.
    assert (F : forall k c, nth_error x k = Some c -> nth_error f k = Some (if hib then c else - c)).
    { intros k c Hk. unfold f. destruct hib; auto. rewrite nth_error_map, Hk. reflexivity. }
    rewrite (F i a Hi) in Hu. rewrite (F j b Hj) in Hv. cbn in Hu, Hv. injection Hu as <-. injection Hv as <-.
    assert (C : forall p q, p < q <-> (p - rmean f) / rstd f < (q - rmean f) / rstd f).
    { intros p q. split; intros H.
      - apply Rmult_lt_compat_r; [apply Rinv_0_lt_compat; auto|lra].
      - apply Rmult_lt_reg_r in H; [lra|apply Rinv_0_lt_compat; auto]. }
    rewrite <- C. destruct hib; lra.
Qed.

(* a standard deviation of zero means that all values are equal *)
Lemma rsum_zero l : (forall x, In x l -> 0 <= x) -> rsum l = 0 -> forall x, In x l -> x = 0.
Proof.
  unfold rsum. induction l as [|y l IH]; cbn [fold_right]; intros HN H x Hx; [destruct Hx|].
  assert (0 <= y) by (apply HN; left; auto). assert (0 <= fold_right Rplus 0 l) by (apply rsum_nonneg; intros; apply HN; right; auto).
  destruct Hx as [->|Hx]; [lra|]. apply IH; auto; [intros; apply HN; right; auto|lra].
Qed.
Lemma rsum_const c l : (forall x, In x l -> x = c) -> rsum l = INR (length l) * c.
Proof.
  unfold rsum. induction l as [|y l IH]; cbn [fold_right length]; intros H; [cbn; ring|]. rewrite S_INR, IH by (intros; apply H; right; auto).
  rewrite (H y) by (left; auto). ring.
Qed.
Lemma rstd_zero_iff l : (2 <= length l)%nat -> (rstd l = 0 <-> exists c, forall x, In x l -> x = c).
Proof.
  intros Hn. assert (Pn : 0 < INR (length l)) by (apply lt_0_INR; lia). assert (Pn1 : 0 < INR (length l - 1)) by (apply lt_0_INR; lia).
  assert (NN : forall y, In y (map (fun x => (x - rmean l) * (x - rmean l)) l) -> 0 <= y).
  { intros y Hy. apply in_map_iff in Hy. destruct Hy as (x & <- & _). apply Rle_0_sqr. }
  pose proof (rsum_nonneg _ NN) as Q0. split.
  - intros H. unfold rstd in H. apply sqrt_eq_0 in H; [|apply Rmult_le_pos; [auto|left; apply Rinv_0_lt_compat; auto]].
    assert (E : rsum (map (fun x => (x - rmean l) * (x - rmean l)) l) = 0).
    { apply Rmult_integral in H. destruct H as [H|H]; auto. exfalso. pose proof (Rinv_0_lt_compat _ Pn1). lra. }
    exists (rmean l). intros x Hx. assert (Z : (x - rmean l) * (x - rmean l) = 0). { apply (rsum_zero _ NN E). apply in_map_iff. exists x. auto. }
    apply Rmult_integral in Z. lra.
  - intros (c & H). assert (M : rmean l = c) by (unfold rmean; rewrite (rsum_const c l H); field; lra).
    unfold rstd. rewrite M. rewrite (rsum_const 0). + unfold Rdiv. rewrite Rmult_0_r, Rmult_0_l. apply sqrt_0.
    + intros y Hy. apply in_map_iff in Hy. destruct Hy as (x & <- & Hx). rewrite (H x Hx). ring.
Qed.
Lemma normalized_constant (x : list R) hib : (2 <= length x)%nat -> (exists c, forall v, In v x -> v = c) ->
  normalized x hib = map (fun _ => None) x.
Proof.
  intros Hn HC. unfold normalized. cbv zeta. set (f := if hib then x else map Ropp x).
  assert (Lf : length f = length x) by (unfold f; destruct hib; [auto|apply map_length]).
  assert (Sf : rstd f = rstd x) by (unfold f; destruct hib; [auto|apply rstd_opp]).
  destruct (Nat.eqb_spec (length f) 1); [lia|]. assert (Z : rstd f = 0) by (rewrite Sf; apply rstd_zero_iff; auto).
  rewrite Z. unfold rdiv. destruct (Req_EM_T 0 0); [|lra]. unfold f. destruct hib; [auto|]. rewrite map_map. auto.
Qed.
(* shifting and scaling the fitnesses does not change normalized utilities *)
Lemma normalized_affine x hib a b : (2 <= length x)%nat -> 0 < a -> normalized (map (fun v => a * v + b) x) hib = normalized x hib.
Proof.
  intros Hn Ha. assert (Pn : 0 < INR (length x)) by (apply lt_0_INR; lia).
  assert (SM : forall l, rsum (map (fun v => a * v + b) l) = a * rsum l + INR (length l) * b).
  { unfold rsum. induction l as [|y l IH]; cbn [map fold_right length]; [cbn; ring|]. rewrite IH, S_INR. ring. }
  assert (MM : rmean (map (fun v => a * v + b) x) = a * rmean x + b) by (unfold rmean; rewrite SM, map_length; field; lra).
  assert (SS : rstd (map (fun v => a * v + b) x) = a * rstd x).
  { unfold rstd. rewrite MM, map_map, map_length.
    rewrite (map_ext _ (fun v => (a * a) * ((v - rmean x) * (v - rmean x)))) by (intros; ring).
    rewrite (rsum_map_scale (fun v => (v - rmean x) * (v - rmean x))). unfold Rdiv. rewrite Rmult_assoc, sqrt_mult_alt by nra. rewrite sqrt_square by lra. auto. }
  set (y := map (fun v => a * v + b) x) in *. assert (Ly : length y = length x) by apply map_length.
  assert (G : forall h, normalized y h = if h then map (fun v => rdiv (v - rmean y) (rstd y)) y else map (fun v => rdiv (- v + rmean y) (rstd y)) y).
  { intros h. unfold normalized. cbv zeta. assert ((length (if h then y else map Ropp y)) = length x) by (destruct h; rewrite ?map_length; auto).
    rewrite H. destruct (Nat.eqb_spec (length x) 1); [lia|]. destruct h; auto. rewrite map_map, rmean_opp, rstd_opp. apply map_ext. intros; f_equal; ring. }
  assert (G' : forall h, normalized x h = if h then map (fun v => rdiv (v - rmean x) (rstd x)) x else map (fun v => rdiv (- v + rmean x) (rstd x)) x).
  { intros h. unfold normalized. cbv zeta. assert ((length (if h then x else map Ropp x)) = length x) by (destruct h; rewrite ?map_length; auto).
    rewrite H. destruct (Nat.eqb_spec (length x) 1); [lia|]. destruct h; auto. rewrite map_map, rmean_opp, rstd_opp. apply map_ext. intros; f_equal; ring. }
  rewrite G, G', MM, SS. unfold y. rewrite !map_map.
  assert (K : forall p q, p = a * q -> rdiv p (a * rstd x) = rdiv q (rstd x)).
  { intros p q ->. unfold rdiv. destruct (Req_EM_T (rstd x) 0) as [Z|Z].
    - rewrite Z, Rmult_0_r. destruct (Req_EM_T 0 0); [auto|lra].
    - destruct (Req_EM_T (a * rstd x) 0) as [C|C]. + apply Rmult_integral in C. lra. + f_equal. field. split; auto. lra. }
  destruct hib; apply map_ext; intros v; apply K; ring.
Qed.
Lemma singleton_rank sorter v hib : argsort_ok sorter -> centered sorter [v] hib = [None] /\ linear sorter [v] hib = [None].
Proof.
  intros H. destruct (H (negb hib) [v]) as [HP _]. cbn in HP. apply Permutation_sym, Permutation_length_1_inv in HP.
  unfold centered, linear. cbv zeta. rewrite HP. split; reflexivity.
Qed.

(* Proofs about the random tensor makers. *)
From Coq Require Import QArith Lqa.
From Verif Require Import Prelude RandModel RandSpec WorkProofs2.
Close Scope Q_scope.
Open Scope Z_scope.

Lemma supported_range d : supported d ->
  imax d - imin d + 1 = 2 ^ bits d /\ imin d <= 0 <= imax d /\ 0 < 2 ^ bits d /\
  (signed d = true -> 2 ^ bits d = 2 * imax d + 2) /\ 127 <= imax d.
Proof.
  intros H. cbn in H. decompose [or] H; subst; try contradiction; vm_compute; intuition congruence.
Qed.

Lemma wrap_range d z : supported d -> representable d (wrap d z).
Proof.
  intros H. destruct (supported_range d H) as (E & _ & P & _). unfold representable, wrap.
  pose proof (Z.mod_pos_bound (z - imin d) _ P). lia.
Qed.
Lemma wrap_id d z : supported d -> representable d z -> wrap d z = z.
Proof.
  intros H R. destruct (supported_range d H) as (E & _ & P & _). unfold wrap, representable in *.
  rewrite Z.mod_small by lia. lia.
Qed.
Lemma wrap_over d z : supported d -> imax d < z <= imax d + 2 ^ bits d -> wrap d z = z - 2 ^ bits d.
Proof.
  intros H R. destruct (supported_range d H) as (E & _ & P & _). unfold wrap.
  replace (z - imin d) with ((z - imin d - 2 ^ bits d) + 1 * 2 ^ bits d) by ring.
  rewrite Z.mod_add by lia. rewrite Z.mod_small by lia. lia.
Qed.
Lemma wrap_under d z : supported d -> imin d - 2 ^ bits d <= z < imin d -> wrap d z = z + 2 ^ bits d.
Proof.
  intros H R. destruct (supported_range d H) as (E & _ & P & _). unfold wrap.
  replace (z - imin d) with ((z - imin d + 2 ^ bits d) + (-1) * 2 ^ bits d) by ring.
  rewrite Z.mod_add by lia. rewrite Z.mod_small by lia. lia.
Qed.
Lemma wrap_wrap_add d a b : supported d -> wrap d (wrap d a + b) = wrap d (a + b).
Proof.
  intros H. destruct (supported_range d H) as (_ & _ & P & _). unfold wrap. f_equal.
  replace ((a - imin d) mod 2 ^ bits d + imin d + b - imin d) with ((a - imin d) mod 2 ^ bits d + b) by ring.
  rewrite Z.add_mod_idemp_l by lia. f_equal. ring.
Qed.

Lemma diff_value d lb ub : supported d -> iadd d (isub d ub lb) 1 = wrap d (ub - lb + 1).
Proof. intros H. unfold iadd, isub. apply wrap_wrap_add; auto. Qed.

Lemma elem_ok d lb ub r : supported d -> representable d lb -> representable d ub -> lb <= ub ->
  ub - lb + 1 <= imax d ->
  exists z, uniform_int_elem d lb ub r = Ok z /\ lb <= z <= ub.
Proof.
  intros H Hl Hu Le Hd. destruct (supported_range d H) as (E & O & P & _).
  unfold uniform_int_elem. rewrite diff_value by auto.
  rewrite (wrap_id d (ub - lb + 1)) by (auto; unfold representable; lia).
  unfold irem. destruct (Z.eqb_spec (ub - lb + 1) 0); [lia|]. cbn [bind]. eexists; split; [reflexivity|].
  pose proof (Z.mod_pos_bound (isub d r lb) (ub - lb + 1) ltac:(lia)) as B.
  unfold iadd. rewrite wrap_id; auto; unfold representable in *; lia.
Qed.

Lemma elem_overflow d lb ub r z : supported d -> representable d lb -> representable d ub -> lb <= ub ->
  imax d < ub - lb + 1 -> uniform_int_elem d lb ub r = Ok z -> z = lb \/ z < lb \/ ub < z.
Proof.
  intros H Hl Hu Le Hd. destruct (supported_range d H) as (E & O & P & Sg & _).
  unfold uniform_int_elem. rewrite diff_value by auto. unfold representable in *.
  rewrite wrap_over by (auto; lia). unfold irem.
  destruct (Z.eqb_spec (ub - lb + 1 - 2 ^ bits d) 0) as [|NE]; [discriminate|]. cbn [bind]. intros X; inversion X; subst z; clear X.
  assert (N : ub - lb + 1 - 2 ^ bits d < 0) by lia.
  pose proof (Z.mod_neg_bound (isub d r lb) _ N) as B. revert B.
  generalize (isub d r lb mod (ub - lb + 1 - 2 ^ bits d)). intros m B.
  unfold iadd. destruct (Z.eq_dec m 0) as [->|]; [left; apply wrap_id; auto|].
  right. destruct (Z_lt_le_dec (m + lb) (imin d)).
  - rewrite wrap_under by (auto; lia). lia.
  - rewrite wrap_id by (auto; unfold representable; lia). lia.
Qed.

Lemma elem_overflow_exists d lb ub : supported d -> representable d lb -> representable d ub ->
  imax d < ub - lb + 1 < 2 ^ bits d - 1 ->
  exists r z, drawn d r /\ uniform_int_elem d lb ub r = Ok z /\ (z < lb \/ ub < z).
Proof.
  intros H Hl Hu Hd. destruct (supported_range d H) as (E & O & P & Sg & Big).
  set (D := ub - lb + 1 - 2 ^ bits d).
  assert (DN : D < -1) by (subst D; lia).
  assert (X : forall r, exists z, uniform_int_elem d lb ub r = Ok z /\ (z = lb -> isub d r lb mod D = 0)).
  { intros r. unfold uniform_int_elem. rewrite diff_value by auto. unfold representable in *.
    rewrite wrap_over by (auto; lia). fold D. unfold irem. destruct (Z.eqb_spec D 0); [lia|]. cbn [bind].
    eexists; split; [reflexivity|]. pose proof (Z.mod_neg_bound (isub d r lb) D ltac:(lia)) as B.
    revert B. generalize (isub d r lb mod D). intros m B. unfold iadd.
    destruct (Z_lt_le_dec (m + lb) (imin d)).
    - rewrite wrap_under by (auto; lia). lia.
    - rewrite wrap_id by (auto; unfold representable; lia). lia. }
  (* two consecutive draws whose shifted values do not wrap cannot both be multiples of D *)
  assert (Y : exists r, drawn d r /\ drawn d (r + 1) /\ isub d (r + 1) lb = isub d r lb + 1).
  { unfold drawn, isub. unfold representable in *.
    destruct (Z_le_gt_dec (1 - lb) (imax d)).
    - exists 0. repeat split; try lia. rewrite !wrap_id by (auto; unfold representable; lia). lia.
    - exists 1. repeat split; try lia.
      destruct (signed d) eqn:SD.
      + specialize (Sg eq_refl). rewrite !wrap_over by (auto; lia). lia.
      + exfalso. assert (imin d = 0) by (unfold imin; rewrite SD; auto). lia. }
  destruct Y as (r & R0 & R1 & RS).
  destruct (X r) as (z & Hz & Z0). destruct (X (r + 1)) as (z' & Hz' & Z1).
  assert (Le : lb <= ub) by lia.
  destruct (elem_overflow d lb ub r z H Hl Hu Le ltac:(lia) Hz) as [->|]; [|exists r, z; auto].
  destruct (elem_overflow d lb ub (r + 1) z' H Hl Hu Le ltac:(lia) Hz') as [->|]; [|exists (r + 1), z'; auto].
  exfalso. specialize (Z0 eq_refl). specialize (Z1 eq_refl). rewrite RS in Z1.
  clear - Z0 Z1 DN. apply Z.mod_divide in Z0; [|lia]. apply Z.mod_divide in Z1; [|lia].
  destruct Z0 as [a Ha], Z1 as [b Hb].
  assert (K : (b - a) * D = 1) by (rewrite Z.mul_sub_distr_r, <- Ha, <- Hb; ring).
  rewrite Z.mul_comm in K. apply Z.mul_eq_1 in K. lia.
Qed.

Lemma sequence_all {A} (P : nat -> A -> Prop) (l : list (result A)) :
  (forall i r, nth_error l i = Some r -> exists z, r = Ok z /\ P i z) ->
  exists out, sequence l = Ok out /\ length out = length l /\
    forall i z, nth_error out i = Some z -> P i z.
Proof.
  revert P. induction l as [|r l IH]; intros P H; simpl.
  - exists []. repeat split; auto. intros [|i] z Hz; discriminate.
  - destruct (H 0%nat r eq_refl) as (z & -> & Pz).
    destruct (IH (fun i => P (S i)) (fun i r Hr => H (S i) r Hr)) as (out & -> & L & Q).
    exists (z :: out). split; [reflexivity|]. split; [simpl; lia|].
    intros [|i] z' Hz; simpl in Hz; [inversion Hz; subst; auto|eauto].
Qed.
Lemma map3_nth_error {A B C D} (f : A -> B -> C -> D) xs ys zs i :
  nth_error (map3 f xs ys zs) i =
  match nth_error xs i, nth_error ys i, nth_error zs i with
  | Some x, Some y, Some z => Some (f x y z) | _, _, _ => None end.
Proof.
  revert ys zs i; induction xs as [|x xs IH]; intros [|y ys] [|z zs] [|i]; simpl; auto;
    destruct (nth_error xs i); auto; destruct (nth_error ys i); auto.
Qed.

Lemma uniform_int_ok d lb ub raw : supported d -> length lb = length raw -> length ub = length raw ->
  (forall i l u, nth_error lb i = Some l -> nth_error ub i = Some u ->
     representable d l /\ representable d u /\ l <= u /\ u - l + 1 <= imax d) ->
  exists out, make_uniform_int d (Some lb) (Some ub) raw = Ok out /\ length out = length raw /\
    forall i z l u, nth_error out i = Some z -> nth_error lb i = Some l -> nth_error ub i = Some u -> l <= z <= u.
Proof.
  intros H L1 L2 B. cbn [make_uniform_int].
  destruct (sequence_all (fun i z => forall l u, nth_error lb i = Some l -> nth_error ub i = Some u -> l <= z <= u)
              (map3 (uniform_int_elem d) lb ub raw)) as (out & E & L & P).
  - intros i r Hr. rewrite map3_nth_error in Hr.
    destruct (nth_error lb i) as [l|] eqn:El; [|discriminate]. destruct (nth_error ub i) as [u|] eqn:Eu; [|discriminate].
    destruct (nth_error raw i) as [x|] eqn:Ex; [|discriminate]. inversion Hr; subst r.
    destruct (B i l u El Eu) as (R1 & R2 & Le & F). destruct (elem_ok d l u x H R1 R2 Le F) as (z & Ez & Rz).
    exists z. split; auto. intros l' u' X Y. inversion X; inversion Y; subst; auto.
  - exists out. rewrite map3_length in L. split; [auto|]. split; [lia|]. intros; eapply P; eauto.
Qed.

Lemma irem_all n raw : 0 < n -> exists out, sequence (map (fun r => irem r n) raw) = Ok out /\
  length out = length raw /\ Forall (fun z => 0 <= z < n) out.
Proof.
  intros H. destruct (sequence_all (fun _ z => 0 <= z < n) (map (fun r => irem r n) raw)) as (out & E & L & P).
  - intros i r Hr. rewrite nth_error_map in Hr. destruct (nth_error raw i) as [x|]; [|discriminate].
    inversion Hr; subst. unfold irem. destruct (Z.eqb_spec n 0); [lia|]. eexists; split; [reflexivity|].
    apply Z.mod_pos_bound; auto.
  - exists out. rewrite map_length in L. repeat split; auto. apply Forall_forall. intros z Hz.
    destruct (In_nth_error _ _ Hz) as [i Hi]. eauto.
Qed.

Lemma uniform_bool_ok lb ub raw : length lb = length raw -> length ub = length raw ->
  exists out, make_uniform_bool (Some lb) (Some ub) raw = Ok out /\ length out = length raw /\
    forall i z l u, nth_error out i = Some z -> nth_error lb i = Some l -> nth_error ub i = Some u ->
      Bool.le l u -> Bool.le l z /\ Bool.le z u.
Proof.
  intros L1 L2. eexists; split; [reflexivity|]. split; [rewrite map3_length; lia|].
  intros i z l u Hz Hl Hu Le. rewrite map3_nth_error, Hl, Hu in Hz.
  destruct (nth_error raw i) as [r|]; [|discriminate]. inversion Hz; subst.
  destruct l, u, r; cbn in *; auto.
Qed.

Lemma uniform_float_ok lb ub raw : length lb = length raw -> length ub = length raw ->
  Forall (fun r => (0 <= r <= 1)%Q) raw ->
  exists out, make_uniform_float (Some lb) (Some ub) raw = Ok out /\ length out = length raw /\
    forall i z l u, nth_error out i = Some z -> nth_error lb i = Some l -> nth_error ub i = Some u ->
      (l <= u)%Q -> (l <= z <= u)%Q.
Proof.
  intros L1 L2 R. eexists; split; [reflexivity|]. split; [rewrite map3_length; lia|].
  intros i z l u Hz Hl Hu Le. rewrite map3_nth_error, Hl, Hu in Hz.
  destruct (nth_error raw i) as [r|] eqn:Er; [|discriminate]. inversion Hz; subst.
  pose proof (proj1 (Forall_forall _ _) R r (nth_error_In _ _ Er)) as [R0 R1]. cbn in R0, R1.
  assert (0 <= r * (u - l))%Q by (apply Qmult_le_0_compat; Lqa.lra).
  assert (0 <= (1 - r) * (u - l))%Q by (apply Qmult_le_0_compat; Lqa.lra).
  assert ((1 - r) * (u - l) == (u - l) - r * (u - l))%Q by ring.
  split; Lqa.lra.
Qed.

(* Symmetric sampling *)
Open Scope nat_scope.
Lemma mirror_length l : length (mirror l) = 2 * length l.
Proof. induction l; simpl; lia. Qed.
Lemma mirror_nth l k z : nth_error l k = Some z ->
  nth_error (mirror l) (2 * k) = Some z /\ nth_error (mirror l) (2 * k + 1) = Some (vneg z).
Proof.
  revert k. induction l as [|x l IH]; intros [|k] H; try discriminate.
  - inversion H; subst. auto.
  - replace (2 * S k) with (S (S (2 * k))) by lia. replace (S (S (2 * k)) + 1) with (S (S (2 * k + 1))) by lia.
    simpl nth_error. apply IH; auto.
Qed.
Lemma interleave_map (f g : row -> row) l : interleave (map f l) (map g l) = flat_map (fun z => [f z; g z]) l.
Proof. induction l; simpl; congruence. Qed.
Lemma mirror_flat l : mirror l = flat_map (fun z => [z; vneg z]) l.
Proof. induction l; simpl; congruence. Qed.
Lemma map_flat_map2 {A B C} (h : B -> C) (f : A -> list B) l : map h (flat_map f l) = flat_map (fun x => map h (f x)) l.
Proof. induction l; simpl; auto. rewrite map_app. congruence. Qed.

Lemma flat_pair_nth {A B} (f g : A -> B) l k z : nth_error l k = Some z ->
  nth_error (flat_map (fun z => [f z; g z]) l) (2 * k) = Some (f z) /\
  nth_error (flat_map (fun z => [f z; g z]) l) (2 * k + 1) = Some (g z).
Proof.
  revert k. induction l as [|x l IH]; intros [|k] H; try discriminate.
  - inversion H; subst. auto.
  - replace (2 * S k) with (S (S (2 * k))) by lia. replace (S (S (2 * k)) + 1) with (S (S (2 * k + 1))) by lia.
    simpl nth_error. apply IH; auto.
Qed.
Lemma flat_pair_length {A B} (f g : A -> B) l : length (flat_map (fun z => [f z; g z]) l) = 2 * length l.
Proof. induction l; simpl; lia. Qed.

Definition up (mu sigma z : row) := vadd (vmul z sigma) mu.
Definition down (mu sigma z : row) := vadd (vmul (vneg z) sigma) mu.
Lemma symmetric_fill_eq n mu sigma noise : Nat.even n = true ->
  symmetric_fill n mu sigma noise = Ok (flat_map (fun z => [up mu sigma z; down mu sigma z]) (map noise (seq 0 (n / 2)))).
Proof.
  intros H. unfold symmetric_fill, make_gaussian, Nat.odd. rewrite H. cbn [negb bind].
  rewrite mirror_flat, map_flat_map2. reflexivity.
Qed.

Lemma mirrored_up_down mu sigma z : length sigma = length mu -> length z = length mu ->
  mirrored mu (up mu sigma z) (down mu sigma z) /\
  mirrored mu (vadd (vmul z sigma) mu) (vadd (vneg (vmul z sigma)) mu).
Proof.
  intros L1 L2. unfold mirrored, up, down, vadd, vmul, vneg.
  repeat (rewrite ?map2_length, ?map_length). repeat split; try lia;
    intros j a b c Ha Hb Hc; rewrite !map2_nth_error, ?nth_error_map, ?map2_nth_error in *; rewrite Hc in *;
    destruct (nth_error z j); try discriminate; destruct (nth_error sigma j); try discriminate; cbn in *;
    inversion Ha; inversion Hb; subst; ring.
Qed.

Lemma column_sum_app a b j : (column_sum (a ++ b) j == column_sum a j + column_sum b j)%Q.
Proof. induction a as [|x a IH]; unfold column_sum in *; cbn [app fold_right]; [ring|]. rewrite IH. ring. Qed.

Lemma pair_sum mu a b j : mirrored mu a b -> j < length mu -> (nth j a 0 + nth j b 0 == 2 * nth j mu 0)%Q.
Proof.
  intros (La & Lb & M) Hj.
  assert (X := M j (nth j a 0%Q) (nth j b 0%Q) (nth j mu 0%Q)).
  rewrite !(nth_error_nth' _ 0%Q) in X by lia. specialize (X eq_refl eq_refl eq_refl). Lqa.lra.
Qed.
Lemma flat_pair_sum mu (f g : row -> row) l j : j < length mu ->
  (forall z, In z l -> mirrored mu (f z) (g z)) ->
  (column_sum (flat_map (fun z => [f z; g z]) l) j == inject_Z (2 * Z.of_nat (length l)) * nth j mu 0)%Q.
Proof.
  intros Hj H. induction l as [|x l IH].
  - cbn. ring.
  - cbn [flat_map app]. unfold column_sum in *. cbn [fold_right].
    rewrite IH by (intros; apply H; simpl; auto).
    pose proof (pair_sum mu _ _ j (H x (or_introl eq_refl)) Hj) as E.
    change (length (x :: l)) with (S (length l)).
    replace (2 * Z.of_nat (S (length l)))%Z with (2 + 2 * Z.of_nat (length l))%Z by lia.
    rewrite inject_Z_plus. change (inject_Z 2) with 2%Q. rewrite Qmult_plus_distr_l. rewrite <- E. ring.
Qed.

Lemma pairs_flat n mu sigma noise (f g : row -> row) : Nat.even n = true ->
  length sigma = length mu -> (forall k, length (noise k) = length mu) ->
  (forall z, length z = length mu -> mirrored mu (f z) (g z) /\ f z = vadd (vmul z sigma) mu) ->
  pairs_ok n mu sigma noise (flat_map (fun z => [f z; g z]) (map noise (seq 0 (n / 2)))).
Proof.
  intros Hn L1 L2 H. assert (E : n = 2 * (n / 2)).
  { pose proof (proj1 (Nat.even_spec n) Hn) as [q Hq]. rewrite Hq. rewrite Nat.mul_comm, Nat.div_mul; lia. }
  assert (HZ : forall z, In z (map noise (seq 0 (n / 2))) -> length z = length mu).
  { intros z Hz. apply in_map_iff in Hz. destruct Hz as (k & <- & _). auto. }
  split; [|split].
  - rewrite flat_pair_length, map_length, seq_length. lia.
  - intros k Hk.
    assert (N : nth_error (map noise (seq 0 (n / 2))) k = Some (noise k)).
    { rewrite nth_error_map, (nth_error_nth' _ 0) by (rewrite seq_length; lia). rewrite seq_nth by lia. reflexivity. }
    destruct (flat_pair_nth f g _ k _ N) as [A B]. destruct (H (noise k) (L2 k)) as [M F].
    exists (f (noise k)), (g (noise k)). auto.
  - intros j Hj. rewrite (flat_pair_sum mu) by (auto; intros z Hz; apply H; auto).
    rewrite map_length, seq_length. rewrite E at 2. rewrite Nat2Z.inj_mul. reflexivity.
Qed.

Lemma symmetric_fill_ok n mu sigma noise : Nat.even n = true ->
  length sigma = length mu -> (forall k, length (noise k) = length mu) ->
  exists rows, symmetric_fill n mu sigma noise = Ok rows /\ pairs_ok n mu sigma noise rows.
Proof.
  intros Hn L1 L2. eexists; split; [apply symmetric_fill_eq; auto|].
  apply pairs_flat; auto. intros z Hz. split; [apply mirrored_up_down; auto|reflexivity].
Qed.
Lemma functional_sample_ok n mu sigma noise : Nat.even n = true ->
  length sigma = length mu -> (forall k, length (noise k) = length mu) ->
  exists rows, functional_sample n mu sigma noise = Ok rows /\ pairs_ok n mu sigma noise rows.
Proof.
  intros Hn L1 L2. unfold functional_sample, Nat.odd. rewrite Hn. cbn [negb]. eexists; split; [reflexivity|].
  cbv zeta. rewrite !map_map.
  replace (interleave _ _) with
    (flat_map (fun z => [vadd (vmul z sigma) mu; vadd (vneg (vmul z sigma)) mu]) (map noise (seq 0 (n / 2)))).
  - apply pairs_flat; auto. intros z Hz. split; [apply (mirrored_up_down mu sigma z); auto|reflexivity].
  - rewrite <- interleave_map, !map_map. reflexivity.
Qed.

(* Properties of the assertions in testing.py. *)
From Coq Require Import QArith Qabs Qround Lqa.
From Verif Require Import Prelude ExtQ TestModel TestSpec.
Close Scope Q_scope.
Open Scope nat_scope.

Lemma indices_spec shape ix : In ix (indices shape) <-> index shape ix.
Proof.
  unfold index. revert ix. induction shape as [|n shape IH]; intros ix; cbn [indices].
  - split; [intros [<-|[]]; constructor|intros H; inversion H; left; auto].
  - rewrite in_flat_map. split.
    + intros (i & Hi & H). apply in_map_iff in H. destruct H as (r & <- & H). apply in_seq in Hi. constructor; [lia|]. apply IH. auto.
    + intros H. inversion H as [|i m r s L F]; subst. exists i. split; [apply in_seq; lia|]. apply in_map_iff. exists r. split; auto. apply IH. auto.
Qed.
Lemma forall_indices f shape : forallb f (indices shape) = true <-> forall ix, index shape ix -> f ix = true.
Proof. rewrite forallb_forall. split; intros H ix I; apply H; apply indices_spec; auto. Qed.
Lemma shape_eqb_spec a b : shape_eqb a b = true <-> a = b.
Proof. unfold shape_eqb. destruct (list_eq_dec Nat.eq_dec a b); split; congruence. Qed.
Lemma isclose_spec r t n a b : isclose r t n a b = true <-> close r t n a b.
Proof.
  split.
  - destruct a, b; cbn; try discriminate; intros H; constructor; auto. apply Qle_bool_iff. auto.
  - intros H. inversion H; cbn; auto. apply Qle_bool_iff. auto.
Qed.
Lemma to_numpy_shape sp x d : a_shape (to_numpy sp x d) = shape_ x.
Proof. destruct x as [a|s f]; cbn; [destruct d|]; reflexivity. Qed.
Lemma to_numpy_float sp x d n ix : d = Some (Float n) \/ d = None -> a_at (to_numpy sp x d) ix = at_ x ix.
Proof. intros [-> | ->]; destruct x as [a|s f]; reflexivity. Qed.
Lemma float_dtype sp x : floating x -> exists n, a_dtype (to_numpy sp x None) = Float n.
Proof. destruct x as [a|s f]; cbn; [auto|]. intros _. eauto. Qed.
Lemma index_nil ix : index [] ix <-> ix = [].
Proof. unfold index. split; [intros H; inversion H; auto|intros ->; constructor]. Qed.
Lemma np_spec (a d : arr) r t n :
  (np_assert_allclose a d r t n = Passed <-> all_close r t n (Array a) (Array d)) /\ (np_assert_allclose a d r t n = Passed \/ np_assert_allclose a d r t n = Failed).
Proof.
  unfold np_assert_allclose, all_close. cbn [shape_ at_]. destruct a as [sa fa da], d as [sd fd dd]. cbn [a_shape a_at].
  assert (B : forall f g sh, (forallb (fun ix => isclose r t n (f ix) (g ix)) (indices sh) = true <-> forall ix, index sh ix -> close r t n (f ix) (g ix))).
  { intros f g sh. rewrite forall_indices. split; intros H ix I; apply isclose_spec; auto. }
  assert (W : forall (c : bool), ((if c then Passed else Failed) = Passed <-> c = true) /\ ((if c then Passed else Failed) = Passed \/ (if c then Passed else Failed) = Failed)).
  { intros [|]; split; auto; split; congruence. }
  destruct sa as [|n0 sa].
  - split; [|apply W]. rewrite (proj1 (W _)). rewrite (B (fun _ => fa []) fd sd). split.
    + intros H. right. left. auto.
    + intros [[H1 H2]|[[_ H]|[H1 H2]]]; auto.
      * intros ix I. rewrite <- H1 in *. specialize (H2 ix I). apply index_nil in I. subst ix. auto.
      * intros ix I. rewrite H1 in I. apply index_nil in I. subst ix. apply H2. apply index_nil. auto.
  - destruct sd as [|n1 sd].
    + split; [|apply W]. rewrite (proj1 (W _)). rewrite (B fa (fun _ => fd []) (n0 :: sa)). split.
      * intros H. right. right. auto.
      * intros [[H1 H2]|[[H1 H]|[H1 H2]]]; auto; discriminate.
    + destruct (shape_eqb (n0 :: sa) (n1 :: sd)) eqn:E.
      * apply shape_eqb_spec in E. split; [|apply W]. rewrite (proj1 (W _)). rewrite (B fa fd (n0 :: sa)). split.
        { intros H. left. auto. }
        { intros [[H1 H2]|[[H1 H]|[H1 H2]]]; auto; discriminate. }
      * split; auto. split; [discriminate|]. intros [[H1 H2]|[[H1 H]|[H1 H2]]]; try discriminate. apply shape_eqb_spec in H1. congruence.
Qed.
Lemma all_close_ext r t n a a' d d' : shape_ a = shape_ a' -> shape_ d = shape_ d' -> (forall ix, at_ a ix = at_ a' ix) -> (forall ix, at_ d ix = at_ d' ix) ->
  all_close r t n a d <-> all_close r t n a' d'.
Proof.
  intros A B C D. unfold all_close. rewrite A, B.
  split; (intros [[H1 H2]|[[H1 H2]|[H1 H2]]]; [left|right; left|right; right]; (split; [auto|]); intros ix I; specialize (H2 ix I);
    first [rewrite !C, !D in H2 | rewrite <- !C, <- !D in H2]; auto).
Qed.

(* ------------------------------------------------------------------------------- C182 *)
Theorem C182_float_partial : forall special actual desired rtol atol equal_nan, floating desired -> (rtol <> None \/ atol <> None) ->
  (assert_allclose special actual desired rtol atol equal_nan = Passed <-> all_close (or0 rtol) (or0 atol) equal_nan actual desired) /\
  (assert_allclose special actual desired rtol atol equal_nan = Passed \/ assert_allclose special actual desired rtol atol equal_nan = Failed).
Proof.
  intros sp a d r t n F T. destruct (float_dtype sp d F) as (bits & Db).
  assert (E : assert_allclose sp a d r t n = np_assert_allclose (to_numpy sp a (Some (Float bits))) (to_numpy sp d None) (or0 r) (or0 t) n).
  { unfold assert_allclose. rewrite Db. destruct r, t; try reflexivity. exfalso. tauto. }
  rewrite E. destruct (np_spec (to_numpy sp a (Some (Float bits))) (to_numpy sp d None) (or0 r) (or0 t) n) as [H1 H2]. split; [|exact H2].
  rewrite H1. apply all_close_ext; cbn [shape_ at_]; try apply to_numpy_shape; intros ix; apply (to_numpy_float sp _ _ bits); auto.
Qed.
Theorem C182_no_tolerance : forall special actual desired equal_nan, assert_allclose special actual desired None None equal_nan = TestingError.
Proof. reflexivity. Qed.
Lemma trunc_between q z : (0 <= z)%Z -> (inject_Z z <= q)%Q -> (q < inject_Z z + 1)%Q -> trunc q = z.
Proof.
  intros Z0 L U. unfold trunc. assert (Q0 : (0 <= q)%Q) by (apply Qle_trans with (inject_Z z); auto; rewrite <- Zle_Qle with (x := 0%Z); lia).
  apply Qle_bool_iff in Q0. rewrite Q0.
  assert (A : (z <= Qfloor q)%Z) by (rewrite <- (Qfloor_Z z); apply Qfloor_resp_le; auto).
  assert (B : (inject_Z (Qfloor q) < inject_Z (z + 1))%Q) by (apply Qle_lt_trans with q; [apply Qfloor_le|rewrite inject_Z_plus; auto]).
  rewrite <- Zlt_Qlt in B. lia.
Qed.
(* if the desired values are integers, fractions of the actual values are dropped: everything from d up to d + 1 passes, with no tolerance at all *)
Theorem C182_integers_refuted : forall special actual sh (d : list nat -> Z) (f : list nat -> Q) bits equal_nan,
  shape_ actual = sh -> (forall ix, at_ actual ix = XF (f ix)) ->
  (forall ix, index sh ix -> 0 <= d ix)%Z ->
  (forall ix, index sh ix -> (inject_Z (d ix) <= f ix /\ f ix < inject_Z (d ix) + 1)%Q) ->
  assert_allclose special actual (Array (mkA sh (fun ix => XF (inject_Z (d ix))) (Int bits))) (Some 0%Q) (Some 0%Q) equal_nan = Passed.
Proof.
  intros sp actual sh d f bits n Sa Fa D0 Df. unfold assert_allclose. cbn [to_numpy a_dtype].
  apply np_spec. unfold all_close. cbn [shape_ at_ a_shape a_at]. left. rewrite to_numpy_shape. split; [auto|]. intros ix I. rewrite Sa in I.
  replace (a_at (to_numpy sp actual (Some (Int bits))) ix) with (XF (inject_Z (trunc (f ix)))) by (destruct actual; cbn in Fa |- *; rewrite Fa; reflexivity).
  rewrite (trunc_between (f ix) (d ix)); [|apply D0; auto|apply Df; auto|apply Df; auto]. apply close_finite.
  setoid_replace (inject_Z (d ix) - inject_Z (d ix))%Q with 0%Q by ring. rewrite Qabs_pos by lra. lra.
Qed.
Print Assumptions C182_float_partial.
Print Assumptions C182_no_tolerance.
Print Assumptions C182_integers_refuted.
Example C182_example :
  floating (Nested [2] (fun _ => XF 1)) /\
  assert_allclose (fun _ => 0%Z) (Nested [2] (fun _ => XF (11 # 10))) (Nested [2] (fun _ => XF 1)) None (Some (1 # 5)%Q) true = Passed /\
  assert_allclose (fun _ => 0%Z) (Nested [2] (fun _ => XF (11 # 10))) (Nested [2] (fun _ => XF 1)) None (Some (1 # 20)%Q) true = Failed /\
  assert_allclose (fun _ => 0%Z) (Nested [2] (fun _ => XF (19 # 10))) (Array (mkA [2] (fun _ => XF 1) (Int 64))) None (Some 0%Q) true = Passed /\
  assert_allclose (fun _ => 0%Z) (Nested [2] (fun _ => XNaN)) (Nested [] (fun _ => XNaN)) None (Some 0%Q) true = Passed.
Proof. repeat split; reflexivity. Qed.

(* ------------------------------------------------------------------------------- C183 *)
Lemma stretches_combine s t : (length s <=? length t) && forallb (fun p => (fst p =? 1) || (fst p =? snd p)) (combine s t) = true <-> stretches s t.
Proof.
  revert t. induction s as [|d s IH]; intros t.
  - split; [constructor|reflexivity].
  - destruct t as [|n t]; [split; [discriminate|intros H; inversion H]|]. cbn [length combine forallb fst snd Nat.leb].
    specialize (IH t). destruct (length s <=? length t); cbn [andb] in *.
    + destruct (Nat.eqb_spec d 1) as [->|N1]; cbn [orb andb].
      * rewrite IH. split; [intros H; apply stretches_one; auto|]. intros H. inversion H; auto.
      * destruct (Nat.eqb_spec d n) as [->|N2]; cbn [andb].
        { rewrite IH. split; [intros H; apply stretches_same; auto|]. intros H. inversion H; auto. }
        { split; [discriminate|]. intros H. inversion H; congruence. }
    + split; [discriminate|]. intros H. assert (K : stretches s t) by (inversion H; auto). apply IH in K. discriminate.
Qed.
Lemma fits_spec src shape : fits src shape = true <-> broadcastable src shape.
Proof. unfold fits, broadcastable. rewrite <- stretches_combine, !rev_length. reflexivity. Qed.
Lemma map2_app {A B C} (f : A -> B -> C) a b a' b' : length a = length b -> map2 f (a ++ a') (b ++ b') = map2 f a b ++ map2 f a' b'.
Proof. revert b. induction a as [|x a IH]; intros [|y b] L; cbn in *; try discriminate; auto. f_equal. apply IH. lia. Qed.
Lemma rev_map2 {A B C} (f : A -> B -> C) a b : length a = length b -> rev (map2 f a b) = map2 f (rev a) (rev b).
Proof. revert b. induction a as [|x a IH]; intros [|y b] L; cbn in *; try discriminate; auto. rewrite map2_app by (rewrite !rev_length; lia). rewrite IH by lia. reflexivity. Qed.
Lemma rev_skipn' {A} (l : list A) k : rev (skipn k l) = firstn (length l - k) (rev l).
Proof. rewrite firstn_rev. f_equal. destruct (le_lt_dec k (length l)); [f_equal; lia|]. rewrite !skipn_all2 by lia. reflexivity. Qed.
Lemma aligned_fn s ix : length s <= length ix -> aligned s ix (map2 (fun d i => if d =? 1 then 0 else i) s (firstn (length s) ix)).
Proof.
  revert ix. induction s as [|d s IH]; intros ix L; [constructor|]. destruct ix as [|i ix]; [cbn in L; lia|]. cbn [length firstn map2].
  destruct (Nat.eqb_spec d 1) as [->|N]; constructor; auto; apply IH; cbn in L; lia.
Qed.
Lemma aligned_unique s ix j j' : aligned s ix j -> aligned s ix j' -> j = j'.
Proof. intros H. revert j'. induction H; intros j' K; inversion K; subst; try congruence; f_equal; auto. Qed.
Lemma source_aligned src ix : length src <= length ix -> aligned (rev src) (rev ix) (rev (source_index src ix)).
Proof.
  intros L. unfold source_index. rewrite rev_map2 by (rewrite skipn_length; lia). rewrite rev_skipn'.
  replace (length ix - (length ix - length src)) with (length (rev src)) by (rewrite rev_length; lia). apply aligned_fn. rewrite !rev_length. auto.
Qed.
Lemma index_length sh ix : index sh ix -> length ix = length sh.
Proof. unfold index. intros H. induction H; cbn; auto. Qed.
Lemma stretches_length s t : stretches s t -> length s <= length t.
Proof. intros H. induction H; cbn; lia. Qed.
Lemma aligned_self s ix : Forall2 (fun i n => i < n) ix s -> aligned s ix ix.
Proof. intros H. induction H as [|i n ix s L H IH]; [constructor|]. destruct (Nat.eq_dec n 1) as [->|N]; [replace i with 0 by lia; constructor; auto|constructor; auto]. Qed.
Lemma Forall2_rev {A B} (P : A -> B -> Prop) l l' : Forall2 P l l' -> Forall2 P (rev l) (rev l').
Proof. intros H. induction H; cbn; [constructor|]. apply Forall2_app; auto. Qed.
Lemma stretches_refl s : stretches s s.
Proof. induction s; constructor; auto. Qed.
Lemma fit_spec sp b shape n :
  (broadcastable (shape_ b) shape -> exists r, fit (to_numpy sp b None) shape = Ok r /\ forall ix v, index shape ix -> (element b ix v <-> v = a_at (astype sp (Float n) r) ix)) /\
  (~ broadcastable (shape_ b) shape -> fit (to_numpy sp b None) shape = Err ValueError).
Proof.
  unfold fit, broadcast_to. rewrite to_numpy_shape. split.
  - intros B. destruct (shape_eqb (shape_ b) shape) eqn:E.
    + apply shape_eqb_spec in E. eexists. split; [reflexivity|]. intros ix v I. cbn [astype a_at cast_value]. rewrite (to_numpy_float sp b None n) by auto.
      unfold element. split.
      * intros (j & A & ->). rewrite E in A. assert (K : aligned (rev shape) (rev ix) (rev ix)) by (apply aligned_self, Forall2_rev; auto).
        rewrite (aligned_unique _ _ _ _ A K), rev_involutive. reflexivity.
      * intros ->. exists (rev ix). split; [rewrite E; apply aligned_self, Forall2_rev; auto|]. rewrite rev_involutive. reflexivity.
    + apply fits_spec in B. rewrite B. eexists. split; [reflexivity|]. intros ix v I. cbn [astype a_at cast_value]. rewrite (to_numpy_float sp b None n) by auto.
      assert (L : length (shape_ b) <= length ix).
      { rewrite (index_length _ _ I). apply fits_spec in B. apply stretches_length in B. rewrite !rev_length in B. auto. }
      pose proof (source_aligned (shape_ b) ix L) as K. unfold element. split.
      * intros (j & A & ->). rewrite (aligned_unique _ _ _ _ A K), rev_involutive. reflexivity.
      * intros ->. eexists. split; [exact K|]. rewrite rev_involutive. reflexivity.
  - intros B. destruct (shape_eqb (shape_ b) shape) eqn:E.
    + apply shape_eqb_spec in E. exfalso. apply B. rewrite E. apply stretches_refl.
    + destruct (fits (shape_ b) shape) eqn:F; [apply fits_spec in F; contradiction|reflexivity].
Qed.
Theorem C183_float_partial : forall special x lb ub atol, floating x ->
  (broadcastable (shape_ lb) (shape_ x) -> broadcastable (shape_ ub) (shape_ x) ->
     (assert_almost_between special x lb ub atol = Passed <->
        forall ix l u, index (shape_ x) ix -> element lb ix l -> element ub ix u -> within atol l u (at_ x ix)) /\
     (assert_almost_between special x lb ub atol = Passed \/ assert_almost_between special x lb ub atol = Failed)) /\
  (~ broadcastable (shape_ lb) (shape_ x) \/ ~ broadcastable (shape_ ub) (shape_ x) -> assert_almost_between special x lb ub atol = Raised ValueError).
Proof.
  intros sp x lb ub atol F. destruct (float_dtype sp x F) as (n & Dx). unfold assert_almost_between. rewrite Dx, to_numpy_shape.
  destruct (fit_spec sp lb (shape_ x) n) as [L1 L2]. destruct (fit_spec sp ub (shape_ x) n) as [U1 U2]. split.
  - intros Bl Bu. destruct (L1 Bl) as (l & -> & El). destruct (U1 Bu) as (u & -> & Eu).
    set (t := forallb _ _). assert (W : ((if t then Passed else Failed) = Passed <-> t = true) /\ ((if t then Passed else Failed) = Passed \/ (if t then Passed else Failed) = Failed)).
    { destruct t; split; auto; split; congruence. }
    split; [|apply W]. rewrite (proj1 W). unfold t. rewrite forall_indices. unfold within, xle. split.
    + intros H ix a b I Ha Hb. apply El in Ha; auto. apply Eu in Hb; auto. subst a b. specialize (H ix I). apply andb_true_iff in H.
      rewrite (to_numpy_float sp x None n) in H by auto. destruct atol; exact H.
    + intros H ix I. specialize (H ix _ _ I (proj2 (El ix _ I) eq_refl) (proj2 (Eu ix _ I) eq_refl)). apply andb_true_iff.
      rewrite (to_numpy_float sp x None n) by auto. destruct atol; exact H.
  - intros [B|B].
    + rewrite (L2 B). reflexivity.
    + rewrite (U2 B). destruct (fit (to_numpy sp lb None) (shape_ x)) as [r|e] eqn:E; [reflexivity|].
      unfold fit, broadcast_to in E. destruct (shape_eqb _ _); [discriminate|]. destruct (fits _ _); [discriminate|]. injection E as <-. reflexivity.
Qed.
(* no NaN passes *)
Theorem C183_nan : forall special x lb ub atol ix, floating x -> index (shape_ x) ix -> at_ x ix = XNaN -> assert_almost_between special x lb ub atol <> Passed.
Proof.
  intros sp x lb ub atol ix F I N H. unfold assert_almost_between in H. destruct (float_dtype sp x F) as (n & Dx).
  destruct (fit _ _) as [l|]; [|discriminate]. destruct (fit _ _) as [u|]; [|discriminate].
  destruct (forallb _ _) eqn:E in H; [|discriminate]. rewrite forall_indices in E. rewrite to_numpy_shape in E. specialize (E ix I). apply andb_true_iff in E. destruct E as [_ E].
  rewrite (to_numpy_float sp x None n), N in E by auto. discriminate.
Qed.
(* integers: the fractions of the bounds are dropped, so values below the lower bound pass *)
Theorem C183_integers_refuted : forall special sh bits z q, (0 <= z)%Z -> (inject_Z z < q)%Q -> (q < inject_Z z + 1)%Q ->
  assert_almost_between special (Array (mkA sh (fun _ => XF (inject_Z z)) (Int bits))) (Nested [] (fun _ => XF q)) (Nested [] (fun _ => XF (inject_Z z))) None = Passed.
Proof.
  intros sp sh bits z q Z0 L U. unfold assert_almost_between. cbv zeta. change (to_numpy sp (Array (mkA sh (fun _ => XF (inject_Z z)) (Int bits))) None) with (mkA sh (fun _ => XF (inject_Z z)) (Int bits)).
  cbn [a_shape a_dtype].
  assert (T1 : trunc q = z) by (apply trunc_between; auto; apply Qlt_le_weak; auto).
  assert (T2 : trunc (inject_Z z) = z) by (apply trunc_between; auto; [apply Qle_refl|rewrite <- (Qplus_0_r (inject_Z z)) at 1; apply Qplus_lt_r; reflexivity]).
  assert (Fit : forall v, exists r, fit (to_numpy sp (Nested [] (fun _ => v)) None) sh = Ok r /\ forall ix, a_at r ix = v).
  { intros v. unfold fit, broadcast_to. rewrite to_numpy_shape. cbn [shape_]. destruct (shape_eqb [] sh); [eexists; split; [reflexivity|reflexivity]|].
    assert (K : fits [] sh = true) by (apply fits_spec; constructor). rewrite K. eexists. split; [reflexivity|reflexivity]. }
  destruct (Fit (XF q)) as (a & -> & Ea). destruct (Fit (XF (inject_Z z))) as (b & -> & Eb).
  assert (A : forallb (fun ix => xleb (cast_value sp (Int bits) (a_at a ix)) (XF (inject_Z z)) && xleb (XF (inject_Z z)) (cast_value sp (Int bits) (a_at b ix))) (indices sh) = true).
  { apply forallb_forall. intros ix _. rewrite Ea, Eb. cbn [cast_value xleb]. rewrite T1, T2. assert (K : Qle_bool (inject_Z z) (inject_Z z) = true) by (apply Qle_bool_iff, Qle_refl). rewrite K. reflexivity. }
  cbn [a_at astype]. rewrite A. reflexivity.
Qed.
Print Assumptions C183_float_partial.
Print Assumptions C183_nan.
Print Assumptions C183_integers_refuted.
Example C183_example :
  let x := Nested [2; 2] (fun ix => XF (inject_Z (Z.of_nat (hd 0 ix)))) in
  floating x /\ broadcastable [2; 1] [2; 2] /\
  assert_almost_between (fun _ => 0%Z) x (Nested [] (fun _ => XF 0)) (Nested [2; 1] (fun ix => XF (inject_Z (Z.of_nat (hd 0 ix))))) None = Passed /\
  assert_almost_between (fun _ => 0%Z) x (Nested [] (fun _ => XF (1 # 2))) (Nested [] (fun _ => XF 1)) (Some (1 # 4)%Q) = Failed /\
  assert_almost_between (fun _ => 0%Z) x (Nested [3] (fun _ => XF (1 # 2))) (Nested [] (fun _ => XF 1)) None = Raised ValueError /\
  assert_almost_between (fun _ => 0%Z) (Array (mkA [2] (fun _ => XF 0) (Int 64))) (Nested [] (fun _ => XF (1 # 2))) (Nested [] (fun _ => XF 0)) None = Passed.
Proof. repeat split; repeat constructor. Qed.

(* ------------------------------------------------------------------------------- C184 *)
Theorem C184_float_partial : forall special x value rtol atol, floating x -> shape_ x <> [] -> (rtol <> None \/ atol <> None) ->
  (assert_eachclose special x value rtol atol = Passed <-> forall ix, index (shape_ x) ix -> close (or0 rtol) (or0 atol) true (at_ x ix) value) /\
  (assert_eachclose special x value rtol atol = Passed \/ assert_eachclose special x value rtol atol = Failed).
Proof.
  intros sp x v r t F S0 T. destruct (float_dtype sp x F) as (n & Dx). unfold assert_eachclose. rewrite to_numpy_shape, Dx.
  destruct (shape_ x) as [|n0 sh] eqn:E; [congruence|]. rewrite <- E in *.
  set (a := Array (to_numpy sp x None)). set (d := Array _).
  assert (Fd : floating d) by (cbn; eauto). pose proof (C182_float_partial sp a d r t true Fd T) as [H1 H2]. destruct v; (split; [|exact H2]); rewrite H1; unfold all_close, a, d; cbn [shape_ at_ a_shape a_at cast_value];
    rewrite to_numpy_shape; (split;
      [ intros [[_ H]|[[H _]|[H _]]] ix I; [specialize (H ix I); rewrite (to_numpy_float sp x None n) in H by auto; exact H|congruence|congruence]
      | intros H; left; split; [reflexivity|]; intros ix I; rewrite (to_numpy_float sp x None n) by auto; apply H; auto ]).
Qed.
(* integers: the fraction of the value is dropped *)
Theorem C184_integers_refuted : forall special sh bits z q rtol, (0 <= z)%Z -> (inject_Z z < q)%Q -> (q < inject_Z z + 1)%Q -> sh <> [] -> (0 <= rtol)%Q ->
  assert_eachclose special (Array (mkA sh (fun _ => XF (inject_Z z)) (Int bits))) (XF q) (Some rtol) None = Passed.
Proof.
  intros sp sh bits z q r Z0 L U S0 R. unfold assert_eachclose. cbn [to_numpy a_shape a_dtype]. destruct sh as [|n sh]; [congruence|].
  unfold assert_allclose. cbn [to_numpy a_dtype]. apply np_spec. left. cbn [shape_ at_ a_shape a_at astype cast_value]. split; [reflexivity|]. intros ix I.
  assert (T1 : trunc q = z) by (apply trunc_between; auto; apply Qlt_le_weak; auto).
  assert (T2 : trunc (inject_Z z) = z) by (apply trunc_between; auto; [apply Qle_refl|rewrite <- (Qplus_0_r (inject_Z z)) at 1; apply Qplus_lt_r; reflexivity]).
  rewrite T1, T2. apply close_finite. setoid_replace (inject_Z z - inject_Z z)%Q with 0%Q by ring. rewrite (Qabs_pos 0) by lra.
  pose proof (Qabs_nonneg (inject_Z z)). nra.
Qed.
(* a single number cannot be tested at all *)
Theorem C184_scalar_refuted : forall special x value rtol atol, shape_ x = [] -> assert_eachclose special x value rtol atol = Raised IndexError.
Proof. intros sp x v r t H. unfold assert_eachclose. rewrite to_numpy_shape, H. reflexivity. Qed.
Theorem C184_shape_dtype : forall x a s n d,
  (assert_shape_matches x (Tuple s) = Passed <-> shape_ x = s) /\ (assert_shape_matches x (Size n) = Passed <-> shape_ x = [n]) /\
  (assert_dtype_matches a d = Passed <-> a_dtype a = d) /\
  (assert_shape_matches x (Tuple s) = Passed \/ assert_shape_matches x (Tuple s) = Failed) /\ (assert_dtype_matches a d = Passed \/ assert_dtype_matches a d = Failed).
Proof.
  intros x a s n d. assert (S0 : forall s, (if shape_eqb (shape_of x) s then Passed else Failed) = Passed <-> shape_ x = s).
  { intros s'. change (shape_of x) with (shape_ x). destruct (shape_eqb (shape_ x) s') eqn:E; [apply shape_eqb_spec in E; split; auto|].
    split; [discriminate|]. intros H. apply shape_eqb_spec in H. congruence. }
  unfold assert_shape_matches, assert_dtype_matches. split; [apply S0|]. split; [apply S0|]. split; [|split].
  - assert (D : dtype_eqb d (a_dtype a) = true <-> a_dtype a = d).
    { destruct d, (a_dtype a); cbn; split; intros H; try discriminate; try (apply Nat.eqb_eq in H; subst; reflexivity); injection H as <-; apply Nat.eqb_refl. }
    rewrite <- D. destruct (dtype_eqb d (a_dtype a)); split; congruence.
  - destruct (shape_eqb _ _); auto.
  - destruct (dtype_eqb _ _); auto.
Qed.
Print Assumptions C184_float_partial.
Print Assumptions C184_integers_refuted.
Print Assumptions C184_scalar_refuted.
Print Assumptions C184_shape_dtype.
Example C184_example :
  assert_eachclose (fun _ => 0%Z) (Nested [3] (fun _ => XF 2)) (XF (21 # 10)) None (Some (1 # 5)%Q) = Passed /\
  assert_eachclose (fun _ => 0%Z) (Nested [3] (fun _ => XF 2)) (XF (21 # 10)) None (Some (1 # 50)%Q) = Failed /\
  assert_eachclose (fun _ => 0%Z) (Array (mkA [3] (fun _ => XF 2) (Int 64))) (XF (29 # 10)) None (Some 0%Q) = Passed /\
  assert_shape_matches (Nested [3] (fun _ => XF 2)) (Size 3) = Passed.
Proof. repeat split; reflexivity. Qed.

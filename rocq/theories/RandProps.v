(* Random tensor makers: properties C25, C26. *)
From Coq Require Import QArith.
From Verif Require Import Prelude RandModel RandSpec RandProofs.
Close Scope Q_scope.
Open Scope Z_scope.

(* C25: integers.  `raw` is arbitrary: whatever the generator wrote. *)
Theorem C25_uniform_int_partial : forall d lb ub raw, supported d ->
  length lb = length raw -> length ub = length raw ->
  (forall i l u, nth_error lb i = Some l -> nth_error ub i = Some u ->
     representable d l /\ representable d u /\ l <= u /\ u - l + 1 <= imax d) ->
  exists out, make_uniform_int d (Some lb) (Some ub) raw = Ok out /\ length out = length raw /\
    forall i z l u, nth_error out i = Some z -> nth_error lb i = Some l -> nth_error ub i = Some u -> l <= z <= u.
Proof. exact uniform_int_ok. Qed.
Print Assumptions C25_uniform_int_partial.
Example C25_example : exists out,
  make_uniform_int uint8 (Some [10; 0; 200]) (Some [20; 3; 250]) [5; 255; 7] = Ok out /\ out = [19; 3; 212].
Proof. eexists; split; reflexivity. Qed.
Theorem C25_default_int : forall d raw,
  exists out, make_uniform_int d None None raw = Ok out /\ length out = length raw /\ Forall (fun z => 0 <= z < 2) out.
Proof. intros d raw. exact (irem_all 2 raw eq_refl). Qed.
Print Assumptions C25_default_int.
Theorem C25_randint : forall n raw, 0 < n ->
  exists out, make_randint n raw = Ok out /\ length out = length raw /\ Forall (fun z => 0 <= z < n) out.
Proof. exact irem_all. Qed.
Print Assumptions C25_randint.
Theorem C25_uniform_bool : forall lb ub raw, length lb = length raw -> length ub = length raw ->
  exists out, make_uniform_bool (Some lb) (Some ub) raw = Ok out /\ length out = length raw /\
    forall i z l u, nth_error out i = Some z -> nth_error lb i = Some l -> nth_error ub i = Some u ->
      Bool.le l u -> Bool.le l z /\ Bool.le z u.
Proof. exact uniform_bool_ok. Qed.
Print Assumptions C25_uniform_bool.
Theorem C25_uniform_float : forall lb ub raw, length lb = length raw -> length ub = length raw ->
  Forall (fun r => (0 <= r <= 1)%Q) raw ->
  exists out, make_uniform_float (Some lb) (Some ub) raw = Ok out /\ length out = length raw /\
    forall i z l u, nth_error out i = Some z -> nth_error lb i = Some l -> nth_error ub i = Some u ->
      (l <= u)%Q -> (l <= z <= u)%Q.
Proof. exact uniform_float_ok. Qed.
Print Assumptions C25_uniform_float.
Theorem C25_default_float : forall raw, Forall (fun r => (0 <= r <= 1)%Q) raw ->
  exists out, make_uniform_float None None raw = Ok out /\ length out = length raw /\ Forall (fun z => (0 <= z <= 1)%Q) out.
Proof. intros raw F. exists raw. repeat split; auto. Qed.
Print Assumptions C25_default_float.
(* one bound alone is rejected *)
Theorem C25_one_bound_rejected : forall d l raw lb rawb lf rawf,
  make_uniform_int d (Some l) None raw = Err ValueError /\ make_uniform_int d None (Some l) raw = Err ValueError /\
  make_uniform_bool (Some lb) None rawb = Err ValueError /\ make_uniform_bool None (Some lb) rawb = Err ValueError /\
  make_uniform_float (Some lf) None rawf = Err ValueError /\ make_uniform_float None (Some lf) rawf = Err ValueError.
Proof. repeat split. Qed.
Print Assumptions C25_one_bound_rejected.
(* C25 is false when the number of values between the bounds does not fit the dtype: the bounds themselves are
   representable, but every drawn value which does not become lb is out of bounds, and such values do occur. *)
Theorem C25_refuted : forall d lb ub, supported d -> representable d lb -> representable d ub ->
  imax d < ub - lb + 1 < 2 ^ bits d - 1 ->
  (exists r z, drawn d r /\ make_uniform_int d (Some [lb]) (Some [ub]) [r] = Ok [z] /\ ~ (lb <= z <= ub)) /\
  (forall r z, drawn d r -> make_uniform_int d (Some [lb]) (Some [ub]) [r] = Ok [z] -> z = lb \/ ~ (lb <= z <= ub)).
Proof.
  intros d lb ub H Hl Hu Hd. split.
  - destruct (elem_overflow_exists d lb ub H Hl Hu Hd) as (r & z & D & E & O). exists r, z.
    split; auto. cbn. rewrite E. split; auto. lia.
  - intros r z D E. cbn in E. destruct (uniform_int_elem d lb ub r) as [z'|] eqn:F; [|discriminate].
    inversion E; subst z'. destruct (supported_range d H) as (_ & _ & _ & _ & B).
    destruct (elem_overflow d lb ub r z H Hl Hu ltac:(lia) ltac:(lia) F); lia.
Qed.
Print Assumptions C25_refuted.
Example C25_refuted_example : make_uniform_int int8 (Some [-100]) (Some [100]) [7] = Ok [-103].
Proof. reflexivity. Qed.
(* ... and covering the whole range of the dtype fails altogether *)
Theorem C25_full_range_fails : forall d lb ub r, supported d -> lb = imin d -> ub = imax d ->
  make_uniform_int d (Some [lb]) (Some [ub]) [r] = Err RuntimeError.
Proof.
  intros d lb ub r H -> ->. cbn. unfold uniform_int_elem. rewrite diff_value by auto.
  destruct (supported_range d H) as (E & O & P & _).
  rewrite wrap_over by (auto; lia). unfold irem. replace (imax d - imin d + 1 - 2 ^ bits d =? 0) with true by lia.
  reflexivity.
Qed.
Print Assumptions C25_full_range_fails.

(* C26 *)
Open Scope nat_scope.
Theorem C26_make_gaussian : forall n mu sigma noise, Nat.even n = true ->
  length sigma = length mu -> (forall k, length (noise k) = length mu) ->
  exists rows, make_gaussian true (Some mu) (Some sigma) n noise = Ok rows /\ pairs_ok n mu sigma noise rows.
Proof. exact symmetric_fill_ok. Qed.
Print Assumptions C26_make_gaussian.
Theorem C26_functional : forall n mu sigma noise, Nat.even n = true ->
  length sigma = length mu -> (forall k, length (noise k) = length mu) ->
  exists rows, functional_sample n mu sigma noise = Ok rows /\ pairs_ok n mu sigma noise rows.
Proof. exact functional_sample_ok. Qed.
Print Assumptions C26_functional.
Theorem C26_odd_rejected : forall n mu sigma noise c s, Nat.even n = false ->
  functional_sample n mu sigma noise = Err ValueError /\ symmetric_fill n mu sigma noise = Err ValueError /\
  make_gaussian true c s n noise = Err ValueError.
Proof.
  intros n mu sigma noise c s H. unfold functional_sample, symmetric_fill, make_gaussian, Nat.odd. rewrite H. auto.
Qed.
Print Assumptions C26_odd_rejected.
Example C26_example :
  make_gaussian true (Some [1; 2]%Q) (Some [3; 1]%Q) 4 (fun k => [inject_Z (Z.of_nat k); 5]%Q) =
  Ok [[1; 7]; [1; -3]; [4; 7]; [-2; -3]]%Q.
Proof. reflexivity. Qed.

(* C215: which values the random tensor makers can give, and how often. *)
From Coq Require Import QArith Lqa.
From Verif Require Import Prelude RandModel RandSpec RandProofs.
Close Scope Q_scope.
Open Scope Z_scope.

(* How often each value between the bounds is drawn.  `raws d`: everything Tensor.random_() can write; `hits d lb ub v`: how many of these become v. *)
Definition raws (d : idtype) : list Z := map Z.of_nat (seq 0 (Z.to_nat (imax d + 1))).
Definition becomes (d : idtype) (lb ub v r : Z) : bool := match make_uniform_int d (Some [lb]) (Some [ub]) [r] with Ok [z] => z =? v | _ => false end.
Definition hits (d : idtype) (lb ub v : Z) : nat := length (filter (becomes d lb ub v) (raws d)).
Definition zrange (a : Z) (n : nat) : list Z := map (fun i => a + Z.of_nat i) (seq 0 n).
Definition count (f : Z -> bool) (a : Z) (n : nat) : nat := length (filter f (zrange a n)).
Lemma count_S f a n : count f a (S n) = (count f a n + if f (a + Z.of_nat n)%Z then 1 else 0)%nat.
Proof. unfold count, zrange. rewrite seq_S, map_app, filter_app, app_length. cbn. destruct (f (a + Z.of_nat n)); reflexivity. Qed.
Lemma count_app f a n m : count f a (n + m)%nat = (count f a n + count f (a + Z.of_nat n)%Z m)%nat.
Proof.
  induction m as [|m IH]; [unfold count, zrange; cbn; rewrite Nat.add_0_r; lia|]. rewrite Nat.add_succ_r, !count_S, IH. replace (a + Z.of_nat n + Z.of_nat m) with (a + Z.of_nat (n + m)) by lia. lia.
Qed.
Lemma count_ext f g a n : (forall x, a <= x < a + Z.of_nat n -> f x = g x) -> count f a n = count g a n.
Proof. intros H. induction n as [|n IH]; [reflexivity|]. rewrite !count_S, IH, H by (try (intros; apply H); lia). reflexivity. Qed.
Lemma count_shift f a b n : count f (a + b) n = count (fun x => f (x + b)) a n.
Proof. induction n as [|n IH]; [reflexivity|]. rewrite !count_S, IH. replace (a + b + Z.of_nat n) with (a + Z.of_nat n + b) by lia. reflexivity. Qed.
(* residues among consecutive integers *)
Lemma count_mod D c a n : 0 <= c < D -> Z.of_nat (count (fun x => x mod D =? c) a n) = (a + Z.of_nat n - 1 - c) / D - (a - 1 - c) / D.
Proof.
  intros H. induction n as [|n IH]; [unfold count; cbn; replace (a + 0 - 1 - c) with (a - 1 - c) by lia; lia|]. rewrite count_S. rewrite Nat2Z.inj_add, IH.
  set (x := a + Z.of_nat n). replace (a + Z.of_nat (S n) - 1 - c) with (x - c) by lia. replace (a + Z.of_nat n - 1 - c) with (x - 1 - c) by lia. clearbody x. clear IH.
  destruct (Z.eqb_spec (x mod D) c) as [E|E].
  - assert (A : (x - c) / D = x / D) by (symmetry; apply Z.div_unique with (r := 0); [lia|]; rewrite (Z.div_mod x D) at 1 by lia; lia).
    assert (B : (x - 1 - c) / D = x / D - 1) by (symmetry; apply Z.div_unique with (r := D - 1); [lia|]; rewrite (Z.div_mod x D) at 1 by lia; lia). lia.
  - pose proof (Z.mod_pos_bound x D ltac:(lia)) as P. pose proof (Z.div_mod x D ltac:(lia)) as DM. destruct (Z.ltb_spec c (x mod D)).
    + assert (A : (x - c) / D = x / D) by (symmetry; apply Z.div_unique with (r := x mod D - c); lia).
      assert (B : (x - 1 - c) / D = x / D) by (symmetry; apply Z.div_unique with (r := x mod D - 1 - c); lia). lia.
    + assert (A : (x - c) / D = x / D - 1) by (symmetry; apply Z.div_unique with (r := D + x mod D - c); lia).
      assert (B : (x - 1 - c) / D = x / D - 1) by (symmetry; apply Z.div_unique with (r := D + x mod D - 1 - c); lia). lia.
Qed.
Lemma count_mod_bound D c a n : 0 <= c < D -> Z.of_nat n / D <= Z.of_nat (count (fun x => x mod D =? c) a n) <= Z.of_nat n / D + 1.
Proof.
  intros H. rewrite count_mod by auto. set (y := a - 1 - c). replace (a + Z.of_nat n - 1 - c) with (y + Z.of_nat n) by lia. clearbody y.
  pose proof (Z.div_mod y D ltac:(lia)). pose proof (Z.mod_pos_bound y D ltac:(lia)). pose proof (Z.div_mod (Z.of_nat n) D ltac:(lia)). pose proof (Z.mod_pos_bound (Z.of_nat n) D ltac:(lia)).
  pose proof (Z.div_mod (y + Z.of_nat n) D ltac:(lia)). pose proof (Z.mod_pos_bound (y + Z.of_nat n) D ltac:(lia)). nia.
Qed.

Lemma becomes_spec d lb ub v r : supported d -> representable d lb -> representable d ub -> lb <= ub -> ub - lb + 1 <= imax d -> lb <= v <= ub ->
  becomes d lb ub v r = (wrap d (r - lb) mod (ub - lb + 1) =? v - lb).
Proof.
  intros H Hl Hu Le Hd Hv. destruct (supported_range d H) as (E & O & P & _). unfold becomes. cbn. unfold uniform_int_elem. rewrite diff_value by auto.
  rewrite (wrap_id d (ub - lb + 1)) by (auto; unfold representable in *; lia). unfold irem. destruct (Z.eqb_spec (ub - lb + 1) 0); [lia|]. cbn [bind].
  pose proof (Z.mod_pos_bound (isub d r lb) (ub - lb + 1) ltac:(lia)) as B. unfold iadd. rewrite wrap_id by (auto; unfold representable in *; lia). unfold isub.
  destruct (Z.eqb_spec (wrap d (r - lb) mod (ub - lb + 1) + lb) v), (Z.eqb_spec (wrap d (r - lb) mod (ub - lb + 1)) (v - lb)); auto; lia.
Qed.
Lemma hits_count d lb ub v : hits d lb ub v = count (becomes d lb ub v) 0 (Z.to_nat (imax d + 1)).
Proof. reflexivity. Qed.
(* the values r - lb after wrapping around, as two intervals *)
Lemma hits_intervals d lb ub v : supported d -> representable d lb -> representable d ub -> lb <= ub -> ub - lb + 1 <= imax d -> lb <= v <= ub ->
  let f := fun x => x mod (ub - lb + 1) =? v - lb in
  if signed d then
    if 0 <=? lb then hits d lb ub v = count f (- lb) (Z.to_nat (imax d + 1))
    else hits d lb ub v = (count f (- lb)%Z (Z.to_nat (imax d + 1 + lb)%Z) + count f (imin d) (Z.to_nat (- lb)%Z))%nat
  else hits d lb ub v = count f 0 (Z.to_nat (imax d + 1)).
Proof.
  intros H Hl Hu Le Hd Hv f. destruct (supported_range d H) as (E & O & P & SG & _). rewrite hits_count. unfold representable in Hl, Hu.
  assert (BS : forall x, becomes d lb ub v x = f (wrap d (x - lb))) by (intros x; apply becomes_spec; auto).
  assert (IM : signed d = false -> imin d = 0) by (unfold imin; intros ->; reflexivity).
  destruct (signed d) eqn:SD; [destruct (Z.leb_spec 0 lb)|].
  - replace (- lb) with (0 + - lb) by lia. rewrite count_shift. apply count_ext. intros x Hx. rewrite BS. f_equal. rewrite wrap_id by (auto; unfold representable; pose proof (SG eq_refl); lia). lia.
  - pose proof (SG eq_refl) as SG'. replace (Z.to_nat (imax d + 1)) with (Z.to_nat (imax d + 1 + lb)%Z + Z.to_nat (- lb)%Z)%nat by lia. rewrite count_app. f_equal.
    + replace (- lb) with (0 + - lb) by lia. rewrite count_shift. apply count_ext. intros x Hx. rewrite BS. f_equal. rewrite wrap_id by (auto; unfold representable; lia). lia.
    + replace (0 + Z.of_nat (Z.to_nat (imax d + 1 + lb))) with (imin d + (2 ^ bits d + lb)) by lia. rewrite count_shift. apply count_ext. intros x Hx. rewrite BS. f_equal.
      rewrite wrap_over by (auto; lia). lia.
  - specialize (IM eq_refl). replace (Z.to_nat (imax d + 1)) with (Z.to_nat lb + Z.to_nat (imax d + 1 - lb)%Z)%nat by lia. rewrite count_app.
    replace (Z.to_nat lb + Z.to_nat (imax d + 1 - lb)%Z)%nat with (Z.to_nat (imax d + 1 - lb)%Z + Z.to_nat lb)%nat by lia. rewrite (count_app f). rewrite Nat.add_comm. f_equal.
    + replace (0 + Z.of_nat (Z.to_nat lb)) with (0 + lb) by lia. rewrite count_shift. apply count_ext. intros x Hx. rewrite BS. f_equal. rewrite wrap_id by (auto; unfold representable; lia). lia.
    + replace (0 + Z.of_nat (Z.to_nat (imax d + 1 - lb))) with (0 + (imax d + 1 - lb)) by lia. rewrite count_shift. apply count_ext. intros x Hx. rewrite BS. f_equal. rewrite wrap_under by (auto; lia). lia.
Qed.
(* the draws are spread evenly over the values between the bounds *)
Theorem C215_nearly_uniform : forall d lb ub v w, supported d -> representable d lb -> representable d ub -> ub - lb + 1 <= imax d -> lb <= v <= ub -> lb <= w <= ub ->
  (hits d lb ub v <= hits d lb ub w + (if (lb <? 0)%Z then 2 else 1))%nat.
Proof.
  intros d lb ub v w H Hl Hu Hd Hv Hw. destruct (supported_range d H) as (E & O & P & SG & _).
  pose proof (hits_intervals d lb ub v H Hl Hu ltac:(lia) Hd Hv) as A. pose proof (hits_intervals d lb ub w H Hl Hu ltac:(lia) Hd Hw) as B. cbv zeta in A, B.
  assert (IM : signed d = false -> imin d = 0) by (unfold imin; intros ->; reflexivity). unfold representable in *.
  assert (CB : forall a n, (count (fun x => x mod (ub - lb + 1) =? v - lb)%Z a n <= count (fun x => x mod (ub - lb + 1) =? w - lb)%Z a n + 1)%nat).
  { intros a n. pose proof (count_mod_bound (ub - lb + 1) (v - lb) a n ltac:(lia)). pose proof (count_mod_bound (ub - lb + 1) (w - lb) a n ltac:(lia)). lia. }
  destruct (signed d) eqn:SD; [destruct (Z.leb_spec 0 lb)|]; rewrite A, B.
  - pose proof (CB (- lb) (Z.to_nat (imax d + 1))). destruct (lb <? 0); lia.
  - pose proof (CB (- lb) (Z.to_nat (imax d + 1 + lb))). pose proof (CB (imin d) (Z.to_nat (- lb))). replace (lb <? 0) with true by lia. lia.
  - pose proof (CB 0 (Z.to_nat (imax d + 1))). specialize (IM eq_refl). destruct (lb <? 0); lia.
Qed.
Lemma hits_positive d lb ub v : (0 < hits d lb ub v)%nat -> exists r, drawn d r /\ make_uniform_int d (Some [lb]) (Some [ub]) [r] = Ok [v].
Proof.
  unfold hits. intros H. destruct (filter (becomes d lb ub v) (raws d)) as [|r l] eqn:E; [cbn in H; lia|]. assert (I : In r (filter (becomes d lb ub v) (raws d))) by (rewrite E; left; auto).
  apply filter_In in I. destruct I as [I B]. exists r. unfold raws in I. apply in_map_iff in I. destruct I as (i & <- & I). apply in_seq in I. split; [unfold drawn; lia|].
  unfold becomes in B. destruct (make_uniform_int d (Some [lb]) (Some [ub]) [Z.of_nat i]) as [[|z [|]]|]; try discriminate. apply Z.eqb_eq in B. subst. reflexivity.
Qed.
(* every value between the bounds can be drawn: for bounds which are not negative, and for a number of values which is not more than imax + 1 + lb *)
Theorem C215_every_value_partial : forall d lb ub v, supported d -> representable d lb -> representable d ub -> ub - lb + 1 <= imax d -> lb <= v <= ub ->
  0 <= lb \/ ub - lb + 1 <= imax d + 1 + lb ->
  exists r, drawn d r /\ make_uniform_int d (Some [lb]) (Some [ub]) [r] = Ok [v].
Proof.
  intros d lb ub v H Hl Hu Hd Hv C. destruct (supported_range d H) as (E & O & P & SG & _). apply hits_positive. pose proof (hits_intervals d lb ub v H Hl Hu ltac:(lia) Hd Hv) as A. cbv zeta in A.
  unfold representable in *. assert (CB : forall a n, ub - lb + 1 <= Z.of_nat n -> (1 <= count (fun x => x mod (ub - lb + 1) =? v - lb)%Z a n)%nat).
  { intros a n Hn. pose proof (count_mod_bound (ub - lb + 1) (v - lb) a n ltac:(lia)) as [G _]. assert (1 <= Z.of_nat n / (ub - lb + 1)) by (apply Z.div_le_lower_bound; lia). lia. }
  destruct (signed d) eqn:SD; [destruct (Z.leb_spec 0 lb)|]; rewrite A.
  - pose proof (CB (- lb) (Z.to_nat (imax d + 1)) ltac:(lia)). lia.
  - pose proof (CB (- lb) (Z.to_nat (imax d + 1 + lb)) ltac:(lia)). lia.
  - pose proof (CB 0 (Z.to_nat (imax d + 1)) ltac:(lia)). lia.
Qed.
(* ... and not always otherwise: with a negative lower bound and imax values between the bounds, -1 is never drawn, although it lies between the bounds *)
Theorem C215_every_value_refuted : forall d lb ub, supported d -> signed d = true -> - imax d < lb <= -2 -> ub = lb + imax d - 1 ->
  lb <= -1 <= ub /\ representable d lb /\ representable d ub /\ forall r, drawn d r -> make_uniform_int d (Some [lb]) (Some [ub]) [r] <> Ok [-1].
Proof.
  intros d lb ub H SD Hl ->. destruct (supported_range d H) as (E & O & P & SG & B127). specialize (SG SD). unfold representable. split; [lia|]. split; [lia|]. split; [lia|].
  intros r Hr Eq. unfold drawn in Hr. assert (B : becomes d lb (lb + imax d - 1) (-1) r = true) by (unfold becomes; rewrite Eq; reflexivity).
  rewrite becomes_spec in B by (auto; unfold representable; lia). apply Z.eqb_eq in B. replace (lb + imax d - 1 - lb + 1) with (imax d) in B by lia.
  destruct (Z.leb_spec (r - lb) (imax d)).
  - rewrite wrap_id in B by (auto; unfold representable; lia). destruct (Z.eqb_spec (r - lb) (imax d)) as [e|e]; [rewrite e, Z.mod_same in B by lia; lia|]. rewrite Z.mod_small in B by lia. lia.
  - rewrite wrap_over in B by (auto; lia). set (x := r - lb - 2 ^ bits d) in *.
    assert (G : x mod imax d = x + 2 * imax d \/ x mod imax d = x + imax d).
    { destruct (Z.ltb_spec x (- imax d)); [left; symmetry; apply Z.mod_unique with (q := -2); lia|right; symmetry; apply Z.mod_unique with (q := -1); lia]. }
    lia.
Qed.
(* the makers which take the remainder only: values below n *)
Theorem C215_randint_uniform : forall d n v w, supported d -> 0 < n -> 0 <= v < n -> 0 <= w < n ->
  let hit := fun v => length (filter (fun r => match make_randint n [r] with Ok [z] => z =? v | _ => false end) (raws d)) in
  (hit v <= hit w + 1)%nat /\ (n <= imax d + 1 -> exists r, drawn d r /\ make_randint n [r] = Ok [v]).
Proof.
  intros d n v w H Hn Hv Hw hit. destruct (supported_range d H) as (E & O & P & SG & _).
  assert (HC : forall v, hit v = count (fun x => x mod n =? v) 0 (Z.to_nat (imax d + 1))).
  { intros u. unfold hit. change (raws d) with (zrange 0 (Z.to_nat (imax d + 1))). unfold count. f_equal. apply filter_ext. intros r. unfold make_randint, irem. cbn. destruct (Z.eqb_spec n 0); [lia|]. reflexivity. }
  split.
  - rewrite !HC. pose proof (count_mod_bound n v 0 (Z.to_nat (imax d + 1)) ltac:(lia)). pose proof (count_mod_bound n w 0 (Z.to_nat (imax d + 1)) ltac:(lia)). lia.
  - intros L. exists v. split; [unfold drawn; lia|]. unfold make_randint, irem. cbn. destruct (Z.eqb_spec n 0); [lia|]. rewrite Z.mod_small by lia. reflexivity.
Qed.
(* booleans and floats *)
Theorem C215_every_bool_and_float : (forall v, make_uniform_bool (Some [false]) (Some [true]) [v] = Ok [v] /\ make_uniform_bool None None [v] = Ok [v]) /\
  (forall lb ub z, lb <= z <= ub -> exists r out, 0 <= r <= 1 /\ make_uniform_float (Some [lb]) (Some [ub]) [r] = Ok [out] /\ out == z)%Q.
Proof.
  split; [intros []; split; reflexivity|]. intros lb ub z H. destruct (Qlt_le_dec lb ub) as [L|L].
  - exists ((z - lb) / (ub - lb))%Q. eexists. split; [|split; [reflexivity|]].
    + split; [apply Qle_shift_div_l; lra|apply Qle_shift_div_r; lra].
    + field. lra.
  - exists 0%Q. eexists. split; [lra|]. split; [reflexivity|]. lra.
Qed.
Print Assumptions C215_nearly_uniform.
Print Assumptions C215_every_value_partial.
Print Assumptions C215_every_value_refuted.
Print Assumptions C215_randint_uniform.
Print Assumptions C215_every_bool_and_float.
Example C215_uniform_example : supported int8 /\ representable int8 (-60) /\ representable int8 66 /\ 66 - -60 + 1 <= imax int8 /\
  hits int8 (-60) 66 (-1) = 0%nat /\ hits int8 (-60) 66 0 = 1%nat /\ hits int8 (-60) 66 66 = 2%nat /\ hits uint8 100 199 150 = 3%nat /\ hits uint8 100 199 160 = 2%nat.
Proof. repeat split; try (vm_compute; congruence); vm_compute; auto. Qed.

(* C201: CMAES follows shifts, a change of the unit and reflections of coordinates; the separable variant also permutations of coordinates. *)
From Coq Require Import Reals Lra Permutation.
From Verif Require Import Prelude MatLib RankModel CmaModel CinModel.
Open Scope R_scope.

(* ---- spec ---- *)
(* new coordinate i is the old coordinate pm i, possibly reflected, in another unit and from another origin *)
Record change := Change { c_unit : R; c_sign : nat -> R; c_perm : nat -> nat; c_origin : vect }.
Definition admissible (d : nat) (separable : bool) (h : change) : Prop :=
  0 < c_unit h /\ (forall i, (i < d)%nat -> c_sign h i = 1 \/ c_sign h i = -1) /\
  (forall i, (i < d)%nat -> (c_perm h i < d)%nat) /\ (forall i j, (i < d)%nat -> (j < d)%nat -> c_perm h i = c_perm h j -> i = j) /\
  (separable = false -> forall i, (i < d)%nat -> c_perm h i = i).
Definition direction (h : change) (v : vect) : vect := fun i => c_sign h i * v (c_perm h i).
Definition directions (h : change) (C : mat) : mat := fun i j => c_sign h i * c_sign h j * C (c_perm h i) (c_perm h j).
Definition point (h : change) (x : vect) : vect := fun i => c_unit h * direction h x i + c_origin h i.
(* the options of CMAES, with the limits on the standard deviations in the new unit *)
Definition in_unit (h : change) (o : options) : options :=
  mkOpt (o_c_m o) (o_c_sigma o) (o_c_sigma_ratio o) (o_damp o) (o_damp_ratio o) (o_c_c o) (o_c_c_ratio o) (o_c_1 o) (o_c_1_ratio o) (o_c_mu o) (o_c_mu_ratio o)
    (o_active o) (o_squared o) (option_map (Rmult (c_unit h)) (o_min o)) (option_map (Rmult (c_unit h)) (o_max o)) (o_separable o) (o_limit o).
Definition changed_state (d : nat) (h : change) (s s' : state) : Prop :=
  veq d (s_m s') (point h (s_m s)) /\ s_sigma s' = c_unit h * s_sigma s /\ meq d (s_C s') (directions h (s_C s)) /\ meq d (s_A s') (directions h (s_A s)) /\
  veq d (s_p_sigma s') (direction h (s_p_sigma s)) /\ veq d (s_p_c s') (direction h (s_p_c s)) /\ s_steps s' = s_steps s.
Definition changed_generation (d : nat) (h : change) (g : R -> R) (a a' : list vect * list R * option state) : Prop :=
  Forall2 (fun x x' => veq d x' (point h x)) (fst (fst a)) (fst (fst a')) /\ snd (fst a') = map g (snd (fst a)) /\
  match snd a, snd a' with Some s, Some s' => changed_state d h s s' | None, None => True | _, _ => False end.
(* the lower triangular factor with positive diagonal *)
Definition factor_of (d : nat) (C A : mat) : Prop :=
  (forall i j, (i < j)%nat -> (j < d)%nat -> A i j = 0) /\ (forall i, (i < d)%nat -> 0 < A i i) /\ meq d (mmul d A (mtr A)) C.
Definition cholesky_works (d : nat) (chol : mat -> option mat) : Prop :=
  (forall C A, chol C = Some A -> factor_of d C A) /\ (forall C A, factor_of d C A -> chol C <> None).

(* ---- proofs ---- *)
Lemma sumn_split n f j : (j < n)%nat -> (forall k, (j < k)%nat -> (k < n)%nat -> f k = 0) -> sumn n f = sumn j f + f j.
Proof.
  induction n as [|n IH]; intros H Z; [lia|]. cbn [sumn]. destruct (Nat.eq_dec j n) as [->|N]; auto. rewrite IH, (Z n) by (auto; lia). ring.
Qed.
Lemma factor_unique d C A B : factor_of d C A -> factor_of d C B -> meq d A B.
Proof.
  intros (LA & PA & EA) (LB & PB & EB).
  assert (E : forall i j, (i < d)%nat -> (j < d)%nat -> sumn d (fun k => A i k * A j k) = sumn d (fun k => B i k * B j k)).
  { intros i j Hi Hj. specialize (EA i j Hi Hj). specialize (EB i j Hi Hj). unfold mmul, mtr in *. congruence. }
  assert (Q : forall j, (j < d)%nat -> forall i, (i < d)%nat -> A i j = B i j).
  { intros j. induction j as [j IH] using lt_wf_ind. intros Hj.
    assert (S : forall i, (i < d)%nat -> A i j * A j j = B i j * B j j).
    { intros i Hi. specialize (E i j Hi Hj). rewrite (sumn_split d _ j Hj) in E by (intros k K1 K2; rewrite (LA j k) by auto; ring).
      rewrite (sumn_split d (fun k => B i k * B j k) j Hj) in E by (intros k K1 K2; rewrite (LB j k) by auto; ring).
      rewrite (sumn_ext j _ (fun k => B i k * B j k)) in E by (intros k Hk; rewrite !IH by (auto; lia); reflexivity). lra. }
    assert (D : A j j = B j j) by (pose proof (S j Hj); pose proof (PA j Hj); pose proof (PB j Hj); nra).
    intros i Hi. specialize (S i Hi). rewrite D in S. pose proof (PB j Hj). apply Rmult_eq_reg_r in S; auto. lra. }
  intros i j Hi Hj. auto.
Qed.
Lemma rsum_perm l l' : Permutation l l' -> rsum l = rsum l'.
Proof. induction 1; unfold rsum in *; cbn [fold_right] in *; lra. Qed.
Lemma sumn_list n f : sumn n f = rsum (map f (seq 0 n)).
Proof.
  induction n as [|n IH]; [reflexivity|]. rewrite seq_S, map_app. cbn [sumn plus map]. rewrite IH. generalize (map f (seq 0 n)). intros l. unfold rsum. induction l as [|a l IHl]; cbn; [ring|]. rewrite <- IHl. ring.
Qed.
Lemma sumn_perm n p f : (forall i, (i < n)%nat -> (p i < n)%nat) -> (forall i j, (i < n)%nat -> (j < n)%nat -> p i = p j -> i = j) -> sumn n (fun i => f (p i)) = sumn n f.
Proof.
  intros R In. rewrite !sumn_list, <- (map_map p f). apply rsum_perm, Permutation_map. apply NoDup_Permutation_bis.
  - assert (Q : forall l, NoDup l -> (forall i, List.In i l -> (i < n)%nat) -> NoDup (map p l)).
    { induction l as [|a l IH]; intros N H; cbn; constructor; inversion N; subst.
      - intros I. apply in_map_iff in I. destruct I as (b & E & I). apply In in E; [subst; contradiction| |]; apply H; [right|left]; auto.
      - apply IH; auto. intros; apply H; right; auto. }
    apply Q; [apply seq_NoDup|]. intros i I. apply in_seq in I. lia.
  - rewrite map_length. auto.
  - intros x I. apply in_map_iff in I. destruct I as (i & <- & I). apply in_seq in I. apply in_seq. specialize (R i). lia.
Qed.

Section CHANGE.
Variables (P : params) (h : change).
Notation d := (p_d P).
Hypothesis Ad : admissible d (p_separable P) h.
Notation c := (c_unit h).
Notation s := (c_sign h).
Notation p := (c_perm h).
Definition scaled_limits : params :=
  mkPar (p_d P) (p_popsize P) (p_c_m P) (p_c_sigma P) (p_damp P) (p_c_c P) (p_c_1 P) (p_c_mu P) (p_active P) (p_squared P) (p_separable P)
    (option_map (Rmult c) (p_min P)) (option_map (Rmult c) (p_max P)) (p_freq P).
Notation P' := scaled_limits.
Notation turned := (Forall2 (fun v v' => veq d v' (direction h v))).
Lemma c_pos : 0 < c. Proof. apply Ad. Qed.
Lemma sq i : (i < d)%nat -> s i * s i = 1.
Proof. intros Hi. destruct Ad as (_ & S & _). destruct (S i Hi) as [E|E]; rewrite E; ring. Qed.
Lemma p_lt i : (i < d)%nat -> (p i < d)%nat. Proof. apply Ad. Qed.
Lemma p_inj i j : (i < d)%nat -> (j < d)%nat -> p i = p j -> i = j. Proof. apply Ad. Qed.
Lemma perm_sum f : sumn d (fun i => f (p i)) = sumn d f. Proof. apply sumn_perm; [apply p_lt|apply p_inj]. Qed.
Lemma norm2_turn v v' : veq d v' (direction h v) -> norm2 P v' = norm2 P v.
Proof.
  intros H. unfold norm2. rewrite <- (perm_sum (fun i => v i * v i)). apply sumn_ext. intros i Hi. rewrite (H i Hi). unfold direction. transitivity (s i * s i * (v (p i) * v (p i))); [ring|]. rewrite sq by auto. ring.
Qed.
Lemma mv_turn A A' z z' : meq d A' (directions h A) -> veq d z' (direction h z) -> veq d (mv d A' z') (direction h (mv d A z)).
Proof.
  intros HA Hz i Hi. unfold mv, direction. rewrite <- (perm_sum (fun k => A (p i) k * z k)), <- sumn_mul_l. apply sumn_ext. intros k Hk. rewrite (HA i k Hi Hk), (Hz k Hk). unfold directions, direction.
  transitivity (s k * s k * (s i * (A (p i) (p k) * z (p k)))); [ring|]. rewrite sq by auto. ring.
Qed.
Lemma turn_nth vs vs' i : turned vs vs' -> veq d (nth i vs' vzero) (direction h (nth i vs vzero)).
Proof. intros F. revert i. induction F as [|v v' l l' H F IH]; intros [|i]; cbn [nth]; auto; intros j Hj; unfold direction, vzero; ring. Qed.
Lemma sum_turn (ws : list R) vs vs' i : turned vs vs' -> (i < d)%nat ->
  vsum (map2 vscale ws vs') i = s i * vsum (map2 vscale ws vs) (p i).
Proof.
  intros F Hi. unfold vsum. revert vs vs' F. induction ws as [|w ws IH]; intros vs vs' F; [cbn; ring|]. destruct F as [|v v' l l' H F]; [cbn; ring|].
  cbn [map2 map]. unfold rsum in *. cbn [fold_right]. rewrite (IH l l' F). unfold vscale. rewrite (H i Hi). unfold direction. ring.
Qed.
Lemma displacement_turn topk vs vs' ws : turned vs vs' -> veq d (displacement P' topk vs' ws) (direction h (displacement P topk vs ws)).
Proof.
  intros F i Hi. unfold displacement. cbn [p_popsize scaled_limits]. unfold direction. apply sum_turn; auto. unfold pick. induction (topk _ ws) as [|k l IH]; cbn; constructor; auto. apply turn_nth. auto.
Qed.
Lemma reweighted_turn ws zs zs' : turned zs zs' -> reweighted P' ws zs' = reweighted P ws zs.
Proof.
  intros F. unfold reweighted. cbn [p_active p_d scaled_limits]. destruct (p_active P); auto. revert ws. induction F as [|z z' l l' H F IH]; intros [|w ws]; cbn [map2]; auto. rewrite IH.
  change (norm2 P' z') with (norm2 P z'). rewrite (norm2_turn z z' H). reflexivity.
Qed.
Lemma outer_sum_turn ws ys ys' i j : turned ys ys' -> (i < d)%nat -> (j < d)%nat ->
  msum (map2 (fun w y => mscale w (outer y y)) ws ys') i j = s i * s j * msum (map2 (fun w y => mscale w (outer y y)) ws ys) (p i) (p j).
Proof.
  intros F Hi Hj. unfold msum. revert ys ys' F. induction ws as [|w ws IH]; intros ys ys' F; [cbn; ring|]. destruct F as [|y y' l l' H F]; [cbn; ring|].
  cbn [map2 map]. unfold rsum in *. cbn [fold_right]. rewrite (IH l l' F). unfold mscale, outer. rewrite (H i Hi), (H j Hj). unfold direction. ring.
Qed.
Lemma square_sum_turn ws ys ys' q j : turned ys ys' -> (j < d)%nat ->
  rsum (map2 (fun w y => w * (y j ^ 2 - q)) ws ys') = rsum (map2 (fun w y => w * (y (p j) ^ 2 - q)) ws ys).
Proof.
  intros F Hj. revert ys ys' F. induction ws as [|w ws IH]; intros ys ys' F; [reflexivity|]. destruct F as [|y y' l l' H F]; [reflexivity|].
  cbn [map2]. unfold rsum in *. cbn [fold_right]. rewrite (IH l l' F), (H j Hj). unfold direction. replace ((s j * y (p j)) ^ 2) with (s j * s j * (y (p j)) ^ 2) by ring. rewrite sq by auto. ring.
Qed.
Lemma diagonal_turn (f f' : vect) : (forall i, (i < d)%nat -> f' i = f (p i)) -> meq d (diagonal f') (directions h (diagonal f)).
Proof.
  intros H i j Hi Hj. unfold directions, diagonal. destruct (Nat.eqb_spec i j) as [->|N].
  - rewrite Nat.eqb_refl, H, sq by auto. ring.
  - destruct (Nat.eqb_spec (p i) (p j)) as [E|E]; [apply p_inj in E; auto; contradiction|ring].
Qed.
Lemma diag_at C C' i : meq d C' (directions h C) -> (i < d)%nat -> C' i i = C (p i) (p i).
Proof. intros H Hi. rewrite (H i i Hi Hi). unfold directions. rewrite sq by auto. ring. Qed.
Lemma update_C_turn C C' pc pc' zs zs' ys ys' ws t : meq d C' (directions h C) -> veq d pc' (direction h pc) -> turned zs zs' -> turned ys ys' ->
  meq d (update_C P' C' pc' zs' ys' ws t) (directions h (update_C P C pc zs ys ws t)).
Proof.
  intros HC Hp Hz Hy. unfold update_C. rewrite (reweighted_turn ws zs zs' Hz). cbn [p_separable scaled_limits p_c_mu]. change (c1a P' t) with (c1a P t). change (weighted_pc P' t) with (weighted_pc P t).
  change (weights P') with (weights P). case (p_separable P).
  - apply diagonal_turn. intros i Hi. cbv zeta. rewrite (diag_at C C' i HC Hi), (Hp i Hi), (square_sum_turn _ _ _ _ i Hy Hi). unfold direction.
    replace ((s i * pc (p i)) ^ 2) with (s i * s i * (pc (p i)) ^ 2) by ring. rewrite sq by auto. ring.
  - intros i j Hi Hj. cbv zeta. unfold directions, madd, mscale, outer, vscale. rewrite (HC i j Hi Hj), (Hp i Hi), (Hp j Hj). unfold directions, direction.
    pose proof (outer_sum_turn (reweighted P ws zs) ys ys' i j Hy Hi Hj) as E. unfold mscale, outer in E. rewrite E. ring.
Qed.
Lemma clamp_scale x : clamp (option_map (Rmult c) (p_min P)) (option_map (Rmult c) (p_max P)) (c * x) = c * clamp (p_min P) (p_max P) x.
Proof.
  pose proof c_pos as C. assert (Mn : forall a b, Rmin (c * a) (c * b) = c * Rmin a b) by (intros; unfold Rmin; destruct (Rle_dec (c * a) (c * b)), (Rle_dec a b); nra).
  assert (Mx : forall a b, Rmax (c * a) (c * b) = c * Rmax a b) by (intros; unfold Rmax; destruct (Rle_dec (c * a) (c * b)), (Rle_dec a b); nra).
  unfold clamp. destruct (p_min P), (p_max P); cbn [option_map]; rewrite ?Mx, ?Mn; reflexivity.
Qed.
Lemma limit_turn sg C C' : 0 < sg -> meq d C' (directions h C) -> meq d (limit_C P' (c * sg) C') (directions h (limit_C P sg C)).
Proof.
  intros Hs HC. pose proof c_pos as Cp.
  assert (N : forall i, (i < d)%nat -> (clamp (option_map (Rmult c) (p_min P)) (option_map (Rmult c) (p_max P)) (c * sg * sqrt (C' i i)) / (c * sg)) ^ 2 = (clamp (p_min P) (p_max P) (sg * sqrt (C (p i) (p i))) / sg) ^ 2).
  { intros i Hi. rewrite (diag_at C C' i HC Hi), Rmult_assoc, clamp_scale. f_equal. field. lra. }
  assert (M : meq d (limit_stdev P' (c * sg) C') (directions h (limit_stdev P sg C))).
  { unfold limit_stdev. cbn [p_separable p_min p_max scaled_limits]. case (p_separable P).
    - apply diagonal_turn. intros i Hi. apply N. auto.
    - intros i j Hi Hj. unfold directions. destruct (Nat.eqb_spec i j) as [->|E].
      + rewrite Nat.eqb_refl, N, sq by auto. ring.
      + destruct (Nat.eqb_spec (p i) (p j)) as [E'|E']; [apply p_inj in E'; auto; contradiction|]. rewrite (HC i j Hi Hj). reflexivity. }
  unfold limit_C. cbn [p_min p_max scaled_limits]. destruct (p_min P), (p_max P); cbn [option_map]; auto.
Qed.
Lemma factor_turn C C' A : p_separable P = false -> meq d C' (directions h C) -> factor_of d C A -> factor_of d C' (directions h A).
Proof.
  intros NS HC (L & D & E). assert (Pi : forall i, (i < d)%nat -> p i = i) by (apply Ad; auto). split; [|split].
  - intros i j Hij Hj. unfold directions. rewrite !Pi, L by lia. ring.
  - intros i Hi. unfold directions. rewrite Pi, sq by auto. rewrite Rmult_1_l. auto.
  - intros i j Hi Hj. rewrite (HC i j Hi Hj). unfold directions. rewrite !Pi by auto. rewrite <- (E i j Hi Hj). unfold mmul, mtr. rewrite <- sumn_mul_l. apply sumn_ext. intros k Hk. rewrite !Pi by auto.
    transitivity (s k * s k * (s i * s j * (A i k * A j k))); [ring|]. rewrite sq by auto. ring.
Qed.
Lemma turn_back C C' : p_separable P = false -> meq d C' (directions h C) -> meq d C (directions h C').
Proof.
  intros NS HC i j Hi Hj. assert (Pi : forall i, (i < d)%nat -> p i = i) by (apply Ad; auto). unfold directions. rewrite !Pi, (HC i j Hi Hj) by auto. unfold directions. rewrite !Pi by auto.
  transitivity (s i * s i * (s j * s j) * C i j); [rewrite !sq by auto; ring|ring].
Qed.
Variable chol : mat -> option mat.
Hypothesis Ch : cholesky_works d chol.
Lemma chol_turn C C' : p_separable P = false -> meq d C' (directions h C) ->
  match chol C, chol C' with Some A, Some A' => meq d A' (directions h A) | None, None => True | _, _ => False end.
Proof.
  intros NS HC. destruct Ch as [C1 C2]. destruct (chol C) as [A|] eqn:E, (chol C') as [A'|] eqn:E'; auto.
  - apply (factor_unique d C'); auto. apply factor_turn with (C := C); auto.
  - apply (C2 C' (directions h A)); auto. apply factor_turn with (C := C); auto.
  - apply (C2 C (directions h A')); auto. apply factor_turn with (C := C'); auto. apply turn_back; auto.
Qed.
Variables (topk : nat -> list R -> list nat) (order : list R -> list nat) (g : R -> R) (f f' : vect -> R).
Hypothesis Order : forall l, order (map g l) = order l.
Hypothesis Sees : forall x y, veq d x y -> f' x = f' y.
Hypothesis Moved : forall x, f' (point h x) = g (f x).
Lemma xs_turn st st' zs zs' : changed_state d h st st' -> turned zs zs' -> turned (ys_of P st zs) (ys_of P' st' zs') /\
  Forall2 (fun x x' => veq d x' (point h x)) (xs_of P st zs) (xs_of P' st' zs').
Proof.
  intros (H1 & H2 & H3 & H4 & H5 & H6 & H7) F.
  assert (Y : turned (ys_of P st zs) (ys_of P' st' zs')) by (unfold ys_of; cbn [p_d scaled_limits]; induction F; cbn; constructor; auto; apply mv_turn; auto).
  split; auto. unfold xs_of. induction Y as [|y y' l l' H Y IH]; cbn; constructor; auto.
  intros i Hi. unfold vplus, vscale, point. rewrite (H1 i Hi), H2, (H i Hi). unfold point, direction, vplus, vscale. ring.
Qed.
Lemma step_turn st st' zs zs' idx : 0 < s_sigma st -> changed_state d h st st' -> turned zs zs' ->
  let r := cma_step P (total chol) topk st zs idx in let r' := cma_step P' (total chol) topk st' zs' idx in
  0 < s_sigma r /\
  (p_separable P = true \/ Nat.eqb ((s_steps st + 1) mod p_freq P) 0 = false \/ chol (s_C r) <> None -> changed_state d h r r') /\ meq d (s_C r') (directions h (s_C r)).
Proof.
  intros Hs R F. destruct (xs_turn st st' zs zs' R F) as [Y X]. destruct R as (H1 & H2 & H3 & H4 & H5 & H6 & H7).
  unfold cma_step. cbn [p_c_m p_freq scaled_limits]. change (assigned P' idx) with (assigned P idx). set (ws := assigned P idx). cbv zeta. cbn [s_sigma s_C s_m s_A s_p_sigma s_p_c s_steps].
  pose proof (displacement_turn topk zs zs' ws F) as Dz. pose proof (displacement_turn topk _ _ ws Y) as Dy.
  set (lo := displacement P topk zs ws) in *. set (lo' := displacement P' topk zs' ws) in *. set (sh := displacement P topk (ys_of P st zs) ws) in *. set (sh' := displacement P' topk (ys_of P' st' zs') ws) in *.
  set (ps := new_p_sigma P (s_p_sigma st) lo). set (ps' := new_p_sigma P' (s_p_sigma st') lo').
  assert (Ps : veq d ps' (direction h ps)).
  { intros i Hi. unfold ps, ps', new_p_sigma, vplus, vscale, direction. change (discount P') with (discount P). cbn [p_c_sigma scaled_limits]. rewrite (H5 i Hi), (Dz i Hi). unfold direction. ring. }
  assert (Np : norm2 P' ps' = norm2 P ps) by (change (norm2 P' ps') with (norm2 P ps'); apply norm2_turn; auto).
  assert (Sg : new_sigma P' (s_sigma st') ps' = c * new_sigma P (s_sigma st) ps).
  { unfold new_sigma. rewrite Np. cbn [p_d p_squared p_c_sigma p_damp scaled_limits]. change (unbiased_expectation P') with (unbiased_expectation P). rewrite H2. ring. }
  assert (Hh : h_sig P' ps' (s_steps st') = h_sig P ps (s_steps st)) by (unfold h_sig; rewrite Np, H7; reflexivity).
  rewrite Sg, Hh, H7. set (t := h_sig P ps (s_steps st)). set (sg := new_sigma P (s_sigma st) ps).
  assert (Hsg : 0 < sg) by (unfold sg, new_sigma; apply Rmult_lt_0_compat; auto; apply exp_pos).
  set (pc := new_p_c P (s_p_c st) sh t). set (pc' := new_p_c P' (s_p_c st') sh' t).
  assert (Pc : veq d pc' (direction h pc)).
  { intros i Hi. unfold pc, pc', new_p_c, vplus, vscale, direction. change (discount P') with (discount P). cbn [p_c_c scaled_limits]. rewrite (H6 i Hi), (Dy i Hi). unfold direction. ring. }
  pose proof (limit_turn sg _ _ Hsg (update_C_turn (s_C st) (s_C st') pc pc' zs zs' _ _ ws t H3 Pc F Y)) as Lc.
  set (C1 := limit_C P sg _) in *. set (C1' := limit_C P' (c * sg) _) in *.
  split; [exact Hsg|]. split; [|exact Lc]. intros Ok. unfold changed_state. cbn [s_m s_sigma s_C s_A s_p_sigma s_p_c s_steps].
  split; [|split; [reflexivity|split; [exact Lc|split; [|split; [exact Ps|split; [exact Pc|reflexivity]]]]]].
  - intros i Hi. unfold vplus, vscale. rewrite (H1 i Hi), H2, (Dy i Hi). unfold point, direction, vplus, vscale. ring.
  - destruct (Nat.eqb ((s_steps st + 1) mod p_freq P) 0) eqn:Fr; [|exact H4]. unfold decompose. cbn [p_separable scaled_limits]. case_eq (p_separable P); intros Sp.
    + apply diagonal_turn. intros i Hi. rewrite (diag_at _ _ i Lc Hi). reflexivity.
    + pose proof (chol_turn C1 C1' Sp Lc) as T. unfold total. destruct (chol C1) as [A|], (chol C1') as [A'|]; try contradiction; auto. destruct Ok as [?|[?|?]]; congruence.
Qed.
Lemma generation_turn st st' zs zs' : 0 < s_sigma st -> changed_state d h st st' -> turned zs zs' ->
  changed_generation d h g (generation P chol topk order f st zs) (generation P' chol topk order f' st' zs') /\
  (forall r, snd (generation P chol topk order f st zs) = Some r -> 0 < s_sigma r).
Proof.
  intros Hs R F. destruct (xs_turn st st' zs zs' R F) as [Y X].
  assert (Fi : map f' (xs_of P' st' zs') = map g (map f (xs_of P st zs))).
  { clear - X Sees Moved. induction X as [|x x' l l' H X IH]; cbn; auto. rewrite IH, <- Moved. f_equal. apply Sees. exact H. }
  unfold generation. cbv zeta. rewrite Fi, Order. destruct (step_turn st st' zs zs' (order (map f (xs_of P st zs))) Hs R F) as (S1 & S2 & S3). set (r := cma_step P _ _ _ _ _) in *. set (r' := cma_step P' _ _ _ _ _) in *.
  assert (Q : forall o : option state, o = Some r \/ o = None -> forall q, o = Some q -> 0 < s_sigma q) by (intros o [-> | ->] q E; [injection E as <-; auto|discriminate]).
  cbn [p_separable p_freq scaled_limits]. destruct R as (_ & _ & _ & _ & _ & _ & H7). rewrite H7. unfold changed_generation. cbn [fst snd]. split.
  - split; [exact X|]. split; [reflexivity|]. case_eq (p_separable P); intros Sp; [apply S2; auto|]. destruct (Nat.eqb ((s_steps st + 1) mod p_freq P) 0) eqn:Fr; [|apply S2; auto].
    pose proof (chol_turn _ _ Sp S3) as T. destruct (chol (s_C r)) eqn:E, (chol (s_C r')); try contradiction; auto. apply S2. right. right. discriminate.
  - apply Q. case (p_separable P); auto. destruct (Nat.eqb _ 0); auto. destruct (chol (s_C r)); auto.
Qed.
Lemma generations_turn draws draws' : Forall2 (fun zs zs' => turned zs zs') draws draws' -> forall st st', 0 < s_sigma st -> changed_state d h st st' ->
  Forall2 (changed_generation d h g) (generations P chol topk order f st draws) (generations P' chol topk order f' st' draws').
Proof.
  intros D. induction D as [|zs zs' l l' F D IH]; intros st st' Hs R; cbn [generations]; constructor.
  - apply generation_turn; auto.
  - destruct (generation_turn st st' zs zs' Hs R F) as [(_ & _ & G) Ps]. cbv zeta. destruct (snd (generation P chol topk order f st zs)) as [r|], (snd (generation P' chol topk order f' st' zs')) as [r'|]; try contradiction; constructor || (apply IH; auto).
Qed.
Lemma init_turn center center' stdev : veq d center' (point h center) -> changed_state d h (init_state center stdev) (init_state center' (c * stdev)).
Proof.
  intros H. unfold changed_state, init_state. cbn [s_m s_sigma s_C s_A s_p_sigma s_p_c s_steps]. assert (I : meq d mid (directions h mid)).
  { intros i j Hi Hj. unfold directions, mid. destruct (Nat.eqb_spec i j) as [->|N]; [rewrite Nat.eqb_refl, sq by auto; ring|]. destruct (Nat.eqb_spec (p i) (p j)) as [E|E]; [apply p_inj in E; auto; contradiction|ring]. }
  assert (Z : veq d (fun _ => 0) (direction h (fun _ => 0))) by (intros i Hi; unfold direction; ring). auto 10.
Qed.
End CHANGE.

(* ---- theorem ---- *)
Theorem C201_coordinates : forall d popsize o h P P' chol topk order g f f' center center' stdev draws draws',
  admissible d (o_separable o) h -> cholesky_works d chol -> 0 < stdev ->
  cma_init d popsize o = Ok P -> cma_init d popsize (in_unit h o) = Ok P' ->
  (forall l, order (map g l) = order l) -> (forall x y, veq d x y -> f' x = f' y) -> (forall x, f' (point h x) = g (f x)) ->
  veq d center' (point h center) -> Forall2 (Forall2 (fun z z' => veq d z' (direction h z))) draws draws' ->
  Forall2 (changed_generation d h g) (generations P chol topk order f (init_state center stdev) draws)
    (generations P' chol topk order f' (init_state center' (c_unit h * stdev)) draws').
Proof.
  intros d n o h P P' chol topk order g f f' m m' sd draws draws' Ad Ch Hs E E' Or Se Mo Hm D.
  assert (EP : P' = scaled_limits P h /\ p_d P = d /\ p_separable P = o_separable o).
  { unfold cma_init in E, E'. cbv zeta in E, E'. cbn [in_unit o_c_m o_c_sigma o_c_sigma_ratio o_damp o_damp_ratio o_c_c o_c_c_ratio o_c_1 o_c_1_ratio o_c_mu o_c_mu_ratio o_active o_squared o_min o_max o_separable o_limit] in E'.
    change (c_1_plain (in_unit h o)) with (c_1_plain o) in E'. change (c_mu_plain (in_unit h o)) with (c_mu_plain o) in E'.
    destruct (o_limit o && _)%bool; [discriminate|]. injection E as <-. injection E' as <-. auto. }
  destruct EP as (-> & <- & Sp). rewrite <- Sp in Ad. apply generations_turn; auto. apply init_turn; auto.
Qed.
(* A run is a chain: each generation samples from the state which the one before it left, and nothing follows an error. *)
Definition left_by (s : state) (outs : list (list vect * list R * option state)) (i : nat) : option state :=
  match i with O => Some s | S i => match nth_error outs i with Some o => snd o | None => None end end.
Theorem C201_chain : forall P chol topk order f draws s outs, outs = generations P chol topk order f s draws ->
  (forall i xs fits o, nth_error outs i = Some (xs, fits, o) ->
     exists si zs, left_by s outs i = Some si /\ nth_error draws i = Some zs /\ xs = xs_of P si zs /\ fits = map f xs /\
       (forall s', o = Some s' -> s_steps s' = (s_steps si + 1)%nat)) /\
  (forall i, (i < length draws)%nat -> length outs = i -> left_by s outs i = None).
Proof.
  intros P chol topk order f draws. induction draws as [|zs draws IH]; intros s outs ->; cbn [generations].
  { split; [|cbn; lia]. intros [|i]; discriminate. }
  set (o := generation P chol topk order f s zs). assert (Ho : o = generation P chol topk order f s zs) by reflexivity. clearbody o. split.
  - intros [|i] xs fits o' E.
    + assert (E0 : o = (xs, fits, o')) by (cbn in E; congruence). clear E. rename E0 into E. exists s, zs. rewrite Ho in E. unfold generation in E. assert (E1 := f_equal (fun t => fst (fst t)) E). assert (E2 := f_equal (fun t => snd (fst t)) E). assert (Eo := f_equal snd E). cbn [fst snd] in E1, E2, Eo. subst xs fits. repeat split; auto.
      intros s' ->. clear - Eo. assert (Q : cma_step P (total chol) topk s zs (order (map f (xs_of P s zs))) = s').
      { destruct (p_separable P); [congruence|]. destruct (Nat.eqb _ 0); [destruct (chol _)|]; congruence. }
      rewrite <- Q. unfold cma_step. cbv zeta. cbn [s_steps]. lia.
    + cbn [nth_error] in E. destruct (snd o) as [s1|] eqn:Eo; [|destruct i; discriminate]. destruct (proj1 (IH s1 _ eq_refl) _ _ _ _ E) as (si & z & A & B). exists si, z. split; [|exact B].
      destruct i as [|i]; cbn [left_by nth_error] in A |- *; [congruence|exact A].
  - intros i Hi E. destruct i as [|i]; [discriminate|]. cbn [length] in Hi. cbn [length] in E. apply eq_add_S in E. destruct (snd o) as [s1|] eqn:Eo.
    + pose proof (proj2 (IH s1 _ eq_refl) i ltac:(lia) E) as G. destruct i as [|i]; [discriminate|]. exact G.
    + cbn in E. subst i. cbn [left_by nth_error]. auto.
Qed.
Print Assumptions C201_coordinates.
Print Assumptions C201_chain.

(* an example in two dimensions: another unit, the second coordinate reflected, the origin moved; for the separable variant also swapped *)
Definition ex_chol (C : mat) : option mat :=
  if Rlt_dec 0 (C 0%nat 0%nat) then
    if Rlt_dec 0 (C 1%nat 1%nat - C 1%nat 0%nat * C 1%nat 0%nat / C 0%nat 0%nat) then
      if Req_EM_T (C 0%nat 1%nat) (C 1%nat 0%nat) then
        Some (fun i j => match i, j with
          | O, O => sqrt (C 0%nat 0%nat) | 1%nat, O => C 1%nat 0%nat / sqrt (C 0%nat 0%nat)
          | 1%nat, 1%nat => sqrt (C 1%nat 1%nat - C 1%nat 0%nat * C 1%nat 0%nat / C 0%nat 0%nat) | _, _ => 0 end)
      else None
    else None
  else None.
Lemma ex_chol_works : cholesky_works 2 ex_chol.
Proof.
  split.
  - intros C A. unfold ex_chol. destruct (Rlt_dec _ _) as [H1|]; [|discriminate]. destruct (Rlt_dec _ _) as [H2|]; [|discriminate]. destruct (Req_EM_T _ _) as [H3|]; [|discriminate]. intros E. injection E as <-.
    pose proof (sqrt_lt_R0 _ H1) as S1. pose proof (sqrt_lt_R0 _ H2) as S2. pose proof (sqrt_sqrt _ (Rlt_le _ _ H1)) as Q1. pose proof (sqrt_sqrt _ (Rlt_le _ _ H2)) as Q2. split; [|split].
    + intros [|[|i]] [|[|j]] ? ?; try lia; reflexivity.
    + intros [|[|i]] ?; try lia; auto.
    + intros [|[|i]] [|[|j]] ? ?; try lia; unfold mmul, mtr; cbn; rewrite ?H3; try (field_simplify; [|lra]; rewrite ?Q1; try field; lra); [rewrite <- Q1 at 3; ring|].
      rewrite Q2. assert (E : C 1%nat 0%nat / sqrt (C 0%nat 0%nat) * (C 1%nat 0%nat / sqrt (C 0%nat 0%nat)) = C 1%nat 0%nat * C 1%nat 0%nat / (sqrt (C 0%nat 0%nat) * sqrt (C 0%nat 0%nat))) by (field; lra). rewrite E, Q1. field. lra.
  - intros C A (L & D & E). unfold ex_chol. pose proof (D 0%nat ltac:(lia)) as D0. pose proof (D 1%nat ltac:(lia)) as D1. pose proof (L 0%nat 1%nat ltac:(lia) ltac:(lia)) as L0.
    pose proof (E 0%nat 0%nat ltac:(lia) ltac:(lia)) as E00. pose proof (E 0%nat 1%nat ltac:(lia) ltac:(lia)) as E01. pose proof (E 1%nat 0%nat ltac:(lia) ltac:(lia)) as E10. pose proof (E 1%nat 1%nat ltac:(lia) ltac:(lia)) as E11.
    unfold mmul, mtr in *. cbn in *. rewrite L0 in *.
    destruct (Rlt_dec _ _) as [H1|H1]; [|exfalso; apply H1; nra]. destruct (Rlt_dec _ _) as [H2|H2].
    + destruct (Req_EM_T _ _) as [H3|H3]; [discriminate|]. exfalso. apply H3. lra.
    + exfalso. apply H2. rewrite <- E11, <- E10, <- E00. replace (0 + A 1%nat 0%nat * A 1%nat 0%nat + A 1%nat 1%nat * A 1%nat 1%nat - (0 + A 1%nat 0%nat * A 0%nat 0%nat + A 1%nat 1%nat * 0) * (0 + A 1%nat 0%nat * A 0%nat 0%nat + A 1%nat 1%nat * 0) / (0 + A 0%nat 0%nat * A 0%nat 0%nat + 0 * 0))
        with (A 1%nat 1%nat * A 1%nat 1%nat) by (field; lra). nra.
Qed.
Definition ex_change (swap : bool) : change := Change 3 (fun i => match i with O => 1 | _ => -1 end) (fun i => if swap then (1 - i)%nat else i) (fun _ => 5).
Example C201_example : (forall sep : bool, admissible 2 sep (ex_change sep)) /\
  (forall x : vect, (fun y : vect => exp ((y 0%nat - 5) / 3 + 7 * ((5 - y 1%nat) / 3))) (point (ex_change false) x) = exp (x 0%nat + 7 * x 1%nat)) /\
  cholesky_works 2 ex_chol /\
  (exists P P', cma_init 2 6 (in_unit (ex_change false) (default_options true false true)) = Ok P' /\ cma_init 2 6 (default_options true false true) = Ok P).
Proof.
  split; [|split; [|split]].
  - intros sep. unfold admissible, ex_change. cbn [c_unit c_sign c_perm]. split; [lra|]. split; [intros [|i] _; auto|]. split; [|split].
    + intros i Hi. destruct sep; lia.
    + intros i j Hi Hj. destruct sep; lia.
    + intros ->. auto.
  - intros x. unfold point, direction, ex_change. cbn. f_equal. field.
  - exact ex_chol_works.
  - unfold cma_init. cbn. eexists. eexists. split; reflexivity.
Qed.

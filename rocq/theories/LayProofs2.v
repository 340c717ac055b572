(* Lemmas about the waves of LocomotorNet and about the activation functions. *)
From Coq Require Import Reals String Lra Lia.
From Verif Require Import Prelude LayModel LaySpec LayProofs.
Open Scope R_scope.

Definition triple := (list R * list R * list R)%type.
Definition wave_at (t j : nat) (awp : triple) : R :=
  nth j (fst (fst awp)) 0 * sin (nth j (snd (fst awp)) 0 * INR t + nth j (snd awp) 0).
Definition sized (out : nat) (awp : triple) : Prop :=
  length (fst (fst awp)) = out /\ length (snd (fst awp)) = out /\ length (snd awp) = out.

Lemma wave_holds out t A w phi : length A = out -> length w = out -> length phi = out ->
  holds (wave t A w phi) out (fun j => wave_at t j (A, w, phi)).
Proof.
  unfold wave, holds, wave_at. cbn [fst snd]. revert w phi out.
  induction A as [| a A IH]; intros [| b w] [| c phi] [| out] L1 L2 L3; cbn in L1, L2, L3; try discriminate.
  - split; [reflexivity | intros; lia].
  - destruct (IH w phi out) as [E Q]; [lia | lia | lia |]. cbn [map3 length]. split; [lia |].
    intros [| j] G; cbn [nth]; [reflexivity |]. apply Q. lia.
Qed.

Lemma waves_holds out t ts : Forall (sized out) ts -> forall u f, holds u out f ->
  holds (fold_left (fun u awp => map2 Rplus u (let '(A, w, phi) := awp in wave t A w phi)) ts u) out
        (fun j => f j + sum_below (length ts) (fun s => wave_at t j (nth s ts (nil, nil, nil)))).
Proof.
  induction ts as [| [[A w] phi] ts IH]; intros F u f HU.
  - cbn. destruct HU as [L Q]. split; [exact L |]. intros. rewrite Q by assumption. lra.
  - inversion F as [| ? ? (L1 & L2 & L3) F']; subst. cbn [fst snd] in *. cbn [fold_left].
    destruct (wave_holds (length A) t A w phi eq_refl L2 L3) as [LW QW]. destruct HU as [LU QU].
    destruct (map2_nth Rplus u (wave t A w phi) (length A) LU LW) as [LM QM].
    destruct (IH F' (map2 Rplus u (wave t A w phi)) (fun j => f j + wave_at t j (A, w, phi))) as [LR QR].
    { split; [exact LM |]. intros j G. rewrite QM, QU, QW by exact G. reflexivity. }
    split; [exact LR |]. intros j G. rewrite QR by exact G. cbn [length]. rewrite sum_left. cbn [nth]. lra.
Qed.

Lemma triples n out v : (3 * (n * out) <= length v)%nat ->
  let ts := combine (combine (chunks n out v) (chunks n out (skipn (n * out) v))) (chunks n out (skipn (2 * (n * out)) v)) in
  length ts = n /\ Forall (sized out) ts
  /\ forall s, (s < n)%nat -> nth s ts (nil, nil, nil) =
       (firstn out (skipn (s * out) v), firstn out (skipn ((n + s) * out) v), firstn out (skipn ((2 * n + s) * out) v)).
Proof.
  intros LV ts.
  assert (length ts = n) as LT by (unfold ts; rewrite !combine_length, !chunks_length; lia).
  assert (forall s, (s < n)%nat -> nth s ts (nil, nil, nil) =
       (firstn out (skipn (s * out) v), firstn out (skipn ((n + s) * out) v), firstn out (skipn ((2 * n + s) * out) v))) as QN.
  { intros s G. unfold ts. rewrite !combine_nth by (rewrite ?combine_length, ?chunks_length; lia).
    rewrite !chunks_nth by exact G. rewrite !skipn_add.
    replace (n * out + s * out)%nat with ((n + s) * out)%nat by lia.
    replace (2 * (n * out) + s * out)%nat with ((2 * n + s) * out)%nat by lia. reflexivity. }
  split; [exact LT |]. split; [| exact QN].
  apply Forall_forall. intros awp I. destruct (In_nth ts awp (nil, nil, nil) I) as (s & G & <-). rewrite LT in G.
  rewrite QN by exact G. unfold sized. cbn [fst snd]. rewrite !firstn_length, !skipn_length.
  assert (S s * out <= n * out)%nat by (apply Nat.mul_le_mono_r; lia). cbn [Nat.mul] in *. repeat split; nia.
Qed.

Lemma waves_oscillation n out t v off : (off + 3 * (n * out) <= length v)%nat ->
  holds (waves out t (chunks n out (skipn off v)) (chunks n out (skipn (n * out) (skipn off v)))
                     (chunks n out (skipn (2 * (n * out)) (skipn off v)))) out
        (oscillation (fun k => nth k v 0) off n out t).
Proof.
  intro LV. destruct (triples n out (skipn off v)) as (LT & FS & QN); [rewrite skipn_length; lia |].
  unfold waves. destruct (waves_holds out t _ FS (repeat 0 out) (fun _ => 0)) as [LR QR].
  { split; [apply repeat_length |]. intros j G. apply nth_repeat. }
  split; [exact LR |]. intros j G. rewrite QR by exact G. rewrite Rplus_0_l. unfold triple in *. rewrite LT. apply sum_ext. intros s Gs.
  rewrite QN by exact Gs. unfold wave_at. cbn [fst snd]. rewrite !nth_firstn_lt by exact G. rewrite !nth_skipn.
  replace (off + (s * out + j))%nat with (off + s * out + j)%nat by lia.
  replace (off + ((n + s) * out + j))%nat with (off + (n + s) * out + j)%nat by lia.
  replace (off + ((2 * n + s) * out + j))%nat with (off + (2 * n + s) * out + j)%nat by lia. reflexivity.
Qed.

Lemma loco_step v nin out b n t x : length v = loco_count nin out b n -> length x = nin ->
  let s := {| lo_in := nin; lo_out := out; lo_bias := b; lo_n := n; lo_v := v; lo_t := t |} in
  exists y, loco_forward s x = (with_t s (S t), Ok y)
    /\ holds y out (fun j => affine (fun k => nth k v 0) 0 nin out b (fun i => nth i x 0) j
                             + oscillation (fun k => nth k v 0) (affine_size nin out b) n out t j).
Proof.
  intros LV LX s. unfold loco_count in LV.
  destruct (linear_holds v 0 nin out b x) as (y & EY & [LY QY]); [cbn; lia | exact LX |]. cbn [skipn] in EY.
  unfold loco_forward. cbn [lo_in lo_out lo_bias lo_n lo_v lo_t s]. rewrite EY. eexists. split; [reflexivity |].
  destruct (waves_oscillation n out t v (linear_count nin out b)) as [LW QW]; [lia |].
  destruct (map2_nth Rplus y _ out LY LW) as [LM QM]. split; [exact LM |]. intros j G.
  rewrite QM, QY, QW by exact G. rewrite count_size. reflexivity.
Qed.

(* ---- activation functions ---- *)
Lemma relu_spec x : relu x = (x + Rabs x) / 2.
Proof. unfold relu. destruct (Rlt_dec 0 x); [rewrite Rabs_right | rewrite Rabs_left1]; lra. Qed.
Lemma hardtanh_spec x : hardtanh x = (Rabs (x + 1) - Rabs (x - 1)) / 2.
Proof.
  unfold hardtanh, clip, Rmax, Rmin. destruct (Rle_dec x (-1)).
  - destruct (Rle_dec (-1) 1); [| lra]. rewrite (Rabs_left1 (x + 1)), (Rabs_left1 (x - 1)) by lra. lra.
  - destruct (Rle_dec x 1).
    + rewrite (Rabs_right (x + 1)), (Rabs_left1 (x - 1)) by lra. lra.
    + rewrite (Rabs_right (x + 1)), (Rabs_right (x - 1)) by lra. lra.
Qed.
Lemma exp_sign x : (0 < x -> 1 < exp x) /\ (x <= 0 -> exp x <= 1).
Proof.
  split; intro G.
  - rewrite <- exp_0. apply exp_increasing. exact G.
  - destruct G as [G | ->]; [| rewrite exp_0; lra]. rewrite <- exp_0. left. apply exp_increasing. exact G.
Qed.
Lemma elu_spec x : elu x = Rmax 0 x + Rmin 0 (exp x - 1).
Proof.
  unfold elu. destruct (exp_sign x) as [P1 P2]. destruct (Rlt_dec 0 x) as [G | G].
  - specialize (P1 G). rewrite Rmax_right, Rmin_left by lra. lra.
  - rewrite Rmax_left, Rmin_right by lra. lra.
Qed.
Lemma selu_spec x : selu x = 1.0507009873554804934193349852946 *
                             (Rmax 0 x + Rmin 0 (1.6732632423543772848170429916717 * (exp x - 1))).
Proof.
  unfold selu. destruct (exp_sign x) as [P1 P2]. destruct (Rlt_dec 0 x) as [G | G].
  - specialize (P1 G). rewrite Rmax_right, Rmin_left by lra. lra.
  - rewrite Rmax_left, Rmin_right by lra. lra.
Qed.
Lemma sigmoid_spec x : sigmoid x = exp x / (exp x + 1).
Proof. unfold sigmoid. pose proof (exp_pos x). rewrite exp_Ropp. field. lra. Qed.
Lemma tanh_spec x : tanh x = (exp (2 * x) - 1) / (exp (2 * x) + 1).
Proof.
  unfold tanh, sinh, cosh. pose proof (exp_pos x). rewrite exp_Ropp. replace (2 * x) with (x + x) by lra. rewrite exp_plus.
  field. assert (0 < exp x * exp x) by (apply Rmult_lt_0_compat; assumption). split; lra.
Qed.
Lemma tanh_bound x : -1 < tanh x < 1.
Proof.
  rewrite tanh_spec. pose proof (exp_pos (2 * x)) as P. set (e := exp (2 * x)) in *. split.
  - apply (Rmult_lt_reg_r (e + 1)); [lra |]. replace ((e - 1) / (e + 1) * (e + 1)) with (e - 1) by (field; lra). lra.
  - apply (Rmult_lt_reg_r (e + 1)); [lra |]. replace ((e - 1) / (e + 1) * (e + 1)) with (e - 1) by (field; lra). lra.
Qed.
Lemma round0 x : exists k, round 0 x = IZR k /\ nearest x k.
Proof.
  unfold round. cbn [powerRZ]. rewrite Rmult_1_r. destruct (rne_nearest x) as (k & E & N). exists k.
  split; [rewrite E; field | exact N].
Qed.

(* which names are accepted, and what they mean *)
Lemma resolve_named n g : act_named n g -> exists f, resolve (AName n) = Ok (Some f) /\ forall l, f l = map g l.
Proof.
  intro A. destruct A; cbn; eexists; (split; [reflexivity |]); intro l; apply map_ext; intro x.
  - rewrite H. apply relu_spec.
  - rewrite H. apply elu_spec.
  - rewrite H. apply selu_spec.
  - rewrite H. apply tanh_spec.
  - rewrite H. apply hardtanh_spec.
  - rewrite H. apply sigmoid_spec.
  - destruct (H x) as (k & -> & N1). destruct (round0 x) as (k' & -> & N2). f_equal. eapply nearest_unique; eauto.
Qed.
Lemma named_resolve n r : resolve (AName n) = Ok r -> exists g, act_named n g.
Proof.
  cbn. intro E.
  repeat match type of E with (if String.eqb n ?s then _ else _) = _ => destruct (String.eqb_spec n s) as [-> |]; [clear E |] end.
  - exists relu. constructor. apply relu_spec.
  - exists selu. constructor. apply selu_spec.
  - exists elu. constructor. apply elu_spec.
  - exists tanh. constructor. apply tanh_spec.
  - exists hardtanh. constructor. apply hardtanh_spec.
  - exists sigmoid. constructor. apply sigmoid_spec.
  - exists (round 0). constructor. apply round0.
  - discriminate.
Qed.

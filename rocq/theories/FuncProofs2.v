(* Runs of the functional optimizers, SGD, and properties of Adam's moves. *)
From Coq Require Import Reals Lra Lia.
From Verif Require Import Prelude RollProofs FuncModel FuncSpec FuncProofs.
Open Scope R_scope.

(* ------------------------------------------------------------ runs of the functional API *)
Definition moves_from (rule : list R -> num) (j : nat) (past gs : list (list R)) : list num :=
  map (fun k => rule (coordinate j (past ++ firstn (S k) gs))) (seq 0 (length gs)).
Lemma moves_from_cons rule j past g gs :
  moves_from rule j past (g :: gs) = rule (coordinate j (past ++ [g])) :: moves_from rule j (past ++ [g]) gs.
Proof.
  unfold moves_from. cbn [length seq map firstn]. f_equal. rewrite <- seq_shift, map_map. apply map_ext. intros k.
  rewrite <- app_assoc. reflexivity.
Qed.
Lemma travel_cons c m ms : travel c (m :: ms) = travel (nadd c m) ms. Proof. reflexivity. Qed.
Lemma run_rule {St} (tell : St -> list R -> St) (center : St -> list num) (inv : list (list R) -> St -> Prop) rule n :
  (forall past s g, inv past s -> length g = n -> inv (past ++ [g]) (tell s g) /\
     forall j c, (j < n)%nat -> nth_error (center s) j = Some c -> nth_error (center (tell s g)) j = Some (nadd c (rule (coordinate j (past ++ [g]))))) ->
  forall gs past s, inv past s -> gradients n gs ->
  inv (past ++ gs) (fold_left tell gs s) /\
  forall j c, (j < n)%nat -> nth_error (center s) j = Some c ->
    nth_error (center (fold_left tell gs s)) j = Some (travel c (moves_from rule j past gs)).
Proof.
  intros ST. induction gs as [|g gs IH]; intros past s I G; cbn [fold_left].
  - rewrite app_nil_r. split; auto.
  - inversion G; subst. destruct (ST past s g I eq_refl) as [I1 N1]. destruct (IH (past ++ [g]) _ I1 H2) as [I2 N2].
    split; [rewrite <- app_assoc in I2; exact I2|]. intros j c J Hc. rewrite moves_from_cons, travel_cons. apply N2; auto.
Qed.

(* ------------------------------------------------------------ SGD *)
(* the buffer of torch.optim.SGD, with dampening d *)
Definition buffer (mom d : R) (l : list R) : R := (1 - d) * discounted mom l + d * mom ^ (length l - 1) * hd 0 l.
Lemma buffer_first mom d x : buffer mom d [x] = x.
Proof. unfold buffer. change [x] with ([] ++ [x]). rewrite discounted_snoc, discounted_nil. cbn. lra. Qed.
Lemma buffer_snoc mom d l x : l <> [] -> buffer mom d (l ++ [x]) = mom * buffer mom d l + (1 - d) * x.
Proof.
  intros H. unfold buffer. rewrite discounted_snoc, app_length. destruct l as [|y l]; [congruence|]. cbn [length hd app].
  replace (S (length l) + 1 - 1)%nat with (S (length l)) by lia. replace (S (length l) - 1)%nat with (length l) by lia. cbn [pow]. lra.
Qed.
Definition sgd_rule (s : tsgd) (l : list R) : num :=
  Some (if Req_EM_T (ts_momentum s) 0 then ts_lr s * last l 0
        else if ts_nesterov s then ts_lr s * (last l 0 + ts_momentum s * buffer (ts_momentum s) (ts_dampening s) l)
        else ts_lr s * buffer (ts_momentum s) (ts_dampening s) l).
Definition sgd_inv (n : nat) (past : list (list R)) (s : tsgd) : Prop :=
  ts_n s = n /\
  (ts_momentum s <> 0 ->
   match past with
   | [] => ts_buf s = None
   | _ => exists b, ts_buf s = Some b /\ length b = n /\
       forall j, (j < n)%nat -> nth_error b j = Some (Some (buffer (ts_momentum s) (ts_dampening s) (coordinate j past)))
   end).
Lemma repeat_nth {A} (x : A) n j : (j < n)%nat -> nth_error (repeat x n) j = Some x.
Proof. intros. apply nth_error_repeat; auto. Qed.
Lemma last_coordinate j past g : last (coordinate j (past ++ [g])) 0 = nth j g 0.
Proof. rewrite coordinate_snoc. apply last_last. Qed.
Lemma sgd_ascent n past s g : sgd_inv n past s -> length g = n ->
  exists s' step, torch_ascent (WSgd s) (map Some g) = Ok (WSgd s', step) /\ sgd_inv n (past ++ [g]) s' /\
    sgd_rule s' = sgd_rule s /\ length step = n /\
    forall j, (j < n)%nat -> nth_error step j = Some (sgd_rule s (coordinate j (past ++ [g]))).
Proof.
  intros (L & B) G. unfold torch_ascent. cbn [wrapped_length]. rewrite map_length, L, G, Nat.eqb_refl. cbn [negb]. cbv zeta. cbn [wrapped_step].
  unfold tsgd_step, sgd_rule. cbv zeta. destruct (Req_EM_T (ts_momentum s) 0) as [Z|Z].
  - cbn [fst snd]. exists s. eexists. split; [reflexivity|]. split; [split; [exact L|intros C; contradiction]|].
    split; [destruct (Req_EM_T (ts_momentum s) 0); [reflexivity|contradiction]|].
    split; [rewrite map_length, map2_length, repeat_length, map_length; lia|].
    intros j J. rewrite nth_error_map, map2_nth_error, repeat_nth, (nth_error_some j g n G J), last_coordinate by auto. cbn.
    f_equal. f_equal. lra.
  - specialize (B Z).
    set (buf := match ts_buf s with None => _ | Some b => _ end).
    assert (NB : length buf = n /\ forall j, (j < n)%nat ->
      nth_error buf j = Some (Some (buffer (ts_momentum s) (ts_dampening s) (coordinate j (past ++ [g]))))).
    { destruct past as [|p past].
      - unfold buf. rewrite B. split; [rewrite map_length; auto|]. intros j J. rewrite (nth_error_some j g n G J). cbn [app coordinate map]. now rewrite buffer_first.
      - destruct B as (b & Eb & Lb & Nb). unfold buf. rewrite Eb. split; [rewrite map2_length, map_length; lia|].
        intros j J. rewrite map2_nth_error, (Nb j J), (nth_error_some j g n G J). rewrite coordinate_snoc, buffer_snoc by discriminate. reflexivity. }
    destruct NB as [LB NB]. clearbody buf. eexists _, _. split; [reflexivity|]. split; [|split; [|split]].
    + split; [exact L|]. cbn [fst ts_momentum ts_buf ts_dampening]. intros _. destruct (past ++ [g]) eqn:E; [destruct past; discriminate|]. rewrite <- E in *.
      exists buf. auto.
    + cbn [fst ts_momentum ts_nesterov ts_lr ts_dampening]. destruct (Req_EM_T (ts_momentum s) 0); [contradiction|reflexivity].
    + destruct (ts_nesterov s); cbn [snd]; rewrite ?map_length, ?map2_length, ?repeat_length, ?map2_length, ?map_length; lia.
    + intros j J. destruct (Req_EM_T (ts_momentum s) 0); [contradiction|]. destruct (ts_nesterov s); cbn [snd];
        rewrite nth_error_map, !map2_nth_error, repeat_nth, ?(nth_error_some j g n G J), (NB j J) by auto; rewrite ?last_coordinate; cbn; f_equal; f_equal; lra.
Qed.
Lemma sgd_ascents n s gs : sgd_inv n [] s -> gradients n gs ->
  exists w steps, ascents (WSgd s) gs = Ok (w, steps) /\ follows_rule (sgd_rule s) n gs steps.
Proof.
  intros I G.
  destruct (ascents_rule (fun past w => exists s', w = WSgd s' /\ sgd_inv n past s' /\ sgd_rule s' = sgd_rule s) (sgd_rule s) n) with (gs := gs) (past := @nil (list R)) (w := WSgd s)
    as (w & steps & E & L & N); eauto.
  - intros past w g (s' & -> & I' & R') Lg. destruct (sgd_ascent n past s' g I' Lg) as (s2 & st & E & I2 & R2 & L2 & N2).
    exists (WSgd s2), st. split; auto. split; [exists s2; split; [auto|split; [auto|congruence]]|]. split; auto. rewrite <- R'. auto.
  - exists w, steps. split; auto. split; auto.
Qed.
Lemma buffer_no_dampening mom l : buffer mom 0 l = discounted mom l.
Proof. unfold buffer. lra. Qed.
Lemma discounted_0 l : discounted 0 l = last l 0.
Proof. destruct l as [|x l] using rev_ind; [reflexivity|]. rewrite discounted_snoc, last_last. lra. Qed.
Lemma buffer_full mom l : buffer mom 1 l = mom ^ (length l - 1) * hd 0 l.
Proof. unfold buffer. lra. Qed.

Definition fsgd_inv (n : nat) (past : list (list R)) (s : fsgd) : Prop :=
  length (fs_velocity s) = n /\ length (fs_center s) = n /\
  forall j, (j < n)%nat -> nth_error (fs_velocity s) j = Some (Some (sgd_move (fs_lr s) (fs_momentum s) (coordinate j past))).
Lemma fsgd_ok n past s g : fsgd_inv n past s -> length g = n ->
  let s' := fsgd_tell s (map Some g) in
  fsgd_inv n (past ++ [g]) s' /\ fs_lr s' = fs_lr s /\ fs_momentum s' = fs_momentum s /\
  forall j c, (j < n)%nat -> nth_error (fs_center s) j = Some c ->
    nth_error (fs_center s') j = Some (nadd c (Some (sgd_move (fs_lr s) (fs_momentum s) (coordinate j (past ++ [g]))))).
Proof.
  intros (LV & LC & C) G. unfold fsgd_tell, fsgd_step. cbv zeta. cbn [fst snd]. set (v := map2 _ (fs_velocity s) _).
  assert (Lv : length v = n) by (unfold v; rewrite map2_length, map_length; lia).
  assert (N : forall j, (j < n)%nat -> nth_error v j = Some (Some (sgd_move (fs_lr s) (fs_momentum s) (coordinate j (past ++ [g]))))).
  { intros j J. unfold v. rewrite map2_nth_error, (C j J), (nth_error_some j g n G J). unfold sgd_move. rewrite coordinate_snoc, discounted_snoc.
    cbn. f_equal. f_equal. lra. }
  unfold fsgd_inv. cbn [fs_velocity fs_center fs_lr fs_momentum]. repeat split; auto.
  - rewrite map2_length. lia.
  - intros j c J Hc. rewrite map2_nth_error, Hc, (N j J). reflexivity.
Qed.

(* ------------------------------------------------------------ Adam's moves *)
Lemma discounted_repeat b g t : (1 - b) * discounted b (repeat g t) = g * (1 - b ^ t).
Proof.
  induction t as [|t IH]; [cbn [repeat pow]; rewrite discounted_nil; lra|].
  replace (repeat g (S t)) with (repeat g t ++ [g]) by (symmetry; apply repeat_cons). rewrite discounted_snoc.
  replace ((1 - b) * (g + b * discounted b (repeat g t))) with ((1 - b) * g + b * ((1 - b) * discounted b (repeat g t))) by lra. rewrite IH. cbn [pow]. lra.
Qed.
Lemma map_repeat' {A B} (f : A -> B) x n : map f (repeat x n) = repeat (f x) n.
Proof. induction n; cbn; congruence. Qed.
Lemma m_hat_repeat b g t : proper_beta b -> (0 < t)%nat -> m_hat b (repeat g t) = g.
Proof. intros B T. pose proof (pow_lt_1 b t B T). unfold m_hat. rewrite repeat_length, discounted_repeat. field. lra. Qed.
Lemma v_hat_repeat b g t : proper_beta b -> (0 < t)%nat -> v_hat b (repeat g t) = g * g.
Proof. intros B T. pose proof (pow_lt_1 b t B T). unfold v_hat. rewrite repeat_length, map_repeat', discounted_repeat. field. lra. Qed.
Lemma discounted_scale b k l : discounted b (map (fun x => k * x) l) = k * discounted b l.
Proof. induction l as [|x l IH] using rev_ind; [cbn [map]; rewrite discounted_nil; lra|]. rewrite map_app. cbn [map]. rewrite !discounted_snoc, IH. lra. Qed.
Lemma v_hat_nonneg b l : proper_beta b -> 0 <= v_hat b l.
Proof.
  intros B. unfold v_hat. destruct l as [|x l] using rev_ind; [unfold Rdiv; cbn [map]; rewrite discounted_nil; lra|]. clear IHl.
  assert (P : (0 < length (l ++ [x]))%nat) by (rewrite app_length; cbn; lia). pose proof (pow_lt_1 b _ B P).
  apply Rmult_le_pos; [apply (avg_nonneg b (l ++ [x]) B)|]. left. apply Rinv_0_lt_compat. lra.
Qed.
Lemma m_hat_scale b k l : m_hat b (map (fun x => k * x) l) = k * m_hat b l.
Proof. unfold m_hat. rewrite map_length, discounted_scale. unfold Rdiv. lra. Qed.
Lemma v_hat_scale b k l : v_hat b (map (fun x => k * x) l) = k * k * v_hat b l.
Proof.
  unfold v_hat. rewrite map_length, map_map.
  rewrite (map_ext _ (fun x => (k * k) * (x * x))) by (intros; lra). rewrite <- (map_map (fun x => x * x) (fun y => (k * k) * y)), discounted_scale.
  unfold Rdiv. lra.
Qed.
Lemma move_scale lr b1 b2 eps k l : 0 < k -> proper_beta b2 ->
  adam_move lr b1 b2 (k * eps) (map (fun x => k * x) l) = adam_move lr b1 b2 eps l.
Proof.
  intros K B. unfold adam_move. cbv zeta. rewrite m_hat_scale, v_hat_scale. pose proof (v_hat_nonneg b2 l B) as V.
  rewrite sqrt_mult by (auto; nra). rewrite sqrt_square by lra.
  replace (k * sqrt (v_hat b2 l) + k * eps) with (k * (sqrt (v_hat b2 l) + eps)) by lra.
  destruct (Req_EM_T (sqrt (v_hat b2 l) + eps) 0) as [Z|Z].
  - rewrite Z. destruct (Req_EM_T (k * 0) 0); [reflexivity|lra].
  - destruct (Req_EM_T (k * (sqrt (v_hat b2 l) + eps)) 0) as [Z'|Z'].
    + exfalso. apply Rmult_integral in Z'. destruct Z'; [lra|contradiction].
    + f_equal. field. split; lra.
Qed.
Lemma move_constant lr b1 b2 eps g t : proper_beta b1 -> proper_beta b2 -> (0 < t)%nat -> 0 < Rabs g + eps ->
  adam_move lr b1 b2 eps (repeat g t) = Some (lr * g / (Rabs g + eps)).
Proof.
  intros B1 B2 T P. unfold adam_move. cbv zeta. rewrite m_hat_repeat, v_hat_repeat by auto.
  replace (sqrt (g * g)) with (Rabs g) by (symmetry; apply sqrt_Rsqr_abs).
  destruct (Req_EM_T (Rabs g + eps) 0); [lra|reflexivity].
Qed.
(* Cauchy-Schwarz *)
Lemma discounted_bound b1 b2 l : 0 <= b1 -> b1 * b1 < b2 -> b2 < 1 ->
  (b2 - b1 * b1) * (discounted b1 l * discounted b1 l) <= b2 * discounted b2 (sq l).
Proof.
  intros H0 H1 H2. induction l as [|x l IH] using rev_ind; [rewrite !discounted_nil; lra|].
  rewrite sq_snoc, !discounted_snoc. set (D := discounted b1 l) in *. set (E := discounted b2 (sq l)) in *.
  (* (b2 - b1^2)(x + b1 D)^2 <= b2 x^2 + b2 * (b2 E), using (b2 - b1^2) D^2 <= b2 E *)
  assert ((b2 - b1 * b1) * ((x + b1 * D) * (x + b1 * D)) <= b2 * (x * x) + b2 * ((b2 - b1 * b1) * (D * D))).
  { (* difference = (b1 x - (b2 - b1^2) D)^2 *)
    assert (0 <= (b1 * x - (b2 - b1 * b1) * D) * (b1 * x - (b2 - b1 * b1) * D)) by apply Rle_0_sqr. nra. }
  assert (b2 * ((b2 - b1 * b1) * (D * D)) <= b2 * (b2 * E)) by (apply Rmult_le_compat_l; nra). lra.
Qed.
Lemma pow_le_first b t : proper_beta b -> (0 < t)%nat -> b ^ t <= b.
Proof. intros [A B] T. destruct t as [|t]; [lia|]. cbn [pow]. assert (0 <= b ^ t <= 1). { split; [apply pow_le; auto|]. clear T. induction t; cbn [pow]; [lra|]. nra. } nra. Qed.
Lemma move_bound lr b1 b2 eps l y : 0 <= lr -> 0 <= b1 -> b1 * b1 < b2 -> b2 < 1 -> 0 <= eps ->
  adam_move lr b1 b2 eps l = Some y -> Rabs y <= lr * sqrt (b2 / ((b2 - b1 * b1) * (1 - b2))).
Proof.
  intros Hlr H0 H1 H2 He M. set (K := (b2 - b1 * b1) * (1 - b2)). assert (HK : 0 < K) by (unfold K; nra).
  assert (Hb2 : 0 < b2) by nra. assert (Hb1 : b1 < 1) by nra. assert (B1 : proper_beta b1) by (split; nra). assert (B2 : proper_beta b2) by (split; nra).
  unfold adam_move in M. cbv zeta in M. pose proof (v_hat_nonneg b2 l B2) as V.
  destruct (Req_EM_T _ 0) as [Z|Z]; [discriminate|]. injection M as <-.
  pose proof (sqrt_pos (v_hat b2 l)) as SP. assert (P : 0 < sqrt (v_hat b2 l) + eps) by lra.
  (* |m_hat| <= C sqrt v_hat *)
  assert (A : Rabs (m_hat b1 l) <= sqrt (b2 / K) * sqrt (v_hat b2 l)).
  { assert (HQ : 0 <= b2 / K) by (apply Rmult_le_pos; [lra|left; now apply Rinv_0_lt_compat]). rewrite <- sqrt_mult by assumption.
    rewrite <- sqrt_Rsqr_abs. apply sqrt_le_1_alt. unfold Rsqr.
    destruct l as [|x l'] eqn:El; [unfold m_hat, v_hat, Rdiv; cbn [map]; rewrite !discounted_nil; lra|]. rewrite <- El in *.
    assert (T : (0 < length l)%nat) by (rewrite El; cbn; lia). clear El x l'.
    pose proof (pow_lt_1 b1 _ B1 T). pose proof (pow_lt_1 b2 _ B2 T). pose proof (pow_le_first b1 _ B1 T). pose proof (pow_le_first b2 _ B2 T).
    pose proof (discounted_bound b1 b2 l H0 H1 H2) as D. unfold m_hat, v_hat. fold (sq l). set (d := discounted b1 l) in *. set (e := discounted b2 (sq l)) in *.
    assert (He0 : 0 <= e) by (unfold e; apply discounted_nonneg; [lra|apply squares_nonneg]).
    set (p1 := 1 - b1 ^ length l) in *. set (p2 := 1 - b2 ^ length l) in *.
    assert (X : (1 - b1) * d / p1 * ((1 - b1) * d / p1) <= d * d).
    { assert (0 <= (1 - b1) / p1 <= 1).
      { unfold p1. split; [apply Rmult_le_pos; [lra|left; apply Rinv_0_lt_compat; lra]|]. apply Rmult_le_reg_r with (1 - b1 ^ length l); [lra|].
        unfold Rdiv. rewrite Rmult_assoc, Rinv_l by lra. lra. }
      replace ((1 - b1) * d / p1) with ((1 - b1) / p1 * d) by (unfold Rdiv; lra). set (q := (1 - b1) / p1) in *.
      replace (q * d * (q * d)) with ((q * q) * (d * d)) by lra. assert (q * q <= 1) by nra. assert (0 <= d * d) by nra. nra. }
    assert (Y : (1 - b2) * e <= (1 - b2) * e / p2).
    { assert (0 <= (1 - b2) * e) by nra. assert (P2 : 0 < p2 <= 1) by (unfold p2; lra).
      apply Rmult_le_reg_r with p2; [lra|]. replace ((1 - b2) * e / p2 * p2) with ((1 - b2) * e) by (field; lra). nra. }
    eapply Rle_trans; [exact X|]. apply Rle_trans with (b2 / K * ((1 - b2) * e)).
    - unfold K. apply Rmult_le_reg_l with (b2 - b1 * b1); [lra|]. replace ((b2 - b1 * b1) * (b2 / ((b2 - b1 * b1) * (1 - b2)) * ((1 - b2) * e))) with (b2 * e) by (field; split; lra). exact D.
    - apply Rmult_le_compat_l; [apply Rmult_le_pos; [lra|left; now apply Rinv_0_lt_compat]|exact Y]. }
  unfold Rdiv at 1. rewrite !Rabs_mult, (Rabs_right lr) by lra. rewrite (Rabs_right (/ _)) by (left; apply Rinv_0_lt_compat; auto).
  rewrite Rmult_assoc. apply Rmult_le_compat_l; auto. apply Rmult_le_reg_r with (sqrt (v_hat b2 l) + eps); auto. rewrite Rmult_assoc, Rinv_l by lra.
  pose proof (sqrt_pos (b2 / K)). nra.
Qed.

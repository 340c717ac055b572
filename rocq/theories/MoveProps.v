(* C225: how far a search can go in a given number of steps, when its center follows gradients by ClipUp or Adam. *)
From Coq Require Import Reals Lra Psatz.
From Verif Require Import Prelude ClipUpModel ClipUpSpec ClipUpProofs FuncModel FuncSpec FuncProofs FuncProofs2 FuncProps.
Open Scope R_scope.

(* ---------------------------------------------------------------- specification *)
(* where the center stands relative to its start *)
Definition away (start x : list R) : list R := map2 (fun b a => b - a) x start.
(* the speed in the k-th step of a climb in a fixed direction: it grows by momentum and step size up to the maximum *)
Fixpoint climbing_speed (momentum stepsize max_speed : R) (k : nat) : R :=
  match k with
  | O => 0
  | S k => Rmin max_speed (momentum * climbing_speed momentum stepsize max_speed k + stepsize)
  end.
Definition climbed (momentum stepsize max_speed : R) (k : nat) : R :=
  fold_right Rplus 0 (map (climbing_speed momentum stepsize max_speed) (seq 1 k)).

(* ---------------------------------------------------------------- proofs *)
Fixpoint dot (a b : list R) : R := match a, b with x :: a, y :: b => x * y + dot a b | _, _ => 0 end.
Lemma cauchy a : forall b A B, 0 <= A -> 0 <= B -> sumsq a <= A * A -> sumsq b <= B * B -> dot a b <= A * B.
Proof.
  induction a as [|x a IH]; intros [|y b] A B PA PB Ha Hb; cbn [dot]; try (apply Rmult_le_pos; assumption).
  cbn in Ha, Hb. fold (sumsq a) in Ha. fold (sumsq b) in Hb. pose proof (sumsq_nonneg a). pose proof (sumsq_nonneg b).
  assert (QA : 0 <= A * A - x * x) by lra. assert (QB : 0 <= B * B - y * y) by lra.
  set (A' := sqrt (A * A - x * x)). set (B' := sqrt (B * B - y * y)).
  assert (SA : A' * A' = A * A - x * x) by (apply sqrt_sqrt; exact QA). assert (SB : B' * B' = B * B - y * y) by (apply sqrt_sqrt; exact QB).
  assert (NA : 0 <= A') by apply sqrt_pos. assert (NB : 0 <= B') by apply sqrt_pos. clearbody A' B'.
  assert (I : dot a b <= A' * B') by (apply IH; lra).
  assert (G : x * y + A' * B' <= A * B); [|lra].
  apply Rsqr_incr_0_var; [|apply Rmult_le_pos; assumption]. unfold Rsqr.
  assert (E : A * B * (A * B) = (x * x + A' * A') * (y * y + B' * B')) by (rewrite SA, SB; ring). rewrite E.
  assert (0 <= (x * B' - y * A') * (x * B' - y * A')) by (apply Rle_0_sqr). nra.
Qed.
Lemma sumsq_add a : forall b, length a = length b -> sumsq (add a b) = sumsq a + 2 * dot a b + sumsq b.
Proof.
  induction a as [|x a IH]; intros [|y b] L; try discriminate; [cbn; ring|].
  change (sumsq (add (x :: a) (y :: b))) with ((x + y) * (x + y) + sumsq (add a b)).
  rewrite IH by (injection L; auto). cbn [dot].
  change (sumsq (x :: a)) with (x * x + sumsq a). change (sumsq (y :: b)) with (y * y + sumsq b). ring.
Qed.
Lemma long_add a b m k : length a = length b -> at_most_long a m -> at_most_long b k -> at_most_long (add a b) (m + k).
Proof.
  intros L [M Ha] [K Hb]. split; [lra|]. change (sumsq (add a b) <= (m + k) * (m + k)). rewrite sumsq_add by exact L.
  pose proof (cauchy a b m k M K Ha Hb). change (sumsq a <= m * m) in Ha. change (sumsq b <= k * k) in Hb. lra.
Qed.

Lemma away_refl x : away x x = repeat 0 (length x).
Proof. induction x as [|a x IH]; cbn; f_equal; [lra|exact IH]. Qed.
Lemma away_add : forall start x v, length x = length start -> length v = length x -> away start (add x v) = add (away start x) v.
Proof.
  induction start as [|s start IH]; intros [|x xs] [|v vs] L1 L2; cbn in L1, L2; try discriminate; auto.
  unfold away, add in *. cbn [map2]. f_equal; [ring|]. apply IH; lia.
Qed.
Lemma away_length start x : length x = length start -> length (away start x) = length start.
Proof. intros L. unfold away. rewrite map2_length, L. apply Nat.min_id. Qed.

Lemma tell_center n s g : finv n s -> gradient n g -> exists x v, fcenter s = Some x /\ fvelocity (fclipup_tell s g) = Some v /\
  length x = n /\ length v = n /\ at_most_long v (fmax_speed s) /\ fcenter (fclipup_tell s g) = Some (add x v).
Proof.
  intros I G. destruct (ftell_ok n s g I G) as [(_ & (v' & V' & L') & _) (v & V & B)]. destruct I as (_ & _ & (x & X & Lx)).
  exists x, v. assert (v' = v) by congruence. subst v'. split; [exact X|]. split; [exact V|]. split; [exact Lx|]. split; [exact L'|]. split; [exact B|].
  change (fcenter (fclipup_tell s g)) with (vadd (fcenter s) (fvelocity (fclipup_tell s g))). rewrite X, V. reflexivity.
Qed.

Lemma tells_snoc s gs g : tells s (gs ++ [g]) = fclipup_tell (tells s gs) g.
Proof. unfold tells. rewrite fold_left_app. reflexivity. Qed.

Lemma repeat_long n : at_most_long (repeat 0 n) 0.
Proof. split; [lra|]. induction n; cbn; [lra|]. fold (sumsq (repeat 0 n)) in *. lra. Qed.

Lemma init_center center mom lr speed s0 : fclipup_init center mom lr speed = Ok s0 ->
  fcenter s0 = Some center /\ fvelocity s0 = Some (repeat 0 (length center)) /\ fmomentum s0 = mom.
Proof. destruct lr as [l|], speed as [sp|]; cbn; intros E; inversion E; subst; auto. Qed.

(* C225: with ClipUp, k steps take the center at most k times the maximum speed away (in the Euclidean distance) *)
Theorem C225_clipup : forall center mom lr speed s0 gs, fclipup_init center mom lr speed = Ok s0 ->
  (forall x, lr = Some x -> 0 <= x) -> (forall x, speed = Some x -> 0 <= x) -> Forall (gradient (length center)) gs ->
  exists x, fclipup_ask (tells s0 gs) = Some x /\ length x = length center /\
    at_most_long (away center x) (INR (length gs) * fmax_speed s0).
Proof.
  intros center mom lr speed s0 gs E H1 H2. destruct (init_center _ _ _ _ _ E) as [C0 _].
  pose proof (finit_inv _ _ _ _ _ E H1 H2) as I0. unfold fclipup_ask.
  induction gs as [|g gs IH] using rev_ind; intros F.
  - exists center. split; [exact C0|]. split; [reflexivity|]. rewrite away_refl. cbn [length INR]. rewrite Rmult_0_l. apply repeat_long.
  - apply Forall_app in F. destruct F as [F G]. pose proof (Forall_inv G) as Gg. destruct (IH F) as [x [X [L B]]]. clear IH.
    destruct (ftells_ok _ gs s0 I0 F) as [I M]. destruct (tell_center _ _ g I Gg) as [x' [v [X' [V [_ [Lv [Bv C]]]]]]].
    assert (x' = x) by congruence. subst x'. rewrite tells_snoc. exists (add x v). split; [exact C|]. split; [rewrite add_length; congruence|].
    rewrite away_add by congruence. rewrite app_length, plus_INR. cbn [length INR]. rewrite Rmult_plus_distr_r, Rmult_1_l.
    apply long_add; [rewrite away_length; congruence|exact B|]. rewrite M in Bv. exact Bv.
Qed.
Print Assumptions C225_clipup.

(* and under gradients of one direction it takes the straight way, at the speeds of climbing_speed *)
Lemma speed_nonneg mom lr m k : 0 <= mom -> 0 <= lr -> 0 <= m -> 0 <= climbing_speed mom lr m k.
Proof. intros. induction k; cbn; [lra|]. apply Rmin_glb; [lra|]. assert (0 <= mom * climbing_speed mom lr m k) by (apply Rmult_le_pos; lra). lra. Qed.
Lemma add_scale a b x : add (scale a x) (scale b x) = scale (a + b) x.
Proof. unfold add, scale. induction x; cbn; f_equal; [ring|auto]. Qed.
Lemma scale_0 x : scale 0 x = repeat 0 (length x).
Proof. unfold scale. induction x; cbn; f_equal; [ring|auto]. Qed.

Lemma gradient_direction u k : norm u = 1 -> 0 < k -> gradient (length u) (scale k u).
Proof.
  intros U K. split; [apply scale_length|]. destruct (Exists_dec (fun a => a <> 0) u) as [D|D].
  - intros a. destruct (Req_EM_T a 0); [right|left]; auto.
  - apply Exists_exists in D. destruct D as [a [Ha Na]]. exists (k * a). split; [apply in_map; exact Ha|]. apply Rmult_integral_contrapositive_currified; lra.
  - exfalso. rewrite <- Forall_Exists_neg in D. assert (Z : norm u = 0). { apply norm_zero. eapply Forall_impl; [|exact D]. cbn. intros a Ha. destruct (Req_EM_T a 0); tauto. } lra.
Qed.

Lemma climb_step mom lr m k sp u : norm u = 1 -> 0 < k -> 0 <= mom -> 0 <= lr -> 0 <= m -> 0 <= sp ->
  clipped (raw mom lr (scale sp u) (scale k u)) m = scale (Rmin m (mom * sp + lr)) u.
Proof.
  intros U K Hm Hl Hs Hp. assert (Nk : norm (scale k u) = k) by (rewrite norm_scale by lra; rewrite U; ring).
  assert (Rw : raw mom lr (scale sp u) (scale k u) = scale (mom * sp + lr) u).
  { unfold raw. rewrite Nk, !scale_scale, add_scale. f_equal. field. lra. }
  rewrite Rw. unfold clipped. assert (P : 0 <= mom * sp + lr) by (assert (0 <= mom * sp) by (apply Rmult_le_pos; lra); lra).
  assert (Nr : norm (scale (mom * sp + lr) u) = mom * sp + lr) by (rewrite norm_scale by exact P; rewrite U; ring).
  rewrite Nr. destruct (Rlt_dec m (mom * sp + lr)) as [L|L].
  - rewrite scale_scale, Rmin_left by lra. f_equal. field. lra.
  - rewrite Rmin_right by lra. reflexivity.
Qed.

Lemma climbed_S mom lr m k : climbed mom lr m (S k) = climbed mom lr m k + climbing_speed mom lr m (S k).
Proof.
  unfold climbed. rewrite seq_S, map_app. cbn [map plus]. set (l := map _ (seq 1 k)). generalize (climbing_speed mom lr m (S k)). clearbody l. intros r.
  induction l as [|x l IH]; cbn; [lra|]. rewrite IH. lra.
Qed.

Theorem C225_clipup_straight : forall center mom stepsize speed s0 u ks, fclipup_init center mom (Some stepsize) speed = Ok s0 ->
  0 <= mom -> 0 <= stepsize -> (forall x, speed = Some x -> 0 <= x) -> length u = length center -> norm u = 1 -> Forall (fun k => 0 < k) ks ->
  let steps := length ks in
  fvelocity (tells s0 (map (fun k => scale k u) ks)) = Some (scale (climbing_speed mom stepsize (fmax_speed s0) steps) u) /\
  fclipup_ask (tells s0 (map (fun k => scale k u) ks)) = Some (add center (scale (climbed mom stepsize (fmax_speed s0) steps) u)).
Proof.
  intros center mom st speed s0 u ks E Hm Hs Hsp Lu U. destruct (init_center _ _ _ _ _ E) as [C0 [V0 M0]].
  assert (I0 : finv (length center) s0) by (eapply finit_inv; [exact E| |exact Hsp]; intros x Hx; injection Hx as <-; exact Hs).
  assert (L0 : flr s0 = st) by (destruct speed; cbn in E; inversion E; reflexivity).
  assert (Mx : 0 <= fmax_speed s0) by apply I0. unfold fclipup_ask. cbv zeta.
  induction ks as [|k ks IH] using rev_ind; intros F.
  - cbn [length map]. split.
    + change (tells s0 []) with s0. rewrite V0. f_equal. cbn [climbing_speed]. rewrite scale_0, Lu. reflexivity.
    + change (tells s0 []) with s0. rewrite C0. f_equal. unfold climbed. cbn. rewrite scale_0, Lu. clear. unfold add. induction center; cbn; f_equal; [ring|auto].
  - apply Forall_app in F. destruct F as [F G]. pose proof (Forall_inv G) as Pk. cbn in Pk. destruct (IH F) as [V C]. clear IH.
    rewrite map_app, app_length. cbn [map length]. rewrite tells_snoc, Nat.add_1_r.
    assert (Gr : Forall (gradient (length center)) (map (fun k => scale k u) ks)).
    { apply Forall_forall. intros g Hg. apply in_map_iff in Hg. destruct Hg as [q [<- Hq]]. rewrite <- Lu. apply gradient_direction; auto. rewrite Forall_forall in F. auto. }
    destruct (ftells_ok _ _ s0 I0 Gr) as [I M].
    assert (K : forall l s, flr (tells s l) = flr s /\ fmomentum (tells s l) = fmomentum s) by (induction l as [|g l IHl]; intros s; cbn; [auto|destruct (IHl (fclipup_tell s g)); auto]).
    destruct (K (map (fun k => scale k u) ks) s0) as [K1 K2].
    set (s := tells s0 (map (fun k => scale k u) ks)) in *.
    assert (V' : fvelocity (fclipup_tell s (scale k u)) = Some (scale (climbing_speed mom st (fmax_speed s0) (S (length ks))) u)).
    { rewrite (ftell_eq s _ (scale k u) V); [|rewrite scale_length; apply gradient_direction; auto]. rewrite K2, K1, M, M0, L0. f_equal. cbn [climbing_speed].
      apply climb_step; auto. apply speed_nonneg; auto. }
    split; [exact V'|].
    change (fcenter (fclipup_tell s (scale k u))) with (vadd (fcenter s) (fvelocity (fclipup_tell s (scale k u)))). rewrite C, V'. cbn [vadd]. f_equal.
    rewrite climbed_S, <- add_scale. clear -Lu. revert u Lu. unfold add, scale. induction center as [|c center IH]; intros [|x u] L; cbn in L; try discriminate; cbn [map map2]; auto.
    f_equal; [ring|]. apply IH. lia.
Qed.
Print Assumptions C225_clipup_straight.

(* C225: with Adam, k steps take no coordinate farther than k times the bound of a single move *)
Lemma travel_bound B moves : (forall m, In m moves -> exists y, m = Some y /\ Rabs y <= B) -> forall c,
  exists x, travel (Some c) moves = Some x /\ Rabs (x - c) <= INR (length moves) * B.
Proof.
  induction moves as [|m moves IH]; intros H c.
  - exists c. split; [reflexivity|]. rewrite Rminus_eq_0, Rabs_R0. cbn. lra.
  - destruct (H m) as [y [-> Hy]]; [left; auto|]. destruct (IH ltac:(intros m Hm; apply H; right; auto) (c + y)) as [x [E Bx]].
    exists x. split; [exact E|]. cbn [length]. rewrite S_INR. replace (x - c) with ((x - (c + y)) + y) by ring.
    eapply Rle_trans; [apply Rabs_triang|]. lra.
Qed.
Theorem C225_adam : forall center lr beta1 beta2 epsilon gs, 0 <= lr -> 0 <= beta1 < 1 -> 0 <= beta2 < 1 -> beta1 * beta1 < beta2 -> 0 < epsilon ->
  gradients (length center) gs -> forall j c, nth_error center j = Some c ->
  exists x, nth_error (fadam_ask (fadam_run (fadam_init center (Some lr) (Some beta1) (Some beta2) (Some epsilon)) gs)) j = Some (Some x) /\
    Rabs (x - c) <= INR (length gs) * (lr * sqrt (beta2 / ((beta2 - beta1 * beta1) * (1 - beta2)))).
Proof.
  intros center lr b1 b2 eps gs Hl H1 H2 H3 He G j c Hj.
  destruct (C122_functional center (Some lr) (Some b1) (Some b2) (Some eps) gs) as [_ R]; [exact H1|exact H2|exact G|].
  specialize (R j c Hj). rewrite R. cbn [given].
  destruct (travel_bound (lr * sqrt (b2 / ((b2 - b1 * b1) * (1 - b2)))) (moves_of (adam_move lr b1 b2 eps) j gs)) with (c := c) as [x [E B]].
  - intros m Hm. unfold moves_of in Hm. apply in_map_iff in Hm. destruct Hm as [k [<- _]].
    assert (S : exists y, adam_move lr b1 b2 eps (coordinate j (firstn (S k) gs)) = Some y).
    { unfold adam_move. cbv zeta. destruct (Req_EM_T _ 0) as [Z|Z]; [|eauto]. exfalso. pose proof (sqrt_pos (v_hat b2 (coordinate j (firstn (S k) gs)))). lra. }
    destruct S as [y Y]. exists y. split; [exact Y|]. eapply move_bound; [| | | | |exact Y]; lra.
  - exists x. rewrite E. split; [reflexivity|]. unfold moves_of in B. rewrite map_length, seq_length in B. exact B.
Qed.
Print Assumptions C225_adam.

(* With the default maximum speed (twice the step size) and momentum 9/10, the third step already has full speed. *)
Example C225_example :
  (exists s0, fclipup_init [5; 6] (9 / 10) (Some 1) None = Ok s0 /\ fmax_speed s0 = 1 * 2) /\ gradient 2 [3; 4] /\ norm [3 / 5; 4 / 5] = 1 /\
  map (climbing_speed (9 / 10) 1 (1 * 2)) [1; 2; 3]%nat = [1; 19 / 10; 2] /\ climbed (9 / 10) 1 (1 * 2) 3 = 49 / 10.
Proof.
  assert (S1 : climbing_speed (9 / 10) 1 (1 * 2) 1 = 1) by (cbn; rewrite Rmin_right; lra).
  assert (S2 : climbing_speed (9 / 10) 1 (1 * 2) 2 = 19 / 10).
  { change (Rmin (1 * 2) (9 / 10 * climbing_speed (9 / 10) 1 (1 * 2) 1 + 1) = 19 / 10). rewrite S1. rewrite Rmin_right; lra. }
  assert (S3 : climbing_speed (9 / 10) 1 (1 * 2) 3 = 2).
  { change (Rmin (1 * 2) (9 / 10 * climbing_speed (9 / 10) 1 (1 * 2) 2 + 1) = 2). rewrite S2. rewrite Rmin_left; lra. }
  split; [eexists; split; reflexivity|]. split; [split; [reflexivity|exists 3; split; [left; reflexivity|lra]]|].
  split; [|split].
  - unfold norm. replace (sumsq [3 / 5; 4 / 5]) with 1 by (cbn; lra). apply sqrt_1.
  - cbn [map]. rewrite S1, S2, S3. reflexivity.
  - unfold climbed. cbn [seq map fold_right]. rewrite S1, S2, S3. lra.
Qed.

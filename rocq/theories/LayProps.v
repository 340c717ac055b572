(* Properties of the modules of net/layers.py: C146 (Bin), C147 (Clip, Round), C148 (FeedForwardNet), C149 (StructuredControlNet),
   C150 and C151 (LocomotorNet). *)
From Coq Require Import Reals String Lra Lia.
From Verif Require Import Prelude LayModel LaySpec LayProofs LayProofs2.
Open Scope R_scope.

(* C146: Bin turns a value closer to lb into lb and a value closer to ub into ub, whichever of the two bounds is the larger. *)
Theorem C146_bin_partial : forall lb ub x, lb <> ub ->
  (Rabs (x - lb) < Rabs (x - ub) -> bin lb ub x = Some lb) /\ (Rabs (x - ub) < Rabs (x - lb) -> bin lb ub x = Some ub).
Proof.
  intros lb ub x NE. unfold bin. destruct (Req_EM_T ((ub - lb) / 2) 0) as [E | E]; [exfalso; apply NE; lra |].
  set (s := (ub - lb) / 2) in *. set (m := (ub + lb) / 2) in *.
  assert (forall d, Rabs (d + s) < Rabs (d - s) -> rsign (d / s) = -1) as SG.
  { intros d G. unfold rsign. assert (d * s < 0) as P.
    { apply Rsqr_lt_abs_1 in G. unfold Rsqr in G. lra. }
    assert (d / s < 0) as P2.
    { replace (d / s) with ((d * s) * / (s * s)) by (field; exact E).
      assert (0 < s * s) by (pose proof (Rsqr_pos_lt s E) as PP; unfold Rsqr in PP; exact PP).
      assert (0 < / (s * s)) by (apply Rinv_0_lt_compat; assumption). nra. }
    destruct (total_order_T (d / s) 0) as [[G1 | G1] | G1]; lra. }
  assert (forall d, Rabs (d - s) < Rabs (d + s) -> rsign (d / s) = 1) as SG2.
  { intros d G. unfold rsign. assert (0 < d * s) as P.
    { apply Rsqr_lt_abs_1 in G. unfold Rsqr in G. lra. }
    assert (0 < d / s) as P2.
    { replace (d / s) with ((d * s) * / (s * s)) by (field; exact E).
      assert (0 < s * s) by (pose proof (Rsqr_pos_lt s E) as PP; unfold Rsqr in PP; exact PP).
      assert (0 < / (s * s)) by (apply Rinv_0_lt_compat; assumption). nra. }
    destruct (total_order_T (d / s) 0) as [[G1 | G1] | G1]; lra. }
  split; intro G.
  - rewrite SG.
    + f_equal. unfold s, m. lra.
    + replace (x - m + s) with (x - lb) by (unfold s, m; lra). replace (x - m - s) with (x - ub) by (unfold s, m; lra). exact G.
  - rewrite SG2.
    + f_equal. unfold s, m. lra.
    + replace (x - m + s) with (x - lb) by (unfold s, m; lra). replace (x - m - s) with (x - ub) by (unfold s, m; lra). exact G.
Qed.
Print Assumptions C146_bin_partial.
(* A value in the middle becomes neither of the two. *)
Theorem C146_middle_refuted : forall lb ub x, lb <> ub -> Rabs (x - lb) = Rabs (x - ub) ->
  bin lb ub x = Some x /\ x <> lb /\ x <> ub.
Proof.
  intros lb ub x NE EQ.
  assert (x = (ub + lb) / 2) as ->.
  { assert (Rsqr (x - lb) = Rsqr (x - ub)) as EQ2 by (rewrite (Rsqr_abs (x - lb)), (Rsqr_abs (x - ub)), EQ; reflexivity). unfold Rsqr in EQ2. assert ((ub - lb) * (x - (ub + lb) / 2) = 0) as P by lra.
    apply Rmult_integral in P. destruct P as [P | P]; [exfalso; apply NE |]; lra. }
  split; [| split; intro; apply NE; lra]. unfold bin. destruct (Req_EM_T ((ub - lb) / 2) 0) as [E | E]; [exfalso; apply NE; lra |].
  f_equal. unfold rsign. replace ((ub + lb) / 2 - (ub + lb) / 2) with 0 by lra. replace (0 / ((ub - lb) / 2)) with 0 by (unfold Rdiv; rewrite Rmult_0_l; reflexivity).
  destruct (total_order_T 0 0) as [[G | G] | G]; lra.
Qed.
Print Assumptions C146_middle_refuted.
Example C146_example : bin (-1) 3 (/ 2) = Some (-1) /\ bin (-1) 3 2 = Some 3 /\ bin (-1) 3 1 = Some 1.
Proof.
  split; [| split].
  - apply (C146_bin_partial (-1) 3 (/ 2)); [lra |]. rewrite Rabs_right, Rabs_left by lra. lra.
  - apply (C146_bin_partial (-1) 3 2); [lra |]. rewrite Rabs_left, Rabs_right by lra. lra.
  - apply (C146_middle_refuted (-1) 3 1); [lra |]. rewrite Rabs_right, Rabs_left by lra. lra.
Qed.

(* C147: Clip returns the point of the interval that is the closest to the given one. *)
Theorem C147_clip : forall lb ub x, lb <= ub ->
  lb <= clip lb ub x <= ub /\ (forall y, lb <= y <= ub -> Rabs (clip lb ub x - x) <= Rabs (y - x)).
Proof.
  intros lb ub x LE. unfold clip, Rmax, Rmin. destruct (Rle_dec x lb).
  - destruct (Rle_dec lb ub); [| lra]. split; [lra |]. intros y G. rewrite !Rabs_right by lra. lra.
  - destruct (Rle_dec x ub).
    + split; [lra |]. intros y G. replace (x - x) with 0 by lra. rewrite Rabs_R0. apply Rabs_pos.
    + split; [lra |]. intros y G. rewrite !Rabs_left1 by lra. lra.
Qed.
Print Assumptions C147_clip.
(* Round returns the nearest number with that many digits behind the point (negative: with that many zeros before it); of two equally
   near ones, the one whose last digit is even. Rounding again changes nothing, and rounding keeps the order. *)
Theorem C147_round : forall ndigits x,
  (exists k, round ndigits x = IZR k / powerRZ 10 ndigits /\ nearest (x * powerRZ 10 ndigits) k) /\
  Rabs (round ndigits x - x) <= / 2 / powerRZ 10 ndigits /\
  round ndigits (round ndigits x) = round ndigits x /\
  (forall y, x <= y -> round ndigits x <= round ndigits y).
Proof.
  intros n x. assert (0 < powerRZ 10 n) as P by (apply powerRZ_lt; lra). unfold round. set (q := powerRZ 10 n) in *.
  assert (0 < / q) as PI by (apply Rinv_0_lt_compat; exact P).
  destruct (rne_nearest (x * q)) as (k & E & N). split; [| split; [| split]].
  - exists k. rewrite E. auto.
  - rewrite E. replace (IZR k / q - x) with ((IZR k - x * q) * / q) by (field; lra). rewrite Rabs_mult, (Rabs_right (/ q)) by lra.
    unfold Rdiv. apply Rmult_le_compat_r; [lra |]. apply N.
  - rewrite E. replace (IZR k / q * q) with (IZR k) by (field; lra). destruct (rne_nearest (IZR k)) as (k' & E' & N').
    rewrite E'. rewrite (nearest_unique _ _ _ N' (nearest_self k)). reflexivity.
  - intros y LE. destruct (rne_nearest (y * q)) as (l & EL & NL). rewrite E, EL. unfold Rdiv. apply Rmult_le_compat_r; [lra |].
    apply IZR_le. apply (nearest_mono _ _ _ _ N NL). apply Rmult_le_compat_r; lra.
Qed.
Print Assumptions C147_round.
Example C147_example : clip (-1) 2 5 = 2 /\ round 1 (23 / 20) = 12 / 10 /\ round (-1) 25 = 20.
Proof.
  split; [| split].
  - unfold clip. rewrite Rmax_left, Rmin_right by lra. reflexivity.
  - destruct (C147_round 1 (23 / 20)) as ((k & -> & N) & _). unfold powerRZ in *. change (Pos.to_nat 1) with 1%nat in *. cbn [pow] in *.
    assert (nearest (23 / 20 * (10 * 1)) 12) as N2.
    { split; [| reflexivity]. rewrite Rabs_right; lra. }
    rewrite (nearest_unique _ _ _ N N2). field.
  - destruct (C147_round (-1) 25) as ((k & -> & N) & _). unfold powerRZ in *. change (Pos.to_nat 1) with 1%nat in *. cbn [pow] in *.
    assert (nearest (25 * / (10 * 1)) 2) as N2.
    { split; [| reflexivity]. rewrite Rabs_left1; lra. }
    rewrite (nearest_unique _ _ _ N N2). field.
Qed.

(* ---- C148: FeedForwardNet ---- *)
(* an activation function as given, and as a function on numbers *)
Definition act_is (a : actspec) (g : R -> R) : Prop :=
  match a with ANone => forall x, g x = x | AName n => act_named n g | AFun f => forall l, f l = map g l end.
Definition layer_is (l : layer_spec) (d : dense) : Prop :=
  match l with
  | L2 size a => d_size d = size /\ d_bias d = true /\ act_is a (d_act d)
  | L3 size a bias => d_size d = size /\ d_bias d = bias /\ act_is a (d_act d)
  | LBad => False
  end.
Definition acceptable (l : layer_spec) : Prop :=
  match l with L2 _ (AName n) | L3 _ (AName n) _ => exists g, act_named n g | LBad => False | _ => True end.

Lemma resolve_is a g : act_is a g -> exists f, resolve a = Ok f /\ act_matches f g.
Proof.
  destruct a as [| n | f]; cbn [act_is]; intro A.
  - exists None. auto.
  - destruct (resolve_named n g A) as (f & E & Q). exists (Some f). auto.
  - exists (Some f). auto.
Qed.
Lemma build_is layers ds : Forall2 layer_is layers ds -> forall nin,
  exists l, ffn_build nin layers = Ok l /\ chained nin l /\ Forall2 shape_matches l ds.
Proof.
  induction 1 as [| l d layers ds LI F IH]; intro nin; cbn [ffn_build].
  - exists nil. cbn. auto.
  - destruct l as [size a | size a bias |]; cbn in LI; [| | tauto]; destruct LI as (E1 & E2 & E3);
      destruct (resolve_is a _ E3) as (f & RE & M); cbn [bind]; rewrite RE; cbn [bind];
      destruct (IH size) as (l & BE & C & FM); rewrite BE; cbn [rmap];
      (eexists; split; [reflexivity |]; split; [cbn; auto |]; constructor; [| exact FM]; split; [auto |]; split; auto).
Qed.

(* For every list of well-formed layers, the network accepts exactly the parameter vectors with one number per weight and bias, and
   for an input of the right length it returns what the multilayer perceptron with those parameters computes: layer after layer, the
   weights row by row and then the biases. *)
Theorem C148_forward : forall nin layers ds v x, Forall2 layer_is layers ds ->
  length v = mlp_size nin ds -> length x = nin ->
  exists y, ffn nin layers v x = Ok y
            /\ holds y (mlp_out nin ds) (mlp (fun k => nth k v 0) 0 nin ds (fun i => nth i x 0)).
Proof.
  intros nin layers ds v x F LV LX. destruct (build_is _ _ F nin) as (l & BE & C & FM). unfold ffn. rewrite BE. cbn [bind].
  unfold fill. rewrite (ffn_count_size l nin ds C FM), LV, Nat.eqb_refl.
  apply (ffn_forward_holds v l 0 nin ds x _ C FM); [lia |]. split; auto.
Qed.
Print Assumptions C148_forward.
(* The network can be built exactly if every layer is a tuple of two or three and every activation given by name is one of the known
   ones; a parameter vector of another length, and an input of another length, is refused. *)
Theorem C148_refused : forall nin layers,
  ((exists l, ffn_build nin layers = Ok l) <-> Forall acceptable layers) /\
  (forall ds v x, Forall2 layer_is layers ds -> length v <> mlp_size nin ds -> is_ok (ffn nin layers v x) = false) /\
  (forall ds v x, Forall2 layer_is layers ds -> layers <> nil -> length x <> nin -> is_ok (ffn nin layers v x) = false).
Proof.
  intros nin layers. split; [| split].
  - revert nin. induction layers as [| l layers IH]; intro nin; [cbn; split; eauto |]. split.
    + intros (r & E). cbn [ffn_build] in E. destruct l as [size a | size a bias |]; cbn [bind] in E; [| | discriminate];
        destruct (resolve a) as [f |] eqn:RE; cbn [bind] in E; try discriminate;
        destruct (ffn_build size layers) as [r' |] eqn:BE; cbn in E; try discriminate;
        (constructor; [| apply (proj1 (IH size)); eauto]; destruct a; cbn; auto; eapply named_resolve; eauto).
    + intro F. inversion F as [| ? ? A F']; subst. cbn [ffn_build].
      assert (forall a, match a with AName n => exists g, act_named n g | _ => True end -> exists f, resolve a = Ok f) as RA.
      { intros [| n | f] Q; cbn; eauto. destruct Q as (g & Q). destruct (resolve_named n g Q) as (f & E & _). exists (Some f). exact E. }
      destruct l as [size a | size a bias |]; cbn in A; [| | tauto]; cbn [bind];
        destruct (RA a A) as (f & ->); cbn [bind]; destruct (proj2 (IH size) F') as (r & ->); cbn; eauto.
  - intros ds v x F LV. destruct (build_is _ _ F nin) as (l & BE & C & FM). unfold ffn. rewrite BE. cbn [bind].
    unfold fill. rewrite (ffn_count_size l nin ds C FM). destruct (Nat.eqb_spec (length v) (mlp_size nin ds)); [contradiction |].
    destruct (_ <? _)%nat; reflexivity.
  - intros ds v x F NE LX. destruct (build_is _ _ F nin) as (l & BE & C & FM). unfold ffn. rewrite BE. cbn [bind].
    unfold fill. destruct (_ =? _)%nat; [| destruct (_ <? _)%nat; reflexivity].
    destruct FM as [| s d l' ds' M FM]; [inversion F; subst; contradiction |]. destruct C as [C _].
    cbn [ffn_forward]. unfold linear. rewrite C. destruct (Nat.eqb_spec (length x) nin); [contradiction | reflexivity].
Qed.
Print Assumptions C148_refused.
Definition ex_layers : list layer_spec := [L2 1%nat (AName "relu"); L3 2%nat ANone false].
Definition ex_dense : list dense := [ {| d_size := 1; d_bias := true; d_act := relu |};
                                      {| d_size := 2; d_bias := false; d_act := fun x => x |} ].
Example C148_example : Forall2 layer_is ex_layers ex_dense /\ mlp_size 2 ex_dense = 5%nat /\
  ffn 2 ex_layers [1; 2; 3; 5; 7] [1; 1] = Ok [30; 42] /\ ffn_build 2 [L2 3%nat (AName "gelu")] = Err ValueError.
Proof.
  split; [| split; [reflexivity | split; [| reflexivity]]].
  - constructor; [| constructor; [| constructor]]; cbn; repeat split. apply act_relu. apply relu_spec.
  - unfold ffn, fill, linear, dot. cbn -[Rlt_dec relu]. unfold dot. cbn -[Rlt_dec relu]. unfold relu. match goal with |- context [Rlt_dec ?a ?b] => destruct (Rlt_dec a b) as [G | G] end; [| exfalso; apply G; lra]. f_equal. f_equal; [lra |]. f_equal. lra.
Qed.

(* ---- C149: StructuredControlNet ---- *)
Lemma scn_layers_is nl hidden out a g : act_is a g ->
  Forall2 layer_is (scn_layers nl hidden out a)
    (repeat {| d_size := hidden; d_bias := true; d_act := g |} nl ++ [ {| d_size := out; d_bias := true; d_act := g |} ]).
Proof.
  intro A. unfold scn_layers. apply Forall2_app.
  - induction nl; cbn; constructor; cbn; auto.
  - constructor; [cbn; auto | constructor].
Qed.
Lemma mlp_out_app l d : forall nin, mlp_out nin (l ++ [d]) = d_size d.
Proof. induction l as [| e l IH]; intro nin; cbn; auto. Qed.
Lemma scn_size nl hidden out g : forall nin,
  mlp_size nin (repeat {| d_size := hidden; d_bias := true; d_act := g |} nl ++ [ {| d_size := out; d_bias := true; d_act := g |} ])
  = match nl with
    | O => (nin + 1) * out
    | S n => (nin + 1) * hidden + n * ((hidden + 1) * hidden) + (hidden + 1) * out
    end%nat.
Proof.
  induction nl as [| n IH]; intro nin; cbn [repeat app mlp_size d_size d_bias affine_size].
  - unfold affine_size. lia.
  - rewrite IH. unfold affine_size. destruct n; lia.
Qed.

(* The output is the sum of a linear layer and of a multilayer perceptron with the given number of hidden layers, both reading the same
   input; the activation function is applied behind every layer of the latter, the last one included. The parameters of the linear layer come first. *)
Theorem C149_forward : forall nin out nl hidden bias a g v x, act_is a g ->
  let ds := repeat {| d_size := hidden; d_bias := true; d_act := g |} nl ++ [ {| d_size := out; d_bias := true; d_act := g |} ] in
  length v = (affine_size nin out bias +
              match nl with O => (nin + 1) * out | S n => (nin + 1) * hidden + n * ((hidden + 1) * hidden) + (hidden + 1) * out end)%nat ->
  length x = nin ->
  exists y, scn nin out nl hidden bias a v x = Ok y
    /\ holds y out (fun j => affine (fun k => nth k v 0) 0 nin out bias (fun i => nth i x 0) j
                             + mlp (fun k => nth k v 0) (affine_size nin out bias) nin ds (fun i => nth i x 0) j).
Proof.
  intros nin out nl hidden bias a g v x A ds LV LX. rewrite <- (scn_size nl hidden out g nin) in LV. fold ds in LV.
  destruct (build_is _ _ (scn_layers_is nl hidden out a g A) nin) as (l & BE & C & FM). fold ds in FM.
  unfold scn, scn_build. rewrite BE. cbn [bind]. unfold fill, scn_count. rewrite (ffn_count_size l nin ds C FM), count_size, LV, Nat.eqb_refl.
  unfold scn_forward. destruct (linear_holds v 0 nin out bias x) as (y1 & E1 & [L1 Q1]); [rewrite count_size; lia | exact LX |].
  cbn [skipn] in E1. rewrite E1. cbn [bind]. rewrite count_size.
  destruct (ffn_forward_holds v l (affine_size nin out bias) nin ds x (fun i => nth i x 0) C FM) as (y2 & E2 & [L2 Q2]).
  { lia. } { split; auto. }
  unfold ds in L2, Q2. rewrite mlp_out_app in L2, Q2. fold ds in Q2. cbn [d_size] in L2, Q2.
  rewrite E2. cbn [rmap]. eexists. split; [reflexivity |]. destruct (map2_nth Rplus y1 y2 out L1 L2) as [LM QM].
  split; [exact LM |]. intros j G. rewrite QM, Q1, Q2 by exact G. reflexivity.
Qed.
Print Assumptions C149_forward.
Lemma mlp_last th g l d : (forall x, -1 < g x < 1) -> d_act d = g -> forall off nin x j, -1 < mlp th off nin (l ++ [d]) x j < 1.
Proof. intros B E. induction l as [| e l IH]; intros off nin x j; cbn [app mlp]; [rewrite E; apply B | apply IH]. Qed.
(* With the default activation, the non-linear part contributes less than 1 to every output, however many layers it has. *)
Theorem C149_bounded : forall nin out nl hidden bias v x y, scn nin out nl hidden bias (AName "tanh") v x = Ok y ->
  length x = nin /\ holds y out (fun j => nth j y 0) /\
  forall j, (j < out)%nat -> Rabs (nth j y 0 - affine (fun k => nth k v 0) 0 nin out bias (fun i => nth i x 0) j) < 1.
Proof.
  intros nin out nl hidden bias v x y E.
  assert (act_is (AName "tanh") tanh) as A by (apply act_tanh; apply tanh_spec).
  set (ds := repeat {| d_size := hidden; d_bias := true; d_act := tanh |} nl ++ [ {| d_size := out; d_bias := true; d_act := tanh |} ]).
  assert (length v = affine_size nin out bias + mlp_size nin ds /\ length x = nin)%nat as [LV LX].
  { destruct (build_is _ _ (scn_layers_is nl hidden out (AName "tanh") tanh A) nin) as (l & BE & C & FM). fold ds in FM.
    unfold scn, scn_build in E. rewrite BE in E. cbn [bind] in E. unfold fill, scn_count in E.
    rewrite (ffn_count_size l nin ds C FM), count_size in E.
    destruct (Nat.eqb_spec (length v) (affine_size nin out bias + mlp_size nin ds)) as [L |];
      [| destruct (_ <? _)%nat; discriminate].
    split; [exact L |]. unfold scn_forward, linear in E. destruct (Nat.eqb_spec (length x) nin); [assumption | discriminate]. }
  unfold ds in LV. rewrite scn_size in LV.
  destruct (C149_forward nin out nl hidden bias (AName "tanh") tanh v x A LV LX) as (y' & E' & L & Q).
  rewrite E in E'. injection E' as <-. split; [exact LX |]. split; [split; [exact L | reflexivity] |].
  intros j G. rewrite Q by exact G.
  match goal with |- Rabs (?a + ?m - ?a) < 1 => replace (a + m - a) with m by lra; assert (-1 < m < 1) as B end.
  { apply (mlp_last _ tanh); [apply tanh_bound | reflexivity]. }
  apply Rabs_def1; lra.
Qed.
Print Assumptions C149_bounded.
Example C149_example : scn 1 1 0 5 true (AName "hardtanh") [2; 1; 3; 1] [4] = Ok [10] /\
  act_is (AName "hardtanh") hardtanh /\ length [2; 1; 3; 1] = (affine_size 1 1 true + (1 + 1) * 1)%nat.
Proof.
  split; [| split; [apply act_hardtanh; apply hardtanh_spec | reflexivity]].
  unfold scn, scn_forward, fill, linear. cbn -[Rmin Rmax hardtanh]. unfold dot, hardtanh, clip. cbn -[Rmin Rmax]. f_equal. f_equal.
  rewrite Rmax_left, Rmin_right by lra. lra.
Qed.

(* ---- C150: LocomotorNet ---- *)
(* the forward passes with the number of passes since the last reset *)
Fixpoint stamps (t : nat) (ops : list lop) : list (nat * list R) :=
  match ops with [] => [] | LReset :: r => stamps 0 r | LForward x :: r => (t, x) :: stamps (S t) r end.
Definition loco_output (v : list R) (nin out : nat) (bias : bool) (n t : nat) (x : list R) (j : nat) : R :=
  affine (fun k => nth k v 0) 0 nin out bias (fun i => nth i x 0) j
  + oscillation (fun k => nth k v 0) (affine_size nin out bias) n out t j.
Definition gives (v : list R) (nin out : nat) (bias : bool) (n t : nat) (x : list R) (r : result (list R)) : Prop :=
  exists y, r = Ok y /\ holds y out (loco_output v nin out bias n t x).

Theorem C150_forward : forall nin out bias n v ops,
  length v = (affine_size nin out bias + 3 * n * out)%nat -> (forall x, In (LForward x) ops -> length x = nin) ->
  Forall2 (fun tx r => gives v nin out bias n (fst tx) (snd tx) r) (stamps 0 ops) (snd (loco_run (new_loco nin out bias n v) ops)).
Proof.
  intros nin out bias n v ops LV. unfold new_loco. generalize 0%nat as t.
  assert (length v = loco_count nin out bias n) as LV' by (unfold loco_count; rewrite count_size; lia).
  induction ops as [| [| x] ops IH]; intros t LX; cbn [stamps loco_run].
  - constructor.
  - apply (IH 0%nat). intros x I. apply LX. right. exact I.
  - destruct (loco_step v nin out bias n t x LV') as (y & E & H); [apply LX; left; reflexivity |]. rewrite E.
    specialize (IH (S t)). unfold with_t. cbn [lo_in lo_out lo_bias lo_n lo_v lo_t].
    destruct (loco_run _ ops) as [s2 ys] eqn:ER. cbn [snd]. constructor.
    + exists y. split; [reflexivity | exact H].
    + cbn [snd] in IH. apply IH. intros x' I. apply LX. right. exact I.
Qed.
Print Assumptions C150_forward.
(* So a network that was reset answers a sequence of inputs as a new network would. *)
Theorem C150_reset : forall nin out bias n v ops xs,
  loco_run (new_loco nin out bias n v) (ops ++ LReset :: map LForward xs) =
  (fst (loco_run (new_loco nin out bias n v) (map LForward xs)),
   snd (loco_run (new_loco nin out bias n v) ops) ++ snd (loco_run (new_loco nin out bias n v) (map LForward xs))).
Proof.
  intros nin out bias n v ops xs. unfold new_loco. set (c := fun t => {| lo_in := nin; lo_out := out; lo_bias := bias; lo_n := n; lo_v := v; lo_t := t |}).
  change (loco_run (c 0%nat) (ops ++ LReset :: map LForward xs) =
    (fst (loco_run (c 0%nat) (map LForward xs)), snd (loco_run (c 0%nat) ops) ++ snd (loco_run (c 0%nat) (map LForward xs)))).
  set (r := loco_run (c 0%nat) (map LForward xs)).
  assert (forall t, loco_run (c t) (ops ++ LReset :: map LForward xs) = (fst r, snd (loco_run (c t) ops) ++ snd r)) as Q; [| apply Q].
  induction ops as [| [| x] ops IH]; intro t; cbn [app loco_run].
  - unfold loco_reset, with_t. cbn [snd app lo_in lo_out lo_bias lo_n lo_v lo_t]. change (loco_run _ (map LForward xs)) with r. destruct r; reflexivity.
  - apply (IH 0%nat).
  - destruct (loco_forward (c t) x) as [s1 y] eqn:E.
    assert (exists t1, s1 = c t1) as (t1 & ->).
    { unfold loco_forward in E. destruct (linear _ _ _ _ _); injection E as <- _; [exists (S t) | exists t]; reflexivity. }
    rewrite (IH t1). destruct (loco_run (c t1) ops) as [s2 ys]. reflexivity.
Qed.
Print Assumptions C150_reset.
Lemma sin_pi2_1 : sin (PI / 2 * INR 1 + 0) = 1.
Proof. cbn [INR]. replace (PI / 2 * 1 + 0) with (PI / 2) by lra. apply sin_PI2. Qed.
Example C150_example : length [2; 3; PI / 2; 0] = (affine_size 1 1 false + 3 * 1 * 1)%nat /\
  snd (loco_run (new_loco 1 1 false 1 [2; 3; PI / 2; 0]) [LForward [5]; LForward [5]; LReset; LForward [5]]) = [Ok [10]; Ok [13]; Ok [10]].
Proof.
  split; [reflexivity |]. cbn -[INR sin Rdiv]. unfold dot. cbn -[INR sin Rdiv]. rewrite sin_pi2_1. cbn [INR].
  replace (PI / 2 * 0 + 0) with 0 by lra. rewrite sin_0.
  repeat (match goal with |- _ :: _ = _ :: _ => f_equal end); repeat (f_equal; try lra).
Qed.

(* ---- C151: LocomotorNet in rollouts ---- *)
Lemma feed_run s xs : feed s xs = loco_run s (map LForward xs).
Proof. revert s. induction xs as [| x xs IH]; intro s; cbn; [reflexivity |]. destruct (loco_forward s x). rewrite IH. reflexivity. Qed.
(* what one expects: in each episode of each evaluation, the k-th action is the one for timestep k. The model computes it for the
   timestep counted from the [start] of each episode. *)
Definition episode_ok (v : list R) (nin out : nat) (bias : bool) (n start : nat) (xs : list (list R)) (rs : list (result (list R))) : Prop :=
  length rs = length xs /\
  forall k x r, nth_error xs k = Some x -> nth_error rs k = Some r -> gives v nin out bias n (start + k) x r.

Lemma feed_ok nin out bias n v : length v = (affine_size nin out bias + 3 * n * out)%nat -> forall xs t, Forall (fun x => length x = nin) xs ->
  let s := {| lo_in := nin; lo_out := out; lo_bias := bias; lo_n := n; lo_v := v; lo_t := t |} in
  fst (feed s xs) = with_t s (t + length xs) /\ episode_ok v nin out bias n t xs (snd (feed s xs)).
Proof.
  intros LV. assert (length v = loco_count nin out bias n) as LV' by (unfold loco_count; rewrite count_size; lia).
  induction xs as [| x xs IH]; intros t F s; cbn [feed].
  - cbn. split; [unfold with_t; cbn; rewrite Nat.add_0_r; reflexivity |]. split; [reflexivity |]. intros [| k] ? ? Q; discriminate.
  - inversion F as [| ? ? LX F']; subst x0 l. destruct (loco_step v nin out bias n t x LV' LX) as (y & E & H). fold s in E. rewrite E.
    destruct (IH (S t) F') as [E1 [L1 Q1]]. unfold with_t, s. cbn [lo_in lo_out lo_bias lo_n lo_v lo_t] in *.
    destruct (feed _ xs) as [s2 ys]. cbn [fst snd] in *. split; [rewrite E1; unfold with_t; cbn; f_equal; lia |].
    split; [cbn; lia |]. intros [| k] x' r; cbn [nth_error]; intros A B.
    + injection A as <-. injection B as <-. exists y. rewrite Nat.add_0_r. auto.
    + replace (t + S k)%nat with (S t + k)%nat by lia. eauto.
Qed.

(* The episodes of a network: the first one starts at timestep 0, and every other one where the previous one ended. *)
Definition steps_of (xss : list (list (list R))) : nat := list_sum (map (@length _) xss).
Lemma steps_cons xs xss : steps_of (xs :: xss) = (length xs + steps_of xss)%nat.
Proof. reflexivity. Qed.
Lemma episodes_ok nin out bias n v : length v = (affine_size nin out bias + 3 * n * out)%nat -> forall xss t,
  Forall (Forall (fun x => length x = nin)) xss ->
  let s := {| lo_in := nin; lo_out := out; lo_bias := bias; lo_n := n; lo_v := v; lo_t := t |} in
  fst (episodes s xss) = with_t s (t + steps_of xss) /\ length (snd (episodes s xss)) = length xss /\
  forall i xs rs, nth_error xss i = Some xs -> nth_error (snd (episodes s xss)) i = Some rs ->
    episode_ok v nin out bias n (t + steps_of (firstn i xss)) xs rs.
Proof.
  intros LV. induction xss as [| xs xss IH]; intros t F s; cbn [episodes].
  - cbn. split; [unfold with_t; cbn; rewrite Nat.add_0_r; reflexivity |]. split; [reflexivity |]. intros [| i] ? ? Q; discriminate.
  - inversion F as [| ? ? LX F']; subst x l. unfold rollout, wrapper_reset. destruct (feed_ok nin out bias n v LV xs t LX) as [E1 Q1].
    fold s in E1, Q1. destruct (feed s xs) as [s1 rs]. cbn [fst snd] in E1, Q1. subst s1.
    destruct (IH (t + length xs)%nat F') as (E2 & L2 & Q2). unfold with_t, s in *. cbn [lo_in lo_out lo_bias lo_n lo_v lo_t] in *.
    destruct (episodes _ xss) as [s2 rss]. cbn [fst snd] in *. split; [rewrite E2, steps_cons; unfold with_t; cbn [lo_in lo_out lo_bias lo_n lo_v]; f_equal; lia |].
    split; [cbn; lia |]. intros [| i] xs' rs'; cbn [nth_error]; intros A B.
    + injection A as <-. injection B as <-. cbn. rewrite Nat.add_0_r. exact Q1.
    + specialize (Q2 i xs' rs' A B). cbn [firstn]. rewrite steps_cons, Nat.add_assoc. exact Q2.
Qed.

(* C151: the first episode of a problem's network is as it should be; in general, an episode starts with the timestep that counts all the
   steps of all the earlier episodes, of the same solution and of the solutions evaluated before. *)
Theorem C151_clock_partial : forall nin out bias n v0 sols,
  Forall (fun sol => length (fst sol) = (affine_size nin out bias + 3 * n * out)%nat /\ Forall (Forall (fun x => length x = nin)) (snd sol)) sols ->
  forall e v xss i xs rss rs, nth_error sols e = Some (v, xss) -> nth_error xss i = Some xs ->
  nth_error (snd (evaluations (new_loco nin out bias n v0) sols)) e = Some rss -> nth_error rss i = Some rs ->
  let start := (list_sum (map (fun sol => steps_of (snd sol)) (firstn e sols)) + steps_of (firstn i xss))%nat in
  episode_ok v nin out bias n start xs rs /\ (e = O -> i = O -> start = O).
Proof.
  intros nin out bias n v0 sols F e v xss i xs rss rs A B C D start.
  split; [| intros -> ->; reflexivity].
  unfold start. clear start. revert F e A C. unfold new_loco.
  assert (forall sols v0 t, Forall (fun sol => length (fst sol) = (affine_size nin out bias + 3 * n * out)%nat /\ Forall (Forall (fun x => length x = nin)) (snd sol)) sols ->
    forall e, nth_error sols e = Some (v, xss) ->
    nth_error (snd (evaluations {| lo_in := nin; lo_out := out; lo_bias := bias; lo_n := n; lo_v := v0; lo_t := t |} sols)) e = Some rss ->
    episode_ok v nin out bias n (t + (list_sum (map (fun sol => steps_of (snd sol)) (firstn e sols)) + steps_of (firstn i xss))) xs rs) as G;
    [| apply (G sols v0 0%nat)].
  clear sols v0. induction sols as [| [v1 xss1] sols IH]; intros v0 t F e A C; [destruct e; discriminate |].
  inversion F as [| ? ? [LV LX] F']; subst x l. cbn [fst snd] in LV, LX. cbn [evaluations] in C. unfold with_v in C. cbn [lo_in lo_out lo_bias lo_n lo_v lo_t] in C.
  destruct (episodes_ok nin out bias n v1 LV xss1 t LX) as (E1 & L1 & Q1).
  destruct (episodes _ xss1) as [s1 r1] eqn:E. cbn [fst snd] in *. subst s1. unfold with_t in C. cbn [lo_in lo_out lo_bias lo_n lo_v lo_t] in C.
  destruct (evaluations _ sols) as [s2 r2] eqn:EE. cbn [snd] in C. destruct e as [| e]; cbn [nth_error] in A, C.
  - injection A as -> ->. injection C as ->. cbn. apply (Q1 i xs rs B D).
  - specialize (IH v1 (t + steps_of xss1)%nat F' e A). rewrite EE in IH. cbn [snd] in IH. specialize (IH C).
    cbn [firstn map list_sum fold_right snd]. unfold list_sum in IH.
    match goal with |- episode_ok _ _ _ _ _ ?a _ _ => match type of IH with episode_ok _ _ _ _ _ ?b _ _ => replace a with b by lia end end. exact IH.
Qed.
Print Assumptions C151_clock_partial.

(* So the same solution, evaluated twice on the same observations, need not act in the same way: for whatever shape of the network and
   however many steps (at least one) the first episode has, there are parameters with which the very first action differs. *)
Lemma sum_first n f : (0 < n)%nat -> (forall s, (0 < s < n)%nat -> f s = 0) -> sum_below n f = f O.
Proof.
  intros G Q. destruct n as [| n]; [lia |]. clear G. rewrite sum_left.
  assert (sum_below n (fun i => f (S i)) = 0) as ->; [| lra].
  assert (forall m, (m <= n)%nat -> sum_below m (fun i => f (S i)) = 0) as Q2; [| apply Q2; lia].
  induction m as [| m IH]; intro GM; cbn; [reflexivity |]. rewrite IH, Q by lia. lra.
Qed.
Theorem C151_restart_refuted : forall nin out bias n v0 xs x0, (0 < out)%nat -> (0 < n)%nat ->
  Forall (fun x => length x = nin) xs -> nth_error xs 0 = Some x0 ->
  exists v y1 y2 rs1 rs2, length v = (affine_size nin out bias + 3 * n * out)%nat /\ y1 <> y2 /\
    snd (evaluations (new_loco nin out bias n v0) [(v, [xs]); (v, [xs])]) = [[Ok y1 :: rs1]; [Ok y2 :: rs2]] /\
    snd (evaluations (new_loco nin out bias n v0) [(v, [xs; xs])]) = [[Ok y1 :: rs1; Ok y2 :: rs2]].
Proof.
  intros nin out bias n v0 xs x0 GO GN F X0.
  set (T := length xs). assert (0 < T)%nat as GT by (unfold T; destruct xs; [discriminate | cbn; lia]).
  (* all amplitudes 1 for the first wave, 0 for the others; frequency PI/2 divided by the number of steps; phase 0 *)
  set (a := affine_size nin out bias).
  set (v := repeat 0 a ++ (repeat 1 out ++ repeat 0 ((n - 1) * out)) ++ repeat (PI / 2 / INR T) (n * out) ++ repeat 0 (n * out)).
  assert (length v = (a + 3 * n * out)%nat) as LV.
  { unfold v. rewrite !app_length, !repeat_length. nia. }
  assert (forall s, (s < n)%nat -> nth (a + s * out + 0) v 0 = if Nat.eq_dec s 0 then 1 else 0) as QA.
  { intros s G. unfold v. rewrite app_nth2 by (rewrite repeat_length; lia). rewrite repeat_length.
    replace (a + s * out + 0 - a)%nat with (s * out)%nat by lia.
    rewrite app_nth1 by (rewrite app_length, !repeat_length; nia).
    destruct (Nat.eq_dec s 0) as [-> | NE].
    - rewrite app_nth1 by (rewrite repeat_length; lia). destruct out; [lia |]. reflexivity.
    - rewrite app_nth2 by (rewrite repeat_length; nia). apply nth_repeat. }
  assert (forall s, (s < n)%nat -> nth (a + (n + s) * out + 0) v 0 = PI / 2 / INR T) as QW.
  { intros s G. unfold v. rewrite app_nth2 by (rewrite repeat_length; lia). rewrite repeat_length.
    rewrite app_nth2 by (rewrite app_length, !repeat_length; nia). rewrite app_length, !repeat_length.
    rewrite app_nth1 by (rewrite repeat_length; nia).
    rewrite (nth_indep _ 0 (PI / 2 / INR T)) by (rewrite repeat_length; nia). apply nth_repeat. }
  assert (forall s, (s < n)%nat -> nth (a + (2 * n + s) * out + 0) v 0 = 0) as QP.
  { intros s G. unfold v. rewrite app_nth2 by (rewrite repeat_length; lia). rewrite repeat_length.
    rewrite app_nth2 by (rewrite app_length, !repeat_length; nia). rewrite app_length, !repeat_length.
    rewrite app_nth2 by (rewrite repeat_length; nia). apply nth_repeat. }
  assert (forall t, oscillation (fun k => nth k v 0) a n out t 0 = sin (PI / 2 / INR T * INR t)) as QO.
  { intro t. unfold oscillation. rewrite (sum_first n _ GN).
    - rewrite QA, QW, QP by exact GN. destruct (Nat.eq_dec 0 0); [| congruence]. rewrite Rplus_0_r. lra.
    - intros s [G1 G2]. rewrite QA by exact G2. destruct (Nat.eq_dec s 0); [lia |]. lra. }
  assert (INR T <> 0) as NT by (apply not_0_INR; lia).
  set (c := fun t => {| lo_in := nin; lo_out := out; lo_bias := bias; lo_n := n; lo_v := v; lo_t := t |}).
  pose proof (feed_ok nin out bias n v LV xs 0 F) as P1. pose proof (feed_ok nin out bias n v LV xs T F) as P2.
  change (fst (feed (c 0%nat) xs) = c T /\ episode_ok v nin out bias n 0 xs (snd (feed (c 0%nat) xs))) in P1.
  change (fst (feed (c T) xs) = c (T + T)%nat /\ episode_ok v nin out bias n T xs (snd (feed (c T) xs))) in P2.
  destruct (feed (c 0%nat) xs) as [s1 rs1] eqn:EF1. destruct (feed (c T) xs) as [s2 rs2] eqn:EF2. cbn [fst snd] in P1, P2.
  destruct P1 as [-> [L1 Q1]]. destruct P2 as [-> [L2 Q2]].
  destruct rs1 as [| r1 rs1]; [cbn in L1; unfold T in GT; lia |]. destruct rs2 as [| r2 rs2]; [cbn in L2; unfold T in GT; lia |].
  destruct (Q1 0%nat x0 r1 X0 eq_refl) as (y1 & -> & LY1 & QY1). destruct (Q2 0%nat x0 r2 X0 eq_refl) as (y2 & -> & LY2 & QY2).
  exists v, y1, y2, rs1, rs2. split; [exact LV |]. split; [| split].
  - intros <-. specialize (QY1 0%nat GO). specialize (QY2 0%nat GO). rewrite QY1 in QY2. unfold loco_output in QY2. fold a in QY2.
    rewrite !QO in QY2. rewrite !Nat.add_0_r in QY2. cbn [INR] in QY2. rewrite Rmult_0_r, sin_0 in QY2.
    replace (PI / 2 / INR T * INR T) with (PI / 2) in QY2 by (field; exact NT). rewrite sin_PI2 in QY2. lra.
  - cbn [evaluations episodes]. unfold rollout, wrapper_reset. change (with_v (new_loco nin out bias n v0) v) with (c 0%nat). rewrite EF1.
    change (with_v (c T) v) with (c T). rewrite EF2. reflexivity.
  - cbn [evaluations episodes]. unfold rollout, wrapper_reset. change (with_v (new_loco nin out bias n v0) v) with (c 0%nat). rewrite EF1.
    rewrite EF2. reflexivity.
Qed.
Print Assumptions C151_restart_refuted.
Example C151_example : snd (evaluations (new_loco 1 1 false 1 []) [([2; 3; PI / 2; 0], [[[5]]]); ([2; 3; PI / 2; 0], [[[5]]])]) = [[[Ok [10]]]; [[Ok [13]]]].
Proof.
  cbn -[INR sin Rdiv]. unfold dot. cbn -[INR sin Rdiv]. rewrite sin_pi2_1. cbn [INR].
  replace (PI / 2 * 0 + 0) with 0 by lra. rewrite sin_0. do 6 f_equal; [| do 5 f_equal]; f_equal; lra.
Qed.

(* The search distribution of XNES: properties C81 - C85. *)
From Coq Require Import Reals String Lra.
From Verif Require Import Prelude MatLib XnesModel XnesSpec XnesProofs.
Open Scope R_scope.

(* C81: over any history of updates the stored inverse stays the inverse, so that local and global coordinates are
   inverse maps *)
Theorem C81_inverse : forall n mexp D D', exponential n mexp -> consistent n D -> reachable n mexp D D' ->
  consistent n D' /\
  (forall z, veq n (to_local n D' (to_global n D' z)) z) /\ (forall x, veq n (to_global n D' (to_local n D' x)) x).
Proof.
  intros n mexp D D' E C R.
  assert (K : consistent n D').
  { induction R as [|D1 D2 av am d M lr opts lr' R IH U]; auto.
    apply (update_consistent n mexp E av am D1 d M lr opts D2 lr'); auto. }
  split; auto. split; intros; [apply local_global|apply global_local]; auto.
Qed.
Print Assumptions C81_inverse.
Example C81_example : consistent 2 {| mu := fun _ => 5; A := diag (fun i => 2); A_inv := diag (fun i => / 2) |} /\
  exponential 2 (fun M i j => if Nat.eqb i j then exp (M 0%nat 0%nat) else 0).
Proof.
  split.
  - split; intros i j Hi Hj; destruct i as [|[|i]], j as [|[|j]]; try lia; unfold mmul, diag, mid; cbn; field.
  - intros M M' H i j Hi Hj. destruct i as [|[|i]], j as [|[|j]]; try lia; unfold mmul, mid; cbn; try lra;
      rewrite H, exp_Ropp; pose proof (exp_pos (M 0%nat 0%nat)); field; lra.
Qed.

(* C82: false: an XNES with an optimizer for its center cannot make an update *)
Theorem C82_optimizer_refuted : forall n mexp av am D d M center_lr stdev_lr,
  algorithm_update n mexp av am D d M true center_lr stdev_lr = Err KeyError.
Proof. reflexivity. Qed.
Print Assumptions C82_optimizer_refuted.
(* ... and no other dictionaries of learning rates and optimizers make it use an optimizer: if the update succeeds,
   then the center follows its gradient by a plain learning rate *)
Theorem C82_never_used_refuted : forall n mexp av am D d M lr opts D' lr',
  update n mexp av am D d M lr opts = Ok (D', lr') ->
  exists k, mu D' = vplus (mu D) (mv n (A D) (fun i => k * d i)).
Proof.
  intros n mexp av am D d M lr opts D' lr' E. unfold update in E. destruct lr as [lr|]; [|discriminate].
  destruct (default_rate "d" "mu" lr) as [l1|] eqn:E1; [|discriminate]. cbn [bind] in E.
  destruct (default_rate "M" "sigma" l1) as [l2|] eqn:E2; [|discriminate]. cbn [bind] in E.
  assert (G : exists k, get "d" l2 = Some k).
  { destruct (default_get _ _ _ _ E2) as [_ O]. rewrite O by discriminate.
    unfold default_rate in E1. destruct (get "d" lr) as [v|] eqn:F; [inversion E1; subst; eauto|].
    destruct (get "mu" lr) as [v|]; [|discriminate]. inversion E1; subst. exists v. apply get_set. }
  destruct G as [k G]. unfold follow at 1 in E. rewrite G in E.
  destruct (existsb (String.eqb "d") opts); [discriminate|]. cbn [bind] in E.
  match type of E with context [follow ?f am "M" M l2 opts] => destruct (follow f am "M" M l2 opts) as [uM|]; [|discriminate] end.
  cbn [bind] in E. inversion E; subst. exists k. reflexivity.
Qed.
Print Assumptions C82_never_used_refuted.
Theorem C82_learning_rate_partial : forall n mexp av am D d M center_lr stdev_lr,
  exists D', algorithm_update n mexp av am D d M false center_lr stdev_lr = Ok D' /\
    mu D' = vplus (mu D) (mv n (A D) (fun i => center_lr * d i)) /\
    A D' = mmul n (A D) (mexp (mscale 0.5 (mscale stdev_lr M))).
Proof. intros. eexists. split; [reflexivity|]. split; reflexivity. Qed.
Print Assumptions C82_learning_rate_partial.

(* C83: false: the dictionary of learning rates is modified, so that changing "mu" in it has no effect later *)
Theorem C83_stale_rate_refuted : forall n mexp av am D d M D1 lr lr1 v w k,
  get "d" lr = None -> get "mu" lr = Some v ->
  update n mexp av am D d M (Some lr) [] = Ok (D1, lr1) ->
  lr1 <> lr /\
  forall D2 lr2, update n mexp av am D d M (Some (set "mu" w lr1)) [] = Ok (D2, lr2) ->
    mu D2 = vplus (mu D) (mv n (A D) (fun i => v * d i)) /\
    (forall D3 lr3, update n mexp av am D d M (Some (set "mu" k (set "mu" w lr1))) [] = Ok (D3, lr3) -> mu D3 = mu D2).
Proof.
  intros n mexp av am D d M D1 lr lr1 v w k Hd Hm E.
  assert (G1 : get "d" lr1 = Some v).
  { unfold update in E. unfold default_rate at 1 in E. rewrite Hd, Hm in E. cbn [bind] in E.
    destruct (default_rate "M" "sigma" (set "d" v lr)) as [l2|] eqn:E2; [|discriminate]. cbn [bind] in E.
    destruct (default_get _ _ _ _ E2) as [_ O]. specialize (O "d"%string ltac:(discriminate)). rewrite get_set in O.
    unfold follow in E. rewrite O in E. cbn [existsb] in E. cbn [bind] in E.
    destruct (get "M" l2); cbn [bind] in E; inversion E; subst; auto. }
  split; [intros X; rewrite X in G1; congruence|].
  assert (K : forall r D2 lr2, get "d" r = Some v -> update n mexp av am D d M (Some r) [] = Ok (D2, lr2) ->
     mu D2 = vplus (mu D) (mv n (A D) (fun i => v * d i))).
  { intros r D2 lr2 G U. unfold update in U. unfold default_rate at 1 in U. rewrite G in U. cbn [bind] in U.
    destruct (default_rate "M" "sigma" r) as [l2|] eqn:E2; [|discriminate]. cbn [bind] in U.
    destruct (default_get _ _ _ _ E2) as [_ O]. specialize (O "d"%string ltac:(discriminate)). rewrite G in O.
    unfold follow in U. rewrite O in U. cbn [existsb bind] in U. destruct (get "M" l2); cbn [bind] in U; inversion U; subst; reflexivity. }
  assert (G2 : get "d" (set "mu" w lr1) = Some v) by (rewrite get_set_other by discriminate; exact G1).
  assert (G3 : get "d" (set "mu" k (set "mu" w lr1)) = Some v) by (rewrite get_set_other by discriminate; exact G2).
  intros D2 lr2 U. assert (M2 := K _ _ _ G2 U). split; auto.
  intros D3 lr3 U3. rewrite M2. apply (K _ _ _ G3 U3).
Qed.
Print Assumptions C83_stale_rate_refuted.
(* with a fresh dictionary, the center moves by the given rate *)
Theorem C83_fresh_partial : forall n mexp av am D d M v s,
  exists D' lr', update n mexp av am D d M (Some [("mu", v); ("sigma", s)]%string) [] = Ok (D', lr') /\
    mu D' = vplus (mu D) (mv n (A D) (fun i => v * d i)).
Proof. intros. eexists _, _. split; reflexivity. Qed.
Print Assumptions C83_fresh_partial.

(* C84: cov is the second moment of the samples exactly for normal matrices *)
Theorem C84_cov_partial : forall n D p zs, standard n p zs ->
  (meq n (cov n D) (moment p (map (fun z => vminus (to_global n D z) (mu D)) zs)) <->
   meq n (mmul n (mtr (A D)) (A D)) (mmul n (A D) (mtr (A D)))).
Proof.
  intros n D p zs S. pose proof (sample_moment n D p zs S) as H. unfold cov. split; intros X.
  - apply (meq_trans n _ _ _ X H).
  - apply (meq_trans n _ _ _ X (meq_sym _ _ _ H)).
Qed.
Print Assumptions C84_cov_partial.
Theorem C84_refuted : forall n, (2 <= n)%nat -> exists D, consistent n D /\
  forall p zs, standard n p zs -> ~ meq n (cov n D) (moment p (map (fun z => vminus (to_global n D z) (mu D)) zs)).
Proof.
  intros n Hn. exists {| mu := fun _ => 0; A := shear; A_inv := unshear |}. split.
  - destruct (shear_inv n Hn). split; auto.
  - intros p zs S X. apply (shear_not_normal n Hn). exact (proj1 (C84_cov_partial n _ p zs S) X).
Qed.
Print Assumptions C84_refuted.
Example C84_example : standard 2 [1; 1] [fun i => mid 0%nat i; fun i => mid 1%nat i].
Proof. split; auto. intros i j Hi Hj. destruct i as [|[|i]], j as [|[|j]]; try lia; unfold moment, mid; cbn; ring. Qed.

(* C85: false: assigning sigma leaves the old inverse in place *)
Theorem C85_assigned_sigma_refuted : forall n D s, consistent n D ->
  ((forall z, veq n (to_local n (set_sigma D s) (to_global n (set_sigma D s) z)) z) <-> meq n s (A D)).
Proof.
  intros n D s [C1 C2].
  assert (L : forall z, veq n (to_local n (set_sigma D s) (to_global n (set_sigma D s) z)) (mv n (A_inv D) (mv n s z))).
  { intros z. apply mv_ext; [apply meq_refl|]. intros i Hi. unfold vminus, to_global, vplus, set_sigma. cbn. ring. }
  split; intros H.
  - (* s = A (A_inv s) and A_inv s = I *)
    assert (I : meq n (mmul n (A_inv D) s) mid).
    { intros i j Hi Hj. specialize (H (fun k => mid k j) i Hi). rewrite L in H by auto.
      rewrite <- (mv_mmul n (A_inv D) s _ i Hi) in H. unfold mv in H.
      rewrite <- H. symmetry. etransitivity; [|apply (mmul_id_r n (mmul n (A_inv D) s) i j Hi Hj)]. reflexivity. }
    apply (meq_trans n _ (mmul n mid s)); [apply meq_sym, mmul_id_l|].
    apply (meq_trans n _ (mmul n (mmul n (A D) (A_inv D)) s)); [apply mmul_ext; [apply meq_sym; auto|apply meq_refl]|].
    apply (meq_trans n _ (mmul n (A D) (mmul n (A_inv D) s))); [apply mmul_assoc|].
    apply (meq_trans n _ (mmul n (A D) mid)); [apply mmul_ext; auto; apply meq_refl|apply mmul_id_r].
  - intros z i Hi. rewrite L by auto. rewrite <- (mv_mmul n (A_inv D) s z i Hi).
    assert (I : meq n (mmul n (A_inv D) s) mid)
      by (apply (meq_trans n _ (mmul n (A_inv D) (A D))); auto; apply mmul_ext; auto; apply meq_refl).
    rewrite (mv_ext n _ mid z z I (fun _ _ => eq_refl) i Hi). apply mv_id; auto.
Qed.
Print Assumptions C85_assigned_sigma_refuted.
Theorem C85_constructed_partial : forall n inverse m s,
  meq n (mmul n s (inverse s)) mid -> meq n (mmul n (inverse s) s) mid ->
  forall z, veq n (to_local n (make inverse m s) (to_global n (make inverse m s) z)) z.
Proof. intros n inverse m s H1 H2 z. apply local_global. split; auto. Qed.
Print Assumptions C85_constructed_partial.

(* C158: false: making a distribution writes into the dictionary of the caller. If the caller puts another sigma into it and makes another
   distribution, then this one has the inverse of the old sigma: its local and global coordinates are inverse to each other only if sigma
   was not changed. *)
Theorem C158_reused_refuted : forall n inverse p s, p_inv p = None ->
  let '(p1, D1) := exp_init inverse p in
  let D2 := snd (exp_init inverse (put_sigma p1 (inr s))) in
  consistent n D1 ->
  p_inv p1 <> None /\ meq n (A D2) s /\ ((forall z, veq n (to_local n D2 (to_global n D2 z)) z) <-> meq n s (A D1)).
Proof.
  intros n inverse p s E. unfold exp_init. rewrite E. cbn [put_sigma p_sigma p_inv p_mu snd]. intros C. split; [discriminate|]. split; [apply meq_refl|].
  apply (C85_assigned_sigma_refuted n {| mu := p_mu p; A := match p_sigma p with inl v => diag v | inr m => m end; A_inv := inverse (match p_sigma p with inl v => diag v | inr m => m end) |} s C).
Qed.
Print Assumptions C158_reused_refuted.
(* From a dictionary without an inverse, the distribution has the sigma and the mu of the dictionary (a vector becomes a diagonal matrix), and
   its coordinates are inverse to each other; from the same dictionary, unchanged by the caller, the same distribution is made again. *)
Theorem C158_fresh_partial : forall n inverse p, p_inv p = None ->
  let '(p1, D) := exp_init inverse p in
  (meq n (mmul n (A D) (inverse (A D))) mid -> meq n (mmul n (inverse (A D)) (A D)) mid ->
    (forall z, veq n (to_local n D (to_global n D z)) z) /\ (forall x, veq n (to_global n D (to_local n D x)) x)) /\
  mu D = p_mu p /\
  (forall i j, A D i j = match p_sigma p with inr m => m i j | inl v => if Nat.eqb i j then v i else 0 end) /\
  exp_init inverse p1 = (p1, D).
Proof.
  intros n inverse p E. unfold exp_init. rewrite E. cbn [A mu p_sigma p_inv p_mu]. split; [|split; [reflexivity|split; [|reflexivity]]].
  - intros H1 H2. split; intros; [apply local_global|apply global_local]; split; auto.
  - intros i j. destruct (p_sigma p); reflexivity.
Qed.
Print Assumptions C158_fresh_partial.
Example C158_example : let inverse := fun M : mat => fun i j => if Nat.eqb i j then / M i i else 0 in
  let p := {| p_mu := fun _ => 1; p_sigma := inl (fun _ => 2); p_inv := None |} in
  consistent 2 (snd (exp_init inverse p)) /\ A_inv (snd (exp_init inverse (put_sigma (fst (exp_init inverse p)) (inl (fun _ => 4))))) 0%nat 0%nat = / 2.
Proof.
  cbv zeta. split; [split; intros i j Hi Hj; destruct i as [|[|i]], j as [|[|j]]; try lia; unfold mmul, diag, mid; cbn; field|reflexivity].
Qed.

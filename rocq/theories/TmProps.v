(* Properties of the tensor makers. *)
From Verif Require Import Prelude TmModel TmSpec.

Lemma ints_map s : ints (map SInt s) = Ok s.
Proof. induction s; cbn; auto. rewrite IHs. reflexivity. Qed.
Lemma shape_of_ints s : s <> [] -> shape_of (map SInt s) = Ok s.
Proof. intros H. destruct s as [|a s]; [congruence|]. cbn [map shape_of]. destruct (map SInt s) eqn:E; change (ints (map SInt (a :: s)) = Ok (a :: s) -> _) || idtac; rewrite <- E; apply (ints_map (a :: s)). Qed.
Lemma constantly_repeat s d v x : constantly (mkT s d v (repeat x (numel s))) x.
Proof. split; cbn [t_cells t_shape]; [apply repeat_length|]. apply Forall_forall. intros y Hy. apply repeat_spec in Hy. auto. Qed.
Lemma draws_seq {A} (f : nat -> A) n : length (map f (seq 0 n)) = n.
Proof. rewrite map_length, seq_length. reflexivity. Qed.

Lemma floats_is d : floats d -> is_float d = true.
Proof. intros [-> | [-> | ->]]; reflexivity. Qed.
Lemma integers_is d : integers d -> is_float d = false /\ is_int d = true.
Proof. unfold integers, floats. intros [A B]. destruct d; try (exfalso; apply A; auto; fail); try congruence; auto. Qed.
(* the arguments which a method passes on *)
Lemma all_args_ok o c s x v : c_out c = None -> asks_shape o c s -> asks_dtype o c x -> asks_device o c v ->
  exists a, all_args o c = Ok (a, (Some x, Some v)) /\ shape_of a = Ok s /\ (scalar_requested a = true <-> s = []) /\
    (forall n, s = [n] -> a = [SInt n] \/ a = [STup [n]]).
Proof.
  intros O Hs Hd Hv. unfold all_args. rewrite O.
  assert (S : exists a, size_args o (c_size c) (c_num c) None = Ok a /\ shape_of a = Ok s /\ (scalar_requested a = true <-> s = []) /\
    (forall n, s = [n] -> a = [SInt n] \/ a = [STup [n]])).
  { unfold size_args. destruct Hs as [s N Ne E|s N E|n L N E El|n N E El]; rewrite N, E; try rewrite El.
    - exists (map SInt s). destruct s as [|a s]; [congruence|]. split; [reflexivity|]. split; [apply shape_of_ints; discriminate|].
      split; [cbn; split; discriminate|]. intros n Q. injection Q as -> ->. auto.
    - exists [STup s]. split; [reflexivity|]. split; [reflexivity|]. split; [destruct s; cbn; split; congruence|]. intros n ->. auto.
    - exists [SInt n; SInt L]. repeat split; cbn; try discriminate.
    - exists [SInt n]. repeat split; cbn; try discriminate. intros k Q. injection Q as ->. auto. }
  destruct S as (a & -> & H). exists a. cbn [bind]. split; [|exact H]. unfold dtype_and_device. unfold asks_device in Hv. subst v.
  destruct Hd as [d E1 E2|E1 E2|d E1 E2 E3]; rewrite E1, E2; try rewrite E3; reflexivity.
Qed.

(* C164: what the methods of an owner return when they make a new tensor *)
Theorem C164_empty : forall o c s x v, c_out c = None -> asks_shape o c s -> asks_dtype o c x -> asks_device o c v ->
  (forall d, means d x -> exists t, m_empty o c = Ok (TT t) /\ t_shape t = s /\ t_dtype t = d /\ t_dev t = v) /\
  (forall n, x = ObjectDt -> s = [n] -> v = 0 -> m_empty o c = Ok (OA n)).
Proof.
  intros o c s x v O Hs Hd Hv. destruct (all_args_ok o c s x v O Hs Hd Hv) as (a & E & Sh & Sc & One).
  unfold m_empty. rewrite E. cbn [bind fst snd]. rewrite O. cbn [some]. split.
  - intros d [-> | ->]; unfold make_empty; cbn [is_dtype_object to_torch_dtype rmap bind]; rewrite Sh; eexists; repeat split.
  - intros n -> Es ->. unfold make_empty. cbn [is_dtype_object]. destruct (One n Es) as [-> | ->]; reflexivity.
Qed.

Theorem C164_filled : forall k o c s x d v, c_out c = None -> asks_shape o c s -> asks_dtype o c x -> asks_device o c v ->
  means d x -> (k = Nans -> floats d) ->
  exists t, m_filled k o c = Ok t /\ t_shape t = s /\ t_dtype t = d /\ t_dev t = v /\ constantly t (constant k).
Proof.
  intros k o c s x d v O Hs Hd Hv M Fl. destruct (all_args_ok o c s x v O Hs Hd Hv) as (a & E & Sh & Sc & _).
  unfold m_filled. rewrite E. cbn [bind fst snd]. rewrite O. unfold make_filled.
  assert (V : value_of k d = Ok (constant k)) by (destruct k; cbn; auto; rewrite (floats_is _ (Fl eq_refl)); auto).
  destruct (scalar_requested a) eqn:R.
  - assert (s = []) by (apply Sc; auto). subst s. unfold scalar_tensor. cbn [some].
    destruct M as [-> | ->]; unfold make_empty; cbn [is_dtype_object to_torch_dtype rmap bind shape_of torch_empty t_dtype]; rewrite V;
      (eexists; repeat split; cbn; auto).
  - assert (Ne : s <> []) by (intros Q; apply Sc in Q; congruence).
    assert (Mk : make_empty a (Some x) (Some v) = Ok (TT (torch_empty s (Some d) (Some v)))).
    { destruct M as [-> | ->]; unfold make_empty; cbn [is_dtype_object to_torch_dtype rmap bind]; rewrite Sh; reflexivity. }
    unfold out_tensor. rewrite Mk. cbn [bind fill torch_empty t_shape t_dtype t_dev]. rewrite V. destruct s as [|n s]; [congruence|].
    destruct k; (eexists; split; [reflexivity|]); repeat split; cbn [t_cells t_shape]; try apply repeat_length;
      apply (proj2 (constantly_repeat (n :: s) d v _)).
Qed.

Theorem C164_random_partial : forall k o c s d v g h, c_out c = None -> asks_shape o c s -> asks_device o c v ->
  (asks_dtype o c (Torch d) /\ (k = Randint -> c_dtype c <> None) \/ k = Randint /\ c_dtype c = None /\ c_eval c = false /\ d = I64) ->
  asks_generator o g h -> (k = Gaussian -> floats d) ->
  exists t, m_random k o c g = Ok t /\ t_shape t = s /\ t_dtype t = d /\ t_dev t = v /\
    t_cells t = map (Rand h) (seq 0 (numel s)).
Proof.
  intros k o c s d v g h O Hs Hv Hd Hg Fl.
  assert (G : generator_of (generator_arg o g) = Ok h).
  { unfold generator_arg. destruct Hg as [g|g|g E|E]; try reflexivity; rewrite E; [destruct g|]; reflexivity. }
  unfold m_random. set (c' := match k, c_dtype c, c_out c with Randint, None, None => _ | _, _, _ => c end).
  assert (C : asks_shape o c' s /\ asks_dtype o c' (Torch d) /\ asks_device o c' v /\ c_out c' = None).
  { unfold c'. destruct Hd as [[Hd Hr]|(-> & E1 & E2 & ->)].
    - assert (c' = c) as Ec. { unfold c'. destruct k; auto. destruct (c_dtype c) eqn:E; [destruct (c_out c); auto|exfalso; apply Hr; auto]. }
      fold c'. rewrite Ec. auto.
    - rewrite E1, O. cbn [c_out]. split; [|split; [apply by_dtype; auto|split; auto]].
      destruct Hs as [s N Ne E|s N E|n L N E El|n N E El]; [apply by_ints|apply by_tuple|eapply by_number|eapply by_number_objects]; eauto. }
  destruct C as (C1 & C2 & C3 & C4). destruct (all_args_ok o c' s (Torch d) v C4 C1 C2 C3) as (a & E & Sh & Sc & _).
  rewrite E. cbn [bind fst snd]. rewrite C4. unfold make_random.
  assert (D : match k with Randint => Some (Torch d) | _ => Some (Torch d) end = Some (Torch d)) by (destruct k; auto).
  replace (match k with Randint => _ | _ => Some (Torch d) end) with (Some (Torch d)) by (destruct k; reflexivity).
  unfold out_tensor_random. cbn [bind].
  assert (Dr : forall s', draw k h (torch_empty s' (Some d) (Some v)) = Ok (mkT s' d v (map (Rand h) (seq 0 (numel s'))))).
  { intros s'. unfold draw. cbn [torch_empty t_shape t_dtype t_dev]. destruct k; auto. rewrite (floats_is _ (Fl eq_refl)); auto. }
  destruct (scalar_requested a) eqn:R.
  - assert (s = []) by (apply Sc; auto). subst s. cbn [shape_of ints rmap bind]. rewrite G. cbn [bind]. rewrite Dr. cbn [bind].
    eexists. repeat split.
  - rewrite Sh. cbn [bind]. rewrite G. cbn [bind]. rewrite Dr. cbn [bind]. eexists. repeat split.
Qed.

(* booleans: NaN is stored as True *)
Theorem C164_booleans_refuted : forall o c s x v, c_out c = None -> asks_shape o c s -> asks_dtype o c x -> asks_device o c v ->
  means Bo x -> exists t, m_filled Nans o c = Ok t /\ t_shape t = s /\ t_dtype t = Bo /\ t_dev t = v /\ constantly t (Num 1).
Proof.
  intros o c s x v O Hs Hd Hv M. destruct (all_args_ok o c s x v O Hs Hd Hv) as (a & E & Sh & Sc & _).
  unfold m_filled. rewrite E. cbn [bind fst snd]. rewrite O. unfold make_filled.
  destruct (scalar_requested a) eqn:R.
  - assert (s = []) by (apply Sc; auto). subst s. unfold scalar_tensor. cbn [some].
    destruct M as [-> | ->]; unfold make_empty; cbn [is_dtype_object to_torch_dtype rmap bind shape_of torch_empty t_dtype];
      (eexists; repeat split; cbn; auto).
  - assert (Ne : s <> []) by (intros Q; apply Sc in Q; congruence).
    assert (Mk : make_empty a (Some x) (Some v) = Ok (TT (torch_empty s (Some Bo) (Some v)))).
    { destruct M as [-> | ->]; unfold make_empty; cbn [is_dtype_object to_torch_dtype rmap bind]; rewrite Sh; reflexivity. }
    unfold out_tensor. rewrite Mk. cbn [bind fill torch_empty t_shape t_dtype t_dev]. destruct s as [|n s]; [congruence|].
    eexists; split; [reflexivity|]. repeat split; cbn [t_cells t_shape]; try apply repeat_length.
    apply (proj2 (constantly_repeat (n :: s) Bo v _)).
Qed.
Print Assumptions C164_booleans_refuted.


(* integers: NaN cannot be stored, and there are no Gaussian samples *)
Theorem C164_integers_refuted : forall o c s x d v, c_out c = None -> asks_shape o c s -> asks_dtype o c x -> asks_device o c v ->
  integers d ->
  (means d x -> m_filled Nans o c = Err RuntimeError) /\
  (forall g h, x = Torch d -> asks_generator o g h -> m_random Gaussian o c g = Err RuntimeError).
Proof.
  intros o c s x d v O Hs Hd Hv I. destruct (integers_is d I) as [F J]. destruct (all_args_ok o c s x v O Hs Hd Hv) as (a & E & Sh & Sc & _). split.
  - intros M. unfold m_filled. rewrite E. cbn [bind fst snd]. rewrite O. unfold make_filled.
    assert (V : value_of Nans d = Err RuntimeError) by (cbn; rewrite F, J; auto).
    destruct (scalar_requested a) eqn:R.
    + unfold scalar_tensor. cbn [some].
      destruct M as [-> | ->]; unfold make_empty; cbn [is_dtype_object to_torch_dtype rmap bind shape_of torch_empty t_dtype]; rewrite V; reflexivity.
    + assert (Ne : s <> []) by (intros Q; apply Sc in Q; congruence).
      assert (Mk : make_empty a (Some x) (Some v) = Ok (TT (torch_empty s (Some d) (Some v)))).
      { destruct M as [-> | ->]; unfold make_empty; cbn [is_dtype_object to_torch_dtype rmap bind]; rewrite Sh; reflexivity. }
      unfold out_tensor. rewrite Mk. cbn [bind fill torch_empty t_shape t_dtype t_dev]. rewrite V. destruct s as [|n s]; [congruence|]. reflexivity.
  - intros g h -> Hg.
    assert (G : generator_of (generator_arg o g) = Ok h).
    { unfold generator_arg. destruct Hg as [g|g|g Eg|Eg]; try reflexivity; rewrite Eg; [destruct g|]; reflexivity. }
    unfold m_random. rewrite E. cbn [bind fst snd]. rewrite O. unfold make_random.
    assert (T : forall a', shape_of a' = Ok s \/ a' = [SInt 1] -> exists s', out_tensor_random a' None (Some (Torch d)) (Some v) = Ok (torch_empty s' (Some d) (Some v))).
    { intros a' [Q | ->]; unfold out_tensor_random; cbn [bind]; [rewrite Q|cbn [shape_of ints bind]]; eexists; reflexivity. }
    destruct (T (if scalar_requested a then [SInt 1] else a)) as (s' & Q); [destruct (scalar_requested a); auto|].
    rewrite Q. cbn [bind]. rewrite G. cbn [bind]. unfold draw. cbn [torch_empty t_dtype]. rewrite F. reflexivity.
Qed.
(* dtypes given by name are documented, but refused by the random makers *)
Theorem C164_named_refuted : forall k o c g d, c_out c = None -> c_dtype c = Some (Name d) ->
  exists e, m_random k o c g = Err e /\ (forall s, asks_shape o c s -> c_eval c = false -> e = TypeError).
Proof.
  intros k o c g d O D. unfold m_random.
  replace (match k, c_dtype c, c_out c with Randint, None, None => mkC (c_size c) (c_num c) (c_out c) (Some (Torch I64)) (c_dev c) (c_eval c) | _, _, _ => c end)
    with c by (rewrite D; destruct k; reflexivity).
  destruct (all_args o c) as [a|e] eqn:E.
  - exists TypeError. split; auto. cbn [bind]. unfold all_args in E. rewrite O in E.
    destruct (size_args o (c_size c) (c_num c) None) as [sz|]; [|discriminate]. cbn [bind] in E.
    unfold dtype_and_device in E. rewrite D in E. destruct (c_eval c); [discriminate|]. cbn [bind] in E. injection E as <-.
    cbn [fst snd]. unfold make_random. rewrite O. destruct k; reflexivity.
  - exists e. split; [reflexivity|]. intros s Hs Ev.
    destruct (all_args_ok o c s (Name d) (match c_dev c with Some v => v | None => o_dev o end) O Hs) as (a & E' & _).
    + apply by_dtype; auto.
    + reflexivity.
    + congruence.
Qed.
(* use_eval_dtype cannot be used with make_randint *)
Theorem C164_randint_eval_refuted : forall o c g, c_out c = None -> c_eval c = true ->
  exists e, m_random Randint o c g = Err e /\ (forall s, asks_shape o c s -> e = ValueError).
Proof.
  intros o c g O Ev. unfold m_random, all_args.
  set (c' := match c_dtype c with Some _ => c | None => mkC (c_size c) (c_num c) (c_out c) (Some (Torch I64)) (c_dev c) (c_eval c) end).
  replace (match c_dtype c, c_out c with None, None => _ | _, _ => c end) with c'
    by (unfold c'; rewrite O; destruct (c_dtype c); reflexivity).
  assert (F : c_size c' = c_size c /\ c_num c' = c_num c /\ c_out c' = None /\ c_eval c' = true /\ c_dtype c' <> None).
  { unfold c'. destruct (c_dtype c) eqn:E; cbn; repeat split; auto; congruence. }
  destruct F as (-> & -> & -> & Ev' & D). unfold dtype_and_device. rewrite Ev'. destruct (c_dtype c') as [d|]; [|congruence].
  destruct (size_args o (c_size c) (c_num c) None) as [sz|e] eqn:E; cbn [bind].
  - exists ValueError. auto.
  - exists e. split; auto. intros s Hs. unfold size_args in E. exfalso.
    destruct Hs as [s N Ne Q|s N Q|n L N Q El|n N Q El]; rewrite N, Q in E; try rewrite El in E;
      try discriminate; destruct (map SInt s); discriminate.
Qed.

Theorem C164_conflicts : forall k r o c g, c_out c = None ->
  (c_size c <> [] -> c_num c <> None -> m_filled k o c = Err ValueError /\ m_random r o c g = Err ValueError /\ m_empty o c = Err ValueError) /\
  (forall s, asks_shape o c s -> c_dtype c <> None -> c_eval c = true ->
     m_filled k o c = Err ValueError /\ m_random r o c g = Err ValueError /\ m_empty o c = Err ValueError).
Proof.
  intros k r o c g O.
  assert (H : all_args o c = Err ValueError ->
    (forall d, all_args o (mkC (c_size c) (c_num c) (c_out c) (Some d) (c_dev c) (c_eval c)) = Err ValueError \/ c_dtype c <> None) ->
     m_filled k o c = Err ValueError /\ m_random r o c g = Err ValueError /\ m_empty o c = Err ValueError).
  { intros E E'. unfold m_filled, m_empty, m_random. rewrite E. repeat split; auto. destruct r; try (rewrite E; reflexivity).
    destruct (c_dtype c) as [d|] eqn:D; rewrite ?O; [rewrite E; reflexivity|].
    destruct (E' (Torch I64)) as [Q|Q]; [|congruence]. rewrite O in Q. rewrite Q. reflexivity. }
  split.
  - intros N1 N2. apply H.
    + unfold all_args. rewrite O. unfold size_args. destruct (c_size c); [congruence|]. destruct (c_num c); [reflexivity|congruence].
    + intros d. left. unfold all_args. cbn [c_size c_num c_out c_dtype c_dev c_eval]. rewrite O. unfold size_args.
      destruct (c_size c); [congruence|]. destruct (c_num c); [reflexivity|congruence].
  - intros s Hs D Ev. apply H; [|auto]. unfold all_args. rewrite O.
    assert (Q : exists a, size_args o (c_size c) (c_num c) None = Ok a).
    { unfold size_args. destruct Hs as [s N Ne Q|s N Q|n L N Q El|n N Q El]; rewrite N, Q; try rewrite El; eauto.
      destruct (map SInt s); eauto. }
    destruct Q as (a & ->). cbn [bind]. unfold dtype_and_device. destruct (c_dtype c); [|congruence]. rewrite Ev. reflexivity.
Qed.
Print Assumptions C164_empty.
Print Assumptions C164_filled.
Print Assumptions C164_random_partial.
Print Assumptions C164_integers_refuted.
Print Assumptions C164_named_refuted.
Print Assumptions C164_randint_eval_refuted.
Print Assumptions C164_conflicts.

Definition ex_owner := mkO (Torch F32) (Some (Torch F64)) 1 (Some (Some 3)) (Some (Some 7)).
Example C164_example :
  let c := mkC [] (Some 2) None None None false in
  asks_shape ex_owner c [2; 3] /\ asks_dtype ex_owner c (Torch F32) /\ asks_device ex_owner c 1 /\
  m_filled Ones ex_owner c = Ok (mkT [2; 3] F32 1 (repeat (Num 1) 6)) /\
  rmap t_cells (m_random Uniform ex_owner (mkC [STup []] None None None None true) None) = Ok [Rand (Some 7) 0] /\
  m_random Gaussian ex_owner (mkC [SInt 2] None None (Some (Name F32)) None false) None = Err TypeError /\
  m_random Randint ex_owner (mkC [SInt 2] None None None None true) None = Err ValueError.
Proof. cbn. repeat split; try reflexivity; [eapply by_number; reflexivity|apply by_owner; reflexivity]. Qed.

(* C165: writing into an existing tensor *)
Theorem C165_fill_partial : forall k o t, (k = Zeros \/ t_shape t <> []) -> (k = Nans -> floats (t_dtype t)) ->
  let c := mkC [] None (Some t) None None false in
  exists r, m_filled k o c = Ok r /\ make_filled k [] (Some t) None None = Ok r /\
    t_shape r = t_shape t /\ t_dtype r = t_dtype t /\ t_dev r = t_dev t /\ constantly r (constant k).
Proof.
  intros k o t N Fl c. unfold m_filled, all_args, c. cbn [c_size c_num c_out c_dtype c_dev c_eval size_args dtype_and_device bind fst snd].
  assert (H : exists r, make_filled k [] (Some t) None None = Ok r /\
    t_shape r = t_shape t /\ t_dtype r = t_dtype t /\ t_dev r = t_dev t /\ constantly r (constant k)).
  { unfold make_filled. cbn [scalar_requested out_tensor some orb bind fill].
    assert (V : value_of k (t_dtype t) = Ok (constant k)) by (destruct k; cbn; auto; rewrite (floats_is _ (Fl eq_refl)); auto).
    rewrite V. exists (mkT (t_shape t) (t_dtype t) (t_dev t) (repeat (constant k) (numel (t_shape t)))).
    split; [|repeat split; try apply repeat_length; apply (proj2 (constantly_repeat _ (t_dtype t) (t_dev t) _))].
    destruct k; auto; (destruct N as [N|N]; [discriminate|]); destruct (t_shape t) as [|n l]; try congruence; reflexivity. }
  destruct H as (r & E & H). exists r. rewrite E. auto.
Qed.
Theorem C165_draw : forall k o t g h, asks_generator o g h -> (k = Gaussian -> floats (t_dtype t)) ->
  exists r, m_random k o (mkC [] None (Some t) None None false) g = Ok r /\
    t_shape r = t_shape t /\ t_dtype r = t_dtype t /\ t_dev r = t_dev t /\ t_cells r = map (Rand h) (seq 0 (numel (t_shape t))).
Proof.
  intros k o t g h Hg Fl.
  assert (G : generator_of (generator_arg o g) = Ok h).
  { unfold generator_arg. destruct Hg as [g|g|g E|E]; try reflexivity; rewrite E; [destruct g|]; reflexivity. }
  exists (mkT (t_shape t) (t_dtype t) (t_dev t) (map (Rand h) (seq 0 (numel (t_shape t))))). split; [|repeat split].
  unfold m_random, all_args, make_random. destruct k;
    cbn [c_size c_num c_out c_dtype c_dev c_eval size_args dtype_and_device bind fst snd scalar_requested out_tensor_random some orb];
    rewrite G; cbn [bind]; unfold draw; try rewrite (floats_is _ (Fl eq_refl)); reflexivity.
Qed.
(* the functions refuse a size, a dtype or a device together with out *)
Theorem C165_refused : forall k r size t dtype device g, (size <> [] \/ dtype <> None \/ device <> None) ->
  make_filled k size (Some t) dtype device = Err ValueError /\ make_random r size (Some t) dtype device g = Err ValueError.
Proof.
  intros k r size t dtype device g H.
  assert (S : forall s, (s <> [] \/ some dtype || some device = true) ->
    out_tensor s (Some t) dtype device = Err ValueError /\ out_tensor_random s (Some t) dtype device = Err ValueError).
  { intros s K. unfold out_tensor, out_tensor_random. destruct s; auto. destruct K as [K|K]; [congruence|]. rewrite K. auto. }
  assert (K : size <> [] \/ some dtype || some device = true).
  { destruct H as [H|[H|H]]; auto; right; [destruct dtype|destruct device; destruct dtype]; auto; congruence. }
  split.
  - unfold make_filled. destruct (scalar_requested size); [reflexivity|]. destruct (S size K) as [-> _]. reflexivity.
  - unfold make_random. cbv zeta. replace (match r with Randint => _ | _ => dtype end) with dtype by (destruct r, dtype; reflexivity).
    destruct (scalar_requested size).
    + destruct (S [SInt 1]) as [_ ->]; [left; discriminate|reflexivity].
    + destruct (S size K) as [_ ->]. reflexivity.
Qed.
(* the methods ignore them *)
Theorem C165_ignored_refuted : forall k r o c t g, c_out c = Some t ->
  m_filled k o c = m_filled k o (mkC [] None (Some t) None None false) /\
  m_random r o c g = m_random r o (mkC [] None (Some t) None None false) g.
Proof.
  intros k r o [sz num out d v ev] t g E. cbn in E. subst out. split; [reflexivity|].
  unfold m_random. cbn [c_size c_num c_out c_dtype c_dev c_eval]. destruct r; try reflexivity. destruct d; reflexivity.
Qed.
(* make_empty has an argument out which cannot be used *)
Theorem C165_empty_out_refuted : forall o c t, c_out c = Some t -> m_empty o c = Err TypeError.
Proof. intros o [sz num out d v ev] t E. cbn in E. subst out. reflexivity. Qed.
(* tensors without dimensions can be filled with zeros only *)
Theorem C165_no_dimensions_refuted : forall o k d v cells, k <> Zeros ->
  let t := mkT [] d v cells in
  make_filled k [] (Some t) None None = Err IndexError /\ m_filled k o (mkC [] None (Some t) None None false) = Err IndexError.
Proof. intros o k d v cells N t. destruct k; [congruence| |]; split; reflexivity. Qed.
Print Assumptions C165_fill_partial.
Print Assumptions C165_draw.
Print Assumptions C165_refused.
Print Assumptions C165_ignored_refuted.
Print Assumptions C165_empty_out_refuted.
Print Assumptions C165_no_dimensions_refuted.
Example C165_example :
  let t := mkT [2] F32 0 [Num 5; NaNc] in
  m_filled Nans ex_owner (mkC [] None (Some t) None None false) = Ok (mkT [2] F32 0 [NaNc; NaNc]) /\
  m_filled Nans ex_owner (mkC [SInt 9] (Some 4) (Some t) (Some (Torch F16)) (Some 1) true) = Ok (mkT [2] F32 0 [NaNc; NaNc]) /\
  make_filled Nans [SInt 9] (Some t) None None = Err ValueError.
Proof. repeat split. Qed.

(* C166: identity matrices *)
Lemma rows_nth {A} (f : nat -> nat -> A) n i j : j < n -> forall m a, i < m ->
  nth_error (concat (map (fun i => map (f i) (seq 0 n)) (seq a m))) (i * n + j) = Some (f (a + i) j).
Proof.
  intros Hj m. revert i. induction m as [|m IH]; intros i a Hi; [lia|]. cbn [seq map concat].
  destruct i as [|i].
  - rewrite nth_error_app1 by (rewrite map_length, seq_length; lia). cbn [Nat.mul Nat.add].
    rewrite nth_error_map, (nth_error_nth' (seq 0 n) 0) by (rewrite seq_length; lia). rewrite seq_nth by lia. cbn. f_equal. f_equal. lia.
  - rewrite nth_error_app2 by (rewrite map_length, seq_length; cbn; lia). rewrite map_length, seq_length.
    replace (S i * n + j - n) with (i * n + j) by (cbn; lia). rewrite IH by lia. f_equal. f_equal. lia.
Qed.
Lemma identity_at m n i j d v : i < m -> j < n ->
  at_ (mkT [m; n] d v (identity_cells m n)) n i j = Some (Num (if Nat.eqb i j then 1 else 0)).
Proof. intros Hi Hj. unfold at_, identity_cells. cbn [t_cells]. apply (rows_nth (fun i j => Num (if Nat.eqb i j then 1 else 0)) n i j Hj m 0 Hi). Qed.

Theorem C166_identity : forall o size dtype device use_eval n x d v,
  (size = Some (SInt n) \/ size = Some (STup [n]) \/ size = None /\ o_len o = Some (Some n)) ->
  let c := mkC [SInt n] None None dtype device use_eval in
  asks_dtype o c x -> means d x -> asks_device o c v ->
  exists t, m_I o size None dtype device use_eval = Ok t /\ t_shape t = [n; n] /\ t_dtype t = d /\ t_dev t = v /\
    length (t_cells t) = n * n /\
    forall i j, i < n -> j < n -> at_ t n i j = Some (Num (if Nat.eqb i j then 1 else 0)).
Proof.
  intros o size dtype device use_eval n x d v Hs c Hd M Hv.
  destruct (all_args_ok o c [n] x v eq_refl) as (a & E & _); auto.
  { apply by_ints; auto. discriminate. }
  assert (Ea : all_args o c = Ok ([SInt n], (Some x, Some v))).
  { rewrite E. unfold all_args in E. cbn [c c_size c_num c_out size_args bind] in E.
    destruct (dtype_and_device _ _ _ _ _); [|discriminate]. injection E as <- _. reflexivity. }
  assert (L : length (identity_cells n n) = n * n).
  { unfold identity_cells. generalize (seq_length n 0). generalize (seq 0 n) at 1 3. intros l.
    assert (K : forall m, length l = m -> length (concat (map (fun i => map (fun j => Num (if Nat.eqb i j then 1 else 0)) (seq 0 n)) l)) = m * n).
    { induction l as [|y l IH]; intros [|m] Q; cbn in Q; try lia; auto. cbn [map concat]. rewrite app_length, map_length, seq_length.
      rewrite (IH m) by lia. cbn. lia. }
    auto. }
  assert (Mk : make_I (Some (SInt n)) None (Some x) (Some v) = Ok (mkT [n; n] d v (identity_cells n n))).
  { unfold make_I, out_tensor. destruct M as [-> | ->]; reflexivity. }
  exists (mkT [n; n] d v (identity_cells n n)). split; [|repeat split; auto; intros; apply identity_at; auto].
  unfold m_I. destruct Hs as [-> | [-> | [-> ->]]]; cbn [bind]; fold c; rewrite Ea; cbn [bind fst snd hd_error]; exact Mk.
Qed.
Theorem C166_out : forall o t m n, t_shape t = [m; n] ->
  exists r, m_I o None (Some t) None None false = Ok r /\ make_I None (Some t) None None = Ok r /\
    t_shape r = [m; n] /\ t_dtype r = t_dtype t /\ t_dev r = t_dev t /\
    forall i j, i < m -> j < n -> at_ r n i j = Some (Num (if Nat.eqb i j then 1 else 0)).
Proof.
  intros o t m n S. exists (mkT [m; n] (t_dtype t) (t_dev t) (identity_cells m n)).
  unfold m_I, make_I, all_args. cbn [c_size c_num c_out c_dtype c_dev c_eval size_args dtype_and_device bind fst snd hd_error some out_tensor orb fill_identity].
  rewrite S. repeat split. intros. apply identity_at; auto.
Qed.
Theorem C166_refused : forall o out dtype device use_eval l, length l <> 1 ->
  m_I o (Some (STup l)) out dtype device use_eval = Err ValueError /\ make_I (Some (STup l)) out dtype device = Err ValueError.
Proof. intros o out dtype device use_eval [|a [|b l]] N; cbn in N; try lia; split; reflexivity. Qed.
Print Assumptions C166_identity.
Print Assumptions C166_out.
Print Assumptions C166_refused.
Example C166_example : m_I ex_owner None None None None false =
  Ok (mkT [3; 3] F32 1 [Num 1; Num 0; Num 0; Num 0; Num 1; Num 0; Num 0; Num 0; Num 1]).
Proof. reflexivity. Qed.

(* C167: as_tensor *)
Section As.
Variable cast : tdtype -> cell -> cell.
Definition source_shape (x : source) : list nat := match x with FromTensor t => t_shape t | FromObjects n => [n] | FromData _ s _ => s end.
Definition source_cells (x : source) : list cell := match x with FromTensor t => t_cells t | FromObjects n => [] | FromData _ _ c => c end.
Theorem C167_dtype_partial : forall x d y device, (forall n, x <> FromObjects n) -> means d y ->
  exists t, as_tensor cast x (Some y) device = Ok (TT t) /\ t_shape t = source_shape x /\ t_dtype t = d /\
    t_cells t = map (cast d) (source_cells x) /\
    t_dev t = match device, x with Some v, _ => v | None, FromTensor t => t_dev t | None, _ => 0 end.
Proof.
  intros x d y device N [-> | ->]; destruct x as [t|n|i s c]; try (exfalso; apply (N n); reflexivity);
    destruct device; (eexists; split; [reflexivity|]); repeat split.
Qed.
Theorem C167_owner : forall o x dtype device use_eval y d v, (forall n, x <> FromObjects n) ->
  let c := mkC [] None None dtype device use_eval in asks_dtype o c y -> means d y -> asks_device o c v ->
  exists t, m_as_tensor cast o x dtype device use_eval = Ok (TT t) /\ t_shape t = source_shape x /\ t_dtype t = d /\
    t_dev t = v /\ t_cells t = map (cast d) (source_cells x).
Proof.
  intros o x dtype device use_eval y d v N c Hd M Hv. unfold m_as_tensor.
  assert (E : dtype_and_device o dtype device use_eval None = Ok (Some y, Some v)).
  { unfold dtype_and_device. unfold asks_device in Hv. subst v. destruct Hd as [z E1 E2|E1 E2|z E1 E2 E3];
      cbn [c c_dtype c_eval c_dev] in *; subst; try rewrite E3; reflexivity. }
  rewrite E. cbn [bind fst snd]. destruct (C167_dtype_partial x d y (Some v) N M) as (t & -> & H1 & H2 & H3 & H4).
  exists t. auto.
Qed.
(* a tensor on another device is not moved to the cpu, and a tensor cannot be moved from it ... *)
Theorem C167_not_moved_refuted : forall t v,
  as_tensor cast (FromTensor t) None (Some 0) = Ok (TT t) /\ as_tensor cast (FromTensor t) None (Some (S v)) = Err ValueError.
Proof. intros; split; reflexivity. Qed.
(* ... and the dtype of other data is not inferred from it *)
Theorem C167_inferred_refuted : forall d s c device,
  exists t, as_tensor cast (FromData d s c) None device = Ok (TT t) /\ t_dtype t = F64 /\ t_cells t = map (cast F64) c.
Proof. intros d s c device. eexists. split; [reflexivity|]. split; reflexivity. Qed.
Theorem C167_objects : forall x n rest device, source_shape x = n :: rest -> (device = None \/ device = Some 0) ->
  as_tensor cast x (Some ObjectDt) device = Ok (OA n) /\ (forall v, as_tensor cast x (Some ObjectDt) (Some (S v)) = Err ValueError).
Proof. intros x n rest device E D. destruct x as [t|m|i s c]; cbn in E; destruct D as [-> | ->]; cbn; try rewrite E; split; auto; congruence. Qed.
End As.
Print Assumptions C167_dtype_partial.
Print Assumptions C167_owner.
Print Assumptions C167_not_moved_refuted.
Print Assumptions C167_inferred_refuted.
Print Assumptions C167_objects.
Example C167_example : let id := fun (_ : tdtype) (c : cell) => c in
  as_tensor id (FromData I64 [2] [Num 1; Num 2]) None None = Ok (TT (mkT [2] F64 0 [Num 1; Num 2])) /\
  m_as_tensor id ex_owner (FromData I64 [2] [Num 1; Num 2]) None None false = Ok (TT (mkT [2] F32 1 [Num 1; Num 2])) /\
  as_tensor id (FromTensor (mkT [1] F32 2 [Num 3])) None (Some 0) = Ok (TT (mkT [1] F32 2 [Num 3])).
Proof. repeat split. Qed.

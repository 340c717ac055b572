(* Properties of the configuration of problems. *)
From Coq Require Import QArith Qround Lqa String.
From Verif Require Import Prelude RandModel RandProofs ScoreProofs CfgModel CfgSpec.
Close Scope Q_scope.
Open Scope Z_scope.

Lemma bind_ok {A B} (x : result A) (f : A -> result B) b : bind x f = Ok b -> exists a, x = Ok a /\ f a = Ok b.
Proof. destruct x; cbn; [eauto|discriminate]. Qed.
Ltac step H x E := apply bind_ok in H; destruct H as (x & E & H).
Lemma construct_inv a r c : construct a r = Ok c ->
  c_dtype c = choose_dtype (a_dtype a) /\ choose_eval_dtype (choose_dtype (a_dtype a)) (a_eval_dtype a) = Ok (c_eval_dtype c) /\
  length_and_bounds (choose_dtype (a_dtype a)) a = Ok (c_length c, c_initial c, c_bounds c) /\
  choose_senses (a_sense a) = Ok (c_senses c) /\ choose_vectorized (a_func a) (a_vectorized a) = Ok (c_vectorized c) /\
  (a_num_subbatches a = None \/ a_subbatch_size a = None) /\
  exists n g, choose_actors a r = Ok (n, g) /\ check_device (fst (drop_single n g)) (a_device a) = Ok (c_actors c) /\
    choose_allotment (c_actors c) (snd (drop_single n g)) (a_config_gpus a) r = Ok (c_allotment c) /\ c_device c = a_device a.
Proof.
  unfold construct. intros H. step H e E1. step H x E2. destruct x as [[len initial] bounds].
  step H s E3. step H v E4. step H t E5. step H ng E6. destruct ng as [n g].
  destruct (drop_single n g) as [n' g'] eqn:E7. step H n'' E8. step H al E9. injection H as <-. cbn.
  repeat split; auto.
  - destruct (a_num_subbatches a), (a_subbatch_size a); auto; discriminate.
  - exists n, g. rewrite E7. auto.
Qed.
Lemma check_bound_ok len b : check_bound len b = Ok tt <-> fits len b.
Proof.
  unfold check_bound, fits. destruct b as [q | v |].
  - split; auto.
  - destruct (Nat.eqb_spec (length v) len); split; auto; try discriminate; tauto.
  - split; [discriminate|intros []].
Qed.
Lemma process_ok len b c : process_bounds len b = Ok c <-> c = b /\ fits len (fst b) /\ fits len (snd b).
Proof.
  unfold process_bounds. destruct b as [x y]; cbn [fst snd]. rewrite <- !check_bound_ok.
  destruct (check_bound len x) as [[]|]; cbn [bind]; [|split; [discriminate|intros (_ & H & _); discriminate]].
  destruct (check_bound len y) as [[]|]; cbn [bind]; [|split; [discriminate|intros (_ & _ & H); discriminate]].
  split; [intros H; injection H as <-; auto|intros (-> & _); auto].
Qed.
Lemma check_bound_err len b : fits len b \/ check_bound len b = Err ValueError.
Proof. rewrite <- check_bound_ok. unfold check_bound. destruct b; auto. destruct (Nat.eqb (length v) len); auto. Qed.
Lemma process_err len b : (fits len (fst b) /\ fits len (snd b)) \/ process_bounds len b = Err ValueError.
Proof.
  unfold process_bounds. destruct (check_bound_err len (fst b)) as [A | ->]; [|right; auto].
  apply check_bound_ok in A as A'. rewrite A'. cbn [bind].
  destruct (check_bound_err len (snd b)) as [B | ->]; [|right; auto]. auto.
Qed.

(* what the stored bounds are *)
Lemma stored_bounds d a len i b : length_and_bounds (Some d) a = Ok (len, i, b) ->
  len = a_length a /\ b = a_bounds a /\ i = match a_initial a with Some x => Some x | None => a_bounds a end /\ len <> None /\
  forall n, len = Some n -> fits_pair n i /\ fits_pair n b.
Proof.
  unfold length_and_bounds. destruct (a_length a) as [n|]; [|discriminate].
  assert (FN : fits_pair n None) by (intros ? ? K; discriminate).
  destruct (match a_initial a with Some x => Some x | None => a_bounds a end) as [[x y]|] eqn:EI.
  - destruct (process_bounds n (x, y)) as [p|] eqn:P; [|discriminate]. apply process_ok in P. destruct P as (-> & F1 & F2). cbn [bind fst snd] in *.
    assert (FI : fits_pair n (Some (x, y))) by (intros ? ? H; injection H as <- <-; auto).
    destruct (a_bounds a) as [[u v]|] eqn:EB.
    + destruct (process_bounds n (u, v)) as [p|] eqn:P; [|discriminate]. apply process_ok in P. destruct P as (-> & G1 & G2). cbn [bind fst snd] in *.
      assert (FB : fits_pair n (Some (u, v))) by (intros ? ? H; injection H as <- <-; auto).
      intros H; injection H as <- <- <-. split; [auto|]. split; [auto|]. split; [auto|]. split; [discriminate|].
      intros k K; injection K as <-; auto.
    + intros H; injection H as <- <- <-. split; [auto|]. split; [auto|]. split; [auto|]. split; [discriminate|].
      intros k K; injection K as <-; auto.
  - intros H; injection H as <- <- <-.
    assert (EB : a_bounds a = None) by (destruct (a_initial a); [discriminate|auto]).
    split; [auto|]. split; [auto|]. split; [auto|]. split; [discriminate|].
    intros k K; injection K as <-; auto.
Qed.
Lemma broadcast_nth len b j : fits len b -> nth_error (broadcast len b) j = component len b j.
Proof.
  destruct b; cbn [broadcast component fits]; intros F; auto; [|destruct F].
  destruct (Nat.ltb_spec j len).
  - apply nth_error_repeat; auto.
  - apply nth_error_None. rewrite repeat_length; auto.
Qed.
Lemma broadcast_length len b : fits len b -> length (broadcast len b) = len.
Proof. destruct b; cbn; intros F; auto; [apply repeat_length|destruct F]. Qed.

(* C132: initial solutions *)
Lemma generated_row len lb ub row : fits len lb -> fits len ub -> length row = len -> (forall x, In x row -> (0 <= x /\ x <= 1)%Q) ->
  exists v, make_uniform_float (Some (broadcast len lb)) (Some (broadcast len ub)) row = Ok v /\ length v = len /\
    forall j x, nth_error v j = Some x -> exists l u r, component len lb j = Some l /\ component len ub j = Some u /\
      (0 <= r /\ r <= 1)%Q /\ (x = r * (u - l) + l)%Q.
Proof.
  intros F1 F2 L R. eexists; split; [reflexivity|]. split.
  - rewrite map3_length, !broadcast_length by auto. lia.
  - intros j x H. rewrite map3_nth_error, !broadcast_nth in H by auto.
    destruct (component len lb j) as [l|]; [|discriminate]. destruct (component len ub j) as [u|]; [|discriminate].
    destruct (nth_error row j) as [r|] eqn:E; [|discriminate]. injection H as <-. exists l, u, r. repeat split; auto.
    + apply (R r). eapply nth_error_In; eauto.
    + apply (R r). eapply nth_error_In; eauto.
Qed.
Lemma generated a r c raw len lb ub : construct a r = Ok c -> a_dtype a <> DObject -> a_length a = Some len -> standard len raw ->
  (match a_initial a with Some x => Some x | None => a_bounds a end) = Some (lb, ub) ->
  exists rows, generate_values c raw = Ok rows /\ length rows = length raw /\
    forall v, In v rows -> length v = len /\
      forall j x, nth_error v j = Some x -> exists l u r, component len lb j = Some l /\ component len ub j = Some u /\
        (0 <= r /\ r <= 1)%Q /\ (x = r * (u - l) + l)%Q.
Proof.
  intros C D L ST EI. apply construct_inv in C. destruct C as (C1 & _ & C2 & _).
  destruct (choose_dtype (a_dtype a)) as [d|] eqn:CD; [|destruct (a_dtype a); try discriminate; congruence].
  apply stored_bounds in C2. destruct C2 as (E1 & E2 & E3 & _ & E4).
  unfold generate_values. rewrite C1, E1, L, E3, EI. rewrite E1, L in E4. destruct (E4 len eq_refl) as [F _].
  rewrite E3, EI in F. destruct (F _ _ eq_refl) as [F1 F2]. clear - F1 F2 ST.
  induction raw as [| row raw IH]; [exists []; repeat split; auto; intros; destruct H|].
  destruct IH as (rows & R1 & R2 & R3); [intros x Hx; apply ST; right; auto|].
  destruct (ST row (or_introl eq_refl)) as [LR RR].
  destruct (generated_row len lb ub row F1 F2 LR RR) as (v & V1 & V2 & V3).
  exists (v :: rows). cbn [map sequence]. rewrite V1. cbn [bind]. rewrite R1. cbn. repeat split; auto.
  - destruct H as [<- | H]; auto. apply R3; auto.
  - destruct H as [<- | H]; auto. apply R3; auto.
Qed.
Lemma affine (r l u : Q) : (0 <= r -> r <= 1 -> l <= u -> l <= r * (u - l) + l /\ r * (u - l) + l <= u)%Q.
Proof. intros. split; nra. Qed.
Theorem C132_initial_partial : forall a r c raw len lb ub, construct a r = Ok c -> a_dtype a <> DObject -> a_length a = Some len ->
  standard len raw -> ordered len (lb, ub) ->
  a_initial a = Some (lb, ub) \/ (a_initial a = None /\ a_bounds a = Some (lb, ub)) ->
  exists rows, generate_values c raw = Ok rows /\ length rows = length raw /\
    (forall v, In v rows -> between len (lb, ub) v) /\
    (forall b, a_bounds a = Some b -> inside len (lb, ub) b -> forall v, In v rows -> between len b v).
Proof.
  intros a r c raw len lb ub C D L ST O EI.
  destruct (generated a r c raw len lb ub C D L ST) as (rows & R1 & R2 & R3).
  { destruct EI as [-> | [-> ->]]; reflexivity. }
  exists rows. repeat split; auto; try (apply R3; auto).
  - destruct (R3 v H) as [_ V]. destruct (V j x H0) as (l' & u' & q & A1 & A2 & [A3 A4] & ->). cbn [fst snd] in *.
    rewrite H1 in A1; injection A1 as <-. rewrite H2 in A2; injection A2 as <-. apply affine; auto. apply (O j); auto.
  - destruct (R3 v H) as [_ V]. destruct (V j x H0) as (l' & u' & q & A1 & A2 & [A3 A4] & ->). cbn [fst snd] in *.
    rewrite H1 in A1; injection A1 as <-. rewrite H2 in A2; injection A2 as <-. apply affine; auto. apply (O j); auto.
  - destruct (R3 v H1) as [_ V]. destruct (V j x H2) as (l' & u' & q & A1 & A2 & [A3 A4] & ->). cbn [fst snd] in *.
    destruct (H0 j) as [I1 I2]. specialize (I1 l' l A1 H3). eapply Qle_trans; [exact I1|]. apply affine; auto. apply (O j); auto.
  - destruct (R3 v H1) as [_ V]. destruct (V j x H2) as (l' & u' & q & A1 & A2 & [A3 A4] & ->). cbn [fst snd] in *.
    destruct (H0 j) as [I1 I2]. specialize (I2 u' u A2 H4). eapply Qle_trans; [|exact I2]. apply affine; auto. apply (O j); auto.
Qed.
Print Assumptions C132_initial_partial.
(* which lengths and bounds are accepted *)
Theorem C132_accepted : forall a d len, choose_dtype (a_dtype a) = Some d -> a_length a = Some len ->
  (fits_pair len (a_initial a) /\ fits_pair len (a_bounds a) ->
   exists i, length_and_bounds (Some d) a = Ok (Some len, i, a_bounds a) /\ (i = a_initial a \/ a_initial a = None /\ i = a_bounds a)) /\
  (~ (fits_pair len (a_initial a) /\ fits_pair len (a_bounds a)) -> length_and_bounds (Some d) a = Err ValueError).
Proof.
  intros a d len CD L. unfold length_and_bounds. rewrite L. split.
  - intros [F G]. destruct (a_initial a) as [[x y]|].
    + destruct (F x y eq_refl). assert (P : process_bounds len (x, y) = Ok (x, y)) by (apply process_ok; auto). rewrite P. cbn [bind].
      destruct (a_bounds a) as [[u v]|]; [|eauto]. destruct (G u v eq_refl).
      assert (P' : process_bounds len (u, v) = Ok (u, v)) by (apply process_ok; auto). rewrite P'. cbn; eauto.
    + destruct (a_bounds a) as [[u v]|]; [|eauto]. destruct (G u v eq_refl).
      assert (P' : process_bounds len (u, v) = Ok (u, v)) by (apply process_ok; auto). rewrite P'. cbn. eauto 6.
  - intros N. destruct (a_initial a) as [[x y]|].
    + destruct (process_err len (x, y)) as [[A B] | ->]; [|reflexivity]. cbn [fst snd] in *.
      assert (P : process_bounds len (x, y) = Ok (x, y)) by (apply process_ok; auto). rewrite P. cbn [bind].
      destruct (a_bounds a) as [[u v]|].
      * destruct (process_err len (u, v)) as [[A' B'] | ->]; [|reflexivity]. exfalso; apply N. split; intros ? ? E; injection E as <- <-; auto.
      * exfalso; apply N. split; intros ? ? E; [injection E as <- <-; auto|discriminate].
    + destruct (a_bounds a) as [[u v]|].
      * destruct (process_err len (u, v)) as [[A' B'] | ->]; [|reflexivity]. exfalso; apply N. split; intros ? ? E; [discriminate|injection E as <- <-; auto].
      * exfalso; apply N. split; intros ? ? E; discriminate.
Qed.
Print Assumptions C132_accepted.
(* false in general: nothing relates the initial bounds to the bounds; whenever the initial interval is above the upper bound
   somewhere, every initial solution is outside of the bounds *)
Theorem C132_outside_refuted : forall a r c raw len ilb iub lb ub j l u h, construct a r = Ok c -> a_dtype a <> DObject -> a_length a = Some len ->
  standard len raw -> a_initial a = Some (ilb, iub) -> a_bounds a = Some (lb, ub) -> ordered len (ilb, iub) ->
  component len ilb j = Some l -> component len iub j = Some u -> component len ub j = Some h -> component len lb j <> None -> (h < l)%Q ->
  exists rows, generate_values c raw = Ok rows /\ length rows = length raw /\ forall v, In v rows -> ~ between len (lb, ub) v.
Proof.
  intros a r c raw len ilb iub lb ub j l u h C D L ST EI EB O C1 C2 C3 C4 LT.
  destruct (generated a r c raw len ilb iub C D L ST) as (rows & R1 & R2 & R3); [rewrite EI; reflexivity|].
  exists rows. repeat split; auto. intros v IV [LV B]. destruct (R3 v IV) as [_ V].
  destruct (nth_error v j) as [x|] eqn:E.
  - destruct (component len lb j) as [l0|] eqn:C5; [|congruence]. destruct (B j x l0 h E C5 C3) as [_ X].
    destruct (V j x E) as (l' & u' & q & A1 & A2 & [A3 A4] & ->). rewrite C1 in A1; injection A1 as <-. rewrite C2 in A2; injection A2 as <-.
    pose proof (O j _ _ C1 C2) as O'. destruct (affine q l u A3 A4 O'). lra.
  - apply nth_error_None in E. apply construct_inv in C. destruct C as (_ & _ & S1 & _).
    destruct (choose_dtype (a_dtype a)) as [d|] eqn:CD; [|destruct (a_dtype a); try discriminate; congruence].
    apply stored_bounds in S1. destruct S1 as (E1 & E2 & E3 & _ & E4). rewrite E1, L in E4. destruct (E4 len eq_refl) as [F _].
    rewrite E3, EI in F. destruct (F _ _ eq_refl) as [F1 F2].
    rewrite <- broadcast_nth in C1 by auto. assert (j < length (broadcast len ilb))%nat by (apply nth_error_Some; congruence).
    rewrite broadcast_length in H by auto. lia.
Qed.
Print Assumptions C132_outside_refuted.
Definition C132_args (initial : option (bound * bound)) : arguments :=
  Args (OneSense "min") (Some true) initial (Some (BScalar (-1)%Q, BVector [1; 2]%Q)) (Some 2%nat) DNone DNone 0 None ANone false GNone None None.
Example C132_example : exists c, construct (C132_args None) (Res None None) = Ok c /\
  generate_values c [[1; 1 # 2]; [0; 1]]%Q = Ok [[1; 1 # 2]; [-1; 2]]%Q /\ standard 2 [[1; 1 # 2]; [0; 1]]%Q.
Proof.
  eexists; split; [reflexivity|]. split; [reflexivity|].
  intros row [<- | [<- | []]]; (split; [reflexivity|]); intros x H; cbn in H; repeat destruct H as [<- | H]; try tauto; split; discriminate.
Qed.
Example C132_outside_example : exists c, construct (C132_args (Some (BScalar 3%Q, BScalar 4%Q))) (Res None None) = Ok c /\
  generate_values c [[1; 0]]%Q = Ok [[4; 3]]%Q.
Proof. eexists; split; reflexivity. Qed.

(* C133: objective senses *)
Lemma validate_ok s : validate_sense s = Ok tt <-> valid_sense s.
Proof.
  unfold validate_sense, valid_sense. destruct (String.eqb_spec s "min"), (String.eqb_spec s "max"); cbn; split; auto; try discriminate; tauto.
Qed.
Lemma validate_all l : (exists x, sequence (map validate_sense l) = Ok x) <-> Forall valid_sense l.
Proof.
  induction l as [| s l IH]; cbn [map sequence]; [split; eauto|]. split.
  - intros [x H]. destruct (validate_sense s) as [[]|] eqn:V; [|discriminate]. cbn [bind] in H. apply validate_ok in V. constructor; auto.
    apply IH. destruct (sequence (map validate_sense l)) as [y|]; [eauto|discriminate].
  - intros H; inversion H; subst. apply validate_ok in H2. rewrite H2. cbn [bind]. apply IH in H3. destruct H3 as [x ->]. cbn; eauto.
Qed.
Lemma sequence_err_validate l e : sequence (map validate_sense l) = Err e -> e = ValueError.
Proof.
  induction l as [| s l IH]; cbn [map sequence]; [discriminate|].
  destruct (validate_sense s) as [[]|e'] eqn:V; cbn [bind].
  - destruct (sequence (map validate_sense l)); cbn; [discriminate|auto].
  - intros H; injection H as <-. unfold validate_sense in V. destruct (_ || _); [discriminate|congruence].
Qed.
Lemma order_ok l : Forall valid_sense l -> exists d,
  sequence (map (fun s => if String.eqb s "min" then Ok false else if String.eqb s "max" then Ok true else Err ValueError) l) = Ok d /\
  forall i s, nth_error l i = Some s -> nth_error d i = Some (String.eqb s "max").
Proof.
  induction 1 as [| s l V _ (d & D1 & D2)]; [exists []; split; auto; intros [] ? ?; discriminate|].
  exists (String.eqb s "max" :: d). split.
  - cbn [map sequence]. destruct V as [-> | ->]; cbn; cbn in D1; rewrite D1; reflexivity.
  - intros [| i] s' H; cbn in *; [injection H as <-; auto|auto].
Qed.
(* a sequence of senses is accepted exactly when it is a non-empty sequence of "min" and "max"; a problem with valid senses tells
   for each objective whether it is to be maximized *)
Theorem C133_senses_partial : forall a r c, construct a r = Ok c ->
  (forall l, a_sense a = ManySenses l -> l <> [] /\ Forall valid_sense l) /\
  ((forall s, a_sense a = OneSense s -> valid_sense s) ->
   exists d, order_descending c = Ok d /\ forall i s, nth_error (c_senses c) i = Some s -> nth_error d i = Some (String.eqb s "max")).
Proof.
  intros a r c C. apply construct_inv in C. destruct C as (_ & _ & _ & S1 & _).
  assert (M : forall l, a_sense a = ManySenses l -> l <> [] /\ Forall valid_sense l).
  { intros l E. rewrite E in S1. cbn in S1. destruct (sequence (map validate_sense l)) as [x|] eqn:V; [|discriminate].
    cbn [bind] in S1. split; [intros ->; discriminate|]. apply validate_all; eauto. }
  split; auto. intros V. unfold order_descending. apply order_ok.
  destruct (a_sense a) as [s | l] eqn:E.
  - injection S1 as <-. constructor; auto.
  - cbn in S1. destruct (sequence (map validate_sense l)) eqn:Q; [|discriminate]. cbn [bind] in S1.
    destruct (Nat.eqb (length l) 0); [discriminate|]. injection S1 as <-. apply M; auto.
Qed.
Print Assumptions C133_senses_partial.
Theorem C133_sequences_rejected : forall a r l d, a_sense a = ManySenses l -> ~ (l <> [] /\ Forall valid_sense l) ->
  choose_eval_dtype (choose_dtype (a_dtype a)) (a_eval_dtype a) = Ok d -> construct a r = Err ValueError \/
  exists e, length_and_bounds (choose_dtype (a_dtype a)) a = Err e.
Proof.
  intros a r l d E N D. unfold construct. rewrite D. cbn [bind].
  destruct (length_and_bounds _ a) as [[[len i] b]|e] eqn:LB; [left|right; eauto]. cbn [bind]. rewrite E. cbn [choose_senses].
  destruct (sequence (map validate_sense l)) as [x|e] eqn:V.
  - cbn [bind]. destruct l; [reflexivity|]. exfalso; apply N. split; [discriminate|]. apply validate_all; eauto.
  - apply sequence_err_validate in V. subst; reflexivity.
Qed.
Print Assumptions C133_sequences_rejected.
(* false of a single sense: any other string is accepted as well, and the problem then cannot tell its direction *)
Theorem C133_invalid_refuted : forall a r s c, construct a r = Ok c -> a_sense a = OneSense s ->
  forall s', ~ valid_sense s' ->
  exists c', construct (Args (OneSense s') (a_func a) (a_initial a) (a_bounds a) (a_length a) (a_dtype a) (a_eval_dtype a) (a_device a)
      (a_vectorized a) (a_actors a) (a_config_gpus a) (a_gpus a) (a_num_subbatches a) (a_subbatch_size a)) r = Ok c' /\
    c_senses c' = [s'] /\ order_descending c' = Err ValueError.
Proof.
  intros a r s c C E s' N. unfold construct in *.
  step C e E1. step C x E2. destruct x as [[len initial] bounds]. step C q E3. step C v E4. step C t E5. step C ng E6. destruct ng as [n g].
  destruct (drop_single n g) as [n' g'] eqn:E7. step C n'' E8. step C al E9.
  cbn [a_func a_initial a_bounds a_length a_dtype a_eval_dtype a_device a_vectorized a_actors a_config_gpus a_gpus a_num_subbatches a_subbatch_size a_sense].
  rewrite E1. cbn [bind].
  match goal with |- context [length_and_bounds ?d ?a'] => assert (X : length_and_bounds d a' = length_and_bounds d a) by reflexivity end.
  rewrite X, E2. cbn [bind choose_senses]. rewrite E4. cbn [bind]. rewrite E5. cbn [bind].
  match goal with |- context [choose_actors ?a' r] => assert (Y : choose_actors a' r = choose_actors a r) by reflexivity end.
  rewrite Y, E6. cbn [bind]. rewrite E7, E8. cbn [bind]. rewrite E9. cbn [bind].
  eexists; split; [reflexivity|]. split; [reflexivity|]. unfold order_descending. cbn.
  unfold valid_sense in N. destruct (String.eqb_spec s' "min"); [tauto|]. destruct (String.eqb_spec s' "max"); [tauto|]. reflexivity.
Qed.
Print Assumptions C133_invalid_refuted.
Example C133_example : exists c, construct (C132_args None) (Res None None) = Ok c /\ order_descending c = Ok [false].
Proof. eexists; split; reflexivity. Qed.

(* C134: number of actors and their GPUs *)
Definition automatic (a : arguments) : Prop :=
  a_actors a = AStr "num_gpus" \/ a_actors a = AStr "num_devices" \/ a_gpus a = GStr "max".
Lemma ceil_pos q : (0 < q)%Q -> 1 <= Qceiling q.
Proof. intros H. pose proof (Qle_ceiling q). assert (inject_Z 0 < inject_Z (Qceiling q))%Q by (change (inject_Z 0) with 0%Q; lra). rewrite <- Zlt_Qlt in H1. lia. Qed.
Lemma tiny_pos g : qlt g tiny = false -> (0 < g)%Q.
Proof. unfold qlt. intros H. apply negb_false_iff, Qle_bool_iff in H. unfold tiny in H. lra. Qed.
Lemma qmin_spec a b : (qmin a b == a /\ a <= b \/ qmin a b == b /\ b <= a)%Q.
Proof.
  unfold qmin. destruct (Qle_bool b a) eqn:E1; [apply Qle_bool_iff in E1|].
  - destruct (Qle_bool a b) eqn:E2; [apply Qle_bool_iff in E2; left; split; [reflexivity|auto]|right; split; [reflexivity|auto]].
  - left. split; [reflexivity|]. destruct (Qlt_le_dec a b); [lra|]. apply Qle_bool_iff in q. congruence.
Qed.
Lemma share_mul g n : 1 <= n -> (inject_Z n * (g / inject_Z n) == g)%Q.
Proof. intros H. field. intros X. pose proof (proj1 (inject_Z_injective n 0) X). lia. Qed.
Lemma share_pos g n : (0 < g)%Q -> 1 <= n -> (0 < g / inject_Z n)%Q.
Proof. intros G H. apply Qlt_shift_div_l; [change 0%Q with (inject_Z 0); rewrite <- Zlt_Qlt; lia|]. lra. Qed.
Theorem C134_actors_partial : forall a r c, construct a r = Ok c ->
  c_actors c <> 1 /\ (2 <= c_actors c -> a_device a = 0%nat) /\
  (forall q, c_allotment c = Share q -> automatic a -> 2 <= c_actors c ->
     exists g, r_gpu r = Some g /\ (inject_Z (c_actors c) * q <= g)%Q /\ ((0 < g)%Q -> (0 < q)%Q)) /\
  (* whole resources are mapped one to one *)
  (forall n m, a_actors a = AStr "num_devices" -> a_device a = 0%nat -> r_cpu r = Some (inject_Z n) -> r_gpu r = Some (inject_Z m) ->
     2 <= n -> 2 <= m -> c_actors c = Z.min n m /\ exists q, c_allotment c = Share q /\ (q == 1)%Q).
Proof.
  intros a r c C. apply construct_inv in C. destruct C as (_ & _ & _ & _ & _ & _ & n & g & CA & CD & AL & DV).
  assert (NN : exists k, fst (drop_single n g) = Some k /\ k = c_actors c /\ (2 <= k -> a_device a = 0%nat)).
  { unfold check_device in CD. destruct (fst (drop_single n g)) as [k|]; [|discriminate].
    destruct ((k >=? 2) && negb (Nat.eqb (a_device a) 0)) eqn:E; [discriminate|]. injection CD as <-. exists k. repeat split; auto.
    intros. destruct (Nat.eqb_spec (a_device a) 0); auto. apply andb_false_iff in E. destruct E; [lia|discriminate]. }
  destruct NN as (k & N1 & N2 & N3). rewrite <- N2 in *. split; [|split; [auto|split]].
  - unfold drop_single in N1. destruct n as [z|]; [|discriminate]. destruct z as [| [p | p |] | p]; cbn in N1; injection N1 as <-; try lia; try discriminate.
  - intros q SH AUTO K2. unfold automatic in AUTO.
    assert (DS : drop_single n g = (Some k, g) /\ n = Some k).
    { unfold drop_single in *. destruct n as [z|]; [|discriminate]. destruct z as [| [p | p |] | p]; cbn in *; injection N1 as <-; auto; lia. }
    destruct DS as [DS ->]. rewrite DS in AL. cbn [snd] in AL.
    unfold choose_actors in CA.
    assert (GP : forall gg, r_gpu r = Some gg -> g = GStr "max" -> exists g0, r_gpu r = Some g0 /\ (inject_Z k * q <= g0)%Q /\ ((0 < g0)%Q -> (0 < q)%Q)).
    { intros gg RG ->. cbn in AL. destruct (a_config_gpus a); [discriminate|]. rewrite RG in AL.
      destruct (Z.eqb_spec k 0); [lia|]. injection AL as AL. rewrite SH in AL. injection AL as <-. exists gg. split; auto.
      rewrite share_mul by lia. split; [apply Qle_refl|]. intros; apply share_pos; auto; lia. }
    assert (MX : g = GStr "max" -> exists g0, r_gpu r = Some g0 /\ (inject_Z k * q <= g0)%Q /\ ((0 < g0)%Q -> (0 < q)%Q)).
    { intros EG. destruct (r_gpu r) as [gg|] eqn:RG; [eapply GP; eauto|]. subst g. cbn in AL. destruct (a_config_gpus a); [discriminate|].
      rewrite RG in AL. injection AL as AL. congruence. }
    destruct (a_actors a) as [| s | z].
    + injection CA as _ <-. destruct AUTO as [X | [X | X]]; try discriminate. auto.
    + destruct (String.eqb_spec s "max") as [Es | _]; cbn [orb] in CA.
      { rewrite Es in AUTO. destruct (ceil_of (r_cpu r)); [|discriminate]. injection CA as _ <-. destruct AUTO as [X | [X | X]]; try discriminate. auto. }
      destruct (String.eqb_spec s "num_cpus") as [Es | _]; cbn [orb] in CA.
      { rewrite Es in AUTO. destruct (ceil_of (r_cpu r)); [|discriminate]. injection CA as _ <-. destruct AUTO as [X | [X | X]]; try discriminate. auto. }
      destruct (String.eqb_spec s "num_gpus") as [Es | _].
      { destruct (r_gpu r) as [gg|] eqn:RG; [|discriminate]. destruct (qlt gg tiny) eqn:T; [discriminate|]. apply tiny_pos in T.
        destruct (a_config_gpus a); [discriminate|]. destruct (a_gpus a); try discriminate. injection CA as <- <-.
        cbn in AL. injection AL as AL. rewrite SH in AL. injection AL as <-. exists gg. split; auto.
        rewrite share_mul by (apply ceil_pos; auto). split; [apply Qle_refl|]. intros; apply share_pos; auto; apply ceil_pos; auto. }
      destruct (String.eqb_spec s "num_devices") as [Es | _]; [|discriminate].
      destruct (a_config_gpus a); [discriminate|]. destruct (a_gpus a); try discriminate.
      destruct (negb (Nat.eqb (a_device a) 0)); [discriminate|].
      destruct (r_gpu r) as [gg|] eqn:RG.
      2:{ destruct (ceil_of (r_cpu r)); [|discriminate]. injection CA as _ <-. cbn in AL. injection AL as AL; congruence. }
      destruct (qlt gg tiny) eqn:T.
      { destruct (ceil_of (r_cpu r)); [|discriminate]. injection CA as _ <-. cbn in AL. injection AL as AL; congruence. }
      apply tiny_pos in T. destruct (r_cpu r) as [cc|]; [|discriminate].
      destruct (Qle_bool _ _) eqn:LE.
      * injection CA as <- <-. cbn in AL. injection AL as AL. rewrite SH in AL. injection AL as <-. exists gg. split; auto.
        apply Qle_bool_iff in LE. rewrite Qmult_1_r. split; [auto|]. intros; reflexivity.
      * injection CA as <- <-. cbn in AL. injection AL as AL. rewrite SH in AL. injection AL as <-. exists gg. split; auto.
        rewrite share_mul by lia. split; [apply Qle_refl|]. intros; apply share_pos; auto; lia.
    + injection CA as _ <-. destruct AUTO as [X | [X | X]]; try discriminate. auto.
  - intros n0 m EA D0 RC RG H2 H3. unfold choose_actors in CA. rewrite EA, RC, RG, D0 in CA. cbn [String.eqb Ascii.eqb Bool.eqb orb] in CA.
    change (String.eqb "num_devices" "max") with false in CA. change (String.eqb "num_devices" "num_cpus") with false in CA.
    change (String.eqb "num_devices" "num_gpus") with false in CA. change (String.eqb "num_devices" "num_devices") with true in CA. cbn [orb] in CA.
    destruct (a_config_gpus a) eqn:CG; [discriminate|]. destruct (a_gpus a); try discriminate. cbn [Nat.eqb negb] in CA.
    assert (T : qlt (inject_Z m) tiny = false).
    { unfold qlt. apply negb_false_iff, Qle_bool_iff. unfold tiny. apply Qle_trans with (inject_Z 2); [discriminate|]. rewrite <- Zle_Qle; auto. }
    rewrite T in CA.
    assert (QM : Qceiling (qmin (inject_Z n0) (inject_Z m)) = Z.min n0 m).
    { unfold qmin. destruct (Qle_bool (inject_Z m) (inject_Z n0)) eqn:E1; [apply Qle_bool_iff in E1; rewrite <- Zle_Qle in E1|].
      - destruct (Qle_bool (inject_Z n0) (inject_Z m)) eqn:E2; [apply Qle_bool_iff in E2; rewrite <- Zle_Qle in E2|].
        + rewrite Qceiling_Z. lia.
        + rewrite Qceiling_Z. lia.
      - rewrite Qceiling_Z. destruct (Z_le_gt_dec m n0); [|lia]. rewrite Zle_Qle in l. apply Qle_bool_iff in l. congruence. }
    rewrite QM in CA.
    assert (LE : Qle_bool (inject_Z (Z.min n0 m)) (inject_Z m) = true) by (apply Qle_bool_iff; rewrite <- Zle_Qle; lia).
    rewrite LE in CA. injection CA as <- <-.
    assert (DS : drop_single (Some (Z.min n0 m)) (GNum 1) = (Some (Z.min n0 m), GNum 1)).
    { unfold drop_single. destruct (Z.min n0 m) as [| [p | p |] | p] eqn:E; auto; lia. }
    rewrite DS in *. cbn [fst snd] in *. injection N1 as <-. split; auto. cbn in AL. injection AL as AL. exists 1%Q. split; [auto|reflexivity].
Qed.
Print Assumptions C134_actors_partial.
(* false for "num_devices" with a problem on another device: instead of allotting no actors, the constructor fails *)
Theorem C134_num_devices_refuted : forall a r, a_actors a = AStr "num_devices" -> a_device a <> 0%nat -> forall c, construct a r <> Ok c.
Proof.
  intros a r EA D c C. apply construct_inv in C. destruct C as (_ & _ & _ & _ & _ & _ & n & g & CA & CD & _).
  unfold choose_actors in CA. rewrite EA in CA.
  change (String.eqb "num_devices" "max") with false in CA. change (String.eqb "num_devices" "num_cpus") with false in CA.
  change (String.eqb "num_devices" "num_gpus") with false in CA. change (String.eqb "num_devices" "num_devices") with true in CA. cbn [orb] in CA.
  destruct (a_config_gpus a); [discriminate|]. destruct (a_gpus a); try discriminate.
  destruct (Nat.eqb_spec (a_device a) 0); [congruence|]. cbn [negb] in CA. injection CA as <- <-. discriminate.
Qed.
Print Assumptions C134_num_devices_refuted.
Definition C134_args (actors : actors_arg) (device : nat) : arguments :=
  Args (ManySenses ["min"; "max"]%string) None None None (Some 3%nat) (DType Float64) DNone device None actors false GNone None (Some 5).
Example C134_example : exists c, construct (C134_args (AStr "num_devices") 0) (Res (Some 8%Q) (Some 4%Q)) = Ok c /\
  c_actors c = 4 /\ c_allotment c = Share 1%Q /\ c_eval_dtype c = Float64.
Proof. eexists; repeat split. Qed.
Example C134_refuted_example : construct (C134_args (AStr "num_devices") 1) (Res (Some 8%Q) (Some 4%Q)) = Err TypeError.
Proof. reflexivity. Qed.

(* C135: seeds of the actors *)
Lemma seed_range base i : 0 <= generate_actor_seed base i < supremum_seed.
Proof. apply Z.mod_pos_bound. reflexivity. Qed.
Lemma seed_inj base i j : 0 <= i < supremum_seed -> 0 <= j < supremum_seed -> generate_actor_seed base i = generate_actor_seed base j -> i = j.
Proof.
  unfold generate_actor_seed, supremum_seed. intros A B H.
  assert (((base + (i + 1)) - (base + (j + 1))) mod 4294967296 = 0) by (rewrite Zminus_mod, H, Z.sub_diag; reflexivity).
  apply Z.mod_divide in H0; [|lia]. destruct H0 as [q Hq]. assert (q = 0) by nia. lia.
Qed.
Lemma randint_one draw base : make_randint supremum_seed [draw] = Ok base -> exists b, base = [b] /\ b = draw mod supremum_seed.
Proof. cbn. intros H; injection H as <-. eauto. Qed.
Definition start_seeds (base : Z) (i : nat) : actor :=
  Actor (generate_actor_seed base (Z.of_nat (4 * i))) (generate_actor_seed base (Z.of_nat (4 * i + 1)))
    (generate_actor_seed base (Z.of_nat (4 * i + 2))) None.
Lemma start_all base n : sequence (map (start_actor false) (actor_seeds base n)) = Ok (map (start_seeds base) (seq 0 n)).
Proof.
  unfold actor_seeds. rewrite map_map. generalize (seq 0 n). induction l as [| i l IH]; [reflexivity|].
  cbn [map sequence seq]. unfold start_actor at 1. cbn [map seq].
  pose proof (seed_range base (Z.of_nat (4 * i + 1))) as R. unfold supremum_seed in R.
  replace (generate_actor_seed base (Z.of_nat (4 * i + 1)) <? 0) with false by lia.
  replace (generate_actor_seed base (Z.of_nat (4 * i + 1)) >=? 4294967296) with false by lia. cbn [orb bind].
  cbn [map seq] in IH. rewrite IH. cbn [bind]. unfold start_seeds at 2. rewrite Nat.add_0_r. reflexivity.
Qed.
Lemma start_none base i n : (i < n)%nat -> exists e, sequence (map (start_actor true) (actor_seeds base n)) = Err e.
Proof.
  intros H. destruct n; [lia|]. unfold actor_seeds. cbn [seq map sequence]. unfold start_actor. cbn [map seq].
  destruct (_ || _); cbn; eauto.
Qed.
(* the seeds of all generators of all actors are different, and numpy accepts them *)
Theorem C135_seeds_partial : forall a r c draw, construct a r = Ok c -> 4 * c_actors c <= supremum_seed ->
  exists actors, parallelize c false draw = Ok actors /\ Z.of_nat (length actors) = Z.max 0 (c_actors c) /\
    NoDup (flat_map seeds_of actors) /\ forall s, In s (flat_map seeds_of actors) -> 0 <= s < supremum_seed.
Proof.
  intros a r c draw C LE. unfold parallelize. destruct (Z.leb_spec (c_actors c) 0).
  - exists []. cbn. repeat split; try lia; try constructor; destruct H0.
  - destruct (make_randint supremum_seed [draw]) as [l|] eqn:E; [|discriminate]. apply randint_one in E. destruct E as (b & -> & EB).
    cbn [bind]. rewrite start_all. eexists; split; [reflexivity|]. rewrite map_length, seq_length. split; [lia|].
    set (n := Z.to_nat (c_actors c)). assert (N4 : Z.of_nat (4 * n) <= supremum_seed) by lia.
    assert (IN : forall s m k, In s (flat_map seeds_of (map (start_seeds b) (seq m k))) ->
      exists i, (4 * m <= i < 4 * (m + k))%nat /\ s = generate_actor_seed b (Z.of_nat i)).
    { intros s m k. revert m. induction k as [| k IH]; intros m; cbn [seq map flat_map]; [intros []|]. intros H0; apply in_app_or in H0.
      destruct H0 as [H0 | H0].
      - cbn in H0. destruct H0 as [<- | [<- | [<- | []]]]; eexists; (split; [|unfold start_seeds; cbn; reflexivity]); lia.
      - destruct (IH _ H0) as (i & I1 & I2). exists i. split; [lia|auto]. }
    split.
    + assert (ND : forall m k, Z.of_nat (4 * (m + k)) <= supremum_seed -> NoDup (flat_map seeds_of (map (start_seeds b) (seq m k)))).
      { intros m k; revert m; induction k as [| k IH]; intros m B; cbn [seq map flat_map]; [constructor|].
        assert (INJ : forall i j, (i < 4 * (m + S k))%nat -> (j < 4 * (m + S k))%nat -> generate_actor_seed b (Z.of_nat i) = generate_actor_seed b (Z.of_nat j) -> i = j).
        { intros i j A1 A2 A3. apply seed_inj in A3; lia. }
        cbn [seeds_of start_seeds g_py g_np g_torch g_problem app].
        assert (NI : forall o, (o < 3)%nat -> ~ In (generate_actor_seed b (Z.of_nat (4 * m + o))) (flat_map seeds_of (map (start_seeds b) (seq (S m) k)))).
        { intros o O X. apply IN in X. destruct X as (i & I1 & I2). apply INJ in I2; lia. }
        pose proof (NI 0%nat ltac:(lia)) as N0. pose proof (NI 1%nat ltac:(lia)) as N1. pose proof (NI 2%nat ltac:(lia)) as N2.
        rewrite Nat.add_0_r in N0.
        constructor; [|constructor; [|constructor; [exact N2|apply IH; lia]]].
        - intros [X | [X | X]]; [apply INJ in X; lia|apply INJ in X; lia|exact (N0 X)].
        - intros [X | X]; [apply INJ in X; lia|exact (N1 X)]. }
      apply ND. lia.
    + intros s X. apply IN in X. destruct X as (i & _ & ->). apply seed_range.
Qed.
Print Assumptions C135_seeds_partial.
(* false of a problem with a seed of its own: the actors cannot be started *)
Theorem C135_own_generator_refuted : forall a r c draw, construct a r = Ok c -> 2 <= c_actors c -> exists e, parallelize c true draw = Err e.
Proof.
  intros a r c draw _ H. unfold parallelize. replace (c_actors c <=? 0) with false by lia.
  destruct (make_randint supremum_seed [draw]) as [l|] eqn:E; [|discriminate]. apply randint_one in E. destruct E as (b & -> & EB).
  cbn [bind]. apply (start_none b 0). lia.
Qed.
Print Assumptions C135_own_generator_refuted.
Example C135_example : exists c, construct (C134_args (AInt 2) 0) (Res None None) = Ok c /\
  parallelize c false 4294967295 = Ok [Actor 0 1 2 None; Actor 4 5 6 None] /\ parallelize c true 7 = Err AttributeError.
Proof. eexists; repeat split. Qed.

(* Properties of making networks from strings and callables. *)
From Coq Require Import String.
From Verif Require Import Prelude NiModel NiSpec.
Open Scope string_scope.

Lemma dget_dset {V} (d : dict V) k v k' : dget (dset d k v) k' = if String.eqb k' k then Some v else dget d k'.
Proof.
  induction d as [|[a x] d IH]; cbn [dset dget]; [reflexivity|]. destruct (String.eqb_spec k a) as [->|N]; cbn [dget].
  - destruct (String.eqb k' a); reflexivity.
  - rewrite IH. destruct (String.eqb_spec k' a) as [->|M]; [|reflexivity]. destruct (String.eqb_spec a k); congruence.
Qed.
Lemma keys_dset {V} (d : dict V) k v k' : In k' (map fst (dset d k v)) <-> k' = k \/ In k' (map fst d).
Proof.
  induction d as [|[a x] d IH]; cbn [dset map fst In]; [intuition congruence|]. destruct (String.eqb_spec k a) as [->|N]; cbn [map fst In]; [|rewrite IH]; intuition congruence.
Qed.
Lemma dict_dset {V} (d : dict V) k v : is_dict d -> is_dict (dset d k v).
Proof.
  unfold is_dict. induction d as [|[a x] d IH]; cbn [dset map fst]; intros D; [repeat constructor; intros []|].
  destruct (String.eqb_spec k a) as [->|N]; [exact D|]. inversion D; subst. cbn [map fst]. constructor; [|auto]. rewrite keys_dset. intros [Q|Q]; [congruence|contradiction].
Qed.
Lemma dict_update {V} (e : dict V) : forall d, is_dict d -> is_dict (dupdate d e).
Proof. unfold dupdate. induction e as [|[k v] e IH]; cbn [fold_left]; intros d D; auto. apply IH, dict_dset. auto. Qed.
Lemma dget_in {V} (d : dict V) k v : is_dict d -> dget d k = Some v <-> In (k, v) d.
Proof.
  unfold is_dict. induction d as [|[a x] d IH]; cbn [dget map fst In]; intros D; [split; [discriminate|tauto]|]. inversion D as [|? ? N D']; subst.
  destruct (String.eqb_spec k a) as [->|M].
  - split; [intros Q; injection Q as ->; auto|]. intros [Q|Q]; [injection Q as ->; auto|]. exfalso. apply N. apply (in_map fst) in Q. exact Q.
  - rewrite IH by auto. split; [auto|]. intros [Q|Q]; [apply (f_equal fst) in Q; cbn in Q; congruence|auto].
Qed.
Lemma dget_none {V} (d : dict V) k : dget d k = None <-> ~ In k (map fst d).
Proof. induction d as [|[a x] d IH]; cbn [dget map fst In]; [tauto|]. destruct (String.eqb_spec k a) as [->|M]; [split; [discriminate|tauto]|]. rewrite IH. intuition congruence. Qed.
Lemma dget_update {V} (e : dict V) : forall d k, is_dict e -> dget (dupdate d e) k = match dget e k with Some v => Some v | None => dget d k end.
Proof.
  unfold dupdate, is_dict. induction e as [|[a x] e IH]; cbn [fold_left map fst snd dget]; intros d k D; [reflexivity|]. inversion D as [|? ? N D']; subst. rewrite IH by auto. rewrite dget_dset.
  destruct (String.eqb_spec k a) as [->|M]; [|reflexivity]. rewrite (proj2 (dget_none e a)) by auto. reflexivity.
Qed.
Lemma keys_some {V} (d : dict V) k : In k (map fst d) <-> exists v, dget d k = Some v.
Proof. destruct (dget d k) as [v|] eqn:E; [|apply dget_none in E; split; [contradiction|intros (v & Q); discriminate]].
  split; [eauto|]. intros _. destruct (in_dec string_dec k (map fst d)) as [I|N]; [auto|]. apply dget_none in N. congruence. Qed.
Lemma box_act_spec a : act_box a (box_act a) /\ b_shape (box_act a) = act_shape a /\ forall b, act_box a b -> b = box_act a.
Proof. destruct a as [b|n]; cbn; [auto|]. split; [auto|]. split; [auto|]. intros [s u]. cbn. intros [-> ->]. reflexivity. Qed.

(* the tables of constants are the documented ones *)
Definition table_ok (for_string : bool) o a (d : dict value) : Prop := is_dict d /\ forall k v, In (k, v) d <-> documented for_string o a k v.
Ltac table := split;
  [ unfold is_dict; cbn [map fst]; repeat (constructor; [intros Q; repeat (destruct Q as [Q|Q]; [discriminate Q|]); destruct Q|]); constructor
  | intros k v; split;
    [ intros Q; repeat (destruct Q as [Q|Q]; [injection Q as <- <-; econstructor; eauto|]); destruct Q
    | let H := fresh in intros H; destruct H; try discriminate; cbn [In]; repeat match goal with H : ?x = _ :: _, G : ?x = _ :: _ |- _ => rewrite H in G; injection G as -> -> end;
      repeat match goal with H : act_box _ ?b |- _ => apply box_act_spec in H; subst b end; tauto ] ].
Lemma gym_table o a n r m q : b_shape o = n :: r -> act_shape a = m :: q -> exists d, gym_constants o a = Ok d /\ table_ok false o a d.
Proof.
  intros O A. destruct (box_act_spec a) as (Ba & Sa & _). unfold gym_constants. rewrite O. cbn [first_dim bind].
  assert (E : match a with ADiscrete n => Ok n | ABox b => first_dim TypeError (b_shape b) end = Ok m).
  { destruct a; cbn in *; [rewrite A; reflexivity|congruence]. }
  rewrite E. cbn [bind]. rewrite Sa, <- O. eexists. split; [reflexivity|]. table.
Qed.
Lemma vec_table_c o a n r m q : b_shape o = n :: r -> act_shape a = m :: q -> exists d, vec_callable_constants o a = Ok d /\ table_ok false o a d.
Proof.
  intros O A. destruct (box_act_spec a) as (Ba & Sa & _). unfold vec_callable_constants. rewrite Sa, O, A. cbn [first_dim bind]. rewrite <- O, <- A. eexists. split; [reflexivity|]. table.
Qed.
Lemma vec_table_s o a n r m q : b_shape o = n :: r -> act_shape a = m :: q -> exists d, vec_str_constants o a = Ok d /\ table_ok true o a d.
Proof.
  intros O A. destruct (box_act_spec a) as (Ba & Sa & _). unfold vec_str_constants. rewrite Sa, O, A. cbn [first_dim bind]. rewrite <- O, <- A. eexists. split; [reflexivity|]. table.
Qed.
Lemma by_keyword_spec p : by_keyword p = true <-> p_kind p <> PositionalOnly.
Proof. unfold by_keyword. destruct (p_kind p); split; congruence. Qed.
Lemma takes_spec s k : takes s k = true <-> s_var_keyword s = true \/ exists p, In p (s_params s) /\ p_name p = k /\ p_kind p <> PositionalOnly.
Proof.
  unfold takes. rewrite orb_true_iff, existsb_exists. split.
  - intros [(p & I & Q)|Q]; [right|auto]. apply andb_true_iff in Q. destruct Q as [Q B]. apply String.eqb_eq in Q. exists p. split; [auto|]. split; [auto|]. apply by_keyword_spec. auto.
  - intros [Q|(p & I & <- & K)]; [auto|]. left. exists p. split; [auto|]. rewrite String.eqb_refl. apply by_keyword_spec in K. rewrite K. reflexivity.
Qed.
Lemma call_spec {V} s (kw : dict V) : (callable_with s (fun k => In k (map fst kw)) -> call s kw = Ok kw) /\ (~ callable_with s (fun k => In k (map fst kw)) -> call s kw = Err TypeError).
Proof.
  unfold call. assert (E : forallb (fun kv => takes s (fst kv)) kw && forallb (fun p => p_default p || (by_keyword p && match dget kw (p_name p) with Some _ => true | None => false end)) (s_params s) = true
    <-> callable_with s (fun k => In k (map fst kw))).
  { rewrite andb_true_iff, !forallb_forall. unfold callable_with. split; intros [A B]; split.
    - intros k I. apply in_map_iff in I. destruct I as (kv & <- & I). apply takes_spec. auto.
    - intros p I. specialize (B p I). apply orb_true_iff in B. destruct B as [B|B]; [auto|right]. apply andb_true_iff in B. destruct B as [B C].
      split; [apply by_keyword_spec; auto|]. apply keys_some. destruct (dget kw (p_name p)); [eauto|discriminate].
    - intros kv I. apply takes_spec, A. apply in_map. auto.
    - intros p I. destruct (B p I) as [Q|[K Q]]; [rewrite Q; reflexivity|]. apply keys_some in Q. destruct Q as (v & ->). apply by_keyword_spec in K. rewrite K. apply orb_true_r. }
  destruct (_ && _); split; intros H; try reflexivity; [exfalso; apply H, E; reflexivity|apply E in H; discriminate].
Qed.
Lemma callable_ext s (P Q : string -> Prop) : (forall k, P k <-> Q k) -> callable_with s P <-> callable_with s Q.
Proof. intros E. unfold callable_with. split; intros [A B]; (split; [intros k H; apply A, E, H|intros p I; destruct (B p I) as [?|[? ?]]; [auto|right; split; [auto|apply E; auto]]]). Qed.
Lemma instantiate_spec decorated s o a info args : table_ok false o a info -> is_dict args ->
  let keys k := exists v, given false o a decorated args k v in
  (callable_with s keys -> exists received, instantiate_callable decorated s info args = Ok received /\ is_dict received /\ forall k v, In (k, v) received <-> given false o a decorated args k v) /\
  (~ callable_with s keys -> instantiate_callable decorated s info args = Err TypeError).
Proof.
  intros [Di Ti] Da keys. set (stored := if decorated then info else []).
  assert (Ds : is_dict stored) by (unfold stored; destruct decorated; [auto|constructor]).
  assert (Du : is_dict (dupdate stored args)) by (apply dict_update; auto).
  assert (G : forall k v, In (k, v) (dupdate stored args) <-> given false o a decorated args k v).
  { intros k v. rewrite <- dget_in, dget_update by auto. unfold given. destruct (dget args k) as [u|] eqn:E.
    - rewrite <- (dget_in args), E by auto. split; [auto|]. intros [Q|[Q _]]; [auto|]. apply dget_none in Q. congruence.
    - rewrite <- (dget_in args), E by auto. apply dget_none in E. rewrite dget_in by auto. unfold stored. destruct decorated.
      + rewrite Ti. split; [auto|]. intros [Q|(_ & _ & Q)]; [discriminate|auto].
      + split; [intros []|]. intros [Q|(_ & Q & _)]; discriminate. }
  assert (K : forall k, keys k <-> In k (map fst (dupdate stored args))).
  { intros k. unfold keys. rewrite keys_some. split; intros (v & Q); exists v; [apply dget_in; auto; apply G; auto|apply G, dget_in; auto]. }
  assert (C := callable_ext s _ _ K). destruct (call_spec s (dupdate stored args)) as [C1 C2].
  unfold instantiate_callable, pass_info_if_needed. split; intros H.
  - apply C in H. exists (dupdate stored args). split; [|auto].
    destruct decorated; [|exact (C1 H)].
    assert (B : (if s_inspectable s then bind_partial s info else Ok tt) = Ok tt).
    { destruct (s_inspectable s); [|reflexivity]. unfold bind_partial. assert (F : forallb (fun kv => takes s (fst kv)) info = true).
      { apply forallb_forall. intros kv I. apply takes_spec. apply (proj1 H). apply keys_some. rewrite dget_update by auto. destruct (dget args (fst kv)); [eauto|]. cbn [stored]. apply keys_some, in_map. auto. }
      rewrite F. reflexivity. }
    rewrite B. cbn [bind]. exact (C1 H).
  - assert (H' : ~ callable_with s (fun k => In k (map fst (dupdate stored args)))) by (rewrite <- C; auto).
    destruct decorated; [|exact (C2 H')]. destruct (s_inspectable s); [|exact (C2 H')]. unfold bind_partial. destruct (forallb _ info); [exact (C2 H')|reflexivity].
Qed.

(* ------------------------------------------------------------------------------- C186 *)
Theorem C186_callable : forall decorated s o a args n r m q, b_shape o = n :: r -> act_shape a = m :: q -> is_dict args ->
  let keys k := exists v, given false o a decorated args k v in
  (callable_with s keys ->
     (exists received, gym_callable decorated s o a args = Ok received /\ is_dict received /\ forall k v, In (k, v) received <-> given false o a decorated args k v) /\
     (exists received, vec_callable decorated s o a args = Ok received /\ is_dict received /\ forall k v, In (k, v) received <-> given false o a decorated args k v)) /\
  (~ callable_with s keys -> gym_callable decorated s o a args = Err TypeError /\ vec_callable decorated s o a args = Err TypeError).
Proof.
  intros dec s o a args n r m q O A D keys. destruct (gym_table o a n r m q O A) as (g & Eg & Tg). destruct (vec_table_c o a n r m q O A) as (v & Ev & Tv).
  destruct (instantiate_spec dec s o a g args Tg D) as [G1 G2]. destruct (instantiate_spec dec s o a v args Tv D) as [V1 V2].
  unfold gym_callable, vec_callable. rewrite Eg, Ev. cbn [bind]. split; intros H; split; auto.
Qed.
Print Assumptions C186_callable.
Example C186_example :
  let o := mkBox [4] (Some 1) in let a := ADiscrete 2 in
  let s := mkS [mkP "obs_length" PositionalOrKeyword false; mkP "hidden" KeywordOnly true] true true in
  let t := mkS [mkP "obs_length" PositionalOrKeyword false] false true in
  (exists d, gym_callable true s o a [("hidden", VUser 7)] = Ok d /\ dget d "hidden" = Some (VUser 7) /\ dget d "act_length" = Some (VLength 2) /\ dget d "act_space" = Some (VSpace (mkBox [2] None))) /\
  gym_callable false s o a [("hidden", VUser 7)] = Err TypeError /\ vec_callable true t o a [] = Err TypeError /\
  vec_callable false t o a [("obs_length", VUser 3)] = Ok [("obs_length", VUser 3)].
Proof. cbn zeta. split; [eexists; split; [reflexivity|]; split; [reflexivity|]; split; reflexivity|]. repeat split; reflexivity. Qed.

(* ------------------------------------------------------------------------------- C187 *)
Theorem C187_vec_strings : forall o a args n r m q, b_shape o = n :: r -> act_shape a = m :: q -> is_dict args ->
  exists d, vec_str_names o a args = Ok d /\ is_dict d /\ forall k v, In (k, v) d <-> given true o a true args k v.
Proof.
  intros o a args n r m q O A D. destruct (vec_table_s o a n r m q O A) as (t & Et & Dt & Tt). unfold vec_str_names. rewrite Et. cbn [rmap bind]. eexists. split; [reflexivity|].
  assert (D0 : is_dict (dupdate [] t)) by (apply dict_update; constructor). split; [apply dict_update; auto|]. intros k v.
  rewrite <- dget_in, dget_update by (auto; apply dict_update; auto). rewrite dget_update by auto. unfold given. rewrite <- (dget_in args) by auto. destruct (dget args k) as [u|] eqn:E.
  - split; [auto|]. intros [Q|[Q _]]; [auto|]. apply dget_none in Q. congruence.
  - apply dget_none in E. cbn [dget]. rewrite <- Tt, <- (dget_in t) by auto. destruct (dget t k); split; try discriminate; auto; intros [Q|(_ & _ & Q)]; congruence.
Qed.
Lemma gym_str_get o a args n r m q : b_shape o = n :: r -> act_shape a = m :: q -> is_dict args ->
  exists d c, gym_str_names o a args = Ok d /\ is_dict d /\ table_ok false o a c /\
    forall k, dget d k = match dget (gym_str_constants o a) k with Some v => Some v | None => match dget args k with Some v => Some v | None => dget c k end end.
Proof.
  intros O A D. destruct (gym_table o a n r m q O A) as (c & Ec & Dc & Tc). unfold gym_str_names. rewrite Ec. cbn [rmap bind]. do 2 eexists. split; [reflexivity|].
  assert (D0 : is_dict (dupdate [] c)) by (apply dict_update; constructor). assert (D1 : is_dict (dupdate (dupdate [] c) args)) by (apply dict_update; auto).
  split; [apply dict_update, dict_update; constructor|]. split; [split; [exact Dc|exact Tc]|]. intros k.
  assert (Ds : is_dict (gym_str_constants o a)) by (unfold is_dict; cbn; repeat constructor; cbn; intuition discriminate).
  rewrite !dget_update by auto. destruct (dget (gym_str_constants o a) k); [reflexivity|]. destruct (dget args k); [reflexivity|]. destruct (dget c k); reflexivity.
Qed.
Theorem C187_gym_strings_partial : forall o a args n r m q, b_shape o = n :: r -> act_shape a = m :: q -> is_dict args ->
  ~ In "obs_space" (map fst args) -> ~ In "act_space" (map fst args) ->
  exists d, gym_str_names o a args = Ok d /\ is_dict d /\ forall k v, In (k, v) d <-> given true o a true args k v.
Proof.
  intros o a args n r m q O A D No Na. destruct (gym_str_get o a args n r m q O A D) as (d & c & E & Dd & [Dc Tc] & G). exists d. split; [auto|]. split; [auto|]. intros k v.
  assert (Sa : b_shape (box_act a) = act_shape a) by apply box_act_spec.
  rewrite <- dget_in, G by auto. unfold given, gym_str_constants. cbn [dget].
  destruct (String.eqb_spec k "obs_space") as [->|N1]; [|destruct (String.eqb_spec k "act_space") as [->|N2]].
  - split; [intros Q; injection Q as <-; right; repeat split; auto; constructor; auto|]. intros [Q|(_ & _ & Q)]; [apply (in_map fst) in Q; contradiction|]. inversion Q; subst; try discriminate; reflexivity.
  - rewrite Sa. split; [intros Q; injection Q as <-; right; repeat split; auto; constructor; auto|]. intros [Q|(_ & _ & Q)]; [apply (in_map fst) in Q; contradiction|]. inversion Q; subst; try discriminate; reflexivity.
  - rewrite <- (dget_in args) by auto. assert (Sw : documented false o a k v <-> documented true o a k v).
    { split; intros H; destruct H; try discriminate; try congruence; econstructor; eauto. }
    destruct (dget args k) as [u|] eqn:Ea.
    + split; [auto|]. intros [Q|[Q _]]; [auto|]. apply dget_none in Q. congruence.
    + apply dget_none in Ea. rewrite dget_in, Tc, Sw by auto. split; [auto|]. intros [Q|(_ & _ & Q)]; [discriminate|auto].
Qed.
(* GymNE: a value of the user for obs_space or act_space is replaced *)
Theorem C187_gym_override_refuted : forall o a args n r m q, b_shape o = n :: r -> act_shape a = m :: q -> is_dict args ->
  exists d, gym_str_names o a args = Ok d /\ dget d "obs_space" = Some (VShape (b_shape o)) /\ dget d "act_space" = Some (VShape (act_shape a)).
Proof.
  intros o a args n r m q O A D. destruct (gym_str_get o a args n r m q O A D) as (d & c & E & _ & _ & G). exists d. split; [auto|]. rewrite !G. split; [reflexivity|].
  replace (act_shape a) with (b_shape (box_act a)) by apply box_act_spec. reflexivity.
Qed.
Print Assumptions C187_vec_strings.
Print Assumptions C187_gym_strings_partial.
Print Assumptions C187_gym_override_refuted.
Example C187_example :
  let o := mkBox [4] (Some 1) in let a := ADiscrete 2 in let args := [("obs_space", VUser 1); ("h", VUser 2)] in
  is_dict args /\ (exists d, vec_str_names o a args = Ok d /\ dget d "obs_space" = Some (VUser 1) /\ dget d "h" = Some (VUser 2) /\ dget d "act_length" = Some (VLength 2)) /\
  (exists d, gym_str_names o a args = Ok d /\ dget d "obs_space" = Some (VShape [4]) /\ dget d "h" = Some (VUser 2)).
Proof.
  cbn zeta. split; [unfold is_dict; cbn; repeat constructor; cbn; intuition discriminate|]. split; (eexists; split; [reflexivity|]; repeat split; reflexivity).
Qed.

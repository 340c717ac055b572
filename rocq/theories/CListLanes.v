(* Batch items of a CList are independent. *)
From Verif Require Import Prelude StructModel StructSpec CListProofs.
Open Scope Z_scope.

Lemma sequence_nth {A} : forall (l : list (result A)) r i, sequence l = Ok r ->
  nth_error l i = option_map Ok (nth_error r i).
Proof.
  induction l as [|[a|e] l IH]; intros r i H; simpl in H; try discriminate.
  - injection H as <-. destruct i; reflexivity.
  - destruct (sequence l) as [r'|]; [|discriminate]. injection H as <-. destruct i; simpl; auto.
Qed.
Lemma sequence_len {A} : forall (l : list (result A)) r, sequence l = Ok r -> length r = length l.
Proof.
  induction l as [|[a|e] l IH]; intros r H; simpl in H; try discriminate.
  - injection H as <-. reflexivity.
  - destruct (sequence l) as [r'|]; [|discriminate]. injection H as <-. simpl; auto.
Qed.
Lemma map3_nth_error {A B C D} (f : A -> B -> C -> D) : forall xs ys zs i,
  nth_error (map3 f xs ys zs) i =
  match nth_error xs i, nth_error ys i, nth_error zs i with Some x, Some y, Some z => Some (f x y z) | _, _, _ => None end.
Proof.
  induction xs as [|x xs IH]; intros [|y ys] [|z zs] [|i]; simpl; auto;
  repeat match goal with |- context [nth_error ?a ?b] => destruct (nth_error a b) end; auto.
Qed.
Lemma forallb_nth {A} (f : A -> bool) l i a : forallb f l = true -> nth_error l i = Some a -> f a = true.
Proof. intros H E. rewrite forallb_forall in H. apply H. eapply nth_error_In; eauto. Qed.
Lemma existsb_nth {A} (f : A -> bool) l i a : existsb f l = false -> nth_error l i = Some a -> f a = false.
Proof.
  intros H E. destruct (f a) eqn:F; auto. rewrite <- H. symmetry. apply existsb_exists. exists a; split; auto.
  eapply nth_error_In; eauto.
Qed.

Lemma expand_lane {A} e n (b : barg A) vs i : (i < n)%nat -> expand e n b = Ok vs ->
  exists v, nth_error vs i = Some v /\ expand e 1 (lane_arg i b) = Ok [v].
Proof.
  intros Hi. destruct b as [a|l]; simpl; intros H.
  - injection H as <-. exists a. split; auto. apply nth_error_repeat; auto.
  - destruct (Nat.eqb_spec (length l) n); [|discriminate]. injection H as <-.
    destruct (nth_error l i) as [v|] eqn:E; [|apply nth_error_None in E; lia]. exists v; auto.
Qed.
Lemma where_lane n w w' i : (i < n)%nat -> get_where n w = Ok w' -> w' = w /\
  get_where 1 (lane_mask i w) = Ok (lane_mask i w) /\
  exists m, nth_error (masks n w) i = Some m /\ masks 1 (lane_mask i w) = [m].
Proof.
  intros Hi. destruct w as [l|]; simpl; intros H.
  - destruct (Nat.eqb_spec (length l) n); [|discriminate]. injection H as <-.
    destruct (nth_error l i) as [b|] eqn:E; [|apply nth_error_None in E; lia]. split; auto. split; auto.
    exists (Some b). rewrite nth_error_map, E. auto.
  - injection H as <-. split; auto. split; auto. exists None. split; auto. apply nth_error_repeat; auto.
Qed.

Section Lanes.
Context {V : Type} (D : dops V).
Variable M : nat.
Variable verify : bool.
Variable fallback : V.

Lemma ukeys_lane (ls : list (lane V)) key vf w us vl i l :
  get_ukeys M verify ls key vf w = Ok (us, vl) -> nth_error ls i = Some l ->
  exists u v, nth_error us i = Some u /\ nth_error vl i = Some v /\
  get_ukeys M verify [l] (lane_arg i key) vf (lane_mask i w) = Ok ([u], [v]).
Proof.
  intros H Hl. assert (Hi : (i < length ls)%nat) by (apply nth_error_Some; congruence).
  unfold get_ukeys in *. destruct (get_where (length ls) w) as [w'|] eqn:Ew; [|discriminate].
  destruct (where_lane _ _ _ i Hi Ew) as (-> & Ew1 & m & Em & Em1). simpl length. rewrite Ew1.
  cbn [bind] in *. destruct (expand ValueError (length ls) key) as [ks|] eqn:Ek; [|discriminate].
  destruct (expand_lane _ _ _ _ i Hi Ek) as (k & Ek1 & Ek2). rewrite Ek2. cbn [bind] in *.
  destruct (vf && negb (forallb (fun b => b) (map2 (fun v wi => v || negb (sel wi)) (map2 (ukey_valid M) ls (map2 (ukey M verify) ls ks)) (masks (length ls) w)))) eqn:Ec; [discriminate|].
  injection H as <- <-. rewrite Em1.
  exists (ukey M verify l k), (ukey_valid M l (ukey M verify l k)).
  rewrite !map2_nth_error, Hl, Ek1. split; auto. split; auto. cbn.
  destruct vf; cbn in *; auto. rewrite negb_false_iff in Ec.
  apply forallb_nth with (i := i) (a := ukey_valid M l (ukey M verify l k) || negb (sel m)) in Ec.
  - rewrite Ec. reflexivity.
  - rewrite map2_nth_error, Em, !map2_nth_error, Hl, Ek1. reflexivity.
Qed.

Lemma apply_lane mt ls key value w ls' i l :
  cl_apply D M verify mt ls key value w = (ls', Ok tt) -> nth_error ls i = Some l ->
  exists l', nth_error ls' i = Some l' /\
    cl_apply D M verify mt [l] (lane_arg i key) (lane_arg i value) (lane_mask i w) = ([l'], Ok tt).
Proof.
  intros H Hl. assert (Hi : (i < length ls)%nat) by (apply nth_error_Some; congruence).
  unfold cl_apply in *. destruct (get_ukeys M verify ls key verify w) as [[us vl]|] eqn:Eu; [|discriminate].
  destruct (ukeys_lane _ _ _ _ _ _ _ _ Eu Hl) as (u & v & Eu1 & Ev1 & Eu2). rewrite Eu2.
  cbn [bind] in *. destruct (get_where (length ls) w) as [w'|] eqn:Ew; [|discriminate].
  destruct (where_lane _ _ _ i Hi Ew) as (-> & Ew1 & m & Em & Em1). simpl length. rewrite Ew1.
  cbn [bind] in *. destruct (expand RuntimeError (length ls) value) as [vs|] eqn:Ek; [|discriminate].
  destruct (expand_lane _ _ _ _ i Hi Ek) as (x & Ek1 & Ek2). rewrite Ek2. cbn [bind fst] in *. rewrite Em1.
  match type of H with context [sequence ?s] => destruct (sequence s) as [r|] eqn:Es; [|discriminate] end.
  injection H as <-. apply sequence_nth with (i := i) in Es.
  rewrite map3_nth_error, Hl, Eu1, map2_nth_error, Em, Ek1 in Es. cbn.
  destruct (nth_error r i) as [l'|]; [|discriminate]. cbn in Es. injection Es as Es. exists l'; split; auto.
  rewrite Es. reflexivity.
Qed.

Lemma move_lane rej mv (ls : list (lane V)) w ls' i l :
  mask_shaped (length ls) w = true ->
  move verify rej mv ls w = (ls', Ok tt) -> nth_error ls i = Some l ->
  exists m, masks 1 (lane_mask i w) = [m] /\ nth_error (masks (length ls) w) i = Some m /\ nth_error ls' i = Some (mv l m) /\
    move verify rej mv [l] (lane_mask i w) = ([mv l m], Ok tt).
Proof.
  intros Hw H Hl. assert (Hi : (i < length ls)%nat) by (apply nth_error_Some; congruence).
  assert (Ew : get_where (length ls) w = Ok w) by (destruct w as [wl|]; simpl in *; [rewrite Hw|]; auto).
  destruct (where_lane _ _ _ i Hi Ew) as (_ & _ & m & Em & Em1).
  exists m. split; auto. split; auto. unfold move in *. simpl length. rewrite Em1.
  destruct (verify && existsb (fun b => b) (map2 rej ls (masks (length ls) w))) eqn:Ec; [discriminate|].
  injection H as <-. rewrite map2_nth_error, Hl, Em. split; auto. cbn.
  destruct verify; cbn in *; auto.
  apply existsb_nth with (i := i) (a := rej l m) in Ec.
  - rewrite Ec. reflexivity.
  - rewrite map2_nth_error, Hl, Em. auto.
Qed.

Lemma get_where_shaped n w w' : get_where n w = Ok w' -> w' = w /\ mask_shaped n w = true.
Proof. destruct w as [l|]; simpl. - destruct (Nat.eqb (length l) n); intros; [injection H as <-; auto|discriminate]. - intros; injection H as <-; auto. Qed.

Lemma push_lane rej mv pos ls v w ls' out i l :
  cl_push D M verify rej mv pos ls v w = (ls', Ok out) -> nth_error ls i = Some l ->
  exists l', nth_error ls' i = Some l' /\
    cl_push D M verify rej mv pos [l] (lane_arg i v) (lane_mask i w) = ([l'], Ok (lane_out i out)).
Proof.
  intros H Hl. assert (Hi : (i < length ls)%nat) by (apply nth_error_Some; congruence).
  unfold cl_push in *. destruct (get_where (length ls) w) as [w'|] eqn:Ew; [|discriminate].
  destruct (get_where_shaped _ _ _ Ew) as [-> Hsh].
  destruct (where_lane _ _ _ i Hi Ew) as (_ & Ew1 & _). simpl length. rewrite Ew1.
  destruct (move verify rej mv ls w) as [ls1 [[]|]] eqn:Em; [|discriminate].
  destruct (move_lane _ _ _ _ _ _ _ Hsh Em Hl) as (m & _ & _ & Hl1 & ->).
  destruct (cl_apply D M verify MSet ls1 (Sc pos) v w) as [ls2 [[]|]] eqn:Ea; [|discriminate].
  injection H as <- <-.
  destruct (apply_lane _ _ _ _ _ _ _ _ Ea Hl1) as (l' & Hl' & Ha). cbn [lane_arg] in Ha.
  exists l'; split; auto. rewrite Ha. reflexivity.
Qed.

Lemma getd_lane (ls : list (lane V)) key d vs i l :
  cl_get M verify ls key (Some d) = Ok vs -> nth_error ls i = Some l ->
  exists v, nth_error vs i = Some v /\ cl_get M verify [l] (lane_arg i key) (Some (lane_arg i d)) = Ok [v].
Proof.
  intros H Hl. assert (Hi : (i < length ls)%nat) by (apply nth_error_Some; congruence).
  unfold cl_get in *. destruct (expand RuntimeError (length ls) d) as [ds|] eqn:Ek; [|discriminate].
  destruct (expand_lane _ _ _ _ i Hi Ek) as (x & Ek1 & Ek2). simpl length. rewrite Ek2. cbn [bind] in *.
  destruct (get_ukeys M verify ls key false None) as [[us vl]|] eqn:Eu; [|discriminate].
  destruct (ukeys_lane _ _ _ _ _ _ _ _ Eu Hl) as (u & b & Eu1 & Ev1 & Eu2). cbn [lane_mask] in Eu2. rewrite Eu2. cbn [bind fst snd] in *.
  match type of H with context [sequence ?s] => destruct (sequence s) as [r|] eqn:Es; [|discriminate] end.
  injection H as <-. apply sequence_nth with (i := i) in Es. rewrite map2_nth_error, Hl, Eu1 in Es.
  destruct (nth_error r i) as [y|] eqn:Er; [|discriminate]. cbn in Es. injection Es as Es.
  exists (if b then y else x). rewrite map3_nth_error, Ev1, Er, Ek1. split; auto. cbn. rewrite Es. reflexivity.
Qed.

Lemma pop_lane rej mv pos (ls : list (lane V)) w ls' out i l :
  cl_pop M verify fallback rej mv pos ls w = (ls', Ok out) -> nth_error ls i = Some l ->
  exists l', nth_error ls' i = Some l' /\
    cl_pop M verify fallback rej mv pos [l] (lane_mask i w) = ([l'], Ok (lane_out i out)).
Proof.
  intros H Hl. assert (Hi : (i < length ls)%nat) by (apply nth_error_Some; congruence).
  unfold cl_pop in *. destruct (get_where (length ls) w) as [w'|] eqn:Ew; [|discriminate].
  destruct (get_where_shaped _ _ _ Ew) as [-> Hsh].
  destruct (where_lane _ _ _ i Hi Ew) as (_ & Ew1 & _). simpl length. rewrite Ew1.
  destruct (cl_get M verify ls (Sc pos) (Some (Sc fallback))) as [vs|] eqn:Eg; [|discriminate].
  destruct (getd_lane _ _ _ _ _ _ Eg Hl) as (v & Hv & Eg1). cbn [lane_arg] in Eg1. rewrite Eg1.
  destruct (move verify rej mv ls w) as [ls1 [[]|]] eqn:Em; [|discriminate].
  destruct (move_lane _ _ _ _ _ _ _ Hsh Em Hl) as (m & _ & _ & Hl1 & ->).
  injection H as <- <-. exists (mv l m). split; auto. cbn. rewrite Hv. reflexivity.
Qed.

Theorem step_lane ls o ls' out i l :
  cl_step D M verify fallback ls o = (ls', Ok out) -> nth_error ls i = Some l ->
  exists l', nth_error ls' i = Some l' /\
    cl_step D M verify fallback [l] (lane_op i o) = ([l'], Ok (lane_out i out)).
Proof.
  intros H Hl. assert (Hi : (i < length ls)%nat) by (apply nth_error_Some; congruence).
  destruct o as [v w|v w|w|w|mt k v w|k d| |w]; cbn [cl_step lane_op] in *.
  - eapply push_lane; eauto.
  - eapply push_lane; eauto.
  - eapply pop_lane; eauto.
  - eapply pop_lane; eauto.
  - destruct (cl_apply D M verify mt ls k v w) as [ls2 [[]|]] eqn:Ea; [|discriminate]. injection H as <- <-.
    destruct (apply_lane _ _ _ _ _ _ _ _ Ea Hl) as (l' & Hl' & Ha). exists l'. rewrite Ha. auto.
  - destruct d as [d|]; cbn [option_map].
    + destruct (cl_get M verify ls k (Some d)) as [vs|] eqn:Eg; [|discriminate]. injection H as <- <-.
      destruct (getd_lane _ _ _ _ _ _ Eg Hl) as (v & Hv & Eg1). exists l. split; auto. rewrite Eg1. cbn. rewrite Hv. auto.
    + destruct (cl_get M verify ls k None) as [vs|] eqn:Eg; [|discriminate]. injection H as <- <-.
      exists l. split; auto. unfold cl_get in *.
      destruct (get_ukeys M verify ls k verify None) as [[us vl]|] eqn:Eu; [|discriminate].
      destruct (ukeys_lane _ _ _ _ _ _ _ _ Eu Hl) as (u & b & Eu1 & Ev1 & Eu2). cbn [lane_mask] in Eu2. rewrite Eu2.
      cbn [bind fst] in *. apply sequence_nth with (i := i) in Eg. rewrite map2_nth_error, Hl, Eu1 in Eg.
      destruct (nth_error vs i) as [y|] eqn:Er; [|discriminate]. cbn in *. injection Eg as Eg. rewrite Eg, Er. reflexivity.
  - injection H as <- <-. exists l. split; auto. cbn. rewrite nth_error_map, Hl. reflexivity.
  - destruct w as [w|]; cbn [lane_mask].
    + destruct (get_where (length ls) (Some w)); discriminate.
    + injection H as <- <-. rewrite nth_error_map, Hl. eexists; split; reflexivity.
Qed.

(* one lane, masked out: nothing moves *)
Lemma masked_lane (laws : unit_laws D) ls o ls' out i l w :
  cl_step D M verify fallback ls o = (ls', Ok out) -> nth_error ls i = Some l ->
  op_mask o = Some w -> nth_error w i = Some false -> nth_error ls' i = Some l.
Proof.
  intros H Hl Ho Hw. destruct (step_lane _ _ _ _ _ _ H Hl) as (l' & Hl' & H1). rewrite Hl'. f_equal.
  assert (Hid : forall mt a v b', lane_modify (lbuf l) a (fun old => meth_cell D mt (Some false) old v) = Ok b' -> b' = lbuf l).
  { intros mt a v b' E. unfold lane_modify in E. destruct (tidx (length (lbuf l)) a) as [j|]; [|discriminate].
    destruct (nth_error (lbuf l) j) as [x|] eqn:Ex; [|discriminate]. injection E as <-.
    rewrite (meth_cell_unsel D laws). apply nth_error_ext. intros j'. rewrite nth_error_upd.
    destruct (Nat.eqb_spec j j') as [->|]; auto. rewrite Ex. destruct (Nat.ltb_spec j' (length (lbuf l))); auto.
    apply nth_error_None in H0. congruence. }
  assert (Happ : forall mt k v l2, cl_apply D M verify mt [l] k v (Some [false]) = ([l2], Ok tt) -> l2 = l).
  { intros mt k v l2. unfold cl_apply. destruct (get_ukeys M verify [l] k verify (Some [false])) as [[us vl]|]; [|discriminate].
    cbn [bind]. cbn [get_where length Nat.eqb]. cbn [bind].
    destruct (expand RuntimeError 1 v) as [vs|]; [|discriminate]. cbn [bind fst masks map].
    destruct us as [|u us]; [cbn; discriminate|]. destruct vs as [|v0 vs]; [cbn; discriminate|]. cbn [map2 map3 sequence].
    destruct (lane_modify (lbuf l) u _) as [b'|] eqn:E; [|discriminate]. cbn.
    apply Hid in E. destruct us, vs; cbn; intros X; injection X as <-; rewrite E; destruct l; reflexivity. }
  destruct o as [v w0|v w0|w0|w0|mt k v w0|k d| |w0]; cbn [op_mask] in Ho; try discriminate; subst w0;
    cbn [cl_step lane_op lane_mask] in H1; rewrite ?Hw in H1.
  - unfold cl_push in H1. cbn [get_where length Nat.eqb] in H1. unfold move in H1. cbn [length masks map map2] in H1.
    rewrite mef_false in H1. destruct (verify && _); [discriminate|].
    destruct (cl_apply D M verify MSet [l] _ _ _) as [ls2 [[]|]] eqn:Ea; [|discriminate]. cbn in H1. injection H1 as -> _. eapply Happ; eauto.
  - unfold cl_push in H1. cbn [get_where length Nat.eqb] in H1. unfold move in H1. cbn [length masks map map2] in H1.
    rewrite mbb_false in H1. destruct (verify && _); [discriminate|].
    destruct (cl_apply D M verify MSet [l] _ _ _) as [ls2 [[]|]] eqn:Ea; [|discriminate]. cbn in H1. injection H1 as -> _. eapply Happ; eauto.
  - unfold cl_pop in H1. cbn [get_where length Nat.eqb] in H1. unfold move in H1. cbn [length masks map map2] in H1.
    rewrite meb_false in H1. destruct (cl_get M verify [l] _ _); [|discriminate]. destruct (verify && _); [discriminate|].
    cbn in H1. congruence.
  - unfold cl_pop in H1. cbn [get_where length Nat.eqb] in H1. unfold move in H1. cbn [length masks map map2] in H1.
    rewrite mbf_false in H1. destruct (cl_get M verify [l] _ _); [|discriminate]. destruct (verify && _); [discriminate|].
    cbn in H1. congruence.
  - destruct (cl_apply D M verify mt [l] _ _ _) as [ls2 [[]|]] eqn:Ea; [|discriminate]. cbn in H1. injection H1 as -> _. eapply Happ; eauto.
  - cbn in H1. discriminate.
Qed.
End Lanes.

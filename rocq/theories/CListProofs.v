(* Refinement of the CList model to batches of bounded queues. *)
From Verif Require Import Prelude StructModel StructSpec.
Open Scope Z_scope.

Lemma mod_case (m x : Z) : 0 < m -> - m <= x < 2 * m ->
  x mod m = if x <? 0 then x + m else if x <? m then x else x - m.
Proof.
  intros Hm Hx.
  destruct (Z.ltb_spec x 0); [|destruct (Z.ltb_spec x m)].
  - symmetry; apply (Zmod_unique x m (-1)); lia.
  - apply Z.mod_small; lia.
  - symmetry; apply (Zmod_unique x m 1); lia.
Qed.

Lemma tidx_in K a : 0 <= a < Z.of_nat K -> tidx K a = Some (Z.to_nat a).
Proof. intros. unfold tidx. replace ((0 <=? a) && (a <? Z.of_nat K)) with true by lia. reflexivity. Qed.

Lemma len0 {A} (q : list A) : q = [] <-> length q = 0%nat.
Proof. destruct q; simpl; split; intros; try discriminate; auto. Qed.

Lemma app_single_nth {A} (q : list A) x i :
  nth_error (q ++ [x]) i = if Nat.ltb i (length q) then nth_error q i else if Nat.eqb i (length q) then Some x else None.
Proof.
  destruct (Nat.ltb_spec i (length q)).
  - apply nth_error_app1; auto.
  - rewrite nth_error_app2 by auto. destruct (Nat.eqb_spec i (length q)).
    + subst; rewrite Nat.sub_diag; reflexivity.
    + destruct (i - length q)%nat eqn:E; [lia|]. destruct n0; reflexivity.
Qed.

Lemma removelast_length {A} (q : list A) : length (removelast q) = (length q - 1)%nat.
Proof. induction q as [|a [|b q] IH]; simpl in *; auto; rewrite IH; lia. Qed.
Lemma removelast_nth {A} (q : list A) i : (i < length q - 1)%nat -> nth_error (removelast q) i = nth_error q i.
Proof.
  revert i; induction q as [|a [|b q] IH]; intros [|i] Hi; simpl in *; auto; try lia.
  apply IH; simpl; lia.
Qed.

Section CListProofs.
Context {V : Type} (D : dops V).
Variable M : nat.
Hypothesis HM : (2 <= M)%nat.
Variable verify : bool.
Variable fallback : V.
Hypothesis laws : unit_laws D.
Notation MZ := (Z.of_nat M).

Ltac mc := rewrite !(mod_case MZ) by lia.

Record rep (l : lane V) (q : list V) : Prop := {
  rep_buf : length (lbuf l) = M;
  rep_cap : (length q <= M)%nat;
  rep_empty : q = [] -> lbeg l = -1 /\ lend l = -1;
  rep_pos : q <> [] -> 0 <= lbeg l < MZ /\ lend l = (lbeg l + Z.of_nat (length q) - 1) mod MZ;
  rep_nth : forall i, (i < length q)%nat ->
            nth_error (lbuf l) (Z.to_nat ((lbeg l + Z.of_nat i) mod MZ)) = nth_error q i }.

Lemma rep_cases l q : rep l q ->
  length (lbuf l) = M /\ (length q <= M)%nat /\
  ((length q = 0%nat /\ lbeg l = -1 /\ lend l = -1) \/
   ((0 < length q)%nat /\ 0 <= lbeg l < MZ /\
    lend l = if lbeg l + Z.of_nat (length q) - 1 <? MZ
             then lbeg l + Z.of_nat (length q) - 1 else lbeg l + Z.of_nat (length q) - 1 - MZ)).
Proof.
  intros [H1 H2 H3 H4 _]; split; [|split]; auto.
  destruct q as [|x q'] eqn:E.
  - left; destruct H3; auto.
  - right. destruct H4 as [H5 H6]; [discriminate|]. rewrite <- E in *.
    assert (0 < length q)%nat by (rewrite E; simpl; lia).
    split; [lia|]; split; [lia|]. rewrite H6, mod_case by lia.
    destruct (Z.ltb_spec (lbeg l + Z.of_nat (length q) - 1) 0); lia.
Qed.

Lemma is_empty_rep l q : rep l q -> is_empty l = Nat.eqb (length q) 0.
Proof. intros H; destruct (rep_cases _ _ H) as (_ & _ & [(? & ? & ?)|(? & ? & ?)]); unfold is_empty; lia. Qed.

Lemma is_full_rep l q : rep l q -> is_full M l = Nat.eqb (length q) M.
Proof.
  intros H; destruct (rep_cases _ _ H) as (_ & ? & [(? & ? & ?)|(? & ? & He)]); unfold is_full.
  - rewrite mod_case by lia. destruct (Z.ltb_spec (lend l - lbeg l) 0), (Z.ltb_spec (lend l - lbeg l) MZ); lia.
  - destruct (Z.ltb_spec (lbeg l + Z.of_nat (length q) - 1) MZ); rewrite mod_case by lia;
    destruct (Z.ltb_spec (lend l - lbeg l) 0), (Z.ltb_spec (lend l - lbeg l) MZ); lia.
Qed.

Lemma has_one_rep l q : rep l q -> has_one l = Nat.eqb (length q) 1.
Proof.
  intros H; destruct (rep_cases _ _ H) as (_ & ? & [(? & ? & ?)|(? & ? & He)]); unfold has_one.
  - lia.
  - destruct (Z.ltb_spec (lbeg l + Z.of_nat (length q) - 1) MZ); lia.
Qed.

Lemma lane_length_rep l q : rep l q -> lane_length M l = Z.of_nat (length q).
Proof.
  intros H; unfold lane_length. rewrite (is_empty_rep _ _ H), (is_full_rep _ _ H).
  destruct (rep_cases _ _ H) as (_ & ? & [(? & ? & ?)|(? & ? & He)]).
  - destruct (Nat.eqb_spec (length q) M), (Nat.eqb_spec (length q) 0); lia.
  - destruct (Nat.eqb_spec (length q) M), (Nat.eqb_spec (length q) 0); try lia.
    destruct (Z.ltb_spec (lbeg l + Z.of_nat (length q) - 1) MZ); rewrite mod_case by lia;
    destruct (Z.ltb_spec (lend l - lbeg l) 0), (Z.ltb_spec (lend l - lbeg l) MZ); lia.
Qed.

(* positions of the circular buffer *)
Lemma pos_range b i : 0 <= b < MZ -> (i < M)%nat ->
  (b + Z.of_nat i) mod MZ = (if b + Z.of_nat i <? MZ then b + Z.of_nat i else b + Z.of_nat i - MZ).
Proof. intros. rewrite mod_case by lia. destruct (Z.ltb_spec (b + Z.of_nat i) 0); lia. Qed.

Lemma buf_some (l : lane V) i : length (lbuf l) = M -> (i < M)%nat -> exists x, nth_error (lbuf l) i = Some x.
Proof.
  intros H Hi. destruct (nth_error (lbuf l) i) eqn:E; eauto.
  apply nth_error_None in E; lia.
Qed.

Lemma mef_rep l q : rep l q -> (length q < M)%nat ->
  exists x, rep (move_end_forward M l None) (q ++ [x]) .
Proof.
  intros H Hlt. unfold move_end_forward, sel. rewrite !andb_true_r.
  rewrite (is_empty_rep _ _ H), (is_full_rep _ _ H).
  destruct (rep_cases _ _ H) as (Hb & ? & [(Hq & H1 & H2)|(Hq & H1 & He)]).
  - destruct (buf_some l 0 Hb) as [x Hx]; [lia|]. exists x.
    destruct (Nat.eqb_spec (length q) 0); [|lia]; simpl.
    apply len0 in Hq; subst q. constructor; simpl; auto; try lia; intros; try discriminate.
    + split; [lia|]; try rewrite Z.mod_small by lia; lia.
    + assert (i = 0)%nat by lia; subst; simpl. try rewrite Z.mod_small by lia. simpl; auto.
  - destruct (Nat.eqb_spec (length q) 0); [lia|]; simpl.
    destruct (Nat.eqb_spec (length q) M); [lia|]; simpl.
    destruct (buf_some l (Z.to_nat ((lbeg l + Z.of_nat (length q)) mod MZ)) Hb) as [x Hx].
    { rewrite pos_range by lia. destruct (Z.ltb_spec (lbeg l + Z.of_nat (length q)) MZ); lia. }
    exists x. constructor; simpl; auto.
    + rewrite app_length; simpl; lia.
    + intros E; destruct q; discriminate.
    + intros _. split; [lia|]. rewrite app_length; simpl.
      rewrite !(mod_case MZ) by (destruct (Z.ltb_spec (lbeg l + Z.of_nat (length q) - 1) MZ); lia).
      destruct (Z.ltb_spec (lbeg l + Z.of_nat (length q) - 1) MZ);
      destruct (Z.ltb_spec (lend l + 1) 0), (Z.ltb_spec (lend l + 1) MZ),
        (Z.ltb_spec (lbeg l + Z.of_nat (length q + 1) - 1) 0), (Z.ltb_spec (lbeg l + Z.of_nat (length q + 1) - 1) MZ); lia.
    + intros i Hi. rewrite app_length in Hi; simpl in Hi. rewrite app_single_nth.
      destruct (Nat.ltb_spec i (length q)).
      * apply (rep_nth _ _ H); auto.
      * destruct (Nat.eqb_spec i (length q)); [subst; auto | lia].
Qed.

Lemma mbb_rep l q : rep l q -> (length q < M)%nat ->
  exists x, rep (move_begin_backward M l None) (x :: q).
Proof.
  intros H Hlt. unfold move_begin_backward, sel. rewrite !andb_true_r.
  rewrite (is_empty_rep _ _ H), (is_full_rep _ _ H).
  destruct (rep_cases _ _ H) as (Hb & ? & [(Hq & H1 & H2)|(Hq & H1 & He)]).
  - destruct (buf_some l 0 Hb) as [x Hx]; [lia|]. exists x.
    destruct (Nat.eqb_spec (length q) 0); [|lia]; simpl.
    apply len0 in Hq; subst q. constructor; simpl; auto; try lia; intros; try discriminate.
    + split; [lia|]; try rewrite Z.mod_small by lia; lia.
    + assert (i = 0)%nat by lia; subst; simpl. try rewrite Z.mod_small by lia. simpl; auto.
  - destruct (Nat.eqb_spec (length q) 0); [lia|]; simpl.
    destruct (Nat.eqb_spec (length q) M); [lia|]; simpl.
    assert (Hnb : (lbeg l + -1) mod MZ = if lbeg l + -1 <? 0 then lbeg l + -1 + MZ else lbeg l + -1).
    { rewrite mod_case by lia. destruct (Z.ltb_spec (lbeg l + -1) 0), (Z.ltb_spec (lbeg l + -1) MZ); lia. }
    destruct (buf_some l (Z.to_nat ((lbeg l + -1) mod MZ)) Hb) as [x Hx].
    { rewrite Hnb. destruct (Z.ltb_spec (lbeg l + -1) 0); lia. }
    exists x. rewrite Hnb in *. constructor; simpl; auto.
    + intros E; discriminate.
    + intros _. split; [destruct (Z.ltb_spec (lbeg l + -1) 0); lia|].
      destruct (Z.ltb_spec (lbeg l + -1) 0); rewrite mod_case by lia;
      destruct (Z.ltb_spec (lbeg l + Z.of_nat (length q) - 1) MZ);
      repeat match goal with |- context [if ?a <? ?b then _ else _] => destruct (Z.ltb_spec a b) end; lia.
    + intros i Hi. destruct i as [|i].
      * simpl. rewrite Z.add_0_r, <- Hnb, Z.mod_mod, Hnb by lia. auto.
      * cbn [nth_error]. rewrite <- (rep_nth _ _ H) by lia. f_equal; f_equal.
        destruct (Z.ltb_spec (lbeg l + -1) 0); rewrite !mod_case by lia;
        repeat match goal with |- context [if ?a <? ?b then _ else _] => destruct (Z.ltb_spec a b) end; lia.
Qed.

Lemma meb_rep l q : rep l q -> (0 < length q)%nat -> rep (move_end_backward M l None) (removelast q).
Proof.
  intros H Hlt. unfold move_end_backward, sel. rewrite !andb_true_r.
  rewrite (is_empty_rep _ _ H), (has_one_rep _ _ H).
  destruct (rep_cases _ _ H) as (Hb & ? & [(Hq & H1 & H2)|(Hq & H1 & He)]); [lia|].
  destruct (Nat.eqb_spec (length q) 0); [lia|].
  assert (Hl := removelast_length q).
  destruct (Nat.eqb_spec (length q) 1); cbn [negb andb].
  - assert (E : removelast q = []) by (apply len0; lia). rewrite E.
    constructor; simpl; auto; try lia; intros; congruence.
  - constructor; cbn [lbuf lbeg lend]; auto.
    + rewrite Hl; lia.
    + intros E; apply len0 in E; lia.
    + intros _. split; [lia|]. rewrite Hl.
      destruct (Z.ltb_spec (lbeg l + Z.of_nat (length q) - 1) MZ); rewrite !mod_case by lia;
      repeat match goal with |- context [if ?a <? ?b then _ else _] => destruct (Z.ltb_spec a b) end; lia.
    + intros i Hi. rewrite removelast_nth by lia. apply (rep_nth _ _ H); lia.
Qed.

Lemma mbf_rep l q : rep l q -> (0 < length q)%nat -> rep (move_begin_forward M l None) (tl q).
Proof.
  intros H Hlt. unfold move_begin_forward, sel. rewrite !andb_true_r.
  rewrite (is_empty_rep _ _ H), (has_one_rep _ _ H).
  destruct (rep_cases _ _ H) as (Hb & ? & [(Hq & H1 & H2)|(Hq & H1 & He)]); [lia|].
  destruct (Nat.eqb_spec (length q) 0); [lia|].
  destruct q as [|x q]; [simpl in *; lia|]. simpl tl. simpl length in *.
  destruct (Nat.eqb_spec (S (length q)) 1); cbn [negb andb].
  - assert (E : q = []) by (apply len0; lia). subst.
    constructor; simpl; auto; try lia; intros; congruence.
  - assert (Hnb : (lbeg l + 1) mod MZ = if lbeg l + 1 <? MZ then lbeg l + 1 else lbeg l + 1 - MZ).
    { rewrite mod_case by lia. destruct (Z.ltb_spec (lbeg l + 1) 0); lia. }
    constructor; cbn [lbuf lbeg lend]; auto.
    + lia.
    + intros E; apply len0 in E; lia.
    + intros _. rewrite Hnb. split; [destruct (Z.ltb_spec (lbeg l + 1) MZ); lia|].
      destruct (Z.ltb_spec (lbeg l + 1) MZ); rewrite !mod_case by lia;
      repeat match goal with H : context [if ?a <? ?b then _ else _] |- _ => destruct (Z.ltb_spec a b) end;
      repeat match goal with |- context [if ?a <? ?b then _ else _] => destruct (Z.ltb_spec a b) end; lia.
    + intros i Hi. transitivity (nth_error (x :: q) (S i)); [|reflexivity].
      rewrite <- (rep_nth _ _ H (S i)) by (simpl; lia). f_equal; f_equal. rewrite Hnb.
      destruct (Z.ltb_spec (lbeg l + 1) MZ); rewrite !mod_case by lia;
      repeat match goal with |- context [if ?a <? ?b then _ else _] => destruct (Z.ltb_spec a b) end; lia.
Qed.

(* unselected lanes do not move *)
Lemma mef_false (l : lane V) : move_end_forward M l (Some false) = l.
Proof. unfold move_end_forward, sel. rewrite !andb_false_r. destruct l; reflexivity. Qed.
Lemma mbb_false (l : lane V) : move_begin_backward M l (Some false) = l.
Proof. unfold move_begin_backward, sel. rewrite !andb_false_r. destruct l; reflexivity. Qed.
Lemma meb_false (l : lane V) : move_end_backward M l (Some false) = l.
Proof. unfold move_end_backward, sel. rewrite !andb_false_r. destruct l; reflexivity. Qed.
Lemma mbf_false (l : lane V) : move_begin_forward M l (Some false) = l.
Proof. unfold move_begin_forward, sel. rewrite !andb_false_r. destruct l; reflexivity. Qed.

Lemma ukey_rep l q k : rep l q -> key_in_capacity M k = true ->
  0 <= ukey M verify l k < MZ /\
  ukey_valid M l (ukey M verify l k) = (match py_index (length q) k with Some _ => true | None => false end) /\
  forall i, py_index (length q) k = Some i -> (i < length q)%nat /\ ukey M verify l k = (lbeg l + Z.of_nat i) mod MZ.
Proof.
  intros H Hk. unfold key_in_capacity in Hk.
  destruct (rep_cases _ _ H) as (Hb & Hc & Hcase).
  set (u0 := if 0 <=? k then lbeg l + k else lend l + k + 1).
  assert (Hu0 : - MZ <= u0 < 2 * MZ).
  { subst u0. destruct (Z.leb_spec 0 k); destruct Hcase as [(?&?&?)|(?&?&He)]; try lia.
    destruct (Z.ltb_spec (lbeg l + Z.of_nat (length q) - 1) MZ); lia. }
  assert (Hu : ukey M verify l k = if u0 <? 0 then u0 + MZ else if u0 <? MZ then u0 else u0 - MZ).
  { unfold ukey, mod_ukey. fold u0. destruct verify.
    - destruct (Z.ltb_spec u0 0), (Z.leb_spec MZ u0), (Z.ltb_spec u0 MZ); lia.
    - apply mod_case; lia. }
  rewrite Hu. clear Hu.
  unfold ukey_valid. rewrite (is_empty_rep _ _ H). unfold py_index.
  split; [|split].
  - destruct (Z.ltb_spec u0 0), (Z.ltb_spec u0 MZ); lia.
  - destruct Hcase as [(Hq&?&?)|(Hq&?&He)].
    + rewrite Hq. cbn [Nat.eqb negb andb orb].
      repeat match goal with |- context [if ?b then Some _ else _] => destruct b eqn:? end; lia.
    + destruct (Nat.eqb_spec (length q) 0); [lia|].
      subst u0. destruct (Z.leb_spec 0 k);
      destruct (Z.ltb_spec (lbeg l + Z.of_nat (length q) - 1) MZ); 
      repeat match goal with |- context [if ?a <? ?b then _ else _] => destruct (Z.ltb_spec a b) end;
      repeat match goal with |- context [if ?b then Some _ else _] => destruct b eqn:? end; lia.
  - intros i Hi.
    destruct Hcase as [(Hq&?&?)|(Hq&?&He)].
    + rewrite Hq in Hi. exfalso.
      repeat match type of Hi with context [if ?b then _ else _] => destruct b eqn:? end; try discriminate; lia.
    + assert (Hlt : (i < length q)%nat).
      { repeat match type of Hi with context [if ?b then _ else _] => destruct b eqn:? end; try discriminate;
        injection Hi as <-; lia. }
      split; [exact Hlt|]. rewrite mod_case by lia. subst u0.
      destruct (Z.ltb_spec (lbeg l + Z.of_nat (length q) - 1) MZ);
      repeat match type of Hi with context [if ?b then _ else _] => destruct b eqn:? end; try discriminate;
        injection Hi as <-;
      repeat match goal with |- context [if ?a <? ?b then _ else _] => destruct (Z.ltb_spec a b) 
                           | |- context [if ?a <=? ?b then _ else _] => destruct (Z.leb_spec a b) end; try lia.
Qed.

Lemma lane_read_rep l q i : rep l q -> (i < length q)%nat ->
  exists v, nth_error q i = Some v /\ lane_read (lbuf l) ((lbeg l + Z.of_nat i) mod MZ) = Ok v.
Proof.
  intros H Hi. destruct (nth_error q i) as [v|] eqn:E; [|apply nth_error_None in E; lia].
  exists v; split; auto. unfold lane_read. rewrite (rep_buf _ _ H).
  destruct (rep_cases _ _ H) as (Hb & ? & [(Hq & H1 & H2)|(Hq & H1 & He)]); [lia|].
  rewrite tidx_in by (apply Z.mod_pos_bound; lia). rewrite (rep_nth _ _ H) by auto. rewrite E. reflexivity.
Qed.

Lemma lane_read_any (l : lane V) u : length (lbuf l) = M -> 0 <= u < MZ -> exists v, lane_read (lbuf l) u = Ok v.
Proof.
  intros Hb Hu. unfold lane_read. rewrite Hb, tidx_in by auto.
  destruct (buf_some l (Z.to_nat u) Hb) as [x ->]; [lia|]. eauto.
Qed.

(* modifying element i of the queue through the buffer *)
Lemma lane_modify_rep l q i f : rep l q -> (i < length q)%nat ->
  exists v b', nth_error q i = Some v /\ lane_modify (lbuf l) ((lbeg l + Z.of_nat i) mod MZ) f = Ok b' /\
  rep (mkLane b' (lbeg l) (lend l)) (upd q i (f v)).
Proof.
  intros H Hi. destruct (nth_error q i) as [v|] eqn:E; [|apply nth_error_None in E; lia].
  destruct (rep_cases _ _ H) as (Hb & Hc & [(Hq & H1 & H2)|(Hq & H1 & He)]); [lia|].
  exists v. unfold lane_modify. rewrite Hb.
  rewrite tidx_in by (apply Z.mod_pos_bound; lia). rewrite (rep_nth _ _ H) by auto. rewrite E.
  eexists; split; [reflexivity|]; split; [reflexivity|].
  constructor; cbn [lbuf lbeg lend].
  - rewrite upd_length; auto.
  - rewrite upd_length; auto.
  - intros E'. apply len0 in E'. rewrite upd_length in E'. lia.
  - intros _. rewrite upd_length. apply (rep_pos _ _ H). intros E'; apply len0 in E'; lia.
  - intros j Hj. rewrite upd_length in Hj. rewrite !nth_error_upd, Hb.
    rewrite <- (rep_nth _ _ H) by auto.
    assert (Hi' : (lbeg l + Z.of_nat i) mod MZ = (if lbeg l + Z.of_nat i <? MZ then lbeg l + Z.of_nat i else lbeg l + Z.of_nat i - MZ)) by (apply pos_range; lia).
    assert (Hj' : (lbeg l + Z.of_nat j) mod MZ = (if lbeg l + Z.of_nat j <? MZ then lbeg l + Z.of_nat j else lbeg l + Z.of_nat j - MZ)) by (apply pos_range; lia).
    rewrite Hi', Hj'. clear Hi' Hj'.
    destruct (Nat.eqb_spec i j).
    + subst j. rewrite Nat.eqb_refl. rewrite (proj2 (Nat.ltb_lt _ _) Hi).
      destruct (Z.ltb_spec (lbeg l + Z.of_nat i) MZ);
      match goal with |- context [Nat.ltb ?a M] => destruct (Nat.ltb_spec a M) end; auto; lia.
    + match goal with |- context [Nat.eqb ?a ?b] => destruct (Nat.eqb_spec a b) as [E'|E'] end; auto.
      destruct (Z.ltb_spec (lbeg l + Z.of_nat i) MZ), (Z.ltb_spec (lbeg l + Z.of_nat j) MZ); lia.
Qed.

(* a masked-out write leaves the lane as it was *)
Lemma lane_modify_id (l : lane V) u f : length (lbuf l) = M -> 0 <= u < MZ -> (forall x, f x = x) ->
  lane_modify (lbuf l) u f = Ok (lbuf l).
Proof.
  intros Hb Hu Hf. unfold lane_modify. rewrite Hb, tidx_in by auto.
  destruct (buf_some l (Z.to_nat u) Hb) as [x Hx]; [lia|]. rewrite Hx, Hf. f_equal.
  apply nth_error_ext; intro j. rewrite nth_error_upd. destruct (Nat.eqb_spec (Z.to_nat u) j) as [E|]; auto.
  rewrite E in *. destruct (Nat.ltb_spec j (length (lbuf l))); auto. symmetry; apply nth_error_None; auto.
Qed.

(* meth_cell agrees with its meaning whenever the call is covered *)
Lemma meth_cell_sel mt (w : option bool) old v :
  sel w = true -> (scales mt = false \/ d_isbool D = true \/ w <> None) ->
  meth_cell D mt w old v = meth_meaning D mt old v.
Proof.
  intros Hs Hc. destruct w as [[|]|]; [|discriminate|]; destruct mt; simpl; auto;
  destruct Hc as [Hc|[Hc|Hc]]; try discriminate; try congruence; rewrite Hc; auto.
Qed.
Lemma meth_cell_unsel mt old v : meth_cell D mt (Some false) old v = old.
Proof. destruct laws as [La Lm]. destruct mt; simpl; auto. Qed.
End CListProofs.

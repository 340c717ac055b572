(* The controlled update of standard deviations, component by component, in both interfaces. *)
From Coq Require Import Reals Lra Lia.
From Verif Require Import Prelude RollProofs ExtR FuncModel FuncProofs FuncProofs2 PgpeModel PgpeSpec.
Open Scope R_scope.

(* ------------------------------------------------------------ one component *)
Definition celem (lb ub mc : option R) (o t : xr) : xr :=
  match lb, ub, mc with
  | None, None, None => t
  | _, _, _ =>
    let lb := match lb with None => RNI | Some l => RF l end in
    let ub := match ub with None => RPI | Some u => RF u end in
    let b := match mc with
             | None => (lb, ub)
             | Some m => let a := rmul (rabs o) (RF m) in (rmax lb (rsub o a), rmin ub (radd o a))
             end in
    rmin (rmax t (fst b)) (snd b)
  end.
Definition felem (lb ub mc o t : xr) : xr :=
  let a := rmul (rabs o) mc in rmin (rmax (rmin (rmax t (rsub o a)) (radd o a)) lb) ub.
Definition dl (o : option R) : xr := match o with None => RF 0 | Some l => RF l end.
Definition du (o : option R) : xr := match o with None => RPI | Some u => RF u end.

(* the standard deviation x is inside the limits *)
Definition within (lb ub : option R) (x : R) : Prop :=
  (lb = None -> 0 <= x) /\ (forall l, lb = Some l -> l <= x) /\ (forall u, ub = Some u -> x <= u).

Ltac xcase :=
  repeat (cbn [rmax rmin rnan rleb orb radd rsub ropp rmul rabs rsign fst snd] in *;
          match goal with
          | |- context [if Rle_dec ?a ?b then _ else _] => destruct (Rle_dec a b)
          | |- context [if Req_EM_T ?a ?b then _ else _] => destruct (Req_EM_T a b)
          | |- context [if Rlt_dec ?a ?b then _ else _] => destruct (Rlt_dec a b)
          end);
  cbn [rmax rmin rnan rleb orb radd rsub ropp rmul rabs rsign fst snd] in *.

Lemma change_case lb ub m x t : 0 <= m -> (lb = None -> m <= 1) -> within lb ub x ->
  celem lb ub (Some m) (RF x) t = felem (dl lb) (du ub) (RF m) (RF x) t /\
  (celem lb ub (Some m) (RF x) t = RNaN \/ exists y, celem lb ub (Some m) (RF x) t = RF y /\ within lb ub y).
Proof.
  intros M L1 (P & L & U). unfold celem, felem, dl, du. cbv zeta.
  assert (A : 0 <= Rabs x * m) by (apply Rmult_le_pos; auto using Rabs_pos).
  assert (Z : lb = None -> 0 <= x - Rabs x * m).
  { intros E. specialize (P E). specialize (L1 E). rewrite Rabs_right by lra. nra. }
  set (a := Rabs x * m) in *.
  destruct lb as [l|], ub as [u|]; cbn [rmul rabs fst snd]; unfold rmax, rmin; fold a;
    try specialize (L _ eq_refl); try specialize (U _ eq_refl); try specialize (Z eq_refl);
    destruct t as [| |t|]; unfold rsub; cbn [ropp radd rnan orb rleb]; fold a;
    (split; [xcase; try reflexivity; try (f_equal; lra); exfalso; lra|]);
    xcase; try (left; reflexivity); right; eexists; (split; [reflexivity|]);
    (split; [intros; try discriminate; lra|split; intros ? E; inversion E; subst; lra]).
Qed.

Lemma positive_case lb ub x t : 0 < x -> positive (celem lb ub None (RF x) t) ->
  celem lb ub None (RF x) t = felem (dl lb) (du ub) RPI (RF x) t.
Proof.
  intros P H. unfold celem, felem, dl, du in *. cbv zeta in *. cbn [rabs] in *. rewrite (Rabs_right x) in * by lra.
  assert (A : rmul (RF x) RPI = RPI). { cbn. destruct (Req_EM_T x 0); [lra|]. destruct (Rlt_dec x 0); [lra|auto]. }
  rewrite A. unfold rsub. cbn [ropp radd].
  assert (D : (exists y, 0 < y /\ celem lb ub None (RF x) t = RF y) \/ celem lb ub None (RF x) t = RNaN).
  { destruct H as [H|(y & H & Q)]; [right; exact H|left; exists y; auto]. }
  clear H. unfold celem in D. cbv zeta in D.
  destruct lb as [l|], ub as [u|], t as [| |t|]; unfold rmax, rmin in *; cbn [fst snd rnan orb rleb] in *;
    try reflexivity; xcase; try reflexivity; destruct D as [(y & Q & D)|D]; try discriminate;
    repeat (cbn [rnan orb rleb] in D; match type of D with context [if Rle_dec ?a ?b then _ else _] => destruct (Rle_dec a b) end);
    cbn [rnan orb rleb] in D; try discriminate; inversion D; subst; try lra.
Qed.
Lemma nan_case lb ub mc mc' : celem lb ub mc RNaN RNaN = RNaN /\ felem (dl lb) (du ub) mc' RNaN RNaN = RNaN.
Proof. destruct lb, ub, mc; cbn; auto. Qed.
Lemma range_case l u o t : 0 < l -> 0 < u -> positive (celem (Some l) (Some u) None o t).
Proof.
  intros L U. unfold celem. cbn [fst snd]. unfold rmax, rmin. destruct t as [| |t|]; cbn [rnan orb rleb]; xcase;
    try (left; reflexivity); right; eexists; split; eauto; lra.
Qed.

(* ------------------------------------------------------------ vectors *)
Lemma limit_none n o i : fitting n o -> (i < n)%nat -> limit_of o i = None -> o = None.
Proof.
  destruct o as [[x|l]|]; cbn; auto; try discriminate. intros F L E. apply nth_error_None in E. lia.
Qed.
Lemma components_nth n x i : fitting n (Some x) -> (i < n)%nat ->
  exists v, limit_of (Some x) i = Some v /\ nth_error (components n x) i = Some (RF v).
Proof.
  destruct x as [x|l]; cbn; intros F L.
  - exists x. split; auto. apply repeat_nth; auto.
  - destruct (nth_error l i) as [v|] eqn:E; [|apply nth_error_None in E; lia]. exists v. split; auto. rewrite nth_error_map, E. auto.
Qed.
Lemma components_length n x : fitting n (Some x) -> length (components n x) = n.
Proof. destruct x; cbn; intros; [apply repeat_length|rewrite map_length; auto]. Qed.
Lemma vector_nth n d o fo i : as_vector_like_center n d o = Ok fo -> (i < n)%nat ->
  length fo = n /\ fitting n o /\ nth_error fo i = Some (match limit_of o i with None => d | Some v => RF v end).
Proof.
  destruct o as [[x|l]|]; cbn; intros E L.
  - inversion E; subst. rewrite repeat_length. split; auto. split; auto. apply repeat_nth; auto.
  - destruct (Nat.eqb_spec (length l) n) as [F|]; [|discriminate]. inversion E; subst. rewrite map_length. split; auto. split; auto.
    rewrite nth_error_map. destruct (nth_error l i) eqn:X; auto. apply nth_error_None in X. lia.
  - inversion E; subst. rewrite repeat_length. split; auto. split; auto. apply repeat_nth; auto.
Qed.
Lemma map2_nth2 {A B C} (f : A -> B -> C) l1 l2 i a b : nth_error l1 i = Some a -> nth_error l2 i = Some b ->
  nth_error (map2 f l1 l2) i = Some (f a b).
Proof. intros H1 H2. rewrite map2_nth_error, H1, H2. auto. Qed.
Lemma tensor_nth n o t mn mx mc i x y : length o = n -> length t = n -> fitting n mn -> fitting n mx -> fitting n mc ->
  nth_error o i = Some x -> nth_error t i = Some y ->
  nth_error (rmodify_tensor o t mn mx mc) i = Some (celem (limit_of mn i) (limit_of mx i) (limit_of mc i) x y).
Proof.
  intros Lo Lt Fn Fx Fc X Y. assert (I : (i < n)%nat) by (rewrite <- Lo; apply nth_error_Some; congruence).
  unfold rmodify_tensor. rewrite Lo. cbv zeta.
  assert (AA : nth_error (map rabs o) i = Some (rabs x)) by (rewrite nth_error_map, X; auto).
  destruct mn as [n0|], mx as [x0|], mc as [c0|];
    try destruct (components_nth n n0 i Fn I) as (vn & Hn & Cn); try destruct (components_nth n x0 i Fx I) as (vx & Hx & Cx);
    try destruct (components_nth n c0 i Fc I) as (vc & Hc & Cc);
    try rewrite Hn; try rewrite Hx; try rewrite Hc; unfold celem; cbv zeta; cbn [limit_of fst snd]; auto;
    repeat (apply map2_nth2); auto using repeat_nth.
Qed.
Lemma tensor_length n o t mn mx mc : length o = n -> length t = n -> fitting n mn -> fitting n mx -> fitting n mc ->
  length (rmodify_tensor o t mn mx mc) = n.
Proof.
  intros Lo Lt Fn Fx Fc. unfold rmodify_tensor. cbv zeta.
  destruct mn, mx, mc; auto; rewrite ?map2_length; cbn [fst snd]; rewrite ?map2_length, ?map_length, ?repeat_length, ?components_length by (rewrite Lo; auto); rewrite ?Lo, ?Lt; lia.
Qed.
Lemma rvector_nth o t lb ub mc i x y l u m : nth_error o i = Some x -> nth_error t i = Some y -> nth_error lb i = Some l ->
  nth_error ub i = Some u -> nth_error mc i = Some m -> nth_error (rmodify_vector o t lb ub mc) i = Some (felem l u m x y).
Proof.
  intros X Y L U M. unfold rmodify_vector, felem. cbv zeta.
  assert (A : nth_error (map rabs o) i = Some (rabs x)) by (rewrite nth_error_map, X; auto).
  repeat (apply map2_nth2); auto.
Qed.
Lemma rvector_length n o t lb ub mc : length o = n -> length t = n -> length lb = n -> length ub = n -> length mc = n ->
  length (rmodify_vector o t lb ub mc) = n.
Proof. intros. unfold rmodify_vector. cbv zeta. rewrite ?map2_length, ?map_length. lia. Qed.

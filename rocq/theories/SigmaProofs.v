From Coq Require Import QArith Qabs Lqa.
From Verif Require Import Prelude ExtQ SigmaModel SigmaSpec.
Close Scope Q_scope.
Open Scope nat_scope.

(* ------------------------------------------------------------ limits *)
Lemma xle_max a b v : (xle (xmax a b) v <-> xle a v /\ xle b v).
Proof.
  split.
  - intros H. destruct a; try (destruct b; discriminate H);
      (destruct b; try discriminate H;
       match type of H with xle (xmax ?x ?y) _ => destruct (xmax_ok x y) as [[A E]|[A E]]; try discriminate; rewrite E in H end;
       split; auto; eapply xle_trans; eauto).
  - intros [A B]. destruct (xle_nan _ _ A), (xle_nan _ _ B). destruct (xmax_ok a b) as [[_ ->]|[_ ->]]; auto.
Qed.
Lemma xle_min a b v : (xle v (xmin a b) <-> xle v a /\ xle v b).
Proof.
  split.
  - intros H. assert (Ha : a <> XNaN) by (intros ->; destruct (xle_nan _ _ H) as [_ C]; apply C; reflexivity).
    assert (Hb : b <> XNaN) by (intros ->; destruct (xle_nan _ _ H) as [_ C]; apply C; apply xmin_nan_r).
    destruct (xmin_ok a b Ha Hb) as [[A E]|[A E]]; rewrite E in H; split; auto; eapply xle_trans; eauto.
  - intros [A B]. destruct (xle_nan _ _ A), (xle_nan _ _ B). destruct (xmin_ok a b) as [[_ ->]|[_ ->]]; auto.
Qed.
Lemma xmax_fin a b : xfin a -> b <> XPI -> b <> XNaN -> xfin (xmax a b).
Proof.
  intros (q & ->) Hp Hn. destruct b; try congruence; unfold xmax; cbn.
  - exists q; auto. - destruct (Qle_bool q q0); eexists; eauto.
Qed.
Lemma xmin_fin a b : xfin a -> b <> XNI -> b <> XNaN -> xfin (xmin a b).
Proof.
  intros (q & ->) Hp Hn. destruct b; try congruence; unfold xmin; cbn.
  - destruct (Qle_bool q q0); eexists; eauto. - exists q; auto.
Qed.
Lemma xle_PI v : v <> XNaN -> xle v XPI. Proof. destruct v; try congruence; reflexivity. Qed.
Lemma xle_NI v : v <> XNaN -> xle XNI v. Proof. destruct v; try congruence; reflexivity. Qed.

(* ------------------------------------------------------------ one component *)
Definition lo_of (mc : option xq) (o : xq) : xq := match mc with None => XNI | Some m => xsub o (xmul (xabs o) m) end.
Definition hi_of (mc : option xq) (o : xq) : xq := match mc with None => XPI | Some m => xadd o (xmul (xabs o) m) end.
Definition dlb (lb : option xq) : xq := match lb with None => XNI | Some l => l end.
Definition dub (ub : option xq) : xq := match ub with None => XPI | Some u => u end.
Definition elem (lb ub mc : option xq) (o t : xq) : xq :=
  match mc with
  | None => xmin (xmax t (dlb lb)) (dub ub)
  | Some _ => xmin (xmax t (xmax (dlb lb) (lo_of mc o))) (xmin (dub ub) (hi_of mc o))
  end.

Lemma Qabs_diff_iff q w m : (Qabs (w - q) <= m * Qabs q <-> q + - (Qabs q * m) <= w /\ w <= q + Qabs q * m)%Q.
Proof. rewrite Qabs_diff_Qle_condition. split; intros [A B]; split; lra. Qed.
Lemma change_iff mc o v : change_fine mc o -> v <> XNaN ->
  (within_change mc o v <-> xle (lo_of mc o) v /\ xle v (hi_of mc o)).
Proof.
  intros H Hv. destruct mc as [[| | m |]|]; cbn in H; try contradiction.
  - destruct H as [Hm (q & ->)]. unfold lo_of, hi_of, xsub. cbn. split.
    + intros (q' & w & [= <-] & -> & D). rewrite !xle_F. apply Qabs_diff_iff; auto.
    + intros [A B]. destruct v as [| | w |]; try discriminate; try congruence. rewrite xle_F in A, B. exists q, w. repeat split; auto. apply Qabs_diff_iff; auto.
  - destruct H as (q & -> & Hq). assert (E : xmul (XF (Qabs q)) XPI = XPI).
    { cbn. assert (0 < Qabs q)%Q. { assert (0 <= Qabs q)%Q by apply Qabs_nonneg. destruct (Qeq_dec (Qabs q) 0) as [Z|Z]; [|lra].
        exfalso. apply Hq. pose proof (Qle_Qabs q). pose proof (Qle_Qabs (- q)). rewrite Qabs_opp in *. lra. }
      assert (C : (Qabs q ?= 0)%Q = Gt) by (apply Qgt_alt; auto). rewrite C. reflexivity. }
    unfold lo_of, hi_of, xsub, xabs. rewrite E. cbn. split; auto. intros _. split; [apply xle_NI|apply xle_PI]; auto.
  - cbn. split; auto. intros _. split; [apply xle_NI|apply xle_PI]; auto.
Qed.
Lemma lo_hi_nan mc o : change_fine mc o -> lo_of mc o <> XNaN /\ hi_of mc o <> XNaN /\ lo_of mc o <> XPI /\ hi_of mc o <> XNI.
Proof.
  intros H. destruct mc as [[| | m |]|]; cbn in H; try contradiction.
  - destruct H as [_ (q & ->)]. cbn. repeat split; discriminate.
  - destruct H as (q & -> & Hq). assert (E : xmul (XF (Qabs q)) XPI = XPI).
    { cbn. assert (0 < Qabs q)%Q. { assert (0 <= Qabs q)%Q by apply Qabs_nonneg. destruct (Qeq_dec (Qabs q) 0) as [Z|Z]; [|lra].
        exfalso. apply Hq. pose proof (Qle_Qabs q). pose proof (Qle_Qabs (- q)). rewrite Qabs_opp in *. lra. }
      assert (C : (Qabs q ?= 0)%Q = Gt) by (apply Qgt_alt; auto). rewrite C. reflexivity. }
    unfold lo_of, hi_of, xsub, xabs. rewrite E. cbn. repeat split; discriminate.
  - cbn. repeat split; discriminate.
Qed.
Lemma lo_hi_self mc o : change_fine mc o -> o <> XNaN -> xle (lo_of mc o) o /\ xle o (hi_of mc o).
Proof.
  intros H Ho. apply change_iff; auto. destruct mc as [[| | m |]|]; cbn [change_fine within_change] in *; auto. destruct H as [Hm (q & ->)]. exists q, q. repeat split; auto.
  assert (Z : (Qabs (q - q) == 0)%Q) by (setoid_replace (q - q)%Q with 0%Q by ring; reflexivity). rewrite Z. pose proof (Qabs_nonneg q). nra.
Qed.
Lemma above_iff lb v : v <> XNaN -> (above lb v <-> xle (dlb lb) v).
Proof. destruct lb; cbn; [tauto|]. intros. split; auto using xle_NI. Qed.
Lemma below_iff ub v : v <> XNaN -> (below ub v <-> xle v (dub ub)).
Proof. destruct ub; cbn; [tauto|]. intros. split; auto using xle_PI. Qed.

Lemma admissible_iff lb ub mc o v : change_fine mc o ->
  (admissible lb ub mc o v <-> v <> XNaN /\ xle (dlb lb) v /\ xle v (dub ub) /\ xle (lo_of mc o) v /\ xle v (hi_of mc o)).
Proof.
  intros H. unfold admissible. split; intros (N & A & B & C); (split; [exact N|]).
  - rewrite above_iff in A by auto. rewrite below_iff in B by auto. rewrite change_iff in C by auto. tauto.
  - rewrite above_iff, below_iff, change_iff by auto. tauto.
Qed.
(* the two forms of elem *)
Lemma elem_clip lb ub mc o t : change_fine mc o -> dlb lb <> XNaN -> dub ub <> XNaN ->
  exists lo hi, elem lb ub mc o t = xmin (xmax t lo) hi /\
    forall v, v <> XNaN -> (xle lo v <-> xle (dlb lb) v /\ xle (lo_of mc o) v) /\ (xle v hi <-> xle v (dub ub) /\ xle v (hi_of mc o)).
Proof.
  intros H Hl Hu. destruct mc as [m|].
  - exists (xmax (dlb lb) (lo_of (Some m) o)), (xmin (dub ub) (hi_of (Some m) o)). split; [reflexivity|].
    intros v Hv. rewrite xle_max, xle_min. tauto.
  - exists (dlb lb), (dub ub). split; [reflexivity|]. intros v Hv. cbn [lo_of hi_of]. split; split; intros; try tauto; split; auto using xle_NI, xle_PI.
Qed.
Lemma elem_ok lb ub mc o t : change_fine mc o -> t <> XNaN ->
  (exists w, admissible lb ub mc o w) ->
  let r := elem lb ub mc o t in
  admissible lb ub mc o r /\ (admissible lb ub mc o t -> xeq r t) /\ (forall w, admissible lb ub mc o w -> between t r w).
Proof.
  intros H Ht (w & Hw) r. pose proof Hw as Hw'. rewrite admissible_iff in Hw' by auto. destruct Hw' as (Nw & W1 & W2 & W3 & W4).
  assert (Hl : dlb lb <> XNaN) by (apply xle_nan in W1; tauto). assert (Hu : dub ub <> XNaN) by (apply xle_nan in W2; tauto).
  destruct (elem_clip lb ub mc o t H Hl Hu) as (lo & hi & E & EQ). fold r in E.
  assert (LH : xle lo hi). { apply xle_trans with w; apply EQ; auto. }
  destruct (clip_ok t lo hi Ht LH) as (R1 & R2 & R3 & R4). rewrite <- E in R1, R2, R3, R4.
  assert (Nr : r <> XNaN) by (apply xle_nan in R1; tauto).
  split; [|split].
  - rewrite admissible_iff by auto. apply EQ in R1; auto. apply EQ in R2; auto. tauto.
  - intros Ha. rewrite admissible_iff in Ha by auto. destruct Ha as (_ & A1 & A2 & A3 & A4).
    destruct R3 as [->|R3]; [apply EQ; auto|apply EQ; auto| |exact R3]. split; apply xle_refl; auto.
  - intros v Hv. rewrite admissible_iff in Hv by auto. destruct Hv as (Nv & A1 & A2 & A3 & A4).
    assert (V1 : xle lo v) by (apply EQ; auto). assert (V2 : xle v hi) by (apply EQ; auto).
    destruct R4 as [[B C]|[->|[B C]]].
    + left. split; auto. apply xle_trans with lo; auto.
    + destruct (xle_total t v Ht Nv) as [T|T]; [left|right]; split; auto; apply xle_refl; auto.
    + right. split; auto. apply xle_trans with hi; auto.
Qed.

(* ------------------------------------------------------------ modify_tensor *)
Lemma convert_ok n o d : fits n o -> d <> XNaN -> exists l,
  convert_to_tensor n (match o with None => Scalar d | Some x => x end) = Ok l /\ length l = n /\
  forall i, i < n -> nth_error l i = Some (match limit_at o i with None => d | Some v => v end).
Proof.
  intros F Hd. destruct o as [[v|l]|]; cbn in *.
  - exists (repeat v n). rewrite repeat_length. repeat split; auto. intros i Hi. apply nth_error_repeat; auto.
  - destruct F as [L _]. exists l. rewrite (proj2 (Nat.eqb_eq _ _) L). repeat split; auto.
    intros i Hi. destruct (nth_error l i) eqn:E; auto. apply nth_error_None in E. lia.
  - exists (repeat d n). rewrite repeat_length. repeat split; auto. intros i Hi. apply nth_error_repeat; auto.
Qed.
Lemma elem_none o t : elem None None None o t = t.
Proof. unfold elem. cbn. destruct t; cbn; auto; unfold xmax; cbn; auto. Qed.
Lemma modify_tensor_elem original target lb ub mc in_place :
  length target = length original -> fits (length original) lb -> fits (length original) ub -> fits (length original) mc ->
  exists r, modify_tensor original target lb ub mc in_place = Ok (if in_place then r else original, r) /\ length r = length original /\
    forall i o t, nth_error original i = Some o -> nth_error target i = Some t ->
      nth_error r i = Some (elem (limit_at lb i) (limit_at ub i) (limit_at mc i) o t).
Proof.
  intros L FL FU FM. set (n := length original) in *.
  destruct (convert_ok n lb XNI FL) as (l & El & Ll & Nl); [discriminate|].
  destruct (convert_ok n ub XPI FU) as (u & Eu & Lu & Nu); [discriminate|].
  assert (GEN : forall M, (exists x, M = Some x) \/ M = None -> M = mc -> (lb <> None \/ ub <> None \/ mc <> None) ->
    exists r, modify_tensor original target lb ub mc in_place = Ok (if in_place then r else original, r) /\ length r = n /\
    forall i o t, nth_error original i = Some o -> nth_error target i = Some t ->
      nth_error r i = Some (elem (limit_at lb i) (limit_at ub i) (limit_at mc i) o t)).
  { intros M HM EM HR.
    assert (UN : modify_tensor original target lb ub mc in_place =
      bind (match mc with
          | None => Ok (l, u)
          | Some mc =>
            bind (convert_to_tensor n mc) (fun mc =>
            let allowed_amounts := map2 xmul (map xabs original) mc in
            let allowed_lb := map2 xsub original allowed_amounts in
            let allowed_ub := map2 xadd original allowed_amounts in
            Ok (map2 xmax l allowed_lb, map2 xmin u allowed_ub))
          end) (fun bounds =>
       let result := map2 xmin (map2 xmax target (fst bounds)) (snd bounds) in
       Ok (if in_place then result else original, result))).
    { unfold modify_tensor. fold n. destruct lb as [lb|], ub as [ub|], mc as [mc|]; cbv zeta; try (exfalso; intuition congruence); rewrite El; cbn [bind]; rewrite Eu; reflexivity. }
    rewrite UN. destruct mc as [m|].
    - destruct (convert_ok n (Some m) XPI FM) as (c & Ec & Lc & Nc); [discriminate|]. cbn [bind] in Ec |- *. rewrite Ec. cbn [bind]. cbv zeta. cbn [fst snd].
      eexists. split; [reflexivity|]. split. { rewrite !map2_length, !map_length. fold n. lia. }
      intros i o t Ho Ht. assert (Hi : i < n) by (unfold n; apply nth_error_Some; congruence).
      rewrite !map2_nth_error, !nth_error_map, Ho, Ht. cbn [option_map]. rewrite (Nl i Hi), (Nu i Hi), (Nc i Hi).
      assert (limit_at (Some m) i = None -> False). { intros C. destruct m as [v|v]; cbn in C; [discriminate|]. apply nth_error_None in C. cbn in FM. lia. }
      destruct (limit_at (Some m) i) as [mi|] eqn:Em; [|tauto]. unfold elem. cbn [lo_of hi_of]. destruct (limit_at lb i), (limit_at ub i); reflexivity.
    - cbn [bind fst snd]. cbv zeta. eexists. split; [reflexivity|]. split. { rewrite !map2_length. lia. }
      intros i o t Ho Ht. assert (Hi : i < n) by (unfold n; apply nth_error_Some; congruence).
      rewrite !map2_nth_error, Ht, (Nl i Hi), (Nu i Hi). cbn [limit_at]. unfold elem. destruct (limit_at lb i), (limit_at ub i); reflexivity. }
  assert (HM : (exists x, mc = Some x) \/ mc = None) by (destruct mc; [left; eauto|right; auto]).
  destruct lb as [lb'|]; [apply (GEN mc HM eq_refl); left; discriminate|].
  destruct ub as [ub'|]; [apply (GEN mc HM eq_refl); right; left; discriminate|].
  destruct mc as [mc'|]; [apply (GEN (Some mc') HM eq_refl); right; right; discriminate|].
  cbn [modify_tensor]. exists target. split; [reflexivity|]. split; [exact L|]. intros i o t Ho Ht. cbn [limit_at]. rewrite elem_none. exact Ht.
Qed.

(* ------------------------------------------------------------ modify_vector *)
Definition elem2 (lb ub mc : option xq) (o t : xq) : xq :=
  xmin (xmax (match mc with None => t | Some _ => xmin (xmax t (lo_of mc o)) (hi_of mc o) end) (dlb lb)) (dub ub).
Lemma expand_ok n x : fits n (Some x) -> exists l, expand_limit n x = Ok l /\ length l = n /\
  forall i, i < n -> nth_error l i = limit_at (Some x) i /\ limit_at (Some x) i <> None.
Proof.
  intros F. destruct x as [v|l]; cbn in *.
  - exists (repeat v n). rewrite repeat_length. repeat split; auto; [apply nth_error_repeat; auto|discriminate].
  - destruct F as [L _]. exists l. rewrite (proj2 (Nat.eqb_eq _ _) L). repeat split; auto. apply nth_error_Some. lia.
Qed.
Lemma modify_vector_elem original target lb ub mc :
  length target = length original -> fits (length original) lb -> fits (length original) ub -> fits (length original) mc ->
  (lb = None <-> ub = None) ->
  exists r, modify_vector original target lb ub mc = Ok r /\ length r = length original /\
    forall i o t, nth_error original i = Some o -> nth_error target i = Some t ->
      nth_error r i = Some (elem2 (limit_at lb i) (limit_at ub i) (limit_at mc i) o t).
Proof.
  intros L FL FU FM HB. set (n := length original) in *. unfold modify_vector.
  assert (S1 : exists r1, (match mc with None => Ok target | Some mc => modify_vector_using_max_change original target mc end) = Ok r1 /\ length r1 = n /\
    forall i o t, nth_error original i = Some o -> nth_error target i = Some t ->
      nth_error r1 i = Some (match limit_at mc i with None => t | Some _ => xmin (xmax t (lo_of (limit_at mc i) o)) (hi_of (limit_at mc i) o) end)).
  { destruct mc as [m|].
    - unfold modify_vector_using_max_change. fold n. rewrite L, Nat.eqb_refl. cbn [negb].
      destruct (expand_ok n m FM) as (c & Ec & Lc & Nc). rewrite Ec. cbn [bind]. cbv zeta. eexists. split; [reflexivity|].
      split. { rewrite !map2_length, !map_length. fold n. lia. }
      intros i o t Ho Ht. assert (Hi : i < n) by (unfold n; apply nth_error_Some; congruence). destruct (Nc i Hi) as [E D].
      rewrite !map2_nth_error, !nth_error_map, Ho, Ht. cbn [option_map]. rewrite E. destruct (limit_at (Some m) i); [reflexivity|congruence].
    - exists target. repeat split; auto. }
  destruct S1 as (r1 & E1 & L1 & N1). rewrite E1. cbn [bind].
  destruct lb as [lb|], ub as [ub|]; try (exfalso; destruct HB as [H1 H2]; (specialize (H1 eq_refl) || specialize (H2 eq_refl)); discriminate).
  - unfold modify_vector_using_bounds. rewrite L1. destruct (expand_ok n lb FL) as (l & El & Ll & Nl). destruct (expand_ok n ub FU) as (u & Eu & Lu & Nu).
    rewrite El, Eu. cbn [bind]. eexists. split; [reflexivity|]. split. { rewrite !map2_length. lia. }
    intros i o t Ho Ht. assert (Hi : i < n) by (unfold n; apply nth_error_Some; congruence). destruct (Nl i Hi) as [E D]. destruct (Nu i Hi) as [E' D'].
    rewrite !map2_nth_error, (N1 i o t Ho Ht), E, E'. unfold elem2. destruct (limit_at (Some lb) i); [|congruence]. destruct (limit_at (Some ub) i); [reflexivity|congruence].
  - exists r1. repeat split; auto. intros i o t Ho Ht. rewrite (N1 i o t Ho Ht). unfold elem2. cbn [limit_at dlb dub]. f_equal.
    match goal with |- ?a = xmin (xmax ?a XNI) XPI => symmetry; apply (elem_none o a) end.
Qed.
Lemma elem2_ok lb ub mc o t : change_fine mc o -> t <> XNaN -> o <> XNaN -> xle (dlb lb) (dub ub) ->
  let r := elem2 lb ub mc o t in
  above lb r /\ below ub r /\ (within_change mc o r \/ xeq r (dlb lb) \/ xeq r (dub ub)) /\
  (above lb o -> below ub o -> within_change mc o r) /\ (admissible lb ub mc o t -> xeq r t).
Proof.
  intros H Ht Ho HB r. destruct (lo_hi_self mc o H Ho) as [S1 S2]. destruct (lo_hi_nan mc o H) as (NL & NH & _).
  assert (LH : xle (lo_of mc o) (hi_of mc o)) by (eapply xle_trans; eauto).
  set (t1 := match mc with None => t | Some _ => xmin (xmax t (lo_of mc o)) (hi_of mc o) end).
  assert (T1 : t1 <> XNaN /\ xle (lo_of mc o) t1 /\ xle t1 (hi_of mc o) /\ (xle (lo_of mc o) t -> xle t (hi_of mc o) -> xeq t1 t)).
  { unfold t1. destruct mc as [m|].
    - destruct (clip_ok t _ _ Ht LH) as (A & B & C & _). split; [apply xle_nan in A; tauto|]. repeat split; auto.
      + destruct (C H0 H1) as [->|[E _]]; auto using xle_refl. + destruct (C H0 H1) as [->|[_ E]]; auto using xle_refl.
    - cbn. split; auto. split; [apply xle_NI; auto|]. split; [apply xle_PI; auto|]. intros; split; apply xle_refl; auto. }
  destruct T1 as (N1 & B1 & B2 & C1). destruct (clip_ok t1 _ _ N1 HB) as (R1 & R2 & R3 & R4).
  change (xmin (xmax t1 (dlb lb)) (dub ub)) with r in *. assert (Nr : r <> XNaN) by (apply xle_nan in R1; tauto).
  rewrite above_iff, below_iff by auto. split; [auto|]. split; [auto|]. split; [|split].
  - destruct R4 as [[A B]|[E|[A B]]]; [right; left; split; auto|left; rewrite E; apply change_iff; auto|right; right; split; auto].
  - intros Ao Bo. rewrite above_iff in Ao by auto. rewrite below_iff in Bo by auto. apply change_iff; auto.
    destruct R4 as [[A B]|[E|[A B]]].
    + split; [apply xle_trans with t1; auto|]. apply xle_trans with (dlb lb); auto. apply xle_trans with o; auto.
    + rewrite E. auto.
    + split; [|apply xle_trans with t1; auto]. apply xle_trans with (dub ub); auto. apply xle_trans with o; auto.
  - intros Ha. rewrite admissible_iff in Ha by auto. destruct Ha as (_ & A1 & A2 & A3 & A4). destruct (C1 A3 A4) as [D1 D2].
    destruct (R3 (xle_trans _ _ _ A1 D2) (xle_trans _ _ _ D1 A2)) as [->|[E1 E2]]; split; auto; eapply xle_trans; eauto.
Qed.
Lemma elems_agree lb ub mc o t : change_fine mc o -> t <> XNaN -> o <> XNaN -> above lb o -> below ub o ->
  xeq (elem lb ub mc o t) (elem2 lb ub mc o t).
Proof.
  intros H Ht Ho A B. assert (AO : admissible lb ub mc o o). { split; auto. split; auto. split; auto. apply change_iff; auto. apply lo_hi_self; auto. }
  assert (A' : xle (dlb lb) o) by (apply above_iff; auto). assert (B' : xle o (dub ub)) by (apply below_iff; auto).
  assert (HB : xle (dlb lb) (dub ub)) by (eapply xle_trans; eauto).
  destruct (elem_ok lb ub mc o t H Ht (ex_intro _ o AO)) as (R1 & R2 & R3).
  destruct (elem2_ok lb ub mc o t H Ht Ho HB) as (Q1 & Q2 & _ & Q3 & Q4). specialize (Q3 A B).
  set (r := elem lb ub mc o t) in *. set (q := elem2 lb ub mc o t) in *.
  assert (Nq : q <> XNaN) by (unfold q; rewrite above_iff in Q1; [apply xle_nan in Q1; tauto|]; intros C;
     unfold q in *; destruct (lo_hi_nan mc o H) as (NL & NH & _); apply (f_equal xnan) in C; cbn in C;
     unfold elem2 in C; revert C;
     assert (T1 : match mc with None => t | Some _ => xmin (xmax t (lo_of mc o)) (hi_of mc o) end <> XNaN)
       by (destruct mc; auto; destruct (xmax_ok t (lo_of (Some x) o) Ht NL) as [[_ ->]|[_ ->]]; destruct (xmin_ok (lo_of (Some x) o) (hi_of (Some x) o) NL NH) as [[_ E]|[_ E]]; destruct (xmin_ok t (hi_of (Some x) o) Ht NH) as [[_ E']|[_ E']]; rewrite ?E, ?E'; auto);
     destruct (xle_nan _ _ HB) as [N1 N2];
     destruct (xmax_ok _ (dlb lb) T1 N1) as [[_ ->]|[_ ->]];
     match goal with |- xnan (xmin ?a ?b) = true -> False => destruct (xmin_ok a b) as [[_ ->]|[_ ->]]; auto; intros C; match type of C with xnan ?z = true => destruct z; try discriminate; congruence end end).
  assert (AQ : admissible lb ub mc o q) by (repeat split; auto).
  (* q is between t and any admissible value as well *)
  assert (BQ : between t q r).
  { destruct R1 as (Nr & ra & rb & rc). rewrite above_iff in ra by auto. rewrite below_iff in rb by auto. rewrite change_iff in rc by auto. destruct rc as [rl rh].
    destruct (lo_hi_nan mc o H) as (NL & NH & _). assert (LH : xle (lo_of mc o) (hi_of mc o)) by (eapply xle_trans; eauto).
    assert (T1 : exists t1, q = xmin (xmax t1 (dlb lb)) (dub ub) /\ t1 <> XNaN /\ ((xle t t1 /\ xle t1 (lo_of mc o)) \/ t1 = t \/ (xle (hi_of mc o) t1 /\ xle t1 t))).
    { eexists. split; [reflexivity|]. destruct mc as [m|]; [|split; auto]. destruct (clip_ok t _ _ Ht LH) as (X1 & _ & _ & X2). split; auto. apply xle_nan in X1; tauto. }
    destruct T1 as (t1 & Eq & N1 & C1). destruct (clip_ok t1 _ _ N1 HB) as (_ & _ & _ & C2). rewrite <- Eq in C2.
    destruct C2 as [[X Y]|[X|[X Y]]].
    - (* raised to lb *) destruct C1 as [[U V]|[->|[U V]]].
      + left. split; [eapply xle_trans; eauto|eapply xle_trans; eauto].
      + left. split; auto. eapply xle_trans; eauto.
      + (* t1 at hi below q <= lb <= o <= hi *) right. assert (xle q t1). { eapply xle_trans; [exact Y|]. eapply xle_trans; [exact A'|]. exact (xle_trans _ _ _ (proj2 (lo_hi_self mc o H Ho)) U). }
        split; [exact (xle_trans _ _ _ rh (xle_trans _ _ _ U X))|exact (xle_trans _ _ _ H0 V)].
    - rewrite X. destruct C1 as [[U V]|[->|[U V]]].
      + left. split; auto. eapply xle_trans; eauto.
      + destruct (xle_total t r Ht Nr) as [T|T]; [left|right]; split; auto using xle_refl.
      + right. split; auto. eapply xle_trans; eauto.
    - destruct C1 as [[U V]|[->|[U V]]].
      + left. assert (xle t1 q). { eapply xle_trans; [exact V|]. eapply xle_trans; [exact (proj1 (lo_hi_self mc o H Ho))|]. exact (xle_trans _ _ _ B' X). }
        split; [exact (xle_trans _ _ _ U H0)|exact (xle_trans _ _ _ Y (xle_trans _ _ _ V rl))].
      + right. split; [exact (xle_trans _ _ _ rb X)|exact Y].
      + right. split; [exact (xle_trans _ _ _ rb X)|exact (xle_trans _ _ _ Y V)]. }
  specialize (R3 q AQ). unfold between in *. unfold xeq. destruct R3 as [[X Y]|[X Y]], BQ as [[U V]|[U V]]; split; auto; eapply xle_trans; eauto.
Qed.

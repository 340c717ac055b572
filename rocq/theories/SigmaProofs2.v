From Coq Require Import QArith Qabs Lqa.
From Verif Require Import Prelude ExtQ SigmaModel SigmaSpec SigmaProofs.
Close Scope Q_scope.
Open Scope nat_scope.

Lemma change_fits n o : change_ok n o -> fits n o.
Proof.
  destruct o as [[v|l]|]; cbn; auto. - intros (m & -> & _). discriminate.
  - intros [L F]. split; auto. eapply Forall_impl; [|exact F]. intros v (m & -> & _). discriminate.
Qed.
Lemma change_ok_at n o i m : change_ok n o -> limit_at o i = Some m -> exists q, m = XF q /\ (0 <= q)%Q.
Proof.
  destruct o as [[v|l]|]; cbn; try discriminate.
  - intros (q & -> & H) [= <-]. eauto.
  - intros [_ F] H. rewrite Forall_forall in F. apply F. eapply nth_error_In; eauto.
Qed.
Lemma modify_tensor_ok original target lb ub mc in_place :
  length target = length original -> fits (length original) lb -> fits (length original) ub -> fits (length original) mc ->
  exists r, modify_tensor original target lb ub mc in_place = Ok (if in_place then r else original, r) /\ length r = length original /\
    forall i o t v, nth_error original i = Some o -> nth_error target i = Some t -> nth_error r i = Some v ->
      t <> XNaN -> change_fine (limit_at mc i) o -> (exists w, admissible (limit_at lb i) (limit_at ub i) (limit_at mc i) o w) ->
      admissible (limit_at lb i) (limit_at ub i) (limit_at mc i) o v /\
      (admissible (limit_at lb i) (limit_at ub i) (limit_at mc i) o t -> xeq v t) /\
      (forall w, admissible (limit_at lb i) (limit_at ub i) (limit_at mc i) o w -> between t v w).
Proof.
  intros L FL FU FM. destruct (modify_tensor_elem original target lb ub mc in_place L FL FU FM) as (r & E & Lr & N).
  exists r. split; [exact E|]. split; [exact Lr|]. intros i o t v Ho Ht Hv Nt HC HW. rewrite (N i o t Ho Ht) in Hv. injection Hv as <-.
  apply elem_ok; auto.
Qed.
Lemma modify_vector_ok original target lb ub mc :
  length target = length original -> fits (length original) lb -> fits (length original) ub -> fits (length original) mc ->
  (lb = None <-> ub = None) ->
  exists r, modify_vector original target lb ub mc = Ok r /\ length r = length original /\
    forall i o t v, nth_error original i = Some o -> nth_error target i = Some t -> nth_error r i = Some v ->
      o <> XNaN -> t <> XNaN -> change_fine (limit_at mc i) o -> above (limit_at lb i) o -> below (limit_at ub i) o ->
      admissible (limit_at lb i) (limit_at ub i) (limit_at mc i) o v /\
      (admissible (limit_at lb i) (limit_at ub i) (limit_at mc i) o t -> xeq v t) /\
      (exists w, option_map snd (match modify_tensor original target lb ub mc false with Ok p => Some p | Err _ => None end) = Some w /\
         forall u, nth_error w i = Some u -> xeq u v).
Proof.
  intros L FL FU FM HB. destruct (modify_vector_elem original target lb ub mc L FL FU FM HB) as (r & E & Lr & N).
  destruct (modify_tensor_elem original target lb ub mc false L FL FU FM) as (r' & E' & Lr' & N').
  exists r. split; [exact E|]. split; [exact Lr|]. intros i o t v Ho Ht Hv No Nt HC A B. rewrite (N i o t Ho Ht) in Hv. injection Hv as <-.
  assert (LE : xle (dlb (limit_at lb i)) (dub (limit_at ub i))) by (exact (xle_trans _ _ _ (proj1 (above_iff _ _ No) A) (proj1 (below_iff _ _ No) B))).
  destruct (elem2_ok (limit_at lb i) (limit_at ub i) (limit_at mc i) o t HC Nt No LE) as (R1 & R2 & _ & R3 & R4).
  assert (AG := elems_agree (limit_at lb i) (limit_at ub i) (limit_at mc i) o t HC Nt No A B).
  assert (NV : elem2 (limit_at lb i) (limit_at ub i) (limit_at mc i) o t <> XNaN) by (destruct AG as [X _]; apply xle_nan in X; tauto).
  split; [repeat split; auto|]. split; [exact R4|]. rewrite E'. cbn. exists r'. split; auto. intros u Hu. rewrite (N' i o t Ho Ht) in Hu. injection Hu as <-. exact AG.
Qed.

(* ------------------------------------------------------------ histories of the class-based algorithms *)
Section History.
Context {G : Type} (follow : list xq -> G -> list xq) (g : gauss) (n : nat).
Definition limits_ok : Prop := fits n (g_min g) /\ fits n (g_max g) /\ change_ok n (g_change g).
Definition inv (s : list xq) : Prop :=
  length s = n /\ in_bounds (g_min g) (g_max g) s /\ (g_change g <> None -> finites s).
Lemma update_ok s x : limits_ok -> inv s -> length (follow s x) = n -> numbers (follow s x) ->
  exists s', update_sigma follow g s x = Ok s' /\ inv s' /\
    forall i o v, nth_error s i = Some o -> nth_error s' i = Some v -> within_change (limit_at (g_change g) i) o v.
Proof.
  intros (FL & FU & FM) (L & B & F) LT NT. unfold update_sigma.
  assert (LT' : length (follow s x) = length s) by lia.
  assert (M : exists r, (if controlled g then rmap snd (modify_tensor s (follow s x) (g_min g) (g_max g) (g_change g) false) else Ok (follow s x)) = Ok r /\ length r = n /\
     forall i o v, nth_error s i = Some o -> nth_error r i = Some v -> admissible (limit_at (g_min g) i) (limit_at (g_max g) i) (limit_at (g_change g) i) o v).
  { rewrite <- L in FL, FU, FM. pose proof (change_fits _ _ FM) as FM'. destruct (modify_tensor_ok s (follow s x) _ _ _ false LT' FL FU FM') as (r & E & Lr & R).
    assert (RR : forall i o v, nth_error s i = Some o -> nth_error r i = Some v -> admissible (limit_at (g_min g) i) (limit_at (g_max g) i) (limit_at (g_change g) i) o v).
    { intros i o v Ho Hv. destruct (B i o Ho) as (No & A1 & A2).
      destruct (nth_error (follow s x) i) as [t|] eqn:Et.
      2: { apply nth_error_None in Et. assert (i < length s) by (apply nth_error_Some; congruence). lia. }
      assert (CF : change_fine (limit_at (g_change g) i) o).
      { destruct (limit_at (g_change g) i) as [m|] eqn:Em; cbn; auto. destruct (change_ok_at _ _ _ _ FM Em) as (q & -> & Hq). split; auto.
        assert (D : g_change g <> None) by (intros C; rewrite C in Em; discriminate). specialize (F D). unfold finites in F. rewrite Forall_forall in F.
        apply F. eapply nth_error_In; eauto. }
      apply (R i o t v Ho Et Hv); auto.
      - unfold numbers in NT. rewrite Forall_forall in NT. apply NT. eapply nth_error_In; eauto.
      - exists o. split; auto. split; auto. split; auto. apply change_iff; auto. apply lo_hi_self; auto. }
    destruct (controlled g) eqn:EC.
    - rewrite E. cbn. exists r. split; auto. split; [lia|]. exact RR.
    - exists (follow s x). split; auto. split; auto. intros i o v Ho Hv.
      assert (UC : g_min g = None /\ g_max g = None /\ g_change g = None).
      { unfold controlled in EC. destruct (g_min g), (g_max g), (g_change g); try discriminate; auto. }
      destruct UC as (-> & -> & ->). cbn. unfold admissible. split; [|cbn; auto].
      unfold numbers in NT. rewrite Forall_forall in NT. apply NT. eapply nth_error_In; eauto. }
  destruct M as (r & E & Lr & R). exists r. split; [exact E|].
  assert (ORIG : forall i v, nth_error r i = Some v -> exists o, nth_error s i = Some o).
  { intros i v Hv. destruct (nth_error s i) eqn:Eo; eauto. apply nth_error_None in Eo. assert (i < length r) by (apply nth_error_Some; congruence). lia. }
  split.
  - split; [auto|]. split.
    + intros i v Hv. destruct (ORIG i v Hv) as (o & Ho). destruct (R i o v Ho Hv) as (A1 & A2 & A3 & _). auto.
    + intros D. apply Forall_forall. intros v Hv. apply In_nth_error in Hv. destruct Hv as (i & Hv). destruct (ORIG i v Hv) as (o & Ho).
      destruct (R i o v Ho Hv) as (_ & _ & _ & W).
      destruct (limit_at (g_change g) i) as [m|] eqn:Em.
      * destruct (change_ok_at _ _ _ _ FM Em) as (q & -> & _). cbn in W. destruct W as (a & w & _ & -> & _). exists w; auto.
      * exfalso. destruct (g_change g) as [[v0|l]|]; cbn in Em; try congruence. apply nth_error_None in Em.
        destruct FM as [FM1 _]. assert (i < length r) by (apply nth_error_Some; congruence). lia.
  - intros i o v Ho Hv. apply (R i o v Ho Hv).
Qed.
Lemma inv_numbers s : inv s -> numbers s.
Proof. intros (_ & B & _). apply Forall_forall. intros v Hv. apply In_nth_error in Hv. destruct Hv as (i & Hv). apply (B i v Hv). Qed.
Lemma history_ok : limits_ok -> forall xs s, inv s -> targets_ok n follow xs ->
  exists s', update_history follow g s xs = Ok s' /\ inv s'.
Proof.
  intros HL. induction xs as [|x xs IH]; intros s HI HT; cbn [update_history].
  - exists s. auto.
  - destruct (HT s x (or_introl eq_refl)) as [T1 T2]; [apply HI|apply inv_numbers; auto|].
    destruct (update_ok s x HL HI T1 T2) as (s1 & E & I1 & _). rewrite E. cbn [bind]. apply IH; auto. intros s2 y Hy. apply HT. right; auto.
Qed.
End History.

(* ------------------------------------------------------------ the functional algorithms *)
Section Functional.
Context {G : Type} (follow : list xq -> G -> list xq).
Definition farg (s : fstate) : nat -> Prop := fun n => length (f_stdev s) = n /\ length (f_min s) = n /\ length (f_max s) = n /\ length (f_change s) = n.
Definition fcomp_ok (s : fstate) : Prop := forall i mn mx mc,
  nth_error (f_min s) i = Some mn -> nth_error (f_max s) i = Some mx -> nth_error (f_change s) i = Some mc ->
  mn <> XPI /\ mx <> XNI /\ xle mn mx /\
  ((exists m, mc = XF m /\ (0 <= m)%Q) \/ (mc = XPI /\ exists p, xle (XF p) mn /\ (0 < p)%Q)).
Definition fstd_ok (s : fstate) : Prop := forall i v mc, nth_error (f_stdev s) i = Some v -> nth_error (f_change s) i = Some mc ->
  exists q, v = XF q /\ (mc = XPI -> ~ (q == 0)%Q).

Lemma ftell_ok n s x : farg s n -> fcomp_ok s -> fstd_ok s -> length (follow (f_stdev s) x) = n -> finites (follow (f_stdev s) x) ->
  exists s', ftell follow s x = Ok s' /\ farg s' n /\ fstd_ok s' /\
    f_min s' = f_min s /\ f_max s' = f_max s /\ f_change s' = f_change s /\ finites (f_stdev s') /\
    forall i o v mn mx mc, nth_error (f_stdev s) i = Some o -> nth_error (f_stdev s') i = Some v ->
      nth_error (f_min s) i = Some mn -> nth_error (f_max s) i = Some mx -> nth_error (f_change s) i = Some mc ->
      xle mn v /\ xle v mx /\ (within_change (Some mc) o v \/ xeq v mn \/ xeq v mx) /\
      (xle mn o -> xle o mx -> within_change (Some mc) o v).
Proof.
  intros (L1 & L2 & L3 & L4) FC FS LT FT. unfold ftell.
  assert (G1 : forall l i, length l = n -> i < n -> exists v : xq, nth_error l i = Some v).
  { intros l i HL Hi. destruct (nth_error l i) eqn:E; eauto. apply nth_error_None in E. lia. }
  assert (FITS : forall l, length l = n -> (forall i v, nth_error l i = Some v -> v <> XNaN) -> fits (length (f_stdev s)) (Some (Vec l))).
  { intros l HL HN. cbn. split; [lia|]. apply Forall_forall. intros v Hv. apply In_nth_error in Hv. destruct Hv as (i & Hv). eauto. }
  assert (CASES : forall i, i < n -> exists o t mn mx mc, nth_error (f_stdev s) i = Some o /\ nth_error (follow (f_stdev s) x) i = Some t /\
     nth_error (f_min s) i = Some mn /\ nth_error (f_max s) i = Some mx /\ nth_error (f_change s) i = Some mc /\ xfin o /\ xfin t /\
     change_fine (Some mc) o /\ xle mn mx /\ mn <> XPI /\ mx <> XNI).
  { intros i Hi. destruct (G1 (f_stdev s) i L1 Hi) as (o & Eo). destruct (G1 _ i LT Hi) as (t & Et). destruct (G1 _ i L2 Hi) as (mn & E2).
    destruct (G1 _ i L3 Hi) as (mx & E3). destruct (G1 _ i L4 Hi) as (mc & E4). exists o, t, mn, mx, mc.
    destruct (FC i mn mx mc E2 E3 E4) as (C1 & C2 & C3 & C4). destruct (FS i o mc Eo E4) as (q & -> & Q).
    repeat (split; [assumption|]). split; [eexists; reflexivity|]. split. { unfold finites in FT. rewrite Forall_forall in FT. apply FT. eapply nth_error_In; eauto. }
    split; [|repeat split; auto]. destruct C4 as [(m & -> & Hm)|(-> & _)]; cbn; [split; auto; eexists; reflexivity|]. exists q. split; auto. }
  assert (NANS : forall l, (l = f_min s \/ l = f_max s \/ l = f_change s) -> forall i v, nth_error l i = Some v -> v <> XNaN).
  { intros l Hl i v Hv. assert (Hi : i < n). { assert (i < length l) by (apply nth_error_Some; congruence). destruct Hl as [->|[->| ->]]; lia. }
    destruct (CASES i Hi) as (o & t & mn & mx & mc & _ & _ & E2 & E3 & E4 & _ & _ & CF & LE & _). destruct (xle_nan _ _ LE).
    destruct Hl as [->|[->| ->]]; rewrite ?E2, ?E3, ?E4 in Hv; injection Hv as <-; auto. intros ->. exact CF. }
  destruct (modify_vector_elem (f_stdev s) (follow (f_stdev s) x) (Some (Vec (f_min s))) (Some (Vec (f_max s))) (Some (Vec (f_change s)))) as (r & E & Lr & N).
  - lia. - apply FITS; auto. apply NANS; auto. - apply FITS; auto. apply NANS; auto. - apply FITS; auto. apply NANS; auto. - split; discriminate.
  - rewrite E. cbn [bind]. eexists. split; [reflexivity|]. cbn [f_stdev f_min f_max f_change farg].
    assert (ALL : forall i o v mn mx mc, nth_error (f_stdev s) i = Some o -> nth_error r i = Some v ->
      nth_error (f_min s) i = Some mn -> nth_error (f_max s) i = Some mx -> nth_error (f_change s) i = Some mc ->
      xfin v /\ xle mn v /\ xle v mx /\ (within_change (Some mc) o v \/ xeq v mn \/ xeq v mx) /\
      (xle mn o -> xle o mx -> within_change (Some mc) o v)).
    { intros i o v mn mx mc Ho Hv H2 H3 H4. assert (Hi : i < n) by (rewrite <- L1; apply nth_error_Some; congruence).
      destruct (CASES i Hi) as (o' & t & mn' & mx' & mc' & E1 & Et & E2 & E3 & E4 & Fo & Ft & CF & LE & NP & NI).
      rewrite Ho in E1. rewrite H2 in E2. rewrite H3 in E3. rewrite H4 in E4. injection E1 as <-. injection E2 as <-. injection E3 as <-. injection E4 as <-.
      rewrite (N i o t Ho Et) in Hv. injection Hv as <-. cbn [limit_at]. rewrite H2, H3, H4.
      assert (No : o <> XNaN) by (destruct Fo as (? & ->); discriminate). assert (Nt : t <> XNaN) by (destruct Ft as (? & ->); discriminate).
      destruct (xle_nan _ _ LE) as [Nmn Nmx]. destruct (lo_hi_nan _ _ CF) as (Q1 & Q2 & Q3 & Q4).
      destruct (elem2_ok (Some mn) (Some mx) (Some mc) o t CF Nt No LE) as (A & B & C & D & _). cbn [above below dlb dub] in *.
      split; [|auto]. unfold elem2. apply xmin_fin; auto. apply xmax_fin; auto. apply xmin_fin; auto. apply xmax_fin; auto. }
    split; [split; [cbn [f_stdev]; lia|auto]|]. split.
    { intros i v mc Hv H4. cbn [f_stdev f_change] in *. assert (Hi : i < n) by (rewrite <- L1, <- Lr; apply nth_error_Some; congruence).
      destruct (CASES i Hi) as (o & t & mn & mx & mc' & E1 & Et & E2 & E3 & E4 & Fo & Ft & CF & LE & NP & NI).
      rewrite H4 in E4. injection E4 as <-. destruct (ALL i o v mn mx mc E1 Hv E2 E3 H4) as ((q & ->) & B1 & _). exists q. split; auto. intros ->.
      destruct (FC i mn mx XPI E2 E3 H4) as (_ & _ & _ & [(m & C & _)|(_ & p & P1 & P2)]); [discriminate|]. assert (xle (XF p) (XF q)) by (eapply xle_trans; eauto).
      rewrite xle_F in H. lra. }
    repeat (split; [reflexivity|]). split.
    { apply Forall_forall. intros v Hv. apply In_nth_error in Hv. destruct Hv as (i & Hv). assert (Hi : i < n) by (rewrite <- L1, <- Lr; apply nth_error_Some; congruence).
      destruct (CASES i Hi) as (o & t & mn & mx & mc' & E1 & Et & E2 & E3 & E4 & _). apply (ALL i o v mn mx mc' E1 Hv E2 E3 E4). }
    intros i o v mn mx mc Ho Hv H2 H3 H4. apply (ALL i o v mn mx mc Ho Hv H2 H3 H4).
Qed.

Lemma ftells_ok n : forall xs s, farg s n -> fcomp_ok s -> fstd_ok s -> finites (f_stdev s) -> finite_targets n follow xs ->
  exists s', ftells follow s xs = Ok s' /\ farg s' n /\ fcomp_ok s' /\ fstd_ok s' /\ finites (f_stdev s') /\
    f_min s' = f_min s /\ f_max s' = f_max s /\ f_change s' = f_change s /\
    (xs <> [] -> forall i v mn mx, nth_error (f_stdev s') i = Some v -> nth_error (f_min s) i = Some mn -> nth_error (f_max s) i = Some mx -> xle mn v /\ xle v mx).
Proof.
  induction xs as [|x xs IH]; intros s A C D F T; cbn [ftells].
  - exists s. split; [reflexivity|]. do 4 (split; [assumption|]). do 3 (split; [reflexivity|]). intros []; reflexivity.
  - destruct (T (f_stdev s) x (or_introl eq_refl)) as [T1 T2]; [apply A|auto|].
    destruct (ftell_ok n s x A C D T1 T2) as (s1 & E & A1 & D1 & M1 & M2 & M3 & F1 & R). rewrite E. cbn [bind].
    assert (C1 : fcomp_ok s1) by (unfold fcomp_ok; rewrite M1, M2, M3; exact C).
    destruct (IH s1 A1 C1 D1 F1) as (s2 & E2 & A2 & C2 & D2 & F2 & N1 & N2 & N3 & R2). { intros s0 y Hy. apply T. right; auto. }
    exists s2. split; [exact E2|]. split; [exact A2|]. split; [exact C2|]. split; [exact D2|]. split; [exact F2|].
    split; [congruence|]. split; [congruence|]. split; [congruence|]. intros _ i v mn mx Hv Hmn Hmx.
    destruct xs as [|y ys].
    + cbn in E2. injection E2 as <-. assert (Hi : i < n) by (destruct A1 as [A1 _]; rewrite <- A1; apply nth_error_Some; congruence).
      destruct (nth_error (f_stdev s) i) as [o|] eqn:Eo. 2: { apply nth_error_None in Eo. destruct A as [A _]. lia. }
      destruct (nth_error (f_change s) i) as [mc|] eqn:Ec. 2: { apply nth_error_None in Ec. destruct A as (_ & _ & _ & A). lia. }
      destruct (R i o v mn mx mc Eo Hv Hmn Hmx Ec) as (Q1 & Q2 & _). auto.
    + apply (R2 ltac:(discriminate) i v mn mx); auto; congruence.
Qed.

(* a NaN component stays NaN; a zero component with an unlimited maximum change becomes NaN *)
Lemma nan_amount o mc : (o = XNaN \/ (exists q, o = XF q /\ (q == 0)%Q) /\ mc = XPI) -> xmul (xabs o) mc = XNaN.
Proof.
  intros [->|[(q & -> & Hq) ->]]; [destruct mc; reflexivity|]. cbn. assert (E : (Qabs q == 0)%Q) by (rewrite Hq; reflexivity).
  assert (C : (Qabs q ?= 0)%Q = Eq) by (apply Qeq_alt; auto). rewrite C. reflexivity.
Qed.
Lemma ftell_nan s x s' i o mc : ftell follow s x = Ok s' -> nth_error (f_stdev s) i = Some o -> nth_error (f_change s) i = Some mc ->
  (o = XNaN \/ (exists q, o = XF q /\ (q == 0)%Q) /\ mc = XPI) -> nth_error (f_stdev s') i = Some XNaN /\ f_change s' = f_change s.
Proof.
  intros E Ho Hc HN. unfold ftell, modify_vector in E. unfold modify_vector_using_max_change in E.
  destruct (Nat.eqb_spec (length (follow (f_stdev s) x)) (length (f_stdev s))) as [L|]; [|discriminate]. cbn [negb] in E.
  unfold expand_limit in E at 1. destruct (Nat.eqb_spec (length (f_change s)) (length (follow (f_stdev s) x))) as [L2|]; [|discriminate]. cbn [bind] in E. cbv zeta in E.
  set (r1 := map2 xmin _ _) in E. unfold modify_vector_using_bounds, expand_limit in E.
  destruct (Nat.eqb_spec (length (f_min s)) (length r1)) as [L3|]; [|discriminate]. destruct (Nat.eqb_spec (length (f_max s)) (length r1)) as [L4|]; [|discriminate].
  cbn [bind] in E. injection E as <-. cbn [f_stdev f_change]. split; auto.
  assert (Hi : i < length (f_stdev s)) by (apply nth_error_Some; congruence).
  assert (R1 : nth_error r1 i = Some XNaN).
  { unfold r1. rewrite !map2_nth_error, !nth_error_map, Ho. cbn [option_map]. rewrite Hc, (nan_amount o mc HN).
    destruct (nth_error (follow (f_stdev s) x) i) as [t|] eqn:Et. 2: { apply nth_error_None in Et. lia. }
    unfold xsub. assert (Z : forall a, xadd a XNaN = XNaN) by (intros []; reflexivity). cbn [xopp]. rewrite !Z, xmax_nan_r. reflexivity. }
  assert (Hr : i < length r1) by (apply nth_error_Some; congruence).
  rewrite !map2_nth_error, R1. destruct (nth_error (f_min s) i) eqn:E1. 2: { apply nth_error_None in E1. lia. }
  destruct (nth_error (f_max s) i) eqn:E2. 2: { apply nth_error_None in E2. lia. }
  rewrite xmax_nan_l, xmin_nan_l. reflexivity.
Qed.
Lemma ftells_nan : forall xs s s' i mc, ftells follow s xs = Ok s' -> nth_error (f_stdev s) i = Some XNaN -> nth_error (f_change s) i = Some mc ->
  nth_error (f_stdev s') i = Some XNaN.
Proof.
  induction xs as [|x xs IH]; intros s s' i mc E Ho Hc; cbn [ftells] in E.
  - injection E as <-. auto.
  - destruct (ftell follow s x) as [s1|] eqn:E1; [|discriminate]. cbn [bind] in E.
    destruct (ftell_nan s x s1 i XNaN mc E1 Ho Hc (or_introl eq_refl)) as [A B]. apply (IH s1 s' i mc E A). rewrite B. exact Hc.
Qed.
End Functional.

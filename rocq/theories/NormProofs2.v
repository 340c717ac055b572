(* Lemmas about RunningNorm objects on a heap. *)
From Coq Require Import Reals Lra.
From Verif Require Import Prelude NormModel NormSpec.
Close Scope R_scope.
Open Scope nat_scope.

Lemma hread_app h t a : a < length h -> hread (h ++ t) a = hread h a.
Proof. intros H. unfold hread. apply app_nth1. exact H. Qed.
Lemma hread_here h v t : hread (h ++ v :: t) (length h) = v.
Proof. unfold hread. rewrite app_nth2, Nat.sub_diag by lia. reflexivity. Qed.
Lemma hread_here2 h u v t : hread (h ++ u :: v :: t) (length h + 1) = v.
Proof. unfold hread. rewrite app_nth2 by lia. replace (length h + 1 - length h) with 1 by lia. reflexivity. Qed.
Lemma upd_len {A} (l : list A) i x : length (upd l i x) = length l.
Proof. revert i. induction l as [|a l IH]; intros [|i]; cbn; auto. Qed.
Lemma hread_upd_same h a v : a < length h -> hread (upd h a v) a = v.
Proof. unfold hread. revert a. induction h as [|x h IH]; intros [|a] H; cbn in *; try lia; auto. apply IH. lia. Qed.
Lemma hread_upd_other h a b v : a <> b -> hread (upd h a v) b = hread h b.
Proof. unfold hread. revert a b. induction h as [|x h IH]; intros [|a] [|b] H; cbn; try lia; auto. Qed.
Lemma map_upd_fn {A B} (f : A -> B) l i x : map f (upd l i x) = upd (map f l) i (f x).
Proof. revert i. induction l as [|a l IH]; intros [|i]; cbn; auto. rewrite IH. reflexivity. Qed.
Lemma nth_upd_same {A} (l : list A) i x : i < length l -> nth_error (upd l i x) i = Some x.
Proof. revert i. induction l as [|a l IH]; intros [|i] H; cbn in *; try lia; auto. apply IH. lia. Qed.
Lemma nth_upd_other {A} (l : list A) i j x : i <> j -> nth_error (upd l i x) j = nth_error l j.
Proof. revert i j. induction l as [|a l IH]; intros [|i] [|j] H; cbn; try lia; auto. Qed.
Lemma upd_ext {A B} (f g : A -> B) l i s : nth_error l i = Some s ->
  (forall k t, k <> i -> nth_error l k = Some t -> f t = g t) -> forall y, upd (map f l) i y = upd (map g l) i y.
Proof.
  revert i. induction l as [|a l IH]; intros [|i] HI HE y; cbn in *; try discriminate.
  - f_equal. apply map_ext_in. intros t Ht. apply In_nth_error in Ht. destruct Ht as [n Hn]. apply (HE (S n) t); [lia|exact Hn].
  - f_equal; [apply (HE 0 a); [lia|reflexivity]|]. apply IH; auto. intros k t Hk Ht. apply (HE (S k) t); [lia|exact Ht].
Qed.

Definition owns (s : hnorm) (a : nat) : Prop := h_sum s = Some a \/ h_sq s = Some a.
Record Inv (K : nat) (h : heap) (ns : list hnorm) : Prop := {
  inv_range : forall i s a, nth_error ns i = Some s -> owns s a -> K <= a < length h;
  inv_two : forall i s a b, nth_error ns i = Some s -> h_sum s = Some a -> h_sq s = Some b -> a <> b;
  inv_sep : forall i j s t a, i <> j -> nth_error ns i = Some s -> nth_error ns j = Some t -> owns s a -> owns t a -> False }.

Lemma as_norm_ext h h' s : (forall a, owns s a -> hread h' a = hread h a) -> as_norm h' s = as_norm h s.
Proof.
  intros H. unfold as_norm. destruct s as [d [a|] [b|] n]; cbn in *; f_equal; f_equal;
    try (apply H; unfold owns; cbn; auto).
Qed.
Lemma has_no_data_as h s : has_no_data (as_norm h s) = h_has_no_data s.
Proof. destruct s as [d [a|] [b|] n]; reflexivity. Qed.
Lemma has_data_as h s : has_data (as_norm h s) = h_has_data s.
Proof. destruct s as [d [a|] [b|] n]; reflexivity. Qed.

Lemma inv_grow K h t ns : Inv K h ns -> Inv K (h ++ t) ns.
Proof.
  intros [A B C]. split; auto. intros i s a Hi Ho. specialize (A i s a Hi Ho). rewrite app_length. lia.
Qed.
Lemma as_norm_grow K h t ns i s : Inv K h ns -> nth_error ns i = Some s -> as_norm (h ++ t) s = as_norm h s.
Proof. intros [A _ _] Hi. apply as_norm_ext. intros a Ho. apply hread_app. apply (A i s a Hi Ho). Qed.
Lemma map_as_norm_grow K h t ns : Inv K h ns -> map (as_norm (h ++ t)) ns = map (as_norm h) ns.
Proof.
  intros I. apply map_ext_in. intros s Hs. apply In_nth_error in Hs. destruct Hs as [i Hi]. eapply as_norm_grow; eauto.
Qed.

(* storing two fresh tensors in an empty norm *)
Lemma inv_store K h ns i s asum asq n : Inv K h ns -> nth_error ns i = Some s ->
  K <= asum < length h -> K <= asq < length h -> asum <> asq ->
  (forall k t a, nth_error ns k = Some t -> owns t a -> a <> asum /\ a <> asq) ->
  Inv K h (upd ns i (HNorm (h_dim s) (Some asum) (Some asq) n)).
Proof.
  intros [A B C] Hi R1 R2 HN HF. assert (Hlt : i < length ns) by (apply nth_error_Some; congruence). split.
  - intros k t a Hk Ho. destruct (Nat.eq_dec i k) as [<- | E].
    + rewrite nth_upd_same in Hk by auto. injection Hk as <-. destruct Ho as [Ho|Ho]; cbn in Ho; injection Ho as <-; auto.
    + rewrite nth_upd_other in Hk by auto. eapply A; eauto.
  - intros k t a b Hk. destruct (Nat.eq_dec i k) as [<- | E].
    + rewrite nth_upd_same in Hk by auto. injection Hk as <-. cbn. congruence.
    + rewrite nth_upd_other in Hk by auto. eapply B; eauto.
  - intros k l t u a Hkl Hk Hl Ho1 Ho2. destruct (Nat.eq_dec i k) as [<- | E].
    + rewrite nth_upd_same in Hk by auto. injection Hk as <-. rewrite nth_upd_other in Hl by auto.
      destruct (HF l u a Hl Ho2) as [N1 N2]. destruct Ho1 as [Ho|Ho]; cbn in Ho; congruence.
    + rewrite nth_upd_other in Hk by auto. destruct (Nat.eq_dec i l) as [<- | E2].
      * rewrite nth_upd_same in Hl by auto. injection Hl as <-. destruct (HF k t a Hk Ho1) as [N1 N2].
        destruct Ho2 as [Ho|Ho]; cbn in Ho; congruence.
      * rewrite nth_upd_other in Hl by auto. apply (C k l t u a); auto.
Qed.
Lemma inv_same_refs K h h' ns i s n a b : Inv K h ns -> nth_error ns i = Some s -> length h' = length h ->
  h_sum s = Some a -> h_sq s = Some b -> Inv K h' (upd ns i (HNorm (h_dim s) (Some a) (Some b) n)).
Proof.
  intros [A B C] Hi HL Ha Hb. assert (Hlt : i < length ns) by (apply nth_error_Some; congruence).
  assert (HE : forall x, owns (HNorm (h_dim s) (Some a) (Some b) n) x -> owns s x) by (unfold owns; cbn; intros x [E|E]; rewrite Ha, Hb; auto).
  split.
  - intros k t x Hk Ho. rewrite HL. destruct (Nat.eq_dec i k) as [<- | E].
    + rewrite nth_upd_same in Hk by auto. injection Hk as <-. apply (A i s x Hi). apply HE. exact Ho.
    + rewrite nth_upd_other in Hk by auto. eapply A; eauto.
  - intros k t x y Hk. destruct (Nat.eq_dec i k) as [<- | E].
    + rewrite nth_upd_same in Hk by auto. injection Hk as <-. cbn. intros E1 E2. injection E1 as <-. injection E2 as <-. apply (B i s a b); auto.
    + rewrite nth_upd_other in Hk by auto. eapply B; eauto.
  - intros k l t u x Hkl Hk Hl Ho1 Ho2. destruct (Nat.eq_dec i k) as [<- | E].
    + rewrite nth_upd_same in Hk by auto. injection Hk as <-. rewrite nth_upd_other in Hl by auto.
      apply (C i l s u x); auto.
    + rewrite nth_upd_other in Hk by auto. destruct (Nat.eq_dec i l) as [<- | E2].
      * rewrite nth_upd_same in Hl by auto. injection Hl as <-. apply (C k i t s x); auto.
      * rewrite nth_upd_other in Hl by auto. apply (C k l t u x); auto.
Qed.

(* accumulation: the caller's cells stay, the norms get the values of the value-level function *)
Lemma accumulate_sim K h ns i s asum asq n : Inv K h ns -> nth_error ns i = Some s ->
  (h_has_no_data s = true -> K <= asum < length h /\ K <= asq < length h /\ asum <> asq /\
     (forall k t a, nth_error ns k = Some t -> owns t a -> a <> asum /\ a <> asq)) ->
  (forall a, h_sum s = Some a -> asq <> a) ->
  match h_accumulate h s asum asq n with
  | Ok (h', s') =>
      Inv K h' (upd ns i s') /\ length h' = length h /\ (forall x, x < K -> hread h' x = hread h x) /\
      accumulate (as_norm h s) (hread h asum) (hread h asq) n = Ok (as_norm h' s') /\
      upd (map (as_norm h') ns) i (as_norm h' s') = upd (map (as_norm h) ns) i (as_norm h' s')
  | Err e => accumulate (as_norm h s) (hread h asum) (hread h asq) n = Err e
  end.
Proof.
  intros I Hi HF HA. unfold h_accumulate, accumulate. rewrite has_no_data_as, has_data_as.
  destruct (h_has_no_data s) eqn:E1.
  - destruct (HF eq_refl) as (R1 & R2 & HN & HS). split; [|split; [|split; [|split]]]; auto.
    apply inv_store; auto.
  - destruct (h_has_data s) eqn:E2; [|reflexivity].
    destruct s as [d [a|] [b|] c]; cbn in E2; try discriminate. cbn [h_sum h_sq h_dim h_count].
    pose proof (inv_range _ _ _ I i _ a Hi (or_introl eq_refl)) as Ra.
    pose proof (inv_range _ _ _ I i _ b Hi (or_intror eq_refl)) as Rb.
    pose proof (inv_two _ _ _ I i _ a b Hi eq_refl eq_refl) as Hab.
    specialize (HA a eq_refl).
    set (h1 := upd h a (map2 nadd (hread h a) (hread h asum))).
    set (h2 := upd h1 b (map2 nadd (hread h1 b) (hread h1 asq))).
    assert (L : length h2 = length h) by (unfold h2, h1; rewrite !upd_len; reflexivity).
    assert (O : forall x, x <> a -> x <> b -> hread h2 x = hread h x).
    { intros x N1 N2. unfold h2. rewrite hread_upd_other by auto. unfold h1. apply hread_upd_other. auto. }
    split; [|split; [|split; [|split]]]; auto.
    + apply (inv_same_refs K h h2 ns i _ _ a b I Hi L); reflexivity.
    + intros x Hx. apply O; lia.
    + unfold as_norm, with_data. cbn [h_sum h_sq h_dim h_count option_map n_sum n_sq n_count n_dim n_minvar n_lb n_ub].
      assert (Va : hread h2 a = map2 nadd (hread h a) (hread h asum)).
      { unfold h2. rewrite hread_upd_other by auto. unfold h1. apply hread_upd_same. lia. }
      assert (Vb : hread h2 b = map2 nadd (hread h b) (hread h asq)).
      { unfold h2. rewrite hread_upd_same by (unfold h1; rewrite upd_len; lia). unfold h1.
        rewrite (hread_upd_other h a b), (hread_upd_other h a asq) by auto. reflexivity. }
      rewrite Va, Vb. reflexivity.
    + apply (upd_ext _ _ ns i _ Hi). intros k t Hk Ht. apply as_norm_ext. intros x Hx. apply O; intros ->.
      * apply (inv_sep _ _ _ I k i t _ a Hk Ht Hi Hx). left. reflexivity.
      * apply (inv_sep _ _ _ I k i t _ b Hk Ht Hi Hx). right. reflexivity.
Qed.

Lemma nth_error_map_some {A B} (f : A -> B) l i x : nth_error l i = Some x -> nth_error (map f l) i = Some (f x).
Proof. intros H. rewrite nth_error_map, H. reflexivity. Qed.
Lemma nth_error_map_none {A B} (f : A -> B) l i : nth_error l i = None -> nth_error (map f l) i = None.
Proof. intros H. rewrite nth_error_map, H. reflexivity. Qed.
Lemma merge_sim h s x : merge (as_norm h s) (as_norm h x) None =
  if 0 <? h_count x then
    if negb (h_dim s =? h_dim x) then Err ValueError
    else match h_sum x, h_sq x with
         | Some a, Some b => accumulate (as_norm h s) (hread h a) (hread h b) (h_count x)
         | _, _ => Err AttributeError
         end
  else Ok (as_norm h s).
Proof. unfold merge, as_norm at 1. cbn [n_count n_dim]. destruct x as [d [a|] [b|] n]; reflexivity. Qed.

Definition sim (h0 : heap) (sys : hsys) : Prop :=
  Inv (length h0) (fst sys) (snd sys) /\ (forall x, x < length h0 -> hread (fst sys) x = hread h0 x) /\ length h0 <= length (fst sys).

Lemma hstep_sim h0 sys o : sim h0 sys -> own_arrays h0 o -> no_first_alias sys o ->
  match hstep sys o with
  | Ok sys' => sim h0 sys' /\ vstep h0 (map (as_norm (fst sys)) (snd sys)) o = Ok (map (as_norm (fst sys')) (snd sys'))
  | Err e => vstep h0 (map (as_norm (fst sys)) (snd sys)) o = Err e
  end.
Proof.
  destruct sys as [h ns]. cbn [fst snd]. intros (I & HR & HL) OA NA. cbn [fst snd] in I, HR, HL.
  destruct o as [i x same|i rows mask|i j]; cbn [hstep vstep].
  - destruct (nth_error ns i) as [s|] eqn:Hi; [|rewrite (nth_error_map_none _ _ _ Hi); reflexivity].
    rewrite (nth_error_map_some _ _ _ _ Hi). unfold update. cbn in OA. rewrite <- (HR x OA).
    destruct (verify (as_norm h s) (XOne (hread h x))) as [[]|e]; [|reflexivity]. cbn [bind extract rmap].
    set (v := hread h x) in *.
    assert (HP : exists t ax, (if same then (h, x) else (h ++ [v], length h)) = (h ++ t, ax) /\ ax < length (h ++ t) /\ hread (h ++ t) ax = v /\
      (h_has_no_data s = true -> ax = length h)).
    { destruct same.
      - exists [], x. rewrite app_nil_r. split; [reflexivity|]. split; [lia|]. split; [reflexivity|].
        intros E. cbn in NA. rewrite (NA s Hi) in E. discriminate.
      - exists [v], (length h). split; [reflexivity|]. split; [rewrite app_length; cbn; lia|]. split; [apply hread_here|auto]. }
    destruct HP as (t & ax & -> & Hax & Hv & Hfresh). clear NA.
    set (h2 := (h ++ t) ++ [map nsquare v]).
    assert (E2 : h2 = h ++ (t ++ [map nsquare v])) by (unfold h2; rewrite <- app_assoc; reflexivity).
    assert (I2 : Inv (length h0) h2 ns) by (rewrite E2; apply inv_grow; auto).
    assert (L2 : length h2 = length (h ++ t) + 1) by (unfold h2; rewrite (app_length (h ++ t)); reflexivity).
    assert (L1 : length h <= length (h ++ t)) by (rewrite app_length; lia).
    assert (V1 : hread h2 ax = v) by (unfold h2; rewrite hread_app; auto).
    assert (V2 : hread h2 (length (h ++ t)) = map nsquare v) by (unfold h2; apply hread_here).
    pose proof (accumulate_sim (length h0) h2 ns i s ax (length (h ++ t)) 1 I2 Hi) as AS.
    assert (A1 : h_has_no_data s = true -> length h0 <= ax < length h2 /\ length h0 <= length (h ++ t) < length h2 /\ ax <> length (h ++ t) /\
     (forall k t0 a, nth_error ns k = Some t0 -> owns t0 a -> a <> ax /\ a <> length (h ++ t))).
    { intros E. specialize (Hfresh E). split; [lia|]. split; [lia|]. split; [lia|].
      intros k t0 a Hk Ho. pose proof (inv_range _ _ _ I k t0 a Hk Ho). lia. }
    assert (A2 : forall a, h_sum s = Some a -> length (h ++ t) <> a).
    { intros a Ha. pose proof (inv_range _ _ _ I i s a Hi (or_introl Ha)). lia. }
    specialize (AS A1 A2). rewrite V1, V2 in AS.
    assert (G : as_norm h2 s = as_norm h s) by (rewrite E2; eapply as_norm_grow; eauto). rewrite G in AS.
    destruct (h_accumulate h2 s ax (length (h ++ t)) 1) as [[h3 s']|e].
    + destruct AS as (I3 & L3 & R3 & AC & UE). cbn [bind rmap fst snd].
      change (map (fun _ => _) _) with (map nsquare v). rewrite AC. cbn [rmap fst snd]. split.
      * split; [exact I3|]. cbn [fst snd]. split; [|lia]. intros y Hy. rewrite R3 by auto. rewrite E2, hread_app by lia. auto.
      * f_equal. rewrite map_upd_fn, UE. rewrite E2. rewrite (map_as_norm_grow (length h0)) by auto. reflexivity.
    + cbn [bind rmap]. rewrite AS. reflexivity.
  - destruct (nth_error ns i) as [s|] eqn:Hi; [|rewrite (nth_error_map_none _ _ _ Hi); reflexivity].
    rewrite (nth_error_map_some _ _ _ _ Hi). unfold update. cbn [verify]. replace (n_dim (as_norm h s)) with (h_dim s) by reflexivity.
    rewrite Nat.eqb_refl. cbn [bind]. cbn in OA.
    replace (map (hread h0) rows) with (map (hread h) rows).
    2:{ apply map_ext_in. intros x Hx. apply HR. apply (proj1 (Forall_forall _ _) OA). exact Hx. }
    destruct (extract (as_norm h s) (XBatch (h_dim s) (map (hread h) rows)) mask) as [[[sm sq] n]|e]; [|reflexivity]. cbn [bind].
    set (h2 := h ++ [sm; sq]).
    assert (I2 : Inv (length h0) h2 ns) by (apply inv_grow; auto).
    assert (L2 : length h2 = length h + 2) by (unfold h2; rewrite app_length; reflexivity).
    assert (V1 : hread h2 (length h) = sm) by apply hread_here.
    assert (V2 : hread h2 (length h + 1) = sq) by apply hread_here2.
    pose proof (accumulate_sim (length h0) h2 ns i s (length h) (length h + 1) n I2 Hi) as AS.
    assert (A1 : h_has_no_data s = true -> length h0 <= length h < length h2 /\ length h0 <= length h + 1 < length h2 /\ length h <> length h + 1 /\
     (forall k t0 a, nth_error ns k = Some t0 -> owns t0 a -> a <> length h /\ a <> length h + 1)).
    { intros E. split; [lia|]. split; [lia|]. split; [lia|].
      intros k t0 a Hk Ho. pose proof (inv_range _ _ _ I k t0 a Hk Ho). lia. }
    assert (A2 : forall a, h_sum s = Some a -> length h + 1 <> a).
    { intros a Ha. pose proof (inv_range _ _ _ I i s a Hi (or_introl Ha)). lia. }
    specialize (AS A1 A2). rewrite V1, V2 in AS.
    assert (G : as_norm h2 s = as_norm h s) by (eapply as_norm_grow; eauto). rewrite G in AS.
    destruct (h_accumulate h2 s (length h) (length h + 1) n) as [[h3 s']|e].
    + destruct AS as (I3 & L3 & R3 & AC & UE). cbn [bind rmap]. rewrite AC. cbn [rmap fst snd]. split.
      * split; [exact I3|]. cbn [fst snd]. split; [|lia]. intros y Hy. rewrite R3 by auto. unfold h2. rewrite hread_app by lia. auto.
      * f_equal. rewrite map_upd_fn, UE. unfold h2. rewrite (map_as_norm_grow (length h0)) by auto. reflexivity.
    + cbn [bind rmap]. rewrite AS. reflexivity.
  - destruct (nth_error ns i) as [s|] eqn:Hi; [|rewrite (nth_error_map_none _ _ _ Hi); reflexivity].
    rewrite (nth_error_map_some _ _ _ _ Hi).
    destruct (nth_error ns j) as [x|] eqn:Hj; [|rewrite (nth_error_map_none _ _ _ Hj); reflexivity].
    rewrite (nth_error_map_some _ _ _ _ Hj). rewrite merge_sim.
    destruct (0 <? h_count x) eqn:Ec.
    2:{ cbn [rmap fst snd]. split; [split; auto|]. f_equal. apply nth_error_ext. intros k. destruct (Nat.eq_dec i k) as [<- | E].
        - rewrite nth_upd_same; [symmetry; apply nth_error_map_some; auto|]. rewrite map_length. apply nth_error_Some. congruence.
        - apply nth_upd_other. auto. }
    destruct (negb (h_dim s =? h_dim x)); [reflexivity|].
    destruct x as [dx [a|] [b|] c]; cbn [h_sum h_sq]; try reflexivity. cbn [h_count].
    pose proof (inv_range _ _ _ I j _ a Hj (or_introl eq_refl)) as Ra.
    pose proof (inv_range _ _ _ I j _ b Hj (or_intror eq_refl)) as Rb.
    destruct (h_has_no_data s) eqn:E1.
    + set (h2 := h ++ [hread h a; hread h b]).
      assert (I2 : Inv (length h0) h2 ns) by (apply inv_grow; auto).
      assert (L2 : length h2 = length h + 2) by (unfold h2; rewrite app_length; reflexivity).
      unfold accumulate. rewrite has_no_data_as, E1. cbn [rmap fst snd]. split.
      * split; [|split]; cbn [fst snd].
        -- apply inv_store; auto; try lia. intros k t y Hk Ho. pose proof (inv_range _ _ _ I k t y Hk Ho). lia.
        -- intros y Hy. unfold h2. rewrite hread_app by lia. auto.
        -- lia.
      * assert (EQ : as_norm h2 (HNorm (h_dim s) (Some (length h)) (Some (length h + 1)) c) =
          with_data (as_norm h s) (Some (hread h a)) (Some (hread h b)) c).
        { unfold as_norm, with_data. cbn [h_sum h_sq h_dim h_count option_map n_dim n_minvar n_lb n_ub]. unfold h2.
          rewrite hread_here, hread_here2. reflexivity. }
        f_equal. rewrite map_upd_fn, EQ. unfold h2. rewrite (map_as_norm_grow (length h0)) by auto. reflexivity.
    + pose proof (accumulate_sim (length h0) h ns i s a b c I Hi) as AS.
      assert (A1 : h_has_no_data s = true -> length h0 <= a < length h /\ length h0 <= b < length h /\ a <> b /\
       (forall k t0 a0, nth_error ns k = Some t0 -> owns t0 a0 -> a0 <> a /\ a0 <> b)) by (intros E; congruence).
      assert (A2 : forall y, h_sum s = Some y -> b <> y).
      { intros y Hy ->. destruct (Nat.eq_dec i j) as [<- | E].
        - rewrite Hi in Hj. injection Hj as ->. cbn in Hy. injection Hy as <-. apply (inv_two _ _ _ I i _ a a Hi); reflexivity.
        - apply (inv_sep _ _ _ I i j s _ y E Hi Hj); [left; auto|right; reflexivity]. }
      specialize (AS A1 A2).
      destruct (h_accumulate h s a b c) as [[h3 s']|e].
      * destruct AS as (I3 & L3 & R3 & AC & UE). cbn [bind rmap]. rewrite AC. cbn [rmap fst snd]. split.
        -- split; [exact I3|]. cbn [fst snd]. split; [|lia]. intros y Hy. rewrite R3 by auto. auto.
        -- f_equal. rewrite map_upd_fn, UE. reflexivity.
      * cbn [bind rmap]. rewrite AS. reflexivity.
Qed.

Lemma hrun_sim h0 os : forall sys, sim h0 sys -> Forall (own_arrays h0) os ->
  (forall pre o post, os = pre ++ o :: post -> no_first_alias (hrun sys pre) o) ->
  sim h0 (hrun sys os) /\ vrun h0 (map (as_norm (fst sys)) (snd sys)) os = map (as_norm (fst (hrun sys os))) (snd (hrun sys os)).
Proof.
  induction os as [|o os IH]; intros sys S0 HF HA; [split; auto|].
  inversion HF as [|? ? A B]; subst. cbn [hrun vrun fold_left].
  pose proof (hstep_sim h0 sys o S0 A (HA [] o os eq_refl)) as ST.
  destruct (hstep sys o) as [sys'|e] eqn:ES.
  - destruct ST as [S1 V]. rewrite V. apply IH; auto. intros pre o' post E. generalize (HA (o :: pre) o' post (f_equal (cons o) E)).
    unfold hrun at 1. cbn [fold_left]. rewrite ES. auto.
  - rewrite ST. apply IH; auto. intros pre o' post E. generalize (HA (o :: pre) o' post (f_equal (cons o) E)).
    unfold hrun at 1. cbn [fold_left]. rewrite ES. auto.
Qed.
Lemma sim_init h0 ds : sim h0 (h0, map new_hnorm ds).
Proof.
  split; [|split; cbn; auto]. cbn [fst snd]. split.
  - intros i s a Hi [Ho|Ho]; rewrite nth_error_map in Hi; destruct (nth_error ds i); cbn in Hi; inversion Hi; subst; cbn in Ho; discriminate.
  - intros i s a b Hi Ha. rewrite nth_error_map in Hi; destruct (nth_error ds i); cbn in Hi; inversion Hi; subst; cbn in Ha; discriminate.
  - intros i j s t a _ Hi _ [Ho|Ho]; rewrite nth_error_map in Hi; destruct (nth_error ds i); cbn in Hi; inversion Hi; subst; cbn in Ho; discriminate.
Qed.

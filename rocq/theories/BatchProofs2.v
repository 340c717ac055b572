(* Best/worst tracking, comparison of solutions, set_evals. *)
From Verif Require Import Prelude FloatLib BatchModel BatchSpec BatchProofs SortLib WorkProofs.
Open Scope nat_scope.

Section T.
Context {V : Type}.
Implicit Type b : batch V.
Notation row := (V * list fl)%type.

Lemma finite_no_nan j (rs : list row) : finite j rs -> no_nan j rs.
Proof. apply Forall_impl. intros r. destruct (score j r); auto; discriminate. Qed.

Lemma earliest_in d j (rs : list row) r : earliest_best d j rs r -> In r rs.
Proof. intros (pre & post & -> & _). apply in_elt. Qed.
Lemma earliest_max d j (rs : list row) r : earliest_best d j rs r -> Forall (fun x => ~ better d (score j x) (score j r)) rs.
Proof.
  intros (pre & post & -> & Hpre & Hpost). apply Forall_app. split.
  - eapply Forall_impl; [|exact Hpre]. intros x. apply better_asym.
  - constructor; auto. apply better_irrefl.
Qed.

Lemma earliest_keep d j (hs rs : list row) r r' : no_nan j hs -> no_nan j rs ->
  earliest_best d j hs r -> earliest_best d j rs r' -> ~ better d (score j r') (score j r) ->
  earliest_best d j (hs ++ rs) r.
Proof.
  intros N1 N2 (pre & post & -> & Hpre & Hpost) Hr' Hn. pose proof (earliest_in _ _ _ _ Hr') as Hi.
  apply earliest_max in Hr'. unfold no_nan in N2. rewrite Forall_forall in N2.
  exists pre, (post ++ rs). split; [rewrite <- app_assoc; reflexivity|]. split; auto.
  apply Forall_app. split; auto. eapply Forall_impl; [|exact Hr']. cbn. intros x Hx.
  apply (better_ntrans d _ (score j r')); auto.
Qed.
Lemma earliest_replace d j (hs rs : list row) r r' : no_nan j hs -> no_nan j rs ->
  earliest_best d j hs r -> earliest_best d j rs r' -> better d (score j r') (score j r) ->
  earliest_best d j (hs ++ rs) r'.
Proof.
  intros N1 N2 Hr (pre & post & -> & Hpre & Hpost) Hb.
  pose proof (earliest_in _ _ _ _ Hr) as Hi. apply earliest_max in Hr.
  exists (hs ++ pre), post. split; [rewrite app_assoc; reflexivity|]. split; auto.
  apply Forall_app. split; auto. unfold no_nan in N1. rewrite Forall_forall in *. intros x Hx. specialize (Hr x Hx).
  pose proof (N1 x Hx) as Nx. pose proof (N1 r Hi) as Nr. revert Hr Hb Nx Nr. unfold better.
  destruct d; rewrite <- !flt_lt; destruct (score j r'), (score j r), (score j x); cbn; try discriminate; try congruence; auto; lia.
Qed.

(* state of one objective's tracker after having seen the rows hs *)
Definition tracked (d : bool) (j : nat) (hs : list row) (t : track V) : Prop :=
  match hs with
  | [] => t = init_track d
  | _ => exists rb rw, t_best t = Some rb /\ t_be t = score j rb /\ earliest_best d j hs rb /\
                       t_worst t = Some rw /\ t_we t = score j rw /\ earliest_best (negb d) j hs rw
  end.

Lemma first_better_inf d x : is_fin x = true -> first_is_better d x (t_be (@init_track V d)) = true.
Proof. destruct d, x; cbn; auto; discriminate. Qed.
Lemma first_worse_inf d x : is_fin x = true -> first_is_worse d x (t_we (@init_track V d)) = true.
Proof. destruct d, x; cbn; auto; discriminate. Qed.

Lemma track_obj_ok b j d hs t : wf b -> b_len b <> 0 -> nth_error (b_desc b) j = Some d ->
  finite j (rows b) -> finite j hs -> tracked d j hs t ->
  exists t', track_obj b j t = Ok t' /\ tracked d j (hs ++ rows b) t'.
Proof.
  intros Hwf Hn Hd Hfin Hfh Ht.
  pose proof (finite_no_nan _ _ Hfin) as Nb. pose proof (finite_no_nan _ _ Hfh) as Nh.
  assert (HN : no_nan_col b j).
  { unfold no_nan_col. rewrite <- (rows_ev b Hwf), Forall_map. exact Nb. }
  destruct (argbest_ok b j d Hwf Hn Hd HN) as (bi & rb & Ebi & Hrb & _ & (p1 & q1 & R1 & L1 & P1 & Q1)).
  destruct (argworst_ok b j d Hwf Hn Hd HN) as (wi & rw & Ewi & Hrw & _ & (p2 & q2 & R2 & L2 & P2 & Q2)).
  destruct (obj_index_ok b j d Hd) as (_ & E2 & _ & E4).
  assert (EB : earliest_best d j (rows b) rb) by (exists p1, q1; auto).
  assert (EW : earliest_best (negb d) j (rows b) rw) by (exists p2, q2; auto).
  assert (RW : forall i r, nth_error (rows b) i = Some r -> BatchModel.row b i = Ok r /\
     nth i (map (fun r => nth j r NaN) (b_ev b)) NaN = score j r).
  { intros i r Hi. unfold BatchModel.row. unfold rows, rows_of in Hi.
    assert (He : nth_error (b_ev b) i = Some (snd r)) by (rewrite <- (rows_ev b Hwf), nth_error_map; unfold rows, rows_of; rewrite Hi; reflexivity).
    split.
    - rewrite CMemProofs.combine_nth_error in Hi. destruct (nth_error (b_vals b) i) as [v|]; [|discriminate].
      destruct (nth_error (b_ev b) i) as [e|]; [|discriminate]. congruence.
    - rewrite (col_nth b j i _ He). reflexivity. }
  destruct (RW _ _ Hrb) as [Rb Sb]. destruct (RW _ _ Hrw) as [Rw Sw].
  unfold track_obj. rewrite Ebi. cbn [bind]. rewrite Ewi. cbn [bind]. rewrite E4. cbn [bind].
  rewrite Rb. cbn [bind]. rewrite Rw. cbn [bind]. rewrite E2. cbn [bind]. rewrite Sb, Sw.
  eexists. split; [reflexivity|].
  assert (Fb : is_fin (score j rb) = true) by (unfold finite in Hfin; rewrite Forall_forall in Hfin; apply Hfin; eapply nth_error_In; eauto).
  assert (Fw : is_fin (score j rw) = true) by (unfold finite in Hfin; rewrite Forall_forall in Hfin; apply Hfin; eapply nth_error_In; eauto).
  destruct hs as [|h hs].
  - cbn in Ht. subst t. unfold update_track. rewrite (first_better_inf d _ Fb). cbn [t_we t_be t_best t_worst].
    rewrite (first_worse_inf d _ Fw). cbn [app].
    unfold tracked. destruct (rows b) as [|r0 rs0] eqn:Er; [destruct bi; discriminate|].
    exists rb, rw. cbn. repeat split; auto.
  - destruct Ht as (ob & ow & T1 & T2 & T3 & T4 & T5 & T6).
    change ((h :: hs) ++ rows b) with (h :: (hs ++ rows b)). unfold tracked.
    change (h :: hs ++ rows b) with ((h :: hs) ++ rows b).
    unfold update_track. cbv zeta. rewrite T2.
    match goal with |- context [t_we (if ?c then ?x else ?y)] => set (t1 := if c then x else y) end.
    assert (A1 : exists nb, t_best t1 = Some nb /\ t_be t1 = score j nb /\ earliest_best d j ((h :: hs) ++ rows b) nb).
    { unfold t1. destruct (first_is_better d (score j rb) (score j ob)) eqn:F.
      - exists rb. cbn. split; auto. split; auto. apply (earliest_replace d j (h :: hs) (rows b) ob rb); auto. apply fib_better; auto.
      - exists ob. split; auto. split; auto. apply (earliest_keep d j (h :: hs) (rows b) ob rb); auto. rewrite <- fib_better. congruence. }
    assert (A2 : t_we t1 = score j ow /\ t_worst t1 = Some ow) by (unfold t1; destruct (first_is_better _ _ _); auto).
    destruct A1 as (nb & B1 & B2 & B3). destruct A2 as [A2 A3]. rewrite A2.
    destruct (first_is_worse d (score j rw) (score j ow)) eqn:F.
    + exists nb, rw. cbn. repeat split; auto. apply (earliest_replace (negb d) j (h :: hs) (rows b) ow rw); auto. apply fiw_better; auto.
    + exists nb, ow. repeat split; auto. apply (earliest_keep (negb d) j (h :: hs) (rows b) ow rw); auto. rewrite <- fiw_better. congruence.
Qed.

Lemma track_all_ok b hs : forall ts j, wf b -> b_len b <> 0 ->
  (forall i t, nth_error ts i = Some t -> exists d, nth_error (b_desc b) (j + i) = Some d /\ tracked d (j + i) hs t) ->
  (forall k, k < num_objs b -> finite k (rows b) /\ finite k hs) ->
  exists ts', track_all b j ts = Ok ts' /\ length ts' = length ts /\
    (forall i t, nth_error ts' i = Some t -> exists d, nth_error (b_desc b) (j + i) = Some d /\ tracked d (j + i) (hs ++ rows b) t).
Proof.
  induction ts as [|t ts IH]; intros j Hwf Hn Ht Hf; cbn [track_all].
  - exists []. split; auto. split; auto. intros [|i] t; discriminate.
  - destruct (Ht 0 t eq_refl) as (d & Hd & Htr). rewrite Nat.add_0_r in *.
    assert (Hj : j < num_objs b) by (apply nth_error_Some; unfold num_objs; congruence).
    destruct (Hf j Hj) as [F1 F2].
    destruct (track_obj_ok b j d hs t Hwf Hn Hd F1 F2 Htr) as (t' & Et' & Ht').
    rewrite Et'. cbn [bind].
    destruct (IH (S j) Hwf Hn) as (ts' & Ets & Hl & Hts); auto.
    { intros i x Hi. destruct (Ht (S i) x Hi) as (d' & Hd' & Htr'). replace (S j + i) with (j + S i) by lia. eauto. }
    rewrite Ets. cbn [bind]. exists (t' :: ts'). split; auto. split; [cbn; lia|].
    intros [|i] x Hi.
    + cbn in Hi. injection Hi as <-. rewrite Nat.add_0_r. eauto.
    + cbn in Hi. replace (j + S i) with (S j + i) by lia. apply Hts; auto.
Qed.

Lemma track_history_snoc senses (hist : list (batch V)) b :
  track_history senses (hist ++ [b]) = fst (get_best_and_worst senses (track_history senses hist) b).
Proof. unfold track_history. rewrite fold_left_app. reflexivity. Qed.

Lemma history_inv senses : forall hist, Forall (good senses) hist ->
  exists ts, match track_history senses hist with Some ts' => ts' | None => map init_track senses end = ts /\
    length ts = length senses /\
    (forall i t, nth_error ts i = Some t -> exists d, nth_error senses i = Some d /\ tracked d i (concat (map rows hist)) t).
Proof.
  intros hist. pattern hist. apply rev_ind; clear hist.
  - intros _. exists (map init_track senses). split; auto. split; [apply map_length|].
    intros i t H. rewrite nth_error_map in H. destruct (nth_error senses i) as [d|]; [|discriminate].
    injection H as <-. exists d. split; auto. reflexivity.
  - intros b hist IH HF. apply Forall_app in HF. destruct HF as [HF Hb]. inversion Hb as [|? ? Hg _]; subst. clear Hb.
    destruct (IH HF) as (ts & Hts & Hl & Hi). destruct Hg as (Hwf & Hd & Hn & Hfin). clear IH.
    destruct (track_all_ok b (concat (map rows hist)) ts 0 Hwf Hn) as (ts' & E & Hl' & Hi').
    { rewrite Hd. exact Hi. }
    { intros k Hk. unfold num_objs in Hk. rewrite Hd in Hk. split; [auto|]. unfold finite. apply Forall_concat, Forall_map.
      eapply Forall_impl; [|exact HF]. intros a (_ & _ & _ & Ha). apply (Ha k Hk). }
    exists ts'. rewrite track_history_snoc.
    unfold get_best_and_worst. rewrite Hts, E. cbn [fst]. split; [reflexivity|]. split; [lia|].
    rewrite map_app, concat_app. cbn [map concat]. rewrite app_nil_r. rewrite Hd in Hi'. exact Hi'.
Qed.

Lemma best_and_worst_ok senses hist b : Forall (good senses) (hist ++ [b]) ->
  let all := concat (map rows (hist ++ [b])) in
  let st := snd (get_best_and_worst senses (track_history senses hist) b) in
  (forall d, senses = [d] -> exists rb rw, st = Ok (One rb rw (score 0 rb) (score 0 rw)) /\ seen_pair d 0 all rb rw) /\
  (length senses <> 1 -> exists bs ws, st = Ok (Many bs ws) /\ length bs = length senses /\ length ws = length senses /\
     forall j d, nth_error senses j = Some d -> exists rb rw, nth_error bs j = Some (Some rb) /\ nth_error ws j = Some (Some rw) /\
       seen_pair d j all rb rw).
Proof.
  intros HF. cbn zeta. destruct (history_inv senses _ HF) as (ts & Hts & Hl & Hi).
  pose proof HF as HF'. apply Forall_app in HF'. destruct HF' as [_ Hb]. pose proof (Forall_inv Hb) as Hg. clear Hb.
  rewrite track_history_snoc in Hts. set (all := concat (map rows (hist ++ [b]))) in *.
  assert (Hne : all <> []).
  { unfold all. rewrite map_app, concat_app. cbn. rewrite app_nil_r. destruct Hg as (Hwf & _ & Hn & _).
    intros C. apply app_eq_nil in C. destruct C as [_ C]. pose proof (rows_length b Hwf) as L. rewrite C in L. cbn in L. lia. }
  assert (Est : exists ts', get_best_and_worst senses (track_history senses hist) b = (Some ts', report ts') /\ ts' = ts).
  { assert (HFh : Forall (good senses) hist) by (apply Forall_app in HF; tauto).
    destruct (history_inv senses hist HFh) as (ts0 & Hts0 & Hl0 & Hi0).
    destruct Hg as (Hwf & Hd & Hn & Hfin).
    destruct (track_all_ok b (concat (map rows hist)) ts0 0 Hwf Hn) as (ts' & E & Hl' & Hi').
    { rewrite Hd. exact Hi0. }
    { intros k Hk. unfold num_objs in Hk. rewrite Hd in Hk. split; [auto|]. unfold finite. apply Forall_concat, Forall_map.
      eapply Forall_impl; [|exact HFh]. intros a (_ & _ & _ & Ha). apply (Ha k Hk). }
    exists ts'. unfold get_best_and_worst in *. rewrite Hts0, E in *. cbn in Hts. split; auto. }
  destruct Est as (ts' & Est & ->). rewrite Est. cbn [snd]. clear Est Hts.
  assert (HT : forall i t, nth_error ts i = Some t -> exists d rb rw, nth_error senses i = Some d /\
     t_best t = Some rb /\ t_worst t = Some rw /\ seen_pair d i all rb rw).
  { intros i t Hit. destruct (Hi i t Hit) as (d & Hd & Htr). unfold tracked in Htr. destruct all as [|a0 al]; [congruence|].
    destruct Htr as (rb & rw & T1 & T2 & T3 & T4 & T5 & T6). exists d, rb, rw. unfold seen_pair. auto. }
  split.
  - intros d ->. destruct ts as [|t [|t2 ts]]; try discriminate.
    destruct (HT 0 t eq_refl) as (d' & rb & rw & Hd' & T1 & T2 & T3). cbn in Hd'. injection Hd' as <-.
    exists rb, rw. cbn. rewrite T1, T2. split; auto.
  - intros Hs. exists (map t_best ts), (map t_worst ts). split.
    + destruct ts as [|t [|t2 ts]]; cbn in *; auto. lia.
    + rewrite !map_length. split; [auto|]. split; [auto|]. intros j d Hj.
      destruct (nth_error ts j) as [t|] eqn:Et.
      2:{ apply nth_error_None in Et. assert (j < length senses) by (apply nth_error_Some; congruence). lia. }
      destruct (HT j t Et) as (d' & rb & rw & Hd' & T1 & T2 & T3). assert (d' = d) by congruence. subst d'.
      exists rb, rw. rewrite !nth_error_map, Et. cbn. rewrite T1, T2. auto.
Qed.

(* ------------------------------------------------------------------- compare_solutions *)
Lemma compare_sign senses j d (a c : row) : nth_error senses j = Some d ->
  is_nan (score j a) = false -> is_nan (score j c) = false ->
  exists r, compare_solutions senses a c (Some (Z.of_nat j)) = Ok r /\
    is_better senses a c (Some (Z.of_nat j)) = Ok (flt (Fin 0) r) /\ is_worse senses a c (Some (Z.of_nat j)) = Ok (flt r (Fin 0)) /\
    (flt (Fin 0) r = true <-> better d (score j a) (score j c)) /\
    (flt r (Fin 0) = true <-> better d (score j c) (score j a)).
Proof.
  intros Hd Na Nc. assert (Hj : j < length senses) by (apply nth_error_Some; congruence).
  unfold is_better, is_worse, compare_solutions, problem_normalize_obj_index.
  destruct (Z.ltb_spec (Z.of_nat j) 0); [lia|].
  match goal with |- context [if ?c then Err IndexError else _] => replace c with false by lia end.
  cbn [bind]. rewrite Nat2Z.id, Hd. fold (score j a) (score j c).
  destruct d.
  - eexists. split; [reflexivity|]. split; [reflexivity|]. split; [reflexivity|]. unfold better. rewrite <- !flt_lt.
    destruct (score j a), (score j c); cbn in *; try discriminate; split; split; intros; try lia; try discriminate; auto.
  - eexists. split; [reflexivity|]. split; [reflexivity|]. split; [reflexivity|]. unfold better. rewrite <- !flt_lt.
    destruct (score j a), (score j c); cbn in *; try discriminate; split; split; intros; try lia; try discriminate; auto.
Qed.
End T.

(* ------------------------------------------------------------------------- set_evals *)
Section S.
Context {V : Type}.
Implicit Type b : batch V.

Lemma put_rows_gen (f : nat -> list fl -> list fl) : forall idx k0 (ev : list (list fl)), NoDup idx ->
  let r := fold_left (fun ev ki => match nth_error ev (snd ki) with
                          | Some old => upd ev (snd ki) (f (fst ki) old) | None => ev end)
            (combine (seq k0 (length idx)) idx) ev in
  length r = length ev /\
  (forall k i old, nth_error idx k = Some i -> nth_error ev i = Some old -> nth_error r i = Some (f (k0 + k) old)) /\
  (forall i, ~ In i idx -> nth_error r i = nth_error ev i).
Proof.
  induction idx as [|a idx IH]; intros k0 ev HN; cbn zeta; cbn [length seq combine fold_left].
  - split; auto. split; auto. intros [|k] i old; discriminate.
  - inversion HN as [|? ? Ha HN']; subst. cbn [fst snd].
    set (ev1 := match nth_error ev a with Some old => upd ev a (f k0 old) | None => ev end).
    destruct (IH (S k0) ev1 HN') as (L & I1 & I2). cbn zeta in *.
    assert (L1 : length ev1 = length ev) by (unfold ev1; destruct (nth_error ev a); auto using upd_length).
    split; [lia|]. split.
    + intros [|k] i old Hk Ho; cbn in Hk.
      * injection Hk as ->. rewrite I2 by auto. unfold ev1. rewrite Ho.
        rewrite upd_same by (apply nth_error_Some; congruence). rewrite Nat.add_0_r. reflexivity.
      * replace (k0 + S k) with (S k0 + k) by lia. apply I1; auto. unfold ev1.
        destruct (nth_error ev a) eqn:E; auto. rewrite upd_other; auto. intros ->. apply Ha. eapply nth_error_In; eauto.
    + intros i Hi. rewrite I2 by (intros C; apply Hi; right; auto). unfold ev1.
      destruct (nth_error ev a) eqn:E; auto. rewrite upd_other; auto. intros ->. apply Hi. left; auto.
Qed.

Lemma put_rows_spec ev idx f : NoDup idx ->
  length (put_rows ev idx f) = length ev /\
  (forall k i old, nth_error idx k = Some i -> nth_error ev i = Some old -> nth_error (put_rows ev idx f) i = Some (f k old)) /\
  (forall i, ~ In i idx -> nth_error (put_rows ev idx f) i = nth_error ev i).
Proof. intros H. exact (put_rows_gen f idx 0 ev H). Qed.

Lemma set_evals_ok b rows_ ncols data idx b' : wf b -> NoDup idx -> Forall (fun i => i < b_len b) idx ->
  Forall (fun r => length r = ncols) rows_ ->
  set_evals b (E2 rows_ ncols) (option_map (fun d => Some (d, b_ndata b)) data) idx = Ok b' ->
  b_vals b' = b_vals b /\ b_desc b' = b_desc b /\
  (forall k i, nth_error idx k = Some i -> nth_error (b_ev b') i = Some (stored (num_objs b) (b_ndata b) rows_ data k)) /\
  (forall i, ~ In i idx -> nth_error (b_ev b') i = nth_error (b_ev b) i).
Proof.
  intros [Hl Hw] HN HF HC. unfold set_evals. cbn [bind fst snd].
  destruct (Nat.eqb_spec (length rows_) (length idx)) as [El|]; cbn [negb]; [|discriminate].
  assert (HR : forall k i, nth_error idx k = Some i -> length (nth k rows_ []) = ncols).
  { intros k i Hk. assert (k < length rows_) by (rewrite El; apply nth_error_Some; congruence).
    rewrite Forall_forall in HC. apply HC. apply nth_In; auto. }
  assert (HO : forall k i, nth_error idx k = Some i -> exists old, nth_error (b_ev b) i = Some old /\ length old = eval_width b).
  { intros k i Hk. apply nth_error_In in Hk. rewrite Forall_forall in HF. specialize (HF i Hk). rewrite <- Hl in HF.
    destruct (nth_error (b_ev b) i) as [old|] eqn:E; [|apply nth_error_None in E; lia].
    exists old. split; auto. rewrite Forall_forall in Hw. apply Hw. eapply nth_error_In; eauto. }
  destruct data as [data|]; cbn [option_map].
  - rewrite Nat.eqb_refl. cbn [negb]. destruct (Nat.eqb_spec ncols (num_objs b)) as [En|]; cbn [negb]; [|discriminate].
    destruct (Nat.eqb_spec (length rows_) (length data)) as [Ed|]; cbn [negb]; [|discriminate].
    intros H. injection H as <-. cbn [b_vals b_desc b_ev]. split; auto. split; auto.
    destruct (put_rows_spec (b_ev b) idx (fun k _ => nth k rows_ [] ++ nth k data []) HN) as (_ & P1 & P2).
    split; auto. intros k i Hk. destruct (HO k i Hk) as (old & Ho & _). rewrite (P1 k i old Hk Ho). unfold stored.
    rewrite firstn_all2; auto. rewrite (HR k i Hk). lia.
  - destruct (Nat.eqb_spec ncols (num_objs b)) as [En|En].
    + intros H. injection H as <-. cbn [b_vals b_desc b_ev]. split; auto. split; auto.
      destruct (put_rows_spec (b_ev b) idx (fun k old => nth k rows_ [] ++ repeat NaN (length old - num_objs b)) HN) as (_ & P1 & P2).
      split; auto. intros k i Hk. destruct (HO k i Hk) as (old & Ho & Lo). rewrite (P1 k i old Hk Ho). unfold stored.
      rewrite (HR k i Hk), En, Nat.eqb_refl. rewrite firstn_all2 by (rewrite (HR k i Hk); lia).
      rewrite Lo. unfold eval_width. replace (num_objs b + b_ndata b - num_objs b) with (b_ndata b) by lia. reflexivity.
    + destruct (Nat.eqb_spec ncols (eval_width b)) as [Ew|]; [|discriminate].
      intros H. injection H as <-. cbn [b_vals b_desc b_ev]. split; auto. split; auto.
      destruct (put_rows_spec (b_ev b) idx (fun k _ => nth k rows_ []) HN) as (_ & P1 & P2).
      split; auto. intros k i Hk. destruct (HO k i Hk) as (old & Ho & Lo). rewrite (P1 k i old Hk Ho). unfold stored.
      rewrite (HR k i Hk). destruct (Nat.eqb_spec ncols (num_objs b)) as [|]; [congruence|].
      rewrite firstn_skipn. reflexivity.
Qed.

(* the shapes accepted *)
Lemma set_evals_accepts b rows_ ncols data idx :
  (exists b', set_evals b (E2 rows_ ncols) data idx = Ok b') <->
  length rows_ = length idx /\
  (match data with
   | None => ncols = num_objs b \/ ncols = eval_width b
   | Some None => False
   | Some (Some (d, dc)) => dc = b_ndata b /\ ncols = num_objs b /\ length d = length rows_
   end).
Proof.
  unfold set_evals. cbn [bind fst snd].
  destruct (Nat.eqb_spec (length rows_) (length idx)); cbn [negb].
  2:{ split; [intros (b' & H); discriminate|]. intros [H _]. congruence. }
  destruct data as [[[d dc]|]|].
  - destruct (Nat.eqb_spec dc (b_ndata b)); cbn [negb]; [|split; [intros (b' & H); discriminate|intros (_ & H & _); congruence]].
    destruct (Nat.eqb_spec ncols (num_objs b)); cbn [negb]; [|split; [intros (b' & H); discriminate|intros (_ & _ & H & _); congruence]].
    destruct (Nat.eqb_spec (length rows_) (length d)); cbn [negb]; [|split; [intros (b' & H); discriminate|intros (_ & _ & _ & H); congruence]].
    split; [intros _; auto|]. intros _. eexists; reflexivity.
  - split; [intros (b' & H); discriminate|tauto].
  - destruct (Nat.eqb_spec ncols (num_objs b)); [split; [intros _; auto|intros _; eexists; reflexivity]|].
    destruct (Nat.eqb_spec ncols (eval_width b)); [split; [intros _; auto|intros _; eexists; reflexivity]|].
    split; [intros (b' & H); discriminate|intros [_ [H|H]]; congruence].
Qed.

Lemma forget_not_evaluated b idx i : wf b -> NoDup idx -> In i idx -> i < b_len b -> num_objs b <> 0 ->
  is_evaluated (forget_evals b idx) i = false.
Proof.
  intros [Hl Hw] HN Hi Hlt Hno. apply In_nth_error in Hi. destruct Hi as (k & Hk).
  destruct (put_rows_spec (b_ev b) idx (fun _ old => repeat NaN (length old)) HN) as (_ & P1 & _).
  destruct (nth_error (b_ev b) i) as [old|] eqn:E; [|apply nth_error_None in E; lia].
  unfold is_evaluated, forget_evals. cbn [b_ev]. rewrite (nth_error_nth _ _ _ (P1 k i old Hk E)).
  rewrite Forall_forall in Hw. rewrite (Hw old) by (eapply nth_error_In; eauto).
  unfold eval_width, num_objs in *. cbn. destruct (b_desc b) as [|d l]; [cbn in Hno; lia|]. reflexivity.
Qed.

(* the utilities order the solutions from worse to better *)
Lemma utility_order b j d : wf b -> nth_error (b_desc b) j = Some d -> no_nan_col b j ->
  exists us, utility b true (Z.of_nat j) = Ok us /\ length us = b_len b /\
    forall i k ri rk ui uk, nth_error (rows b) i = Some ri -> nth_error (rows b) k = Some rk ->
      nth_error us i = Some ui -> nth_error us k = Some uk ->
      (lt_fl ui uk <-> better d (score j rk) (score j ri)).
Proof.
  intros Hwf Hd HN. destruct (obj_index_ok b j d Hd) as (E1 & E2 & E3 & _).
  cbn [optionally_get_obj_index] in E1. unfold utility. rewrite E1. cbn [bind]. rewrite E3. cbn [bind].
  assert (Hnn : existsb is_nan (map (fun r => nth j r NaN) (b_ev b)) = false).
  { unfold no_nan_col in HN. apply not_true_iff_false. rewrite existsb_exists. intros (x & Hx & Hn).
    apply in_map_iff in Hx. destruct Hx as (r & <- & Hr). rewrite Forall_forall in HN. rewrite (HN r Hr) in Hn. discriminate. }
  rewrite Hnn. cbn [andb]. rewrite E2. cbn [bind].
  assert (Hsc : forall i ri, nth_error (rows b) i = Some ri -> nth_error (map (fun r => nth j r NaN) (b_ev b)) i = Some (score j ri)).
  { intros i ri H. rewrite nth_error_map, <- (rows_ev b Hwf), nth_error_map, H. reflexivity. }
  assert (Hl : length (map (fun r => nth j r NaN) (b_ev b)) = b_len b) by (rewrite map_length; apply Hwf).
  eexists. split; [reflexivity|]. split; [destruct d; rewrite ?map_length in *; auto|].
  intros i k ri rk ui uk Hi Hk Hui Huk. apply Hsc in Hi, Hk. destruct d.
  - rewrite Hi in Hui. rewrite Hk in Huk. injection Hui as <-. injection Huk as <-. reflexivity.
  - rewrite nth_error_map, Hi in Hui. rewrite nth_error_map, Hk in Huk. injection Hui as <-. injection Huk as <-.
    unfold better. rewrite <- !flt_lt. destruct (score j ri), (score j rk); cbn; split; try discriminate; auto; lia.
Qed.
End S.

(* ------------------------------------------------------------------------- NaN *)
Section N.
Context {V : Type}.
Implicit Type b : batch V.

Lemma argext_from_nan d c : forall best bv i, is_nan bv = true -> argext_from d best bv i c = best.
Proof.
  induction c as [|x c IH]; intros best bv i H; cbn; auto. destruct bv; try discriminate.
  unfold beats. cbn. rewrite andb_false_r. cbn. replace (if d then false else flt x NaN) with false by (destruct d, x; reflexivity).
  apply IH. reflexivity.
Qed.
Lemma argext_from_finds d c : forall best bv i, is_nan bv = false -> existsb is_nan c = true ->
  exists k, argext_from d best bv i c = i + k /\ is_nan (nth k c (Fin 0)) = true.
Proof.
  induction c as [|x c IH]; intros best bv i Hb He; cbn in *; [discriminate|].
  destruct (is_nan x) eqn:Ex.
  - exists 0. unfold beats. rewrite Ex, Hb. cbn. split; [|auto]. rewrite argext_from_nan by auto. lia.
  - cbn in He. destruct (beats d x bv).
    + destruct (IH i x (S i) Ex He) as (k & Hk & Hn). exists (S k). split; [lia|]. destruct k; exact Hn.
    + destruct (IH best bv (S i) Hb He) as (k & Hk & Hn). exists (S k). split; [lia|]. destruct k; exact Hn.
Qed.
Lemma argext_nan d c : existsb is_nan c = true -> exists k, argext d c = Ok k /\ nth k c (Fin 0) = NaN /\ k < length c.
Proof.
  destruct c as [|x c]; [discriminate|]. intros H. cbn [argext].
  assert (G : exists k, argext_from d 0 x 1 c = k /\ is_nan (nth k (x :: c) (Fin 0)) = true).
  { destruct (is_nan x) eqn:Ex.
    - exists 0. split; [apply argext_from_nan; auto|exact Ex].
    - cbn in H. rewrite Ex in H. cbn in H. destruct (argext_from_finds d c 0 x 1 Ex H) as (k & Hk & Hn). exists (S k). split; [lia|exact Hn]. }
  destruct G as (k & Hk & Hn). exists k. rewrite Hk. split; auto. split.
  - destruct (nth k (x :: c) (Fin 0)); try discriminate; auto.
  - destruct (Nat.ltb_spec k (length (x :: c))); auto. rewrite nth_overflow in Hn by auto. discriminate.
Qed.

(* a NaN among the first evaluations of a single-objective problem: AttributeError *)
Lemma nan_breaks_status d b r : wf b -> b_desc b = [d] -> In r (rows b) -> score 0 r = NaN ->
  snd (get_best_and_worst [d] None b) = Err AttributeError.
Proof.
  intros Hwf Hd Hr Hs. assert (Hd0 : nth_error (b_desc b) 0 = Some d) by (rewrite Hd; reflexivity).
  destruct (obj_index_ok b 0 d Hd0) as (E1 & E2 & E3 & E4). cbn [Z.of_nat] in *.
  set (c := map (fun r0 : list fl => nth 0 r0 NaN) (b_ev b)) in *.
  assert (He : existsb is_nan c = true).
  { apply existsb_exists. exists NaN. split; auto. unfold c. rewrite <- (rows_ev b Hwf), map_map. apply in_map_iff. exists r. auto. }
  assert (LC : length c = b_len b) by (unfold c; rewrite map_length; apply Hwf).
  assert (RW : forall k, k < b_len b -> exists x, row b k = Ok x).
  { intros k Hk. unfold row. destruct (nth_error (b_vals b) k) eqn:A; [|apply nth_error_None in A; unfold b_len in Hk; lia].
    destruct (nth_error (b_ev b) k) eqn:B; [eauto|apply nth_error_None in B; destruct Hwf as [Hw _]; lia]. }
  assert (ND : forall k, k < length c -> nth k c NaN = nth k c (Fin 0)) by (intros; apply nth_indep; auto).
  destruct (argext_nan true c He) as (k1 & K1 & N1 & L1). destruct (argext_nan false c He) as (k2 & K2 & N2 & L2).
  destruct (RW k1 ltac:(lia)) as (x1 & X1). destruct (RW k2 ltac:(lia)) as (x2 & X2).
  unfold get_best_and_worst. cbn [map track_all]. unfold track_obj, argbest, argworst.
  change (Z.of_nat 0) with 0%Z. rewrite E1. cbn [bind]. rewrite E2. cbn [bind]. rewrite E3. cbn [bind]. rewrite E4.
  destruct d; rewrite K1, K2; cbn [bind]; rewrite X1, X2; cbn [bind]; rewrite !ND by auto; rewrite N1, N2; reflexivity.
Qed.

(* when maximizing, torch's sorting puts the NaN rows first *)
Lemma nan_first_when_max sorter b j r : argsort_ok sorter -> wf b -> nth_error (b_desc b) j = Some true ->
  In r (rows b) -> score j r = NaN ->
  exists b' s, take_best sorter b 1 (Some (Z.of_nat j)) = Ok b' /\ rows b' = [s] /\ score j s = NaN.
Proof.
  intros Hok Hwf Hd Hr Hs. destruct (obj_index_ok b j true Hd) as (E1 & E2 & E3 & _).
  unfold take_best, argsort. rewrite E1. cbn [bind]. rewrite E2. cbn [bind]. rewrite E3. cbn [bind].
  set (c := map (fun r => nth j r NaN) (b_ev b)) in *. destruct (Hok true c) as [HP HS]. cbv beta iota in HS.
  assert (LC : length c = b_len b) by (unfold c; rewrite map_length; apply Hwf).
  apply In_nth_error in Hr. destruct Hr as (k & Hk).
  assert (Hk' : at_ c k = NaN).
  { unfold at_, c. apply nth_error_nth. rewrite nth_error_map, <- (rows_ev b Hwf), nth_error_map, Hk. cbn. fold (score j r). rewrite Hs. reflexivity. }
  assert (Kl : k < b_len b) by (rewrite <- (rows_length b Hwf); apply nth_error_Some; congruence).
  destruct (sorter true c) as [|p ps]; [apply Permutation_nil in HP; rewrite LC in HP; destruct (b_len b); [lia|discriminate]|].
  assert (Hp : at_ c p = NaN).
  { assert (Hin : In k (p :: ps)) by (apply (Permutation_in _ (Permutation_sym HP)); apply in_seq; lia).
    destruct Hin as [->|Hin]; auto. inversion HS as [|? ? _ HF]; subst. rewrite Forall_forall in HF. specialize (HF k Hin).
    rewrite Hk' in HF. destruct (at_ c p); cbn in HF; try discriminate; auto. }
  assert (Pl : p < b_len b) by (assert (H : In p (seq 0 (length c))) by (apply (Permutation_in _ HP); left; auto); apply in_seq in H; lia).
  cbn [firstn]. destruct (take_rows b [p] Hwf) as (b' & Hb' & Wb' & _ & Lb' & Nb'); [constructor; auto|].
  destruct (rows b') as [|s [|? ?]] eqn:Er; try discriminate. exists b', s. split; auto. split; auto.
  specialize (Nb' 0 p eq_refl). cbn in Nb'. symmetry in Nb'.
  assert (H : at_ c p = score j s).
  { unfold at_, c. apply nth_error_nth. rewrite nth_error_map, <- (rows_ev b Hwf), nth_error_map, Nb'. reflexivity. }
  congruence.
Qed.

(* when minimizing they come last *)
Lemma nan_last_when_min sorter b j n : argsort_ok sorter -> wf b -> nth_error (b_desc b) j = Some false ->
  exists b' rest, take_best sorter b n (Some (Z.of_nat j)) = Ok b' /\
    Permutation (rows b' ++ rest) (rows b) /\
    (forall x y, In x (rows b') -> In y rest -> score j x = NaN -> score j y = NaN).
Proof.
  intros Hok Hwf Hd. destruct (obj_index_ok b j false Hd) as (E1 & E2 & E3 & _).
  unfold take_best, argsort. rewrite E1. cbn [bind]. rewrite E2. cbn [bind]. rewrite E3. cbn [bind].
  set (c := map (fun r => nth j r NaN) (b_ev b)) in *. destruct (Hok false c) as [HP HS]. cbv beta iota in HS.
  assert (LC : length c = b_len b) by (unfold c; rewrite map_length; apply Hwf).
  set (p := sorter false c) in *. clearbody p.
  assert (Hin : forall i, In i p -> i < b_len b).
  { intros i Hi. apply (Permutation_in _ HP) in Hi. apply in_seq in Hi. lia. }
  rewrite LC, <- (rows_length b Hwf) in HP. destruct (take_perm (rows b) p HP) as (l & Ll & Nl & Pl).
  destruct (take_rows b (firstn n p) Hwf) as (b' & Hb' & Wb' & _ & Lb' & Nb').
  { apply Forall_forall. intros i Hi. apply Hin. rewrite <- (firstn_skipn n p). apply in_or_app; auto. }
  assert (Eb : rows b' = firstn n l).
  { apply nth_error_ext. intros k. destruct (nth_error (firstn n p) k) as [i|] eqn:Ei.
    - rewrite (Nb' k i Ei). assert (Hk : k < length (firstn n p)) by (apply nth_error_Some; congruence). rewrite firstn_length in Hk.
      assert (Ep : nth_error p k = Some i) by (rewrite WorkProofs.nth_error_firstn' in Ei; destruct (k <? n); [auto|discriminate]).
      rewrite WorkProofs.nth_error_firstn'. destruct (Nat.ltb_spec k n); [|lia]. symmetry. apply Nl; auto.
    - apply nth_error_None in Ei. rewrite !(proj2 (nth_error_None _ _)); auto.
      + rewrite firstn_length in *. lia.
      + rewrite Lb'. lia. }
  exists b', (skipn n l). split; auto. split; [rewrite Eb, firstn_skipn; auto|].
  assert (SC : forall k x, nth_error l k = Some x -> exists i, nth_error p k = Some i /\ at_ c i = score j x).
  { intros k x Hx. destruct (nth_error p k) as [i|] eqn:Ei; [|apply nth_error_None in Ei; assert (k < length l) by (apply nth_error_Some; congruence); lia].
    exists i. split; auto. rewrite (Nl k i Ei) in Hx. unfold at_, c. apply nth_error_nth.
    rewrite nth_error_map, <- (rows_ev b Hwf), nth_error_map, Hx. reflexivity. }
  intros x y Hx Hy Nx. rewrite Eb in Hx. apply In_nth_error in Hx, Hy. destruct Hx as (k & Hk), Hy as (m & Hm).
  rewrite WorkProofs.nth_error_firstn' in Hk. destruct (Nat.ltb_spec k n); [|discriminate].
  rewrite WorkProofs.nth_error_skipn' in Hm.
  destruct (SC k x Hk) as (i & Hi & Si). destruct (SC (n + m) y Hm) as (i' & Hi' & Si').
  pose proof (sorted_nth _ _ _ _ _ _ HS (ltac:(lia) : k < n + m) Hi Hi') as H'. cbn in H'. rewrite Si, Si', Nx in H'.
  destruct (score j y); cbn in H'; try discriminate; auto.
Qed.
End N.

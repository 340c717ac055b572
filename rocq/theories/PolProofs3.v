From Verif Require Import Prelude ScoreProofs ObjProofs PolModel PolSpec PolProofs PolProofs2.

Section Refine.
  Context {row : Type}.
  Variable zero : row -> row.
  Variable poke : list Z -> row -> result row.
  Variable poke_single : sel -> row -> result row.
  Variable m : module row.
  Variable n w : nat.
  Hypothesis n_pos : 0 < n.
  Hypothesis zero_zero : forall r, zero (zero r) = zero r.
  Hypothesis wf : well_formed m w.
  Variable restart : option (tree row) -> option (tree row).
  Hypothesis restart_none : restart None = None.
  Hypothesis restart_twice : forall s, restart (restart s) = restart s.
  Hypothesis starts_at_zero : forall q x t, returns m t -> compute m q x (Some (tmap zero t)) = compute m q x (restart (Some t)).
  Notation step := (step m zero poke poke_single).
  Notation reset := (reset zero poke poke_single).

  Definition tree_at (h : heap row) (i : nat) (d : row) (t : tree nat) : tree row := tmap (fun b => nth i (rows_of h b) d) t.
  Definition batch (h : heap row) (b : nat) : Prop := exists rows, nth_error h b = Some (Batch rows) /\ length rows = n.
  Definition agrees (h : heap row) (t : tree nat) (i : nat) (hd : option (tree row)) : Prop :=
    exists t', returns m t' /\ ((hd = Some t' /\ forall d, tree_at h i d t = t') \/ (hd = restart (Some t') /\ forall d, tree_at h i d t = tmap zero t')).
  Definition inv (h : heap row) (p : policy) (nets : nat -> net row) : Prop :=
    exists a ps, params p = Some a /\ nth_error h a = Some (Batch ps) /\ length ps = n /\ (forall i, i < n -> nth_error ps i = Some (par (nets i))) /\
    match state p with
    | None => forall i, i < n -> hid (nets i) = None
    | Some t => tensors_only t = true /\ (forall b, In b (leaves t) -> b <> a /\ batch h b) /\ forall i, i < n -> agrees h t i (hid (nets i))
    end.
  Lemma inv_app h c p nets : inv h p nets -> inv (h ++ c) p nets.
  Proof.
    intros (a & ps & E & Ea & L & Hp & Hs). assert (La := nth_lt _ _ _ Ea).
    assert (X : forall b, b < length h -> nth_error (h ++ c) b = nth_error h b) by (intros; apply nth_error_app1; auto).
    exists a, ps. rewrite X by auto. repeat split; auto. destruct (state p) as [t|]; auto. destruct Hs as (T & Hb & Ha). repeat split; auto.
    - apply Hb; auto.
    - destruct (Hb b H) as (_ & rows & Eb & Lb). exists rows. rewrite X by (eapply nth_lt; eauto). auto.
    - intros i Hi. destruct (Ha i Hi) as (t' & R & Q). exists t'. split; auto.
      assert (Y : forall d, tree_at (h ++ c) i d t = tree_at h i d t).
      { intros d. apply tmap_ext. intros b Hb'. destruct (Hb b Hb') as (_ & rows & Eb & _). unfold rows_of. rewrite X by (eapply nth_lt; eauto). reflexivity. }
      destruct Q as [[A B]|[A B]]; [left|right]; (split; [auto|intros d; rewrite Y; auto]).
  Qed.
  Lemma clear_nth pos rows i d : length rows = n -> i < n -> nth i (clear zero pos rows) d = if in_dec Nat.eq_dec i pos then zero (nth i rows d) else nth i rows d.
  Proof.
    intros L Hi. destruct (nth_some rows i) as (r & Er); [lia|]. rewrite (nth_error_nth rows i d Er). apply nth_error_nth.
    destruct (in_dec Nat.eq_dec i pos); [rewrite clear_in, Er by auto|rewrite clear_out, Er by auto]; reflexivity.
  Qed.
  Definition cleared (pos : list nat) (nets : nat -> net row) (i : nat) : net row := if in_dec Nat.eq_dec i pos then Net (par (nets i)) (restart (hid (nets i))) else nets i.
  Lemma inv_reset h p nets s pos copy : plain s -> resolve n s = Ok pos -> inv h p nets ->
    exists h' p', reset p (Some s) copy h = (h', p', Ok tt) /\ inv h' p' (cleared pos nets).
  Proof.
    intros P E (a & ps & Ep & Ea & L & Hp & Hs). assert (La := nth_lt _ _ _ Ea). destruct (state p) as [t|] eqn:Et.
    - destruct Hs as (T & Hb & Ha).
      destruct (reset_some_ok zero poke poke_single zero_zero p t s n pos copy h P E Et) as (h' & g & Er & Ll & Hg & Ho & Hn); [intros; apply Hb; auto|].
      exists h'. eexists. split; [exact Er|]. exists a, ps. cbn [params state].
      assert (Xa : nth_error h' a = nth_error h a) by (apply Ho; auto; right; intros X; destruct (Hb a X); congruence).
      assert (Hps : forall i, i < n -> nth_error ps i = Some (par (cleared pos nets i))) by (intros i Hi; rewrite (Hp i Hi); unfold cleared; destruct (in_dec Nat.eq_dec i pos); reflexivity).
      split; [exact Ep|]. split; [rewrite Xa; exact Ea|]. split; [exact L|]. split; [exact Hps|]. split; [rewrite only_tmap; exact T|]. split.
      + intros b Hb'. rewrite leaves_tmap in Hb'. apply in_map_iff in Hb'. destruct Hb' as (c & <- & Hc). destruct (Hb c Hc) as (Nc & rows & Ec & Lc). split.
        * specialize (Hn c Hc). destruct copy; [lia|congruence].
        * exists (clear zero pos rows). rewrite (Hg c Hc). unfold rows_of. rewrite Ec, clear_length. auto.
      + intros i Hi. destruct (Ha i Hi) as (t' & R & Q).
        assert (Y : forall d, tree_at h' i d (tmap g t) = if in_dec Nat.eq_dec i pos then tmap zero (tree_at h i d t) else tree_at h i d t).
        { intros d. unfold tree_at. rewrite tmap_tmap.
          assert (Z : forall c, In c (leaves t) -> nth i (rows_of h' (g c)) d = if in_dec Nat.eq_dec i pos then zero (nth i (rows_of h c) d) else nth i (rows_of h c) d).
          { intros c Hc. unfold rows_of at 1. rewrite (Hg c Hc). destruct (Hb c Hc) as (_ & rows & Ec & Lc). apply clear_nth; auto. unfold rows_of. rewrite Ec. auto. }
          destruct (in_dec Nat.eq_dec i pos); [rewrite tmap_tmap|]; apply tmap_ext; auto. }
        exists t'. split; auto. unfold cleared. destruct (in_dec Nat.eq_dec i pos).
        * right. cbn [hid]. split; [destruct Q as [[-> _]|[-> _]]; auto|]. intros d. rewrite Y. destruct Q as [[_ B]|[_ B]]; rewrite B; auto. rewrite tmap_tmap. apply tmap_ext. auto.
        * destruct Q as [[A B]|[A B]]; [left|right]; (split; [auto|intros d; rewrite Y; auto]).
    - exists h, p. cbn. rewrite Et. split; auto. exists a, ps.
      split; [exact Ep|]. split; [exact Ea|]. split; [exact L|]. rewrite Et. split; intros i Hi; unfold cleared; destruct (in_dec Nat.eq_dec i pos); cbn [par hid]; auto; rewrite Hs; auto.
  Qed.
  Lemma valid_plain s : valid n s -> plain s.
  Proof. intros []; exact I. Qed.

  Lemma agree_compute h t i st q x : agrees h t i st -> forall d, compute m q x (Some (tree_at h i d t)) = compute m q x st.
  Proof. intros (t' & R & [[-> B]|[-> B]]) d; rewrite B; auto. Qed.
  Lemma batch_rows_ok h b : batch h b -> batch_rows h n b = Ok (rows_of h b).
  Proof. intros (rows & E & L). unfold batch_rows, rows_of. rewrite E. rewrite (proj2 (Nat.eqb_eq _ _) L). reflexivity. Qed.
  Definition acted (xs : list row) (nets : nat -> net row) (i : nat) : net row :=
    let s := nets i in let x := nth i xs (par s) in
    Net (par s) (match skel m with None => hid s | Some t => Some (tmap (fun k => nth k (compute m (par s) x (hid s)) x) t) end).
  Lemma inv_act h p nets xs x : length xs = n -> nth_error h x = Some (Batch xs) -> inv h p nets ->
    exists h' p' o ys, call m p x h = (h', p', Ok o) /\ nth_error h' o = Some (Batch ys) /\ length ys = n /\
      (forall i, i < n -> nth_error ys i = nth_error (compute m (par (nets i)) (nth i xs (par (nets i))) (hid (nets i))) (out_ix m)) /\ inv h' p' (acted xs nets).
  Proof.
    intros Lx Ex (a & ps & Ep & Ea & L & Hp & Hs). destruct wf as (Wl & Wo & Wt). unfold call. rewrite Ep, Ea, L.
    rewrite (batch_rows_ok h x) by (exists xs; auto). assert (rows_of h x = xs) as -> by (unfold rows_of; rewrite Ex; auto).
    set (st := option_map (fun t => tmap (rows_of h) t) (state p)).
    assert (Es : osequence (option_map (tmap (batch_rows h n)) (state p)) = Ok st).
    { unfold st. destruct (state p) as [t|]; auto. cbn. destruct Hs as (_ & Hb & _). rewrite (tsequence_ok _ (rows_of h)); auto. intros b Hb'. apply batch_rows_ok. apply Hb. auto. }
    rewrite Es. cbn [bind].
    assert ((match state p with Some t => tensors_only t | None => true end && match skel m with Some t => tensors_only t | None => true end) = true) as ->.
    { apply andb_true_iff. split; [destruct (state p); [apply Hs|auto]|destruct (skel m) as [t|] eqn:E; auto; destruct (Wt t eq_refl); auto]. }
    set (res := fun i => compute m (par (nets i)) (nth i xs (par (nets i))) (hid (nets i))).
    assert (Epn : map (fun i => match nth_error ps i, nth_error xs i with
                               | Some q, Some x => compute m q x (option_map (tmap (fun l => nth i l q)) st) | _, _ => [] end) (seq 0 n) = map res (seq 0 n)).
    { apply map_ext_in. intros i Hi. apply in_seq in Hi. rewrite (Hp i) by lia. destruct (nth_some xs i) as (x0 & Ex0); [lia|]. rewrite Ex0.
      unfold res. rewrite (nth_error_nth xs i _ Ex0). unfold st. destruct (state p) as [t|]; cbn.
      - rewrite tmap_tmap. destruct Hs as (_ & _ & Ha). apply (agree_compute h t i (hid (nets i))). apply Ha. lia.
      - rewrite Hs by lia. reflexivity. }
    cbv zeta. rewrite Epn.
    assert (Hw : length (hd [] (map res (seq 0 n))) = w) by (destruct n; [lia|]; cbn; apply Wl). rewrite Hw.
    assert (Fw : Forall (fun r => length r = w) (map res (seq 0 n))) by (apply Forall_forall; intros r Hr; apply in_map_iff in Hr; destruct Hr as (i & <- & _); apply Wl).
    set (cells := map Batch (transpose w (map res (seq 0 n)))).
    assert (Lc : length cells = w) by (unfold cells; rewrite map_length, transpose_length; auto).
    assert (Nc : forall k d, k < w -> nth_error cells k = Some (Batch (map (fun r => nth k r d) (map res (seq 0 n))))) by (intros k d Hk; unfold cells; rewrite nth_error_map, (transpose_nth w _ d); auto).
    destruct (nth_some ps 0) as (d & _); [lia|].
    unfold store. rewrite Lc. rewrite (proj2 (Nat.ltb_lt _ _) Wo). do 4 eexists. split; [reflexivity|].
    rewrite nth_error_app2 by lia. replace (length h + out_ix m - length h) with (out_ix m) by lia. split; [apply (Nc _ d Wo)|].
    split; [rewrite !map_length, seq_length; auto|]. split.
    - intros i Hi. rewrite map_map, nth_error_map_seq by auto. fold (res i). rewrite <- nth_error_nth' by (unfold res; rewrite Wl; auto). reflexivity.
    - assert (La := nth_lt _ _ _ Ea). exists a, ps. cbn [params state]. rewrite nth_error_app1 by auto. split; auto. split; auto. split; auto. split; [intros i Hi; apply Hp; auto|].
      destruct (skel m) as [sk|] eqn:Esk.
      + destruct (Wt sk eq_refl) as (T & Fk). rewrite Forall_forall in Fk. rewrite only_tmap. split; auto. split.
        * intros b Hb. rewrite leaves_tmap in Hb. apply in_map_iff in Hb. destruct Hb as (k & <- & Hk). split; [lia|].
          eexists. rewrite nth_error_app2 by lia. replace (length h + k - length h) with k by lia. split; [apply (Nc k d); auto|rewrite !map_length, seq_length; auto].
        * intros i Hi. unfold acted. rewrite Esk. cbn [hid]. eexists. split; [|left; split; [reflexivity|]].
          { exists (par (nets i)), (nth i xs (par (nets i))), (hid (nets i)). rewrite Esk. reflexivity. }
          intros d'. unfold tree_at. rewrite tmap_tmap. apply tmap_ext. intros k Hk. fold (res i). unfold rows_of.
          rewrite nth_error_app2 by lia. replace (length h + k - length h) with k by lia. rewrite (Nc k (nth i xs (par (nets i)))) by auto.
          rewrite map_map. apply nth_error_nth. rewrite nth_error_map_seq; auto.
      + (* not recurrent: there is no state *)
        destruct (state p) as [t|].
        * destruct Hs as (T & Hb & Ha). destruct (Ha 0 n_pos) as (t' & (q & x' & s' & R) & _). rewrite Esk in R. discriminate.
        * intros i Hi. unfold acted. rewrite Esk. cbn. auto.
  Qed.

  Definition out_of (i : nat) (o : option (list row)) : option row := match o with Some ys => nth_error ys i | None => None end.
  Lemma step_ok e h p nets : event_ok n e -> inv h p nets -> exists h' p' o nets', step e h p = Ok (h', p', o) /\ inv h' p' nets' /\
    (forall i, i < n -> net_step m restart n i e (nets i) (out_of i o) (nets' i)) /\ (forall ys, o = Some ys -> length ys = n).
  Proof.
    intros V I. destruct V as [l b L|s v b V F|c|s c V|xs Lx].
    - (* set_parameters for all *)
      destruct I as (a & ps & Ep & Ea & La & Hp & Hs). unfold step. cbn [new set_parameters].
      exists (h ++ [Batch l]), (Policy (Some (length h)) (if b then None else state p)), None, (fun i => Net (nth i l (par (nets i))) (if b then None else hid (nets i))).
      split; [destruct b; reflexivity|]. split.
      + exists (length h), l. split; [reflexivity|]. rewrite nth_error_app2, Nat.sub_diag by lia. split; [reflexivity|]. split; [exact L|]. split.
        { intros i Hi. cbn. apply nth_error_nth'. lia. }
        cbn [state]. destruct b; [cbn; auto|].
        destruct (inv_app h [Batch l] p nets) as (a' & ps' & Ep' & Ea' & La' & Hp' & Hs').
        { exists a, ps. repeat split; auto. }
        destruct (state p) as [t|]; cbn [hid]; auto. destruct Hs' as (T & Hb & Ha). destruct Hs as (_ & Hb0 & _). repeat split; auto; [|apply Hb; auto].
        intros ->. destruct (Hb0 (length h) H) as (_ & rows & X & _). apply nth_lt in X. lia.
      + split; [|discriminate]. intros i Hi. cbn [out_of]. apply st_all. apply nth_error_nth'. lia.
    - (* for some *)
      destruct (resolve_valid n s V) as (pos & Er & Lp & Np & Fp). assert (Pl := valid_plain s V).
      destruct (broadcast_ok v (width s) F) as (vs & Ev & Lv & Nv).
      destruct (inv_app h [v] p nets I) as (a & ps & Ep & Ea & L & Hp & Hs). unfold step, new, set_parameters. rewrite Ep, Ea.
      rewrite nth_error_app2, Nat.sub_diag by lia. cbn [nth_error].
      assert (Eas : assign s v (Batch ps) = Ok (Batch (put_rows pos vs ps))).
      { unfold assign. rewrite L, Er. cbn [bind]. rewrite Lp, Ev. cbn [bind]. destruct s as [l|l|[|i0 [|j0 l0]]]; auto. contradiction. }
      rewrite Eas. assert (La := nth_lt _ _ _ Ea).
      set (h1 := upd (h ++ [v]) a (Batch (put_rows pos vs ps))).
      assert (H1 : forall b, b <> a -> nth_error h1 b = nth_error (h ++ [v]) b) by (intros; apply upd_other; auto).
      set (nets1 := fun i => Net (nth i (put_rows pos vs ps) (par (nets i))) (hid (nets i))).
      assert (I1 : inv h1 p nets1).
      { exists a, (put_rows pos vs ps). split; [exact Ep|]. split; [apply upd_same; auto|]. split; [rewrite put_length; exact L|]. split.
        - intros i Hi. cbn. apply nth_error_nth'. rewrite put_length. lia.
        - destruct (state p) as [t|]; auto. destruct Hs as (T & Hb & Ha). split; [exact T|]. split.
          + intros b0 Hb0. destruct (Hb b0 Hb0) as (Nb & rows & Eb & Lb). split; auto. exists rows. rewrite H1 by auto. auto.
          + intros i Hi. destruct (Ha i Hi) as (t' & R & Q). exists t'. split; auto.
            assert (Y : forall d, tree_at h1 i d t = tree_at (h ++ [v]) i d t) by (intros d; apply tmap_ext; intros b0 Hb0; unfold rows_of; rewrite H1; auto; apply Hb; auto).
            destruct Q as [[A B]|[A B]]; [left|right]; (split; [auto|intros d; rewrite Y; auto]). }
      assert (Step : forall i, i < n -> net_step m restart n i (SetSome s v b) (nets i) None (if b then cleared pos nets1 i else nets1 i)).
      { intros i Hi. destruct (in_dec Nat.eq_dec i pos) as [Hin|Hout].
        - destruct (put_in pos vs ps i Hin) as (j & A & B & C); [lia|lia|]. assert (Lj := nth_lt _ _ _ A). rewrite Lp in Lj. rewrite Nv in C by auto.
          destruct (nth_some (put_rows pos vs ps) i) as (q & Eq); [rewrite put_length; lia|].
          assert ((if b then cleared pos nets1 i else nets1 i) = Net q (if b then restart (hid (nets i)) else hid (nets i))) as ->.
          { unfold cleared, nets1. destruct (in_dec Nat.eq_dec i pos); [|contradiction]. cbn. rewrite (nth_error_nth _ _ _ Eq). destruct b; reflexivity. }
          apply st_some with j; [apply Np; auto| |congruence]. intros j' Hj X. apply Np in X. apply (B j' Hj X).
        - assert ((if b then cleared pos nets1 i else nets1 i) = nets i) as ->.
          { unfold cleared, nets1. destruct (in_dec Nat.eq_dec i pos); [contradiction|]. assert (X := Hp i Hi). rewrite <- (put_out pos vs) in X by auto. rewrite (nth_error_nth _ _ _ X). destruct b, (nets i); reflexivity. }
          apply st_not_some. intros X. apply Hout. apply (selected_dec n s pos i Er Np). auto. }
      destruct b.
      + destruct (inv_reset h1 p nets1 s pos true Pl Er I1) as (h2 & p2 & E2 & I2). rewrite E2. do 3 eexists. exists (cleared pos nets1). repeat split; eauto. discriminate.
      + do 3 eexists. exists nets1. repeat split; eauto. discriminate.
    - (* reset *)
      cbn. do 3 eexists. exists (fun i => Net (par (nets i)) None). split; [reflexivity|]. destruct I as (a & ps & Ep & Ea & La & Hp & Hs). split.
      + exists a, ps. repeat split; auto.
      + split; [|discriminate]. intros i Hi. constructor.
    - destruct (resolve_valid n s V) as (pos & Er & Lp & Np & Fp). destruct (inv_reset h p nets s pos c (valid_plain s V) Er I) as (h2 & p2 & E2 & I2).
      unfold step. rewrite E2. do 3 eexists. exists (cleared pos nets). split; [reflexivity|]. split; [exact I2|]. split; [|discriminate].
      intros i Hi. unfold cleared. cbn [out_of]. destruct (in_dec Nat.eq_dec i pos) as [Hin|Hout].
      + apply st_reset_some. apply (selected_dec n s pos i Er Np). auto.
      + apply st_not_reset. intros X. apply Hout. apply (selected_dec n s pos i Er Np). auto.
    - unfold step, new. destruct (inv_act (h ++ [Batch xs]) p nets xs (length h) Lx) as (h' & p' & o & ys & Ec & Eo & Ly & Hy & I'); [rewrite nth_error_app2, Nat.sub_diag by lia; auto|apply inv_app; auto|].
      rewrite Ec, Eo. do 3 eexists. exists (acted xs nets). split; [reflexivity|]. split; [exact I'|]. split; [|intros ys' X; injection X as <-; auto].
      intros i Hi. cbn [out_of]. rewrite (Hy i Hi). destruct (nth_some xs i) as (x & Ex); [lia|]. unfold acted. rewrite (nth_error_nth xs i _ Ex).
      destruct (nth_some (compute m (par (nets i)) x (hid (nets i))) (out_ix m)) as (y & Ey); [destruct wf as (Wl & Wo & _); rewrite Wl; auto|].
      rewrite Ey. apply st_act; auto.
  Qed.
  Lemma run_ok : forall es h p nets, Forall (event_ok n) es -> inv h p nets -> exists h' p' outs, run m zero poke poke_single es h p = Ok (h', p', outs) /\
    Forall (fun ys => length ys = n) outs /\ forall i, i < n -> exists ys s', map (fun y => nth_error y i) outs = map Some ys /\ net_run m restart n i es (nets i) ys s'.
  Proof.
    induction es as [|e es IH]; intros h p nets F I.
    - cbn. do 3 eexists. split; [reflexivity|]. split; [constructor|]. intros i Hi. exists [], (nets i). split; [reflexivity|constructor].
    - inversion F as [|? ? V F']; subst. destruct (step_ok e h p nets V I) as (h1 & p1 & o & nets1 & E1 & I1 & S1 & L1).
      destruct (IH h1 p1 nets1 F' I1) as (h2 & p2 & outs & E2 & L2 & R2). cbn. rewrite E1. cbn [bind]. rewrite E2. cbn [bind]. do 3 eexists. split; [reflexivity|]. split.
      { destruct o as [y|]; auto. }
      intros i Hi. destruct (R2 i Hi) as (ys & s' & Ey & R). specialize (S1 i Hi). destruct o as [y|]; cbn [out_of] in S1.
      + destruct (nth_some y i) as (v & Ev); [rewrite (L1 y eq_refl); auto|]. rewrite Ev in S1. exists (v :: ys), s'. split; [cbn; rewrite Ev, Ey; reflexivity|].
        apply (nr_cons m restart n i e es (nets i) (Some v) (nets1 i) ys s'); auto.
      + exists ys, s'. split; auto. apply (nr_cons m restart n i e es (nets i) None (nets1 i) ys s'); auto.
  Qed.
End Refine.

From Verif Require Import Prelude ScoreProofs ObjProofs PolModel PolSpec PolProofs PolProofs2.

Section Single.
  Context {row : Type}.
  Variable zero : row -> row.
  Variable poke : list Z -> row -> result row.
  Variable poke_single : sel -> row -> result row.
  Variable m : module row.
  Variable w : nat.
  Hypothesis wf : well_formed m w.
  Variable restart : option (tree row) -> option (tree row).
  Notation step1 := (step1 m zero poke poke_single).

  Definition value_of (h : heap row) (d : row) (a : nat) : row := match nth_error h a with Some (Single r) => r | _ => d end.
  Definition inv1 (h : heap row) (p : policy) (s : net row) : Prop :=
    exists a, params p = Some a /\ nth_error h a = Some (Single (par s)) /\
    match state p with
    | None => hid s = None
    | Some t => (forall b, In b (leaves t) -> exists r, nth_error h b = Some (Single r)) /\ forall d, hid s = Some (tmap (value_of h d) t)
    end.
  Lemma inv1_app h c p s : inv1 h p s -> inv1 (h ++ c) p s.
  Proof.
    intros (a & E & Ea & Hs). assert (La := nth_lt _ _ _ Ea).
    assert (X : forall b, b < length h -> nth_error (h ++ c) b = nth_error h b) by (intros; apply nth_error_app1; auto).
    exists a. rewrite X by auto. repeat split; auto. destruct (state p) as [t|]; auto. destruct Hs as (Hb & Ha). split.
    - intros b Hb'. destruct (Hb b Hb') as (r & Er). exists r. rewrite X by (eapply nth_lt; eauto). auto.
    - intros d. rewrite (Ha d). f_equal. apply tmap_ext. intros b Hb'. destruct (Hb b Hb') as (r & Er). unfold value_of. rewrite X by (eapply nth_lt; eauto). reflexivity.
  Qed.
  Lemma step1_ok e h p s : inv1 h p s -> exists h' p' o s', step1 e h p = Ok (h', p', o) /\ inv1 h' p' s' /\ net_step m restart 1 0 (as_batch e) s o s'.
  Proof.
    intros I. destruct e as [q b|c|x].
    - destruct (inv1_app h [Single q] p s I) as (a & E & Ea & Hs). unfold step1. cbn [new set_parameters].
      exists (h ++ [Single q]), (Policy (Some (length h)) (if b then None else state p)), None, (Net q (if b then None else hid s)). split; [destruct b; reflexivity|]. split.
      + exists (length h). split; [reflexivity|]. rewrite nth_error_app2, Nat.sub_diag by lia. split; [reflexivity|]. cbn [state hid]. destruct b; [reflexivity|exact Hs].
      + apply st_all. reflexivity.
    - cbn. do 3 eexists. exists (Net (par s) None). split; [reflexivity|]. destruct I as (a & E & Ea & Hs). split; [exists a; cbn; auto|constructor].
    - destruct (inv1_app h [Single x] p s I) as (a & E & Ea & Hs). unfold step1, new, call. rewrite E, Ea. set (h0 := h ++ [Single x]) in *.
      assert (single_row h0 (length h) = Ok x) as -> by (unfold single_row, h0; rewrite nth_error_app2, Nat.sub_diag by lia; reflexivity).
      assert (osequence (option_map (tmap (single_row h0)) (state p)) = Ok (hid s)) as ->.
      { destruct (state p) as [t|]; cbn; [|congruence]. destruct Hs as (Hb & Ha). rewrite (Ha x). rewrite (tsequence_ok _ (value_of h0 x)); auto.
        intros b Hb'. destruct (Hb b Hb') as (r & Er). unfold single_row, value_of. rewrite Er. reflexivity. }
      destruct wf as (Wl & Wo & Wt). unfold store. rewrite map_length, Wl. rewrite (proj2 (Nat.ltb_lt _ _) Wo).
      destruct (nth_some (compute m (par s) x (hid s)) (out_ix m)) as (y & Ey); [rewrite Wl; auto|].
      rewrite nth_error_app2 by lia. replace (length h0 + out_ix m - length h0) with (out_ix m) by lia. rewrite nth_error_map, Ey. cbn [option_map].
      do 3 eexists. exists (Net (par s) (match skel m with None => hid s | Some t => Some (tmap (fun k => nth k (compute m (par s) x (hid s)) x) t) end)). split; [reflexivity|]. split.
      + assert (La := nth_lt _ _ _ Ea). exists a. cbn [params state par hid]. rewrite nth_error_app1 by auto. split; auto. split; auto. destruct (skel m) as [t|] eqn:Et.
        * destruct (Wt t eq_refl) as (_ & F). rewrite Forall_forall in F. rewrite leaves_tmap. split.
          { intros b Hb. apply in_map_iff in Hb. destruct Hb as (k & <- & Hk). rewrite nth_error_app2 by lia. replace (length h0 + k - length h0) with k by lia. rewrite nth_error_map.
            destruct (nth_some (compute m (par s) x (hid s)) k) as (r & Er); [rewrite Wl; auto|]. rewrite Er. cbn. eauto. }
          { intros d. f_equal. rewrite tmap_tmap. apply tmap_ext. intros k Hk. unfold value_of. rewrite nth_error_app2 by lia. replace (length h0 + k - length h0) with k by lia. rewrite nth_error_map.
            destruct (nth_some (compute m (par s) x (hid s)) k) as (r & Er); [rewrite Wl; auto|]. rewrite Er. cbn. apply nth_error_nth. auto. }
        * destruct (state p) as [t|]; auto. destruct Hs as (Hb & Ha). split.
          { intros b Hb'. destruct (Hb b Hb') as (r & Er). exists r. rewrite nth_error_app1 by (eapply nth_lt; eauto). auto. }
          { intros d. rewrite (Ha d). f_equal. apply tmap_ext. intros b Hb'. destruct (Hb b Hb') as (r & Er). unfold value_of. rewrite nth_error_app1 by (eapply nth_lt; eauto). reflexivity. }
      + apply st_act; auto.
  Qed.
  Lemma run1_ok : forall es h p s, inv1 h p s -> exists h' p' ys s', run1 m zero poke poke_single es h p = Ok (h', p', ys) /\ net_run m restart 1 0 (map as_batch es) s ys s'.
  Proof.
    induction es as [|e es IH]; intros h p s I.
    - do 4 eexists. split; [reflexivity|constructor].
    - destruct (step1_ok e h p s I) as (h1 & p1 & o & s1 & E1 & I1 & S1). destruct (IH h1 p1 s1 I1) as (h2 & p2 & ys & s2 & E2 & R2).
      cbn. rewrite E1. cbn [bind]. rewrite E2. cbn [bind]. do 4 eexists. split; [reflexivity|]. econstructor; eauto.
  Qed.
End Single.

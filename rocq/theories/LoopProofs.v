From Coq Require Import String QArith Qround.
From Verif Require Import Prelude LoopModel LoopSpec.
Close Scope Q_scope.
Open Scope nat_scope.

(* ---- dictionaries *)
Lemma dget_cons {V} k (kv : string * V) d : dget k (kv :: d) = if String.eqb (fst kv) k then Some (snd kv) else dget k d.
Proof. unfold dget. cbn. destruct (String.eqb (fst kv) k); auto. Qed.
Lemma dget_dset {V} k v (d : dict V) : dget k (dset k v d) = Some v.
Proof.
  induction d as [|[k' v'] d IH]; cbn [dset].
  - rewrite dget_cons. cbn. rewrite String.eqb_refl. auto.
  - destruct (String.eqb_spec k' k) as [->|N]; rewrite dget_cons; cbn [fst snd].
    + rewrite String.eqb_refl. auto.
    + destruct (String.eqb_spec k' k); [contradiction|auto].
Qed.
Lemma dget_dset_other {V} k k' v (d : dict V) : k <> k' -> dget k' (dset k v d) = dget k' d.
Proof.
  intros N. induction d as [|[a b] d IH]; cbn [dset].
  - rewrite dget_cons. cbn. destruct (String.eqb_spec k k'); [contradiction|auto].
  - destruct (String.eqb_spec a k) as [->|Na]; rewrite !dget_cons; cbn [fst snd].
    + destruct (String.eqb_spec k k'); [contradiction|auto].
    + rewrite IH. auto.
Qed.
Lemma dget_dset_eq {V} k k' v (d : dict V) : dget k' (dset k v d) = if String.eqb k k' then Some v else dget k' d.
Proof. destruct (String.eqb_spec k k') as [->|N]; [apply dget_dset|apply dget_dset_other; auto]. Qed.
Lemma dget_none {V} k (d : dict V) : dget k d = None <-> ~ In k (map fst d).
Proof.
  induction d as [|[a b] d IH]; [cbn; split; auto|]. rewrite dget_cons. cbn.
  destruct (String.eqb_spec a k) as [->|N]; [split; [discriminate|intros H; destruct H; auto]|].
  rewrite IH. split; [intros H [?|?]; auto|auto].
Qed.
Lemma dget_some {V} k (d : dict V) : (exists v, dget k d = Some v) <-> In k (map fst d).
Proof.
  destruct (dget k d) eqn:E.
  - split; [intros _|eauto]. destruct (in_dec string_dec k (map fst d)) as [H|H]; auto.
    apply dget_none in H. congruence.
  - split; [intros [v H]; discriminate|]. intros H. apply dget_none in E. contradiction.
Qed.
Lemma has_spec {V} k (d : dict V) : has k d = true <-> In k (map fst d).
Proof. rewrite <- dget_some. unfold has. destruct (dget k d); split; eauto; [discriminate|intros [v H]; discriminate]. Qed.
Lemma dget_dupdate {V} k (e : dict V) : NoDup (map fst e) -> forall d,
  dget k (dupdate d e) = match dget k e with Some v => Some v | None => dget k d end.
Proof.
  unfold dupdate. induction e as [|[a b] e IH]; intros N d; [reflexivity|]. cbn in N. inversion N; subst.
  cbn [fold_left fst snd]. rewrite IH by auto. rewrite dget_cons. cbn [fst snd].
  destruct (String.eqb_spec a k) as [->|Na].
  - rewrite (proj2 (dget_none k e)) by auto. apply dget_dset.
  - destruct (dget k e); auto. apply dget_dset_other. auto.
Qed.
Lemma dget_dupdate_out {V} k (e : dict V) d : ~ In k (map fst e) -> dget k (dupdate d e) = dget k d.
Proof.
  unfold dupdate. revert d. induction e as [|[a b] e IH]; intros d N; [reflexivity|]. cbn in *.
  rewrite IH by auto. apply dget_dset_other. auto.
Qed.
Lemma dget_dupdate_in {V} k (e : dict V) d : In k (map fst e) -> exists v, dget k (dupdate d e) = Some v /\ In (k, v) e.
Proof.
  unfold dupdate. revert d. induction e as [|[a b] e IH]; intros d H; [contradiction|]. cbn in *.
  destruct (in_dec string_dec k (map fst e)) as [Hi|Hi].
  - destruct (IH (dset a b d) Hi) as (v & E & I). eauto.
  - destruct H as [->|H]; [|contradiction]. exists b. split; auto.
    change (dget k (dupdate (dset k b d) e) = Some b). rewrite dget_dupdate_out by auto. apply dget_dset.
Qed.

Lemma find_app {A} (f : A -> bool) l l' : find f (l ++ l') = match find f l with Some x => Some x | None => find f l' end.
Proof. induction l; cbn; auto. destruct (f a); auto. Qed.

(* ---- hooks *)
Section HookP.
Context {S A V : Type}.
Implicit Types fs : list (callable (S := S) (A := A) (V := V)).

Lemma hook_app fs : forall gs a s r, hook_loop (fs ++ gs) a s r =
  match hook_loop fs a s r with (s', Ok r') => hook_loop gs a s' r' | (s', Err e) => (s', Err e) end.
Proof.
  induction fs as [|f fs IH]; intros gs a s r; [reflexivity|]. cbn.
  destruct (f a s) as [s' [| d | l | | e]]; auto; destruct r as [[d0|l0]|]; auto.
Qed.
Lemma call_all_app fs : forall gs a s, call_all (fs ++ gs) a s =
  let (s1, o1) := call_all fs a s in let (s2, o2) := call_all gs a s1 in (s2, o1 ++ o2).
Proof.
  induction fs as [|f fs IH]; intros gs a s; cbn; [destruct (call_all gs a s); auto|].
  destruct (f a s) as [s' o]. rewrite IH. destruct (call_all fs a s') as [s1 o1]. destruct (call_all gs a s1); auto.
Qed.
(* dictionaries *)
Lemma hook_maps fs a : forall s s' os r, call_all fs a s = (s', os) -> Forall (none_or is_map) os ->
  (r = None \/ exists d, r = Some (ADict d)) ->
  exists r', hook_loop fs a s r = (s', Ok r') /\
    (r' = None -> r = None /\ Forall (fun o => o = RNone) os) /\
    (r' <> None -> exists d, r' = Some (ADict d) /\ forall k, dget k d =
       match last_wins k os with Some v => Some v | None => match r with Some (ADict d0) => dget k d0 | _ => None end end).
Proof.
  induction fs as [|f fs IH]; intros s s' os r E F R; cbn in *.
  - inversion E; subst. exists r. split; auto. split; [intros ->; auto|]. intros N. destruct R as [->|[d ->]]; [congruence|].
    exists d. split; auto.
  - destruct (f a s) as [s1 o]. destruct (call_all fs a s1) as [s2 os'] eqn:C. inversion E; subst; clear E.
    inversion F as [|x y Ho Hos]; subst. destruct Ho as [->|(d & -> & Nd)].
    + destruct (IH s1 s' os' r C Hos R) as (r' & H1 & H2 & H3). exists r'. split; auto. split.
      * intros Z. destruct (H2 Z). split; auto.
      * intros Z. destruct (H3 Z) as (d & -> & H). exists d. split; auto. intros k. rewrite H. cbn. destruct (last_wins k os'); auto.
    + assert (X : exists d1, (match r with
         | None => hook_loop fs a s1 (Some (ADict (dupdate [] d)))
         | Some (ASeq _) => (s1, Err TypeError)
         | Some (ADict d0) => hook_loop fs a s1 (Some (ADict (dupdate d0 d))) end) = hook_loop fs a s1 (Some (ADict d1)) /\
         forall k, dget k d1 = match dget k d with Some v => Some v | None => match r with Some (ADict d0) => dget k d0 | _ => None end end).
      { destruct R as [->|[d0 ->]].
        - exists (dupdate [] d). split; auto. intros k. rewrite dget_dupdate by auto. reflexivity.
        - exists (dupdate d0 d). split; auto. intros k. rewrite dget_dupdate by auto. reflexivity. }
      destruct X as (d1 & -> & Hd1).
      destruct (IH s1 s' os' (Some (ADict d1)) C Hos (or_intror (ex_intro _ d1 eq_refl))) as (r' & H1 & H2 & H3).
      exists r'. split; auto. split; [intros Z; destruct (H2 Z); discriminate|].
      intros Z. destruct (H3 Z) as (d2 & -> & H). exists d2. split; auto. intros k. rewrite H, Hd1. cbn.
      destruct (last_wins k os'); auto.
Qed.
(* sequences *)
Lemma hook_seqs fs a : forall s s' os r, call_all fs a s = (s', os) -> Forall (none_or is_seq) os ->
  (r = None \/ exists l, r = Some (ASeq l)) ->
  exists r', hook_loop fs a s r = (s', Ok r') /\
    (r' = None -> r = None /\ Forall (fun o => o = RNone) os) /\
    (r' <> None -> r' = Some (ASeq (match r with Some (ASeq l) => l | _ => [] end ++ joined os))).
Proof.
  induction fs as [|f fs IH]; intros s s' os r E F R; cbn in *.
  - inversion E; subst. exists r. split; auto. split; [intros ->; auto|]. intros N. destruct R as [->|[d ->]]; [congruence|].
    cbn. rewrite app_nil_r. auto.
  - destruct (f a s) as [s1 o]. destruct (call_all fs a s1) as [s2 os'] eqn:C. inversion E; subst; clear E.
    inversion F as [|x y Ho Hos]; subst. destruct Ho as [->|(l & ->)].
    + destruct (IH s1 s' os' r C Hos R) as (r' & H1 & H2 & H3). exists r'. split; auto. split; auto.
      intros Z. destruct (H2 Z). split; auto.
    + assert (X : (match r with
         | None => hook_loop fs a s1 (Some (ASeq l))
         | Some (ASeq l0) => hook_loop fs a s1 (Some (ASeq (l0 ++ l)))
         | Some (ADict d0) => (s1, Err TypeError) end) =
         hook_loop fs a s1 (Some (ASeq (match r with Some (ASeq l) => l | _ => [] end ++ l)))).
      { destruct R as [->|[d0 ->]]; auto. }
      rewrite X.
      destruct (IH s1 s' os' (Some (ASeq (match r with Some (ASeq l) => l | _ => [] end ++ l))) C Hos (or_intror (ex_intro _ _ eq_refl)))
        as (r' & H1 & H2 & H3).
      exists r'. split; auto. split; [intros Z; destruct (H2 Z); discriminate|].
      intros Z. rewrite (H3 Z). cbn. rewrite app_assoc. auto.
Qed.
(* success means harmony *)
Definition wf_out (f : callable (S := S) (A := A) (V := V)) : Prop := forall a s d, snd (f a s) = RMap d -> NoDup (map fst d).
Lemma hook_success fs a : forall s s' r r', Forall wf_out fs -> hook_loop fs a s r = (s', Ok r') ->
  exists os, call_all fs a s = (s', os) /\
    match r' with
    | None => r = None /\ Forall (fun o => o = RNone) os
    | Some (ADict _) => (r = None \/ exists d, r = Some (ADict d)) /\ Forall (none_or is_map) os
    | Some (ASeq _) => (r = None \/ exists l, r = Some (ASeq l)) /\ Forall (none_or is_seq) os
    end.
Proof.
  induction fs as [|f fs IH]; intros s s' r r' W E; cbn in *.
  - inversion E; subst. exists []. split; auto. destruct r' as [[d|l]|]; split; eauto.
  - inversion W as [|x y Wf Wfs]; subst. specialize (Wf a s). destruct (f a s) as [s1 o]. cbn in Wf.
    destruct o as [| d | l | | e]; try discriminate.
    + destruct (IH s1 s' r r' Wfs E) as (os & C & H). rewrite C. exists (RNone :: os). split; auto.
      destruct r' as [[d|l]|]; destruct H; split; auto; constructor; auto; left; auto.
    + specialize (Wf d eq_refl). assert (X : exists d1, hook_loop fs a s1 (Some (ADict d1)) = (s', Ok r')).
      { destruct r as [[d0|l0]|]; [eauto|discriminate|eauto]. }
      destruct X as [d1 X]. destruct (IH _ _ _ _ Wfs X) as (os & C & H). rewrite C. exists (RMap d :: os). split; auto.
      destruct r' as [[d2|l2]|]; destruct H as [H1 H2].
      * split; [|constructor; auto; right; exists d; auto]. destruct r as [[d0|l0]|]; [eauto|discriminate|auto].
      * destruct H1 as [?|[? ?]]; discriminate.
      * discriminate.
    + assert (X : exists d1, hook_loop fs a s1 (Some (ASeq d1)) = (s', Ok r')).
      { destruct r as [[d0|l0]|]; [discriminate|eauto|eauto]. }
      destruct X as [d1 X]. destruct (IH _ _ _ _ Wfs X) as (os & C & H). rewrite C. exists (RSeq l :: os). split; auto.
      destruct r' as [[d2|l2]|]; destruct H as [H1 H2].
      * destruct H1 as [?|[? ?]]; discriminate.
      * split; [|constructor; auto; right; exists l; auto]. destruct r as [[d0|l0]|]; [discriminate|eauto|auto].
      * discriminate.
Qed.
Lemma Forall_none_maps (os : list (ret V)) P : Forall (fun o => o = RNone) os -> Forall (none_or P) os.
Proof. intros H. eapply Forall_impl; [|apply H]. intros; left; auto. Qed.
Lemma seq_none_contra (os : list (ret V)) x : Forall (fun o => o = RNone) os -> In x os -> x = RNone.
Proof. intros H I. exact (proj1 (Forall_forall _ _) H x I). Qed.
Lemma hook_conflict fs gs f a s s1 os s2 o : call_all fs a s = (s1, os) -> harmonious os -> f a s1 = (s2, o) -> conflict os o ->
  hook_loop (fs ++ f :: gs) a s None = (s2, Err TypeError).
Proof.
  intros C H F K. rewrite hook_app.
  assert (MN : forall x, In x os -> Forall (none_or is_map) os -> ~ is_seq x).
  { intros x I F0 [l ->]. destruct (proj1 (Forall_forall _ _) F0 _ I) as [?|(d & ? & _)]; discriminate. }
  assert (SN : forall x, In x os -> Forall (none_or is_seq) os -> ~ is_map x).
  { intros x I F0 [d [-> _]]. destruct (proj1 (Forall_forall _ _) F0 _ I) as [?|(l & ?)]; discriminate. }
  destruct H as [H|H].
  - destruct (hook_maps fs a s s1 os None C H (or_introl eq_refl)) as (r' & -> & H2 & H3). cbn. rewrite F.
    destruct K as [->|[[_ (x & I & Sx)]|[Sq (x & I & Sx)]]]; auto.
    + exfalso. eapply MN; eauto.
    + destruct Sq as [l ->]. destruct r' as [r'|].
      * destruct (H3 ltac:(discriminate)) as (d & E & _). inversion E; subst. auto.
      * destruct (H2 eq_refl) as [_ N]. rewrite (seq_none_contra _ _ N I) in Sx. destruct Sx as (? & ? & _). discriminate.
  - destruct (hook_seqs fs a s s1 os None C H (or_introl eq_refl)) as (r' & -> & H2 & H3). cbn. rewrite F.
    destruct K as [->|[[Sm (x & I & Sx)]|[_ (x & I & Sx)]]]; auto.
    + destruct Sm as (d & -> & _). destruct r' as [r'|].
      * specialize (H3 ltac:(discriminate)). inversion H3; subst. auto.
      * destruct (H2 eq_refl) as [_ N]. rewrite (seq_none_contra _ _ N I) in Sx. destruct Sx as (? & ?). discriminate.
    + exfalso. eapply SN; eauto.
Qed.
Lemma hook_raise fs gs f a s s1 os s2 e : call_all fs a s = (s1, os) -> harmonious os -> f a s1 = (s2, RRaise e) ->
  hook_loop (fs ++ f :: gs) a s None = (s2, Err e).
Proof.
  intros C H F. rewrite hook_app. destruct H as [H|H].
  - destruct (hook_maps fs a s s1 os None C H (or_introl eq_refl)) as (r' & -> & _). cbn. rewrite F. auto.
  - destruct (hook_seqs fs a s s1 os None C H (or_introl eq_refl)) as (r' & -> & _). cbn. rewrite F. auto.
Qed.
End HookP.

(* ---- lazy status *)
Section LazyP.
Context {E V : Type}.
Variable vnone : V.
Implicit Types s : lazy E V.
Implicit Types os : list (lazy_op E V).
Notation lrun := (lazy_run vnone).

Definition wf s := forall k, In k (map fst (l_computed s)) -> In k (map fst (l_getters s)).
Lemma in_dset {W} k k' (v : W) d : In k (map fst (dset k' v d)) <-> k = k' \/ In k (map fst d).
Proof.
  rewrite <- !dget_some. rewrite dget_dset_eq. destruct (String.eqb_spec k' k) as [->|N].
  - split; [auto|eauto].
  - split; [auto|intros [->|?]; [contradiction|auto]].
Qed.
Lemma in_dupdate {W} k (e : dict W) d : In k (map fst (dupdate d e)) <-> In k (map fst e) \/ In k (map fst d).
Proof.
  unfold dupdate. revert d. induction e as [|[a b] e IH]; intros d; cbn; [tauto|]. rewrite IH, in_dset. cbn. intuition congruence.
Qed.
Lemma update_computed s d : l_computed (update_status vnone s d) = dupdate (l_computed s) d.
Proof. unfold update_status, dupdate. revert s. induction d as [|kv d IH]; intros s; cbn; auto. rewrite IH. auto. Qed.
Lemma update_calls s d : l_calls (update_status vnone s d) = l_calls s.
Proof. unfold update_status. revert s. induction d as [|kv d IH]; intros s; cbn; auto. rewrite IH. auto. Qed.
Lemma update_getters s d k : dget k (l_getters (update_status vnone s d)) =
  match dget k (l_getters s) with Some g => Some g | None => if in_dec string_dec k (map fst d) then Some (fun _ => vnone) else None end.
Proof.
  unfold update_status. revert s. induction d as [|[a b] d IH]; intros s; cbn [fold_left].
  - cbn. destruct (dget k (l_getters s)); auto.
  - rewrite IH. cbn [l_getters fst snd map].
    destruct (has a (l_getters s)) eqn:H.
    + destruct (dget k (l_getters s)) eqn:G; auto.
      destruct (in_dec string_dec k (map fst d)) as [i|i]; destruct (in_dec string_dec k (a :: map fst d)) as [j|j]; auto.
      * exfalso. apply j. right; auto.
      * destruct j as [->|j]; [|contradiction]. apply has_spec, dget_some in H. destruct H; congruence.
    + rewrite dget_dset_eq. destruct (String.eqb_spec a k) as [->|N].
      * unfold has in H. destruct (dget k (l_getters s)); [discriminate|].
        destruct (in_dec string_dec k (k :: map fst d)) as [j|j]; auto. exfalso. apply j. left; auto.
      * destruct (dget k (l_getters s)) eqn:G; auto.
        destruct (in_dec string_dec k (map fst d)) as [i|i]; destruct (in_dec string_dec k (a :: map fst d)) as [j|j]; auto.
        -- exfalso. apply j. right; auto.
        -- destruct j; contradiction.
Qed.
Lemma update_keys s d k : In k (map fst (l_getters (update_status vnone s d))) <-> In k (map fst (l_getters s)) \/ In k (map fst d).
Proof.
  rewrite <- !dget_some, update_getters.
  destruct (dget k (l_getters s)) as [g|] eqn:G.
  - split; eauto.
  - destruct (in_dec string_dec k (map fst d)).
    + split; [intros _; right; apply dget_some; auto|eauto].
    + split; [intros [? ?]; discriminate|intros [[? ?]|H]; [discriminate|apply dget_some in H; contradiction]].
Qed.
Lemma step_wf e s o : wf s -> wf (snd (fst (lazy_step vnone (e, s) o))).
Proof.
  intros W k. destruct o as [k0| |d|d|e']; cbn.
  - unfold get_status_value. destruct (dget k0 (l_computed s)) eqn:C; [apply W|].
    destruct (dget k0 (l_getters s)) eqn:G; [|apply W]. cbn. rewrite in_dset. intros [->|H]; [|auto].
    apply dget_some. eauto.
  - contradiction.
  - rewrite update_computed, in_dupdate, update_keys. intros [H|H]; auto.
  - intros H. rewrite in_dupdate. auto.
  - apply W.
Qed.
Lemma run_wf os : forall e s, wf s -> wf (snd (lrun (e, s) os)).
Proof.
  unfold lazy_run. induction os as [|o os IH]; intros e s W; auto. cbn [fold_left].
  destruct (fst (lazy_step vnone (e, s) o)) as [e1 s1] eqn:X. apply IH. pose proof (step_wf e s o W) as H. rewrite X in H. auto.
Qed.
Lemma run_cons e s o os : lrun (e, s) (o :: os) = lrun (fst (lazy_step vnone (e, s) o)) os.
Proof. reflexivity. Qed.
Lemma run_app es os os' : lrun es (os ++ os') = lrun (lrun es os) os'.
Proof. apply fold_left_app. Qed.

(* a computed value stays *)
Lemma step_keeps e s o k v : dget k (l_computed s) = Some v -> o <> Clear -> ~ stores k o ->
  dget k (l_computed (snd (fst (lazy_step vnone (e, s) o)))) = Some v.
Proof.
  intros C N H. destruct o as [k0| |d|d|e']; cbn; auto; [|contradiction|].
  - unfold get_status_value. destruct (dget k0 (l_computed s)) eqn:C0; auto. destruct (dget k0 (l_getters s)); auto. cbn.
    rewrite dget_dset_other; auto. intros ->. congruence.
  - rewrite update_computed, dget_dupdate_out; auto. intros I. apply H. exists d. auto.
Qed.
Lemma run_keeps os k v : forall e s, dget k (l_computed s) = Some v -> ~ In Clear os -> (forall o, In o os -> ~ stores k o) ->
  dget k (l_computed (snd (lrun (e, s) os))) = Some v.
Proof.
  induction os as [|o os IH]; intros e s C N H; auto. rewrite run_cons.
  destruct (fst (lazy_step vnone (e, s) o)) as [e1 s1] eqn:X. apply IH.
  - pose proof (step_keeps e s o k v C) as P. rewrite X in P. apply P; [intros ->; apply N; left; auto|apply H; left; auto].
  - intros I. apply N. right; auto.
  - intros o' I. apply H. right; auto.
Qed.
(* an uncomputed value stays uncomputed *)
Lemma run_uncomputed os k : forall e s, dget k (l_computed s) = None -> ~ In (Get k) os -> (forall o, In o os -> ~ stores k o) ->
  dget k (l_computed (snd (lrun (e, s) os))) = None.
Proof.
  induction os as [|o os IH]; intros e s C N H; auto. rewrite run_cons.
  destruct (fst (lazy_step vnone (e, s) o)) as [e1 s1] eqn:X. apply IH.
  - pose proof (f_equal snd X) as P. cbn in P. rewrite <- P. clear P X. destruct o as [k0| |d|d|e']; cbn; auto.
    + unfold get_status_value. destruct (dget k0 (l_computed s)) eqn:C0; auto. destruct (dget k0 (l_getters s)); auto. cbn.
      rewrite dget_dset_other; auto. intros ->. apply N. left; auto.
    + rewrite update_computed, dget_dupdate_out; auto. intros I. apply (H _ (or_introl eq_refl)). exists d. auto.
  - intros I. apply N. right; auto.
  - intros o' I. apply H. right; auto.
Qed.
(* calls *)
Lemma run_calls_computed os k v : forall e s, dget k (l_computed s) = Some v -> ~ In Clear os ->
  key_count k (l_calls (snd (lrun (e, s) os))) = key_count k (l_calls s).
Proof.
  revert v. induction os as [|o os IH]; intros v e s C N; auto. rewrite run_cons.
  assert (X : exists v', dget k (l_computed (snd (fst (lazy_step vnone (e, s) o)))) = Some v' /\
     key_count k (l_calls (snd (fst (lazy_step vnone (e, s) o)))) = key_count k (l_calls s)).
  { destruct o as [k0| |d|d|e']; cbn.
    - unfold get_status_value. destruct (dget k0 (l_computed s)) eqn:C0; cbn; [eauto|].
      destruct (dget k0 (l_getters s)); cbn; [|eauto]. destruct (String.eqb_spec k k0) as [->|Nk]; [congruence|].
      exists v. rewrite dget_dset_other by auto. split; auto. unfold key_count. rewrite filter_app. cbn.
      destruct (String.eqb_spec k k0); [contradiction|]. rewrite app_nil_r. auto.
    - exfalso. apply N. left; auto.
    - rewrite update_computed, update_calls. destruct (in_dec string_dec k (map fst d)) as [I|I].
      + destruct (dget_dupdate_in k d (l_computed s) I) as (v' & Ev & _). eauto.
      + rewrite dget_dupdate_out by auto. eauto.
    - eauto.
    - eauto. }
  destruct X as (v' & C' & <-). destruct (fst (lazy_step vnone (e, s) o)) as [e1 s1]. cbn in *.
  eapply IH; eauto.
Qed.
Lemma run_calls os k : forall e s, ~ In Clear os ->
  key_count k (l_calls (snd (lrun (e, s) os))) <= key_count k (l_calls s) + 1.
Proof.
  induction os as [|o os IH]; intros e s N; [cbn; lia|]. rewrite run_cons.
  assert (No : ~ In Clear os) by (intros I; apply N; right; auto).
  assert (X : (exists v, dget k (l_computed (snd (fst (lazy_step vnone (e, s) o)))) = Some v) /\
     key_count k (l_calls (snd (fst (lazy_step vnone (e, s) o)))) <= key_count k (l_calls s) + 1 \/
     key_count k (l_calls (snd (fst (lazy_step vnone (e, s) o)))) = key_count k (l_calls s)).
  { destruct o as [k0| |d|d|e']; cbn.
    - unfold get_status_value. destruct (dget k0 (l_computed s)) eqn:C0; cbn; [auto|].
      destruct (dget k0 (l_getters s)); cbn; [|auto]. unfold key_count. rewrite filter_app, app_length. cbn.
      destruct (String.eqb_spec k k0) as [->|Nk].
      + left. rewrite dget_dset. cbn. split; [eauto|lia].
      + right. cbn. lia.
    - auto.
    - right. rewrite update_calls. auto.
    - auto.
    - auto. }
  destruct (fst (lazy_step vnone (e, s) o)) as [e1 s1]. cbn [fst snd] in X. destruct X as [[[v C] L]|L].
  - rewrite (run_calls_computed os k v e1 s1 C No). auto.
  - rewrite <- L. apply IH. auto.
Qed.
(* keys *)
Lemma run_has os k : forall e s, has_status_key k s = true -> has_status_key k (snd (lrun (e, s) os)) = true.
Proof.
  unfold has_status_key. induction os as [|o os IH]; intros e s H; auto. rewrite run_cons.
  assert (X : has k (l_getters (snd (fst (lazy_step vnone (e, s) o)))) = true).
  { apply has_spec in H. apply has_spec. destruct o as [k0| |d|d|e']; cbn; auto.
    - unfold get_status_value. destruct (dget k0 (l_computed s)); auto. destruct (dget k0 (l_getters s)); auto.
    - apply update_keys. auto.
    - rewrite in_dupdate. auto. }
  destruct (fst (lazy_step vnone (e, s) o)) as [e1 s1]. apply IH. auto.
Qed.
Lemma get_ok_iff e s k : wf s -> (exists v, snd (get_status_value k e s) = Ok v) <-> has_status_key k s = true.
Proof.
  intros W. unfold has_status_key. rewrite has_spec. unfold get_status_value.
  destruct (dget k (l_computed s)) eqn:C.
  - cbn. split; [|eauto]. intros _. apply W. apply dget_some. eauto.
  - rewrite <- dget_some. destruct (dget k (l_getters s)) eqn:G; cbn; split; eauto; intros [? ?]; discriminate.
Qed.
Lemma get_unknown e s k : wf s -> has_status_key k s = false -> get_status_value k e s = (s, Err KeyError).
Proof.
  intros W H. pose proof (get_ok_iff e s k W) as I. unfold get_status_value in *.
  destruct (dget k (l_computed s)) eqn:C.
  - cbn in I. rewrite (proj1 I) in H by eauto. discriminate.
  - destruct (dget k (l_getters s)) eqn:G; auto. cbn in I. rewrite (proj1 I) in H by eauto. discriminate.
Qed.

(* reading everything *)
Definition value_of e s k : option V :=
  match dget k (l_computed s) with Some v => Some v | None => option_map (fun g => g e) (dget k (l_getters s)) end.
Lemma get_value e s k : snd (get_status_value k e s) = match value_of e s k with Some v => Ok v | None => Err KeyError end /\
  (forall k', value_of e (fst (get_status_value k e s)) k' = value_of e s k') /\
  l_getters (fst (get_status_value k e s)) = l_getters s /\
  (forall k', dget k' (l_computed s) = value_of e s k' \/ k' = k ->
     dget k' (l_computed (fst (get_status_value k e s))) = value_of e s k').
Proof.
  unfold get_status_value, value_of. destruct (dget k (l_computed s)) eqn:C; cbn.
  - split; auto. split; auto. split; auto. intros k' [X|X]; [auto|subst k'; rewrite C; auto].
  - destruct (dget k (l_getters s)) eqn:G; cbn.
    + split; auto. split; [|split; auto]; intros k'; rewrite dget_dset_eq;
        destruct (String.eqb_spec k k') as [<-|N]; auto; try (rewrite C, G; auto).
      intros [H|H]; auto. congruence.
    + split; auto. split; auto. split; auto. intros k' [X|X]; [auto|subst k'; rewrite C, G; auto].
Qed.
Lemma dget_app {W} k (d d' : dict W) : dget k (d ++ d') = match dget k d with Some v => Some v | None => dget k d' end.
Proof. unfold dget. rewrite find_app. destruct (find _ d); auto. Qed.
Lemma status_dict_value e s : exists s' d, status_dict e s = (s', Ok d) /\ l_getters s' = l_getters s /\ map fst d = status_keys s /\
  (forall k, In k (status_keys s) -> dget k d = value_of e s k /\ value_of e s k <> None /\ dget k (l_computed s') = dget k d).
Proof.
  unfold status_dict.
  assert (G : forall ks s0 d0, (forall k, value_of e s0 k = value_of e s k) -> l_getters s0 = l_getters s ->
     (forall k, In k ks -> In k (status_keys s)) ->
     (forall k, In k (map fst d0) -> dget k d0 = value_of e s k /\ dget k (l_computed s0) = value_of e s k) ->
     exists s' d, fold_left (fun sr k => let (s, r) := (sr : lazy E V * result (dict V)) in
       match r with Err x => (s, Err x) | Ok d => let (s', v) := get_status_value k e s in (s', bind v (fun v => Ok (d ++ [(k, v)]))) end)
       ks (s0, Ok d0) = (s', Ok d) /\ l_getters s' = l_getters s /\ map fst d = map fst d0 ++ ks /\
       (forall k, In k (map fst d0) \/ In k ks -> dget k d = value_of e s k /\ dget k (l_computed s') = value_of e s k)).
  { induction ks as [|k ks IH]; intros s0 d0 H1 H2 H3 H4; cbn [fold_left].
    - exists s0, d0. rewrite app_nil_r. split; auto. split; auto. split; auto. intros k [H|[]]. auto.
    - destruct (get_value e s0 k) as (A1 & A2 & A3 & A4). destruct (get_status_value k e s0) as [s1 v1]. cbn in A1, A2, A3, A4.
      assert (X : exists v, value_of e s k = Some v).
      { specialize (H3 k (or_introl eq_refl)). unfold status_keys in H3. apply dget_some in H3. destruct H3 as [g Hg].
        unfold value_of. destruct (dget k (l_computed s)); eauto. rewrite Hg. cbn. eauto. }
      destruct X as [v X]. rewrite H1, X in A1. subst v1. cbn [bind].
      destruct (IH s1 (d0 ++ [(k, v)])) as (s' & d & P1 & P2 & P3 & P4).
      + intros k'. rewrite A2. auto.
      + congruence.
      + intros k' I. apply H3. right; auto.
      + intros k' I. rewrite map_app in I. apply in_app_iff in I. cbn in I. rewrite dget_app.
        assert (Cm : dget k' (l_computed s1) = value_of e s k').
        { rewrite <- H1. apply A4. rewrite H1. destruct I as [I|[I|[]]]; [left; apply H4; auto|right; auto]. }
        split; auto. destruct (dget k' d0) eqn:D0.
        * rewrite <- D0. apply H4. apply dget_some. eauto.
        * apply dget_none in D0. destruct I as [I|[<-|[]]]; [contradiction|]. rewrite dget_cons. cbn. rewrite String.eqb_refl. auto.
      + exists s', d. split; auto. split; auto. rewrite P3, map_app, <- app_assoc. split; auto.
        intros k' I. apply P4. rewrite map_app, in_app_iff. cbn. destruct I as [I|[I|I]]; auto. }
  destruct (G (status_keys s) s [] (fun _ => eq_refl) eq_refl (fun _ H => H)) as (s' & d & P1 & P2 & P3 & P4).
  { intros k []. }
  exists s', d. split; auto. split; auto. split; auto. intros k I. destruct (P4 k (or_intror I)) as [Q1 Q2]. split; auto. split; [|congruence].
  unfold status_keys in I. apply dget_some in I. destruct I as [g Hg]. unfold value_of. rewrite Hg.
  destruct (dget k (l_computed s)); discriminate.
Qed.
End LazyP.

From Coq Require Import String QArith Qround.
From Verif Require Import Prelude LoopModel LoopSpec LoopProofs.
Close Scope Q_scope.
Open Scope nat_scope.

Lemma dset_nodup {V} k (v : V) d : NoDup (map fst d) -> NoDup (map fst (dset k v d)).
Proof.
  induction d as [|[a b] d IH]; intros N; cbn; [repeat constructor; auto|]. cbn in N. inversion N; subst.
  destruct (String.eqb_spec a k) as [->|Na]; cbn; constructor; auto.
  rewrite in_dset. intros [->|H]; auto.
Qed.
Lemma dupdate_nodup {V} (e : dict V) : forall d, NoDup (map fst d) -> NoDup (map fst (dupdate d e)).
Proof. unfold dupdate. induction e as [|[a b] e IH]; intros d N; cbn; auto. apply IH. apply dset_nodup. auto. Qed.
Lemma hook_dict_nodup {S A V} (fs : list (callable (S := S) (A := A) (V := V))) a : forall s s' r d,
  (forall d0, r = Some (ADict d0) -> NoDup (map fst d0)) ->
  hook_loop fs a s r = (s', Ok (Some (ADict d))) -> NoDup (map fst d).
Proof.
  induction fs as [|f fs IH]; intros s s' r d H E; cbn in E; [inversion E; subst; auto|].
  destruct (f a s) as [s1 [| d1 | l | | e]]; try discriminate.
  - eapply IH; eauto.
  - destruct r as [[d0|l0]|]; try discriminate.
    + refine (IH _ _ _ _ _ E). intros d2 X; inversion X; subst. apply dupdate_nodup. auto.
    + refine (IH _ _ _ _ _ E). intros d2 X; inversion X; subst. apply dupdate_nodup. constructor.
  - destruct r as [[d0|l0]|]; try discriminate; refine (IH _ _ _ _ _ E); intros d2 X; inversion X.
Qed.

Section RunP.
Context {U V : Type}.
Implicit Types w : world U V.

Lemma number_map {A B C} (g : nat -> B -> C) (h : A -> B) l : forall i, number g i (map h l) = number (fun i x => g i (h x)) i l.
Proof. induction l; intros i; cbn; auto. rewrite IHl. auto. Qed.
Lemma traced_loop {A} (ev : nat -> A -> event V) (fs : list (A -> U -> U * ret V)) a : forall i w r w' x,
  hook_loop (number (fun i f => traced (ev i) f) i fs) a w r = (w', x) ->
  exists m, m <= length fs /\ (is_ok x = true -> m = length fs) /\
    hook_loop (S := U) fs a (w_user w) r = (w_user w', x) /\
    w_trace w' = w_trace w ++ map (fun j => ev j a) (seq i m).
Proof.
  induction fs as [|f fs IH]; intros i w r w' x E; cbn in *.
  - inversion E; subst. exists 0. cbn. rewrite app_nil_r. auto.
  - unfold traced at 1 in E. destruct (f a (w_user w)) as [u o].
    assert (Stop : forall e, (mkWorld u (w_trace w ++ [ev i a]), Err e) = (w', x) ->
       exists m, m <= S (length fs) /\ (is_ok x = true -> m = S (length fs)) /\
       (u, Err e) = (w_user w', x) /\ w_trace w' = w_trace w ++ map (fun j => ev j a) (seq i m)).
    { intros e X; inversion X; subst. exists 1. cbn. split; [lia|split; [discriminate|split; auto]]. }
    assert (Go : forall r', hook_loop (number (fun i f => traced (ev i) f) (S i) fs) a (mkWorld u (w_trace w ++ [ev i a])) r' = (w', x) ->
       exists m, m <= S (length fs) /\ (is_ok x = true -> m = S (length fs)) /\
       hook_loop fs a u r' = (w_user w', x) /\ w_trace w' = w_trace w ++ map (fun j => ev j a) (seq i m)).
    { intros r' X. destruct (IH (S i) _ _ _ _ X) as (m & L & K & H1 & H2). exists (S m). split; [lia|split; [|split; [auto|]]].
      - intros O. rewrite (K O). auto.
      - rewrite H2. cbn. rewrite <- app_assoc. auto. }
    destruct o as [| d | l | | e]; auto; destruct r as [[d0|l0]|]; auto.
Qed.
Lemma silent_loop (ev : nat -> event V) (fs : list (U -> U * ret V)) w w' x :
  hook_loop (run_silent ev fs) tt w None = (w', x) ->
  exists m, m <= length fs /\ (is_ok x = true -> m = length fs) /\
    hook_loop (S := U) (map (fun f (_ : unit) => f) fs) tt (w_user w) None = (w_user w', x) /\
    w_trace w' = w_trace w ++ map ev (seq 0 m).
Proof.
  intros E. unfold run_silent in E.
  assert (X : number (fun i f => traced (fun _ : unit => ev i) (fun _ => f)) 0 fs =
              number (fun i f => traced ((fun i _ => ev i) i) f) 0 (map (fun f (_ : unit) => f) fs)) by (rewrite number_map; auto).
  rewrite X in E. apply (traced_loop (fun i _ => ev i)) in E. rewrite map_length in E. exact E.
Qed.

Variable vnone : V.
Variable vnat : nat -> V.
Variable c : config U V.
Definition keeps (gs : dict (U -> V)) (s : lazy U V) : Prop := forall k g, dget k gs = Some g -> dget k (l_getters s) = Some g.
Lemma keeps_update gs s d : keeps gs s -> keeps gs (update_status vnone s d).
Proof. intros K k g H. rewrite update_getters. rewrite (K k g H). auto. Qed.
Lemma keeps_clear gs s : keeps gs s -> keeps gs (clear_status s).
Proof. auto. Qed.

Lemma harmony_success {A} (fs : list (A -> U -> U * ret V)) a u u' r :
  (forall f a u d, In f fs -> snd (f a u) = RMap d -> NoDup (map fst d)) ->
  hook_loop (S := U) fs a u None = (u', Ok r) ->
  exists os, call_all fs a u = (u', os) /\ harmonious os.
Proof.
  intros W E. apply hook_success in E.
  - destruct E as (os & C & H). exists os. split; auto. unfold harmonious. destruct r as [[d|l]|]; destruct H; auto.
    left. apply Forall_none_maps. auto.
  - apply Forall_forall. intros f I a' s' d H. eapply W; eauto.
Qed.

Lemma status_ready gs n u2 u3 extra o3 (st : lazy U V) : keeps gs st -> NoDup (map fst (problem_status c u2)) -> NoDup (map fst extra) ->
  (forall k, dget k extra = last_wins k o3) ->
  exists l d, status_dict u3 (update_status vnone (update_status vnone (update_status vnone (clear_status st) [("iter"%string, vnat n)])
      (problem_status c u2)) extra) = (l, Ok d) /\ keeps gs l /\ status_ok vnat c gs n u2 o3 u3 d /\
    (forall k v, dget k d = Some v -> In k (status_keys l) /\ dget k (l_computed l) = Some v) /\
    (forall k v, dget k d = Some v -> In k (status_keys (update_status vnone (update_status vnone (update_status vnone (clear_status st) [("iter"%string, vnat n)])
      (problem_status c u2)) extra)) /\ value_of u3 (update_status vnone (update_status vnone (update_status vnone (clear_status st) [("iter"%string, vnat n)])
      (problem_status c u2)) extra) k = Some v).
Proof.
  intros K Nps Nex Hex.
  set (st1 := update_status vnone (clear_status st) [("iter"%string, vnat n)]).
  set (st2 := update_status vnone st1 (problem_status c u2)). set (st3 := update_status vnone st2 extra).
  destruct (status_dict_value u3 st3) as (l & d & E & G & Kd & H). exists l, d. split; auto.
  assert (K3 : keeps gs st3) by (repeat apply keeps_update; apply keeps_clear; auto).
  split; [intros k g Hk; rewrite G; apply K3; auto|].
  assert (KK : forall k v, dget k d = Some v -> In k (status_keys st3)).
  { intros k v X. rewrite <- Kd. apply dget_some. eauto. }
  split; [|split].
  2:{ intros k v X. specialize (KK k v X). split; [unfold status_keys in *; rewrite G; auto|]. rewrite (proj2 (proj2 (H k KK))). auto. }
  2:{ intros k v X. specialize (KK k v X). split; auto. rewrite <- (proj1 (H k KK)). auto. }
  intros k Hk. unfold status_at.
  assert (Keys : In k (status_keys st3)).
  { unfold status_keys. apply update_keys. unfold st2. rewrite update_keys. unfold st1. rewrite update_keys. cbn.
    destruct Hk as [[x Hx]|[Hk|[->|Hk]]]; auto.
    - right. apply dget_some. rewrite Hex. eauto.
    - left. left. left. apply dget_some in Hk. destruct Hk as [g Hg]. apply dget_some. exists g. apply K. auto. }
  destruct (H k Keys) as (H1 & H2 & _).
  assert (Cm : dget k (l_computed st3) = match last_wins k o3 with Some v => Some v | None =>
     match dget k (problem_status c u2) with Some v => Some v | None => if String.eqb k "iter" then Some (vnat n) else None end end).
  { unfold st3, st2, st1. rewrite !update_computed, dget_dupdate, dget_dupdate by auto. rewrite Hex.
    destruct (last_wins k o3); auto. destruct (dget k (problem_status c u2)); auto. unfold dupdate. cbn [fold_left fst snd clear_status l_computed].
    rewrite dget_dset_eq, String.eqb_sym. destruct (String.eqb k "iter"); auto. }
  rewrite H1. unfold value_of in *. rewrite Cm in *.
  destruct (last_wins k o3) eqn:L1; [eauto|]. destruct (dget k (problem_status c u2)) eqn:L2; [eauto|].
  destruct (String.eqb_spec k "iter") as [->|Ni]; [eauto|].
  destruct Hk as [[x Hx]|[Hk|[->|Hk]]]; [discriminate| |contradiction|].
  - apply dget_some in Hk. destruct Hk; congruence.
  - apply dget_some in Hk. destruct Hk as [g Hg]. rewrite (K3 k g Hg). cbn. eauto.
Qed.

Definition same_status_getters gs (s : search U V) := keeps gs (s_status s).
Lemma step_success gs s s' : proper c -> keeps gs (s_status s) -> search_step vnone vnat c s = (s', Ok tt) ->
  exists t d, generation vnat c gs (s_steps s + 1) (w_user (s_world s)) (w_user (s_world s')) t d /\
    w_trace (s_world s') = w_trace (s_world s) ++ t /\ s_steps s' = s_steps s + 1 /\ keeps gs (s_status s') /\
    (forall k v, dget k d = Some v -> In k (status_keys (s_status s')) /\ value_of (w_user (s_world s')) (s_status s') k = Some v).
Proof.
  intros (P1 & P2 & P3 & P4) K E. unfold search_step in E.
  destruct (hook_loop (run_silent EBefore (before_step c)) tt (s_world s) None) as [w1 [r1|e]] eqn:H1; [|discriminate].
  destruct (silent_loop _ _ _ _ _ H1) as (m1 & _ & L1 & B1 & T1). specialize (L1 eq_refl). subst m1.
  apply harmony_success in B1.
  2:{ intros f a u d I. apply in_map_iff in I. destruct I as (f' & <- & I). apply (P1 f' u d I). }
  destruct B1 as (o1 & C1 & Ha1).
  destruct (alg_step c (w_user w1)) as [u2 [e|]] eqn:H2; [discriminate|].
  unfold accumulate_dict in E.
  destruct (hook_loop (run_silent EAfter (after_step c)) tt (mkWorld u2 (w_trace w1 ++ [EStep])) None) as [w3 r3] eqn:H3.
  destruct r3 as [r3|e]; [|discriminate]. cbn [bind] in E.
  destruct (silent_loop _ _ _ _ _ H3) as (m3 & _ & L3 & B3 & T3). specialize (L3 eq_refl). subst m3.
  assert (X : exists extra o3, match r3 with None => Ok [] | Some (ADict d) => Ok d | Some (ASeq _) => Err TypeError end = Ok extra /\
     NoDup (map fst extra) /\ call_all (map (fun f (_ : unit) => f) (after_step c)) tt u2 = (w_user w3, o3) /\
     Forall (none_or is_map) o3 /\ forall k, dget k extra = last_wins k o3).
  { assert (W : Forall wf_out (map (fun f (_ : unit) => f) (after_step c))).
    { apply Forall_forall. intros f I a u d. apply in_map_iff in I. destruct I as (f' & <- & I). apply (P2 f' u d I). }
    destruct (hook_success _ _ _ _ _ _ W B3) as (os & C & H). cbn [w_user] in C.
    destruct r3 as [[d|l]|]; [| |].
    - destruct H as [_ H]. destruct (hook_maps _ _ _ _ _ None C H (or_introl eq_refl)) as (r' & Q1 & Q2 & Q3).
      pose proof (eq_trans (eq_sym B3) Q1) as Q4. inversion Q4; subst. destruct (Q3 ltac:(discriminate)) as (d' & Ed & Q). inversion Ed; subst.
      exists d', os. repeat split; auto.
      + refine (hook_dict_nodup _ _ _ _ None _ _ B3). intros; discriminate.
      + intros k. rewrite Q. destruct (last_wins k os); auto.
    - exfalso. discriminate E.
    - destruct H as [_ H]. exists [], os. repeat split; auto; [constructor|apply Forall_none_maps; auto|].
      intros k. clear -H. induction H as [|o os -> H IH]; auto. cbn. rewrite <- IH. auto. }
  destruct X as (extra & o3 & Xe & Nex & C3 & Hm3 & Lw). rewrite Xe in E. cbn [bind] in E.
  set (n := s_steps s + 1) in *.
  destruct (status_ready gs n u2 (w_user w3) extra o3 (s_status s) K (P4 u2) Nex Lw) as (l & d & Sd & Kl & Ok3 & V1 & V2).
  set (st3 := update_status vnone (update_status vnone (update_status vnone (clear_status (s_status s)) [("iter"%string, vnat n)])
      (problem_status c u2)) extra) in *.
  unfold notify in E. destruct (log_hook c) as [|f0 fs0] eqn:Lh.
  - inversion E; subst. cbn. eexists _, d. split; [|split; [|split; [|split]]]; auto.
    + eapply (Generation vnat c gs n _ (w_user w1) o1 u2 (w_user w3) o3 (w_user w3) [] d); eauto.
      * rewrite Lh. auto.
      * left; constructor.
    + rewrite T3. cbn [w_trace]. rewrite T1, Lh. cbn [length seq map]. rewrite app_nil_r, <- !app_assoc. auto.
    + repeat apply keeps_update. apply keeps_clear. auto.
  - rewrite <- Lh in *. cbn [s_world s_status s_steps] in E. rewrite Sd in E.
    destruct (hook_loop (run_listeners ELog (log_hook c)) d w3 None) as [w4 r4] eqn:H4.
    destruct r4 as [r4|e]; [|discriminate]. inversion E; subst; clear E. cbn [s_world s_steps s_status].
    destruct (traced_loop ELog (log_hook c) d 0 _ _ _ _ H4) as (m4 & _ & L4 & B4 & T4). specialize (L4 eq_refl). subst m4.
    apply harmony_success in B4; [|intros f a u d0 I; apply (P3 f a u d0 I)]. destruct B4 as (o4 & C4 & Ha4).
    eexists _, d. split; [|split; [|split; [|split]]]; auto.
    + eapply (Generation vnat c gs n _ (w_user w1) o1 u2 (w_user w3) o3 (w_user w4) o4 d); eauto.
    + rewrite T4, T3. cbn [w_trace]. rewrite T1, <- !app_assoc. auto.
    + intros k v X. destruct (V1 k v X) as [Y1 Y2]. split; auto. unfold value_of. rewrite Y2. auto.
Qed.

Lemma steps_success gs n : forall s s', proper c -> keeps gs (s_status s) -> search_steps vnone vnat c n s = (s', Ok tt) ->
  exists t od, generations vnat c gs (s_steps s) n (w_user (s_world s)) (w_user (s_world s')) t od /\
    w_trace (s_world s') = w_trace (s_world s) ++ t /\ s_steps s' = s_steps s + n /\ keeps gs (s_status s') /\
    (od = None <-> n = 0) /\
    (forall d k v, od = Some d -> dget k d = Some v -> In k (status_keys (s_status s')) /\ value_of (w_user (s_world s')) (s_status s') k = Some v).
Proof.
  induction n as [|n IH]; intros s s' P K E; cbn in E.
  - inversion E; subst. exists [], None. rewrite app_nil_r, Nat.add_0_r. split; [constructor|]. repeat split; auto; discriminate.
  - destruct (search_step vnone vnat c s) as [s1 [[]|e]] eqn:H; [|discriminate].
    destruct (step_success gs s s1 P K H) as (t1 & d1 & G1 & T1 & N1 & K1 & V1).
    destruct (IH s1 s' P K1 E) as (t2 & od & G2 & T2 & N2 & K2 & Z2 & V2).
    destruct od as [d|].
    + exists (t1 ++ t2), (Some d). split; [|split; [|split; [|split; [auto|split; [split; discriminate|auto]]]]].
      * econstructor; eauto. rewrite N1 in G2. auto.
      * rewrite T2, T1, app_assoc. auto.
      * lia.
    + rewrite (proj1 Z2 eq_refl) in *. cbn in E. inversion E; subst s'. inversion G2; subst.
      exists t1, (Some d1). split; [constructor; auto|]. split; [auto|]. split; [auto|]. split; [auto|]. split; [split; discriminate|].
      intros d k v X. inversion X; subst. auto.
Qed.

(* events and failures *)
Lemma no_step_map {A} (ev : A -> event V) l : (forall x, is_step (ev x) = false) -> steps_in (map ev l) = 0.
Proof. intros H. unfold steps_in. induction l; cbn; auto. rewrite H. auto. Qed.
Lemma steps_in_app (t t' : list (event V)) : steps_in (t ++ t') = steps_in t + steps_in t'.
Proof. unfold steps_in. rewrite filter_app, app_length. auto. Qed.
Lemma no_end_map {A} (ev : A -> event V) l : (forall x, is_end (ev x) = false) -> forallb (fun e => negb (is_end e)) (map ev l) = true.
Proof. intros H. induction l; cbn; auto. rewrite H. auto. Qed.
Lemma notify_log (s s' : search U V) x : notify (ELog (V := V)) (log_hook c) s = (s', x) ->
  exists t, w_trace (s_world s') = w_trace (s_world s) ++ t /\ s_steps s' = s_steps s /\ steps_in t = 0 /\
    forallb (fun e => negb (is_end e)) t = true.
Proof.
  unfold notify. intros E. destruct (log_hook c) as [|f fs] eqn:Lh.
  - inversion E; subst. exists []. rewrite app_nil_r. auto.
  - rewrite <- Lh in *. destruct (status_dict (w_user (s_world s)) (s_status s)) as [l [d|e]].
    + destruct (hook_loop (run_listeners ELog (log_hook c)) d (s_world s) None) as [w4 r4] eqn:H4. inversion E; subst.
      destruct (traced_loop ELog (log_hook c) d 0 _ _ _ _ H4) as (m4 & _ & L4 & B4 & T4).
      exists (map (fun j => ELog j d) (seq 0 m4)). cbn. repeat split; auto; [apply no_step_map; auto|apply no_end_map; auto].
    + inversion E; subst. exists []. rewrite app_nil_r. auto.
Qed.
Lemma step_events s s' x : search_step vnone vnat c s = (s', x) ->
  exists t, w_trace (s_world s') = w_trace (s_world s) ++ t /\ forallb (fun e => negb (is_end e)) t = true /\
    s_steps s <= s_steps s' <= s_steps s + 1 /\ (s_steps s' - s_steps s <= steps_in t <= 1) /\
    (x = Ok tt -> s_steps s' = s_steps s + 1 /\ steps_in t = 1).
Proof.
  intros E. unfold search_step in E.
  destruct (hook_loop (run_silent EBefore (before_step c)) tt (s_world s) None) as [w1 r1] eqn:H1.
  destruct (silent_loop _ _ _ _ _ H1) as (m1 & _ & L1 & B1 & T1).
  destruct r1 as [r1|e].
  2:{ inversion E; subst. cbn. eexists. split; [exact T1|]. rewrite no_step_map, no_end_map by auto. repeat split; try lia; discriminate. }
  destruct (alg_step c (w_user w1)) as [u2 x2].
  destruct x2 as [e|].
  { inversion E; subst. cbn. eexists. rewrite T1, <- app_assoc. split; [reflexivity|].
    rewrite forallb_app, steps_in_app, no_step_map, no_end_map by auto. cbn. repeat split; try lia; discriminate. }
  destruct (accumulate_dict (run_silent EAfter (after_step c)) tt (mkWorld u2 (w_trace w1 ++ [EStep]))) as [w3 r3] eqn:H3.
  unfold accumulate_dict in H3.
  destruct (hook_loop (run_silent EAfter (after_step c)) tt (mkWorld u2 (w_trace w1 ++ [EStep])) None) as [w3' r3'] eqn:H3'.
  injection H3 as Hw Hr; subst w3'. clear Hr.
  destruct (silent_loop _ _ _ _ _ H3') as (m3 & _ & _ & _ & T3). cbn [w_trace] in T3.
  destruct r3 as [extra|e].
  2:{ inversion E; subst. cbn. eexists. rewrite T3, T1, <- !app_assoc. split; [reflexivity|].
      rewrite !forallb_app, !steps_in_app, !no_step_map, !no_end_map by auto. cbn. repeat split; try lia; discriminate. }
  apply notify_log in E. destruct E as (t & T4 & N4 & S4 & E4). cbn [s_steps s_world] in *.
  eexists. rewrite T4, T3, T1, <- !app_assoc. split; [reflexivity|].
  rewrite !forallb_app, !steps_in_app, !no_step_map, !no_end_map, S4, E4 by auto. cbn. repeat split; try lia; discriminate.
Qed.
Lemma steps_events n : forall s s' x, search_steps vnone vnat c n s = (s', x) ->
  exists t, w_trace (s_world s') = w_trace (s_world s) ++ t /\ forallb (fun e => negb (is_end e)) t = true /\
    s_steps s <= s_steps s' /\ s_steps s' - s_steps s <= steps_in t /\ steps_in t <= n /\ steps_in t <= s_steps s' - s_steps s + 1 /\
    (x = Ok tt -> s_steps s' = s_steps s + n /\ steps_in t = n).
Proof.
  induction n as [|n IH]; intros s s' x E; cbn in E.
  - inversion E; subst. exists []. rewrite app_nil_r. cbn. repeat split; auto; lia.
  - destruct (search_step vnone vnat c s) as [s1 x1] eqn:H. destruct (step_events s s1 x1 H) as (t1 & T1 & E1 & N1 & S1 & O1).
    destruct x1 as [[]|e].
    + destruct (O1 eq_refl) as [O2 O3]. destruct (IH s1 s' x E) as (t2 & T2 & E2 & N2 & S2 & S3 & S4 & O).
      exists (t1 ++ t2). rewrite T2, T1, app_assoc, forallb_app, E1, E2, steps_in_app. repeat split; auto; try lia; intros X; destruct (O X); lia.
    + inversion E; subst. exists t1. repeat split; auto; try lia; discriminate.
Qed.
End RunP.

(* ---- loggers *)
Lemma logger_call_spec k af c : (k <> 0)%Z -> exists b, logger_call k af c = ((c + 1)%Z, Ok b) /\ (b = true <-> due k af (c + 1)%Z).
Proof.
  intros K. unfold logger_call, due. destruct af; (destruct (Z.eqb_spec k 0) as [?|_]; [contradiction|]); eexists; split; try reflexivity.
  - rewrite Z.eqb_eq. split.
    + intros H. exists (c / k)%Z. pose proof (Z.div_mod c k K). lia.
    + intros [j H]. assert (c = j * k)%Z as -> by lia. apply Z_mod_mult.
  - rewrite Z.eqb_eq. split.
    + intros H. exists ((c + 1) / k)%Z. pose proof (Z.div_mod (c + 1) k K). lia.
    + intros [j H]. assert (c + 1 = j * k)%Z as -> by lia. apply Z_mod_mult.
Qed.
Lemma logger_calls_spec k af n : (k <> 0)%Z -> forall c, exists bs, logger_calls k af c n = ((c + Z.of_nat n)%Z, Ok bs) /\ length bs = n /\
  forall i, i < n -> exists b, nth_error bs i = Some b /\ (b = true <-> due k af (c + Z.of_nat i + 1)%Z).
Proof.
  intros K. induction n as [|n IH]; intros c; cbn.
  - exists []. repeat split; auto; [f_equal; lia|lia].
  - destruct (logger_call_spec k af c K) as (b & -> & Hb). destruct (IH (c + 1)%Z) as (bs & -> & L & H).
    exists (b :: bs). cbn. repeat split; [f_equal; lia|auto|]. intros [|i] Hi.
    + exists b. split; auto. rewrite Hb. replace (c + Z.of_nat 0 + 1)%Z with (c + 1)%Z by lia. tauto.
    + destruct (H i ltac:(lia)) as (b' & Hn & D). exists b'. split; auto. rewrite D.
      replace (c + 1 + Z.of_nat i + 1)%Z with (c + Z.of_nat (S i) + 1)%Z by lia. tauto.
Qed.

(* pickling: everything saved so far is at or before the current generation, increasing, and the last one is remembered *)
Lemma increasing_snoc l x : increasing l -> (forall y, In y l -> y < x) -> increasing (l ++ [x]).
Proof.
  intros I H i j a b L A B.
  destruct (Nat.lt_ge_cases j (length l)) as [Lj|Lj].
  - rewrite nth_error_app1 in A by lia. rewrite nth_error_app1 in B by lia. apply (I i j); auto.
  - rewrite nth_error_app2 in B by lia. destruct (j - length l) as [|m] eqn:D; [|destruct m; discriminate]. cbn in B. inversion B; subst.
    rewrite nth_error_app1 in A by lia. apply H. apply nth_error_In with i. auto.
Qed.
Definition pk_inv (k : Z) (af : bool) (g : nat) (finals : nat -> Prop) (p : pickler) : Prop :=
  pk_count p = Z.of_nat g /\ increasing (pk_saved p) /\ (forall x, In x (pk_saved p) -> x <= g) /\
  (forall x, pk_last p = Some x -> In x (pk_saved p) /\ (forall y, In y (pk_saved p) -> y <= x)) /\ (pk_last p = None -> pk_saved p = []) /\
  (forall x, In x (pk_saved p) <-> x <= g /\ (finals x \/ (1 <= x /\ due k af (Z.of_nat x)))).
Lemma pk_log_inv k af g (fin : nat -> Prop) p p' : (k <> 0)%Z -> (forall x, fin x -> x <= g) -> pk_inv k af g fin p -> pk_log k af (g + 1) p = Ok p' ->
  pk_inv k af (g + 1) fin p'.
Proof.
  intros K F (C & I & B & L & N & M) E. unfold pk_log in E. destruct (logger_call_spec k af (pk_count p) K) as (b & Hb & D). rewrite Hb in E.
  cbn [bind] in E. inversion E; subst; clear E. rewrite C in *. replace (Z.of_nat g + 1)%Z with (Z.of_nat (g + 1)) in * by lia.
  destruct b; unfold pk_inv, pk_save; cbn.
  - split; auto. split; [|split; [|split; [|split]]].
    + apply increasing_snoc; auto. intros y Y. specialize (B y Y). lia.
    + intros x X. apply in_app_iff in X. destruct X as [X|[X|[]]]; [specialize (B x X); lia|lia].
    + intros x X. inversion X; subst. split; [apply in_app_iff; right; left; auto|].
      intros y Y. apply in_app_iff in Y. destruct Y as [Y|[Y|[]]]; [specialize (B y Y); lia|lia].
    + discriminate.
    + intros x. rewrite in_app_iff, M. cbn. split.
      * intros [[A1 A2]|[<-|[]]]; [split; [lia|auto]|split; [lia|]]. right. split; [lia|]. apply D. auto.
      * intros [A1 A2]. destruct (Nat.eq_dec x (g + 1)) as [->|]; [auto|]. left. split; [lia|auto].
  - split; auto. split; auto. split; [intros x X; specialize (B x X); lia|]. split; auto. split; auto.
    intros x. rewrite M. split; [intros [A1 A2]; split; [lia|auto]|]. intros [A1 A2].
    destruct (Nat.eq_dec x (g + 1)) as [->|].
    + exfalso. destruct A2 as [A2|[_ A2]]; [specialize (F _ A2); lia|]. apply D in A2. discriminate.
    + split; [lia|auto].
Qed.
Lemma pk_gens_inv k af (fin : nat -> Prop) n : (k <> 0)%Z -> forall g p p', (forall x, fin x -> x <= g) -> pk_inv k af g fin p ->
  pk_gens k af g n p = Ok p' -> pk_inv k af (g + n) fin p'.
Proof.
  intros K. induction n as [|n IH]; intros g p p' F H E; cbn in E.
  - inversion E; subst. rewrite Nat.add_0_r. auto.
  - destruct (pk_log k af (g + 1) p) as [p1|] eqn:E1; [|discriminate]. cbn in E.
    replace (g + S n) with (g + 1 + n) by lia. eapply IH; eauto.
    + intros x X. specialize (F x X). lia.
    + eapply pk_log_inv; eauto.
Qed.
Lemma pk_final_inv k af g (fin : nat -> Prop) p : (forall x, fin x -> x <= g) -> pk_inv k af g fin p ->
  pk_inv k af g (fun x => fin x \/ x = g) (pk_final g p) /\ pk_last (pk_final g p) = Some g.
Proof.
  intros F (C & I & B & L & N & M). unfold pk_final.
  assert (Sv : ~ In g (pk_saved p) -> pk_inv k af g (fun x => fin x \/ x = g) (pk_save g p)).
  { intros NI. unfold pk_inv, pk_save; cbn. split; auto. split; [|split; [|split; [|split]]].
    - apply increasing_snoc; auto. intros y Y. specialize (B y Y). assert (y <> g) by congruence. lia.
    - intros x X. apply in_app_iff in X. destruct X as [X|[X|[]]]; [specialize (B x X); lia|lia].
    - intros x X. inversion X; subst. split; [apply in_app_iff; right; left; auto|].
      intros y Y. apply in_app_iff in Y. destruct Y as [Y|[Y|[]]]; [specialize (B y Y); lia|lia].
    - discriminate.
    - intros x. rewrite in_app_iff, M. cbn. split.
      + intros [[A1 A2]|[<-|[]]]; [split; [lia|tauto]|split; [lia|auto]].
      + intros [A1 [[A2|A2]|A2]]; auto. }
  destruct (pk_last p) as [l|] eqn:El.
  - destruct (L l eq_refl) as [L1 L2]. destruct (Nat.ltb_spec l g) as [Lt|Ge].
    + split; auto. apply Sv. intros X. specialize (L2 g X). lia.
    + assert (l = g) as -> by (specialize (B l L1); lia). split; auto.
      unfold pk_inv. split; auto. split; auto. split; auto. split; [intros x X; rewrite El in X; apply L in X; auto|].
      split; [intros X; congruence|]. intros x. rewrite M. split.
      * intros [A1 A2]. split; auto. tauto.
      * intros [A1 [[A2|A2]|A2]]; auto. subst x. apply M in L1. tauto.
  - split; auto. apply Sv. rewrite (N eq_refl). auto.
Qed.

(* ---- restarting *)
Section RestartP.
Context {I : Type}.
Variable construct : nat -> I.
Variable istep : I -> I.
Variable population : I -> option nat.
Variable stops : I -> bool.
Variable multiplier : Q.
Definition ok_inv p0 (s : restart) : Prop :=
  exists k, r_alg s = Nat.iter k istep (construct (r_popsize s)) /\ 1 <= r_num s /\ r_popsize s = grown multiplier p0 (r_num s - 1).
Lemma ipop_step_ok p0 s : fixed_size construct istep population -> ok_inv p0 s ->
  exists s', ipop_step construct istep population stops multiplier s = Ok s' /\ ok_inv p0 s' /\
    (r_num s' = r_num s + 1 <-> stops (istep (r_alg s)) = true) /\ (r_num s' = r_num s \/ r_num s' = r_num s + 1) /\
    (stops (istep (r_alg s)) = true -> r_alg s' = construct (r_popsize s')) /\
    (stops (istep (r_alg s)) = false -> r_alg s' = istep (r_alg s)).
Proof.
  intros F (k & A & N & P). unfold ipop_step, ipop_terminated. cbn [r_alg].
  assert (Pop : population (istep (r_alg s)) = Some (r_popsize s)) by (rewrite A; apply (F (r_popsize s) k)).
  rewrite Pop. cbn [bind]. destruct (stops (istep (r_alg s))) eqn:St.
  - unfold ipop_restart. cbn [r_num r_alg r_popsize]. destruct (Nat.leb_spec 1 (r_num s)); [|lia].
    unfold ipop_size. rewrite Pop. cbn [bind]. eexists. split; [reflexivity|]. cbn. split; [|split; [tauto|split; [auto|split; [auto|discriminate]]]].
    exists 0. cbn. split; auto. split; [lia|]. replace (r_num s + 1 - 1) with (S (r_num s - 1)) by lia. cbn. rewrite <- P. auto.
  - eexists. split; [reflexivity|]. cbn. split; [|split; [split; [lia|discriminate]|split; [auto|split; [discriminate|auto]]]].
    exists (S k). cbn. rewrite A. auto.
Qed.
Lemma ipop_steps_ok p0 n : forall s, fixed_size construct istep population -> ok_inv p0 s ->
  exists s', ipop_steps construct istep population stops multiplier n s = Ok s' /\ ok_inv p0 s' /\ r_num s <= r_num s' <= r_num s + n.
Proof.
  induction n as [|n IH]; intros s F H; cbn; [exists s; repeat split; auto; lia|].
  destruct (ipop_step_ok p0 s F H) as (s1 & -> & H1 & _ & C & _). cbn. destruct (IH s1 F H1) as (s2 & -> & H2 & C2).
  exists s2. repeat split; auto; lia.
Qed.
End RestartP.
Lemma floor_int (m n : nat) : Z.to_nat (Qfloor (inject_Z (Z.of_nat m) * inject_Z (Z.of_nat n))) = m * n.
Proof. rewrite <- inject_Z_mult, Qfloor_Z. lia. Qed.
Lemma grown_int m p r : grown (inject_Z (Z.of_nat m)) p r = m ^ r * p.
Proof. induction r as [|r IH]; cbn [grown Nat.pow]; [lia|]. rewrite floor_int, IH. lia. Qed.

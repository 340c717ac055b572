(* Proofs about rollouts. *)
From Coq Require Import QArith Lqa.
From Verif Require Import Prelude EnvModel EnvSpec EnvProofs RollModel RollSpec.
Close Scope Q_scope.
Open Scope nat_scope.

Lemma map3_nth {A B C D} (f : A -> B -> C -> D) : forall xs ys zs i x y z, nth_error xs i = Some x -> nth_error ys i = Some y -> nth_error zs i = Some z ->
  nth_error (map3 f xs ys zs) i = Some (f x y z).
Proof.
  induction xs as [|a xs IH]; intros ys zs i x y z E1 E2 E3; [destruct i; discriminate|].
  destruct ys as [|b ys]; [destruct i; discriminate|]. destruct zs as [|c zs]; [destruct i; discriminate|].
  destruct i as [|i]; cbn in *; [congruence|eauto].
Qed.
Lemma nth_seq i n : i < n -> nth_error (seq 0 n) i = Some i.
Proof. intros L. rewrite (nth_error_nth' _ 0) by (rewrite seq_length; auto). rewrite seq_nth; auto. Qed.
Lemma nth_some {X} (l : list X) i : i < length l -> exists x, nth_error l i = Some x.
Proof. intros L. destruct (nth_error l i) eqn:E; eauto. apply nth_error_None in E. lia. Qed.
Lemma nth_lt {X} (l : list X) i x : nth_error l i = Some x -> i < length l.
Proof. intros E. apply nth_error_Some. congruence. Qed.
Lemma nth_firstn {X} : forall (l : list X) n i, i < n -> nth_error (firstn n l) i = nth_error l i.
Proof. induction l as [|x l IH]; intros [|n] [|i] L; cbn; auto; try lia. apply IH. lia. Qed.

Section LANE.
Variables O P H : Type.
Implicit Types l : lane O P H.
Definition with_obs l (o : O) : lane O P H :=
  {| l_obs := o; l_par := l_par l; l_hid := l_hid l; l_score := l_score l; l_eps := l_eps l; l_active := l_active l; l_t := l_t l |}.
Variable view : O -> O -> Prop.
Lemma put_back_length : forall (ls : list (lane O P H)) os, length (put_back ls os) = length ls.
Proof. induction ls as [|l ls IH]; intros os; cbn; auto. destruct (l_active l); [destruct os|]; cbn; auto. Qed.
Lemma put_back_nth : forall (ls : list (lane O P H)) os, Forall2 view (map l_obs (filter l_active ls)) os -> forall i l, nth_error ls i = Some l ->
  (l_active l = false /\ nth_error (put_back ls os) i = Some l) \/
  (l_active l = true /\ exists o, view (l_obs l) o /\ nth_error (put_back ls os) i = Some (with_obs l o)).
Proof.
  induction ls as [|x ls IH]; intros os HF i l E; [destruct i; discriminate|]. cbn [put_back filter] in *. destruct (l_active x) eqn:Ax.
  - cbn [map] in HF. inversion HF as [|? o ? os' V HF']; subst. destruct i as [|i]; cbn [nth_error] in *.
    + injection E as ->. right. split; auto. exists o. split; auto. unfold with_obs. rewrite Ax. reflexivity.
    + apply IH; auto.
  - destruct i as [|i]; cbn [nth_error] in *; [injection E as ->; left; auto|apply IH; auto].
Qed.
Lemma count_firstn n : forall (ls : list (lane O P H)), (forall i l, nth_error ls i = Some l -> n <= i -> l_active l = false) -> count_active ls = count_active (firstn n ls).
Proof.
  revert n. unfold count_active. induction n as [|n IH]; intros ls HI.
  - cbn [firstn filter length]. induction ls as [|x ls IHl]; auto. cbn [filter]. rewrite (HI 0 x) by (auto; lia). apply IHl. intros i l E _. apply (HI (S i) l); auto; lia.
  - destruct ls as [|x ls]; auto. cbn [firstn filter]. assert (X : length (filter l_active ls) = length (filter l_active (firstn n ls))) by (apply IH; intros i l E L; apply (HI (S i) l); auto; lia).
    destruct (l_active x); cbn [length]; auto.
Qed.
Lemma count_sum : forall (ls : list (lane O P H)) ms, length ms = length ls ->
  list_sum (map2 (fun l m => if l_active l then S m else m) ls ms) = count_active ls + list_sum ms.
Proof.
  unfold count_active, list_sum. induction ls as [|x ls IH]; intros [|m ms] L; try discriminate; auto. cbn [map2 filter fold_right]. injection L as L. specialize (IH ms L).
  destruct (l_active x); cbn [length fold_right]; lia.
Qed.
End LANE.
Arguments with_obs {O P H} _ _.

Section R.
Variables ES A O I P H NS : Type.
Variable env_step : nat -> ES -> A -> ES * sres O I.
Variable env_reset : nat -> ES -> option Z -> ES * (O * I).
Variable seed_of : Z -> nat -> Z.
Variable dummy_observation : O.
Variable empty_info : I.
Variable policy : P -> O -> H -> A * H.
Variable h0 : H.
Variable n : nat.
Variable dec : Q.
Variable schedule : option (Z * Z * Q).
Variable normf : NS -> list O -> NS * list O.
Variable view : O -> O -> Prop.
Hypothesis Hview : forall ns os, Forall2 view os (snd (normf ns os)).
Hypothesis Hn : 1 <= n.
Notation solo i := (runs (env_step i) (fun s => env_reset i s None) policy h0 dec schedule view).
Notation upd_lane := (@update_lane O I P H h0 dec schedule).
Notation app i := (apply_step env_step env_reset dummy_observation empty_info (Some n) i).

(* one environment after the step, before the update of the observations *)
Definition next_lane (i : nat) (e : ES * nat) (l : lane O P H) : (ES * nat) * lane O P H :=
  let ah := policy (l_par l) (l_obs l) (l_hid l) in
  let '(e1, r) := app i e (fst ah) in
  let l1 := upd_lane l (snd ah) r in
  (e1, {| l_obs := l_obs l1; l_par := l_par l1; l_hid := l_hid l1; l_score := l_score l1; l_eps := l_eps l1; l_active := l_active l1 && (l_eps l1 <? n); l_t := l_t l1 |}).
(* the invariant of an environment of a solution *)
Definition good (e : ES * nat) (l : lane O P H) : Prop :=
  (exists q, l_score l = Some q) /\ if l_active l then l_eps l + snd e = n /\ 0 < snd e else snd e = 0 /\ n <= l_eps l.

Lemma score_update l h r q (x : sres O I) : l_active l = true -> l_score l = Some q -> v_reward r = Some (r_reward x) ->
  exists q', l_score (upd_lane l h r) = Some q' /\ (q' == q + (r_reward x - dec + bonus_at schedule (l_t l + 1)))%Q.
Proof.
  intros Ha Es Er. unfold update_lane. cbn [l_score]. rewrite Ha, Es, Er. cbn [option_map andb]. unfold bonus_at.
  destruct schedule as [[[t0 t1] b]|]; [|eexists; split; [reflexivity|]; Lqa.lra].
  rewrite andb_true_r.
  destruct (Z.leb_spec t1 (l_t l + 1)) as [L|L]; cbn [option_map].
  - replace (l_t l + 1 <? t1)%Z with false by (symmetry; apply Z.ltb_ge; lia). rewrite andb_false_r. eexists; split; [reflexivity|]; Lqa.lra.
  - replace (l_t l + 1 <? t1)%Z with true by (symmetry; apply Z.ltb_lt; lia). rewrite andb_true_r.
    destruct (Z.ltb_spec (l_t l + 1) t0) as [L2|L2].
    + replace (t0 <=? l_t l + 1)%Z with false by (symmetry; apply Z.leb_gt; lia). rewrite andb_false_r. eexists; split; [reflexivity|]; Lqa.lra.
    + replace (t0 <=? l_t l + 1)%Z with true by (symmetry; apply Z.leb_le; lia). replace (t0 <? t1)%Z with true by (symmetry; apply Z.ltb_lt; lia).
      cbn [andb]. eexists; split; [reflexivity|]. Lqa.lra.
Qed.

Lemma next_inactive i e l : good e l -> l_active l = false ->
  good (fst (next_lane i e l)) (snd (next_lane i e l)) /\ l_active (snd (next_lane i e l)) = false /\ l_score (snd (next_lane i e l)) = l_score l.
Proof.
  intros [[q Eq] G] Ha. rewrite Ha in G. destruct G as [G1 G2]. destruct e as [s c]. cbn in G1. subst c.
  unfold next_lane. cbn [apply_step is_active_env Nat.ltb Nat.leb negb]. unfold apply_step, is_active_env. cbn [Nat.ltb Nat.leb negb fst snd].
  unfold update_lane. cbn. rewrite Ha. cbn. unfold good. cbn. rewrite Eq.
  assert (X : match schedule with Some (t0, t1, b) => if (t0 <? t1)%Z && false && (t0 <=? l_t l)%Z && (l_t l <? t1)%Z then Some (q + b * (inject_Z (l_t l - t0) / inject_Z (t1 - t0)))%Q else Some q | None => Some q end = Some q).
  { destruct schedule as [[[t0 t1] b]|]; auto. rewrite andb_false_r. reflexivity. }
  repeat split; eauto; try lia; destruct schedule as [[[t0 t1] b]|]; eauto; cbn; rewrite ?andb_false_r; cbn; eauto.
Qed.

Lemma next_active i e l q : good e l -> l_active l = true -> l_score l = Some q ->
  let e1 := fst (next_lane i e l) in let l1 := snd (next_lane i e l) in
  good e1 l1 /\ l_par l1 = l_par l /\ exists x q', l_score l1 = Some q' /\ (q' == q + x)%Q /\
  (l_active l1 = true -> forall o q2 m, view (l_obs l1) o -> solo i (l_par l) (snd e1) (fst e1) o (l_hid l1) (l_t l1) q2 m ->
     solo i (l_par l) (snd e) (fst e) (l_obs l) (l_hid l) (l_t l) (x + q2)%Q (S m)) /\
  (l_active l1 = false -> solo i (l_par l) (snd e) (fst e) (l_obs l) (l_hid l) (l_t l) (x + 0)%Q 1) /\
  (forall q2 m, solo i (l_par l) (snd e) (fst e) (l_obs l) (l_hid l) (l_t l) q2 m ->
     exists m1, m = S m1 /\ (l_active l1 = true -> exists o q3, view (l_obs l1) o /\ solo i (l_par l) (snd e1) (fst e1) o (l_hid l1) (l_t l1) q3 m1)).
Proof.
  intros [_ G] Ha Es. rewrite Ha in G. destruct e as [s c]. cbn [snd fst] in *. destruct G as [G1 G2].
  set (ah := policy (l_par l) (l_obs l) (l_hid l)).
  unfold next_lane. fold ah. unfold apply_step, is_active_env, is_last_episode, decrement_counter.
  replace (0 <? c) with true by (symmetry; apply Nat.ltb_lt; lia). cbn [negb].
  destruct (env_step i s (fst ah)) as [s1 r] eqn:Est. destruct (r_term r || r_trunc r) eqn:Ed.
  - destruct (env_reset i s1 None) as [s2 oi] eqn:Er.
    set (vr := if negb (c =? 1) then {| v_obs := fst oi; v_reward := Some (r_reward r); v_term := r_term r; v_trunc := r_trunc r; v_info := snd oi |}
                 else {| v_obs := r_obs r; v_reward := Some (r_reward r); v_term := r_term r; v_trunc := r_trunc r; v_info := r_info r |}).
    assert (Vr : v_reward vr = Some (r_reward r)) by (unfold vr; destruct (negb (c =? 1)); reflexivity).
    assert (Vd : v_term vr || v_trunc vr = true) by (unfold vr; destruct (negb (c =? 1)); exact Ed).
    destruct (score_update l (snd ah) vr q r Ha Es Vr) as (q' & Es' & Eq').
    assert (Hact : l_active (upd_lane l (snd ah) vr) && (l_eps (upd_lane l (snd ah) vr) <? n) = negb (c =? 1)).
    { unfold update_lane. cbn [l_active l_eps]. rewrite Vd, Ha. cbn [andb]. destruct (Nat.eqb_spec c 1); cbn [negb]; [apply Nat.ltb_ge|apply Nat.ltb_lt]; lia. }
    cbn [fst snd]. cbn zeta. rewrite Hact. cbn [l_active l_obs l_par l_hid l_score l_t l_eps].
    assert (Hp : l_par (upd_lane l (snd ah) vr) = l_par l) by reflexivity.
    assert (Hh : l_hid (upd_lane l (snd ah) vr) = h0) by (unfold update_lane; cbn [l_hid]; rewrite Vd; auto).
    assert (Ht : l_t (upd_lane l (snd ah) vr) = 0%Z) by (unfold update_lane; cbn [l_t]; rewrite Vd, Ha; auto).
    assert (He : l_eps (upd_lane l (snd ah) vr) = S (l_eps l)) by (unfold update_lane; cbn [l_eps]; rewrite Vd; auto).
    assert (Ho : c <> 1 -> l_obs (upd_lane l (snd ah) vr) = fst oi) by (intros Hc; unfold update_lane, vr; cbn [l_obs]; apply Nat.eqb_neq in Hc; rewrite Hc; reflexivity).
    assert (Htr : r_term r = true \/ r_trunc r = true) by (apply orb_true_iff; exact Ed).
    split; [|split; [exact Hp|]].
    + unfold good. cbn [l_score l_active l_eps snd]. split; [eauto|]. rewrite He. destruct (Nat.eqb_spec c 1); cbn [negb]; lia.
    + exists (r_reward r - dec + bonus_at schedule (l_t l + 1))%Q, q'. split; [exact Es'|]. split; [exact Eq'|]. rewrite Hh, Ht.
      destruct c as [|c]; [lia|]. replace (S c - 1) with c in * by lia.
      split; [|split].
      * intros Hc o q2 m V X. assert (Hc' : S c <> 1) by (intros Z; rewrite Z in Hc; discriminate). rewrite (Ho Hc') in V.
        eapply (runs_end _ _ _ _ _ _ _ _ _ _ _ _ _ _ c s (l_obs l) (l_hid l) (l_t l) s1 r o q2 m); auto; rewrite Er; cbn [fst snd]; auto.
      * intros Hc. assert (c = 0) by (apply negb_false_iff, Nat.eqb_eq in Hc; lia). subst c.
        eapply (runs_end _ _ _ _ _ _ _ _ _ _ _ _ _ _ 0 s (l_obs l) (l_hid l) (l_t l) s1 r (l_obs l) 0%Q 0); auto; [lia|]. apply runs_over.
      * intros q2 m X. inversion X as [|? ? ? ? ? ? r' o1 q3 m3 Est' F1 F2 V X'|? ? ? ? ? s1' r' o1 q3 m3 Est' F V X']; subst; fold ah in Est'; rewrite Est in Est'; inversion Est'; subst.
        -- rewrite F1, F2 in Ed. discriminate.
        -- rewrite Er in V, X'. cbn [fst snd] in V, X'. exists m3. split; auto. intros Hc. exists o1, q3.
           assert (Hc' : S c <> 1) by (intros E; rewrite E in Hc; discriminate). rewrite (Ho Hc'). split; auto. apply V. lia.
  - set (vr := {| v_obs := r_obs r; v_reward := Some (r_reward r); v_term := r_term r; v_trunc := r_trunc r; v_info := r_info r |}).
    destruct (score_update l (snd ah) vr q r Ha Es eq_refl) as (q' & Es' & Eq').
    assert (Vd : v_term vr || v_trunc vr = false) by exact Ed.
    assert (He : l_eps (upd_lane l (snd ah) vr) = l_eps l) by (unfold update_lane; cbn [l_eps]; rewrite Vd; auto).
    assert (Hact : l_active (upd_lane l (snd ah) vr) && (l_eps (upd_lane l (snd ah) vr) <? n) = true).
    { rewrite He. unfold update_lane. cbn [l_active]. rewrite Ha. apply Nat.ltb_lt. lia. }
    cbn [fst snd]. cbn zeta. rewrite Hact. cbn [l_active l_obs l_par l_hid l_score l_t l_eps].
    assert (Hh : l_hid (upd_lane l (snd ah) vr) = snd ah) by (unfold update_lane; cbn [l_hid]; rewrite Vd; auto).
    assert (Ht : l_t (upd_lane l (snd ah) vr) = (l_t l + 1)%Z) by (unfold update_lane; cbn [l_t]; rewrite Vd, Ha; auto).
    apply orb_false_iff in Ed. destruct Ed as [Ed1 Ed2].
    split; [|split; [reflexivity|]].
    + unfold good. cbn [l_score l_active l_eps snd]. split; [eauto|]. rewrite He. lia.
    + exists (r_reward r - dec + bonus_at schedule (l_t l + 1))%Q, q'. split; [exact Es'|]. split; [exact Eq'|]. rewrite Hh, Ht.
      change (l_obs (upd_lane l (snd ah) vr)) with (r_obs r). destruct c as [|c]; [lia|]. split; [|split].
      * intros _ o q2 m V X. eapply (runs_go _ _ _ _ _ _ _ _ _ _ _ _ _ _ c s (l_obs l) (l_hid l) (l_t l) s1 r o q2 m); auto.
      * discriminate.
      * intros q2 m X. inversion X as [|? ? ? ? ? ? r' o1 q3 m3 Est' F1 F2 V X'|? ? ? ? ? s1' r' o1 q3 m3 Est' F V X']; subst; fold ah in Est'; rewrite Est in Est'; inversion Est'; subst.
        -- exists m3. split; auto. intros _. exists o1, q3. auto.
        -- destruct F; congruence.
Qed.

Notation loop := (vec_loop env_step env_reset dummy_observation empty_info policy h0 n dec schedule normf).
(* one turn of the loop *)
Lemma loop_step f k v ns lanes total : length lanes = length (ve_envs v) ->
  exists v1 lanes2, length (ve_envs v1) = length (ve_envs v) /\ length lanes2 = length lanes /\
  loop (S f) k v ns lanes total =
    (if negb (existsb l_active (firstn k lanes2)) then Ok (v1, ns, lanes2, total + count_active lanes)
     else let '(ns1, lanes3) := normalize normf ns lanes2 in loop f k v1 ns1 lanes3 (total + count_active lanes)) /\
  (forall i e l, nth_error (ve_envs v) i = Some e -> nth_error lanes i = Some l -> nth_error (ve_envs v1) i = Some (fst (next_lane i e l)) /\
     exists l', nth_error lanes2 i = Some l' /\ (i < k -> l' = snd (next_lane i e l)) /\ (k <= i -> l_active l' = l_active l)).
Proof.
  intros L. cbn [vec_loop]. set (acts := map (fun l => policy (l_par l) (l_obs l) (l_hid l)) lanes). unfold venv_step.
  assert (La : length (map fst acts) = length (ve_envs v)) by (unfold acts; rewrite !map_length; auto).
  rewrite La, Nat.eqb_refl. cbn [negb].
  pose proof (sloop_length ES A O I env_step env_reset seed_of dummy_observation empty_info (Some n) (ve_envs v) (map fst acts) 0 La) as [L1 L2].
  pose proof (fun j e a => sloop_nth ES A O I env_step env_reset seed_of dummy_observation empty_info (Some n) (ve_envs v) (map fst acts) 0 j e a La) as SN.
  destruct (step_loop env_step env_reset dummy_observation empty_info (Some n) 0 (ve_envs v) (map fst acts)) as [envs rs] eqn:Esl. cbn [fst snd] in *.
  set (lanes1 := map3 upd_lane lanes (map snd acts) rs).
  assert (Ll1 : length lanes1 = length lanes) by (unfold lanes1; rewrite map3_length; unfold acts; rewrite !map_length; lia).
  exists {| ve_envs := envs; ve_seed := ve_seed v |}, (map2 (update_active n k) (seq 0 (length lanes1)) lanes1). cbn [ve_envs]. split; [lia|].
  split; [rewrite map2_length, seq_length; lia|]. split; [reflexivity|].
  intros i e l Ee El. assert (Ea : nth_error acts i = Some (policy (l_par l) (l_obs l) (l_hid l))) by (unfold acts; rewrite nth_error_map, El; reflexivity).
  destruct (SN i e (fst (policy (l_par l) (l_obs l) (l_hid l))) Ee ltac:(rewrite nth_error_map, Ea; reflexivity)) as [N1 N2]. cbn [Nat.add] in N1, N2.
  assert (E1 : nth_error lanes1 i = Some (upd_lane l (snd (policy (l_par l) (l_obs l) (l_hid l))) (snd (app i e (fst (policy (l_par l) (l_obs l) (l_hid l))))))).
  { unfold lanes1. apply map3_nth; auto. rewrite nth_error_map, Ea. reflexivity. }
  unfold next_lane. destruct (app i e (fst (policy (l_par l) (l_obs l) (l_hid l)))) as [e1 r]. cbn [fst snd] in *. split; [exact N1|].
  eexists. split.
  - rewrite map2_nth_error, E1, nth_seq by (apply (nth_lt lanes1 _ _ E1)). reflexivity.
  - unfold update_active. split; intros Li; [apply Nat.ltb_lt in Li|apply Nat.ltb_ge in Li]; rewrite Li; reflexivity.
Qed.

Definition state_ok (k : nat) (v : venv ES) (lanes : list (lane O P H)) : Prop :=
  length lanes = length (ve_envs v) /\ k <= length lanes /\
  (forall i e l, nth_error (ve_envs v) i = Some e -> nth_error lanes i = Some l -> if i <? k then good e l else l_active l = false).
(* what happened to the i-th solution between two states of the loop *)
Definition outcome (v : venv ES) (lanes lanes' : list (lane O P H)) (i m : nat) : Prop :=
  exists e l l' q q' x, nth_error (ve_envs v) i = Some e /\ nth_error lanes i = Some l /\ nth_error lanes' i = Some l' /\
    l_score l = Some q /\ l_score l' = Some q' /\ (q' == q + x)%Q /\
    if l_active l then solo i (l_par l) (snd e) (fst e) (l_obs l) (l_hid l) (l_t l) x m else m = 0 /\ x = 0%Q.
Lemma normalize_nth ns (lanes : list (lane O P H)) i l : nth_error lanes i = Some l ->
  (l_active l = false /\ nth_error (snd (normalize normf ns lanes)) i = Some l) \/
  (l_active l = true /\ exists o, view (l_obs l) o /\ nth_error (snd (normalize normf ns lanes)) i = Some (with_obs l o)).
Proof.
  intros E. unfold normalize. pose proof (Hview ns (map l_obs (filter l_active lanes))) as V.
  destruct (normf ns (map l_obs (filter l_active lanes))) as [ns1 os]. exact (put_back_nth O P H view lanes os V i l E).
Qed.
Lemma normalize_length ns (lanes : list (lane O P H)) : length (snd (normalize normf ns lanes)) = length lanes.
Proof. unfold normalize. destruct (normf ns _). apply put_back_length. Qed.
Lemma state_step k v lanes v1 lanes2 : state_ok k v lanes -> length (ve_envs v1) = length (ve_envs v) -> length lanes2 = length lanes ->
  (forall i e l, nth_error (ve_envs v) i = Some e -> nth_error lanes i = Some l -> nth_error (ve_envs v1) i = Some (fst (next_lane i e l)) /\
     exists l', nth_error lanes2 i = Some l' /\ (i < k -> l' = snd (next_lane i e l)) /\ (k <= i -> l_active l' = l_active l)) ->
  state_ok k v1 lanes2.
Proof.
  intros (L & Lk & G) L1 L2 HN. split; [lia|]. split; [lia|]. intros i e1 l1 E1 E2.
  destruct (nth_some (ve_envs v) i) as [e Ee]; [apply nth_lt in E1; lia|]. destruct (nth_some lanes i) as [l El]; [apply nth_lt in E2; lia|].
  destruct (HN i e l Ee El) as (N1 & l' & N2 & N3 & N4). rewrite N1 in E1. injection E1 as <-. rewrite N2 in E2. injection E2 as <-.
  specialize (G i e l Ee El). destruct (Nat.ltb_spec i k) as [Li|Li].
  - rewrite (N3 Li). destruct (l_active l) eqn:Ha.
    + pose proof G as [[q Eq] _]. apply (next_active i e l q); auto.
    + apply next_inactive; auto.
  - rewrite (N4 Li). exact G.
Qed.
Lemma state_normalize k v ns lanes : state_ok k v lanes -> state_ok k v (snd (normalize normf ns lanes)).
Proof.
  intros (L & Lk & G). split; [rewrite normalize_length; auto|]. split; [rewrite normalize_length; auto|]. intros i e l E1 E2.
  destruct (nth_some lanes i) as [l0 El]; [apply nth_lt in E1; lia|]. specialize (G i e l0 E1 El).
  destruct (normalize_nth ns lanes i l0 El) as [[Ha N]|[Ha (o & V & N)]]; rewrite N in E2; injection E2 as <-; auto.
Qed.
Lemma none_active k (lanes : list (lane O P H)) i l : existsb l_active (firstn k lanes) = false -> nth_error lanes i = Some l -> i < k -> l_active l = false.
Proof.
  intros E N Li. destruct (l_active l) eqn:Ha; auto. assert (X : existsb l_active (firstn k lanes) = true).
  { apply existsb_exists. exists l. split; auto. apply (nth_error_In _ i). rewrite nth_firstn; auto. }
  congruence.
Qed.

Lemma loop_spec : forall f k v ns lanes total v' ns' lanes' total', state_ok k v lanes ->
  loop f k v ns lanes total = Ok (v', ns', lanes', total') ->
  length lanes' = length lanes /\
  exists ms, length ms = k /\ total' = total + list_sum ms /\ forall i m, nth_error ms i = Some m -> outcome v lanes lanes' i m.
Proof.
  induction f as [|f IH]; intros k v ns lanes total v' ns' lanes' total' SO E; [discriminate|].
  destruct SO as (L & Lk & G). destruct (loop_step f k v ns lanes total L) as (v1 & lanes2 & L1 & L2 & Eq & HN). rewrite Eq in E. clear Eq.
  assert (SO2 : state_ok k v1 lanes2) by (apply (state_step k v lanes); auto; repeat split; auto).
  assert (Hc : count_active lanes = count_active (firstn k lanes)).
  { apply count_firstn. intros i l El Li. destruct (nth_some (ve_envs v) i) as [e Ee]; [apply nth_lt in El; lia|]. specialize (G i e l Ee El).
    replace (i <? k) with false in G by (symmetry; apply Nat.ltb_ge; lia). exact G. }
  assert (Lf : length (firstn k lanes) = k) by (rewrite firstn_length; lia).
  destruct (existsb l_active (firstn k lanes2)) eqn:Ex; cbn [negb] in E.
  - destruct (normalize normf ns lanes2) as [ns1 lanes3] eqn:En.
    assert (E3 : lanes3 = snd (normalize normf ns lanes2)) by (rewrite En; reflexivity).
    assert (SO3 : state_ok k v1 lanes3) by (rewrite E3; apply state_normalize; auto).
    destruct (IH k v1 ns1 lanes3 _ _ _ _ _ SO3 E) as (L' & ms & Lm & Et & HO). split; [rewrite L', E3, normalize_length; auto|].
    exists (map2 (fun l m => if l_active l then S m else m) (firstn k lanes) ms). split; [rewrite map2_length; lia|].
    split; [rewrite count_sum by lia; lia|]. intros i m Em. rewrite map2_nth_error in Em.
    destruct (nth_error (firstn k lanes) i) as [l|] eqn:El; [|discriminate]. destruct (nth_error ms i) as [m'|] eqn:Em'; [|discriminate]. injection Em as <-.
    assert (Li : i < k) by (apply nth_lt in El; lia). rewrite nth_firstn in El by auto.
    destruct (nth_some (ve_envs v) i) as [e Ee]; [lia|]. destruct (HN i e l Ee El) as (N1 & l2 & N2 & N3 & _). rewrite (N3 Li) in N2.
    specialize (G i e l Ee El). replace (i <? k) with true in G by (symmetry; apply Nat.ltb_lt; lia).
    destruct (HO i m' Em') as (e3 & l3 & l' & q3 & q' & x3 & H1 & H2 & H3 & H4 & H5 & H6 & H7). rewrite N1 in H1. injection H1 as <-.
    assert (Nl := normalize_nth ns lanes2 i _ N2). rewrite <- E3, H2 in Nl.
    destruct (l_active l) eqn:Ha.
    + pose proof G as [[q Eq] _].
      destruct (next_active i e l q G Ha Eq) as (G1 & Gp & x & q1 & F1 & F2 & F3 & F4 & _).
      destruct Nl as [[Ha' N]|[Ha' (o & V & N)]]; injection N as ->.
      * rewrite Ha' in H7. destruct H7 as [-> ->]. rewrite F1 in H4. injection H4 as <-.
        exists e, l, l', q, q', (x + 0)%Q. rewrite Ha. repeat split; auto. rewrite H6, F2. Lqa.lra.
      * cbn [with_obs l_score l_active l_obs l_par l_hid l_t] in *. rewrite F1 in H4. injection H4 as <-. rewrite Ha', Gp in H7.
        exists e, l, l', q, q', (x + x3)%Q. rewrite Ha. repeat split; auto; [rewrite H6, F2; Lqa.lra|exact (F3 Ha' o x3 m' V H7)].
    + destruct (next_inactive i e l G Ha) as (G1 & Ha1 & Es1). destruct Nl as [[Ha' N]|[Ha' _]]; [|congruence]. injection N as ->. rewrite Ha' in H7. destruct H7 as [-> ->].
      rewrite Es1 in H4. exists e, l, l', q3, q', 0%Q. rewrite Ha. repeat split; auto.
  - inversion E; subst v' ns' lanes' total'. clear E. split; auto.
    exists (map2 (fun l m => if l_active l then S m else m) (firstn k lanes) (repeat 0 k)). split; [rewrite map2_length, repeat_length; lia|].
    split. { rewrite count_sum by (rewrite repeat_length; lia). assert (X : list_sum (repeat 0 k) = 0) by (clear; unfold list_sum; induction k; cbn; auto). lia. }
    intros i m Em. rewrite map2_nth_error in Em.
    destruct (nth_error (firstn k lanes) i) as [l|] eqn:El; [|discriminate]. destruct (nth_error (repeat 0 k) i) as [m'|] eqn:Em'; [|discriminate]. injection Em as <-.
    assert (m' = 0) by (apply nth_error_In, repeat_spec in Em'; auto). subst m'.
    assert (Li : i < k) by (apply nth_lt in El; lia). rewrite nth_firstn in El by auto.
    destruct (nth_some (ve_envs v) i) as [e Ee]; [lia|]. destruct (HN i e l Ee El) as (N1 & l2 & N2 & N3 & _). rewrite (N3 Li) in N2.
    specialize (G i e l Ee El). replace (i <? k) with true in G by (symmetry; apply Nat.ltb_lt; lia).
    assert (Hi := none_active k lanes2 i _ Ex N2 Li).
    destruct (l_active l) eqn:Ha.
    + pose proof G as [[q Eq] _].
      destruct (next_active i e l q G Ha Eq) as (G1 & Gp & x & q1 & F1 & F2 & F3 & F4 & _).
      exists e, l, (snd (next_lane i e l)), q, q1, (x + 0)%Q. rewrite Ha. repeat split; auto. rewrite F2. Lqa.lra.
    + destruct (next_inactive i e l G Ha) as (G1 & Ha1 & Es1). destruct G as [[q Eq] _].
      exists e, l, (snd (next_lane i e l)), q, q, 0%Q. rewrite Ha, Es1. repeat split; auto. Lqa.lra.
Qed.

(* termination *)
Hypothesis Hfun : forall o a b, view o a -> view o b -> a = b.
Lemma loop_terminates : forall f k v ns lanes total, state_ok k v lanes ->
  existsb l_active (firstn k lanes) = true ->
  (forall i e l, i < k -> nth_error (ve_envs v) i = Some e -> nth_error lanes i = Some l -> l_active l = true ->
     exists q m, solo i (l_par l) (snd e) (fst e) (l_obs l) (l_hid l) (l_t l) q m /\ m <= f) ->
  is_ok (loop f k v ns lanes total) = true.
Proof.
  induction f as [|f IH]; intros k v ns lanes total SO Ex HT.
  - exfalso. apply existsb_exists in Ex. destruct Ex as (l & Hin & Ha). apply In_nth_error in Hin. destruct Hin as [i Ei].
    pose proof SO as (L & Lk & G). assert (Li : i < k) by (apply nth_lt in Ei; rewrite firstn_length in Ei; lia). rewrite nth_firstn in Ei by auto.
    destruct (nth_some (ve_envs v) i) as [e Ee]; [lia|]. destruct (HT i e l Li Ee Ei Ha) as (q & m & X & Lm). specialize (G i e l Ee Ei).
    replace (i <? k) with true in G by (symmetry; apply Nat.ltb_lt; lia). destruct G as [_ G]. rewrite Ha in G. inversion X; subst; lia.
  - pose proof SO as (L & Lk & G). destruct (loop_step f k v ns lanes total L) as (v1 & lanes2 & L1 & L2 & Eq & HN). rewrite Eq. clear Eq.
    assert (SO2 : state_ok k v1 lanes2) by (apply (state_step k v lanes); auto).
    destruct (existsb l_active (firstn k lanes2)) eqn:Ex2; cbn [negb]; auto.
    destruct (normalize normf ns lanes2) as [ns1 lanes3] eqn:En.
    assert (E3 : lanes3 = snd (normalize normf ns lanes2)) by (rewrite En; reflexivity).
    assert (SO3 : state_ok k v1 lanes3) by (rewrite E3; apply state_normalize; auto).
    apply IH; auto.
    + apply existsb_exists in Ex2. destruct Ex2 as (l & Hin & Ha). apply In_nth_error in Hin. destruct Hin as [i Ei].
      assert (Li : i < k) by (apply nth_lt in Ei; rewrite firstn_length in Ei; lia). rewrite nth_firstn in Ei by auto.
      destruct (normalize_nth ns lanes2 i l Ei) as [[Ha' _]|[_ (o & V & N)]]; [congruence|]. rewrite <- E3 in N.
      apply existsb_exists. exists (with_obs l o). split; auto. apply (nth_error_In _ i). rewrite nth_firstn; auto.
    + intros i e1 l3 Li E1 El3 Ha3.
      destruct (nth_some (ve_envs v) i) as [e Ee]; [apply nth_lt in E1; lia|]. destruct (nth_some lanes i) as [l El]; [lia|].
      destruct (HN i e l Ee El) as (N1 & l2 & N2 & N3 & _). rewrite (N3 Li) in N2. rewrite N1 in E1. injection E1 as <-.
      specialize (G i e l Ee El). replace (i <? k) with true in G by (symmetry; apply Nat.ltb_lt; lia).
      pose proof (normalize_nth ns lanes2 i _ N2) as Nl. rewrite <- E3, El3 in Nl.
      destruct Nl as [[Ha' N]|[Ha' (o & V & N)]]; injection N as ->; [congruence|]. cbn [with_obs l_score l_active l_obs l_par l_hid l_t] in *.
      destruct (l_active l) eqn:Ha; [|destruct (next_inactive i e l G Ha) as (_ & Ha1 & _); congruence].
      destruct (HT i e l Li Ee El Ha) as (q & m & X & Lm). pose proof G as [[q0 Eq0] _].
      destruct (next_active i e l q0 G Ha Eq0) as (_ & Gp & x & q1 & _ & _ & _ & _ & F5). destruct (F5 q m X) as (m1 & -> & F6).
      destruct (F6 Ha') as (o' & q3 & V' & X'). rewrite Gp. rewrite (Hfun _ _ _ V V'). exists q3, m1. split; auto. lia.
Qed.
End R.

(* Proofs about vector environments. *)
From Coq Require Import QArith.
From Verif Require Import Prelude EnvModel EnvSpec.
Close Scope Q_scope.
Open Scope nat_scope.

Section P.
Variables ES A O I : Type.
Variable env_step : nat -> ES -> A -> ES * sres O I.
Variable env_reset : nat -> ES -> option Z -> ES * (O * I).
Variable seed_of : Z -> nat -> Z.
Variable dummy_observation : O.
Variable empty_info : I.
Variable num_episodes : option nat.
Notation apply := (apply_step env_step env_reset dummy_observation empty_info num_episodes).
Notation sloop := (step_loop env_step env_reset dummy_observation empty_info num_episodes).
Notation vstep := (venv_step env_step env_reset dummy_observation empty_info num_episodes).
Notation vrun := (venv_run env_step env_reset dummy_observation empty_info num_episodes).
Definition dummy_res : vres O I := {| v_obs := dummy_observation; v_reward := None; v_term := true; v_trunc := true; v_info := empty_info |}.
Definition solo_reset i s := env_reset i s None.
Definition counter (c : nat) : option nat := match num_episodes with Some _ => Some c | None => None end.

Fixpoint lane_run (i : nat) (e : ES * nat) (acts : list A) : (ES * nat) * list (vres O I) :=
  match acts with
  | [] => (e, [])
  | a :: t => let '(e1, r) := apply i e a in let '(e2, rs) := lane_run i e1 t in (e2, r :: rs)
  end.
Lemma lane_visible i : forall acts s c t, nth_error (snd (lane_run i (s, c) acts)) t =
  visible dummy_res (counter c) (raw_run (env_step i) (solo_reset i) s acts) t.
Proof.
  induction acts as [|a acts IH]; intros s c t; [destruct t; reflexivity|]. cbn [lane_run raw_run]. unfold apply_step.
  destruct (env_step i s a) as [s1 r] eqn:Es. unfold is_active_env, is_last_episode, decrement_counter, counter in *.
  destruct num_episodes as [m|].
  - destruct (Nat.ltb_spec 0 c) as [L|L]; cbn [negb].
    + destruct (r_term r || r_trunc r) eqn:Ed.
      * change (env_reset i s1 None) with (solo_reset i s1). destruct (solo_reset i s1) as [s2 oi] eqn:Er.
        destruct (lane_run i (s2, c - 1) acts) as [e2 rs] eqn:El. specialize (IH s2 (c - 1)). rewrite El in IH. cbn [snd] in *. destruct t as [|t].
        -- cbn. destruct (Nat.leb_spec c 0); [lia|]. destruct (Nat.eqb_spec c 1); reflexivity.
        -- cbn [nth_error]. rewrite IH. unfold visible. cbn [nth_error firstn ends]. destruct (nth_error _ t) as [[r' e']|]; [|reflexivity]. cbn [option_map]. f_equal.
           replace (c <=? S (ends (firstn t (raw_run (env_step i) (solo_reset i) s2 acts)))) with (c - 1 <=? ends (firstn t (raw_run (env_step i) (solo_reset i) s2 acts)))
             by (destruct (Nat.leb_spec (c - 1) (ends (firstn t (raw_run (env_step i) (solo_reset i) s2 acts))));
                 destruct (Nat.leb_spec c (S (ends (firstn t (raw_run (env_step i) (solo_reset i) s2 acts))))); auto; lia).
           replace (c =? S (S (ends (firstn t (raw_run (env_step i) (solo_reset i) s2 acts))))) with (c - 1 =? S (ends (firstn t (raw_run (env_step i) (solo_reset i) s2 acts))))
             by (destruct (Nat.eqb_spec (c - 1) (S (ends (firstn t (raw_run (env_step i) (solo_reset i) s2 acts)))));
                 destruct (Nat.eqb_spec c (S (S (ends (firstn t (raw_run (env_step i) (solo_reset i) s2 acts)))))); auto; lia).
           reflexivity.
      * destruct (lane_run i (s1, c) acts) as [e2 rs] eqn:El. specialize (IH s1 c). rewrite El in IH. cbn [snd] in *. destruct t as [|t].
        -- cbn. destruct (Nat.leb_spec c 0); [lia|]. reflexivity.
        -- cbn [nth_error]. rewrite IH. reflexivity.
    + assert (c = 0) by lia. subst c. destruct (lane_run i (s, 0) acts) as [e2 rs] eqn:El.
      assert (K : forall s' t, nth_error rs t = visible dummy_res (Some 0) (raw_run (env_step i) (solo_reset i) s' acts) t).
      { intros s' t'. specialize (IH s 0 t'). rewrite El in IH. cbn [snd] in IH. rewrite IH. unfold visible. cbn [Nat.leb].
        assert (LL : forall s t, option_map (fun x : raw O I => dummy_res) (nth_error (raw_run (env_step i) (solo_reset i) s acts) t) = if t <? length acts then Some dummy_res else None).
        { clear. induction acts as [|a acts IH]; intros s t; cbn; [destruct t; reflexivity|]. destruct (env_step i s a) as [s1 r].
          destruct (r_term r || r_trunc r); [destruct (solo_reset i s1) as [s2 oi]|]; destruct t as [|t]; cbn; auto; rewrite IH; reflexivity. }
        transitivity (option_map (fun x : raw O I => dummy_res) (nth_error (raw_run (env_step i) (solo_reset i) s acts) t')).
        { destruct (nth_error (raw_run (env_step i) (solo_reset i) s acts) t') as [[? ?]|]; reflexivity. }
        rewrite LL, <- (LL s' t'). destruct (nth_error (raw_run (env_step i) (solo_reset i) s' acts) t') as [[? ?]|]; reflexivity. }
      cbn [snd]. destruct (r_term r || r_trunc r).
      * destruct (solo_reset i s1) as [s2 oi]. destruct t as [|t]; cbn [nth_error]; [reflexivity|]. rewrite (K s2). unfold visible. cbn [nth_error Nat.leb].
        destruct (nth_error (raw_run (env_step i) (solo_reset i) s2 acts) t) as [[? ?]|]; reflexivity.
      * destruct t as [|t]; cbn [nth_error]; [reflexivity|]. rewrite (K s1). unfold visible. cbn [nth_error Nat.leb].
        destruct (nth_error (raw_run (env_step i) (solo_reset i) s1 acts) t) as [[? ?]|]; reflexivity.
  - cbn [negb]. destruct (r_term r || r_trunc r) eqn:Ed.
    + change (env_reset i s1 None) with (solo_reset i s1). destruct (solo_reset i s1) as [s2 oi] eqn:Er.
      destruct (lane_run i (s2, c) acts) as [e2 rs] eqn:El. specialize (IH s2 c). rewrite El in IH. cbn [snd] in *. destruct t as [|t]; [reflexivity|].
      cbn [nth_error]. rewrite IH. reflexivity.
    + destruct (lane_run i (s1, c) acts) as [e2 rs] eqn:El. specialize (IH s1 c). rewrite El in IH. cbn [snd] in *. destruct t as [|t]; [reflexivity|].
      cbn [nth_error]. rewrite IH. reflexivity.
Qed.

(* the loop over the sub-environments *)
Lemma sloop_length : forall l acts i, length acts = length l -> length (fst (sloop i l acts)) = length l /\ length (snd (sloop i l acts)) = length l.
Proof.
  induction l as [|e l IH]; intros acts i L; destruct acts as [|a acts]; try discriminate; [auto|]. cbn [step_loop].
  destruct (apply i e a) as [e1 r]. specialize (IH acts (S i) ltac:(cbn in L; lia)). destruct (sloop (S i) l acts). cbn in *. lia.
Qed.
Lemma sloop_nth : forall l acts i k e a, length acts = length l -> nth_error l k = Some e -> nth_error acts k = Some a ->
  nth_error (fst (sloop i l acts)) k = Some (fst (apply (i + k) e a)) /\ nth_error (snd (sloop i l acts)) k = Some (snd (apply (i + k) e a)).
Proof.
  induction l as [|x l IH]; intros acts i k e a L E1 E2; [destruct k; discriminate|]. destruct acts as [|y acts]; [discriminate|]. cbn [step_loop].
  destruct (apply i x y) as [e1 r] eqn:Ea. destruct (sloop (S i) l acts) as [t1 rs] eqn:Es. destruct k as [|k]; cbn [nth_error fst snd] in *.
  - injection E1 as ->. injection E2 as ->. rewrite Nat.add_0_r, Ea. auto.
  - specialize (IH acts (S i) k e a ltac:(cbn in L; lia) E1 E2). rewrite Es in IH. cbn in IH. rewrite Nat.add_succ_r. exact IH.
Qed.
Lemma vrun_lane : forall l v i e, Forall (fun acts => length acts = length (ve_envs v)) l -> nth_error (ve_envs v) i = Some e ->
  exists outs, snd (vrun v l) = Ok outs /\ length outs = length l /\
    forall acts, map Some acts = map (fun a => nth_error a i) l ->
      map Some (snd (lane_run i e acts)) = map (fun o => nth_error o i) outs /\ nth_error (ve_envs (fst (vrun v l))) i = Some (fst (lane_run i e acts)).
Proof.
  induction l as [|a l IH]; intros v i e HF E; cbn [venv_run].
  - exists []. split; auto. split; auto. intros acts Ea. destruct acts; [|discriminate]. auto.
  - inversion HF as [|? ? L HF']; subst. unfold venv_step. rewrite L, Nat.eqb_refl. cbn [negb].
    destruct (sloop 0 (ve_envs v) a) as [envs rs] eqn:Es.
    assert (LE : length envs = length (ve_envs v)) by (pose proof (sloop_length (ve_envs v) a 0 L) as [K _]; rewrite Es in K; exact K).
    destruct (nth_error a i) as [x|] eqn:Ex.
    2:{ apply nth_error_None in Ex. assert (i < length (ve_envs v)) by (apply nth_error_Some; congruence). lia. }
    destruct (sloop_nth (ve_envs v) a 0 i e x L E Ex) as [N1 N2]. rewrite Es in N1, N2. cbn [fst snd Nat.add] in N1, N2.
    destruct (IH {| ve_envs := envs; ve_seed := ve_seed v |} i (fst (apply i e x))) as (outs & E1 & L1 & K).
    + eapply Forall_impl; [|exact HF']. cbn. intros b Hb. lia.
    + exact N1.
    + destruct (vrun {| ve_envs := envs; ve_seed := ve_seed v |} l) as [v2 r2] eqn:Ev. cbn [snd] in E1. subst r2. cbn [rmap fst snd] in *. exists (rs :: outs). split; auto. split; [cbn; lia|].
      intros acts Ea. destruct acts as [|y acts]; [discriminate|]. cbn [map] in Ea. injection Ea as Ey Ea. rewrite Ex in Ey. injection Ey as ->.
      destruct (K acts Ea) as [K1 K2]. cbn [lane_run]. destruct (apply i e x) as [e1 r] eqn:Ep. cbn [fst snd] in *.
      destruct (lane_run i e1 acts) as [e2 rs2]. cbn [snd map fst] in *. rewrite K1, N2. auto.
Qed.
Lemma reset_loop_nth seed : forall l i k s c, nth_error l k = Some (s, c) ->
  nth_error (fst (reset_loop env_reset seed_of seed i l)) k = Some (fst (env_reset (i + k) s (option_map (fun z => seed_of z (i + k)) seed)), c) /\
  nth_error (snd (reset_loop env_reset seed_of seed i l)) k = Some (snd (env_reset (i + k) s (option_map (fun z => seed_of z (i + k)) seed))).
Proof.
  induction l as [|[s0 c0] l IH]; intros i k s c E; [destruct k; discriminate|]. cbn [reset_loop].
  destruct (env_reset i s0 (option_map (fun z => seed_of z i) seed)) as [s1 oi] eqn:Er.
  destruct (reset_loop env_reset seed_of seed (S i) l) as [t1 ois] eqn:El. destruct k as [|k]; cbn [nth_error fst snd] in *.
  - injection E as -> ->. rewrite Nat.add_0_r, Er. auto.
  - specialize (IH (S i) k s c E). rewrite El in IH. cbn in IH. rewrite Nat.add_succ_r. exact IH.
Qed.
Lemma reset_loop_length seed : forall l i, length (fst (reset_loop env_reset seed_of seed i l)) = length l /\ length (snd (reset_loop env_reset seed_of seed i l)) = length l.
Proof.
  induction l as [|[s0 c0] l IH]; intros i; cbn [reset_loop]; auto. destruct (env_reset i s0 _) as [s1 oi]. specialize (IH (S i)).
  destruct (reset_loop env_reset seed_of seed (S i) l). cbn in *. lia.
Qed.
End P.

(* ends *)
Lemma ends_app {O I} (l k : list (raw O I)) : ends (l ++ k) = ends l + ends k.
Proof. induction l as [|[r [oi|]] l IH]; cbn; auto. Qed.
Lemma ends_le {O I} (l : list (raw O I)) : ends l <= length l.
Proof. induction l as [|[r [oi|]] l IH]; cbn; lia. Qed.
Lemma raw_run_length {ES A O I} (step : ES -> A -> ES * sres O I) reset : forall acts s, length (raw_run step reset s acts) = length acts.
Proof.
  induction acts as [|a acts IH]; intros s; cbn; auto. destruct (step s a) as [s1 r]. destruct (r_term r || r_trunc r); [destruct (reset s1)|]; cbn; rewrite IH; auto.
Qed.
Lemma raw_run_done {ES A O I} (step : ES -> A -> ES * sres O I) reset : forall acts s,
  Forall (fun x => (r_term (fst x) || r_trunc (fst x)) = match snd x with Some _ => true | None => false end) (raw_run step reset s acts).
Proof.
  induction acts as [|a acts IH]; intros s; cbn; auto. destruct (step s a) as [s1 r]. destruct (r_term r || r_trunc r) eqn:E; [destruct (reset s1)|]; constructor; auto.
Qed.

(* Proofs about whole evaluations: VecGymNE and GymNE. *)
From Coq Require Import QArith Lqa.
From Verif Require Import Prelude EnvModel EnvSpec EnvProofs RollModel RollSpec RollProofs.
Close Scope Q_scope.
Open Scope nat_scope.

Section R.
Variables ES A O I P H NS : Type.
Variable env_step : nat -> ES -> A -> ES * sres O I.
Variable env_reset : nat -> ES -> option Z -> ES * (O * I).
Variable seed_of : Z -> nat -> Z.
Variable dummy_observation : O.
Variable empty_info : I.
Variable policy : P -> O -> H -> A * H.
Variable h0 : H.
Variable n : nat.
Variable dec : Q.
Variable schedule : option (Z * Z * Q).
Variable normf : NS -> list O -> NS * list O.
Hypothesis Hn : 1 <= n.
Notation evaluate := (evaluate_subbatch env_step env_reset seed_of dummy_observation empty_info policy h0 n dec schedule normf).
Notation loop := (vec_loop env_step env_reset dummy_observation empty_info policy h0 n dec schedule normf).
Definition first_reset (seed : option Z) (i : nat) (s : ES) : ES * (O * I) := env_reset i s (option_map (fun z => seed_of z i) seed).

Section VIEW.
Variable view : O -> O -> Prop.
Notation solo i := (runs (env_step i) (fun s => env_reset i s None) policy h0 dec schedule view).
Hypothesis Hview : forall ns os, Forall2 view os (snd (normf ns os)).

Definition lanes0 (num : nat) (params : list P) (k : nat) (ois : list (O * I)) : list (lane O P H) :=
  map3 (fun i p oi => {| l_obs := fst oi; l_par := p; l_hid := h0; l_score := Some 0%Q; l_eps := 0; l_active := i <? k; l_t := 0%Z |}) (seq 0 num) params ois.

Lemma evaluate_unfold f v ns first rest : let k := length (first :: rest) in k <= length (ve_envs v) ->
  exists v1 ns1 lanes1, state_ok ES O P H n k v1 lanes1 /\ existsb l_active (firstn k lanes1) = true /\
  evaluate f v ns first rest = bind (loop f k v1 ns1 lanes1 0) (fun r =>
      let '(_, _, lanes2, total) := r in
      let scores := map l_score (firstn k lanes2) in
      let fitnesses := if 1 <? n then map (option_map (fun q => (q / inject_Z (Z.of_nat n))%Q)) scores else scores in
      Ok (fitnesses, total, k * n)) /\
  forall i s c p, nth_error (ve_envs v) i = Some (s, c) -> nth_error (first :: rest) i = Some p ->
    nth_error (ve_envs v1) i = Some (fst (first_reset (ve_seed v) i s), n) /\
    exists o, view (fst (snd (first_reset (ve_seed v) i s))) o /\
      nth_error lanes1 i = Some {| l_obs := o; l_par := p; l_hid := h0; l_score := Some 0%Q; l_eps := 0; l_active := true; l_t := 0%Z |}.
Proof.
  intros k Hk. unfold evaluate_subbatch. fold k. replace (length (ve_envs v) <? k) with false by (symmetry; apply Nat.ltb_ge; auto).
  unfold venv_reset. set (envs0 := map (fun e => (fst e, n)) (ve_envs v)).
  pose proof (reset_loop_length ES A O I env_step env_reset seed_of (ve_seed v) envs0 0) as [L1 L2].
  pose proof (reset_loop_nth ES O I env_reset seed_of (ve_seed v) envs0 0) as RN.
  destruct (reset_loop env_reset seed_of (ve_seed v) 0 envs0) as [envs1 ois] eqn:Er. cbn [fst snd] in *.
  assert (Le : length envs0 = length (ve_envs v)) by (unfold envs0; apply map_length).
  set (params := (first :: rest) ++ repeat first (length (ve_envs v) - k)).
  assert (Lp : length params = length (ve_envs v)) by (unfold params; rewrite app_length, repeat_length; fold k; lia).
  match goal with |- context[normalize normf ns ?x] => set (lanes := x) end.
  assert (Ll : length lanes = length (ve_envs v)) by (unfold lanes; rewrite map3_length, seq_length; lia).
  set (v1 := {| ve_envs := envs1; ve_seed := None |}).
  destruct (normalize normf ns lanes) as [ns1 lanes1] eqn:En. assert (E1 : lanes1 = snd (normalize normf ns lanes)) by (rewrite En; reflexivity).
  assert (NL : forall i s c, nth_error (ve_envs v) i = Some (s, c) ->
     nth_error envs1 i = Some (fst (first_reset (ve_seed v) i s), n) /\
     exists p, nth_error params i = Some p /\ nth_error lanes i = Some {| l_obs := fst (snd (first_reset (ve_seed v) i s)); l_par := p; l_hid := h0; l_score := Some 0%Q; l_eps := 0; l_active := i <? k; l_t := 0%Z |}).
  { intros i s c E. destruct (RN i s n) as [R1 R2]; [unfold envs0; rewrite nth_error_map, E; reflexivity|]. cbn [Nat.add] in R1, R2. split; [exact R1|].
    pose proof (nth_lt _ _ _ E) as Li. destruct (nth_some params i) as [p Ep]; [lia|]. exists p. split; auto. unfold lanes.
    exact (map3_nth _ (seq 0 (length (ve_envs v))) params ois i i p _ (nth_seq _ _ Li) Ep R2). }
  assert (SO : state_ok ES O P H n k v1 lanes).
  { split; [cbn; lia|]. split; [lia|]. intros i e l Ee El. cbn in Ee. destruct (nth_some (ve_envs v) i) as [[s c] Es]; [apply nth_lt in El; lia|].
    destruct (NL i s c Es) as (N1 & p & _ & N2). rewrite N1 in Ee. injection Ee as <-. rewrite N2 in El. injection El as <-.
    destruct (i <? k) eqn:Eik; cbn [l_active]; auto. unfold good. cbn. split; [eauto|]. lia. }
  exists v1, ns1, lanes1. split; [|split; [|split; [reflexivity|]]].
  - rewrite E1. apply (state_normalize ES A O I P H NS env_step env_reset seed_of dummy_observation policy h0 n normf view Hview Hn); exact SO.
  - destruct (nth_some (ve_envs v) 0) as [[s c] Es]; [unfold k in Hk; cbn in Hk; lia|]. destruct (NL 0 s c Es) as (_ & p & _ & N2).
    destruct (normalize_nth _ _ _ _ normf view Hview ns lanes 0 _ N2) as [[Ha _]|[Ha (o & V & N)]]; [discriminate Ha|].
    apply existsb_exists. eexists. split; [apply (nth_error_In _ 0); rewrite nth_firstn, E1 by (unfold k; cbn; lia); exact N|]. reflexivity.
  - intros i s c p Es Ep. destruct (NL i s c Es) as (N1 & p' & Ep' & N2). split; [exact N1|]. pose proof (nth_lt _ _ _ Ep) as Li. fold k in Li.
    assert (p' = p) by (unfold params in Ep'; rewrite nth_error_app1, Ep in Ep' by (fold k; lia); congruence). subst p'.
    replace (i <? k) with true in N2 by (symmetry; apply Nat.ltb_lt; lia).
    destruct (normalize_nth _ _ _ _ normf view Hview ns lanes i _ N2) as [[Ha _]|[_ (o & V & N)]]; [discriminate Ha|].
    exists o. split; auto. rewrite E1. exact N.
Qed.

Lemma evaluate_spec f v ns first rest fits total eps : evaluate f v ns first rest = Ok (fits, total, eps) ->
  length fits = length (first :: rest) /\ eps = length (first :: rest) * n /\
  exists ms, length ms = length (first :: rest) /\ total = list_sum ms /\
  forall i m p, nth_error ms i = Some m -> nth_error (first :: rest) i = Some p ->
    exists s c o x q, nth_error (ve_envs v) i = Some (s, c) /\ view (fst (snd (first_reset (ve_seed v) i s))) o /\
      solo i p n (fst (first_reset (ve_seed v) i s)) o h0 0%Z x m /\ nth_error fits i = Some (Some q) /\ (q == x / inject_Z (Z.of_nat n))%Q.
Proof.
  intros E. assert (Hk : length (first :: rest) <= length (ve_envs v)).
  { unfold evaluate_subbatch in E. destruct (Nat.ltb_spec (length (ve_envs v)) (length (first :: rest))); [discriminate|auto]. }
  destruct (evaluate_unfold f v ns first rest Hk) as (v1 & ns1 & lanes1 & SO & _ & Eq & HL). rewrite Eq in E. clear Eq.
  set (k := length (first :: rest)) in *. destruct (loop f k v1 ns1 lanes1 0) as [[[[v' ns'] lanes'] total']|ex] eqn:El; [|discriminate]. cbn [bind] in E.
  assert (Ek : k = length (first :: rest)) by reflexivity. clearbody k. inversion E; subst fits total eps; clear E.
  destruct (loop_spec _ _ _ _ _ _ _ env_step env_reset seed_of dummy_observation empty_info policy h0 n dec schedule normf view Hview Hn f k v1 ns1 lanes1 0 v' ns' lanes' total' SO El) as (L' & ms & Lm & Et & HO).
  pose proof SO as (L & Lk & _). split; [destruct (1 <? n); rewrite ?map_length, firstn_length; lia|]. split; auto.
  exists ms. split; auto. split; [lia|]. intros i m p Em Ep. pose proof (nth_lt _ _ _ Ep) as Li. rewrite <- Ek in Li.
  destruct (nth_some (ve_envs v) i) as [[s c] Es]; [lia|]. destruct (HL i s c p Es Ep) as (N1 & o & V & N2).
  destruct (HO i m Em) as (e & l & l' & q & q' & x & H1 & H2 & H3 & H4 & H5 & H6 & H7). rewrite N1 in H1. injection H1 as <-. rewrite N2 in H2. injection H2 as <-.
  cbn [l_active l_score l_obs l_par l_hid l_t fst snd] in *. injection H4 as <-.
  assert (Ns : nth_error (map l_score (firstn k lanes')) i = Some (Some q')) by (rewrite nth_error_map, nth_firstn, H3 by lia; cbn; congruence).
  destruct (Nat.ltb_spec 1 n) as [Ln|Ln].
  - exists s, c, o, x, (q' / inject_Z (Z.of_nat n))%Q. repeat split; auto; [rewrite nth_error_map, Ns; reflexivity|]. rewrite H6. rewrite Qplus_0_l. reflexivity.
  - exists s, c, o, x, q'. repeat split; auto. assert (n = 1) as -> by lia. rewrite H6. change (inject_Z (Z.of_nat 1)) with 1%Q. field.
Qed.

Lemma evaluate_terminates f v ns first rest : (forall o a b, view o a -> view o b -> a = b) -> length (first :: rest) <= length (ve_envs v) ->
  (forall i s c p, nth_error (ve_envs v) i = Some (s, c) -> nth_error (first :: rest) i = Some p ->
     exists o x m, view (fst (snd (first_reset (ve_seed v) i s))) o /\ solo i p n (fst (first_reset (ve_seed v) i s)) o h0 0%Z x m /\ m <= f) ->
  is_ok (evaluate f v ns first rest) = true.
Proof.
  intros Hfun Hk HT. destruct (evaluate_unfold f v ns first rest Hk) as (v1 & ns1 & lanes1 & SO & Ex & Eq & HL). rewrite Eq. clear Eq.
  set (k := length (first :: rest)) in *.
  assert (X : is_ok (loop f k v1 ns1 lanes1 0) = true).
  { apply loop_terminates with (view := view); auto.
    intros i e l Li Ee El _. pose proof SO as (L & Lk & _). destruct (nth_some (ve_envs v) i) as [[s c] Es]; [lia|]. destruct (nth_some (first :: rest) i) as [p Ep]; [fold k; lia|].
    destruct (HL i s c p Es Ep) as (N1 & o & V & N2). rewrite N1 in Ee. injection Ee as <-. rewrite N2 in El. injection El as <-.
    destruct (HT i s c p Es Ep) as (o' & x & m & V' & X & Lm). cbn [l_obs l_par l_hid l_t fst snd]. rewrite (Hfun _ _ _ V V'). eauto. }
  destruct (loop f k v1 ns1 lanes1 0) as [[[[v' ns'] lanes'] total']|]; [reflexivity|discriminate].
Qed.
End VIEW.

End R.

(* the scalar rollouts *)
Section SC.
Variables ES A O I P H : Type.
Variable env_step : nat -> ES -> A -> ES * sres O I.
Variable env_reset : nat -> ES -> option Z -> ES * (O * I).
Variable policy : P -> O -> H -> A * H.
Variable h0 : H.
Variable dec : Q.
Variable schedule : option (Z * Z * Q).
Variable gnorm : O -> O.
Notation solo i := (runs (env_step i) (fun s => env_reset i s None) policy h0 dec schedule (fun o o' => o' = gnorm o)).
Notation rloop := (rollout_loop env_step policy dec schedule gnorm None).
Notation rolls := (rollouts env_step env_reset policy h0 dec schedule gnorm None).

Lemma wrapper_bonus_at t q : (wrapper_bonus schedule t q == q + bonus_at schedule t)%Q.
Proof.
  unfold wrapper_bonus, bonus_at. destruct schedule as [[[t0 t1] b]|]; [|Lqa.lra]. destruct (Z.leb_spec t1 t); [Lqa.lra|].
  destruct (Z.ltb_spec t t0).
  - replace (t0 <=? t)%Z with false by (symmetry; apply Z.leb_gt; lia). rewrite andb_false_r. Lqa.lra.
  - replace (t0 <=? t)%Z with true by (symmetry; apply Z.leb_le; lia). replace (t0 <? t1)%Z with true by (symmetry; apply Z.ltb_lt; lia). cbn [andb]. Lqa.lra.
Qed.

Lemma rloop_sound : forall f i p s o h wt t c s1 c1 t1, rloop f i p s o h wt t c = Ok (s1, c1, t1) ->
  exists x m, t1 = t + m /\ (c1 == c + x)%Q /\ forall k o' q2 m2, (0 < k -> o' = gnorm (fst (snd (env_reset i s1 None)))) ->
    solo i p k (fst (env_reset i s1 None)) o' h0 0%Z q2 m2 -> exists q3, (q3 == x + q2)%Q /\ solo i p (S k) s o h wt q3 (m + m2).
Proof.
  induction f as [|f IH]; intros i p s o h wt t c s1 c1 t1 E; [discriminate|]. cbn [rollout_loop] in E.
  destruct (policy p o h) as [a h1] eqn:Ep. destruct (env_step i s a) as [s2 r] eqn:Es. rewrite orb_false_r in E.
  destruct (r_term r || r_trunc r) eqn:Ed.
  - inversion E; subst s1 c1 t1; clear E. exists (r_reward r - dec + bonus_at schedule (wt + 1))%Q, 1. split; [lia|].
    split; [rewrite wrapper_bonus_at; Lqa.lra|]. intros k o' q2 m2 V X. eexists. split; [|eapply runs_end; [rewrite Ep; exact Es|apply orb_true_iff; exact Ed| |exact X]]; [reflexivity|exact V].
  - apply orb_false_iff in Ed. destruct Ed as [D1 D2]. apply IH in E. destruct E as (x & m & Et & Ec & HX).
    exists (r_reward r - dec + bonus_at schedule (wt + 1) + x)%Q, (S m). split; [lia|]. split; [rewrite Ec, wrapper_bonus_at; Lqa.lra|].
    intros k o' q2 m2 V X. destruct (HX k o' q2 m2 V X) as (q3 & E3 & X3).
    eexists. split; [|eapply runs_go; [rewrite Ep; exact Es|auto|auto| |rewrite Ep; exact X3]]; [rewrite E3; Lqa.lra|reflexivity].
Qed.
Lemma rollouts_sound f i p : forall k s l, rolls f i p s k = Ok l ->
  length l = k /\ exists q m, m = list_sum (map snd l) /\ (q == fold_right Qplus 0 (map fst l))%Q /\
  solo i p k (fst (env_reset i s None)) (gnorm (fst (snd (env_reset i s None)))) h0 0%Z q m.
Proof.
  induction k as [|k IH]; intros s l E; cbn [rollouts] in E.
  - inversion E; subst. split; auto. exists 0%Q, 0. split; auto. split; [reflexivity|]. constructor.
  - unfold rollout in E. destruct (env_reset i s None) as [s1 oi] eqn:Er. cbn [fst snd].
    destruct (rloop f i p s1 (gnorm (fst oi)) h0 0%Z 0 0%Q) as [[[s2 c] t]|] eqn:El; [|discriminate]. cbn [bind] in E.
    destruct (rolls f i p s2 k) as [l'|] eqn:Erest; [|discriminate]. inversion E; subst l. clear E.
    destruct (IH s2 l' Erest) as (Ll & q & m & Em & Eq & X). apply rloop_sound in El. destruct El as (x & m1 & Et & Ec & HX).
    destruct (HX k _ q m (fun _ => eq_refl) X) as (q3 & E3 & X3). split; [cbn; lia|]. exists q3, (m1 + m). split; [cbn; unfold list_sum in *; lia|].
    split; [|exact X3]. cbn [map fst fold_right]. rewrite E3, Ec, Eq. Lqa.lra.
Qed.
Lemma rloop_complete i p : forall k s o h wt q m, solo i p k s o h wt q m -> forall f t c, m <= f -> 0 < k ->
  exists s1 c1 m1 m2 q2 o2, rloop f i p s o h wt t c = Ok (s1, c1, t + m1) /\ (k - 1 > 0 -> o2 = gnorm (fst (snd (env_reset i s1 None)))) /\
    solo i p (k - 1) (fst (env_reset i s1 None)) o2 h0 0%Z q2 m2 /\ m = m1 + m2.
Proof.
  induction 1 as [s0 o0 hh t0|k s o h wt s1 r o1 q m Es D1 D2 V X IH|k s o h wt s1 r o1 q m Es D V X IH]; intros f t c Lf Hk; [lia| |].
  - destruct f as [|f]; [lia|]. cbn [rollout_loop]. destruct (policy p o h) as [a h1] eqn:Ep. cbn [fst snd] in *. rewrite Es, D1, D2. cbn [orb]. subst o1.
    destruct (IH f (S t) (c + (wrapper_bonus schedule (wt + 1) (r_reward r) - dec))%Q ltac:(lia) Hk) as (s2 & c1 & m1 & m2 & q2 & o2 & E & V2 & X2 & Em).
    exists s2, c1, (S m1), m2, q2, o2. rewrite E. split; [f_equal; f_equal; lia|]. split; auto. split; auto. lia.
  - destruct f as [|f]; [lia|]. cbn [rollout_loop]. destruct (policy p o h) as [a h1] eqn:Ep. cbn [fst snd] in *. rewrite Es.
    replace (r_term r || r_trunc r) with true by (symmetry; apply orb_true_iff; exact D). cbn [orb].
    exists s1, (c + (wrapper_bonus schedule (wt + 1) (r_reward r) - dec))%Q, 1, m, q, o1. cbn [Nat.sub]. rewrite Nat.sub_0_r. split; [f_equal; f_equal; lia|]. split; auto.
Qed.
Lemma rollouts_complete i p : forall k s q m f, solo i p k (fst (env_reset i s None)) (gnorm (fst (snd (env_reset i s None)))) h0 0%Z q m -> m <= f ->
  exists l, rolls f i p s k = Ok l.
Proof.
  induction k as [|k IH]; intros s q m f X Lf; cbn [rollouts]; [eauto|].
  destruct (rloop_complete i p _ _ _ _ _ _ _ X f 0 0%Q Lf ltac:(lia)) as (s1 & c1 & m1 & m2 & q2 & o2 & E & V & X2 & Em).
  unfold rollout. destruct (env_reset i s None) as [s0 oi]. cbn [fst snd] in *. rewrite E. cbn [bind]. replace (S k - 1) with k in * by lia.
  destruct k as [|k]; [cbn; eauto|]. rewrite (V ltac:(lia)) in X2. destruct (IH s1 q2 m2 f X2 ltac:(lia)) as [l El]. rewrite El. cbn. eauto.
Qed.
Lemma fold_left_right : forall (l : list Q) a, (fold_left Qplus l a == a + fold_right Qplus 0 l)%Q.
Proof. induction l as [|x l IH]; intros a; cbn; [Lqa.lra|]. rewrite IH. Lqa.lra. Qed.
Lemma average_ok l : l <> [] -> exists x, average l = Ok x /\ (x == fold_right Qplus 0 l / inject_Z (Z.of_nat (length l)))%Q.
Proof. destruct l as [|a l]; [congruence|]. intros _. eexists. split; [reflexivity|]. rewrite fold_left_right. reflexivity. Qed.

(* determinism of the closed loop *)
Lemma solo_det i p : forall k s o h t q m, solo i p k s o h t q m -> forall o' q' m', (0 < k -> o' = o) -> solo i p k s o' h t q' m' -> (q == q')%Q /\ m = m'.
Proof.
  induction 1 as [s0 o0 hh t0|k s o h wt s1 r o1 q m Es D1 D2 V X IH|k s o h wt s1 r o1 q m Es D V X IH]; intros o' q' m' Ho Y.
  - inversion Y; subst. split; reflexivity.
  - rewrite (Ho ltac:(lia)) in Y. inversion Y as [|? ? ? ? ? s1' r' o1' q1 m1 Es' F1 F2 V' Y'|? ? ? ? ? s1' r' o1' q1 m1 Es' F V' Y']; subst; rewrite Es in Es'; inversion Es'; subst.
    + destruct (IH _ _ _ (fun _ => eq_refl) Y') as [Eq Em]. split; [rewrite Eq; reflexivity|congruence].
    + destruct F; congruence.
  - rewrite (Ho ltac:(lia)) in Y. inversion Y as [|? ? ? ? ? s1' r' o1' q1 m1 Es' F1 F2 V' Y'|? ? ? ? ? s1' r' o1' q1 m1 Es' F V' Y']; subst; rewrite Es in Es'; inversion Es'; subst.
    + destruct D; congruence.
    + destruct (IH o1' _ _ ltac:(intros L; rewrite (V' L), (V L); reflexivity) Y') as [Eq Em]. split; [rewrite Eq; reflexivity|congruence].
Qed.
End SC.

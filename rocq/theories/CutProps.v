(* C231: episode_length of GymNE. *)
From Coq Require Import QArith.
From Verif Require Import Prelude EnvModel RollModel.
Close Scope Q_scope.
Open Scope nat_scope.

Section CUT.
Context {ES A O I P H : Type}.
Variable env_step : nat -> ES -> A -> ES * sres O I.
Variable env_reset : nat -> ES -> option Z -> ES * (O * I).
Variable policy : P -> O -> H -> A * H.
Variable h0 : H.
Variable dec : Q.
Variable schedule : option (Z * Z * Q).
Variable gnorm : O -> O.

(* ---------------------------------------------------------------- specification *)
(* The policy with parameters p driving environment i in a closed loop, started from state s: what there is after k steps, and what
   step k + 1 answers.  Nothing here stops. *)
Fixpoint after (i : nat) (p : P) (s : ES) (k : nat) : ES * O * H :=
  match k with
  | 0 => let '(s1, oi) := env_reset i s None in (s1, gnorm (fst oi), h0)
  | S k' => let '(s1, o, h) := after i p s k' in
            let '(a, h1) := policy p o h in
            let '(s2, r) := env_step i s1 a in (s2, gnorm (r_obs r), h1)
  end.
Definition answer (i : nat) (p : P) (s : ES) (k : nat) : sres O I :=
  let '(s1, o, h) := after i p s k in snd (env_step i s1 (fst (policy p o h))).
Definition over (i : nat) (p : P) (s : ES) (k : nat) : bool := r_term (answer i p s k) || r_trunc (answer i p s k).
(* the rewards of the first k steps, with the alive bonus of the k-th timestep and the decrease *)
Fixpoint score (i : nat) (p : P) (s : ES) (k : nat) : Q :=
  match k with
  | 0 => 0%Q
  | S k' => (score i p s k' + (wrapper_bonus schedule (Z.of_nat (S k')) (r_reward (answer i p s k')) - dec))%Q
  end.
(* an episode is t steps long: the t-th step is the first which ends it, or reaches the limit *)
Definition ends (limit : option nat) (i : nat) (p : P) (s : ES) (t : nat) : bool :=
  over i p s (t - 1) || match limit with Some n => n <=? t | None => false end.
Definition long (limit : option nat) (i : nat) (p : P) (s : ES) (t : nat) : Prop :=
  1 <= t /\ ends limit i p s t = true /\ forall j, 1 <= j < t -> ends limit i p s j = false.
Definition state_after (i : nat) (p : P) (s : ES) (k : nat) : ES := fst (fst (after i p s k)).

(* ---------------------------------------------------------------- proofs *)
Notation loop limit := (rollout_loop env_step policy dec schedule gnorm limit).
Notation roll limit := (rollout env_step env_reset policy h0 dec schedule gnorm limit).
Notation rolls limit := (rollouts env_step env_reset policy h0 dec schedule gnorm limit).
Notation evaluate n limit := (gym_evaluate env_step env_reset policy h0 n dec schedule gnorm limit).

Lemma loop_step limit i p s : forall f k, loop limit (S f) i p (fst (fst (after i p s k))) (snd (fst (after i p s k))) (snd (after i p s k)) (Z.of_nat k) k (score i p s k) =
  if ends limit i p s (S k) then Ok (state_after i p s (S k), score i p s (S k), S k)
  else loop limit f i p (fst (fst (after i p s (S k)))) (snd (fst (after i p s (S k)))) (snd (after i p s (S k))) (Z.of_nat (S k)) (S k) (score i p s (S k)).
Proof using.
  intros f k. cbn [rollout_loop]. unfold ends, over, state_after. replace (S k - 1) with k by lia. cbn [after score]. unfold answer. destruct (after i p s k) as [[s1 o] h]. cbn [fst snd]. destruct (policy p o h) as [a h1]. cbn [fst].
  destruct (env_step i s1 a) as [s2 r]. cbn [fst snd]. replace (Z.of_nat k + 1)%Z with (Z.of_nat (S k)) by lia. reflexivity.
Qed.
Lemma loop_long limit i p s t : long limit i p s t -> forall d k f, k + S d = t -> S d <= f ->
  loop limit f i p (fst (fst (after i p s k))) (snd (fst (after i p s k))) (snd (after i p s k)) (Z.of_nat k) k (score i p s k) = Ok (state_after i p s t, score i p s t, t).
Proof using.
  intros (T1 & T2 & T3). induction d as [|d IH]; intros k f E L; (destruct f as [|f]; [lia|]); rewrite loop_step.
  - replace (S k) with t by lia. rewrite T2. reflexivity.
  - rewrite (T3 (S k)) by lia. apply IH; lia.
Qed.
Lemma roll_start limit f i p s : roll limit f i p s = loop limit f i p (fst (fst (after i p s 0))) (snd (fst (after i p s 0))) (snd (after i p s 0)) (Z.of_nat 0) 0 (score i p s 0).
Proof using. unfold rollout. cbn [after score]. destruct (env_reset i s None) as [s1 oi]. reflexivity. Qed.
Lemma first_end limit i p s n : 1 <= n -> ends limit i p s n = true -> exists t, t <= n /\ long limit i p s t.
Proof using.
  intros N E. assert (G : forall m, (exists t, 1 <= t <= m /\ long limit i p s t) \/ forall j, 1 <= j <= m -> ends limit i p s j = false).
  { induction m as [|m [[t [T L]]|IH]]; [right; lia|left; exists t; split; auto; lia|]. destruct (ends limit i p s (S m)) eqn:X.
    - left. exists (S m). split; [lia|]. split; [lia|]. split; auto. intros j Hj. apply IH. lia.
    - right. intros j Hj. destruct (Nat.eq_dec j (S m)) as [->|]; auto. apply IH. lia. }
  destruct (G n) as [[t [T L]]|X]; [exists t; split; auto; lia|]. rewrite X in E by lia. discriminate.
Qed.

(* C231 *)
Theorem C231_episode : forall limit i p s t, long limit i p s t ->
  forall fuel, t <= fuel -> roll limit fuel i p s = Ok (state_after i p s t, score i p s t, t).
Proof using.
  intros limit i p s t L fuel F. rewrite roll_start. pose proof L as (T1 & _). apply (loop_long limit i p s t L (t - 1)); lia.
Qed.
Theorem C231_always_ends : forall n i p s, exists t, long (Some n) i p s t /\ t <= Nat.max 1 n /\
  (t < n -> over i p s (t - 1) = true) /\
  forall fuel, Nat.max 1 n <= fuel -> roll (Some n) fuel i p s = Ok (state_after i p s t, score i p s t, t).
Proof using.
  intros n i p s. destruct (first_end (Some n) i p s (Nat.max 1 n)) as [t [T L]]; [lia|unfold ends; rewrite (proj2 (Nat.leb_le n (Nat.max 1 n))) by lia; apply orb_true_r|].
  exists t. split; [exact L|]. split; [exact T|]. split.
  - intros Lt. destruct L as (_ & E & _). unfold ends in E. rewrite (proj2 (Nat.leb_gt n t)) in E by lia. rewrite orb_false_r in E. exact E.
  - intros fuel F. apply C231_episode; auto. lia.
Qed.
(* the limit changes nothing before it is reached: as long as the episode ends in time it is the episode without a limit *)
Theorem C231_in_time : forall n i p s t, long None i p s t -> t <= n -> long (Some n) i p s t.
Proof using.
  intros n i p s t (T1 & T2 & T3) L. split; [exact T1|]. split; [unfold ends in *; rewrite orb_false_r in T2; rewrite T2; reflexivity|].
  intros j Hj. specialize (T3 j Hj). unfold ends in *. rewrite orb_false_r in T3. rewrite T3, (proj2 (Nat.leb_gt n j)) by lia. reflexivity.
Qed.
(* a whole evaluation *)
Lemma rolls_limit n : forall k fuel i p s, Nat.max 1 n <= fuel -> exists l, rolls (Some n) fuel i p s k = Ok l /\ length l = k /\ Forall (fun r => 1 <= snd r <= Nat.max 1 n) l.
Proof using.
  induction k as [|k IH]; intros fuel i p s F; cbn [rollouts]; [exists []; auto|]. destruct (C231_always_ends n i p s) as [t [(T1 & _) [T2 [_ R]]]]. rewrite (R fuel F). cbn [bind].
  destruct (IH fuel i p (state_after i p s t) F) as [l [E [L A0]]]. rewrite E. eexists. split; [reflexivity|]. split; [cbn; congruence|]. constructor; auto.
Qed.
Theorem C231_evaluation : forall n num_episodes i p s fuel, 1 <= num_episodes -> Nat.max 1 n <= fuel ->
  exists l x, rolls (Some n) fuel i p s num_episodes = Ok l /\ evaluate num_episodes (Some n) fuel i p s = Ok x /\
    num_episodes <= list_sum (map snd l) <= num_episodes * Nat.max 1 n.
Proof using.
  intros n k i p s fuel K F. destruct (rolls_limit n k fuel i p s F) as [l [E [L A0]]]. unfold gym_evaluate. rewrite E. cbn [bind]. exists l. destruct l as [|[q t] l]; [cbn in L; lia|]. cbn [map average]. eexists. split; [reflexivity|]. split; [reflexivity|].
  rewrite <- L. revert A0. change (snd (q, t) :: map snd l) with (map snd ((q, t) :: l)). generalize ((q, t) :: l). clear. intros m A0. induction A0 as [|r m' B A0 IH]; cbn [map length]; [cbn; lia|]. change (list_sum (snd r :: map snd m')) with (snd r + list_sum (map snd m')). lia.
Qed.
(* without a limit, an environment which never says done is never left *)
Theorem C231_forever : forall i p s, (forall k, over i p s k = false) -> forall fuel, roll None fuel i p s = Err OutOfFuel.
Proof using.
  intros i p s N fuel. rewrite roll_start. generalize 0 as k. induction fuel as [|f IH]; intros k; [reflexivity|]. rewrite loop_step. unfold ends. rewrite N. cbn [orb]. apply IH.
Qed.
End CUT.
Print Assumptions C231_episode.
Print Assumptions C231_always_ends.
Print Assumptions C231_in_time.
Print Assumptions C231_evaluation.
Print Assumptions C231_forever.

(* an example: an environment which counts its steps and ends after five of them (or never), with episodes of at most three steps *)
Definition counting (last : nat) (i : nat) (s : nat) (a : nat) : nat * sres nat unit :=
  (S s, {| r_obs := S s; r_reward := inject_Z (Z.of_nat a); r_term := S s =? last; r_trunc := false; r_info := tt |}).
Definition restart (i : nat) (s : nat) (seed : option Z) : nat * (nat * unit) := (0, (0, tt)).
Definition adding (p o h : nat) : nat * nat := (p + o, h).
Example C231_example :
  long (A := nat) (counting 5) restart adding 0 (fun o => o) (Some 3) 0 4 8 3 /\ long (A := nat) (counting 5) restart adding 0 (fun o => o) None 0 4 8 5 /\
  rmap (fun r => (fst (fst r), Qred (snd (fst r)), snd r)) (rollout (counting 5) restart adding 0 (1 # 2)%Q (Some (2%Z, 2%Z, 10%Q)) (fun o => o) (Some 3) 9 0 4 8) = Ok (3, (67 # 2)%Q, 3) /\
  (forall k, over (A := nat) (counting 0) restart adding 0 (fun o => o) 0 4 8 k = false).
Proof.
  split; [split; [lia|]; split; [reflexivity|]; intros j Hj; assert (j = 1 \/ j = 2) as [-> | ->] by lia; reflexivity|].
  split; [split; [lia|]; split; [reflexivity|]; intros j Hj; assert (j = 1 \/ j = 2 \/ j = 3 \/ j = 4) as [-> |[-> |[-> | ->]]] by lia; reflexivity|]. split; [vm_compute; reflexivity|].
  intros k. unfold over, answer. destruct (after _ _ _ _ _ _ _ _ _) as [[s1 o] h]. reflexivity.
Qed.

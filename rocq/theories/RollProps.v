(* Properties of rollouts: C46. *)
From Coq Require Import QArith Lqa.
From Verif Require Import Prelude EnvModel EnvSpec EnvProofs RollModel RollSpec RollProofs RollProofs2.
Close Scope Q_scope.
Open Scope nat_scope.

Section C46.
Variables ES A O I P H NS : Type.
Variable env_step : nat -> ES -> A -> ES * sres O I.
Variable env_reset : nat -> ES -> option Z -> ES * (O * I).
Variable seed_of : Z -> nat -> Z.
Variable dummy_observation : O.
Variable empty_info : I.
Variable policy : P -> O -> H -> A * H.
Variable h0 : H.
Variable n : nat.
Variable dec : Q.
Variable schedule : option (Z * Z * Q).

(* Whatever the observation normalizer does to the rows (even if it learns from the observations of all environments), the fitness of each
   solution is the average over exactly n episodes of its own environment, driven by its own policy with a hidden state reset at the start
   of every episode, of the total shaped reward; environments without a solution do not count. *)
Theorem C46_vectorised_score (normf : NS -> list O -> NS * list O) (view : O -> O -> Prop) f v ns first rest fits total eps :
  1 <= n -> (forall ns os, Forall2 view os (snd (normf ns os))) ->
  evaluate_subbatch env_step env_reset seed_of dummy_observation empty_info policy h0 n dec schedule normf f v ns first rest = Ok (fits, total, eps) ->
  length fits = length (first :: rest) /\ eps = length (first :: rest) * n /\
  exists steps, length steps = length (first :: rest) /\ total = list_sum steps /\
  forall i m p, nth_error steps i = Some m -> nth_error (first :: rest) i = Some p ->
    exists s c o x q, nth_error (ve_envs v) i = Some (s, c) /\
      let start := env_reset i s (option_map (fun z => seed_of z i) (ve_seed v)) in
      view (fst (snd start)) o /\
      runs (env_step i) (fun s => env_reset i s None) policy h0 dec schedule view p n (fst start) o h0 0%Z x m /\
      nth_error fits i = Some (Some q) /\ (q == x / inject_Z (Z.of_nat n))%Q.
Proof. intros Hn Hv E. exact (evaluate_spec ES A O I P H NS env_step env_reset seed_of dummy_observation empty_info policy h0 n dec schedule normf Hn view Hv f v ns first rest fits total eps E). Qed.

(* The score of GymNE is the same average, for the single environment. *)
Theorem C46_scalar_score (g : O -> O) f i p s x : 1 <= n ->
  gym_evaluate env_step env_reset policy h0 n dec schedule g None f i p s = Ok x ->
  exists q m, runs (env_step i) (fun s => env_reset i s None) policy h0 dec schedule (fun o o' => o' = g o) p n
                   (fst (env_reset i s None)) (g (fst (snd (env_reset i s None)))) h0 0%Z q m /\ (x == q / inject_Z (Z.of_nat n))%Q.
Proof.
  intros Hn E. unfold gym_evaluate in E. destruct (rollouts env_step env_reset policy h0 dec schedule g None f i p s n) as [l|] eqn:El; [|discriminate]. cbn [bind] in E.
  apply rollouts_sound in El. destruct El as (Ll & q & m & Em & Eq & X). exists q, m. split; auto.
  destruct (average_ok (map fst l)) as (y & Ey & Hy); [destruct l; cbn in *; [lia|discriminate]|]. rewrite Ey in E. injection E as <-. rewrite Hy, map_length, Ll, Eq. reflexivity.
Qed.

(* With a normalizer which treats each row on its own (fixed statistics or none) both give the same scores and the same number of
   interactions. *)
Theorem C46_agree (g : O -> O) (normf : NS -> list O -> NS * list O) f v ns first rest fits total eps : 1 <= n ->
  (forall ns os, snd (normf ns os) = map g os) -> ve_seed v = None ->
  evaluate_subbatch env_step env_reset seed_of dummy_observation empty_info policy h0 n dec schedule normf f v ns first rest = Ok (fits, total, eps) ->
  exists ls, length ls = length (first :: rest) /\ total = list_sum (map (fun l => list_sum (map snd l)) ls) /\
  forall i l p s c, nth_error ls i = Some l -> nth_error (first :: rest) i = Some p -> nth_error (ve_envs v) i = Some (s, c) ->
    exists F q x, rollouts env_step env_reset policy h0 dec schedule g None F i p s n = Ok l /\
      gym_evaluate env_step env_reset policy h0 n dec schedule g None F i p s = Ok x /\
      nth_error fits i = Some (Some q) /\ (q == x)%Q.
Proof.
  intros Hn Hg Hs E. set (view := fun o o' => o' = g o).
  assert (Hv : forall ns os, Forall2 view os (snd (normf ns os))) by (intros ns' os; rewrite Hg; induction os; cbn; constructor; auto; reflexivity).
  destruct (C46_vectorised_score normf view f v ns first rest fits total eps Hn Hv E) as (_ & _ & ms & Lm & Et & HM).
  assert (HX : forall i m p, nth_error ms i = Some m -> nth_error (first :: rest) i = Some p -> exists l F q x s c,
     nth_error (ve_envs v) i = Some (s, c) /\ m = list_sum (map snd l) /\ rollouts env_step env_reset policy h0 dec schedule g None F i p s n = Ok l /\
     gym_evaluate env_step env_reset policy h0 n dec schedule g None F i p s = Ok x /\ nth_error fits i = Some (Some q) /\ (q == x)%Q).
  { intros i m p Em Ep. destruct (HM i m p Em Ep) as (s & c & o & x & q & Es & V & X & Ef & Eq). rewrite Hs in V, X. cbn [option_map] in V, X.
    unfold view in V. subst o. destruct (rollouts_complete ES A O I P H env_step env_reset policy h0 dec schedule g i p n s x m m X (Nat.le_refl m)) as [l El].
    pose proof (rollouts_sound ES A O I P H env_step env_reset policy h0 dec schedule g _ _ _ _ _ _ El) as (Ll & q2 & m2 & E2 & Eq2 & X2).
    destruct (solo_det ES A O I P H env_step env_reset policy h0 dec schedule g i p _ _ _ _ _ _ _ X _ _ _ (fun _ => eq_refl) X2) as [D1 D2].
    destruct (average_ok (map fst l)) as (y & Ey & Hy); [destruct l; cbn in *; [lia|discriminate]|].
    exists l, m, q, y, s, c. split; auto. split; [congruence|]. split; auto. split; [unfold gym_evaluate; rewrite El; exact Ey|]. split; auto.
    rewrite Eq, Hy, map_length, Ll, D1, Eq2. reflexivity. }
  assert (HL : forall k, exists ls, length ls = length (firstn k ms) /\ map (fun l => list_sum (map snd l)) ls = firstn k ms /\
     forall i l p s c, nth_error ls i = Some l -> nth_error (first :: rest) i = Some p -> nth_error (ve_envs v) i = Some (s, c) ->
      exists F q x, rollouts env_step env_reset policy h0 dec schedule g None F i p s n = Ok l /\
      gym_evaluate env_step env_reset policy h0 n dec schedule g None F i p s = Ok x /\ nth_error fits i = Some (Some q) /\ (q == x)%Q).
  { induction k as [|k IH]; [exists []; repeat split; intros [|]; discriminate|]. destruct IH as (ls & L1 & L2 & L3).
    destruct (nth_error ms k) as [m|] eqn:Em.
    - destruct (nth_some (first :: rest) k) as [p Ep]; [apply nth_lt in Em; lia|]. destruct (HX k m p Em Ep) as (l & F & q & x & s & c & Es & Hm & R1 & R2 & R3 & R4).
      assert (Ef : firstn (S k) ms = firstn k ms ++ [m]).
      { clear - Em. revert k Em. induction ms as [|a ms IH]; intros [|k] Em; cbn in *; try discriminate; [congruence|]. f_equal. apply IH; auto. }
      assert (Lk : length ls = k) by (rewrite L1, firstn_length; apply nth_lt in Em; lia).
      exists (ls ++ [l]). rewrite Ef, map_app, !app_length. split; [cbn; lia|]. split; [rewrite L2; cbn; congruence|].
      intros i l' p' s' c' El Ep' Es'. destruct (Nat.lt_ge_cases i k) as [Li|Li].
      + rewrite nth_error_app1 in El by lia. eauto.
      + rewrite nth_error_app2 in El by lia. destruct (i - length ls) as [|j] eqn:Ej; [|destruct j; discriminate]. injection El as <-.
        assert (i = k) by lia. subst i. rewrite Ep in Ep'. injection Ep' as <-. rewrite Es in Es'. injection Es' as <- <-. eauto 10.
    - exists ls. rewrite (firstn_all2 ms) by (apply nth_error_None in Em; lia). rewrite (firstn_all2 ms) in L1, L2 by (apply nth_error_None in Em; lia). auto. }
  destruct (HL (length ms)) as (ls & L1 & L2 & L3). rewrite firstn_all in L1, L2. exists ls. split; [lia|]. split; [congruence|exact L3].
Qed.

(* The vectorised evaluation ends as soon as the slowest solution has had its episodes. *)
Theorem C46_terminates (g : O -> O) (normf : NS -> list O -> NS * list O) f v ns first rest : 1 <= n ->
  (forall ns os, snd (normf ns os) = map g os) -> ve_seed v = None -> length (first :: rest) <= length (ve_envs v) ->
  (forall i s c p, nth_error (ve_envs v) i = Some (s, c) -> nth_error (first :: rest) i = Some p ->
     exists F l, rollouts env_step env_reset policy h0 dec schedule g None F i p s n = Ok l /\ list_sum (map snd l) <= f) ->
  is_ok (evaluate_subbatch env_step env_reset seed_of dummy_observation empty_info policy h0 n dec schedule normf f v ns first rest) = true.
Proof.
  intros Hn Hg Hs Hk HT. apply (evaluate_terminates ES A O I P H NS env_step env_reset seed_of dummy_observation empty_info policy h0 n dec schedule normf Hn (fun o o' => o' = g o)); auto.
  - intros ns' os. rewrite Hg. induction os; cbn; constructor; auto.
  - intros o a b -> ->. reflexivity.
  - intros i s c p Es Ep. destruct (HT i s c p Es Ep) as (F & l & El & Ls). apply rollouts_sound in El. destruct El as (_ & q & m & Em & _ & X).
    exists (g (fst (snd (env_reset i s None)))), q, m. unfold first_reset. rewrite Hs. cbn [option_map]. repeat split; auto. lia.
Qed.
End C46.

(* two solutions in three environments of different episode lengths, with two episodes each and an alive bonus; the hidden state counts
   the steps, the observation is the state, and the action is the product *)
Module Example46.
Definition estep (i : nat) (s : nat) (a : nat) : nat * sres nat unit :=
  (S s, {| r_obs := S s; r_reward := inject_Z (Z.of_nat (a + 10 * i)); r_term := (2 + i <=? S s); r_trunc := false; r_info := tt |}).
Definition ereset (i : nat) (s : nat) (seed : option Z) : nat * (nat * unit) := (0, (0, tt)).
Definition pol (p o h : nat) : nat * nat := (p * o + h, S h).
Definition sched := Some (1%Z, 3%Z, 4%Q).
Definition nrm (k : nat) (os : list nat) : nat * list nat := (k, map (fun o => o + 1) os).
Definition venv0 : venv nat := {| ve_envs := [(7, 1); (8, 1); (9, 1)]; ve_seed := None |}.
Example C46_example :
  exists q0 q1 x0 x1, evaluate_subbatch estep ereset (fun z i => z) 0 tt pol 0 2 (1 # 2) sched nrm 9 venv0 0 3 [5] = Ok ([Some q0; Some q1], 10, 4) /\
  gym_evaluate estep ereset pol 0 2 (1 # 2) sched (fun o => o + 1) None 9 0 3 7 = Ok x0 /\
  gym_evaluate estep ereset pol 0 2 (1 # 2) sched (fun o => o + 1) None 9 1 5 8 = Ok x1 /\ (q0 == x0 /\ q1 == x1 /\ q0 == 11 /\ q1 == (135 # 2))%Q.
Proof. do 4 eexists. split; [vm_compute; reflexivity|]. split; [vm_compute; reflexivity|]. split; [vm_compute; reflexivity|]. repeat split; vm_compute; reflexivity. Qed.
End Example46.

Print Assumptions C46_vectorised_score.
Print Assumptions C46_scalar_score.
Print Assumptions C46_agree.
Print Assumptions C46_terminates.

(* C220: The number of fitness evaluations which a genetic search makes. *)
From Coq Require Import QArith.
From Verif Require Import Prelude FloatLib BatchModel BatchSpec ParetoModel ParetoSpec ParetoProofs3 GaModel GaSpec GaProofs GaProofs2 GaProofs3 MapModel GaProps MapProps BudModel.
Close Scope Q_scope.
Open Scope nat_scope.

(* ------------------------------------------------------------------------------------ specification *)
(* from populations of p solutions the operators make c children *)
Definition brings {V} (ops : list (operator V)) (p c : nat) : Prop :=
  forall k (b b' : batch V), wf b -> b_len b = p -> use_operators k b ops = Ok b' -> b_len b' = c.
(* evaluations in n generations, started with a population of p unevaluated solutions, with c children in each *)
Definition budget (re_evaluate : bool) (p c n : nat) : nat :=
  if re_evaluate then n * (p + c) else match n with O => 0 | _ => p + n * c end.

(* ------------------------------------------------------------------------------------ the record *)
Section Bud.
Context {V : Type}.
Implicit Types (b : batch V) (log : list (V * list fl)).
Lemma erase_then {A B} (m : recorded A) (f : A -> recorded B) : rmap fst (then_ (V := V) m f) = bind (rmap fst m) (fun x => rmap fst (f x)).
Proof. unfold then_. destruct m as [[x l]|]; cbn; auto. destruct (f x) as [[y l']|]; cbn; auto. Qed.
Lemma erase_lift {A} (r : result A) : rmap fst (lift (V := V) r) = r.
Proof. unfold lift. destruct r; auto. Qed.
Lemma erase_ret {A} (x : A) : rmap fst (ret (V := V) x) = Ok x.
Proof. reflexivity. Qed.
Lemma then_inv {A B} (m : recorded A) (f : A -> recorded B) y log : then_ (V := V) m f = Ok (y, log) ->
  exists x l1 l2, m = Ok (x, l1) /\ f x = Ok (y, l2) /\ log = l1 ++ l2.
Proof.
  unfold then_. destruct m as [[x l]|]; cbn; [|discriminate]. destruct (f x) as [[z l']|] eqn:E; cbn; [|discriminate]. intros X; injection X as <- <-. eauto 8.
Qed.
Lemma lift_inv {A} (r : result A) y log : lift (V := V) r = Ok (y, log) -> r = Ok y /\ log = [].
Proof. unfold lift. destruct r; cbn; [|discriminate]. intros X; injection X as <- <-. auto. Qed.
Lemma ret_inv {A} (x y : A) log : ret (V := V) x = Ok (y, log) -> x = y /\ log = [].
Proof. unfold ret. intros X; injection X as <- <-. auto. Qed.
Variables (so : bool -> list fl -> list nat) (co : list (list fl) -> list nat) (qs : list Q -> list nat) (pick : bool -> list fl -> nat).
Variable ev : nat -> list V -> list (list fl).
Lemma erase_evaluate k b : rmap fst (evaluate_r ev k b) = evaluate ev k b.
Proof. unfold evaluate_r. destruct (evaluate ev k b); auto. Qed.
Lemma evaluate_r_inv k b b' log : evaluate_r ev k b = Ok (b', log) -> evaluate ev k b = Ok b' /\ log = rows b'.
Proof. unfold evaluate_r. destruct (evaluate ev k b); cbn; [|discriminate]. intros X; injection X as <- <-. auto. Qed.
Lemma evaluate_rows w k b b' : evaluates w ev -> evaluate ev k b = Ok b' -> length (rows b') = b_len b.
Proof.
  intros HE. unfold evaluate. destruct (b_vals b) as [|v vs] eqn:E; [discriminate|]. intros X; injection X as <-. unfold rows, rows_of, b_len. cbn [b_vals b_ev].
  rewrite combine_length, (proj1 (HE k (v :: vs))), E. apply Nat.min_id.
Qed.
Lemma bind_ext {A B} (m : result A) (f g : A -> result B) : (forall x, f x = g x) -> bind m f = bind m g.
Proof. intros H. destruct m; cbn; auto. Qed.
Ltac erase := repeat (rewrite ?erase_then, ?erase_evaluate, ?erase_lift, ?erase_ret; try reflexivity; try (apply bind_ext; intros)).
Lemma erase_extended cf ops s : rmap fst (extended_r ev cf ops s) = extended ev cf ops s.
Proof.
  unfold extended_r, extended. destruct (g_reeval cf); [destruct (g_first cf)|]; erase.
  destruct (s_first s); rewrite ?erase_evaluate, ?erase_ret; erase.
Qed.
Lemma erase_ga_step cf ops s : rmap fst (ga_step_r so co qs ev cf ops s) = ga_step so co qs ev cf ops s.
Proof. unfold ga_step_r, ga_step. rewrite erase_then, erase_extended. apply bind_ext. intros [[s' p] c]. apply erase_lift. Qed.
Lemma erase_ga cf ops n s : rmap fst (ga_run_r so co qs ev cf ops n s) = ga_run so co qs ev cf ops n s.
Proof. induction n as [|n IH]; [reflexivity|]. cbn [ga_run_r ga_run]. rewrite erase_then, IH. apply bind_ext. intros. apply erase_ga_step. Qed.
Lemma erase_cosyne_step popsize el cross mut perm s : rmap fst (cosyne_step_r so co qs ev popsize el cross mut perm s) = cosyne_step so co qs ev popsize el cross mut perm s.
Proof.
  unfold cosyne_step_r, cosyne_step. destruct (s_first s); erase.
Qed.
Lemma erase_cosyne popsize el cross mut perm n s : rmap fst (cosyne_run_r so co qs ev popsize el cross mut perm n s) = cosyne_run so co qs ev popsize el cross mut perm n s.
Proof. induction n as [|n IH]; [reflexivity|]. cbn [cosyne_run_r cosyne_run]. rewrite erase_then, IH. apply bind_ext. intros. apply erase_cosyne_step. Qed.
Lemma erase_map_step cf ops grid s : rmap fst (map_step_r pick ev cf ops grid s) = map_step pick ev cf ops grid s.
Proof. unfold map_step_r, map_step. rewrite erase_then, erase_extended. apply bind_ext. intros [[s' p] c]. apply erase_lift. Qed.
Lemma erase_map cf ops grid n s : rmap fst (map_run_r pick ev cf ops grid n s) = map_run pick ev cf ops grid n s.
Proof.
  induction n as [|n IH]; [reflexivity|]. cbn [map_run_r map_run]. rewrite erase_then, IH. apply bind_ext. intros r. rewrite erase_then, erase_map_step. apply bind_ext. intros. reflexivity.
Qed.

(* ------------------------------------------------------------------------------------ counting *)
Lemma extended_count cf ops s p c s1 pa ch log : wf (s_pop s) -> evaluates (eval_width (s_pop s)) ev -> b_len (s_pop s) = p -> brings ops p c ->
  extended_r ev cf ops s = Ok (s1, pa, ch, log) -> length log = (if (g_reeval cf || s_first s)%bool then p else 0) + c.
Proof.
  intros W HE Hp HB. unfold extended_r.
  assert (K : forall k pop, evaluate ev k (s_pop s) = Ok pop -> wf pop /\ b_len pop = p).
  { intros k pop E. destruct (evaluate_inv ev _ _ _ HE E) as (K & Vp & _). split; [apply K|]. unfold b_len in *. congruence. }
  destruct (g_reeval cf); [destruct (g_first cf)|]; cbn [orb].
  - intros X. apply then_inv in X. destruct X as (pop & l1 & l2 & E1 & X & ->). apply evaluate_r_inv in E1. destruct E1 as [E1 ->].
    apply then_inv in X. destruct X as (chi & l3 & l4 & E2 & X & ->). apply lift_inv in E2. destruct E2 as [E2 ->].
    apply then_inv in X. destruct X as (chi' & l5 & l6 & E3 & X & ->). apply evaluate_r_inv in E3. destruct E3 as [E3 ->]. apply ret_inv in X. destruct X as [_ ->].
    destruct (K _ _ E1) as [Wp Lp]. pose proof (HB _ _ _ Wp Lp E2) as Lc. cbn. rewrite app_nil_r, ?app_length, ?(evaluate_rows _ _ _ _ HE E1), (evaluate_rows _ _ _ _ HE E3), ?cat_len. unfold b_len in *. lia.
  - intros X. apply then_inv in X. destruct X as (chi & l3 & l4 & E2 & X & ->). apply lift_inv in E2. destruct E2 as [E2 ->].
    apply then_inv in X. destruct X as (wh & l5 & l6 & E3 & X & ->). apply evaluate_r_inv in E3. destruct E3 as [E3 ->]. apply ret_inv in X. destruct X as [_ ->].
    pose proof (HB _ _ _ W Hp E2) as Lc. cbn. rewrite app_nil_r, ?app_length, ?(evaluate_rows _ _ _ _ HE E1), (evaluate_rows _ _ _ _ HE E3), ?cat_len. unfold b_len in *. lia.
  - intros X. apply then_inv in X. destruct X as (pop & l1 & l2 & E1 & X & ->).
    assert (Q : length l1 = (if s_first s then p else 0) /\ wf pop /\ b_len pop = p).
    { destruct (s_first s).
      - apply evaluate_r_inv in E1. destruct E1 as [E1 ->]. split; [rewrite (evaluate_rows _ _ _ _ HE E1); auto|]. eapply K; eauto.
      - apply ret_inv in E1. destruct E1 as [<- ->]. auto. }
    destruct Q as (Q & Wp & Lp).
    apply then_inv in X. destruct X as (chi & l3 & l4 & E2 & X & ->). apply lift_inv in E2. destruct E2 as [E2 ->].
    apply then_inv in X. destruct X as (chi' & l5 & l6 & E3 & X & ->). apply evaluate_r_inv in E3. destruct E3 as [E3 ->]. apply ret_inv in X. destruct X as [_ ->].
    pose proof (HB _ _ _ Wp Lp E2) as Lc. cbn. rewrite app_nil_r, ?app_length, ?(evaluate_rows _ _ _ _ HE E1), (evaluate_rows _ _ _ _ HE E3), ?cat_len. unfold b_len in *. lia.
Qed.
Lemma budget_S r p c n : budget r p c (S n) = budget r p c n + ((if (r || Nat.eqb n 0)%bool then p else 0) + c).
Proof. unfold budget. destruct r; cbn [orb]; [lia|]. destruct n; cbn [Nat.eqb]; lia. Qed.
Hypothesis Hs : argsort_ok so.
Hypothesis Hco : reordering co.
Hypothesis Hqs : qargsort_ok qs.
Lemma ga_count cf ops c s : Forall legal ops -> wf (s_pop s) -> evaluates (eval_width (s_pop s)) ev -> b_len (s_pop s) = g_popsize cf -> s_first s = true ->
  brings ops (g_popsize cf) c -> forall n s' log, ga_run_r so co qs ev cf ops n s = Ok (s', log) -> length log = budget (g_reeval cf) (g_popsize cf) c n.
Proof.
  intros HL W HE Hp HF HB. induction n as [|n IH]; intros s' log X.
  - cbn [ga_run_r] in X. apply ret_inv in X. destruct X as [_ ->]. unfold budget. destruct (g_reeval cf); auto.
  - cbn [ga_run_r] in X. apply then_inv in X. destruct X as (s1 & l1 & l2 & E1 & X & ->). pose proof (IH _ _ E1) as L1.
    pose proof (f_equal (rmap fst) E1) as R1. rewrite erase_ga in R1. cbn in R1.
    destruct (run_size so co qs ev Hs Hco Hqs cf ops n s s1 HL W HE Hp R1) as (K & Lp & F1).
    unfold ga_step_r in X. apply then_inv in X. destruct X as ([[s2 pa] ch] & l3 & l4 & E2 & X & ->). apply lift_inv in X. destruct X as [_ ->].
    rewrite <- (kind_width _ _ K) in HE. pose proof (extended_count cf ops s1 _ c s2 pa ch l3 (proj1 K) HE Lp HB E2) as L2.
    rewrite app_nil_r, app_length, L1, L2, budget_S. f_equal. f_equal.
    destruct n; [cbn in R1; injection R1 as <-; rewrite HF; auto|]. rewrite F1 by discriminate. auto.
Qed.
Lemma cosyne_count popsize el cross mut perm c s : kind_op cross -> (forall m, mut = Some m -> kind_op m) -> kind_op perm ->
  (forall k b b', perm k b = Ok b' -> b_len b' = b_len b) -> (forall m k b b', mut = Some m -> m k b = Ok b' -> b_len b' = b_len b) ->
  (forall k b b', wf b -> b_len b = popsize / 4 -> cross k b = Ok b' -> b_len b' = c) ->
  wf (s_pop s) -> evaluates (eval_width (s_pop s)) ev -> b_len (s_pop s) = popsize -> s_first s = true ->
  forall n s' log, cosyne_run_r so co qs ev popsize el cross mut perm n s = Ok (s', log) ->
  length log = budget false popsize (Nat.min (match el with Some e => Z.to_nat e | None => 0 end) popsize + c + popsize) n.
Proof.
  intros HC HM HP HPl HMl HCl W HE Hp HF. induction n as [|n IH]; intros s' log X.
  - cbn [cosyne_run_r] in X. apply ret_inv in X. destruct X as [_ ->]. auto.
  - cbn [cosyne_run_r] in X. apply then_inv in X. destruct X as (s1 & l1 & l2 & E1 & X & ->). pose proof (IH _ _ E1) as L1.
    pose proof (f_equal (rmap fst) E1) as R1. rewrite erase_cosyne in R1. cbn in R1.
    assert (IN : forall m s0, cosyne_run so co qs ev popsize el cross mut perm m s = Ok s0 -> same_kind (s_pop s) (s_pop s0) /\ b_len (s_pop s0) = popsize /\ s_first s0 = Nat.eqb m 0).
    { clear -HC HM HP HPl W HE Hp HF Hs Hco Hqs. induction m as [|m IHm]; cbn [cosyne_run]; intros s0 E; [injection E as <-; split; [apply same_kind_refl; auto|auto]|].
      destruct (cosyne_run so co qs ev popsize el cross mut perm m s) as [sm|] eqn:Em; [|discriminate]. cbn [bind] in E. destruct (IHm sm eq_refl) as (K & L & _).
      assert (HE' : evaluates (eval_width (s_pop sm)) ev) by (rewrite (kind_width _ _ K); auto).
      destruct (cosyne_step_ok so co qs ev Hs Hco Hqs popsize el cross mut perm sm s0 HC HM HP HPl (proj1 K) HE' L E) as (K' & L' & F' & _).
      split; [eapply same_kind_trans; eauto|auto]. }
    destruct (IN n s1 R1) as (K & Lp & F1). rewrite <- (kind_width _ _ K) in HE. rewrite app_length, L1, budget_S. f_equal. cbn [orb].
    unfold cosyne_step_r in X. apply then_inv in X. destruct X as (pop & l3 & l4 & E2 & X & ->).
    assert (Q : length l3 = (if Nat.eqb n 0 then popsize else 0) /\ wf pop /\ b_len pop = popsize).
    { rewrite F1 in E2. destruct (Nat.eqb n 0).
      - apply evaluate_r_inv in E2. destruct E2 as [E2 ->]. split; [rewrite (evaluate_rows _ _ _ _ HE E2); auto|]. destruct (evaluate_inv ev _ _ _ HE E2) as (K2 & Vp & _). split; [apply K2|]. unfold b_len in *. congruence.
      - apply ret_inv in E2. destruct E2 as [<- ->]. split; [auto|]. split; [apply K|auto]. }
    destruct Q as (Q & Wp & Lpop). rewrite app_length, Q. f_equal. cbv zeta in X.
    apply then_inv in X. destruct X as (sr & l5 & l6 & E3 & X & ->). apply lift_inv in E3. destruct E3 as [E3 ->].
    destruct (best_of_inv so co qs Hs Hco Hqs _ _ _ Wp E3) as (_ & _ & _ & K3 & L3).
    apply then_inv in X. destruct X as (ch & l7 & l8 & E4 & X & ->). apply lift_inv in E4. destruct E4 as [E4 ->].
    assert (NR : Nat.min (popsize / 4) (b_len sr) = popsize / 4).
    { rewrite L3, Lpop. assert (popsize / 4 <= popsize) by (apply Nat.div_le_upper_bound; lia). set (q := popsize / 4) in *. clearbody q. destruct el; lia. }
    pose proof (HCl _ _ _ (proj1 (head_kind sr (popsize / 4) (proj1 K3))) (eq_trans (head_len sr (popsize / 4)) NR) E4) as Lc.
    apply then_inv in X. destruct X as (ch2 & l9 & l10 & E5 & X & ->). apply lift_inv in E5. destruct E5 as [E5 ->].
    assert (Lc2 : b_len ch2 = c). { destruct mut as [m|]; [rewrite (HMl m _ _ _ eq_refl E5); auto|injection E5 as <-; auto]. }
    apply then_inv in X. destruct X as (pm & l11 & l12 & E6 & X & ->). apply lift_inv in E6. destruct E6 as [E6 ->].
    assert (Lm : b_len pm = popsize) by (rewrite (HPl _ _ _ E6); auto).
    apply then_inv in X. destruct X as (wh & l13 & l14 & E7 & X & ->). apply evaluate_r_inv in E7. destruct E7 as [E7 ->].
    apply lift_inv in X. destruct X as [_ ->]. cbn [app]. rewrite app_nil_r, (evaluate_rows _ _ _ _ HE E7).
    destruct el as [e|]; [|rewrite cat_len; lia].
    destruct (1 <=? e)%Z eqn:Ee; rewrite !cat_len, ?head_len, Lc2, Lm; [|replace (Z.to_nat e) with 0 by lia; lia].
    rewrite L3, Lpop. set (q := popsize / 4) in *. clearbody q. lia.
Qed.
Lemma sequence_len' {A} (l : list (result A)) r : sequence l = Ok r -> length r = length l.
Proof. revert r. induction l as [|[x|] l IH]; cbn; intros r H; [injection H as <-; auto| |discriminate]. destruct (sequence l) as [r'|]; [|discriminate]. injection H as <-. cbn. f_equal. auto. Qed.
Lemma sequence_in {A} (l : list (result A)) r : sequence l = Ok r -> forall x, In x r -> In (Ok x) l.
Proof.
  revert r. induction l as [|a l IH]; cbn; intros r H x Hx; [injection H as <-; destruct Hx|].
  destruct a as [y|]; [|discriminate]. destruct (sequence l) as [r'|] eqn:E; [|discriminate]. cbn in H. injection H as <-.
  destruct Hx as [<-|Hx]; auto. right. eapply IH; eauto.
Qed.
Lemma map_step_size cf ops grid s s' pool : Forall legal ops -> wf (s_pop (m_st s)) -> evaluates (eval_width (s_pop (m_st s))) ev ->
  map_step pick ev cf ops grid s = Ok (s', pool) -> same_kind (s_pop (m_st s)) (s_pop (m_st s')) /\ b_len (s_pop (m_st s')) = length grid /\ s_first (m_st s') = false.
Proof.
  intros HL W HE. unfold map_step. destruct (extended ev cf ops (m_st s)) as [[[s1 p] c]|] eqn:E; [|discriminate]. cbn [bind].
  destruct (extended_inv ev cf ops (m_st s) s1 p c HL W HE E) as (Kp & Kc & Ks & Vp & Vs & F1 & _). pose proof (cat_kind _ _ _ Kp Kc) as K.
  destruct (b_desc (cat p c)) as [|d ds] eqn:Ed; [discriminate|]. destruct (sequence (map _ grid)) as [best|] eqn:ES; [|discriminate]. cbn [bind]. intros X; injection X as <- <-. cbn [m_st s_pop s_first].
  assert (Lb : length best = length grid) by (rewrite (sequence_len' _ _ ES), map_length; auto).
  split; [|split; [unfold b_len; cbn; rewrite map_length; auto|auto]].
  destruct K as ([Kw1 Kw2] & Kd & Kn). unfold same_kind, wf, b_len; cbn [b_vals b_ev b_desc b_ndata]. rewrite !map_length. split; [split; auto|split; [rewrite <- Kd; auto|auto]].
  apply Forall_map, Forall_forall. intros [[v e] f] Hr. cbn. apply (sequence_in _ _ ES) in Hr. apply in_map_iff in Hr. destruct Hr as (g & Hg & _).
  clear ES. unfold best_for_cell in Hg. destruct (sequence _) as [su|] in Hg; [|discriminate]. cbn [bind] in Hg. destruct (map2 _ su _) as [|y ys] in Hg; [discriminate|].
  set (ix := pick d (y :: ys)) in Hg. destruct (nth_error (b_vals (cat p c)) ix); [|discriminate]. destruct (nth_error (b_ev (cat p c)) ix) as [e'|] eqn:Ee; [|discriminate].
  destruct (nth_error su ix); [|discriminate]. injection Hg as <- <- <-. apply nth_error_In in Ee. apply (proj1 (Forall_forall _ _) Kw2) in Ee. cbn in Ee.
  rewrite Ee. unfold eval_width, num_objs. cbn [b_desc b_ndata]. unfold eval_width, num_objs in *. cbn [cat b_desc b_ndata] in *. rewrite Ed. auto.
Qed.
Lemma map_count cf ops grid c s : Forall legal ops -> wf (s_pop (m_st s)) -> evaluates (eval_width (s_pop (m_st s))) ev -> b_len (s_pop (m_st s)) = length grid ->
  s_first (m_st s) = true -> brings ops (length grid) c -> forall n s' seen log, map_run_r pick ev cf ops grid n s = Ok (s', seen, log) ->
  length log = budget (g_reeval cf) (length grid) c n.
Proof.
  intros HL W HE Hp HF HB. induction n as [|n IH]; intros s' seen log X.
  - cbn [map_run_r] in X. apply ret_inv in X. destruct X as [_ ->]. unfold budget. destruct (g_reeval cf); auto.
  - cbn [map_run_r] in X. apply then_inv in X. destruct X as ([s1 se1] & l1 & l2 & E1 & X & ->). pose proof (IH _ _ _ E1) as L1.
    pose proof (f_equal (rmap fst) E1) as R1. rewrite erase_map in R1. cbn in R1.
    assert (IN : forall m s0 se, map_run pick ev cf ops grid m s = Ok (s0, se) -> same_kind (s_pop (m_st s)) (s_pop (m_st s0)) /\ b_len (s_pop (m_st s0)) = length grid /\ s_first (m_st s0) = Nat.eqb m 0).
    { clear -HL W HE Hp HF. induction m as [|m IHm]; cbn [map_run]; intros s0 se E; [injection E as <- <-; split; [apply same_kind_refl; auto|auto]|].
      destruct (map_run pick ev cf ops grid m s) as [[sm sem]|] eqn:Em; [|discriminate]. cbn [bind fst snd] in E.
      destruct (map_step pick ev cf ops grid sm) as [[sn pool]|] eqn:En; [|discriminate]. cbn [bind fst snd] in E. injection E as <- <-.
      destruct (IHm sm sem eq_refl) as (K & L & _). assert (HE' : evaluates (eval_width (s_pop (m_st sm))) ev) by (rewrite (kind_width _ _ K); auto).
      destruct (map_step_size cf ops grid sm sn pool HL (proj1 K) HE' En) as (K' & L' & F'). split; [eapply same_kind_trans; eauto|auto]. }
    destruct (IN n s1 se1 R1) as (K & Lp & F1). cbn [fst snd] in X. apply then_inv in X. destruct X as ([s2 pool] & l3 & l4 & E2 & X & ->). apply ret_inv in X. destruct X as [_ ->].
    unfold map_step_r in E2. apply then_inv in E2. destruct E2 as ([[s3 pa] ch] & l5 & l6 & E2 & X & ->). apply lift_inv in X. destruct X as [_ ->].
    rewrite <- (kind_width _ _ K) in HE. pose proof (extended_count cf ops (m_st s1) _ c s3 pa ch l5 (proj1 K) HE Lp HB E2) as L2.
    rewrite !app_nil_r, app_length, L1, L2, budget_S, F1. auto.
Qed.
End Bud.

(* ------------------------------------------------------------------------------------ C220 *)
(* the record does not change what a search does *)
Theorem C220_record : forall (V : Type) so co qs pick ev,
  (forall cf ops n (s : state V), rmap fst (ga_run_r so co qs ev cf ops n s) = ga_run so co qs ev cf ops n s) /\
  (forall p el cross mut perm n (s : state V), rmap fst (cosyne_run_r so co qs ev p el cross mut perm n s) = cosyne_run so co qs ev p el cross mut perm n s) /\
  (forall cf ops grid n (s : mstate V), rmap fst (map_run_r pick ev cf ops grid n s) = map_run pick ev cf ops grid n s).
Proof. intros. split; [|split]; intros; [apply erase_ga|apply erase_cosyne|apply erase_map]. Qed.
(* GeneticAlgorithm and SteadyStateGA *)
Theorem C220_ga : forall (V : Type) so co qs ev cf ops c n (s s' : state V) log, argsort_ok so -> reordering co -> qargsort_ok qs ->
  Forall legal ops -> wf (s_pop s) -> evaluates (eval_width (s_pop s)) ev -> b_len (s_pop s) = g_popsize cf -> s_first s = true ->
  brings ops (g_popsize cf) c -> ga_run_r so co qs ev cf ops n s = Ok (s', log) ->
  length log = budget (g_reeval cf) (g_popsize cf) c n.
Proof. intros V so co qs ev cf ops c n s s' log H1 H2 H3 HL W HE Hp HF HB X. eapply ga_count; eauto. Qed.
(* Cosyne: in every generation the elites, the children and the permuted population *)
Theorem C220_cosyne : forall (V : Type) so co qs ev popsize elites cross mut perm c n (s s' : state V) log, argsort_ok so -> reordering co -> qargsort_ok qs ->
  kind_op cross -> (forall m, mut = Some m -> kind_op m) -> kind_op perm ->
  (forall k b b', perm k b = Ok b' -> b_len b' = b_len b) -> (forall m k b b', mut = Some m -> m k b = Ok b' -> b_len b' = b_len b) ->
  (forall k b b', wf b -> b_len b = popsize / 4 -> cross k b = Ok b' -> b_len b' = c) ->
  wf (s_pop s) -> evaluates (eval_width (s_pop s)) ev -> b_len (s_pop s) = popsize -> s_first s = true ->
  cosyne_run_r so co qs ev popsize elites cross mut perm n s = Ok (s', log) ->
  length log = budget false popsize (Nat.min (match elites with Some e => Z.to_nat e | None => 0 end) popsize + c + popsize) n.
Proof. intros V so co qs ev popsize elites cross mut perm c n s s1 log H1 H2 H3 HC HM HP HPl HMl HCl W HE Hp HF X. exact (cosyne_count so co qs ev H1 H2 H3 popsize elites cross mut perm c s HC HM HP HPl HMl HCl W HE Hp HF n s1 log X). Qed.
(* MAPElites, whose population has one solution per cell *)
Theorem C220_mapelites : forall (V : Type) pick ev cf ops grid c n (s s' : mstate V) seen log, Forall legal ops -> wf (s_pop (m_st s)) ->
  evaluates (eval_width (s_pop (m_st s))) ev -> b_len (s_pop (m_st s)) = length grid -> s_first (m_st s) = true ->
  brings ops (length grid) c -> map_run_r pick ev cf ops grid n s = Ok (s', seen, log) ->
  length log = budget (g_reeval cf) (length grid) c n.
Proof. intros. eapply map_count; eauto. Qed.
Print Assumptions C220_record.
Print Assumptions C220_ga.
Print Assumptions C220_cosyne.
Print Assumptions C220_mapelites.

(* three solutions; the operator makes two children; three generations *)
Definition bu_op : operator nat := Func (fun k vs => Ok (map S (firstn 2 vs))).
Definition bu_ev (k : nat) (vs : list nat) : list (list fl) := map (fun v => [Fin (Z.of_nat v)]) vs.
Definition bu_run (re : bool) := rmap (fun p => (b_vals (s_pop (fst p)), map fst (snd p)))
  (ga_run_r stable_argsort (fun l => seq 0 (length l)) qstable bu_ev (mkConf 3 true re true) [bu_op] 3 (ga_init (mkBatch [] [] [true] 0) [1; 5; 3])).
Example C220_example : brings [bu_op] 3 2 /\ Forall legal [bu_op] /\
  bu_run false = Ok ([8; 7; 7], [1; 5; 3; 2; 6; 7; 6; 8; 7]) /\
  (exists v, bu_run true = Ok (v, [1; 5; 3; 2; 6; 6; 5; 3; 7; 6; 7; 6; 6; 8; 7])) /\
  budget false 3 2 3 = 9 /\ budget true 3 2 3 = 15.
Proof.
  split; [|split; [|split; [|split; [|split]]]].
  - intros k b b1 W L X. cbn in X. injection X as <-. unfold b_len in *. cbn [fresh b_vals]. destruct (b_vals b) as [|? [|? ?]]; try discriminate. auto.
  - constructor; [exact Logic.I|constructor].
  - vm_compute. reflexivity.
  - vm_compute. eauto.
  - reflexivity.
  - reflexivity.
Qed.
(* Cosyne: four solutions, one elite, two children, two generations: 4 + 2 (1 + 2 + 4) evaluations *)
Definition bu_perm (k : nat) (b : batch Z) : result (batch Z) := Ok (fresh b (rev (map (fun v => v - 1)%Z (b_vals b)))).
Example C220_cosyne_example : kind_op excross /\ kind_op bu_perm /\ (forall k b b', bu_perm k b = Ok b' -> b_len b' = b_len b) /\
  (forall k b b', wf b -> b_len b = 4 / 4 -> excross k b = Ok b' -> b_len b' = 2) /\
  (exists s, rmap (fun r => (fst r, map fst (snd r))) (cosyne_run_r stable_argsort exco qstable exev 4 (Some 1%Z) excross None bu_perm 2 (ga_init (mkBatch [] [] [true] 0) [4; 1; 7; 2]%Z)) =
     Ok (s, [4; 1; 7; 2; 7; -3; 9; 1; 6; 0; 3; 9; -1; 11; 2; 5; 6; 8]%Z)) /\ budget false 4 (1 + 2 + 4) 2 = 18.
Proof.
  split; [apply C93_example|]. split. { intros k b b' W H. injection H as <-. apply fresh_kind. }
  split. { intros k b b' H. injection H as <-. unfold b_len. cbn [fresh b_vals]. rewrite rev_length, map_length. auto. }
  split. { intros k b b' W L H. unfold excross in H. destruct (b_vals b); [discriminate|]. injection H as <-. auto. }
  split; [eexists; vm_compute; reflexivity|reflexivity].
Qed.
(* MAPElites: three cells, as many children, two generations *)
Example C220_mapelites_example : Forall legal mops /\ brings mops (length mgrid) 3 /\
  (exists s seen, rmap (fun r => (fst r, map fst (snd r))) (map_run_r first_pick (fun _ vs => map mf vs) (mkConf 3 true true true) mops mgrid 2 (map_init (mkBatch [] [] [true] 1) [9; 3; 7]%Z)) =
     Ok (s, seen, [9; 3; 7; 12; 6; 10; 9; 12; 9; 12; 15; 12]%Z)) /\ budget true 3 3 2 = 12.
Proof.
  split; [repeat constructor|]. split. { intros k b b' W L X. cbn in X. injection X as <-. unfold b_len in *. cbn [fresh b_vals]. rewrite map_length. auto. }
  split; [eexists; eexists; vm_compute; reflexivity|reflexivity].
Qed.

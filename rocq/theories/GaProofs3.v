From Coq Require Import QArith Lqa.
From Verif Require Import Prelude FloatLib BatchModel BatchSpec BatchProofs ParetoModel ParetoSpec ParetoProofs2 GaModel GaSpec GaProofs GaProofs2
  RankModel OperModel OperSpec.
Close Scope Q_scope.
Open Scope nat_scope.

(* ------------------------------------------------------------------ registry *)
Section Reg.
Context {Op : Type}.
Variable ic : Op -> bool.
Lemma opt_id {A} (o : option A) : match o with Some x => Some x | None => None end = o.
Proof. destruct o; auto. Qed.
Lemma find_app' {A} (p : A -> bool) l l' : find p (l ++ l') = match find p l with Some x => Some x | None => find p l' end.
Proof. induction l as [|x l IH]; cbn; auto. destruct (p x); auto. Qed.
Lemma stepped_snoc (past : list (call Op)) c : stepped (past ++ [c]) = (stepped past || match c with Step => true | _ => false end)%bool.
Proof. induction past as [|[op|] past IH]; cbn; auto. Qed.
Lemma used_snoc (past : list (call Op)) c :
  used_before_step (past ++ [c]) = if stepped past then used_before_step past else
    used_before_step past ++ match c with Use op => [op] | Step => [] end.
Proof.
  induction past as [|[op|] past IH]; cbn; auto. rewrite IH. destruct (stepped past); auto.
Qed.
Lemma exists_cross l : existsb (fun o => Bool.eqb (ic o) true) l = match find ic l with Some _ => true | None => false end.
Proof. induction l as [|x l IH]; cbn; auto. destruct (ic x); cbn; auto. Qed.
Lemma exists_mut l : existsb (fun o => Bool.eqb (ic o) false) l = match find (fun o => negb (ic o)) l with Some _ => true | None => false end.
Proof. induction l as [|x l IH]; cbn; auto. destruct (ic x); cbn; auto. Qed.

Definition reg_inv (c0 : list Op) (past : list (call Op)) (r : registry Op) : Prop :=
  r_forbid r = stepped past /\
  (c0 <> [] -> r_ops r = c0 /\ r_cross r = None /\ r_mut r = None /\ r_prepare r = false) /\
  (c0 = [] -> r_cross r = find ic (used_before_step past) /\ r_mut r = find (fun o => negb (ic o)) (used_before_step past) /\
     if stepped past then r_prepare r = false /\ r_ops r = to_list (r_cross r) ++ to_list (r_mut r)
     else r_ops r = [] /\ r_prepare r = match used_before_step past with [] => false | _ => true end).
Lemma used_find (l : list Op) : l <> [] -> option_list (find ic l) ++ option_list (find (fun o => negb (ic o)) l) <> [].
Proof. destruct l as [|x l]; [congruence|]. intros _. cbn. destruct (ic x); cbn; [discriminate|]. intros X. apply app_eq_nil in X. destruct X; discriminate. Qed.
Lemma reg_call c0 past r c : reg_inv c0 past r ->
  match c with
  | Use op => AUse (snd (reg_use ic r op)) = expected ic c0 past c /\ reg_inv c0 (past ++ [c]) (fst (reg_use ic r op))
  | Step => AStep (snd (reg_step r)) = expected ic c0 past c /\ reg_inv c0 (past ++ [c]) (fst (reg_step r))
  end.
Proof.
  intros (F & H1 & H2). destruct c as [op|].
  - unfold reg_use, expected. rewrite F. destruct (stepped past) eqn:ES.
    + cbn. split; [auto|]. split; [rewrite stepped_snoc, ES; auto|]. split; [auto|]. intros E. rewrite stepped_snoc, used_snoc, ES. cbn [orb]. apply H2; auto.
    + destruct c0 as [|x c0].
      * destruct (H2 eq_refl) as (C & M & O & P). rewrite O. destruct (ic op) eqn:EI.
        -- rewrite C, exists_cross. destruct (find ic (used_before_step past)) as [y|] eqn:EF; cbn [fst snd].
           ++ split; [auto|]. split; [rewrite stepped_snoc, ES; auto|]. split; [congruence|]. intros _. rewrite stepped_snoc, used_snoc, ES. cbn [orb].
              rewrite !find_app', EF, M. cbn. rewrite EI. cbn. split; [congruence|]. split; [rewrite opt_id; auto|]. split; [auto|]. rewrite P.
              destruct (used_before_step past); [discriminate|auto].
           ++ split; [auto|]. split; [cbn; rewrite stepped_snoc, ES; auto|]. split; [congruence|]. intros _. rewrite stepped_snoc, used_snoc, ES. cbn [orb r_cross r_mut r_ops r_prepare].
              rewrite !find_app', EF, M. cbn. rewrite EI. cbn. split; [auto|]. split; [rewrite opt_id; auto|]. split; [auto|].
              destruct (used_before_step past); auto.
        -- rewrite M, exists_mut. destruct (find (fun o => negb (ic o)) (used_before_step past)) as [y|] eqn:EF; cbn [fst snd].
           ++ split; [auto|]. split; [rewrite stepped_snoc, ES; auto|]. split; [congruence|]. intros _. rewrite stepped_snoc, used_snoc, ES. cbn [orb].
              rewrite !find_app', EF, C. cbn. rewrite EI. cbn. split; [rewrite opt_id; auto|]. split; [congruence|]. split; [auto|]. rewrite P.
              destruct (used_before_step past); [discriminate|auto].
           ++ split; [auto|]. split; [cbn; rewrite stepped_snoc, ES; auto|]. split; [congruence|]. intros _. rewrite stepped_snoc, used_snoc, ES. cbn [orb r_cross r_mut r_ops r_prepare].
              rewrite !find_app', EF, C. cbn. rewrite EI. cbn. split; [rewrite opt_id; auto|]. split; [auto|]. split; [auto|].
              destruct (used_before_step past); auto.
      * destruct (H1 ltac:(discriminate)) as (O & C & M & P). rewrite O. cbn [fst snd]. split; [auto|].
        split; [rewrite stepped_snoc, ES; auto|]. split; [auto|discriminate].
  - unfold reg_step, expected. cbn [r_prepare r_ops r_cross r_mut].
    assert (SS : stepped (past ++ [Step]) = true) by (rewrite stepped_snoc; apply orb_true_r).
    assert (UU : used_before_step (past ++ [@Step Op]) = used_before_step past) by (rewrite used_snoc, app_nil_r; destruct (stepped past); auto).
    destruct c0 as [|x c0].
    + destruct (H2 eq_refl) as (C & M & R). destruct (stepped past) eqn:ES.
      * destruct R as [P O]. rewrite P, O, C, M. change (@to_list Op) with (@option_list Op).
        destruct (option_list (find ic (used_before_step past)) ++ option_list (find (fun o => negb (ic o)) (used_before_step past))) eqn:EO; cbn [fst snd];
          (split; [auto|]; split; [cbn; auto|]; split; [congruence|]; intros _; rewrite SS, UU; cbn [r_cross r_mut r_prepare r_ops]; split; [auto|]; split; [auto|]; split; [auto|]).
        -- symmetry; exact EO.
        -- symmetry; exact EO.
      * destruct R as [O P]. rewrite O, P. destruct (used_before_step past) as [|y l] eqn:EU.
        -- cbn [fst snd find option_list app]. split; [auto|]. split; [cbn; auto|]. split; [congruence|]. intros _. rewrite SS, UU. cbn [r_cross r_mut r_prepare r_ops].
           cbn in C, M. rewrite C, M. cbn. auto.
        -- cbn [fst snd app]. rewrite C, M. change (@to_list Op) with (@option_list Op). split.
           ++ f_equal. destruct (option_list _ ++ option_list _) eqn:EO; auto. exfalso. eapply used_find; [|exact EO]. discriminate.
           ++ split; [cbn; auto|]. split; [congruence|]. intros _. rewrite SS, UU. cbn [r_cross r_mut r_prepare r_ops]. auto.
    + destruct (H1 ltac:(discriminate)) as (O & C & M & P). rewrite O, P. cbn [fst snd]. split; [auto|]. split; [cbn; auto|]. split; [|discriminate].
      intros _. cbn. auto.
Qed.
Lemma reg_run_ok c0 : forall cs past r, reg_inv c0 past r ->
  forall i c, nth_error cs i = Some c -> nth_error (reg_run ic r cs) i = Some (expected ic c0 (past ++ firstn i cs) c).
Proof.
  induction cs as [|c0' cs IH]; intros past r HI i c H; [destruct i; discriminate|].
  pose proof (reg_call c0 past r c0' HI) as HC. destruct c0' as [op|]; cbn [reg_run].
  - destruct (reg_use ic r op) as [r' a]. cbn [fst snd] in HC. destruct HC as [HA HI'].
    destruct i as [|i]; cbn in H |- *; [injection H as <-; rewrite HA, app_nil_r; auto|].
    rewrite (IH _ _ HI' i c H). rewrite <- app_assoc. auto.
  - destruct (reg_step r) as [r' a]. cbn [fst snd] in HC. destruct HC as [HA HI'].
    destruct i as [|i]; cbn in H |- *; [injection H as <-; rewrite HA, app_nil_r; auto|].
    rewrite (IH _ _ HI' i c H). rewrite <- app_assoc. auto.
Qed.
Lemma reg_init_inv c0 : reg_inv c0 [] (reg_init c0).
Proof. split; [auto|]. split; [cbn; auto|]. intros ->. cbn. auto. Qed.
Lemma reg_run_length : forall cs r, length (reg_run ic r cs) = length cs.
Proof. induction cs as [|[op|] cs IH]; intros r; cbn; auto; [destruct (reg_use ic r op)|destruct (reg_step r)]; cbn; auto. Qed.
End Reg.

Section Ga.
Context {V : Type}.
Variable sorter : bool -> list fl -> list nat.
Variable co : list (list fl) -> list nat.
Variable qs : list Q -> list nat.
Variable ev : nat -> list V -> list (list fl).
Hypothesis Hs : argsort_ok sorter.
Hypothesis Hco : reordering co.
Hypothesis Hqs : qargsort_ok qs.

(* the children are what the operators produced *)
Lemma extended_children cf ops (s : state V) s' p c : extended ev cf ops s = Ok (s', p, c) ->
  exists ch, b_vals c = b_vals ch /\
    if (g_reeval cf && negb (g_first cf))%bool then use_operators (s_clock s) (s_pop s) ops = Ok ch
    else use_operators (s_clock s + 1) p ops = Ok ch.
Proof.
  unfold extended. destruct (g_reeval cf), (g_first cf); cbn [andb negb].
  - destruct (evaluate ev _ (s_pop s)) as [pop|] eqn:E1; [|discriminate]. cbn [bind].
    destruct (use_operators _ pop ops) as [ch|] eqn:E2; [|discriminate]. cbn [bind].
    destruct (evaluate ev _ ch) as [ch'|] eqn:E3; [|discriminate]. cbn [bind]. intros X; injection X as <- <- <-.
    exists ch. split; [eapply evaluate_vals; eauto|auto].
  - destruct (use_operators _ (s_pop s) ops) as [ch|] eqn:E2; [|discriminate]. cbn [bind].
    destruct (evaluate ev _ (cat (s_pop s) ch)) as [wh|] eqn:E3; [|discriminate]. cbn [bind]. intros X; injection X as <- <- <-.
    exists ch. split; [|auto]. cbn. rewrite (evaluate_vals ev _ _ _ E3). cbn. unfold b_len. rewrite skipn_app, skipn_all, Nat.sub_diag. auto.
  - destruct (if s_first s then evaluate ev _ (s_pop s) else Ok (s_pop s)) as [pop|] eqn:E1; [|discriminate]. cbn [bind].
    destruct (use_operators _ pop ops) as [ch|] eqn:E2; [|discriminate]. cbn [bind].
    destruct (evaluate ev _ ch) as [ch'|] eqn:E3; [|discriminate]. cbn [bind]. intros X; injection X as <- <- <-.
    exists ch. split; [eapply evaluate_vals; eauto|auto].
  - destruct (if s_first s then evaluate ev _ (s_pop s) else Ok (s_pop s)) as [pop|] eqn:E1; [|discriminate]. cbn [bind].
    destruct (use_operators _ pop ops) as [ch|] eqn:E2; [|discriminate]. cbn [bind].
    destruct (evaluate ev _ ch) as [ch'|] eqn:E3; [|discriminate]. cbn [bind]. intros X; injection X as <- <- <-.
    exists ch. split; [eapply evaluate_vals; eauto|auto].
Qed.

(* the stale case *)
Lemma stale_step cf ops (s s' : state V) ch : Forall legal ops -> wf (s_pop s) -> evaluates (eval_width (s_pop s)) ev ->
  g_elitist cf = false -> g_reeval cf = true -> g_first cf = false ->
  use_operators (s_clock s) (s_pop s) ops = Ok ch -> b_len ch < g_popsize cf ->
  ga_step sorter co qs ev cf ops s = Ok s' ->
  exists chosen c, best_of sorter co qs (s_pop s) (g_popsize cf - b_len ch) = Ok chosen /\ s_pop s' = cat chosen c /\ b_vals c = b_vals ch.
Proof.
  intros HL W HE H1 H2 H3 HU Hlt. unfold ga_step. destruct (extended ev cf ops s) as [[[s1 p] c]|] eqn:E; [|discriminate]. cbn [bind].
  destruct (extended_inv ev cf ops s s1 p c HL W HE E) as (Kp & Kc & Ks & Vp & Vs & F1 & _ & EQ).
  destruct (extended_children _ _ _ _ _ _ E) as (ch' & Vc & U). rewrite H2, H3 in U, EQ. cbn in U, EQ. rewrite HU in U. injection U as <-.
  rewrite H1. assert (Lc : b_len c = b_len ch) by (unfold b_len; congruence). rewrite Lc.
  destruct (Nat.ltb_spec (b_len ch) (g_popsize cf)); [|lia]. rewrite (EQ eq_refl).
  destruct (best_of _ _ _ (s_pop s) _) as [b|] eqn:EB; [|discriminate]. cbn. intros X; injection X as <-. cbn. eauto.
Qed.
Lemma best_of_unevaluated (b : batch V) n b' : wf b -> unevaluated b -> best_of sorter co qs b n = Ok b' -> unevaluated b'.
Proof.
  intros W U H. destruct (best_of_inv _ _ _ Hs Hco Hqs _ _ _ W H) as (idx & ET & _). unfold take in ET.
  destruct (gather (b_vals b) idx) as [vs|]; [|discriminate]. cbn [bind] in ET. destruct (gather (b_ev b) idx) as [es|] eqn:Ee; [|discriminate].
  cbn [bind] in ET. injection ET as <-. unfold unevaluated in *; cbn. apply Forall_forall. intros r Hr.
  apply (gather_In _ _ _ Ee) in Hr. apply (proj1 (Forall_forall _ _) U). auto.
Qed.
Lemma multi_unevaluated (b : batch V) n : wf b -> unevaluated b -> 2 <= num_objs b -> b_vals b <> [] -> best_of sorter co qs b n = Err ValueError.
Proof.
  intros [W1 W2] U H N. unfold best_of. destruct (Nat.leb_spec 2 (num_objs b)); [|lia]. unfold take_best_multi, batch_pareto_ranks, utils.
  destruct (b_ev b) as [|r ev0] eqn:E; [unfold b_len in W1; destruct (b_vals b); [congruence|discriminate]|].
  assert (Hin : In r (b_ev b)) by (rewrite E; left; auto).
  assert (Hw : length r = eval_width b) by (inversion W2; auto).
  assert (Hn : Forall (fun x => x = NaN) r) by (apply (proj1 (Forall_forall _ _) U); auto).
  cbn [existsb]. assert (X : existsb is_nan (firstn (num_objs b) r) = true).
  { unfold eval_width in Hw. destruct r as [|x r]; [cbn in Hw; lia|]. destruct (num_objs b); [lia|]. cbn. inversion Hn; subst. auto. }
  rewrite X. auto.
Qed.

(* ------------------------------------------------------------------ Cosyne *)
Lemma take_head (b : batch V) idx b' e : take b idx = Ok b' -> take b (firstn e idx) = Ok (head b' e).
Proof.
  assert (G : forall {A} (l : list A) idx r e, gather l idx = Ok r -> gather l (firstn e idx) = Ok (firstn e r)).
  { intros A l. unfold gather. induction idx0 as [|i idx0 IH]; intros r e0 H; cbn in H.
    - injection H as <-. rewrite !firstn_nil. auto.
    - destruct (nth_error l i) as [x|] eqn:Ex; [|discriminate]. destruct (sequence _) as [r'|] eqn:E; [|discriminate]. injection H as <-.
      destruct e0 as [|e0]; [auto|]. cbn. rewrite Ex. rewrite (IH r' e0 eq_refl). auto. }
  unfold take. destruct (gather (b_vals b) idx) as [vs|] eqn:E1; [|discriminate]. cbn [bind].
  destruct (gather (b_ev b) idx) as [es|] eqn:E2; [|discriminate]. cbn [bind]. intros X; injection X as <-.
  rewrite (G _ _ _ _ e E1), (G _ _ _ _ e E2). auto.
Qed.
Lemma best_of_head (b : batch V) n b' e : e <= n -> best_of sorter co qs b n = Ok b' -> best_of sorter co qs b e = Ok (head b' e).
Proof.
  intros He. unfold best_of. destruct (2 <=? num_objs b).
  - unfold take_best_multi. destruct (batch_pareto_ranks co b true) as [rc|]; [|discriminate]. cbn [bind]. intros H.
    apply (take_head _ _ _ e) in H. rewrite firstn_firstn in H. replace (Nat.min e n) with e in H by lia. auto.
  - unfold take_best. destruct (argsort sorter b None) as [idx|]; [|discriminate]. cbn [bind]. intros H.
    apply (take_head _ _ _ e) in H. rewrite firstn_firstn in H. replace (Nat.min e n) with e in H by lia. auto.
Qed.

Definition kind_op (f : nat -> batch V -> result (batch V)) : Prop := forall k b b', wf b -> f k b = Ok b' -> same_kind b b'.
Lemma cosyne_step_ok popsize elites cross mut permute (s s' : state V) :
  kind_op cross -> (forall m, mut = Some m -> kind_op m) -> kind_op permute ->
  (forall k b b', permute k b = Ok b' -> b_len b' = b_len b) ->
  wf (s_pop s) -> evaluates (eval_width (s_pop s)) ev -> b_len (s_pop s) = popsize ->
  cosyne_step sorter co qs ev popsize elites cross mut permute s = Ok s' ->
  same_kind (s_pop s) (s_pop s') /\ b_len (s_pop s') = popsize /\ s_first s' = false /\
  forall f, deterministic f ev -> (s_first s = true \/ evaluated f (s_pop s)) ->
    evaluated f (s_pop s') /\
    forall d e t, b_desc (s_pop s) = [d] -> nan_free f -> elites = Some e -> (1 <= e)%Z ->
      Nat.min (Z.to_nat e) (how_many d f t (b_vals (s_pop s))) <= how_many d f t (b_vals (s_pop s')).
Proof.
  intros HC HM HP HPl W HE Hlen. unfold cosyne_step.
  destruct (if s_first s then evaluate ev _ (s_pop s) else Ok (s_pop s)) as [pop|] eqn:E1; [|discriminate]. cbn [bind].
  assert (X1 : same_kind (s_pop s) pop /\ b_vals pop = b_vals (s_pop s)).
  { destruct (s_first s); [|injection E1 as <-; split; [apply same_kind_refl; auto|auto]]. destruct (evaluate_inv ev _ _ _ HE E1) as (K1 & V1 & _). auto. }
  destruct X1 as [K1 V1]. assert (L1 : b_len pop = popsize) by (unfold b_len in *; congruence).
  set (nr := Z.to_nat _). destruct (best_of sorter co qs pop nr) as [sr|] eqn:E2; [|discriminate]. cbn [bind].
  destruct (best_of_inv _ _ _ Hs Hco Hqs _ _ _ (proj1 K1) E2) as (_ & _ & _ & K2 & L2). pose proof (same_kind_trans _ _ _ K1 K2) as K12.
  destruct (cross _ _) as [ch|] eqn:E3; [|discriminate]. cbn [bind].
  pose proof (HC _ _ _ (proj1 (head_kind sr (popsize / 4) (proj1 K2))) E3) as K3.
  assert (KC : same_kind (s_pop s) ch) by (eapply same_kind_trans; [exact K12|]; eapply same_kind_trans; [apply head_kind; apply K2|exact K3]).
  destruct (match mut with Some m => m _ ch | None => Ok ch end) as [ch2|] eqn:E4; [|discriminate]. cbn [bind].
  assert (KC2 : same_kind (s_pop s) ch2).
  { destruct mut as [m|]; [|injection E4 as <-; auto]. eapply same_kind_trans; [exact KC|]. eapply HM; eauto. apply KC. }
  destruct (permute _ pop) as [pm|] eqn:E5; [|discriminate]. cbn [bind].
  assert (KP : same_kind (s_pop s) pm) by (eapply same_kind_trans; [exact K1|]; eapply HP; eauto; apply K1).
  assert (LP : b_len pm = popsize) by (rewrite (HPl _ _ _ E5); auto).
  set (el := match elites with Some e => _ | None => _ end).
  set (wh0 := match el with Some e => _ | None => _ end).
  assert (KE : forall b, el = Some b -> same_kind (s_pop s) b).
  { intros b H. unfold el in H. destruct elites as [e|]; [|discriminate]. destruct (1 <=? e)%Z; [|discriminate]. injection H as <-.
    eapply same_kind_trans; [exact K12|]. apply head_kind. apply K2. }
  assert (KW : same_kind (s_pop s) wh0).
  { unfold wh0. destruct el as [b|]; [apply cat_kind; [auto|]|]; apply cat_kind; auto. }
  destruct (evaluate ev _ wh0) as [wh|] eqn:E6; [|discriminate]. cbn [bind].
  assert (HEw : evaluates (eval_width wh0) ev) by (rewrite (kind_width _ _ KW); auto).
  destruct (evaluate_inv ev _ _ _ HEw E6) as (K6 & V6 & EV6 & _).
  pose proof (same_kind_trans _ _ _ KW K6) as KW6.
  destruct (best_of sorter co qs wh popsize) as [pop'|] eqn:E7; [|discriminate]. cbn [rmap]. intros X; injection X as <-. cbn [s_pop s_first].
  destruct (best_of_inv _ _ _ Hs Hco Hqs _ _ _ (proj1 KW6) E7) as (_ & _ & _ & K7 & L7).
  assert (LW : popsize <= b_len wh).
  { assert (BL : b_len wh = b_len wh0) by (unfold b_len; congruence). rewrite BL. unfold wh0. destruct el; rewrite ?cat_len; lia. }
  split; [exact (same_kind_trans _ _ _ KW6 K7)|]. split; [lia|]. split; [auto|].
  intros f HD HF. assert (EW : evaluated f wh) by (unfold evaluated; rewrite EV6, V6; apply HD).
  split; [exact (best_of_evaluated sorter co qs Hs Hco Hqs f _ _ _ (proj1 KW6) EW E7)|].
  intros d e t Hd HN -> He.
  assert (EP : evaluated f pop).
  { destruct (s_first s); [|injection E1 as <-; destruct HF as [?|?]; [discriminate|auto]].
    unfold evaluate in E1. destruct (b_vals (s_pop s)) eqn:Eq; [discriminate|]. injection E1 as <-. unfold evaluated; cbn [b_ev b_vals]. apply HD. }
  assert (Hle : Z.to_nat e <= nr) by (unfold nr; lia).
  pose proof (best_of_head pop nr sr (Z.to_nat e) Hle E2) as EH.
  assert (Dp : b_desc pop = [d]) by (destruct K1 as (_ & D & _); congruence).
  assert (Dw : b_desc wh = [d]) by (destruct KW6 as (_ & D & _); congruence).
  destruct (best_of_keeps sorter co qs ev Hs Hco Hqs d f pop _ _ (proj1 K1) Dp EP HN EH) as (_ & rest & P & HO).
  destruct (best_of_inv _ _ _ Hs Hco Hqs _ _ _ (proj1 K1) EH) as (_ & _ & _ & _ & LH).
  pose proof (keeps_count ev d f t (Z.to_nat e) _ rest _ HN P LH HO) as Q1.
  destruct (best_of_keeps sorter co qs ev Hs Hco Hqs d f wh _ _ (proj1 KW6) Dw EW HN E7) as (_ & rest' & P' & HO').
  pose proof (keeps_count ev d f t popsize _ rest' _ HN P' L7 HO') as Q2.
  assert (Q3 : how_many d f t (b_vals (head sr (Z.to_nat e))) <= how_many d f t (b_vals wh)).
  { rewrite V6. unfold wh0, el. destruct (1 <=? e)%Z eqn:Ee; [|lia]. cbn [cat b_vals]. rewrite how_many_app. lia. }
  pose proof (how_many_le ev d f t (b_vals (s_pop s))). rewrite V1 in Q1. unfold b_len in Hlen. lia.
Qed.
End Ga.

(* fewer than four solutions: nothing to cross over *)
Lemma crossover_empty {A} sorter co cx (b : batch (list A)) noise draw draw2 num_points r :
  uniform_ints draw -> b_vals b = [] -> b_ev b = [] -> crossover_do sorter co (multi_point num_points draw2) cx b noise draw = Ok r -> False.
Proof.
  intros HU Hv He. unfold crossover_do, do_tournament. unfold b_len. rewrite Hv. cbn [length].
  destruct (num_tournaments cx 0) as [n|]; [|discriminate]. cbn [bind].
  destruct (candidate_ranks _ _ _ _ _) as [rk|]; [|discriminate]. cbn [bind]. unfold randint. destruct (n <? 0)%Z; [discriminate|].
  cbn [Nat.eqb andb]. destruct (negb _) eqn:E; [discriminate|]. cbn [bind]. apply negb_false_iff, Nat.eqb_eq in E.
  destruct (Nat.eqb (cx_size cx) 0) eqn:EC; [discriminate|].
  assert (Z.to_nat n = 0) by (apply Nat.eq_mul_0 in E; destruct E; [auto|]; apply Nat.eqb_neq in EC; contradiction).
  rewrite H. assert (D : draw 0 (cx_size cx) 0 = []).
  { destruct (HU 0 (cx_size cx) 0) as [L _]; [right; auto|]. destruct (draw 0 (cx_size cx) 0); [auto|discriminate]. }
  rewrite D. cbn. discriminate.
Qed.

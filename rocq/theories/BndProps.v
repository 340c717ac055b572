(* C210: A genetic search never evaluates a solution outside the bounds of the problem. *)
From Coq Require Import QArith Reals Lra Permutation.
From Verif Require Import Prelude FloatLib SortLib BatchModel BatchSpec ParetoModel RankModel RankProofs OperModel OperSpec OperProofs OperProofs2 OperProofs3 OperProofs4 OperProps GaModel GaSpec GaProofs MapModel BndModel.
Close Scope Q_scope.
Close Scope R_scope.
Open Scope nat_scope.

(* ------------------------------------------------------------------------------------ specification *)
(* an operator which, given legal solutions only, produces legal solutions only *)
Definition keeps {V} (L : V -> Prop) (op : operator V) : Prop :=
  match op with
  | Copying _ f | InPlace f => forall k b b', Forall L (b_vals b) -> f k b = Ok b' -> Forall L (b_vals b')
  | Func g => forall k vs vs', Forall L vs -> g k vs = Ok vs' -> Forall L vs'
  end.
(* two fitness functions which may differ on illegal solutions, and on nothing else *)
Definition same_on {V} (L : V -> Prop) (ev ev' : nat -> list V -> list (list fl)) : Prop :=
  forall k vs, Forall L vs -> ev k vs = ev' k vs.
(* a solution of l numbers, each within the bounds of its variable *)
Definition legal_row (lb ub : option (list R)) (l : nat) (r : row) : Prop :=
  length r = l /\ forall j x, nth_error r j = Some x -> exists y, x = Some y /\ inside (bound_at lb j) (bound_at ub j) y.
(* a generator of n rows of l draws *)
Definition makes {A} (P : A -> Prop) (l : nat) (draws : nat -> nat -> list (list A)) : Prop :=
  forall k n, shaped n l (draws k n) /\ all_genes P (draws k n).

(* -------------------------------------------------------------------------------------------- runs *)
Section Runs.
Context {V : Type}.
Variables (so : bool -> list fl -> list nat) (co : list (list fl) -> list nat) (qs : list Q -> list nat).
Variable L : V -> Prop.
Implicit Types b : batch V.
Lemma take_keeps b idx b' : Forall L (b_vals b) -> take b idx = Ok b' -> Forall L (b_vals b').
Proof.
  intros F. unfold take. destruct (gather (b_vals b) idx) as [vs|] eqn:E; [|discriminate]. cbn [bind]. destruct (gather (b_ev b) idx) as [es|]; [|discriminate].
  intros X; injection X as <-. cbn. apply Forall_forall. intros x Hx. apply (proj1 (Forall_forall _ _) F). eapply gather_In; eauto.
Qed.
Lemma best_keeps b n b' : Forall L (b_vals b) -> best_of so co qs b n = Ok b' -> Forall L (b_vals b').
Proof.
  intros F. unfold best_of, take_best_multi, take_best. destruct (2 <=? num_objs b).
  - destruct (batch_pareto_ranks co b true); [|discriminate]. cbn [bind]. apply take_keeps; auto.
  - destruct (argsort so b None); [|discriminate]. cbn [bind]. apply take_keeps; auto.
Qed.
Lemma evaluate_keeps ev k b b' : evaluate ev k b = Ok b' -> b_vals b' = b_vals b.
Proof. unfold evaluate. destruct (b_vals b); [discriminate|]. intros X; injection X as <-; auto. Qed.
Lemma evaluate_same ev ev' k b : same_on L ev ev' -> Forall L (b_vals b) -> evaluate ev k b = evaluate ev' k b.
Proof. intros H F. unfold evaluate. destruct (b_vals b) eqn:E; auto. rewrite H; auto. Qed.
Lemma use_keeps k b op b' : keeps L op -> Forall L (b_vals b) -> use_operator k b op = Ok b' -> Forall L (b_vals b').
Proof.
  destruct op as [c f|f|g]; cbn; intros K F H; [eapply K; eauto|eapply K; eauto|].
  destruct (g k (b_vals b)) as [vs|] eqn:E; [|discriminate]. injection H as <-. cbn. eapply K; eauto.
Qed.
Lemma ops_keep ops : Forall (keeps L) ops -> forall k b b', Forall L (b_vals b) -> use_operators k b ops = Ok b' -> Forall L (b_vals b').
Proof.
  induction 1 as [|op ops K _ IH]; cbn; intros k b b' F H; [injection H as <-; auto|].
  destruct (use_operator k b op) as [b1|] eqn:E; [|discriminate]. cbn in H. eapply IH; [|exact H]. eapply use_keeps; eauto.
Qed.
Lemma cat_keeps a b : Forall L (b_vals a) -> Forall L (b_vals b) -> Forall L (b_vals (cat a b)).
Proof. intros. cbn. apply Forall_app; auto. Qed.
Lemma head_keeps b n : Forall L (b_vals b) -> Forall L (b_vals (head b n)).
Proof. intros F. cbn. rewrite <- (firstn_skipn n (b_vals b)) in F. apply Forall_app in F. tauto. Qed.
Lemma tail_keeps b n : Forall L (b_vals b) -> Forall L (b_vals (tail b n)).
Proof. intros F. cbn. rewrite <- (firstn_skipn n (b_vals b)) in F. apply Forall_app in F. tauto. Qed.

Variables ev ev' : nat -> list V -> list (list fl).
Hypothesis Same : same_on L ev ev'.
Lemma extended_keeps cf ops s : Forall (keeps L) ops -> Forall L (b_vals (s_pop s)) ->
  extended ev cf ops s = extended ev' cf ops s /\
  forall s' p c, extended ev cf ops s = Ok (s', p, c) -> Forall L (b_vals (s_pop s')) /\ Forall L (b_vals p) /\ Forall L (b_vals c).
Proof.
  intros K F. unfold extended. destruct (g_reeval cf) eqn:ER; [destruct (g_first cf) eqn:EF|].
  - rewrite <- (evaluate_same ev ev' _ _ Same F). destruct (evaluate ev _ (s_pop s)) as [pop|] eqn:E; [|split; [auto|discriminate]]. cbn [bind].
    assert (Fp : Forall L (b_vals pop)) by (rewrite (evaluate_keeps _ _ _ _ E); auto).
    destruct (use_operators _ pop ops) as [ch|] eqn:Eo; [|split; [auto|discriminate]]. cbn [bind].
    assert (Fc : Forall L (b_vals ch)) by (eapply ops_keep; [exact K| |exact Eo]; auto). rewrite <- (evaluate_same ev ev' _ _ Same Fc).
    destruct (evaluate ev _ ch) as [ch'|] eqn:Ec; [|split; [auto|discriminate]]. split; [auto|]. cbn [bind]. intros s' p c X; injection X as <- <- <-.
    cbn. rewrite (evaluate_keeps _ _ _ _ Ec). auto.
  - destruct (use_operators _ (s_pop s) ops) as [ch|] eqn:Eo; [|split; [auto|discriminate]]. cbn [bind].
    assert (Fc : Forall L (b_vals (cat (s_pop s) ch))) by (apply cat_keeps; auto; eapply ops_keep; [exact K| |exact Eo]; auto). rewrite <- (evaluate_same ev ev' _ _ Same Fc).
    destruct (evaluate ev _ (cat _ ch)) as [w|] eqn:Ec; [|split; [auto|discriminate]]. split; [auto|]. cbn [bind]. intros s' p c X; injection X as <- <- <-.
    rewrite <- (evaluate_keeps _ _ _ _ Ec) in Fc. split; [exact F|]. split; [apply head_keeps|apply tail_keeps]; auto.
  - assert (E0 : (if s_first s then evaluate ev (s_clock s) (s_pop s) else Ok (s_pop s)) = (if s_first s then evaluate ev' (s_clock s) (s_pop s) else Ok (s_pop s)))
      by (rewrite (evaluate_same ev ev' _ _ Same F); auto).
    rewrite <- E0. destruct (if s_first s then evaluate ev _ (s_pop s) else _) as [pop|] eqn:E; [|split; [auto|discriminate]]. cbn [bind].
    assert (Fp : Forall L (b_vals pop)). { destruct (s_first s); [rewrite (evaluate_keeps _ _ _ _ E); auto|injection E as <-; auto]. }
    destruct (use_operators _ pop ops) as [ch|] eqn:Eo; [|split; [auto|discriminate]]. cbn [bind].
    assert (Fc : Forall L (b_vals ch)) by (eapply ops_keep; [exact K| |exact Eo]; auto). rewrite <- (evaluate_same ev ev' _ _ Same Fc).
    destruct (evaluate ev _ ch) as [ch'|] eqn:Ec; [|split; [auto|discriminate]]. split; [auto|]. cbn [bind]. intros s' p c X; injection X as <- <- <-.
    cbn. rewrite (evaluate_keeps _ _ _ _ Ec). auto.
Qed.
Lemma step_keeps cf ops s : Forall (keeps L) ops -> Forall L (b_vals (s_pop s)) ->
  ga_step so co qs ev cf ops s = ga_step so co qs ev' cf ops s /\
  forall s', ga_step so co qs ev cf ops s = Ok s' -> Forall L (b_vals (s_pop s')).
Proof.
  intros K F. unfold ga_step. destruct (extended_keeps cf ops s K F) as [E X]. rewrite <- E. split; [auto|]. intros s'.
  destruct (extended ev cf ops s) as [[[s1 p] c]|] eqn:Ee; [|discriminate]. cbn [bind]. destruct (X s1 p c eq_refl) as (F1 & F2 & F3).
  set (r := if g_elitist cf then _ else _). destruct r as [b|] eqn:Er; [|discriminate]. cbn. intros Y; injection Y as <-. cbn. unfold r in Er. clear r.
  destruct (g_elitist cf); [eapply best_keeps; [|exact Er]; apply cat_keeps; auto|].
  destruct (b_len c <? g_popsize cf).
  - destruct (best_of so co qs (s_pop s1) _) as [ch|] eqn:Eb; [|discriminate Er]. cbn [bind] in Er. injection Er as <-. apply cat_keeps; [eapply best_keeps; [|exact Eb]; auto|auto].
  - destruct (Nat.eqb (b_len c) (g_popsize cf)); [injection Er as <-; auto|eapply best_keeps; [|exact Er]; auto].
Qed.
Lemma run_keeps cf ops s n : Forall (keeps L) ops -> Forall L (b_vals (s_pop s)) ->
  ga_run so co qs ev cf ops n s = ga_run so co qs ev' cf ops n s /\
  forall s', ga_run so co qs ev cf ops n s = Ok s' -> Forall L (b_vals (s_pop s')).
Proof.
  intros K F. induction n as [|n [IH1 IH2]]; cbn [ga_run]; [split; [auto|intros s' X; injection X as <-; auto]|].
  rewrite <- IH1. destruct (ga_run so co qs ev cf ops n s) as [s1|] eqn:E; [|split; [auto|discriminate]]. cbn [bind]. apply step_keeps; auto.
Qed.
Lemma cosyne_step_keeps popsize elites cross mut perm s :
  keeps L (Copying true cross) -> (forall m, mut = Some m -> keeps L (Copying false m)) -> keeps L (Copying false perm) -> Forall L (b_vals (s_pop s)) ->
  cosyne_step so co qs ev popsize elites cross mut perm s = cosyne_step so co qs ev' popsize elites cross mut perm s /\
  forall s', cosyne_step so co qs ev popsize elites cross mut perm s = Ok s' -> Forall L (b_vals (s_pop s')).
Proof.
  intros K1 K2 K3 F. unfold cosyne_step.
  assert (E0 : (if s_first s then evaluate ev (s_clock s) (s_pop s) else Ok (s_pop s)) = (if s_first s then evaluate ev' (s_clock s) (s_pop s) else Ok (s_pop s)))
    by (rewrite (evaluate_same ev ev' _ _ Same F); auto).
  rewrite <- E0. destruct (if s_first s then evaluate ev _ (s_pop s) else _) as [pop|] eqn:E; [|split; [auto|discriminate]]. cbn [bind].
  assert (Fp : Forall L (b_vals pop)). { destruct (s_first s); [rewrite (evaluate_keeps _ _ _ _ E); auto|injection E as <-; auto]. }
  destruct (best_of so co qs pop _) as [sr|] eqn:Eb; [|split; [auto|discriminate]]. cbn [bind].
  assert (Fs : Forall L (b_vals sr)) by (eapply best_keeps; [|exact Eb]; auto).
  destruct (cross _ _) as [ch|] eqn:Ec; [|split; [auto|discriminate]]. cbn [bind].
  assert (Fc : Forall L (b_vals ch)) by (eapply K1; [|exact Ec]; apply head_keeps; auto).
  destruct (match mut with Some m => _ | None => _ end) as [ch2|] eqn:Em; [|split; [auto|discriminate]]. cbn [bind].
  assert (Fm : Forall L (b_vals ch2)). { destruct mut as [m|]; [eapply (K2 m eq_refl); [|exact Em]; auto|injection Em as <-; auto]. }
  destruct (perm _ pop) as [pe|] eqn:Ep; [|split; [auto|discriminate]]. cbn [bind].
  assert (Fe : Forall L (b_vals pe)) by (eapply K3; [|exact Ep]; auto).
  set (el := match elites with Some e => _ | None => _ end). set (all := match el with Some e => _ | None => _ end).
  assert (Fa : Forall L (b_vals all)).
  { unfold all, el. destruct elites as [e|]; [destruct (1 <=? e)%Z|]; repeat apply cat_keeps; auto. apply head_keeps; auto. }
  rewrite <- (evaluate_same ev ev' _ _ Same Fa). split; [auto|].
  destruct (evaluate ev _ all) as [w|] eqn:Ew; [|discriminate]. cbn [bind]. intros s'. destruct (best_of so co qs w popsize) as [b|] eqn:E2; [|discriminate].
  cbn. intros X; injection X as <-. cbn. eapply best_keeps; [|exact E2]. rewrite (evaluate_keeps _ _ _ _ Ew); auto.
Qed.
Lemma cosyne_keeps popsize elites cross mut perm s n :
  keeps L (Copying true cross) -> (forall m, mut = Some m -> keeps L (Copying false m)) -> keeps L (Copying false perm) -> Forall L (b_vals (s_pop s)) ->
  cosyne_run so co qs ev popsize elites cross mut perm n s = cosyne_run so co qs ev' popsize elites cross mut perm n s /\
  forall s', cosyne_run so co qs ev popsize elites cross mut perm n s = Ok s' -> Forall L (b_vals (s_pop s')).
Proof.
  intros K1 K2 K3 F. induction n as [|n [IH1 IH2]]; cbn [cosyne_run]; [split; [auto|intros s' X; injection X as <-; auto]|].
  rewrite <- IH1. destruct (cosyne_run so co qs ev popsize elites cross mut perm n s) as [s1|] eqn:E; [|split; [auto|discriminate]]. cbn [bind]. apply cosyne_step_keeps; auto.
Qed.
Lemma sequence_inv {A} (l : list (result A)) r : sequence l = Ok r -> forall x, In x r -> In (Ok x) l.
Proof.
  revert r. induction l as [|a l IH]; cbn; intros r H x Hx; [injection H as <-; destruct Hx|].
  destruct a as [y|]; [|discriminate]. destruct (sequence l) as [r'|] eqn:E; [|discriminate]. cbn in H. injection H as <-.
  destruct Hx as [<-|Hx]; auto. right. eapply IH; eauto.
Qed.
Variable pick : bool -> list fl -> nat.
Lemma cell_keeps d vs es c v e f : Forall L vs -> best_for_cell pick d vs es c = Ok (v, e, f) -> L v.
Proof.
  intros F. unfold best_for_cell. destruct (sequence _) as [su|]; [|discriminate]. cbn [bind]. set (pr := map2 _ su es). destruct pr as [|p0 pr']; [discriminate|].
  destruct (nth_error vs _) as [v'|] eqn:Ev; [|discriminate]. destruct (nth_error es _); [|discriminate]. destruct (nth_error su _); [|discriminate].
  intros X; injection X as <- _ _. apply (proj1 (Forall_forall _ _) F). eapply nth_error_In; eauto.
Qed.
Lemma map_step_keeps cf ops grid s : Forall (keeps L) ops -> Forall L (b_vals (s_pop (m_st s))) ->
  map_step pick ev cf ops grid s = map_step pick ev' cf ops grid s /\
  forall s' p, map_step pick ev cf ops grid s = Ok (s', p) -> Forall L (b_vals (s_pop (m_st s'))) /\ Forall L (b_vals p).
Proof.
  intros K F. unfold map_step. destruct (extended_keeps cf ops (m_st s) K F) as [E X]. rewrite <- E. split; [auto|]. intros s' p.
  destruct (extended ev cf ops (m_st s)) as [[[s1 pa] c]|] eqn:Ee; [|discriminate]. cbn [bind]. destruct (X s1 pa c eq_refl) as (F1 & F2 & F3).
  assert (FP : Forall L (b_vals (cat pa c))) by (apply cat_keeps; auto).
  destruct (b_desc (cat pa c)) as [|d ds] eqn:ED; [discriminate|]. destruct (sequence _) as [be|] eqn:Es; [|discriminate]. cbn [bind]. intros Y; injection Y as <- <-.
  split; [|exact FP]. cbn [m_st s_pop b_vals]. apply Forall_map. apply Forall_forall. intros [[v e] f] Hx. cbn. apply (sequence_inv _ _ Es) in Hx. apply in_map_iff in Hx.
  destruct Hx as (ce & Hce & _). eapply cell_keeps; [exact FP|exact Hce].
Qed.
Lemma map_keeps cf ops grid s n : Forall (keeps L) ops -> Forall L (b_vals (s_pop (m_st s))) ->
  map_run pick ev cf ops grid n s = map_run pick ev' cf ops grid n s /\
  forall s' seen, map_run pick ev cf ops grid n s = Ok (s', seen) -> Forall L (b_vals (s_pop (m_st s'))) /\ Forall L seen.
Proof.
  intros K F. induction n as [|n [IH1 IH2]]; cbn [map_run]; [split; [auto|intros s' seen X; injection X as <- <-; auto]|].
  rewrite <- IH1. destruct (map_run pick ev cf ops grid n s) as [[s1 se]|] eqn:E; [|split; [auto|discriminate]]. cbn [bind fst snd].
  destruct (IH2 s1 se eq_refl) as [G1 G2]. destruct (map_step_keeps cf ops grid s1 K G1) as [S1 S2]. rewrite <- S1. split; [auto|].
  destruct (map_step pick ev cf ops grid s1) as [[s2 p]|] eqn:E2; [|discriminate]. cbn. intros s' seen X; injection X as <- <-.
  destruct (S2 s2 p eq_refl). split; auto. apply Forall_app; auto.
Qed.
End Runs.

(* --------------------------------------------------------------------------------- the operators *)
Section Standard.
Variables (so : bool -> list fl -> list nat) (co : list (list fl) -> list nat).
Variables (lb ub : option (list R)) (l : nat).
Local Notation fine := (legal_row lb ub l).
Lemma fine_of_genes n (m : list row) : shaped n l m ->
  (forall k j, k < n -> j < l -> exists y, gene m k j = Some (Some y) /\ inside (bound_at lb j) (bound_at ub j) y) -> Forall fine m.
Proof.
  intros [Ln F] H. apply Forall_forall. intros r Hr. split; [apply (proj1 (Forall_forall _ _) F); auto|]. intros j x Ex.
  destruct (In_nth_error _ _ Hr) as [k Hk]. assert (k < n) by (rewrite <- Ln; apply nth_error_Some; congruence).
  assert (j < l). { rewrite <- (proj1 (Forall_forall _ _) F r Hr). apply nth_error_Some; congruence. }
  destruct (H k j) as (y & Hy & I); auto. unfold gene in Hy. rewrite Hk in Hy. exists y. split; auto. congruence.
Qed.
Lemma fine_numbers (m : list row) : Forall fine m -> shaped (length m) l (map numbers m) /\
  forall k j, k < length m -> j < l -> exists x, gene (map numbers m) k j = Some x /\ inside (bound_at lb j) (bound_at ub j) x.
Proof.
  intros F. split.
  - split; [apply map_length|]. apply Forall_map. eapply Forall_impl; [|exact F]. intros r [Lr _]. unfold numbers. rewrite map_length; auto.
  - intros k j Hk Hj. destruct (nth_error m k) as [r|] eqn:E; [|apply nth_error_None in E; lia].
    destruct (proj1 (Forall_forall _ _) F r (nth_error_In _ _ E)) as [Lr G]. destruct (nth_error r j) as [x|] eqn:Ex; [|apply nth_error_None in Ex; lia].
    destruct (G j x Ex) as (y & -> & I). exists y. split; auto. unfold gene. rewrite nth_error_map, E. cbn. unfold numbers. rewrite nth_error_map, Ex. auto.
Qed.
Lemma gene_some {A} n (m : list (list A)) k j : shaped n l m -> k < n -> j < l -> exists x, gene m k j = Some x.
Proof.
  intros [Ln F] Hk Hj. unfold gene. destruct (nth_error m k) as [r|] eqn:E; [|apply nth_error_None in E; lia].
  apply nth_error_In in E. apply (proj1 (Forall_forall _ _) F) in E. destruct (nth_error r j) as [x|] eqn:Ex; [eauto|apply nth_error_None in Ex; lia].
Qed.
Lemma map3_shape {A B C D} (f : list A -> B -> C -> list D) a b c n : (forall x y z, length (f x y z) = length x) -> shaped n l a -> length b = n -> length c = n ->
  shaped n l (map3 f a b c).
Proof.
  intros H [La F] Lb Lc. split; [rewrite map3_length; lia|]. apply Forall_forall. intros r Hr. apply In_nth_error in Hr. destruct Hr as [k Hk].
  rewrite map3_nth in Hk. destruct (nth_error a k) as [x|] eqn:E; [|discriminate]. destruct (nth_error b k); [|discriminate]. destruct (nth_error c k); [|discriminate].
  injection Hk as <-. rewrite H. apply (proj1 (Forall_forall _ _) F). eapply nth_error_In; eauto.
Qed.
Lemma gaussian_keeps stdev prob us gs : consistent_bounds lb ub -> makes unit_draw l us -> makes (fun _ => True) l gs ->
  keeps fine (gaussian_op lb ub stdev prob us gs).
Proof.
  intros HC HU HG k b b' F X. injection X as <-. cbn [fresh b_vals].
  destruct (fine_numbers _ F) as [SR GR]. destruct (HU k (b_len b)) as [SU AU]. destruct (HG k (b_len b)) as [SG _]. unfold b_len in *.
  apply fine_of_genes with (n := length (b_vals b)).
  - apply map3_shape; [intros; rewrite map_length, seq_length; auto|exact SR|apply SU|apply SG].
  - intros i j Hi Hj. destruct (GR i j Hi Hj) as (x & Ex & _). destruct (gene_some _ _ _ _ SU Hi Hj) as [u Eu]. destruct (gene_some _ _ _ _ SG Hi Hj) as [g Eg].
    destruct (C89_gaussian_mutation lb ub stdev prob _ _ _ _ _ i j x u g SR SU SG HC Ex Eu Eg (gene_all _ _ _ _ _ AU Eu)) as (y & Ey & I & _). eauto.
Qed.
Lemma poly_keeps prob eta us rs : (forall j, j < l -> exists a b, bound_at lb j = Some a /\ bound_at ub j = Some b /\ (a < b)%R) ->
  match eta with Some e => (-1 < e)%R | None => True end -> makes unit_draw l us -> makes unit_draw l rs ->
  keeps fine (poly_op lb ub prob eta us rs).
Proof.
  intros HB HE HU HR k b b' F X. destruct (poly_init lb ub) as [[lo hi]|] eqn:EI; [|discriminate]. cbn [bind fst snd] in X. injection X as <-. cbn [fresh b_vals].
  assert (EB : lb = Some lo /\ ub = Some hi). { unfold poly_init in EI. destruct lb, ub; try discriminate. destruct (existsb _ _); [discriminate|]. injection EI as -> ->. auto. }
  destruct EB as [El Eu]. destruct (fine_numbers _ F) as [SR GR]. destruct (HU k (b_len b)) as [SU AU]. destruct (HR k (b_len b)) as [SG AG]. unfold b_len in *.
  apply fine_of_genes with (n := length (b_vals b)).
  - apply map3_shape; [intros; rewrite map_length, seq_length; auto|exact SR|apply SU|apply SG].
  - intros i j Hi Hj. destruct (GR i j Hi Hj) as (x & Ex & Ix). destruct (gene_some _ _ _ _ SU Hi Hj) as [u Euu]. destruct (gene_some _ _ _ _ SG Hi Hj) as [g Eg].
    destruct (HB j Hj) as (a & c & Ea & Ec & Hac). destruct Ix as [I1 I2]. specialize (I1 _ Ea). specialize (I2 _ Ec).
    assert (Na : nth j lo 0%R = a) by (rewrite El in Ea; cbn in Ea; apply nth_error_nth; auto).
    assert (Nc : nth j hi 0%R = c) by (rewrite Eu in Ec; cbn in Ec; apply nth_error_nth; auto).
    destruct (C88_inside_partial prob eta lo hi _ _ _ _ _ i j x u g HE SR SU SG AG Ex Euu Eg) as (y & Ey & Iy & _); rewrite ?Na, ?Nc; auto.
    rewrite Na, Nc in Iy. exists y. split; auto. split; intros z Ez; [rewrite Ea in Ez|rewrite Ec in Ez]; injection Ez as <-; lra.
Qed.
Lemma crossover_keeps cross cx noise draw (b b' : batch row) :
  (forall p1 p2 ch, Forall fine p1 -> Forall fine p2 -> length p1 = length p2 -> cross p1 p2 = Ok ch -> Forall fine ch) ->
  Forall fine (b_vals b) -> crossover_do so co cross cx b noise draw = Ok b' -> Forall fine (b_vals b').
Proof.
  intros H F. unfold crossover_do. destruct (do_tournament so co cx b noise draw) as [[p1 p2]|] eqn:E; [|discriminate]. cbn [bind fst snd].
  destruct (Nat.eqb_spec (length p1) (length p2)) as [Le|]; [|discriminate]. cbn [negb]. destruct (cross p1 p2) as [ch|] eqn:Ec; [|discriminate]. cbn. intros X; injection X as <-. cbn.
  assert (G : Forall fine p1 /\ Forall fine p2); [|exact (H p1 p2 ch (proj1 G) (proj2 G) Le Ec)].
  unfold do_tournament in E. destruct (num_tournaments cx (b_len b)); [|discriminate]. cbn [bind] in E. destruct (candidate_ranks so co cx b noise); [|discriminate]. cbn [bind] in E.
  destruct (randint _ _ _ _) as [ti|]; [|discriminate]. cbn [bind] in E. destruct (Nat.eqb (cx_size cx) 0); [discriminate|]. destruct (sequence _) as [ps|]; [|discriminate]. cbn [bind] in E.
  destruct (gather (b_vals b) ps) as [vs|] eqn:Eg; [|discriminate]. cbn [bind] in E. injection E as <- <-.
  assert (Fv : Forall fine vs). { apply Forall_forall. intros x Hx. apply (proj1 (Forall_forall _ _) F). eapply gather_In; eauto. }
  apply Forall_app. rewrite firstn_skipn. auto.
Qed.
Lemma sbx_keeps eta cx noise draw us : consistent_bounds lb ub -> (-1 < eta)%R -> makes unit_draw l us ->
  keeps fine (sbx_op so co lb ub eta cx noise draw us).
Proof.
  intros HC HE HU k b b' F X. eapply crossover_keeps; [|exact F|exact X]. clear F X. intros p1 p2 ch F1 F2 Le E. injection E as <-.
  destruct (fine_numbers _ F1) as [S1 G1]. destruct (fine_numbers _ F2) as [S2 G2]. rewrite <- Le in S2, G2. destruct (HU k (length p1)) as [SU AU]. set (n := length p1) in *.
  destruct (sbx_raw_ok eta _ _ _ _ _ HE S1 S2 SU AU) as [LR GR]. destruct (C35_bounds lb ub eta _ _ _ _ _ HE S1 S2 SU AU HC) as [LS GS].
  assert (SR : forall a c, shaped n l a -> shaped n l c -> shaped n l (map3 (fun a b u => map3 (fun x y w => sbx_child (sbx_beta eta w) x y) a b u) a c (us k n))).
  { intros a c [La Fa] [Lc Fc]. destruct SU as [Lu Fu]. split; [rewrite map3_length; lia|]. apply Forall_forall. intros r Hr. apply In_nth_error in Hr. destruct Hr as [i Hi].
    rewrite map3_nth in Hi. destruct (nth_error a i) as [x|] eqn:Ea; [|discriminate]. destruct (nth_error c i) as [y|] eqn:Ec; [|discriminate].
    destruct (nth_error (us k n) i) as [z|] eqn:Ez; [|discriminate]. injection Hi as <-. rewrite map3_length. apply nth_error_In in Ea, Ec, Ez.
    apply (proj1 (Forall_forall _ _) Fa) in Ea. apply (proj1 (Forall_forall _ _) Fc) in Ec. apply (proj1 (Forall_forall _ _) Fu) in Ez. lia. }
  apply fine_of_genes with (n := n + n).
  - split; [exact LS|]. unfold sbx. apply Forall_map. apply Forall_forall. intros r Hr. unfold respect_row. rewrite map_length, seq_length. unfold sbx_raw in Hr.
    apply in_app_or in Hr. destruct Hr as [Hr|Hr]; [apply (proj1 (Forall_forall _ _) (proj2 (SR _ _ S1 S2)) r Hr)|apply (proj1 (Forall_forall _ _) (proj2 (SR _ _ S2 S1)) r Hr)].
  - intros i j Hi Hj. assert (C : exists c, gene (sbx_raw eta (map numbers p1) (map numbers p2) (us k n)) i j = Some (Some c)).
    { destruct (Nat.lt_ge_cases i n) as [Hl|Hg].
      - destruct (G1 i j Hl Hj) as (x & Ex & _). destruct (G2 i j Hl Hj) as (y & Ey & _). destruct (gene_some _ _ _ _ SU Hl Hj) as [u Eu].
        destruct (GR i j x y u Hl Ex Ey Eu) as (c1 & c2 & E1 & _). eauto.
      - assert (Hl : i - n < n) by lia. destruct (G1 _ j Hl Hj) as (x & Ex & _). destruct (G2 _ j Hl Hj) as (y & Ey & _). destruct (gene_some _ _ _ _ SU Hl Hj) as [u Eu].
        destruct (GR _ j x y u Hl Ex Ey Eu) as (c1 & c2 & _ & E2 & _). replace (n + (i - n)) with i in E2 by lia. eauto. }
    destruct C as [c Ec]. destruct (GS i j c Ec) as (y & Ey & I & _). eauto.
Qed.
Lemma where_fine m a b : length m = l -> fine a -> fine b -> fine (where_ m a b).
Proof.
  intros Lm [La Ga] [Lb Gb]. unfold where_. split; [rewrite map3_length; lia|]. intros j x. rewrite map3_nth.
  destruct (nth_error m j) as [c|]; [|discriminate]. destruct (nth_error a j) as [y|] eqn:Ea; [|discriminate]. destruct (nth_error b j) as [z|] eqn:Eb; [|discriminate].
  intros X; injection X as <-. destruct c; auto.
Qed.
Lemma wheres_fine pts a b : Forall fine a -> Forall fine b -> Forall fine (map3 where_ (map (cross_mask l) pts) a b).
Proof.
  intros Fa Fb. apply Forall_forall. intros r Hr. apply In_nth_error in Hr. destruct Hr as [i Hi]. rewrite map3_nth, nth_error_map in Hi.
  destruct (nth_error pts i) as [p|]; [|discriminate]. cbn in Hi. destruct (nth_error a i) as [x|] eqn:Ea; [|discriminate]. destruct (nth_error b i) as [y|] eqn:Eb; [|discriminate].
  injection Hi as <-. apply nth_error_In in Ea, Eb. apply where_fine; [apply mask_length|apply (proj1 (Forall_forall _ _) Fa); auto|apply (proj1 (Forall_forall _ _) Fb); auto].
Qed.
Lemma multi_point_keeps np cx noise draw cuts : keeps fine (multi_point_op so co np cx noise draw cuts).
Proof.
  intros k b b' F X. eapply crossover_keeps; [|exact F|exact X]. clear F X. intros p1 p2 ch F1 F2 _ E. unfold multi_point in E. destruct p1 as [|p0 p1']; [discriminate|].
  assert (L0 : length p0 = l) by (inversion F1 as [|? ? [? _]]; auto). set (p1 := p0 :: p1') in *. clearbody p1. rewrite L0 in E.
  destruct (if Nat.eqb np 1 then _ else _) as [pts|]; [|discriminate]. cbn [bind] in E. injection E as <-. apply Forall_app. split; apply wheres_fine; auto.
Qed.
Lemma upd_all {A} (P : A -> Prop) (m : list A) i x : Forall P m -> P x -> Forall P (upd m i x).
Proof. intros F Hx. revert i. induction F; intros [|i]; cbn; auto. Qed.
Lemma column_keeps (P : option R -> Prop) qs c m keys : qargsort_ok qs -> length m <= length c -> Forall P c -> Forall P (permute_column None qs c m keys).
Proof.
  intros HQ Le F. unfold permute_column. set (o := select _ (isort _ _)).
  set (t := select (sort_mask m) (qs _)). assert (Ft : Forall (fun i => i < length c) t).
  { apply Forall_forall. intros i Hi. unfold t, select in Hi. apply in_map_iff in Hi. destruct Hi as ([x y] & <- & Hf). apply filter_In in Hf. destruct Hf as [Hf _].
    apply in_combine_r in Hf. apply (Permutation_in _ (proj1 (HQ _))) in Hf. apply in_seq in Hf. rewrite map2_length in Hf. cbn. lia. }
  clearbody t o. assert (Fp : Forall (fun p => P (snd p)) (combine o (map (fun i => nth i c None) t))).
  { apply Forall_forall. intros [i x] Hp. apply in_combine_r in Hp. apply in_map_iff in Hp. destruct Hp as (j & <- & Hj). cbn.
    apply (proj1 (Forall_forall _ _) F). apply nth_In. apply (proj1 (Forall_forall _ _) Ft); auto. }
  revert Fp. generalize (combine o (map (fun i => nth i c None) t)). intros ps. clear -F. revert c F. induction ps as [|p ps IH]; cbn; intros c F Fp; auto.
  inversion Fp; subst. apply IH; auto. apply upd_all; auto.
Qed.
Lemma upds_length {A} (ps : list (nat * A)) : forall c, length (fold_left (fun m p => upd m (fst p) (snd p)) ps c) = length c.
Proof. induction ps as [|p ps IH]; cbn; intros; auto. rewrite IH. apply upd_length. Qed.
Lemma permute_keeps qs all obj us keys : qargsort_ok qs -> makes (fun _ => True) l us ->
  keeps fine (permute_op so qs all obj l us keys).
Proof.
  intros HQ HU k b b' F X. destruct (if all then _ else _) as [ranks|]; [|discriminate]. cbn [bind] in X. injection X as <-. cbn [fresh b_vals].
  set (mask := perm_mask all l ranks (us k (b_len b))). assert (Lm : length mask <= length (b_vals b)).
  { unfold mask, perm_mask. rewrite map2_length. destruct (HU k (b_len b)) as [[-> _] _]. unfold b_len. lia. }
  clearbody mask. apply fine_of_genes with (n := length (b_vals b)).
  - apply permute_rows_shape.
  - intros i j Hi Hj. rewrite permute_rows_gene by auto. set (c := permute_column None qs _ _ _).
    assert (FC : Forall (fun x => exists y, x = Some y /\ inside (bound_at lb j) (bound_at ub j) y) c).
    { apply column_keeps; auto; [unfold col_at; rewrite !map_length; auto|]. unfold col_at. apply Forall_map. eapply Forall_impl; [|exact F]. intros r [Lr G].
      apply (G j). rewrite nth_error_nth' with (d := None) by lia. auto. }
    assert (LC : length c = length (b_vals b)). { unfold c, permute_column. rewrite upds_length. unfold col_at. apply map_length. }
    destruct (proj1 (Forall_forall _ _) FC (nth i c None)) as (y & E & I); [apply nth_In; lia|]. exists y. rewrite E. auto.
Qed.
End Standard.

(* ------------------------------------------------------------------------------------- theorems *)
(* Changing the fitness function outside the legal solutions changes nothing: it is never asked about them. *)
Theorem C210_run : forall (V : Type) so co qs (L : V -> Prop) ev ev' cf ops n (s : state V),
  Forall (keeps L) ops -> same_on L ev ev' -> Forall L (b_vals (s_pop s)) ->
  ga_run so co qs ev cf ops n s = ga_run so co qs ev' cf ops n s /\
  forall s', ga_run so co qs ev cf ops n s = Ok s' -> Forall L (b_vals (s_pop s')).
Proof. intros V so co qs L ev ev' cf ops n s K Sm F. apply run_keeps; auto. Qed.
Theorem C210_cosyne : forall (V : Type) so co qs (L : V -> Prop) ev ev' popsize elites cross mutate permute n (s : state V),
  keeps L (Copying true cross) -> (forall m, mutate = Some m -> keeps L (Copying false m)) -> keeps L (Copying false permute) ->
  same_on L ev ev' -> Forall L (b_vals (s_pop s)) ->
  cosyne_run so co qs ev popsize elites cross mutate permute n s = cosyne_run so co qs ev' popsize elites cross mutate permute n s /\
  forall s', cosyne_run so co qs ev popsize elites cross mutate permute n s = Ok s' -> Forall L (b_vals (s_pop s')).
Proof. intros. apply cosyne_keeps; auto. Qed.
Theorem C210_mapelites : forall (V : Type) pick (L : V -> Prop) ev ev' cf ops grid n (s : mstate V),
  Forall (keeps L) ops -> same_on L ev ev' -> Forall L (b_vals (s_pop (m_st s))) ->
  map_run pick ev cf ops grid n s = map_run pick ev' cf ops grid n s /\
  forall s' seen, map_run pick ev cf ops grid n s = Ok (s', seen) -> Forall L (b_vals (s_pop (m_st s'))) /\ Forall L seen.
Proof. intros V pick L ev ev' cf ops grid n s K Sm F. apply map_keeps; auto. Qed.

(* The standard operators keep solutions legal. *)
Theorem C210_crossovers : forall so co lb ub l cx noise draw, consistent_bounds lb ub ->
  (forall eta us, (-1 < eta)%R -> makes unit_draw l us -> keeps (legal_row lb ub l) (sbx_op so co lb ub eta cx noise draw us)) /\
  (forall np cuts, keeps (legal_row lb ub l) (multi_point_op so co np cx noise draw cuts)).
Proof. intros. split; intros; [apply sbx_keeps|apply multi_point_keeps]; auto. Qed.
Theorem C210_mutations : forall so qs lb ub l, consistent_bounds lb ub -> qargsort_ok qs ->
  (forall stdev prob us gs, makes unit_draw l us -> makes (fun _ => True) l gs -> keeps (legal_row lb ub l) (gaussian_op lb ub stdev prob us gs)) /\
  (forall all obj us keys, makes (fun _ => True) l us -> keeps (legal_row lb ub l) (permute_op so qs all obj l us keys)).
Proof. intros. split; intros; [apply gaussian_keeps|apply permute_keeps]; auto. Qed.
(* polynomial mutation does if no variable is fixed *)
Theorem C210_polynomial_partial : forall lb ub l prob eta us rs,
  (forall j, j < l -> exists a b, bound_at lb j = Some a /\ bound_at ub j = Some b /\ (a < b)%R) ->
  match eta with Some e => (-1 < e)%R | None => True end -> makes unit_draw l us -> makes unit_draw l rs ->
  keeps (legal_row lb ub l) (poly_op lb ub prob eta us rs).
Proof. intros. apply poly_keeps; auto. Qed.
(* With a fixed variable (equal bounds, which the operator accepts), a search which mutates all genes and
   replaces its population has no legal solution left after its first generation. *)
Theorem C210_fixed_refuted : forall so co qs lo hi l j eta us rs ev cf (s : state row),
  Forall2 Rle lo hi -> length lo = l -> j < l -> nth j lo 0%R = nth j hi 0%R ->
  makes unit_draw l us -> makes unit_draw l rs ->
  Forall (legal_row (Some lo) (Some hi) l) (b_vals (s_pop s)) -> b_vals (s_pop s) <> [] -> g_popsize cf = b_len (s_pop s) -> g_elitist cf = false ->
  exists s', ga_run so co qs ev cf [poly_op (Some lo) (Some hi) None eta us rs] 1 s = Ok s' /\
    b_len (s_pop s') = g_popsize cf /\ Forall (fun r => nth_error r j = Some None /\ ~ legal_row (Some lo) (Some hi) l r) (b_vals (s_pop s')).
Proof.
  intros so co qs lo hi l j eta us rs ev cf s HF Ll Hj Heq HU HR F NE HP HE.
  set (op := poly_op (Some lo) (Some hi) None eta us rs).
  set (bad := fun r : row => nth_error r j = Some None /\ ~ legal_row (Some lo) (Some hi) l r).
  assert (OP : forall k (b : batch row), Forall (legal_row (Some lo) (Some hi) l) (b_vals b) -> exists b', use_operators k b [op] = Ok b' /\ length (b_vals b') = length (b_vals b) /\ Forall bad (b_vals b')).
  { intros k b Fb. destruct (fine_numbers _ _ _ _ Fb) as [SR GR]. destruct (HU k (b_len b)) as [SU AU]. destruct (HR k (b_len b)) as [SG AG]. unfold b_len in *.
    set (new := poly_mutation None eta lo hi (map numbers (b_vals b)) (us k (length (b_vals b))) (rs k (length (b_vals b)))).
    assert (SN : shaped (length (b_vals b)) l new) by (apply map3_shape; [intros; rewrite map_length, seq_length; auto|exact SR|apply SU|apply SG]).
    assert (PI : poly_init (Some lo) (Some hi) = Ok (lo, hi)).
    { cbn. assert (E : existsb (fun b => b) (map2 (fun a b => if Rlt_dec b a then true else false) lo hi) = false); [|rewrite E; auto].
      clear -HF. induction HF as [|a b lb ub H HF IH]; cbn; auto. destruct (Rlt_dec b a); [lra|auto]. }
    exists (fresh b new). split; [|split].
    - cbn [use_operators use_operator op poly_op bind]. rewrite PI. cbn [bind fst snd]. unfold b_len. auto.
    - apply SN.
    - cbn [fresh b_vals]. apply Forall_forall. intros r Hr. destruct (In_nth_error _ _ Hr) as [i Hi]. destruct SN as [LN FN].
      assert (Hin : i < length (b_vals b)) by (rewrite <- LN; apply nth_error_Some; congruence).
      destruct (GR i j Hin Hj) as (x & Ex & _). destruct (gene_some l _ _ _ _ SU Hin Hj) as [u Eu]. destruct (gene_some l _ _ _ _ SG Hin Hj) as [g Eg].
      destruct (C88_fixed_variable_refuted lo hi None eta _ _ _ _ _ i j x u g SR SU SG Ex Eu Eg HF Heq) as [_ G]; [discriminate|].
      fold new in G. unfold gene in G. rewrite Hi in G. split; auto. intros [_ Q]. destruct (Q _ _ G) as (y & ? & _). discriminate. }
  assert (EV : forall k (b : batch row), b_vals b <> [] -> exists b', evaluate ev k b = Ok b' /\ b_vals b' = b_vals b).
  { intros k b N. unfold evaluate. destruct (b_vals b) eqn:E; [tauto|]. eexists; split; eauto. }
  assert (EX : exists s1 p c, extended ev cf [op] s = Ok (s1, p, c) /\ length (b_vals c) = b_len (s_pop s) /\ Forall bad (b_vals c)).
  { unfold extended. destruct (g_reeval cf); [destruct (g_first cf)|].
    - destruct (EV (s_clock s) (s_pop s) NE) as (pop & E1 & V1). rewrite E1. cbn [bind]. destruct (OP (s_clock s + 1) pop) as (ch & E2 & L2 & B2); [rewrite V1; auto|]. rewrite E2. cbn [bind].
      destruct (EV (s_clock s + 1 + length [op]) ch) as (ch' & E3 & V3); [destruct (b_vals ch); [rewrite V1 in L2; destruct (b_vals (s_pop s)); [tauto|discriminate]|discriminate]|].
      rewrite E3. cbn [bind]. do 3 eexists. split; [reflexivity|]. rewrite V3. rewrite V1 in L2. auto.
    - destruct (OP (s_clock s) (s_pop s) F) as (ch & E2 & L2 & B2). rewrite E2. cbn [bind].
      destruct (EV (s_clock s + length [op]) (cat (s_pop s) ch)) as (w & E3 & V3); [cbn; destruct (b_vals (s_pop s)); [tauto|discriminate]|]. rewrite E3. cbn [bind].
      do 3 eexists. split; [reflexivity|]. cbn [tail b_vals]. rewrite V3. cbn [cat b_vals]. unfold b_len. rewrite skipn_app, skipn_all, Nat.sub_diag. cbn. auto.
    - assert (E0 : exists pop, (if s_first s then evaluate ev (s_clock s) (s_pop s) else Ok (s_pop s)) = Ok pop /\ b_vals pop = b_vals (s_pop s)) by (destruct (s_first s); [apply EV; auto|eauto]).
      destruct E0 as (pop & E1 & V1). rewrite E1. cbn [bind]. destruct (OP (s_clock s + 1) pop) as (ch & E2 & L2 & B2); [rewrite V1; auto|]. rewrite E2. cbn [bind].
      destruct (EV (s_clock s + 1 + length [op]) ch) as (ch' & E3 & V3); [destruct (b_vals ch); [rewrite V1 in L2; destruct (b_vals (s_pop s)); [tauto|discriminate]|discriminate]|].
      rewrite E3. cbn [bind]. do 3 eexists. split; [reflexivity|]. rewrite V3. rewrite V1 in L2. auto. }
  destruct EX as (s1 & p & c & EX & Lc & Bc). cbn [ga_run bind]. unfold ga_step. rewrite EX. cbn [bind]. rewrite HE.
  replace (b_len c <? g_popsize cf) with false by (symmetry; apply Nat.ltb_ge; unfold b_len in *; lia).
  replace (Nat.eqb (b_len c) (g_popsize cf)) with true by (symmetry; apply Nat.eqb_eq; unfold b_len in *; lia).
  eexists. split; [reflexivity|]. cbn. unfold b_len in *. split; [lia|exact Bc].
Qed.
Print Assumptions C210_run.
Print Assumptions C210_cosyne.
Print Assumptions C210_mapelites.
Print Assumptions C210_crossovers.
Print Assumptions C210_mutations.
Print Assumptions C210_polynomial_partial.
Print Assumptions C210_fixed_refuted.

(* two variables, the first at least 0 and the second between -1 and 1; a cross-over followed by a mutation *)
Definition bd_lb : option (list R) := Some [0; -1]%R.
Definition bd_ub : option (list R) := Some [10; 1]%R.
Definition bd_draws (k n : nat) : list (list R) := repeat [0; 1 / 4]%R n.
Definition bd_ints (k r c n : nat) : list (list nat) := repeat (repeat (k mod n) c) r.
Definition bd_ops : list (operator row) :=
  [sbx_op stable_argsort (fun l => seq 0 (length l)) bd_lb bd_ub 20 (mkCx None 2 None None) (fun _ => []) bd_ints bd_draws;
   gaussian_op bd_lb bd_ub 3 None bd_draws bd_draws].
Definition bd_state : state row := mkSt (mkBatch [[Some 0; Some 1]; [Some 10; Some (-1)]]%R [[NaN]; [NaN]] [true] 0) true 0.
Example C210_example : Forall (keeps (legal_row bd_lb bd_ub 2)) bd_ops /\ Forall (legal_row bd_lb bd_ub 2) (b_vals (s_pop bd_state)) /\
  (exists s', ga_run stable_argsort (fun l => seq 0 (length l)) qstable (fun _ vs => map (fun _ => [Fin 1]) vs) (mkConf 2 false true true) bd_ops 1 bd_state = Ok s' /\ b_len (s_pop s') = 2).
Proof.
  assert (HD : forall P : R -> Prop, P 0%R -> P (1 / 4)%R -> makes P 2 bd_draws).
  { intros P H0 H1 k n. unfold bd_draws, shaped, all_genes. rewrite repeat_length. split; [split; auto|]; apply Forall_forall; intros r Hr; apply repeat_spec in Hr; subst; auto. }
  assert (HU : makes unit_draw 2 bd_draws) by (apply HD; unfold unit_draw; lra).
  assert (HC : consistent_bounds bd_lb bd_ub).
  { intros [|[|[|j]]] a b; cbn; intros A B; try discriminate; injection A as <-; injection B as <-; lra. }
  split; [|split].
  - constructor; [|constructor; [|constructor]]; [apply C210_crossovers|apply (gaussian_keeps)]; auto. lra.
  - constructor; [|constructor; [|constructor]]; (split; [auto|]); intros [|[|[|j]]] x E; cbn in E; try discriminate; injection E as <-; eexists; (split; [reflexivity|]);
      split; cbn; intros y Ey; injection Ey as <-; lra.
  - eexists. split; [reflexivity|]. reflexivity.
Qed.

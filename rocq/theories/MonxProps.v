(* C202 and C208 for MAP-Elites: it sees fitnesses only through comparisons, and evaluating parents again changes nothing when the fitness function is deterministic. *)
From Coq Require Import QArith.
From Verif Require Import Prelude FloatLib SortLib BatchModel ParetoModel RankModel OperModel GaModel BatchSpec GaSpec GaProofs GaProofs2 MapModel BudProps MonProps DualProps MapProps ReevProps.
Close Scope Q_scope.
Open Scope nat_scope.

(* ---- spec ---- *)
(* argmax and argmin decide by comparisons *)
Definition pick_sees_order (pick : bool -> list fl -> nat) : Prop := forall d c g, order_map g -> pick d (map g c) = pick d c.
(* a change which leaves the infinities where they are *)
Definition keeps_infinities (g : fl -> fl) : Prop := g NInf = NInf /\ g PInf = PInf.

(* ---- proofs ---- *)
Section MONX.
Context {V : Type}.
Variables (pick : bool -> list fl -> nat) (ev : nat -> list V -> list (list fl)) (g : fl -> fl).
Hypothesis Pk : pick_sees_order pick.
Hypothesis Hg : order_map g.
Hypothesis Hi : keeps_infinities g.
Let G := [g].
Let ev' := fun k vs => map (retold_row G) (ev k vs).
Definition retold_best (r : V * list fl * bool) : V * list fl * bool := (fst (fst r), retold_row G (snd (fst r)), snd r).
Definition retold_map (s : mstate V) : mstate V := mkMap (retold_state G (m_st s)) (m_filled s).
Lemma suitable_retold c r : suitable c (retold_row G r) = suitable c r.
Proof using. clear. unfold suitable. assert (E : skipn 1 (retold_row G r) = skipn 1 r) by (destruct r; reflexivity). rewrite E. reflexivity. Qed.
Lemma best_cell_retold d vs es c : best_for_cell pick d vs (map (retold_row G) es) c = rmap retold_best (best_for_cell pick d vs es c).
Proof.
  unfold best_for_cell. rewrite map_map. rewrite (map_ext _ (suitable c)) by (intros; apply suitable_retold). destruct (sequence (map (suitable c) es)) as [suits|]; [|reflexivity]. cbn [bind].
  set (pr := map2 (fun (s : bool) row => if s then nth 0 row NaN else if d then NInf else PInf) suits es).
  assert (E : map2 (fun (s : bool) row => if s then nth 0 row NaN else if d then NInf else PInf) suits (map (retold_row G) es) = map g pr).
  { unfold pr. clear -Hg Hi. revert es. induction suits as [|s suits IH]; intros [|e es]; cbn [map map2]; auto. rewrite IH. f_equal. destruct s; [rewrite retold_nth by (constructor; auto); reflexivity|]. destruct Hi, d; auto. }
  rewrite E. destruct pr as [|x pr']; [reflexivity|]. change (map g (x :: pr')) with (g x :: map g pr') at 1. cbv iota. rewrite Pk by auto. set (i := pick d (x :: pr')). rewrite nth_error_map.
  destruct (nth_error vs i); [|reflexivity]. destruct (nth_error es i); [|reflexivity]. cbn [option_map]. destruct (nth_error suits i); reflexivity.
Qed.
Lemma map_step_retold cf ops grid s : Forall (order_only_op G) ops -> num_objs (s_pop (m_st s)) = 1 ->
  map_step pick ev' cf ops grid (retold_map s) = rmap (fun r => (retold_map (fst r), retold G (snd r))) (map_step pick ev cf ops grid s) /\
  (forall r, map_step pick ev cf ops grid s = Ok r -> num_objs (s_pop (m_st (fst r))) = 1).
Proof.
  intros Fo L. unfold map_step. cbn [m_st retold_map]. destruct (extended_retold G (Forall_cons _ Hg (Forall_nil _)) ev ev' (fun _ _ => eq_refl) cf ops (m_st s) Fo L) as [E1 E2]. rewrite E1. destruct (extended ev cf ops (m_st s)) as [[[s' p] c]|]; [|split; [reflexivity|discriminate]].
  cbn [rmap bind retold_extended]. destruct (E2 s' p c eq_refl) as (_ & D2 & _). rewrite cat_retold. set (pool := cat p c). assert (Dp : length (b_desc pool) = 1) by exact D2.
  cbn [b_desc retold]. destruct (b_desc pool) as [|d [|d' ds]] eqn:Dd; try discriminate. cbn [b_vals b_ev retold].
  rewrite (map_ext (best_for_cell pick d (b_vals pool) (map (retold_row G) (b_ev pool))) (fun c => rmap retold_best (best_for_cell pick d (b_vals pool) (b_ev pool) c))) by (intros; apply best_cell_retold).
  rewrite <- (map_map (best_for_cell pick d (b_vals pool) (b_ev pool)) (rmap retold_best)), sequence_rmap. destruct (sequence _) as [best|]; [|split; [reflexivity|discriminate]]. cbn [rmap bind]. split.
  - f_equal. unfold retold_map, retold_state, retold. cbn [fst snd m_st m_filled s_pop s_first s_clock b_vals b_ev b_desc b_ndata]. rewrite !map_map. reflexivity.
  - intros r E. injection E as <-. reflexivity.
Qed.
Lemma map_run_retold cf ops grid s : Forall (order_only_op G) ops -> num_objs (s_pop (m_st s)) = 1 -> forall n,
  map_run pick ev' cf ops grid n (retold_map s) = rmap (fun r => (retold_map (fst r), snd r)) (map_run pick ev cf ops grid n s) /\
  (forall r, map_run pick ev cf ops grid n s = Ok r -> num_objs (s_pop (m_st (fst r))) = 1).
Proof.
  intros Fo L. induction n as [|n [IH1 IH2]]; cbn [map_run].
  - split; [reflexivity|]. intros r E. injection E as <-. auto.
  - rewrite IH1. destruct (map_run pick ev cf ops grid n s) as [r|]; [|split; [reflexivity|discriminate]]. cbn [rmap bind fst]. destruct (map_step_retold cf ops grid (fst r) Fo (IH2 r eq_refl)) as [S1 S2]. rewrite S1.
    destruct (map_step pick ev cf ops grid (fst r)) as [q|]; [|split; [reflexivity|discriminate]]. cbn [rmap bind fst snd]. split; [reflexivity|]. intros r' E. injection E as <-. cbn. apply S2. reflexivity.
Qed.
End MONX.

Section REX.
Context {V : Type}.
Variables (pick : bool -> list fl -> nat) (ev : nat -> list V -> list (list fl)) (f : V -> list fl).
Hypothesis Det : deterministic f ev.
Lemma map_step_evaluated cf ops grid s s' pool : ready f cf (m_st s) -> map_step pick ev cf ops grid s = Ok (s', pool) -> evaluated f (s_pop (m_st s')).
Proof.
  intros R. unfold map_step. destruct (extended ev cf ops (m_st s)) as [[[s1 p] c]|] eqn:E; [|discriminate]. cbn [bind].
  destruct (extended_evaluated ev f cf ops (m_st s) s1 p c Det R E) as [Ep Ec]. pose proof (ev_cat f p c Ep Ec) as Ea.
  destruct (b_desc (cat p c)) as [|d ds]; [discriminate|]. destruct (sequence (map _ grid)) as [best|] eqn:ES; [|discriminate]. cbn [bind]. intros X; injection X as <- <-.
  unfold evaluated. cbn [m_st s_pop b_vals b_ev]. rewrite map_map. apply map_ext_in. intros [[v e] w] Hr. cbn. apply (sequence_in _ _ ES) in Hr. apply in_map_iff in Hr. destruct Hr as (g & Hg & _). clear ES.
  unfold best_for_cell in Hg. destruct (sequence _) as [su|] in Hg; [|discriminate]. cbn [bind] in Hg. destruct (map2 _ su _) as [|y ys] in Hg; [discriminate|].
  set (ix := pick d (y :: ys)) in Hg. unfold evaluated in Ea. rewrite Ea, nth_error_map in Hg. destruct (nth_error (b_vals (cat p c)) ix); [|discriminate]. cbn [option_map] in Hg. destruct (nth_error su ix); [|discriminate]. congruence.
Qed.
Lemma map_run_once cf ops grid (s : mstate V) : Forall legal ops -> wf (s_pop (m_st s)) -> evaluates (eval_width (s_pop (m_st s))) ev -> b_len (s_pop (m_st s)) = length grid -> grid <> [] ->
  s_first (m_st s) = true \/ evaluated f (s_pop (m_st s)) -> forall n,
  map_run pick ev (reevaluating cf) ops grid n s = map_run pick ev (evaluating_once cf) ops grid n s /\
  (forall s' seen, map_run pick ev (reevaluating cf) ops grid n s = Ok (s', seen) ->
     same_kind (s_pop (m_st s)) (s_pop (m_st s')) /\ b_len (s_pop (m_st s')) = length grid /\ (s_first (m_st s') = true \/ evaluated f (s_pop (m_st s')))).
Proof.
  intros HL W HE Len P Rd. induction n as [|n [IH1 IH2]]; cbn [map_run].
  - split; [reflexivity|]. intros s' seen E. injection E as <- <-. split; [apply same_kind_refl; auto|auto].
  - rewrite <- IH1. destruct (map_run pick ev (reevaluating cf) ops grid n s) as [[s1 se]|] eqn:E; [|split; [reflexivity|discriminate]]. cbn [bind fst snd]. destruct (IH2 s1 se eq_refl) as (K & L & R1).
    assert (HE' : evaluates (eval_width (s_pop (m_st s1))) ev) by (rewrite (kind_width _ _ K); auto).
    assert (N : b_len (s_pop (m_st s1)) <> 0) by (rewrite L; destruct grid; [congruence|discriminate]).
    assert (Q : map_step pick ev (reevaluating cf) ops grid s1 = map_step pick ev (evaluating_once cf) ops grid s1) by (unfold map_step; rewrite (extended_once ev f Det cf ops (m_st s1) R1 N); reflexivity).
    rewrite <- Q. split; [reflexivity|]. destruct (map_step pick ev (reevaluating cf) ops grid s1) as [[s2 pool]|] eqn:ES; [|discriminate]. cbn [bind fst snd]. intros s' seen X. injection X as <- <-.
    destruct (map_step_size pick ev (reevaluating cf) ops grid s1 s2 pool HL (proj1 K) HE' ES) as (K' & L' & _). split; [eapply same_kind_trans; eauto|]. split; auto. right. eapply map_step_evaluated; [|exact ES]. left. reflexivity.
Qed.
End REX.

(* ---- theorems ---- *)
(* MAP-Elites under a strictly increasing change of the fitness which keeps the infinities: the same solutions in the same cells; the features stay as they are *)
Theorem C202_mapelites_partial : forall (V : Type) pick ev g cf ops grid n (s : mstate V),
  pick_sees_order pick -> order_map g -> keeps_infinities g -> num_objs (s_pop (m_st s)) = 1 -> Forall (order_only_op [g]) ops ->
  map_run pick (fun k vs => map (retold_row [g]) (ev k vs)) cf ops grid n (mkMap (retold_state [g] (m_st s)) (m_filled s)) =
  rmap (fun r => (mkMap (retold_state [g] (m_st (fst r))) (m_filled (fst r)), snd r)) (map_run pick ev cf ops grid n s).
Proof. intros V pick ev g cf ops grid n s P H I L B. exact (proj1 (map_run_retold pick ev g P H I cf ops grid s B L n)). Qed.
(* MAP-Elites with re_evaluate=True and False *)
Theorem C208_mapelites : forall (V : Type) pick ev f cf ops grid (s : mstate V) n, deterministic f ev -> Forall legal ops -> wf (s_pop (m_st s)) ->
  evaluates (eval_width (s_pop (m_st s))) ev -> b_len (s_pop (m_st s)) = length grid -> grid <> [] -> s_first (m_st s) = true \/ evaluated f (s_pop (m_st s)) ->
  map_run pick ev (reevaluating cf) ops grid n s = map_run pick ev (evaluating_once cf) ops grid n s.
Proof. intros V pick ev f cf ops grid s n D HL W HE Len P Rd. exact (proj1 (map_run_once pick ev f D cf ops grid s HL W HE Len P Rd n)). Qed.
(* A change which moves the worst infinity is noticed, whatever it is: a solution of this fitness which belongs into a cell is not told from those which do not, and so not kept;
   after the change it is. *)
Theorem C202_mapelites_infinity_refuted : forall (V : Type) g (v w : V) x c cell, order_map g -> g NInf <> NInf ->
  suitable cell [x; c] = Ok false -> forall c', suitable cell [NInf; c'] = Ok true ->
  best_for_cell first_pick true [v; w] [[x; c]; [NInf; c']] cell = Ok (v, [x; c], false) /\
  best_for_cell first_pick true [v; w] (map (retold_row [g]) [[x; c]; [NInf; c']]) cell = Ok (w, [g NInf; c'], true).
Proof.
  intros V g v w x c cell H N S1 c' S2. unfold best_for_cell. cbn [map].
  change (suitable cell (retold_row [g] [x; c])) with (suitable cell [x; c]). change (suitable cell (retold_row [g] [NInf; c'])) with (suitable cell [NInf; c']). rewrite S1, S2. split; [reflexivity|].
  destruct H as [_ HN]. specialize (HN NInf). destruct (g NInf) as [| |?z|] eqn:E; try congruence; cbn in HN; try discriminate; cbn; rewrite ?E; reflexivity.
Qed.
Print Assumptions C202_mapelites_partial.
Print Assumptions C208_mapelites.
Print Assumptions C202_mapelites_infinity_refuted.

(* argmax and argmin see only the order; two generations of the search of C38_example under v -> 3 v + 1 *)
Definition mx_g (x : fl) : fl := match x with Fin z => Fin (3 * z + 1) | y => y end.
Lemma argext_order g d : order_map g -> forall t best bv i, argext_from d best (g bv) i (map g t) = argext_from d best bv i t.
Proof.
  intros [H HN]. induction t as [|y t IH]; intros best bv i; cbn [map argext_from]; auto.
  assert (E : beats d (g y) (g bv) = beats d y bv) by (unfold beats; rewrite !H, !(HN _); auto). rewrite E. destruct (beats d y bv); apply IH.
Qed.
Example C202_mapelites_example : pick_sees_order first_pick /\ order_map mx_g /\ keeps_infinities mx_g /\ Forall (order_only_op [mx_g]) mops /\
  rmap (fun r => (m_filled (fst r), b_vals (s_pop (m_st (fst r))), b_ev (s_pop (m_st (fst r)))))
    (map_run first_pick (fun k vs => map (retold_row [mx_g]) (map mf vs)) (mkConf 3 true true true) mops mgrid 2 (map_init (mkBatch [] [] [true] 1) [9; 3; 7]%Z)) =
  Ok ([true; true; false], [9; 15; 9]%Z, [[Fin 28; Fin 9]; [Fin 16; Fin 15]; [Fin 28; Fin 9]]%Z).
Proof.
  split. { intros d [|x t] g H; [reflexivity|]. unfold first_pick, argext. cbn [map]. rewrite argext_order by auto. reflexivity. }
  split. { split; [intros [| |a|] [| |b|]; cbn [mx_g flt]; auto; apply Bool.eq_iff_eq_true; rewrite !Z.ltb_lt; lia|intros []; auto]. }
  split; [split; reflexivity|]. split; [repeat constructor|]. vm_compute. reflexivity.
Qed.
Example C208_mapelites_example : deterministic mf (fun _ vs => map mf vs) /\ Forall legal mops /\
  map_run first_pick (fun _ vs => map mf vs) (reevaluating (mkConf 3 true true true)) mops mgrid 2 (map_init (mkBatch [] [] [true] 1) [9; 3; 7]%Z) =
  map_run first_pick (fun _ vs => map mf vs) (evaluating_once (mkConf 3 true true true)) mops mgrid 2 (map_init (mkBatch [] [] [true] 1) [9; 3; 7]%Z) /\
  is_ok (map_run first_pick (fun _ vs => map mf vs) (reevaluating (mkConf 3 true true true)) mops mgrid 2 (map_init (mkBatch [] [] [true] 1) [9; 3; 7]%Z)) = true.
Proof. split; [intros k vs; reflexivity|]. split; [repeat constructor|]. split; vm_compute; reflexivity. Qed.

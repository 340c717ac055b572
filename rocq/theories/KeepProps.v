(* C207: an elitist multi-objective run loses nothing while the non-dominated solutions fit the population. *)
From Coq Require Import QArith.
From Verif Require Import Prelude FloatLib BatchModel BatchSpec BatchProofs ParetoModel ParetoSpec ParetoProofs2 ParetoProofs3 GaModel GaSpec GaProofs GaProofs2.
Close Scope Q_scope.
Open Scope nat_scope.

(* ---- spec ---- *)
(* a is at least as good as b in every objective *)
Definition covers {V} (senses : list bool) (a b : V * list fl) : Prop := forall k d, nth_error senses k = Some d -> ~ better d (score k b) (score k a).
(* there are at most n solutions which no other one dominates *)
Definition fits_front {V} (senses : list bool) (n : nat) (rs : list (V * list fl)) : Prop :=
  exists l, length l <= n /\ forall i r, nth_error rs i = Some r -> (forall r', In r' rs -> ~ dominates senses r' r) -> In i l.
(* the solutions (with fitnesses) among which the survivors of the next generation are chosen *)
Definition candidates {V} ev cf ops (s : state V) (rs : list (V * list fl)) : Prop := exists s' p c, extended ev cf ops s = Ok (s', p, c) /\ rs = rows (cat p c).
(* fitnesses do not change: parents are not evaluated again, or evaluations are deterministic *)
Definition steady {V} (ev : nat -> list V -> list (list fl)) (cf : config) (s : state V) : Prop :=
  g_reeval cf = false \/ exists f, deterministic f ev /\ (g_reeval cf = true \/ s_first s = true \/ evaluated f (s_pop s)).

(* ---- proofs ---- *)
Lemma combine_app' {A B} (a : list A) (b : list B) c d : length b = length a -> combine (a ++ c) (b ++ d) = combine a b ++ combine c d.
Proof. revert b. induction a as [|x a IH]; intros [|y b] E; try discriminate; [reflexivity|]. cbn. rewrite IH; auto. Qed.
Section KEEP.
Context {V : Type}.
Variables (sorter : bool -> list fl -> list nat) (co : list (list fl) -> list nat) (qs : list Q -> list nat).
Hypothesis Hs : argsort_ok sorter.
Hypothesis Hco : reordering co.
Hypothesis Hqs : qargsort_ok qs.
Lemma covers_trans senses (a b c : V * list fl) : (forall k, k < length senses -> is_nan (score k b) = false) -> covers senses a b -> covers senses b c -> covers senses a c.
Proof using.
  clear. intros N A B k d E. assert (k < length senses) by (apply nth_error_Some; congruence). apply (better_ntrans d _ (score k b)); auto.
Qed.
Lemma take_best_keeps (b b' : batch V) n : wf b -> take_best_multi co qs b n = Ok b' -> fits_front (b_desc b) n (rows b) ->
  forall r, In r (rows b) -> exists r', In r' (rows b') /\ covers (b_desc b) r' r.
Proof using Hco Hqs.
  intros W E (l & Ll & Hl) r Hr. assert (HN : all_no_nan b) by (unfold take_best_multi, batch_pareto_ranks in E; destruct (utils b) as [us|] eqn:U; [|discriminate]; eapply utils_no_nan; eauto).
  destruct (take_best_multi_ok co qs b n W HN Hco Hqs) as (b'' & ranks & kept & dropped & E' & FN & P & Lk & Lr & Rk & Ord & _). rewrite E in E'. injection E' as <-.
  destruct FN as (Len & _ & Zero & Next & _). rewrite rows_length in Len by auto.
  assert (NN : forall r0, In r0 (rows b) -> forall k, k < length (b_desc b) -> is_nan (score k r0) = false) by (intros r0 I k Hk; specialize (HN k Hk); unfold no_nan in HN; rewrite Forall_forall in HN; auto).
  (* somebody of the first front covers r *)
  assert (First : forall m i r0, nth_error (rows b) i = Some r0 -> nth_error ranks i = Some m -> exists j r1, nth_error (rows b) j = Some r1 /\ nth_error ranks j = Some 0 /\ covers (b_desc b) r1 r0).
  { induction m as [|m IH]; intros i r0 Hi Hm.
    - exists i, r0. split; auto. split; auto. intros k d _. apply better_irrefl.
    - destruct (Next i m r0 Hi Hm) as (j & rj & Hj & Hk & [D _]). destruct (IH j rj Hj Hk) as (j' & r1 & H1 & H2 & H3). exists j', r1. split; auto. split; auto. eapply covers_trans; [|exact H3|exact D]. apply NN. eapply nth_error_In; eauto. }
  apply In_nth_error in Hr. destruct Hr as [i Hi]. assert (Li : i < b_len b) by (rewrite <- rows_length by auto; apply nth_error_Some; congruence).
  destruct (nth_error ranks i) as [m|] eqn:Em; [|apply nth_error_None in Em; lia]. destruct (First m i r Hi Em) as (j & r1 & Hj & Zj & C). exists r1. split; [|exact C].
  assert (Lj : j < b_len b) by (rewrite <- rows_length by auto; apply nth_error_Some; congruence).
  (* the first front is kept *)
  assert (K : In j kept).
  { assert (I : In j (kept ++ dropped)) by (apply (Permutation_in _ (Permutation_sym P)); apply in_seq; lia). apply in_app_or in I. destruct I as [I|I]; [exact I|]. exfalso.
    assert (ND : NoDup (kept ++ dropped)) by (apply (Permutation_NoDup (Permutation_sym P)); apply seq_NoDup).
    assert (Front : forall x, x < b_len b -> nth_error ranks x = Some 0 -> In x l).
    { intros x Hx Zx. destruct (nth_error (rows b) x) as [rx|] eqn:Ex; [|apply nth_error_None in Ex; rewrite rows_length in Ex by auto; lia]. apply (Hl x rx Ex). apply (Zero x rx Ex). exact Zx. }
    assert (Inc : incl (j :: kept) l).
    { intros x [<-|Hx]; [apply Front; auto|]. assert (Lx : x < b_len b) by (assert (J : In x (seq 0 (b_len b))) by (apply (Permutation_in _ P); apply in_or_app; auto); apply in_seq in J; lia).
      apply Front; auto. specialize (Ord x j Hx I). rewrite (nth_error_nth _ _ 0 Zj) in Ord. destruct (nth_error ranks x) as [z|] eqn:Ez; [|apply nth_error_None in Ez; lia]. rewrite (nth_error_nth _ _ 0 Ez) in Ord. f_equal. lia. }
    assert (Nj : NoDup (j :: kept)).
    { constructor.
      - intros Q. apply in_split in I. destruct I as (u & v & ->). rewrite app_assoc in ND. apply NoDup_remove_2 in ND. apply ND. apply in_or_app. left. apply in_or_app. auto.
      - clear -ND. induction kept as [|x k IH]; [constructor|]. cbn in ND. inversion ND; subst. constructor; auto. intros Q. apply H1. apply in_or_app. auto. }
    pose proof (NoDup_incl_length Nj Inc) as Q. cbn in Q. assert (Tot : length kept + length dropped = b_len b) by (rewrite <- app_length, (Permutation_length P), seq_length; reflexivity).
    destruct dropped; [destruct I|]. cbn in Tot. lia. }
  apply In_nth_error in K. destruct K as [k Hk]. apply (nth_error_In _ k). rewrite (Rk k j Hk). exact Hj.
Qed.
Variable ev : nat -> list V -> list (list fl).
Lemma same_rows cf ops (s s' : state V) p c : s_first s = false -> (g_reeval cf = false \/ exists f, deterministic f ev /\ evaluated f (s_pop s)) -> Forall legal ops -> wf (s_pop s) -> evaluates (eval_width (s_pop s)) ev ->
  extended ev cf ops s = Ok (s', p, c) -> rows p = rows (s_pop s).
Proof using.
  clear. intros F St HL W HE E. destruct (extended_inv ev cf ops s s' p c HL W HE E) as (_ & _ & _ & Vp & _). destruct St as [R|(f & D & Ev)].
  - unfold extended in E. rewrite R, F in E. cbn [bind] in E. destruct (use_operators _ _ _) as [ch|]; [|discriminate]. cbn [bind] in E. destruct (evaluate _ _ _) as [ch'|]; [|discriminate]. cbn [bind] in E. injection E as _ <- _. reflexivity.
  - destruct (extended_evaluated ev f cf ops s s' p c D (or_intror (or_intror Ev)) E) as [Ep _]. unfold rows. rewrite Ep, Ev, Vp. reflexivity.
Qed.
Lemma step_keeps cf ops (s s' : state V) rs : Forall legal ops -> wf (s_pop s) -> evaluates (eval_width (s_pop s)) ev -> g_elitist cf = true -> 2 <= num_objs (s_pop s) ->
  ga_step sorter co qs ev cf ops s = Ok s' -> candidates ev cf ops s rs -> fits_front (b_desc (s_pop s)) (g_popsize cf) rs ->
  forall r, In r rs -> exists r', In r' (rows (s_pop s')) /\ covers (b_desc (s_pop s)) r' r.
Proof using Hco Hqs.
  intros HL W HE El M St (s1 & p & c & Ex & ->) Ff r Hr. unfold ga_step in St. rewrite Ex, El in St. cbn [bind] in St. destruct (extended_inv ev cf ops s s1 p c HL W HE Ex) as (Kp & Kc & _).
  pose proof (cat_kind p c (s_pop s) Kp Kc) as (Wc & Dc & _). unfold best_of in St. replace (num_objs (cat p c)) with (num_objs (s_pop s)) in St by (unfold num_objs; rewrite Dc; auto). replace (2 <=? num_objs (s_pop s)) with true in St by (symmetry; apply Nat.leb_le; auto).
  destruct (take_best_multi co qs (cat p c) (g_popsize cf)) as [b'|] eqn:T; [|discriminate]. cbn [rmap] in St. injection St as <-. cbn [s_pop]. rewrite <- Dc in *. apply (take_best_keeps (cat p c) b' (g_popsize cf)); auto.
Qed.
Lemma steady_step cf ops (s s' : state V) : Forall legal ops -> wf (s_pop s) -> evaluates (eval_width (s_pop s)) ev -> g_elitist cf = true -> steady ev cf s -> ga_step sorter co qs ev cf ops s = Ok s' ->
  steady ev cf s' /\ (g_reeval cf = false \/ exists f, deterministic f ev /\ evaluated f (s_pop s')).
Proof using Hs Hco Hqs.
  intros HL W HE El [R|(f & D & Rd)] St; [split; left; auto|]. assert (Ev : evaluated f (s_pop s')) by (eapply step_evaluated; eauto). split; right; exists f; auto.
Qed.
Lemma run_keeps cf ops (s s1 : state V) rs : Forall legal ops -> wf (s_pop s) -> evaluates (eval_width (s_pop s)) ev -> b_len (s_pop s) = g_popsize cf -> g_elitist cf = true -> 2 <= num_objs (s_pop s) -> steady ev cf s ->
  candidates ev cf ops s rs -> forall n, ga_run sorter co qs ev cf ops (S n) s = Ok s1 ->
  (forall i si ri, i <= n -> ga_run sorter co qs ev cf ops i s = Ok si -> candidates ev cf ops si ri -> fits_front (b_desc (s_pop s)) (g_popsize cf) ri) ->
  (steady ev cf s1 /\ (g_reeval cf = false \/ exists f, deterministic f ev /\ evaluated f (s_pop s1))) /\ forall r, In r rs -> exists r', In r' (rows (s_pop s1)) /\ covers (b_desc (s_pop s)) r' r.
Proof using Hs Hco Hqs.
  intros HL W HE Len El M St Cand n. revert s1. induction n as [|n IH]; intros s1 R Fit.
  - cbn [ga_run bind] in R. split; [eapply steady_step; eauto|]. apply (step_keeps cf ops s s1 rs); auto. apply (Fit 0 s rs); auto.
  - change (bind (ga_run sorter co qs ev cf ops (S n) s) (ga_step sorter co qs ev cf ops) = Ok s1) in R. destruct (ga_run sorter co qs ev cf ops (S n) s) as [s0|] eqn:E0; [|discriminate]. cbn [bind] in R.
    destruct (IH s0 eq_refl) as [[St0 Ev0] C0]; [intros i si ri Hi; apply Fit; lia|]. destruct (run_size sorter co qs ev Hs Hco Hqs cf ops (S n) s s0 HL W HE Len E0) as (K0 & L0 & F0). pose proof K0 as (W0 & D0 & _).
    assert (HE0 : evaluates (eval_width (s_pop s0)) ev) by (rewrite (kind_width _ _ K0); auto).
    split; [eapply steady_step; eauto|]. intros r Hr. destruct (C0 r Hr) as (r0 & Hr0 & C). pose proof R as R'. unfold ga_step in R'. destruct (extended ev cf ops s0) as [[[s' p] c]|] eqn:Ex; [|discriminate]. clear R'.
    pose proof (same_rows cf ops s0 s' p c (F0 ltac:(discriminate)) Ev0 HL W0 HE0 Ex) as Rp. assert (In0 : In r0 (rows (cat p c))).
    { destruct (extended_inv ev cf ops s0 s' p c HL W0 HE0 Ex) as (([Wp _] & _) & _). rewrite <- Rp in Hr0. unfold rows, rows_of in *. cbn [b_vals b_ev cat]. rewrite combine_app' by exact Wp. apply in_or_app. auto. }
    assert (Cd : candidates ev cf ops s0 (rows (cat p c))) by (exists s', p, c; auto).
    destruct (step_keeps cf ops s0 s1 (rows (cat p c)) HL W0 HE0 El ltac:(unfold num_objs in *; rewrite D0; auto) R Cd) with (r := r0) as (r1 & H1 & C1); auto.
    { rewrite D0. apply (Fit (S n) s0 _); auto. }
    exists r1. split; auto. rewrite D0 in C1. eapply covers_trans; [|exact C1|exact C].
    (* r0 has no NaN: it went through a successful selection *)
    intros k Hk. assert (NN : all_no_nan (cat p c)).
    { unfold ga_step in R. rewrite Ex, El in R. cbn [bind] in R. pose proof (extended_inv ev cf ops s0 s' p c HL W0 HE0 Ex) as (Kp & Kc & _). pose proof (cat_kind p c (s_pop s0) Kp Kc) as (Wc & Dc & _).
      unfold best_of in R. replace (2 <=? num_objs (cat p c)) with true in R by (symmetry; apply Nat.leb_le; unfold num_objs in *; rewrite Dc, D0; auto). unfold take_best_multi, batch_pareto_ranks in R. destruct (utils (cat p c)) as [us|] eqn:U; [|discriminate]. eapply utils_no_nan; eauto. }
    pose proof (extended_inv ev cf ops s0 s' p c HL W0 HE0 Ex) as (Kp & Kc & _). pose proof (cat_kind p c (s_pop s0) Kp Kc) as (Wc & Dc & _).
    specialize (NN k). unfold no_nan in NN. rewrite Forall_forall in NN. apply NN; auto. unfold num_objs. rewrite Dc, D0. exact Hk.
Qed.
End KEEP.

(* ---- theorems ---- *)
Theorem C207_selection : forall (V : Type) co qs (b b' : batch V) n, reordering co -> qargsort_ok qs -> wf b -> take_best_multi co qs b n = Ok b' -> fits_front (b_desc b) n (rows b) ->
  forall r, In r (rows b) -> exists r', In r' (rows b') /\ covers (b_desc b) r' r.
Proof. intros V co qs b b' n H1 H2 W E F. apply (take_best_keeps co qs H1 H2 b b' n W E F). Qed.
(* every solution considered in generation m is covered by some solution of the population after each later generation *)
Theorem C207_run : forall (V : Type) sorter co qs ev cf ops m n (s s1 s2 : state V) rs r,
  argsort_ok sorter -> reordering co -> qargsort_ok qs -> Forall legal ops -> wf (s_pop s) -> evaluates (eval_width (s_pop s)) ev -> b_len (s_pop s) = g_popsize cf -> g_elitist cf = true -> 2 <= num_objs (s_pop s) -> s_first s = true ->
  g_reeval cf = false \/ (exists f, deterministic f ev) ->
  ga_run sorter co qs ev cf ops m s = Ok s1 -> ga_run sorter co qs ev cf ops (S n) s1 = Ok s2 ->
  (forall i si ri, i <= n -> ga_run sorter co qs ev cf ops i s1 = Ok si -> candidates ev cf ops si ri -> fits_front (b_desc (s_pop s)) (g_popsize cf) ri) ->
  candidates ev cf ops s1 rs -> In r rs -> exists r', In r' (rows (s_pop s2)) /\ covers (b_desc (s_pop s)) r' r.
Proof.
  intros V so co qs ev cf ops m n s s1 s2 rs r H1 H2 H3 HL W HE Len El M Fi St R1 R2 Fit Cd Hr.
  destruct (run_size so co qs ev H1 H2 H3 cf ops m s s1 HL W HE Len R1) as (K & L & _). pose proof K as (W1 & D1 & _).
  assert (St1 : steady ev cf s1).
  { assert (St0 : steady ev cf s) by (destruct St as [St|[f D]]; [left; auto|right; exists f; auto]). clear -R1 St0 HL W HE Len El H1 H2 H3. revert s1 R1. induction m as [|m IH]; cbn [ga_run]; intros s1 R; [injection R as <-; auto|].
    destruct (ga_run so co qs ev cf ops m s) as [s0|] eqn:E; [|discriminate]. cbn [bind] in R. destruct (run_size so co qs ev H1 H2 H3 cf ops m s s0 HL W HE Len E) as (K & L & _).
    apply (steady_step so co qs H1 H2 H3 ev cf ops s0 s1); auto; [apply K|rewrite (kind_width _ _ K); auto]. }
  rewrite <- D1 in Fit |- *. apply (run_keeps so co qs H1 H2 H3 ev cf ops s1 s2 rs HL W1 ltac:(rewrite (kind_width _ _ K); auto) L El ltac:(unfold num_objs in *; rewrite D1; auto) St1 Cd n R2 Fit); auto.
Qed.
Print Assumptions C207_selection.
Print Assumptions C207_run.

(* maximize both; 3 is dominated by 4 *)
Definition kp_fit (v : nat) : list fl := match v with 3 => [Fin 1; Fin 1] | 4 => [Fin 2; Fin 1] | 5 => [Fin 0; Fin 5] | _ => [Fin 0; Fin 0] end.
Definition kp_state : state nat := mkSt (mkBatch [3; 5] [[NaN; NaN]; [NaN; NaN]] [true; true] 0) true 0.
Definition kp_ops : list (operator nat) := [Func (fun _ vs => Ok (map S vs))].
Definition kp_conf := mkConf 2 true true true.
Definition kp_co (l : list (list fl)) : list nat := seq 0 (length l).
Example C207_example : reordering kp_co /\ qargsort_ok qstable /\ argsort_ok stable_argsort /\ Forall legal kp_ops /\ wf (s_pop kp_state) /\ deterministic kp_fit (fun _ vs => map kp_fit vs) /\
  (exists rs, candidates (fun _ vs => map kp_fit vs) kp_conf kp_ops kp_state rs /\ length rs = 4) /\
  (forall i si ri, i <= 0 -> ga_run stable_argsort kp_co qstable (fun _ vs => map kp_fit vs) kp_conf kp_ops i kp_state = Ok si -> candidates (fun _ vs => map kp_fit vs) kp_conf kp_ops si ri ->
     fits_front [true; true] 2 ri) /\
  rmap (fun s => b_vals (s_pop s)) (ga_run stable_argsort kp_co qstable (fun _ vs => map kp_fit vs) kp_conf kp_ops 1 kp_state) = Ok [5; 4] /\
  ~ fits_front [true; true] 1 [(5, kp_fit 5); (4, kp_fit 4)].
Proof.
  split; [intros l; apply Permutation_refl|]. split; [exact qstable_ok|]. split; [exact stable_argsort_ok|]. split; [repeat constructor|]. split; [split; [reflexivity|repeat constructor]|]. split; [intros k vs; reflexivity|]. split.
  { eexists. split; [do 3 eexists; split; vm_compute; reflexivity|reflexivity]. }
  split; [|split; [vm_compute; reflexivity|]].
  - intros i si ri Hi R (s' & p & c & E & ->). assert (i = 0) as -> by lia. cbn [ga_run] in R. injection R as <-. vm_compute in E. injection E as <- <- <-. exists [1; 2]. split; [cbn; lia|].
    intros i r Hr Hn. destruct i as [|[|[|[|i]]]]; cbn in Hr; injection Hr as <- || (destruct i; discriminate); cbn; auto; exfalso.
    + apply (Hn (4, kp_fit 4)); [cbn; auto|]. split; [intros [|[|k]] d E; cbn in E; [| |destruct k; discriminate]; injection E as <-; intros L; inversion L; subst; lia|]. exists 0, true. split; [reflexivity|]. constructor. lia.
    + apply (Hn (4, kp_fit 4)); [cbn; auto|]. split; [intros [|[|k]] d E; cbn in E; [| |destruct k; discriminate]; injection E as <-; intros L; inversion L; subst; lia|]. exists 0, true. split; [reflexivity|]. constructor. lia.
  - intros (l & Ll & H). assert (A : In 0 l).
    { apply (H 0 (5, kp_fit 5)); [reflexivity|]. intros r [<-|[<-|[]]] [D1 (k & d & E & B)]; [destruct (better_irrefl _ _ B)|]. apply (D1 1 true); [reflexivity|]. constructor. lia. }
    assert (B : In 1 l).
    { apply (H 1 (4, kp_fit 4)); [reflexivity|]. intros r [<-|[<-|[]]] [D1 (k & d & E & B)]; [|destruct (better_irrefl _ _ B)]. apply (D1 0 true); [reflexivity|]. constructor. lia. }
    destruct l as [|x [|y l]]; cbn in *; intuition lia.
Qed.

(* C223: the Pareto rank of a solution is the length of the longest chain of solutions, each dominating the next, which
   ends at it; hence ranks belong to solutions, not to positions, and only change with what dominates. *)
From Verif Require Import Prelude FloatLib BatchModel BatchSpec BatchProofs ParetoModel ParetoSpec ParetoProofs2 ParetoProofs3 ParetoProps.

(* ---------------------------------------------------------------- specification *)
(* k solutions of rs, each dominating the next and the last dominating r *)
Inductive dominated_chain {V} (senses : list bool) (rs : list (V * list fl)) : nat -> V * list fl -> Prop :=
| chain_end : forall r, In r rs -> dominated_chain senses rs 0 r
| chain_link : forall k r r', dominated_chain senses rs k r' -> In r rs -> dominates senses r' r -> dominated_chain senses rs (S k) r.

(* ---------------------------------------------------------------- proofs *)
Section Chains.
  Context {V : Type}.
  Implicit Types rs : list (V * list fl).

  Lemma chain_in senses rs k r : dominated_chain senses rs k r -> In r rs.
  Proof. destruct 1; auto. Qed.

  Lemma chain_weaken senses rs k r : dominated_chain senses rs (S k) r -> dominated_chain senses rs k r.
  Proof.
    revert r. induction k as [|k IH]; intros r H; inversion H; subst; [constructor; auto|]. econstructor; eauto.
  Qed.
  Lemma chain_down senses rs k m r : m <= k -> dominated_chain senses rs k r -> dominated_chain senses rs m r.
  Proof. induction 1; auto. intros H'. apply IHle, chain_weaken, H'. Qed.

  Lemma chain_bound senses rs ranks k r : front_numbers senses rs ranks -> dominated_chain senses rs k r ->
    forall i a, nth_error rs i = Some r -> nth_error ranks i = Some a -> k <= a.
  Proof.
    intros [L [_ [_ [_ D]]]] H. induction H as [r I|k r r' C IH I Dm]; intros i a Hr Ha; [lia|].
    pose proof (chain_in _ _ _ _ C) as I'. apply In_nth_error in I'. destruct I' as [j Hj].
    assert (B : exists b, nth_error ranks j = Some b).
    { destruct (nth_error ranks j) eqn:E; eauto. apply nth_error_None in E. assert (j < length rs) by (apply nth_error_Some; congruence). lia. }
    destruct B as [b Hb]. specialize (IH j b Hj Hb). specialize (D i j r r' a b Hr Hj Dm Ha Hb). lia.
  Qed.
  Lemma chain_reached senses rs ranks : front_numbers senses rs ranks ->
    forall a i r, nth_error rs i = Some r -> nth_error ranks i = Some a -> dominated_chain senses rs a r.
  Proof.
    intros [L [_ [_ [B _]]]]. induction a as [|a IH]; intros i r Hr Ha.
    - constructor. eapply nth_error_In; eauto.
    - destruct (B i a r Hr Ha) as [j [rj [Hj [Hb Dm]]]]. econstructor; [eapply IH; eauto|eapply nth_error_In; eauto|exact Dm].
  Qed.
  Lemma rank_is_chain senses rs ranks i r a : front_numbers senses rs ranks -> nth_error rs i = Some r ->
    (nth_error ranks i = Some a <-> dominated_chain senses rs a r /\ ~ dominated_chain senses rs (S a) r).
  Proof.
    intros F Hr. assert (B : exists b, nth_error ranks i = Some b).
    { destruct F as [L _]. destruct (nth_error ranks i) eqn:E; eauto. apply nth_error_None in E. assert (i < length rs) by (apply nth_error_Some; congruence). lia. }
    destruct B as [b Hb]. split.
    - intros Ha. split; [eapply chain_reached; eauto|]. intros C. pose proof (chain_bound _ _ _ _ _ F C i a Hr Ha). lia.
    - intros [C N]. pose proof (chain_bound _ _ _ _ _ F C i b Hr Hb). destruct (Nat.eq_dec a b) as [->|D]; auto.
      exfalso. apply N. apply (chain_down senses rs b (S a)); [lia|]. eapply chain_reached; eauto.
  Qed.

  Lemma chain_incl senses rs rs' k r : incl rs rs' -> dominated_chain senses rs k r -> dominated_chain senses rs' k r.
  Proof. intros I. induction 1; [constructor; auto|econstructor; eauto]. Qed.

  (* domination among solutions without NaN *)
  Definition clean (senses : list bool) (r : V * list fl) : Prop := forall k d, nth_error senses k = Some d -> is_nan (score k r) = false.
  Lemma dominates_irrefl senses (r : V * list fl) : ~ dominates senses r r.
  Proof. intros [_ [k [d [_ B]]]]. exact (better_irrefl d _ B). Qed.
  Lemma dominates_trans senses (x y z : V * list fl) : clean senses y -> clean senses z -> dominates senses x y -> dominates senses y z -> dominates senses x z.
  Proof.
    intros C Cz [N1 [k [d [Hk B]]]] [N2 _]. split.
    - intros m e Hm. apply (better_ntrans e (score m z) (score m y) (score m x)); [apply (C m e Hm)|apply N2; exact Hm|apply N1; exact Hm].
    - exists k, d. split; auto. specialize (N2 k d Hk).
      (* x better than y, z not better than y *)
      revert B N2. specialize (C k d Hk). specialize (Cz k d Hk). unfold better. destruct d; rewrite <- !flt_lt; intros B N2; apply not_true_iff_false in N2; unfold flt in *.
      + destruct (score k x), (score k y), (score k z); cbn in *; try discriminate; try congruence; lia.
      + destruct (score k x), (score k y), (score k z); cbn in *; try discriminate; try congruence; lia.
  Qed.

  Section Added.
    Variables (senses : list bool) (rs rs' : list (V * list fl)) (new : V * list fl).
    Hypothesis Sub : forall r, In r rs' -> r = new \/ In r rs.
    Hypothesis Cl : forall r, In r rs' -> clean senses r.

    Lemma chain_untouched k r : dominated_chain senses rs' k r -> In r rs -> ~ dominates senses new r -> dominated_chain senses rs k r.
    Proof.
      induction 1 as [r I|k r r' C IH I D]; intros Ir N; [constructor; auto|].
      pose proof (chain_in _ _ _ _ C) as I'. destruct (Sub r' I') as [->|Ir']; [contradiction|].
      econstructor; [|exact Ir|exact D]. apply IH; auto. intros D'. apply N. eapply dominates_trans; eauto.
    Qed.
    Lemma chain_shorter k r : dominated_chain senses rs' (S k) r -> In r rs -> dominated_chain senses rs k r.
    Proof.
      revert r. induction k as [|k IH]; intros r H Ir; [constructor; auto|].
      inversion H as [|? ? r' C I D]; subst. pose proof (chain_in _ _ _ _ C) as I'.
      destruct (Sub r' I') as [->|Ir'].
      - inversion C as [|? ? r'' C' I'' D'']; subst. pose proof (chain_in _ _ _ _ C') as J. destruct (Sub r'' J) as [->|Jr]; [exfalso; eapply dominates_irrefl; eauto|].
        econstructor; [|exact Ir|eapply dominates_trans; [apply Cl; exact I'|apply Cl; exact I|exact D''|exact D]].
        apply chain_untouched; auto. intros D'. apply (dominates_irrefl senses new). eapply dominates_trans; [| |exact D'|exact D'']; auto.
      - econstructor; [|exact Ir|exact D]. auto.
    Qed.
  End Added.
End Chains.

(* C223: ranks are lengths of longest chains of domination *)
Theorem C223_longest_chain : forall (V : Type) crowd_order (b : batch V) crowdsort,
  wf b -> all_no_nan b -> reordering crowd_order ->
  exists ranks cs, batch_pareto_ranks crowd_order b crowdsort = Ok (ranks, cs) /\ length ranks = length (rows b) /\
    forall i r a, nth_error (rows b) i = Some r ->
      (nth_error ranks i = Some a <-> dominated_chain (b_desc b) (rows b) a r /\ ~ dominated_chain (b_desc b) (rows b) (S a) r).
Proof.
  intros V co b c W N R. destruct (C13_ranks_are_front_numbers V co b c W N R) as [ranks [cs [E F]]].
  exists ranks, cs. split; [exact E|]. split; [apply F|]. intros i r a Hr. apply rank_is_chain; auto.
Qed.
Print Assumptions C223_longest_chain.

(* the order of the solutions, repeated solutions and the crowding option do not matter *)
Theorem C223_order_independent : forall (V : Type) co co' (b b' : batch V) c c',
  wf b -> all_no_nan b -> wf b' -> all_no_nan b' -> reordering co -> reordering co' -> b_desc b' = b_desc b ->
  (forall r, In r (rows b') <-> In r (rows b)) ->
  exists ranks cs ranks' cs', batch_pareto_ranks co b c = Ok (ranks, cs) /\ batch_pareto_ranks co' b' c' = Ok (ranks', cs') /\
    forall i j r, nth_error (rows b) i = Some r -> nth_error (rows b') j = Some r -> nth_error ranks i = nth_error ranks' j.
Proof.
  intros V co co' b b' c c' W N W' N' R R' D S. destruct (C223_longest_chain V co b c W N R) as [ra [cs [E [L H]]]].
  destruct (C223_longest_chain V co' b' c' W' N' R') as [ra' [cs' [E' [L' H']]]].
  exists ra, cs, ra', cs'. split; [exact E|]. split; [exact E'|]. intros i j r Hi Hj.
  assert (B : exists a, nth_error ra i = Some a).
  { destruct (nth_error ra i) eqn:Q; eauto. apply nth_error_None in Q. assert (i < length (rows b)) by (apply nth_error_Some; congruence). lia. }
  destruct B as [a Ha]. rewrite Ha. symmetry. apply (H' j r a Hj). apply (H i r a Hi) in Ha. destruct Ha as [C1 C2]. rewrite D.
  assert (I1 : incl (rows b) (rows b')) by (intros x; apply S). assert (I2 : incl (rows b') (rows b)) by (intros x; apply S).
  split; [eapply chain_incl; eauto|]. intros C. apply C2. eapply chain_incl; [exact I2|exact C].
Qed.
Print Assumptions C223_order_independent.

Lemma rows_clean {V} (b : batch V) : all_no_nan b -> forall r, In r (rows b) -> clean (b_desc b) r.
Proof.
  intros N r I k d Hk. assert (Lk : k < length (b_desc b)) by (apply nth_error_Some; congruence).
  specialize (N k Lk). unfold no_nan in N. rewrite Forall_forall in N. apply N. exact I.
Qed.

(* Another solution only worsens the ranks of those it dominates, and by one at most. *)
Theorem C223_another_solution : forall (V : Type) co co' (b b' : batch V) c c' new,
  wf b -> all_no_nan b -> wf b' -> all_no_nan b' -> reordering co -> reordering co' -> b_desc b' = b_desc b ->
  (forall r, In r (rows b') <-> r = new \/ In r (rows b)) ->
  exists ranks cs ranks' cs', batch_pareto_ranks co b c = Ok (ranks, cs) /\ batch_pareto_ranks co' b' c' = Ok (ranks', cs') /\
    forall i j r a a', nth_error (rows b) i = Some r -> nth_error (rows b') j = Some r ->
      nth_error ranks i = Some a -> nth_error ranks' j = Some a' ->
      a <= a' <= a + 1 /\ (~ dominates (b_desc b) new r -> a' = a).
Proof.
  intros V co co' b b' c c' new W N W' N' R R' D S. destruct (C223_longest_chain V co b c W N R) as [ra [cs [E [L H]]]].
  destruct (C223_longest_chain V co' b' c' W' N' R') as [ra' [cs' [E' [L' H']]]].
  exists ra, cs, ra', cs'. split; [exact E|]. split; [exact E'|]. intros i j r a a' Hi Hj Ha Ha'.
  apply (H i r a Hi) in Ha. apply (H' j r a' Hj) in Ha'. rewrite D in Ha'. destruct Ha as [C1 C2], Ha' as [C1' C2'].
  assert (I1 : incl (rows b) (rows b')) by (intros x Hx; apply S; auto).
  assert (Sub : forall x, In x (rows b') -> x = new \/ In x (rows b)) by (intros x Hx; apply S; exact Hx).
  assert (Cl : forall x, In x (rows b') -> clean (b_desc b) x) by (intros x Hx; rewrite <- D; apply rows_clean; auto).
  assert (Ir : In r (rows b)) by (eapply nth_error_In; eauto).
  assert (Up : a <= a').
  { destruct (Nat.le_gt_cases a a') as [Q|Q]; auto. exfalso. apply C2'. apply (chain_down _ _ a); [lia|]. eapply chain_incl; eauto. }
  split.
  - split; [exact Up|]. destruct (Nat.le_gt_cases a' (a + 1)) as [Q|Q]; auto. exfalso. apply C2.
    apply (chain_shorter (b_desc b) (rows b) (rows b') new Sub Cl); auto. apply (chain_down _ _ a'); [lia|exact C1'].
  - intros ND. destruct (Nat.le_gt_cases a' a) as [Q|Q]; [lia|]. exfalso. apply C2.
    apply (chain_untouched (b_desc b) (rows b) (rows b') new Sub Cl); auto. apply (chain_down _ _ a'); [lia|exact C1'].
Qed.
Print Assumptions C223_another_solution.

(* the example of C13, reordered, and with a solution which dominates two of the others *)
Definition c223_reordered : batch nat :=
  mkBatch [15; 14; 13; 12; 11; 10] [[Fin 3; NInf]; [Fin 4; Fin 0]; [Fin 2; Fin 5]; [Fin 3; Fin 5]; [Fin 2; Fin 5]; [Fin 1; Fin 1]] [false; true] 0.
Definition c223_larger : batch nat :=
  mkBatch [10; 11; 12; 13; 14; 15; 16]
    [[Fin 1; Fin 1]; [Fin 2; Fin 5]; [Fin 3; Fin 5]; [Fin 2; Fin 5]; [Fin 4; Fin 0]; [Fin 3; NInf]; [Fin 3; Fin 3]] [false; true] 0.
Example C223_example :
  wf c223_larger /\ all_no_nan c223_larger /\ (forall r, In r (rows c223_larger) <-> r = (16, [Fin 3; Fin 3]) \/ In r (rows exp_)) /\
  (forall r, In r (rows c223_reordered) <-> In r (rows exp_)) /\
  rmap fst (batch_pareto_ranks co2 c223_reordered false) = Ok [2; 2; 0; 1; 0; 0] /\
  rmap fst (batch_pareto_ranks co2 c223_larger false) = Ok [0; 0; 1; 0; 3; 3; 2].
Proof.
  split; [split; [reflexivity|repeat constructor]|]. split.
  { intros k Hk. unfold no_nan. cbn in Hk. destruct k as [|[|k]]; [| |lia]; repeat constructor. }
  split; [intros r; cbn; intuition (subst; auto)|]. split; [intros r; cbn; intuition (subst; auto)|].
  split; vm_compute; reflexivity.
Qed.

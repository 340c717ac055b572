From Coq Require Import QArith Lqa.
From Verif Require Import Prelude FloatLib BatchModel BatchSpec BatchProofs ParetoModel ParetoSpec ParetoProofs2 GaModel GaSpec GaProofs GaProofs2 GaProofs3.
Close Scope Q_scope.
Open Scope nat_scope.

Section Ga.
Context {V : Type}.
Variable sorter : bool -> list fl -> list nat.
Variable co : list (list fl) -> list nat.
Variable qs : list Q -> list nat.
Variable ev : nat -> list V -> list (list fl).
Hypothesis Hs : argsort_ok sorter.
Hypothesis Hco : reordering co.
Hypothesis Hqs : qargsort_ok qs.

Lemma step_replaces d f cf ops (s s' : state V) : Forall legal ops -> wf (s_pop s) -> evaluates (eval_width (s_pop s)) ev ->
  deterministic f ev -> nan_free f -> b_desc (s_pop s) = [d] -> ready f cf s -> b_len (s_pop s) = g_popsize cf ->
  g_elitist cf = false -> (g_reeval cf = false \/ g_first cf = true) ->
  ga_step sorter co qs ev cf ops s = Ok s' ->
  exists parents ch, b_vals parents = b_vals (s_pop s) /\ evaluated f parents /\ use_operators (s_clock s + 1) parents ops = Ok ch /\
    (b_len ch < g_popsize cf -> exists kept replaced, b_vals (s_pop s') = kept ++ b_vals ch /\
       Permutation (kept ++ replaced) (b_vals (s_pop s)) /\ length replaced = b_len ch /\
       forall x y, In x kept -> In y replaced -> ~ better d (nth 0 (f y) NaN) (nth 0 (f x) NaN)) /\
    (g_popsize cf <= b_len ch -> exists dropped, Permutation (b_vals (s_pop s') ++ dropped) (b_vals ch) /\
       length (b_vals (s_pop s')) = g_popsize cf /\
       forall x y, In x (b_vals (s_pop s')) -> In y dropped -> ~ better d (nth 0 (f y) NaN) (nth 0 (f x) NaN)).
Proof.
  intros HL W HE HD HN Hd HR Hlen Hel HC. unfold ga_step. destruct (extended ev cf ops s) as [[[s1 p] c]|] eqn:E; [|discriminate]. cbn [bind].
  destruct (extended_inv ev cf ops s s1 p c HL W HE E) as (Kp & Kc & Ks & Vp & Vs & F1 & EQ & _).
  destruct (extended_evaluated ev f cf ops s s1 p c HD HR E) as [Ep Ec].
  destruct (extended_children ev cf ops s s1 p c E) as (ch & Vc & U).
  assert (NS : (g_reeval cf && negb (g_first cf))%bool = false) by (destruct HC as [-> | ->]; [auto|apply andb_false_r]). rewrite NS in U.
  specialize (EQ NS).
  match goal with |- rmap _ ?r = Ok _ -> _ => destruct r as [pop|] eqn:ER; [|discriminate] end. cbn [rmap]. intros X; injection X as <-. cbn [s_pop].
  rewrite Hel in ER. exists p, ch. split; [auto|]. split; [auto|]. split; [auto|].
  assert (Dp : b_desc p = [d]) by (destruct Kp as (_ & D & _); congruence).
  assert (Dc : b_desc c = [d]) by (destruct Kc as (_ & D & _); congruence).
  assert (Lc : b_len c = b_len ch) by (unfold b_len; congruence). rewrite Lc in ER.
  destruct (Nat.ltb_spec (b_len ch) (g_popsize cf)) as [Hlt|Hge]; (split; [|intros X]); [intros _|lia|lia|].
  - destruct (best_of _ _ _ (s_pop s1) _) as [k|] eqn:EB; [|discriminate]. cbn in ER. injection ER as <-. rewrite EQ in EB.
    destruct (best_of_keeps sorter co qs ev Hs Hco Hqs d f p _ k (proj1 Kp) Dp Ep HN EB) as (_ & rest & P & HO).
    destruct (best_of_inv _ _ _ Hs Hco Hqs _ _ _ (proj1 Kp) EB) as (_ & _ & _ & _ & L).
    exists (b_vals k), rest. split; [cbn; congruence|]. rewrite Vp in P. split; [auto|]. split; [|auto].
    assert (Lp : b_len p = b_len (s_pop s)) by (unfold b_len; congruence).
    apply Permutation_length in P. rewrite app_length in P. unfold b_len in *. lia.
  - destruct (Nat.eqb_spec (b_len ch) (g_popsize cf)) as [He|He].
    + injection ER as <-. exists []. rewrite app_nil_r, Vc. split; [auto|]. split; [auto|]. intros x y _ [].
    + destruct (best_of_keeps sorter co qs ev Hs Hco Hqs d f c _ pop (proj1 Kc) Dc Ec HN ER) as (_ & rest & P & HO).
      destruct (best_of_inv _ _ _ Hs Hco Hqs _ _ _ (proj1 Kc) ER) as (_ & _ & _ & _ & L).
      exists rest. rewrite Vc in P. split; [auto|]. split; [unfold b_len in *; lia|auto].
Qed.

(* keeping the best n of an unevaluated population ignores the fitness *)
Lemma best_of_split (b : batch V) n b' : wf b -> num_objs b = 1 -> best_of sorter co qs b n = Ok b' ->
  exists rest, Permutation (b_vals b' ++ rest) (b_vals b).
Proof.
  intros W H1 H. unfold best_of in H. rewrite H1 in H. cbn [Nat.leb] in H. unfold take_best in H.
  destruct (argsort sorter b None) as [p|] eqn:EA; [|discriminate]. cbn [bind] in H.
  assert (HP : Permutation p (seq 0 (length (rows b)))).
  { unfold argsort in EA. destruct (optionally_get_obj_index _ _) as [j|]; [|discriminate]. cbn [bind] in EA.
    destruct (descending b j) as [d|]; [|discriminate]. cbn [bind] in EA. unfold column in EA. destruct (_ && _)%bool; [|discriminate].
    cbn [bind] in EA. injection EA as <-. destruct (Hs d (map (fun r => nth (Z.to_nat j) r NaN) (b_ev b))) as [P _].
    rewrite map_length in P. rewrite (rows_length b W). destruct W as [W1 _]. rewrite <- W1. auto. }
  destruct (take_perm (rows b) p HP) as (l & Ll & Nl & Pl). destruct (take_inv b _ b' W H) as (K & L & N).
  exists (map fst (skipn n l)). rewrite <- (map_fst_rows ev b W). rewrite <- Pl. rewrite <- (firstn_skipn n l) at 2. rewrite map_app.
  apply Permutation_app_tail. replace (b_vals b') with (map fst (firstn n l)); [reflexivity|].
  apply nth_error_ext. intros k. rewrite nth_error_map.
  destruct (nth_error (firstn n p) k) as [i|] eqn:Ei.
  - destruct (N k i Ei) as [-> _].
    assert (Hk : k < length (firstn n p)) by (apply nth_error_Some; congruence). rewrite firstn_length in Hk.
    assert (Ei' : nth_error p k = Some i). { rewrite <- (firstn_skipn n p). rewrite nth_error_app1 by (rewrite firstn_length; lia). auto. }
    assert (El : nth_error (firstn n l) k = nth_error (rows b) i).
    { rewrite <- (Nl k i Ei'). rewrite <- (firstn_skipn n l) at 2. rewrite nth_error_app1 by (rewrite firstn_length; lia). auto. }
    rewrite El. rewrite <- (map_fst_rows ev b W), nth_error_map. auto.
  - apply nth_error_None in Ei. unfold b_len in L.
    assert (X : nth_error (b_vals b') k = None) by (apply nth_error_None; lia). rewrite X.
    assert (Y : nth_error (firstn n l) k = None) by (apply nth_error_None; rewrite firstn_length in *; lia). rewrite Y. auto.
Qed.
End Ga.

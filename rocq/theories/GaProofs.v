From Coq Require Import QArith Lqa.
From Verif Require Import Prelude FloatLib BatchModel BatchSpec BatchProofs ParetoModel ParetoSpec ParetoProofs2 GaModel GaSpec.
Close Scope Q_scope.
Open Scope nat_scope.

Lemma gather_inv {A} (l : list A) idx : forall r, gather l idx = Ok r ->
  length r = length idx /\ forall k i, nth_error idx k = Some i -> nth_error r k = nth_error l i /\ i < length l.
Proof.
  unfold gather. induction idx as [|i idx IH]; cbn; intros r H.
  - injection H as <-. split; auto. intros [|k]; discriminate.
  - destruct (nth_error l i) as [x|] eqn:E; [|discriminate].
    destruct (sequence _) as [r'|] eqn:E'; [|discriminate]. injection H as <-. destruct (IH r' eq_refl) as [L N].
    split; [cbn; auto|]. intros [|k] j; cbn; [|apply N]. intros X; injection X as <-. rewrite E. split; auto. apply nth_error_Some. congruence.
Qed.
Lemma gather_In {A} (l : list A) idx r : gather l idx = Ok r -> forall x, In x r -> In x l.
Proof.
  intros H x Hx. destruct (gather_inv l idx r H) as [L N]. apply In_nth_error in Hx. destruct Hx as [k Hk].
  assert (k < length idx) by (rewrite <- L; apply nth_error_Some; congruence).
  destruct (nth_error idx k) as [i|] eqn:E; [|apply nth_error_None in E; lia]. destruct (N k i E) as [X _].
  rewrite Hk in X. eapply nth_error_In; eauto.
Qed.

Section Ga.
Context {V : Type}.
Implicit Types b : batch V.
Lemma take_inv b idx b' : wf b -> take b idx = Ok b' ->
  same_kind b b' /\ b_len b' = length idx /\
  (forall k i, nth_error idx k = Some i -> nth_error (b_vals b') k = nth_error (b_vals b) i /\ nth_error (b_ev b') k = nth_error (b_ev b) i).
Proof.
  intros [W1 W2]. unfold take. destruct (gather (b_vals b) idx) as [vs|] eqn:Ev; [|discriminate]. cbn [bind].
  destruct (gather (b_ev b) idx) as [es|] eqn:Ee; [|discriminate]. cbn [bind]. intros X; injection X as <-.
  destruct (gather_inv _ _ _ Ev) as [Lv Nv]. destruct (gather_inv _ _ _ Ee) as [Le Ne]. unfold same_kind, wf, b_len; cbn.
  split; [split; [split; [lia|]|auto]|]. 2: split; [auto|]. 2: intros k i H; split; [apply Nv|apply Ne]; auto.
  apply Forall_forall. intros r Hr. eapply gather_In in Hr; eauto. apply (proj1 (Forall_forall _ _) W2). auto.
Qed.
Lemma take_ev f b idx b' : wf b -> evaluated f b -> take b idx = Ok b' -> evaluated f b'.
Proof.
  intros W E H. destruct (take_inv b idx b' W H) as ([[W1 _] _] & L & N). unfold evaluated in *.
  apply nth_error_ext. intros k. destruct (nth_error idx k) as [i|] eqn:Ei.
  - destruct (N k i Ei) as [Nv Ne]. rewrite Ne, E, !nth_error_map, Nv. auto.
  - apply nth_error_None in Ei. transitivity (@None (list fl)); [|symmetry]; apply nth_error_None; [|rewrite map_length; fold (b_len b')]; lia.
Qed.

Variable sorter : bool -> list fl -> list nat.
Variable co : list (list fl) -> list nat.
Variable qs : list Q -> list nat.
Hypothesis Hs : argsort_ok sorter.
Hypothesis Hco : reordering co.
Hypothesis Hqs : qargsort_ok qs.

Lemma utils_no_nan b us : wf b -> utils b = Ok us -> all_no_nan b.
Proof.
  intros [W1 W2]. unfold utils. destruct (existsb _ (b_ev b)) eqn:E; [discriminate|]. intros _ k Hk. unfold no_nan.
  apply Forall_forall. intros [v e] Hin. unfold rows, rows_of in Hin. apply in_combine_r in Hin. unfold score; cbn [snd].
  destruct (is_nan (nth k e NaN)) eqn:En; auto. exfalso.
  assert (existsb (fun r => existsb is_nan (firstn (num_objs b) r)) (b_ev b) = true); [|congruence].
  apply existsb_exists. exists e. split; auto. apply existsb_exists. exists (nth k e NaN). split; auto.
  assert (L : length e = eval_width b) by (apply (proj1 (Forall_forall _ _) W2); auto). unfold eval_width in L.
  assert (H : nth_error (firstn (num_objs b) e) k = Some (nth k e NaN)).
  { assert (X : nth_error e k = Some (nth k e NaN)) by (apply nth_error_nth'; lia).
    rewrite <- (firstn_skipn (num_objs b) e) in X at 1. rewrite nth_error_app1 in X by (rewrite firstn_length; lia). auto. }
  eapply nth_error_In; eauto.
Qed.
Lemma best_of_inv b n b' : wf b -> best_of sorter co qs b n = Ok b' ->
  exists idx, take b idx = Ok b' /\ length idx = Nat.min n (b_len b) /\ same_kind b b' /\ b_len b' = Nat.min n (b_len b).
Proof.
  intros W. unfold best_of. destruct (2 <=? num_objs b) eqn:E.
  - intros H. assert (all_no_nan b).
    { unfold take_best_multi, batch_pareto_ranks in H. destruct (utils b) as [us|] eqn:U; [|discriminate]. eapply utils_no_nan; eauto. }
    destruct (take_best_multi_ok co qs b n W H0 Hco Hqs) as (b'' & ranks & kept & dropped & E' & _ & _ & LK & LR & _).
    rewrite H in E'. injection E' as <-. unfold take_best_multi in H. destruct (batch_pareto_ranks co b true) as [rc|]; [|discriminate].
    cbn [bind] in H. eexists. split; [exact H|]. destruct (take_inv _ _ _ W H) as (K & L & _). rewrite (rows_length b' (proj1 K)) in LR. 
    split; [lia|]. split; [auto|lia].
  - unfold take_best, argsort. destruct (optionally_get_obj_index _ _) as [j|]; [|discriminate]. cbn [bind].
    destruct (descending b j) as [d|]; [|discriminate]. cbn [bind]. unfold column. destruct (_ && _)%bool; [|discriminate]. cbn [bind].
    intros H. eexists. split; [exact H|]. destruct (take_inv _ _ _ W H) as (K & L & _).
    assert (LL : length (firstn n (sorter d (map (fun r => nth (Z.to_nat j) r NaN) (b_ev b)))) = Nat.min n (b_len b)).
    { rewrite firstn_length. destruct (Hs d (map (fun r => nth (Z.to_nat j) r NaN) (b_ev b))) as [P _]. apply Permutation_length in P.
      rewrite P, seq_length, map_length. destruct W as [W1 _]. lia. }
    split; [auto|]. split; [auto|lia].
Qed.
Lemma best_of_total b n : wf b -> num_objs b = 1 \/ (2 <= num_objs b /\ all_no_nan b) -> exists b', best_of sorter co qs b n = Ok b'.
Proof.
  intros W [H|[H HN]]; unfold best_of.
  - rewrite H. cbn [Nat.leb]. unfold take_best, argsort, optionally_get_obj_index. rewrite H. cbn [Nat.eqb negb bind].
    unfold descending, num_objs in *. destruct (b_desc b) as [|d [|? ?]] eqn:Ed; try discriminate. cbn [Z.to_nat nth_error bind].
    unfold column, eval_width, num_objs. rewrite Ed. cbn [length]. 
    destruct ((0 <=? 0)%Z && (0 <? Z.of_nat (1 + b_ndata b))%Z)%bool eqn:EE; [|lia]. cbn [bind].
    destruct (take_rows b (firstn n (sorter d (map (fun r : list fl => nth (Z.to_nat 0) r NaN) (b_ev b)))) W) as (b' & -> & _); [|eauto].
    apply Forall_forall. intros i Hi. destruct (Hs d (map (fun r : list fl => nth (Z.to_nat 0) r NaN) (b_ev b))) as [P _].
    assert (In i (sorter d (map (fun r : list fl => nth (Z.to_nat 0) r NaN) (b_ev b)))) by (rewrite <- (firstn_skipn n (sorter _ _)); apply in_or_app; auto).
    eapply Permutation_in in H0; [|exact P]. apply in_seq in H0. rewrite map_length in H0. destruct W. lia.
  - destruct (Nat.leb_spec 2 (num_objs b)); [|lia]. destruct (take_best_multi_ok co qs b n W HN Hco Hqs) as (b' & _ & _ & _ & E & _). eauto.
Qed.

(* ------------------------------------------------------------------ small batches operations *)
Lemma same_kind_refl b : wf b -> same_kind b b.
Proof. intros; split; auto. Qed.
Lemma same_kind_trans a b c : same_kind a b -> same_kind b c -> same_kind a c.
Proof. intros (_ & A2 & A3) (B1 & B2 & B3). split; [auto|]. split; congruence. Qed.
Lemma fresh_kind b vs : same_kind b (fresh b vs).
Proof.
  split; [split; cbn; [apply map_length|]|auto]. apply Forall_map, Forall_forall. intros v _. rewrite repeat_length. auto.
Qed.
Lemma cat_kind a b c : same_kind c a -> same_kind c b -> same_kind c (cat a b).
Proof.
  intros ([A1 A2] & A3 & A4) ([B1 B2] & B3 & B4). unfold same_kind, wf, b_len, eval_width, num_objs in *; cbn.
  rewrite !app_length. split; [split; [lia|]|split; congruence].
  apply Forall_app. split; auto. rewrite A3, A4, <- B3, <- B4. auto.
Qed.
Lemma cat_len a b : b_len (cat a b) = b_len a + b_len b.
Proof. unfold b_len; cbn. apply app_length. Qed.
Lemma head_kind b n : wf b -> same_kind b (head b n).
Proof.
  intros [W1 W2]. unfold same_kind, wf, b_len in *; cbn. rewrite !firstn_length, W1. split; [split; auto|auto].
  apply Forall_forall. intros r Hr. apply (proj1 (Forall_forall _ _) W2). rewrite <- (firstn_skipn n (b_ev b)). apply in_or_app; auto.
Qed.
Lemma tail_kind b n : wf b -> same_kind b (tail b n).
Proof.
  intros [W1 W2]. unfold same_kind, wf, b_len in *; cbn. rewrite !skipn_length, W1. split; [split; auto|auto].
  apply Forall_forall. intros r Hr. apply (proj1 (Forall_forall _ _) W2). rewrite <- (firstn_skipn n (b_ev b)). apply in_or_app; auto.
Qed.
Lemma head_len b n : b_len (head b n) = Nat.min n (b_len b).
Proof. unfold b_len; cbn. apply firstn_length. Qed.
Lemma tail_len b n : b_len (tail b n) = b_len b - n.
Proof. unfold b_len; cbn. apply skipn_length. Qed.
Lemma head_tail b n : wf b -> cat (head b n) (tail b n) = b.
Proof. destruct b. unfold cat, head, tail; cbn. rewrite !firstn_skipn. auto. Qed.
Lemma ev_head f b n : evaluated f b -> evaluated f (head b n).
Proof. unfold evaluated; cbn. intros ->. apply firstn_map. Qed.
Lemma ev_tail f b n : evaluated f b -> evaluated f (tail b n).
Proof. unfold evaluated; cbn. intros ->. apply skipn_map. Qed.
Lemma ev_cat f a b : evaluated f a -> evaluated f b -> evaluated f (cat a b).
Proof. unfold evaluated; cbn. intros -> ->. symmetry. apply map_app. Qed.

Variable ev : nat -> list V -> list (list fl).
Lemma evaluate_inv k b b' : evaluates (eval_width b) ev -> evaluate ev k b = Ok b' ->
  same_kind b b' /\ b_vals b' = b_vals b /\ b_ev b' = ev k (b_vals b) /\ b_vals b <> [].
Proof.
  intros HE. unfold evaluate. destruct (b_vals b) as [|v vs] eqn:E; [discriminate|]. intros X; injection X as <-.
  destruct (HE k (v :: vs)) as [L F]. unfold same_kind, wf, b_len; cbn. rewrite L. split; [|repeat split; discriminate].
  split; [split; auto|auto].
Qed.
Lemma evaluate_total k b : b_vals b <> [] -> exists b', evaluate ev k b = Ok b'.
Proof. unfold evaluate. destruct (b_vals b); [congruence|eauto]. Qed.
Lemma evaluate_vals k b b' : evaluate ev k b = Ok b' -> b_vals b' = b_vals b.
Proof. unfold evaluate. destruct (b_vals b); [discriminate|]. intros X; injection X as <-. auto. Qed.

Lemma use_operator_kind k b op b' : legal op -> wf b -> use_operator k b op = Ok b' -> same_kind b b'.
Proof.
  intros L W. destruct op as [c f|f|g]; cbn in *.
  - apply L; auto.
  - intros H. apply (L k b b' W H).
  - destruct (g k (b_vals b)); [|discriminate]. cbn. intros X; injection X as <-. apply fresh_kind.
Qed.
Lemma use_operators_kind ops : forall k b b', Forall legal ops -> wf b -> use_operators k b ops = Ok b' -> same_kind b b'.
Proof.
  induction ops as [|op ops IH]; cbn; intros k b b' HL W H.
  - injection H as <-. apply same_kind_refl; auto.
  - inversion HL; subst. destruct (use_operator k b op) as [b1|] eqn:E; [|discriminate]. cbn in H.
    pose proof (use_operator_kind k b op b1 H2 W E) as K. eapply same_kind_trans; [exact K|]. eapply IH; eauto. apply K.
Qed.
Lemma use_operators_total ops : forall k b, Forall legal ops -> Forall productive ops -> wf b -> b_vals b <> [] ->
  exists b', use_operators k b ops = Ok b' /\ b_vals b' <> [].
Proof.
  induction ops as [|op ops IH]; cbn; intros k b HL HP W N; [eauto|].
  inversion HL; inversion HP; subst.
  assert (X : exists b1, use_operator k b op = Ok b1 /\ b_vals b1 <> []).
  { destruct op as [c f|f|g]; cbn in *; [apply H5; auto|apply H5; auto|].
    destruct (H5 k (b_vals b) N) as (vs & -> & Nv). cbn. eexists. split; [reflexivity|]. auto. }
  destruct X as (b1 & E & N1). rewrite E. cbn [bind]. apply IH; auto. apply (use_operator_kind k b op b1 H1 W E).
Qed.
End Ga.

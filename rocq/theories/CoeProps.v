(* C229: what all solutions of a task have in common does not matter to a distributed step. *)
From Coq Require Import Reals Lra String.
From Verif Require Import Prelude RankModel RankProofs CemModel DistModel DistProofs WorkModel DsModel DsProps DivProps.
Open Scope R_scope.

(* ---------------------------------------------------------------- specification *)
Definition strictly_increasing (g : R -> R) : Prop := forall x y, x < y -> g x < g y.
(* sorting looks at comparisons only *)
Definition by_comparison (argsort : bool -> list R -> list nat) : Prop :=
  forall descending l g, strictly_increasing g -> argsort descending (map g l) = argsort descending l.
(* the fitnesses on the solutions of one task, as other fitnesses see them: shifted if fitnesses are used raw, distorted in any increasing way if they are ranked *)
Definition distorted (centered : bool) (fitness fitness' : list R -> R) (task : list (list R)) : Prop :=
  exists g, (if centered then strictly_increasing g else exists c, forall y, g y = y + c) /\ forall x, In x task -> fitness' x = g (fitness x).

(* A search: generation t samples around the present center and deviations, and `update` makes the next ones out of the averaged gradients
   (gaussian.py:196-276: whatever the optimizer and its state, the step sees nothing of the fitnesses but those).  The state may carry the optimizer's. *)
Section SEARCH.
  Context {S : Type}.
  Variables center deviations : S -> list R.
  Variable update : S -> list num * list num -> result S.
  Variable draw : nat -> S -> nat -> nat -> list (list R).
  Variable argsort : bool -> list R -> list nat.
  Variables symmetric centered maximize weighted : bool.
  Variable popsize : nat.
  Variables subbatch_size num_subbatches : option nat.
  Variable num_actors : nat.
  (* the fitness may be another one in every generation *)
  Fixpoint searching (fitness : nat -> list R -> R) (generations : nat) (t : nat) (s : S) : result S :=
    match generations with
    | O => Ok s
    | Datatypes.S k =>
        bind (rmap fst (distributed_step (draw t s) (fitness t) argsort symmetric centered maximize weighted popsize subbatch_size num_subbatches num_actors (center s) (deviations s))) (fun g =>
        bind (update s g) (searching fitness k (Datatypes.S t)))
    end.
End SEARCH.

(* ---------------------------------------------------------------- proofs *)
Section SAME.
  Variable draw : nat -> nat -> list (list R).
  Variables fitness fitness' : list R -> R.
  Variable argsort : bool -> list R -> list nat.
  Hypothesis Hc : by_comparison argsort.

  Definition same_answer (a b : answer) : Prop := a_mu a = a_mu b /\ a_sigma a = a_sigma b /\ a_num a = a_num b.
  Lemma gradients_centered F G o r mu sigma X w w' : centered_weights r w = centered_weights r w' -> gradients_of F G o r mu sigma X w = gradients_of F G o r mu sigma X w'.
  Proof using. intros E. unfold gradients_of. rewrite E. reflexivity. Qed.
  Lemma centered_shift w c : centered_weights "raw" (map (fun x => x + c) w) = centered_weights "raw" w.
  Proof using.
    unfold centered_weights, is_centering. cbn [String.eqb Ascii.eqb Bool.eqb orb]. destruct w as [|a w]; [reflexivity|].
    rewrite DistProofs.rmean_shift by discriminate. rewrite map_map. apply map_ext. intros x. ring.
  Qed.
  Lemma gradients_same s c m mu sigma X : distorted c fitness fitness' X ->
    gradients s c mu sigma X (weights_of argsort c m (map fitness' X)) = gradients s c mu sigma X (weights_of argsort c m (map fitness X)).
  Proof using Hc.
    intros [g [Hg Hx]]. assert (E : map fitness' X = map g (map fitness X)) by (rewrite map_map; apply map_ext_in; exact Hx). rewrite E. unfold weights_of. destruct c.
    - rewrite Hc by exact Hg. rewrite map_length. reflexivity.
    - destruct Hg as [k Hk]. set (l := map fitness X). unfold gradients. rewrite !raw_all.
      assert (C : centered_weights "raw" (raw (map g l) m) = centered_weights "raw" (raw l m)).
      { unfold raw. destruct m.
        - rewrite (map_ext _ _ Hk). apply centered_shift.
        - rewrite map_map, (map_ext _ (fun x => - x + - k)) by (intros y; rewrite Hk; ring). rewrite <- (map_map Ropp (fun x => x + - k)). apply centered_shift. }
      destruct s; apply gradients_centered; exact C.
  Qed.
  Lemma task_same s c m mu sigma i n : distorted c fitness fitness' (draw i n) ->
    exists r, (r = Ok tt /\ exists a b, task draw fitness argsort s c m mu sigma i n = Ok a /\ task draw fitness' argsort s c m mu sigma i n = Ok b /\ same_answer a b) \/
      (exists e, r = Err e /\ task draw fitness argsort s c m mu sigma i n = Err e /\ task draw fitness' argsort s c m mu sigma i n = Err e).
  Proof using Hc.
    intros D. unfold task. rewrite (gradients_same s c m mu sigma _ D). destruct (gradients s c mu sigma (draw i n) _) as [g|e]; cbn [bind].
    - exists (Ok tt). left. split; auto. do 2 eexists. split; [reflexivity|]. split; [reflexivity|]. split; [reflexivity|]. split; reflexivity.
    - exists (Err e). right. eauto.
  Qed.
  Lemma tasks_same s c m mu sigma sizes : forall k, (forall i n, nth_error sizes i = Some n -> distorted c fitness fitness' (draw (k + i)%nat n)) ->
    (exists l l', sequence (map2 (task draw fitness argsort s c m mu sigma) (seq k (length sizes)) sizes) = Ok l /\
       sequence (map2 (task draw fitness' argsort s c m mu sigma) (seq k (length sizes)) sizes) = Ok l' /\ Forall2 same_answer l l') \/
    (exists e, sequence (map2 (task draw fitness argsort s c m mu sigma) (seq k (length sizes)) sizes) = Err e /\
       sequence (map2 (task draw fitness' argsort s c m mu sigma) (seq k (length sizes)) sizes) = Err e).
  Proof using Hc.
    induction sizes as [|n sizes IH]; intros k D; cbn [length seq map2 sequence]; [left; exists [], []; repeat split; constructor|].
    pose proof (D 0%nat n eq_refl) as D0. rewrite Nat.add_0_r in D0. destruct (task_same s c m mu sigma k n D0) as [r [[_ [a [b [E1 [E2 SA]]]]]|[e [_ [E1 E2]]]]]; rewrite E1, E2; cbn [bind]; [|right; eauto].
    destruct (IH (S k)) as [[l [l' [F1 [F2 F]]]]|[e [F1 F2]]]; [intros i n' H; replace (S k + i)%nat with (k + S i)%nat by lia; apply D; exact H| |].
    - rewrite F1, F2. left. do 2 eexists. split; [reflexivity|]. split; [reflexivity|]. constructor; assumption.
    - rewrite F1, F2. right. eauto.
  Qed.
  Lemma total_same l l' : Forall2 same_answer l l' -> total_solutions l = total_solutions l' /\ length l = length l'.
  Proof using.
    intros F. unfold total_solutions. split; [generalize 0%nat|]; induction F as [|a b l l' [_ [_ E]] F IH]; cbn; auto. intros t. rewrite E. apply IH.
  Qed.
  Lemma average_same w n (part : answer -> list num) l l' : (forall a b, same_answer a b -> part a = part b) -> Forall2 same_answer l l' -> average w n part l = average w n part l'.
  Proof using.
    intros P F. destruct (total_same l l' F) as [T L]. unfold average.
    assert (W : forall a b, same_answer a b -> task_weight w l a = task_weight w l' b) by (intros a b [_ [_ E]]; unfold task_weight; rewrite T, L, E; reflexivity).
    assert (G : forall (wt wt' : answer -> R) k k', (forall a b, same_answer a b -> wt a = wt' b) -> Forall2 same_answer k k' -> forall acc,
      fold_left (fun acc a => map2 nadd acc (map (nmul (Some (wt a))) (part a))) k acc = fold_left (fun acc a => map2 nadd acc (map (nmul (Some (wt' a))) (part a))) k' acc).
    { intros wt wt' k k' HW FK. induction FK as [|a b k k' SA FK IH]; intros acc; cbn [fold_left]; auto. rewrite (HW a b SA), (P a b SA). apply IH. }
    apply (G _ _ _ _ W F).
  Qed.

  (* C229 *)
Theorem C229_common_effects : forall symmetric centered maximize weighted popsize subbatch_size num_subbatches num_actors mu sigma,
    (forall sizes i n, popsize_per_task popsize subbatch_size num_subbatches num_actors symmetric = Ok sizes -> nth_error sizes i = Some n -> distorted centered fitness fitness' (draw i n)) ->
    rmap fst (distributed_step draw fitness' argsort symmetric centered maximize weighted popsize subbatch_size num_subbatches num_actors mu sigma) =
    rmap fst (distributed_step draw fitness argsort symmetric centered maximize weighted popsize subbatch_size num_subbatches num_actors mu sigma).
  Proof using Hc.
    intros s c m w popsize ss ns actors mu sigma D. unfold distributed_step. destruct (popsize_per_task popsize ss ns actors s) as [sizes|e]; cbn [bind]; [|reflexivity].
    destruct (tasks_same s c m mu sigma sizes 0 (fun i n H => D sizes i n eq_refl H)) as [[l [l' [E1 [E2 F]]]]|[e [E1 E2]]]; rewrite E1, E2; cbn [bind]; [|reflexivity].
    destruct (total_same l l' F) as [T _]. rewrite <- T. destruct (Nat.eqb (total_solutions l) 0); [reflexivity|]. cbn [rmap fst]. do 2 f_equal; symmetry; apply average_same; auto.
    - intros a b [E _]. exact E.
    - intros a b [_ [E _]]. exact E.
  Qed.
End SAME.

Theorem C229_search : forall {S : Type} center deviations update (draw : nat -> S -> nat -> nat -> list (list R)) argsort symmetric centered maximize weighted popsize subbatch_size num_subbatches num_actors fitness fitness',
    by_comparison argsort ->
    (forall t s sizes i n, popsize_per_task popsize subbatch_size num_subbatches num_actors symmetric = Ok sizes -> nth_error sizes i = Some n -> distorted centered (fitness t) (fitness' t) (draw t s i n)) ->
    forall generations t s,
    searching center deviations update draw argsort symmetric centered maximize weighted popsize subbatch_size num_subbatches num_actors fitness' generations t s =
    searching center deviations update draw argsort symmetric centered maximize weighted popsize subbatch_size num_subbatches num_actors fitness generations t s.
Proof.
  intros S0 center deviations update draw argsort sy c m w popsize ss ns actors fitness fitness' HC D. induction generations as [|k IH]; intros t s; cbn [searching]; [reflexivity|].
  rewrite (C229_common_effects (draw t s) (fitness t) (fitness' t) argsort HC) by (intros sizes i n; apply D).
  destruct (rmap fst _) as [g|e]; cbn [bind]; [|reflexivity]. destruct (update s g) as [s'|e]; cbn [bind]; [apply IH|reflexivity].
Qed.
Print Assumptions C229_common_effects.
Print Assumptions C229_search.

(* an example: two tasks of two solutions each, sorted by insertion; one task sees every fitness ten higher, or squared beyond recognition *)
Fixpoint put (d : bool) (l : list R) (a : nat) (m : list nat) : list nat :=
  match m with [] => [a] | b :: t => if (if Rlt_dec (nth (if d then a else b) l 0) (nth (if d then b else a) l 0) then true else false) then b :: put d l a t else a :: m end.
Definition insertion (d : bool) (l : list R) : list nat := fold_right (put d l) [] (seq 0 (length l)).
Lemma put_in d l a m x : In x (put d l a m) -> x = a \/ In x m.
Proof. induction m as [|b m IH]; cbn [put In]; [intros [E|[]]; auto|]. destruct (if Rlt_dec _ _ then true else false); cbn [In]; intros [E|H]; auto. destruct (IH H); auto. Qed.
Lemma put_same g d l a m : strictly_increasing g -> (a < length l)%nat -> Forall (fun b => (b < length l)%nat) m -> put d (map g l) a m = put d l a m.
Proof.
  intros G A F. assert (M : forall i, (i < length l)%nat -> nth i (map g l) 0 = g (nth i l 0)) by (intros i H; rewrite nth_indep with (d' := g 0) by (rewrite map_length; exact H); apply map_nth).
  assert (I : forall x y, g x < g y <-> x < y).
  { intros x y. split; [|apply G]. intros H. destruct (Rtotal_order x y) as [|[->|O]]; auto; [lra|]. apply G in O. lra. }
  induction F as [|b m B F IH]; cbn [put]; auto. rewrite IH, !M by (destruct d; assumption).
  destruct (Rlt_dec (g _) (g _)) as [H|H], (Rlt_dec (nth _ l 0) (nth _ l 0)) as [K|K]; auto; rewrite I in H; contradiction.
Qed.
Lemma insertion_by_comparison : by_comparison insertion.
Proof.
  intros d l g G. unfold insertion. rewrite map_length. assert (F : Forall (fun b => (b < length l)%nat) (seq 0 (length l))) by (apply Forall_forall; intros i H; apply in_seq in H; lia).
  revert F. generalize (seq 0 (length l)). intros s F. enough (fold_right (put d (map g l)) [] s = fold_right (put d l) [] s /\ Forall (fun b => (b < length l)%nat) (fold_right (put d l) [] s)) as [E _] by exact E.
  induction F as [|a s A F [IH1 IH2]]; cbn [fold_right]; [auto|]. rewrite IH1, put_same by assumption. split; auto.
  apply Forall_forall. intros x H. apply put_in in H as [->|H]; auto. rewrite Forall_forall in IH2. auto.
Qed.
Lemma insertion_two a b : a < b -> insertion false [a; b] = [0; 1]%nat.
Proof. intros H. unfold insertion. cbn. destruct (Rlt_dec b a); [lra|reflexivity]. Qed.
Definition far_tasks (i n : nat) : list (list R) := map (fun k => [INR k + match i with O => 0 | _ => 10 end]) (seq 0 n).
Example C229_example : by_comparison insertion /\ popsize_per_task 4 None (Some 2%nat) 0 false = Ok [2; 2]%nat /\
  let fitness := fun x : list R => nth 0 x 0 in
  let other := fun x : list R => if Rlt_dec (nth 0 x 0) 10 then nth 0 x 0 else nth 0 x 0 + 10 in
  (forall c i n, nth_error [2; 2]%nat i = Some n -> distorted c fitness other (far_tasks i n)) /\ other [11] <> fitness [11] /\
  (* what both arrive at, with ranking: a push upwards *)
  rmap fst (distributed_step far_tasks other insertion false true true false 4 None (Some 2%nat) 0 [0] [1]) = Ok ([Some (1/4)], [Some (11/4)]) /\
  rmap fst (distributed_step far_tasks fitness insertion false true true false 4 None (Some 2%nat) 0 [0] [1]) = Ok ([Some (1/4)], [Some (11/4)]).
Proof.
  split; [exact insertion_by_comparison|]. split; [reflexivity|]. cbv zeta.
  assert (D : forall c i n, nth_error [2; 2]%nat i = Some n -> distorted c (fun x : list R => nth 0 x 0) (fun x : list R => if Rlt_dec (nth 0 x 0) 10 then nth 0 x 0 else nth 0 x 0 + 10) (far_tasks i n)).
  { intros c [|[|i]] n E; cbn in E; [| |destruct i; discriminate]; injection E as <-.
    - exists (fun y => y + 0). split; [destruct c; [intros x y; lra|exists 0; auto]|]. intros x [<-|[<-|[]]]; cbn; destruct (Rlt_dec _ _); lra.
    - exists (fun y => y + 10). split; [destruct c; [intros x y; lra|exists 10; auto]|]. intros x [<-|[<-|[]]]; cbn; destruct (Rlt_dec _ _); lra. }
  split; [exact D|]. split; [cbn; destruct (Rlt_dec 11 10); lra|].
  assert (V : rmap fst (distributed_step far_tasks (fun x : list R => nth 0 x 0) insertion false true true false 4 None (Some 2%nat) 0 [0] [1]) = Ok ([Some (1/4)], [Some (11/4)])).
  { assert (T : forall i x y, x < y -> far_tasks i 2 = [[x]; [y]] -> task far_tasks (fun x : list R => nth 0 x 0) insertion false true true [0] [1] i 2 = Ok (mkAnswer [Some ((y - x) / 4)] [Some ((y * y - x * x) / 4)] 2 (Some ((x + y) / 2)))).
    { intros i x y H E. unfold task. rewrite E. cbn [map nth]. unfold weights_of. cbn [negb length]. rewrite (insertion_two x y H). unfold gradients, scatter. cbn. unfold rdivo. repeat (destruct (Req_EM_T _ _); [exfalso; lra|]). cbn. repeat (destruct (Req_EM_T _ _); [exfalso; lra|]). unfold rmean, rsum. cbn.
      match goal with |- Ok (mkAnswer [Some ?a] [Some ?b] 2 (Some ?c)) = Ok (mkAnswer [Some ?a'] [Some ?b'] 2 (Some ?c')) => replace a with a' by field; replace b with b' by field; replace c with c' by field end. reflexivity. }
    unfold distributed_step. change (popsize_per_task 4 None (Some 2%nat) 0 false) with (Ok [2; 2]%nat). cbn [bind length seq map2].
    rewrite (T 0%nat (INR 0 + 0) (INR 1 + 0)), (T 1%nat (INR 0 + 10) (INR 1 + 10)) by (reflexivity || (cbn; lra)). cbn.
    match goal with |- Ok ([Some ?a], [Some ?b]) = Ok ([Some ?a'], [Some ?b']) => replace a with a' by field; replace b with b' by field end. reflexivity. }
  split; [|exact V]. rewrite <- V. apply C229_common_effects; [exact insertion_by_comparison|]. intros sizes i n E H. injection E as <-. apply D. exact H.
Qed.

(* C209: for PGPE, SNES, CEM, XNES and CMAES it matters which solution has which fitness, not in which order the solutions stand in the population. *)
From Coq Require Import QArith Qreals Reals Lra String Sorted FunctionalExtensionality.
From Verif Require Import Prelude FloatLib SortLib MatLib RankModel RankSpec RankProofs CemModel DistModel ClipUpModel FuncModel SafModel XnesModel CmaModel CinModel CmaSpec CmaProofs CmaProofs4 UpProps.
Close Scope Q_scope.
Open Scope R_scope.

(* ---- spec ---- *)
(* the population in another order: p says which solution stands at each place *)
Definition reorder {A} (d : A) (p : list nat) (l : list A) : list A := map (fun i => nth i l d) p.
Definition an_order (p : list nat) (n : nat) : Prop := Permutation p (seq 0 n).
(* each solution gets the same weight wherever it stands *)
Definition follows_order {A B} (dA : A) (dB : B) (good : list A -> Prop) (weigh : list A -> list B) : Prop :=
  forall l p, good l -> an_order p (length l) -> weigh (reorder dA p l) = reorder dB p (weigh l).
(* the same solutions are chosen *)
Definition follows_choice {A} (dA : A) (good : list A -> Prop) (choose : list A -> list nat) : Prop :=
  (forall l i, In i (choose l) -> (i < length l)%nat) /\ forall l p, good l -> an_order p (length l) -> reorder 0%nat (choose (reorder dA p l)) p = choose l.
Definition always {A} (l : list A) : Prop := True.
(* a sorting function for reals *)
Definition sorts (d : bool) (so : list R -> list nat) : Prop :=
  forall l, Permutation (so l) (seq 0 (length l)) /\ StronglySorted (fun i j => if d then nth j l 0 <= nth i l 0 else nth i l 0 <= nth j l 0) (so l).
(* weights which depend on the rank only, as "centered", "linear" and "nes" give them *)
Definition ranked (so : list R -> list nat) (w : nat -> nat -> R) (l : list R) : list R := scatter 0 (so l) (map (w (length l)) (seq 0 (length l))).
(* the same distribution and the same solutions with the same fitnesses *)
Definition same_state {O} (s s' : SafModel.state O) : Prop :=
  SafModel.s_mu _ s' = SafModel.s_mu _ s /\ SafModel.s_sigma _ s' = SafModel.s_sigma _ s /\ s_opt _ s' = s_opt _ s /\ Permutation (combine (s_pop _ s) (s_fits _ s)) (combine (s_pop _ s') (s_fits _ s')).
Definition same_generation (g g' : list vect * list R * option CmaModel.state) : Prop :=
  Permutation (combine (fst (fst g)) (snd (fst g))) (combine (fst (fst g')) (snd (fst g'))) /\ snd g' = snd g.

(* ---- proofs ---- *)
Lemma reorder_length {A} (d : A) p l : length (reorder d p l) = length p.
Proof. apply map_length. Qed.
Lemma order_length p n : an_order p n -> length p = n.
Proof. intros H. apply Permutation_length in H. rewrite seq_length in H. auto. Qed.
Lemma order_bound p n i : an_order p n -> In i p -> (i < n)%nat.
Proof. intros H I. apply (Permutation_in _ H) in I. apply in_seq in I. lia. Qed.
Lemma nth_reorder {A} (d : A) p l k e : (k < length p)%nat -> nth k (reorder d p l) e = nth (nth k p 0%nat) l d.
Proof. intros H. unfold reorder. rewrite (nth_indep _ e (nth 0%nat l d)) by (rewrite map_length; auto). apply (map_nth (fun i => nth i l d)). Qed.
Lemma reorder_seq {A} (d : A) l : reorder d (seq 0 (length l)) l = l.
Proof. unfold reorder. induction l as [|a l IH] using rev_ind; [reflexivity|]. rewrite app_length. cbn [length]. rewrite Nat.add_1_r, seq_S, map_app. cbn [map plus]. f_equal.
  - rewrite <- IH at 2. apply map_ext_in. intros i Hi. apply in_seq in Hi. apply app_nth1. lia.
  - rewrite app_nth2, Nat.sub_diag by lia. reflexivity. Qed.
Lemma reorder_perm {A} (d : A) p l : an_order p (length l) -> Permutation (reorder d p l) l.
Proof. intros H. rewrite <- (reorder_seq d l) at 2. apply Permutation_map. exact H. Qed.
Lemma reorder_map {A B} (f : A -> B) d e p l : (forall i, In i p -> (i < length l)%nat) -> reorder e p (map f l) = map f (reorder d p l).
Proof. intros H. unfold reorder. rewrite map_map. apply map_ext_in. intros i Hi. rewrite (nth_indep _ e (f d)) by (rewrite map_length; auto). apply map_nth. Qed.
Lemma nth_map2 {A B C} (f : A -> B -> C) da db dc : forall a b i, (i < length a)%nat -> (i < length b)%nat -> nth i (map2 f a b) dc = f (nth i a da) (nth i b db).
Proof. induction a as [|x a IH]; intros [|y b] [|i] H1 H2; cbn in *; try lia; auto. apply IH; lia. Qed.
Lemma reorder_map2 {A B C} (f : A -> B -> C) da db dc p a b : (forall i, In i p -> (i < length a)%nat) -> (forall i, In i p -> (i < length b)%nat) ->
  reorder dc p (map2 f a b) = map2 f (reorder da p a) (reorder db p b).
Proof. intros Ha Hb. induction p as [|i p IH]; [reflexivity|]. cbn [reorder map map2]. rewrite (nth_map2 f da db) by (auto using in_eq). f_equal. apply IH; intros; auto using in_cons. Qed.
Lemma perm_index {A} (d : A) (l l' : list A) : Permutation l l' -> exists p, an_order p (length l) /\ l' = reorder d p l.
Proof.
  induction 1 as [|x l l' HP (p & O & E)|x y l|l l' l'' H1 (p & O & E) H2 (q & O' & E')].
  - exists []. split; [constructor|reflexivity].
  - exists (0%nat :: map S p). split.
    + unfold an_order in *. cbn [length seq]. constructor. rewrite <- seq_shift. apply Permutation_map. exact O.
    + cbn [reorder map nth]. f_equal. rewrite E. unfold reorder. rewrite map_map. reflexivity.
  - exists (1%nat :: 0%nat :: seq 2 (length l)). split; [apply perm_swap|]. cbn [reorder map nth]. do 2 f_equal. rewrite <- (reorder_seq d l) at 1. unfold reorder. rewrite <- !seq_shift, !map_map. reflexivity.
  - exists (reorder 0%nat q p). assert (L : length l' = length l) by (apply Permutation_length; symmetry; auto). rewrite L in O'. split.
    + unfold an_order. rewrite <- O. apply reorder_perm. rewrite (order_length _ _ O). exact O'.
    + rewrite E', E. unfold reorder. rewrite map_map. apply map_ext_in. intros i Hi. apply (nth_reorder d p l i d). rewrite (order_length _ _ O). apply (order_bound _ _ _ O' Hi).
Qed.
Lemma rsum_reorder p l : an_order p (length l) -> rsum (reorder 0 p l) = rsum l.
Proof. intros H. apply rsum_perm, reorder_perm, H. Qed.
Lemma sorted_weaken {A} (P Q : A -> A -> Prop) : forall l, (forall x y, In x l -> In y l -> P x y -> Q x y) -> StronglySorted P l -> StronglySorted Q l.
Proof.
  induction l as [|x l IH]; intros H S; constructor; inversion S as [|? ? S' F]; subst.
  - apply IH; auto. intros; apply H; auto using in_cons.
  - rewrite Forall_forall in *. intros y Hy. apply H; auto using in_eq, in_cons.
Qed.
Lemma sorted_map {A B} (f : A -> B) (P : B -> B -> Prop) : forall l, StronglySorted (fun x y => P (f x) (f y)) l -> StronglySorted P (map f l).
Proof. induction 1; cbn; constructor; auto. apply Forall_map. auto. Qed.
(* sorting without ties *)
Section SORT.
Context {F : Type}.
Variables (dF : F) (le : F -> F -> Prop).
Hypothesis anti : forall x y, le x y -> le y x -> x = y.
Lemma sorted_order (l : list F) p q q' : NoDup l -> an_order p (length l) -> an_order q (length l) -> an_order q' (length l) ->
  StronglySorted (fun i j => le (nth i l dF) (nth j l dF)) q -> StronglySorted (fun i j => le (nth i (reorder dF p l) dF) (nth j (reorder dF p l) dF)) q' ->
  reorder 0%nat q' p = q.
Proof.
  intros N Op Oq Oq' S S'. symmetry. apply (sorted_unique_in (fun i j => le (nth i l dF) (nth j l dF))); auto.
  - intros i j Hi Hj A B. apply (proj1 (NoDup_nth l dF) N); eauto using order_bound.
  - unfold reorder at 1. apply (sorted_map (fun k => nth k p 0%nat)). revert S'. apply sorted_weaken. intros x y Hx Hy H. rewrite !(nth_reorder dF p l) in H by (rewrite (order_length _ _ Op); eauto using order_bound). exact H.
  - unfold an_order in *. rewrite Oq. transitivity p; [symmetry; exact Op|]. symmetry. apply reorder_perm. rewrite (order_length _ _ Op). exact Oq'.
Qed.
End SORT.
Lemma scatter_order {F B} (d : B) (l : list F) p q q' ws : reorder 0%nat q' p = q -> an_order p (length l) -> an_order q (length l) -> an_order q' (length l) -> length ws = length l ->
  scatter d q' ws = reorder d p (scatter d q ws).
Proof.
  intros E Op Oq Oq' L. assert (Pq : Permutation q (seq 0 (length ws))) by (rewrite L; exact Oq). assert (Pq' : Permutation q' (seq 0 (length ws))) by (rewrite L; exact Oq').
  destruct (scatter_ok d q ws Pq) as [L1 N1]. destruct (scatter_ok d q' ws Pq') as [L2 N2]. apply nth_error_ext. intros i. destruct (Nat.lt_ge_cases i (length l)) as [Hi|Hi].
  - assert (I : In i q') by (apply (Permutation_in _ (Permutation_sym Oq')), in_seq; lia). apply In_nth_error in I as (k & Hk). assert (Kl : (k < length ws)%nat) by (rewrite L, <- (order_length _ _ Oq'); apply nth_error_Some; congruence).
    destruct (nth_error ws k) as [w|] eqn:Ew; [|apply nth_error_None in Ew; lia]. rewrite (N2 k i w Hk Ew). unfold reorder. rewrite nth_error_map. destruct (nth_error p i) as [pi|] eqn:Ep; [|apply nth_error_None in Ep; rewrite (order_length _ _ Op) in Ep; lia]. cbn [option_map].
    f_equal. symmetry. apply nth_error_nth. apply (N1 k); auto. rewrite <- E. unfold reorder. rewrite nth_error_map, Hk. cbn. f_equal. apply nth_error_nth. auto.
  - rewrite !(proj2 (nth_error_None _ _)); auto; [rewrite reorder_length, (order_length _ _ Op); auto|rewrite L2, L; auto].
Qed.
Lemma tle_anti x y : tle x y = true -> tle y x = true -> x = y.
Proof. destruct x, y; cbn; intros; try discriminate; auto. f_equal. lia. Qed.
Lemma fl_order s s' d x p : argsort_ok s -> argsort_ok s' -> NoDup x -> an_order p (length x) -> reorder 0%nat (s' d (reorder NaN p x)) p = s d x.
Proof.
  intros H H' N O. destruct (H d x) as [P1 S1]. destruct (H' d (reorder NaN p x)) as [P2 S2]. rewrite reorder_length, (order_length _ _ O) in P2. unfold at_ in *.
  apply (sorted_order NaN (fun a b => (if d then tle b a else tle a b) = true)) with (l := x); auto. intros a b; destruct d; intros; apply tle_anti; auto.
Qed.
Lemma ranks_order {B} (dB : B) s s' d (w : nat -> nat -> B) x p : argsort_ok s -> argsort_ok s' -> NoDup x -> an_order p (length x) ->
  scatter dB (s' d (reorder NaN p x)) (map (w (length x)) (seq 0 (length x))) = reorder dB p (scatter dB (s d x) (map (w (length x)) (seq 0 (length x)))).
Proof.
  intros H H' N O. apply (scatter_order dB x); auto; [apply fl_order; auto|apply H| |rewrite map_length, seq_length; auto].
  destruct (H' d (reorder NaN p x)) as [P2 _]. rewrite reorder_length, (order_length _ _ O) in P2. exact P2.
Qed.
Lemma rmean_reorder p l : an_order p (length l) -> rmean (reorder 0 p l) = rmean l.
Proof. intros H. unfold rmean. rewrite rsum_reorder, reorder_length, (order_length _ _ H) by auto. reflexivity. Qed.
Lemma rsum_map_reorder (f : R -> R) p l : an_order p (length l) -> rsum (map f (reorder 0 p l)) = rsum (map f l).
Proof. intros H. apply rsum_perm, Permutation_map, reorder_perm, H. Qed.
Lemma rstd_reorder p l : an_order p (length l) -> rstd (reorder 0 p l) = rstd l.
Proof. intros H. unfold rstd. rewrite rmean_reorder, reorder_length, (order_length _ _ H) by auto. rewrite rsum_map_reorder by auto. reflexivity. Qed.
Lemma cstd_reorder p l : an_order p (length l) -> cstd (reorder 0 p l) = cstd l.
Proof.
  intros H. pose proof (order_length _ _ H) as L. pose proof (rstd_reorder p l H) as E. pose proof (reorder_length 0 p l) as L'. rewrite L in L'. unfold cstd. destruct (reorder 0 p l) as [|a [|b m]], l as [|x [|y k]]; cbn in L'; try lia; auto. rewrite E. reflexivity.
Qed.
Lemma order_all {A} p (l : list A) i : an_order p (length l) -> In i p -> (i < length l)%nat.
Proof. apply order_bound. Qed.
Lemma raw_order h p l : an_order p (length l) -> raw (reorder 0 p l) h = reorder 0 p (raw l h).
Proof. intros H. unfold raw. destruct h; auto. symmetry. apply reorder_map. intros; eapply order_bound; eauto. Qed.
Lemma normalized_order h p l : an_order p (length l) -> normalized (reorder 0 p l) h = reorder None p (normalized l h).
Proof.
  intros H. unfold normalized. change (if h then l else map Ropp l) with (raw l h). change (if h then reorder 0 p l else map Ropp (reorder 0 p l)) with (raw (reorder 0 p l) h). rewrite raw_order by auto.
  assert (H' : an_order p (length (raw l h))) by (unfold raw; destruct h; rewrite ?map_length; auto). generalize dependent (raw l h). intros f H'. rewrite reorder_length, (order_length _ _ H').
  destruct (Nat.eqb (length f) 1); [symmetry; apply reorder_map; intros; eapply order_bound; eauto|]. rewrite rmean_reorder, rstd_reorder by auto. symmetry. apply (reorder_map (fun v => rdiv (v - rmean f) (rstd f))). intros; eapply order_bound; eauto.
Qed.
Lemma nes_order s s' h p x : argsort_ok s -> argsort_ok s' -> NoDup x -> an_order p (length x) -> nes s' (reorder NaN p x) h = reorder 0 p (nes s x h).
Proof.
  intros H H' N O. rewrite (nes_unfold s' H'), (nes_unfold s H). rewrite reorder_length, (order_length _ _ O).
  rewrite (ranks_order 0 s s' (negb h) nes_weight x p) by auto. symmetry. apply reorder_map. intros i Hi.
  rewrite (Permutation_length (rank_perm s H 0 (nes_weight (length x)) x h)), map_length, seq_length. eapply order_bound; eauto.
Qed.
(* ---- gradients ---- *)
Lemma centered_order r p w : an_order p (length w) -> centered_weights r (reorder 0 p w) = reorder 0 p (centered_weights r w).
Proof. intros H. unfold centered_weights. destruct (is_centering r); auto. rewrite rmean_reorder by auto. symmetry. apply (reorder_map (fun x => x - rmean w)). intros; eapply order_bound; eauto. Qed.
Lemma wsum_order p w c : an_order p (length w) -> length c = length w -> wsum (reorder 0 p w) (reorder 0 p c) = wsum w c.
Proof.
  intros H L. unfold wsum. rewrite <- (reorder_map2 Rmult 0 0 0) by (intros; rewrite ?L; eapply order_bound; eauto). apply rsum_reorder. rewrite map2_length, L, Nat.min_id. auto.
Qed.
Lemma wsum_map_order (f : R -> R) p w xs : an_order p (length w) -> length xs = length w -> wsum (reorder 0 p w) (map f (reorder 0 p xs)) = wsum w (map f xs).
Proof. intros H L. rewrite <- (reorder_map f 0 0) by (intros; rewrite L; eapply order_bound; eauto). apply wsum_order; auto. rewrite map_length; auto. Qed.
Lemma divide_order o g p w : an_order p (length w) -> divide_grad o g (reorder 0 p w) = divide_grad o g w.
Proof. intros H. unfold divide_grad. destruct o as [o|]; auto. rewrite rsum_map_reorder, reorder_length, (order_length _ _ H), cstd_reorder by auto. reflexivity. Qed.
Lemma exp_weights_order r p w : an_order p (length w) -> exp_weights r (reorder 0 p w) = option_map (reorder 0 p) (exp_weights r w).
Proof.
  intros H. unfold exp_weights. destruct (String.eqb r "nes"); auto. rewrite rsum_map_reorder by auto. destruct (Req_EM_T _ _); auto. cbn [option_map]. f_equal. symmetry. apply (reorder_map (fun x => x / rsum (map Rabs w))). intros; eapply order_bound; eauto.
Qed.
Lemma exp_len r w v : exp_weights r w = Some v -> length v = length w.
Proof. unfold exp_weights. destruct (String.eqb r "nes"); [intros X; injection X as <-; auto|]. destruct (Req_EM_T _ _); [discriminate|]. intros X. injection X as <-. apply map_length. Qed.
(* mirrored solutions: the places of the pairs *)
Definition pairs_order (p : list nat) : list nat := flat_map (fun i => [2 * i; 2 * i + 1]%nat) p.
Lemma pairs_length p : length (pairs_order p) = (2 * length p)%nat.
Proof. induction p as [|i p IH]; [reflexivity|]. unfold pairs_order in *. cbn [flat_map app length]. rewrite IH. lia. Qed.
Lemma pairs_ok p n : an_order p n -> an_order (pairs_order p) (2 * n).
Proof.
  intros H. unfold an_order, pairs_order in *. transitivity (flat_map (fun i => [2 * i; 2 * i + 1]%nat) (seq 0 n)).
  - apply Permutation_flat_map. exact H.
  - clear H p. induction n as [|n IH]; [constructor|]. rewrite seq_S, flat_map_app. replace (2 * S n)%nat with (S (S (2 * n))) by lia. rewrite !seq_S, <- app_assoc. cbn [plus flat_map app].
    replace (2 * n + 1)%nat with (S (2 * n)) by lia. apply Permutation_app; [exact IH|]. apply Permutation_refl.
Qed.
Lemma nth_evens {A} (d : A) : forall i l, nth i (evens l) d = nth (2 * i) l d.
Proof. induction i as [|i IH]; intros [|x [|y l]]; try reflexivity. - cbn. destruct i; reflexivity. - replace (2 * S i)%nat with (S (S (2 * i))) by lia. apply IH. Qed.
Lemma nth_odds {A} (d : A) : forall i l, nth i (odds l) d = nth (2 * i + 1) l d.
Proof. induction i as [|i IH]; intros [|x [|y l]]; try reflexivity. - cbn. destruct (i + S (i + 0) + 1)%nat; reflexivity. - replace (2 * S i + 1)%nat with (S (S (2 * i + 1))) by lia. apply IH. Qed.
Lemma evens_order {A} (d : A) p l : evens (reorder d (pairs_order p) l) = reorder d p (evens l).
Proof. induction p as [|i p IH]; [reflexivity|]. cbn [pairs_order flat_map app reorder map evens] in *. rewrite nth_evens. f_equal. exact IH. Qed.
Lemma odds_order {A} (d : A) p l : odds (reorder d (pairs_order p) l) = reorder d p (odds l).
Proof. induction p as [|i p IH]; [reflexivity|]. cbn [pairs_order flat_map app reorder map odds] in *. rewrite nth_odds. f_equal. exact IH. Qed.
Lemma evens_map2_len {A} n : forall (l : list A), length l = (2 * n)%nat -> length (evens l) = n /\ length (odds l) = n.
Proof. induction n as [|n IH]; intros [|x [|y l]] L; cbn in L; try lia; auto. destruct (IH l) as [A1 A2]; [lia|]. cbn. lia. Qed.
Lemma flat_nth {A B} (f g : A -> B) dA dB : forall l i, (i < length l)%nat -> nth (2 * i) (flat_map (fun z => [f z; g z]) l) dB = f (nth i l dA) /\ nth (2 * i + 1) (flat_map (fun z => [f z; g z]) l) dB = g (nth i l dA).
Proof.
  induction l as [|z l IH]; intros [|i] H; cbn [length] in H; try lia; [split; reflexivity|]. replace (2 * S i)%nat with (S (S (2 * i))) by lia. replace (S (S (2 * i)) + 1)%nat with (S (S (2 * i + 1))) by lia. cbn [flat_map app nth]. apply IH. lia.
Qed.
Lemma flat_order {A B} (f g : A -> B) dA dB p l : (forall i, In i p -> (i < length l)%nat) ->
  flat_map (fun z => [f z; g z]) (reorder dA p l) = reorder dB (pairs_order p) (flat_map (fun z => [f z; g z]) l).
Proof.
  induction p as [|i p IH]; intros H; [reflexivity|]. cbn [pairs_order flat_map app reorder map] in *. destruct (flat_nth f g dA dB l i) as [-> ->]; [auto using in_eq|]. do 2 f_equal. apply IH. intros; auto using in_cons.
Qed.
Lemma flat_length {A B} (f g : A -> B) l : length (flat_map (fun z => [f z; g z]) l) = (2 * length l)%nat.
Proof. induction l as [|i l IH]; [reflexivity|]. cbn [flat_map app length]. rewrite IH. lia. Qed.

Section RUNS.
Variables (n : nat) (ranking : string) (good : list R -> Prop) (weigh : list R -> list R) (elite : list R -> list nat) (O : Type) (follow : O -> vect -> option (O * vect)).
Variables (K : kind) (lr : R) (L : limits) (f : vect -> R).
Hypothesis W : follows_order 0 0 good weigh.
Hypothesis WL : forall l, length (weigh l) = length l.
Hypothesis E : K = Elites -> follows_choice 0 good elite.
Notation x0 := (fun _ : nat => 0).
Definition places (p : list nat) : list nat := match K with Mirrored _ => pairs_order p | _ => p end.
Lemma draw_length mu sg zs : length (draw K mu sg zs) = (match K with Mirrored _ => 2 * length zs | _ => length zs end)%nat.
Proof using. clear E. unfold draw. destruct K; rewrite ?map_length, ?flat_length; auto. Qed.
Lemma places_ok mu sg p zs : an_order p (length zs) -> an_order (places p) (length (draw K mu sg zs)).
Proof using. clear E. intros H. rewrite draw_length. unfold places. destruct K; auto. apply pairs_ok. auto. Qed.
Lemma draw_order mu sg p zs : an_order p (length zs) -> draw K mu sg (reorder x0 p zs) = reorder x0 (places p) (draw K mu sg zs).
Proof using. clear E. intros H. unfold draw, places. destruct K; try (symmetry; apply (reorder_map (fun z j => mu j + sg j * z j)); intros; eapply order_bound; eauto). apply flat_order. intros; eapply order_bound; eauto. Qed.
Lemma fits_order mu sg p zs : an_order p (length zs) -> map f (draw K mu sg (reorder x0 p zs)) = reorder 0 (places p) (map f (draw K mu sg zs)).
Proof using. intros H. rewrite draw_order by auto. symmetry. apply reorder_map. intros; eapply order_bound; eauto. apply places_ok; auto. Qed.
Lemma coord_order j q pop : an_order q (length pop) -> coord (reorder x0 q pop) j = reorder 0 q (coord pop j).
Proof using. intros H. unfold coord. symmetry. apply (reorder_map (fun x : vect => x j)). intros; eapply order_bound; eauto. Qed.
Section GEN.
Variables (mu sg : vect) (o : O) (p : list nat) (zs : list vect).
Hypothesis Op : an_order p (length zs).
Notation st := (fill O K f mu sg o zs).
Notation st' := (fill O K f mu sg o (reorder x0 p zs)).
Hypothesis G : good (s_fits _ st).
Let q := places p.
Let Oq : an_order q (length (s_pop _ st)).
Proof. apply places_ok. exact Op. Qed.
Lemma pop_order : s_pop _ st' = reorder x0 q (s_pop _ st).
Proof using Op. apply draw_order. exact Op. Qed.
Lemma fit_order : s_fits _ st' = reorder 0 q (s_fits _ st).
Proof using Op. apply fits_order. exact Op. Qed.
Let Lf : length (s_fits _ st) = length (s_pop _ st).
Proof. apply map_length. Qed.
Lemma weigh_order : weigh (s_fits _ st') = reorder 0 q (weigh (s_fits _ st)).
Proof using W G Op. rewrite fit_order. apply W; auto. rewrite Lf. exact Oq. Qed.
Let Lw : length (weigh (s_fits _ st)) = length (s_pop _ st).
Proof. rewrite WL. exact Lf. Qed.
Let Cw : length (centered_weights ranking (weigh (s_fits _ st))) = length (s_pop _ st).
Proof. unfold centered_weights. destruct (is_centering ranking); rewrite ?map_length; exact Lw. Qed.
Lemma chosen_order : K = Elites -> chosen elite O st' = chosen elite O st.
Proof using E G Op.
  intros HK. destruct (E HK) as [R Ch]. unfold chosen. rewrite <- (Ch (s_fits _ st) q) by (auto; rewrite Lf; exact Oq). rewrite <- fit_order. transitivity (map (fun i => nth (nth i q 0%nat) (s_pop _ st) x0) (elite (s_fits _ st'))); [|symmetry; apply map_map]. apply map_ext_in. intros i Hi. apply R in Hi.
  rewrite fit_order, reorder_length in Hi. rewrite pop_order. apply nth_reorder. exact Hi.
Qed.
Lemma pair_len (l : list R) : match K with Mirrored _ => True | _ => False end -> length l = length (s_pop _ st) -> length (evens l) = length zs /\ length (odds l) = length zs.
Proof using. intros HK HL. apply evens_map2_len. rewrite HL. cbn [s_pop fill]. rewrite draw_length. revert HK. case K; try contradiction. reflexivity. Qed.
Lemma mu_grad_order j : mu_grad ranking weigh elite O K st' j = mu_grad ranking weigh elite O K st j.
Proof using W WL E G Op.
  assert (Q : length (coord (s_pop _ st) j) = length (s_pop _ st)) by apply map_length.
  unfold mu_grad. rewrite weigh_order, centered_order by (rewrite Lw; exact Oq). rewrite pop_order, coord_order by exact Oq. change (s_mu O st') with mu. change (s_mu O st) with mu.
  set (w := centered_weights ranking (weigh (s_fits _ st))) in *. set (xs := coord (s_pop _ st) j) in *. pose proof pair_len as PL. assert (PQ : q = match K with Mirrored _ => pairs_order p | _ => p end) by reflexivity. pose proof chosen_order as CO. assert (LE : forall v, exp_weights ranking (weigh (s_fits _ st)) = Some v -> length v = length (s_pop _ st)) by (intros v X; rewrite (exp_len _ _ _ X); exact Lw). destruct K as [op|op| |] eqn:EK.
  - rewrite divide_order by (rewrite Cw; exact Oq). unfold plain_mu. rewrite wsum_map_order by (rewrite ?Q, Cw; auto; exact Oq). reflexivity.
  - rewrite divide_order by (rewrite Cw; exact Oq). f_equal. f_equal. unfold symmetric_mu. rewrite PQ, !evens_order, odds_order. destruct (PL w Logic.I Cw) as [L1 L2]. destruct (PL xs Logic.I Q) as [L3 _].
    rewrite <- (reorder_map2 (fun p m => (p - m) / 2) 0 0 0) by (intros i Hi; rewrite ?L1, ?L2; eapply order_bound; eauto). apply wsum_map_order; rewrite map2_length, L1, L2, Nat.min_id; auto.
  - rewrite exp_weights_order by (rewrite Lw; exact Oq). destruct (exp_weights ranking _) as [v|]; auto. cbn [option_map]. specialize (LE v eq_refl). f_equal. unfold exp_mu. apply wsum_map_order; rewrite LE; auto.
  - rewrite CO by auto. reflexivity.
Qed.
Lemma sigma_grad_order j : sigma_grad ranking weigh elite O K st' j = sigma_grad ranking weigh elite O K st j.
Proof using W WL E G Op.
  assert (Q : length (coord (s_pop _ st) j) = length (s_pop _ st)) by apply map_length.
  unfold sigma_grad. rewrite weigh_order, centered_order by (rewrite Lw; exact Oq). rewrite pop_order, coord_order by exact Oq. change (s_mu O st') with mu. change (s_mu O st) with mu. change (SafModel.s_sigma O st') with sg. change (SafModel.s_sigma O st) with sg.
  set (w := centered_weights ranking (weigh (s_fits _ st))) in *. set (xs := coord (s_pop _ st) j) in *. pose proof pair_len as PL. assert (PQ : q = match K with Mirrored _ => pairs_order p | _ => p end) by reflexivity. pose proof chosen_order as CO. assert (LE : forall v, exp_weights ranking (weigh (s_fits _ st)) = Some v -> length v = length (s_pop _ st)) by (intros v X; rewrite (exp_len _ _ _ X); exact Lw). destruct K as [op|op| |] eqn:EK.
  - rewrite divide_order by (rewrite Cw; exact Oq). unfold plain_sigma. rewrite wsum_map_order by (rewrite ?Q, Cw; auto; exact Oq). reflexivity.
  - rewrite divide_order by (rewrite Cw; exact Oq). f_equal. f_equal. f_equal. unfold symmetric_sigma. rewrite PQ, !evens_order, odds_order. destruct (PL w Logic.I Cw) as [L1 L2]. destruct (PL xs Logic.I Q) as [L3 _].
    rewrite <- (reorder_map2 (fun p m => (p + m) / 2) 0 0 0) by (intros i Hi; rewrite ?L1, ?L2; eapply order_bound; eauto). apply wsum_map_order; rewrite map2_length, L1, L2, Nat.min_id; auto.
  - rewrite exp_weights_order by (rewrite Lw; exact Oq). destruct (exp_weights ranking _) as [v|]; auto. cbn [option_map]. specialize (LE v eq_refl). f_equal. f_equal. unfold exp_sigma. apply wsum_map_order; rewrite LE; auto.
  - rewrite CO by auto. reflexivity.
Qed.
Lemma state_order : same_state st st'.
Proof using Op.
  repeat split. rewrite pop_order, fit_order. assert (C : forall (l : list vect) (m : list R) r, length m = length l -> an_order r (length l) -> Permutation (combine l m) (combine (reorder x0 r l) (reorder 0 r m))).
  { clear. intros l m r HL HO. symmetry. rewrite <- (reorder_perm (x0, 0) r (combine l m)) by (rewrite combine_length, HL, Nat.min_id; auto).
    assert (X : forall r, (forall i, In i r -> (i < length l)%nat) -> reorder (x0, 0) r (combine l m) = combine (reorder x0 r l) (reorder 0 r m)).
    { clear r HO. induction r as [|i r IH]; intros H; [reflexivity|]. cbn [reorder map combine] in *. rewrite combine_nth by auto. f_equal. apply IH. intros; auto using in_cons. }
    rewrite X; [reflexivity|]. intros; eapply order_bound; eauto. }
  apply C; auto.
Qed.
End GEN.
Lemma step_order mu sg o p zs zs1 : an_order p (length zs) -> good (s_fits _ (fill O K f mu sg o zs)) ->
  step n ranking weigh elite O follow K lr L f (fill O K f mu sg o (reorder x0 p zs)) zs1 = step n ranking weigh elite O follow K lr L f (fill O K f mu sg o zs) zs1.
Proof using W WL E.
  intros Op G. unfold step. rewrite (functional_extensionality _ _ (mu_grad_order mu sg o p zs Op G)), (functional_extensionality _ _ (sigma_grad_order mu sg o p zs Op G)). reflexivity.
Qed.
Lemma steps_order : forall draws draws' mu sg o zs zs', Permutation zs zs' -> Forall2 (@Permutation vect) draws draws' ->
  (forall s, In s (steps n ranking weigh elite O follow K lr L f (fill O K f mu sg o zs) draws) -> good (s_fits _ s)) ->
  Forall2 same_state (steps n ranking weigh elite O follow K lr L f (fill O K f mu sg o zs) draws) (steps n ranking weigh elite O follow K lr L f (fill O K f mu sg o zs') draws').
Proof using W WL E.
  intros draws draws' mu sg o zs zs' HP D. revert mu sg o zs zs' HP. induction D as [|z1 z1' draws draws' H1 D IH]; intros mu sg o zs zs' HP G; destruct (perm_index x0 zs zs' HP) as (p & Op & ->).
  - cbn. constructor; [|constructor]. apply state_order. auto.
  - assert (G0 : good (s_fits _ (fill O K f mu sg o zs))) by (apply G; cbn [steps]; left; reflexivity). cbn [steps]. constructor; [apply state_order; auto|]. rewrite step_order by auto.
    cbn [steps] in G. assert (X : forall z, step n ranking weigh elite O follow K lr L f (fill O K f mu sg o zs) z = match step n ranking weigh elite O follow K lr L f (fill O K f mu sg o zs) z1 with None => None | Some t => Some (fill O K f (s_mu _ t) (SafModel.s_sigma _ t) (s_opt _ t) z) end).
    { intros z. unfold step. destruct (finite n (mu_grad _ _ _ _ _ _)); [|reflexivity]. destruct (finite n (sigma_grad _ _ _ _ _ _)); [|reflexivity]. destruct (follow _ _) as [[o1 d]|]; reflexivity. }
    rewrite (X z1'). rewrite (X z1) in G |- *. destruct (step _ _ _ _ _ _ _ _ _ _ _ z1) as [t|]; [|constructor]. apply IH; auto. intros s Hs. apply G. right. exact Hs.
Qed.
End RUNS.

(* ---- CMAES ---- *)
Section CMAES.
Variables (P : params) (chol : mat -> option mat) (topk : nat -> list R -> list nat) (order : list R -> list nat) (f : vect -> R) (good : list R -> Prop).
Hypothesis Ok_ : rates_ok P.
Hypothesis TK : topk_ok topk.
Hypothesis OO : forall l, an_order (order l) (length l).
Hypothesis OC : follows_choice 0 good order.
Section ONE.
Variables (p idx idx' : list nat).
Hypothesis Op : an_order p (p_popsize P).
Hypothesis Oi : an_order idx (p_popsize P).
Hypothesis Oi' : an_order idx' (p_popsize P).
Hypothesis Ei : reorder 0%nat idx' p = idx.
Lemma assigned_length r : an_order r (p_popsize P) -> length (assigned P r) = p_popsize P.
Proof using. intros H. unfold assigned. rewrite map_length, (order_length _ _ H). destruct (scatter_ok 0%nat r (seq 0 (p_popsize P))) as [L _]; [rewrite seq_length; exact H|]. rewrite L, seq_length. reflexivity. Qed.
Lemma assigned_order : assigned P idx' = reorder 0 p (assigned P idx).
Proof using Op Oi Oi' Ei.
  unfold assigned. rewrite (order_length _ _ Oi), (order_length _ _ Oi'). pose proof (scatter_order 0%nat (seq 0 (p_popsize P)) p idx idx' (seq 0 (p_popsize P)) Ei) as S. rewrite seq_length in S. rewrite S by auto.
  symmetry. apply (reorder_map (fun r => nth r (weights P) 0)). intros i Hi. destruct (scatter_ok 0%nat idx (seq 0 (p_popsize P))) as [L _]; [rewrite seq_length; exact Oi|]. rewrite L, seq_length. exact (order_bound _ _ _ Op Hi).
Qed.
Lemma displacement_sum r vs i : an_order r (p_popsize P) -> displacement P topk vs (assigned P r) i = rsum (map (fun k => nth k (assigned P r) 0 * nth k vs vzero i) (firstn (mu_of (p_popsize P)) r)).
Proof using Ok_ TK.
  intros H. destruct (neg_mass_bounds P Ok_) as (N & _). pose proof Ok_ as (_ & H2 & _). unfold displacement, vsum. rewrite <- (rsum_perm _ _ (Permutation_map _ (topk_is_best P topk r TK H2 N H))).
  f_equal. generalize (topk (mu_of (p_popsize P)) (assigned P r)). intros l. unfold pick. induction l as [|k l IH]; [reflexivity|]. cbn [map map2]. f_equal. exact IH.
Qed.
Lemma displacement_order vs : length vs = p_popsize P -> displacement P topk (reorder vzero p vs) (assigned P idx') = displacement P topk vs (assigned P idx).
Proof using Ok_ TK Op Oi Oi' Ei.
  intros L. apply functional_extensionality. intros i. rewrite !displacement_sum by auto. replace (firstn (mu_of (p_popsize P)) idx) with (map (fun k => nth k p 0%nat) (firstn (mu_of (p_popsize P)) idx')) by (rewrite <- Ei; symmetry; apply firstn_map). rewrite map_map. f_equal. apply map_ext_in. intros k Hk.
  assert (Kp : (k < length p)%nat). { rewrite (order_length _ _ Op). eapply (order_bound idx'); [exact Oi'|]. rewrite <- (firstn_skipn (mu_of (p_popsize P)) idx'). apply in_or_app. auto. }
  rewrite assigned_order, (nth_reorder vzero p vs k) by auto. f_equal. apply (nth_reorder 0 p (assigned P idx) k 0 Kp).
Qed.
Lemma rsum_map2_order {X} (dx : X) (g : R -> X -> R) a b : length a = p_popsize P -> length b = p_popsize P -> rsum (map2 g (reorder 0 p a) (reorder dx p b)) = rsum (map2 g a b).
Proof using Op.
  intros La Lb. rewrite <- (reorder_map2 g 0 dx 0) by (intros; rewrite ?La, ?Lb; eapply (order_bound p); eauto). apply rsum_reorder. rewrite map2_length, La, Lb, Nat.min_id. exact Op.
Qed.
Lemma reweighted_order ws zs : length ws = p_popsize P -> length zs = p_popsize P -> reweighted P (reorder 0 p ws) (reorder vzero p zs) = reorder 0 p (reweighted P ws zs).
Proof using Op. intros La Lb. unfold reweighted. case (p_active P); auto. symmetry. apply reorder_map2; intros; rewrite ?La, ?Lb; eapply (order_bound p); eauto. Qed.
Lemma msum_map2 {X} (g : R -> X -> mat) i j : forall a b, msum (map2 g a b) i j = rsum (map2 (fun w y => g w y i j) a b).
Proof using. unfold msum. induction a as [|w a IH]; intros [|y b]; try reflexivity. cbn [map2 map]. unfold rsum in *. cbn [fold_right]. rewrite IH. reflexivity. Qed.
Lemma update_order C pc zs ys ws h : length zs = p_popsize P -> length ys = p_popsize P -> length ws = p_popsize P ->
  update_C P C pc (reorder vzero p zs) (reorder vzero p ys) (reorder 0 p ws) h = update_C P C pc zs ys ws h.
Proof using Op.
  intros Lz Ly Lw. assert (La : length (reweighted P ws zs) = p_popsize P) by (unfold reweighted; case (p_active P); rewrite ?map2_length, ?Lw, ?Lz, ?Nat.min_id; reflexivity). unfold update_C. rewrite reweighted_order by auto. case (p_separable P).
  - f_equal. apply functional_extensionality. intros j. cbv zeta. rewrite (rsum_map2_order vzero) by auto. reflexivity.
  - cbv zeta. do 4 f_equal. apply functional_extensionality. intros i. apply functional_extensionality. intros j. rewrite !msum_map2. apply (rsum_map2_order vzero); auto.
Qed.
Lemma ys_order s zs : length zs = p_popsize P -> ys_of P s (reorder vzero p zs) = reorder vzero p (ys_of P s zs).
Proof using Op. intros L. unfold ys_of. symmetry. apply reorder_map. intros; rewrite L; eapply (order_bound p); eauto. Qed.
Lemma cma_step_order c s zs : length zs = p_popsize P -> cma_step P c topk s (reorder vzero p zs) idx' = cma_step P c topk s zs idx.
Proof using Ok_ TK Op Oi Oi' Ei.
  intros L. assert (Ly : length (ys_of P s zs) = p_popsize P) by (unfold ys_of; rewrite map_length; auto). unfold cma_step. rewrite ys_order by auto. rewrite !displacement_order by auto. rewrite assigned_order. rewrite update_order by (auto; apply assigned_length; auto). reflexivity.
Qed.
End ONE.
Lemma generation_order s zs zs' : length zs = p_popsize P -> Permutation zs zs' -> good (snd (fst (generation P chol topk order f s zs))) ->
  same_generation (generation P chol topk order f s zs) (generation P chol topk order f s zs').
Proof using Ok_ TK OO OC.
  intros L HP G. destruct (perm_index vzero zs zs' HP) as (p & Op & ->). pose proof Op as Op'. rewrite L in Op'. cbn [generation fst snd] in G.
  assert (Lx : length (xs_of P s zs) = p_popsize P) by (unfold xs_of, ys_of; rewrite !map_length; auto). set (fits := map f (xs_of P s zs)) in *. assert (Lf : length fits = p_popsize P) by (unfold fits; rewrite map_length; auto).
  assert (Ex : xs_of P s (reorder vzero p zs) = reorder vzero p (xs_of P s zs)).
  { unfold xs_of. rewrite (ys_order p Op' s zs L). symmetry. apply reorder_map. intros; unfold ys_of; rewrite map_length, L; eapply (order_bound p); eauto. }
  assert (Ef : map f (xs_of P s (reorder vzero p zs)) = reorder 0 p fits) by (rewrite Ex; symmetry; apply reorder_map; intros; rewrite Lx; eapply (order_bound p); eauto).
  destruct OC as [_ Ch]. assert (Of : an_order p (length fits)) by (rewrite Lf; auto). assert (Ei : reorder 0%nat (order (reorder 0 p fits)) p = order fits) by (apply Ch; auto).
  pose proof (OO fits) as O1. pose proof (OO (reorder 0 p fits)) as O2. rewrite reorder_length, (order_length _ _ Of) in O2. rewrite Lf in O1, O2.
  unfold same_generation, generation. cbn [fst snd]. rewrite Ef. fold fits. split.
  - rewrite Ex. assert (X : forall (l : list vect) (m : list R) r, (forall i, In i r -> (i < length l)%nat) -> length m = length l -> reorder (vzero, 0) r (combine l m) = combine (reorder vzero r l) (reorder 0 r m)).
    { clear. intros l m r H Lm. induction r as [|i r IH]; [reflexivity|]. cbn [reorder map combine] in *. rewrite combine_nth by auto. f_equal. apply IH. intros; auto using in_cons. }
    rewrite <- X by (rewrite ?Lx; auto; intros; eapply (order_bound p); eauto). symmetry. apply reorder_perm. rewrite combine_length, Lx, Lf, Nat.min_id. auto.
  - rewrite (cma_step_order p (order fits) (order (reorder 0 p fits))) by auto. reflexivity.
Qed.
Lemma generations_order : forall draws draws' s, Forall (fun zs => length zs = p_popsize P) draws -> Forall2 (@Permutation vect) draws draws' ->
  (forall g, In g (generations P chol topk order f s draws) -> good (snd (fst g))) ->
  Forall2 same_generation (generations P chol topk order f s draws) (generations P chol topk order f s draws').
Proof using Ok_ TK OO OC.
  intros draws draws' s FL D. revert s FL. induction D as [|z z' draws draws' HP D IH]; intros s FL G; [constructor|]. inversion FL as [|? ? Lz FL']; subst. cbn [generations] in *.
  pose proof (generation_order s z z' Lz HP (G _ (or_introl eq_refl))) as SG. constructor; auto. destruct SG as [_ SG]. rewrite SG. destruct (snd (generation P chol topk order f s z)) as [s1|]; [|constructor]. apply IH; auto. intros g Hg. apply G. right. exact Hg.
Qed.
End CMAES.
(* ---- XNES ---- *)
Lemma xnes_d_order n D w (xs : list vect) p : an_order p (length w) -> length xs = length w -> d_grad n D (reorder 0 p w) (reorder (vzero : vect) p xs) = d_grad n D w xs.
Proof.
  intros H L. unfold d_grad. apply functional_extensionality. intros i. rewrite <- (reorder_map2 _ 0 (vzero : vect) 0) by (intros; rewrite ?L; eapply (order_bound p); eauto). apply rsum_reorder. rewrite map2_length, L, Nat.min_id. exact H.
Qed.
Lemma xnes_M_order n D w (xs : list vect) p : an_order p (length w) -> length xs = length w -> M_grad n D (reorder 0 p w) (reorder (vzero : vect) p xs) = M_grad n D w xs.
Proof.
  intros H L. unfold M_grad. apply functional_extensionality. intros i. apply functional_extensionality. intros j. rewrite <- (reorder_map2 _ 0 (vzero : vect) 0) by (intros; rewrite ?L; eapply (order_bound p); eauto). apply rsum_reorder. rewrite map2_length, L, Nat.min_id. exact H.
Qed.
(* ---- sorted reals ---- *)
Lemma real_order d so : sorts d so -> follows_choice 0 (@NoDup R) so.
Proof.
  intros S. split; [intros l i Hi; destruct (S l) as [H _]; eapply (order_bound (so l)); eauto|]. intros l p N O. destruct (S l) as [P1 S1]. destruct (S (reorder 0 p l)) as [P2 S2]. rewrite reorder_length, (order_length _ _ O) in P2.
  apply (sorted_order 0 (fun a b => if d then b <= a else a <= b)) with (l := l); auto. intros a b; destruct d; intros; lra.
Qed.
Lemma ranked_order d so w : sorts d so -> follows_order 0 0 (@NoDup R) (ranked so w).
Proof.
  intros S l p N O. unfold ranked. rewrite reorder_length, (order_length _ _ O). apply (scatter_order 0 l); auto; [apply (real_order d so S); auto|apply S| |rewrite map_length, seq_length; auto].
  destruct (S (reorder 0 p l)) as [P2 _]. rewrite reorder_length, (order_length _ _ O) in P2. exact P2.
Qed.
Lemma ranked_length d so w l : sorts d so -> length (ranked so w l) = length l.
Proof. intros S. unfold ranked. destruct (scatter_ok 0 (so l) (map (w (length l)) (seq 0 (length l)))) as [L _]; [rewrite map_length, seq_length; apply S|]. rewrite L, map_length, seq_length. reflexivity. Qed.

(* ---- theorems ---- *)
(* the ranking methods; two different sorting functions, as the order of a sorting function is free where there are ties *)
Theorem C209_rankings : forall s s' h x p, argsort_ok s -> argsort_ok s' -> NoDup x -> an_order p (length x) ->
  centered s' (reorder NaN p x) h = reorder None p (centered s x h) /\ linear s' (reorder NaN p x) h = reorder None p (linear s x h) /\ nes s' (reorder NaN p x) h = reorder 0 p (nes s x h).
Proof.
  intros s s' h x p H H' N O. split; [|split; [|apply nes_order; auto]].
  - unfold centered. rewrite reorder_length, (order_length _ _ O). apply (ranks_order None s s' (negb h) centered_weight); auto.
  - unfold linear. rewrite reorder_length, (order_length _ _ O). apply (ranks_order None s s' (negb h) linear_weight); auto.
Qed.
(* these also with ties *)
Theorem C209_values : forall h x p, an_order p (length x) -> normalized (reorder 0 p x) h = reorder None p (normalized x h) /\ raw (reorder 0 p x) h = reorder 0 p (raw x h).
Proof. intros h x p O. split; [apply normalized_order|apply raw_order]; auto. Qed.
(* the same solutions are the elites of CEM, in the same order *)
Theorem C209_elites : forall s s' ratio x p, argsort_ok s -> argsort_ok s' -> NoDup x -> an_order p (length x) ->
  reorder 0%nat (elite_indices s' (length x) ratio (reorder NaN p x)) p = elite_indices s (length x) ratio x.
Proof. intros s s' ratio x p H H' N O. unfold elite_indices. rewrite <- (fl_order s s' true x p H H' N O). symmetry. apply firstn_map. Qed.
(* whole runs of PGPE, SNES and CEM: the draws of each generation come in another order *)
Theorem C209_search : forall n ranking good weigh elite O (follow : O -> vect -> option (O * vect)) K lr L f mu sg o zs zs' draws draws',
  follows_order 0 0 good weigh -> (forall l, length (weigh l) = length l) -> (K = Elites -> follows_choice 0 good elite) -> Permutation zs zs' -> Forall2 (@Permutation vect) draws draws' ->
  (forall s, In s (search n ranking weigh elite O follow K lr L f mu sg o zs draws) -> good (s_fits _ s)) ->
  Forall2 same_state (search n ranking weigh elite O follow K lr L f mu sg o zs draws) (search n ranking weigh elite O follow K lr L f mu sg o zs' draws').
Proof. intros n r good we el O fo K lr L f mu sg o zs zs' draws draws' W WL E HP D G. unfold search in *. apply (steps_order n r good we el O fo K lr L f W WL E); auto. Qed.
(* which weights and choices: by rank when no two fitnesses are equal, by value always *)
Theorem C209_weights : forall d so w h, sorts d so -> follows_order 0 0 (@NoDup R) (ranked so w) /\ (forall l, length (ranked so w l) = length l) /\
  follows_order 0 0 always (fun l => raw l h) /\ follows_order 0 0 always (fun l => map (fun o => match o with Some x => x | None => 0 end) (normalized l h)) /\
  forall k, follows_choice 0 (@NoDup R) (fun l => firstn k (so l)).
Proof.
  intros d so w h S. split; [apply (ranked_order d); auto|]. split; [intros; apply (ranked_length d); auto|]. split; [intros l p _ O; apply raw_order; auto|]. split.
  - intros l p _ O. rewrite normalized_order by auto. symmetry. apply reorder_map. intros i Hi. unfold normalized. destruct (Nat.eqb _ 1); rewrite map_length; destruct h; rewrite ?map_length; exact (order_bound _ _ _ O Hi).
  - intros k. destruct (real_order d so S) as [Ra Ch]. split; [intros l i Hi; apply Ra; rewrite <- (firstn_skipn k (so l)); apply in_or_app; auto|]. intros l p N O. rewrite <- (Ch l p N O). symmetry. apply firstn_map.
Qed.
(* XNES: both gradients, for any weights *)
Theorem C209_xnes : forall n D w (xs : list vect) p, an_order p (length w) -> length xs = length w ->
  d_grad n D (reorder 0 p w) (reorder vzero p xs) = d_grad n D w xs /\ M_grad n D (reorder 0 p w) (reorder vzero p xs) = M_grad n D w xs.
Proof. intros n D w xs p O L. split; [apply xnes_d_order|apply xnes_M_order]; auto. Qed.
(* whole runs of CMAES *)
Theorem C209_cmaes : forall P chol topk order f d s draws draws', rates_ok P -> topk_ok topk -> sorts d order -> Forall (fun zs => length zs = p_popsize P) draws -> Forall2 (@Permutation vect) draws draws' ->
  (forall g, In g (generations P chol topk order f s draws) -> NoDup (snd (fst g))) ->
  Forall2 same_generation (generations P chol topk order f s draws) (generations P chol topk order f s draws').
Proof. intros P chol tk order f d s draws draws' RO TK S FL D G. apply (generations_order P chol tk order f (@NoDup R)); auto; [intros l; apply S|apply (real_order d); auto]. Qed.
(* with equal fitnesses it is otherwise: exchange two different solutions with the same fitness, and the gradient is another one *)
Definition exchange (n i j : nat) : list nat := map (fun k => if Nat.eqb k i then j else if Nat.eqb k j then i else k) (seq 0 n).
Lemma exchange_ok n i j : (i < n)%nat -> (j < n)%nat -> an_order (exchange n i j) n.
Proof.
  intros Hi Hj. unfold an_order, exchange. apply NoDup_Permutation_bis.
  - apply FinFun.Injective_map_NoDup; [|apply seq_NoDup]. intros a b. destruct (Nat.eqb_spec a i), (Nat.eqb_spec a j), (Nat.eqb_spec b i), (Nat.eqb_spec b j); lia.
  - rewrite map_length. auto.
  - intros x Hx. apply in_map_iff in Hx as (k & <- & Hk). apply in_seq in Hk. apply in_seq. destruct (Nat.eqb k i), (Nat.eqb k j); lia.
Qed.
Lemma exchange_nth n i j k : (k < n)%nat -> nth k (exchange n i j) 0%nat = if Nat.eqb k i then j else if Nat.eqb k j then i else k.
Proof. intros H. unfold exchange. rewrite (nth_indep _ 0%nat ((fun k => if Nat.eqb k i then j else if Nat.eqb k j then i else k) 0%nat)) by (rewrite map_length, seq_length; auto). rewrite (map_nth (fun k => if Nat.eqb k i then j else if Nat.eqb k j then i else k)), seq_nth by auto. reflexivity. Qed.
Lemma reorder_exchange {A} (d : A) l i j : (i < length l)%nat -> (j < length l)%nat -> nth i l d = nth j l d -> reorder d (exchange (length l) i j) l = l.
Proof.
  intros Hi Hj E. rewrite <- (reorder_seq d l) at 3. unfold reorder, exchange. rewrite map_map. apply map_ext. intros k. destruct (Nat.eqb_spec k i) as [->|]; auto. destruct (Nat.eqb_spec k j) as [->|]; auto.
Qed.
Definition real_weights (u : list (option Q)) : list R := map (fun o => match o with Some q => Q2R q | None => 0 end) u.
Lemma centered_distinct s h x i j : argsort_ok s -> (i < length x)%nat -> (j < length x)%nat -> i <> j -> nth i (real_weights (centered s x h)) 0 <> nth j (real_weights (centered s x h)) 0.
Proof.
  intros S Hi Hj N. destruct (S (negb h) x) as [P _]. assert (PW : Permutation (s (negb h) x) (seq 0 (length (map (centered_weight (length x)) (seq 0 (length x)))))) by (rewrite map_length, seq_length; exact P).
  destruct (scatter_ok None _ _ PW) as [L Sc]. assert (G : forall a, (a < length x)%nat -> exists k, (k < length x)%nat /\ nth_error (s (negb h) x) k = Some a /\ nth a (real_weights (centered s x h)) 0 = match centered_weight (length x) k with Some q => Q2R q | None => 0 end).
  { intros a Ha. assert (I : In a (s (negb h) x)) by (apply (Permutation_in _ (Permutation_sym P)), in_seq; lia). apply In_nth_error in I as (k & Hk). assert (Kl : (k < length x)%nat) by (rewrite <- (order_length _ _ P); apply nth_error_Some; congruence).
    exists k. split; auto. split; auto. apply nth_error_nth. unfold real_weights. rewrite nth_error_map. unfold centered. rewrite (Sc k a (centered_weight (length x) k) Hk); [reflexivity|]. rewrite nth_error_map, (nth_error_nth' _ 0%nat) by (rewrite seq_length; auto). rewrite seq_nth by auto. reflexivity. }
  assert (Cm : forall k l, (k < l < length x)%nat -> match centered_weight (length x) k with Some q => Q2R q | None => 0 end < match centered_weight (length x) l with Some q => Q2R q | None => 0 end).
  { intros k l H. pose proof (cw_mono (length x) k l ltac:(lia) H) as M. unfold olt in M. destruct (centered_weight _ k), (centered_weight _ l); try contradiction. apply Qlt_Rlt. exact M. }
  destruct (G i Hi) as (k & Kl & Ek & ->). destruct (G j Hj) as (l & Ll & El & ->). destruct (Nat.lt_trichotomy k l) as [H|[->|H]]; [|congruence|].
  - pose proof (Cm k l ltac:(lia)). lra.
  - pose proof (Cm l k ltac:(lia)). lra.
Qed.
Theorem C209_ties : forall s h x cs m i j, argsort_ok s -> length cs = length x -> (i < length x)%nat -> (j < length x)%nat -> nth i x NaN = nth j x NaN -> nth i cs 0 <> nth j cs 0 ->
  exists p, an_order p (length x) /\ plain_mu (real_weights (centered s (reorder NaN p x) h)) (reorder 0 p cs) m <> plain_mu (real_weights (centered s x h)) cs m.
Proof.
  intros s h x cs m i j S L Hi Hj E N. assert (Nij : i <> j) by congruence. pose proof (centered_distinct s h x i j S Hi Hj Nij) as D. exists (exchange (length x) i j). pose proof (exchange_ok (length x) i j Hi Hj) as O. split; auto. rewrite reorder_exchange by auto.
  set (w := real_weights (centered s x h)) in *. assert (Lw : length w = length x).
  { unfold w, real_weights, centered. rewrite map_length. destruct (scatter_ok None (s (negb h) x) (map (centered_weight (length x)) (seq 0 (length x)))) as [L1 _]; [rewrite map_length, seq_length; apply S|]. rewrite L1, map_length, seq_length. reflexivity. }
  intros Q. assert (T : forall c, length c = length x -> plain_mu w c m = sumn (length x) (fun k => nth k w 0 * (nth k c 0 - m))).
  { intros c Lc. unfold plain_mu, wsum. rewrite rsum_sumn, map2_length, map_length, Lw, Lc, Nat.min_id. apply sumn_ext. intros k Hk. rewrite (nth_map2 Rmult 0 0 0) by (rewrite ?map_length; lia). f_equal. rewrite (nth_indep _ 0 (0 - m)) by (rewrite map_length; lia). apply (map_nth (fun x => x - m)). }
  rewrite !T in Q by (rewrite ?reorder_length, ?(order_length _ _ O); auto). assert (Z : sumn (length x) (fun k => nth k w 0 * (nth k (reorder 0 (exchange (length x) i j) cs) 0 - m) - nth k w 0 * (nth k cs 0 - m)) = 0) by (rewrite sumn_minus; lra).
  rewrite (sumn_ext _ _ (fun k => (if Nat.eqb i k then 1 else 0) * (nth i w 0 * (nth j cs 0 - nth i cs 0)) + (if Nat.eqb j k then 1 else 0) * (nth j w 0 * (nth i cs 0 - nth j cs 0)))) in Z.
  - rewrite sumn_plus in Z. rewrite (sumn_delta _ i (fun _ => nth i w 0 * (nth j cs 0 - nth i cs 0)) Hi), (sumn_delta _ j (fun _ => nth j w 0 * (nth i cs 0 - nth j cs 0)) Hj) in Z.
    assert (F : (nth i w 0 - nth j w 0) * (nth j cs 0 - nth i cs 0) = 0) by lra. apply Rmult_integral in F. destruct F; lra.
  - intros k Hk. rewrite nth_reorder, exchange_nth by (auto; rewrite (order_length _ _ O); auto). rewrite (Nat.eqb_sym i k), (Nat.eqb_sym j k). destruct (Nat.eqb_spec k i) as [->|]; [rewrite (proj2 (Nat.eqb_neq i j) Nij); ring|]. destruct (Nat.eqb_spec k j) as [->|]; ring.
Qed.
Print Assumptions C209_rankings.
Print Assumptions C209_values.
Print Assumptions C209_elites.
Print Assumptions C209_search.
Print Assumptions C209_weights.
Print Assumptions C209_xnes.
Print Assumptions C209_cmaes.
Print Assumptions C209_ties.

(* an example: three solutions in one dimension, minimizing x^2 with PGPE; the second generation too *)
Fixpoint rinsert (l : list R) (a : nat) (m : list nat) : list nat :=
  match m with [] => [a] | b :: t => if Rle_dec (nth a l 0) (nth b l 0) then a :: m else b :: rinsert l a t end.
Definition rsort (l : list R) : list nat := fold_right (rinsert l) [] (seq 0 (length l)).
Lemma rinsert_perm l a m : Permutation (rinsert l a m) (a :: m).
Proof. induction m as [|b m IH]; cbn; auto. destruct (Rle_dec _ _); auto. rewrite IH. apply perm_swap. Qed.
Lemma rsort_sorts : sorts false rsort.
Proof.
  intros l. unfold rsort. generalize (seq 0 (length l)). intros m. split.
  - induction m as [|a m IH]; cbn; auto. rewrite rinsert_perm. auto.
  - induction m as [|a m IH]; cbn [fold_right]; [constructor|]. induction IH as [|b t S IHt F]; cbn [rinsert]; [repeat constructor|]. destruct (Rle_dec (nth a l 0) (nth b l 0)) as [H|H].
    + constructor; [constructor; auto|]. constructor; auto. revert F. apply Forall_impl. intros; lra.
    + constructor; auto. rewrite Forall_forall in *. intros y Hy. apply (Permutation_in _ (rinsert_perm l a t)) in Hy as [<-|Hy]; [lra|auto].
Qed.
Example C209_example : sorts false rsort /\
  let zs := [(fun _ => 0); (fun _ => 1); (fun _ => 3)] in let zs' := [(fun _ => 3); (fun _ => 0); (fun _ => 1)] in
  let run := fun zs => search 1 "centered" (ranked rsort (fun n k => INR k - INR n / 2)) rsort R follow_rate (Plain {| divide_mu := None; divide_sigma := None |}) (1 / 10) (Limits None None None) (fun x => x 0%nat * x 0%nat) (fun _ => 1) (fun _ => 1) 1 zs [] in
  Permutation zs zs' /\ (forall s, In s (run zs) -> NoDup (s_fits _ s)) /\ Forall2 same_state (run zs) (run zs').
Proof.
  split; [exact rsort_sorts|]. cbv zeta. assert (HP : Permutation [(fun _ : nat => 0); (fun _ => 1); (fun _ => 3)] [(fun _ => 3); (fun _ => 0); (fun _ => 1)]) by (eapply perm_trans; [apply perm_skip, perm_swap|apply perm_swap]). split; [exact HP|].
  match goal with |- ?A /\ _ => assert (G : A) end.
  { intros s [<-|[]]. cbn [s_fits fill draw map]. repeat constructor; cbn [In]; intuition lra. }
  split; auto. apply (C209_search _ _ (@NoDup R)); auto; try (intros; discriminate); apply (C209_weights false rsort _ true rsort_sorts).
Qed.

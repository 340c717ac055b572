(* C227: CEM stays where its elites are, and what it has given up it never takes up again. *)
From Coq Require Import Reals Lra String.
From Verif Require Import Prelude MatLib RankModel RankProofs CemModel DistModel ClipUpModel FuncModel SafModel UpProps.
Open Scope R_scope.

(* ---------------------------------------------------------------- specification *)
(* the coordinate j of the solution i of a population lies between a and b *)
Definition elites_between (elite : list R -> list nat) (s : state R) (j : nat) (a b : R) : Prop :=
  forall i x, In i (elite (s_fits R s)) -> nth_error (s_pop R s) i = Some x -> a <= x j <= b.
Definition elites_agree (elite : list R -> list nat) (s : state R) (j : nat) : Prop :=
  forall i i' x x', In i (elite (s_fits R s)) -> In i' (elite (s_fits R s)) -> nth_error (s_pop R s) i = Some x -> nth_error (s_pop R s) i' = Some x' -> x j = x' j.
(* the elites are members of the population *)
Definition elites_ok (elite : list R -> list nat) : Prop := forall l i, In i (elite l) -> (i < length l)%nat.
(* a later state of a run *)
Definition later (run : list (state R)) (s s' : state R) : Prop :=
  exists t t', (t <= t')%nat /\ nth_error run t = Some s /\ nth_error run t' = Some s'.

(* ---------------------------------------------------------------- proofs *)
Lemma rsum_cons x l : rsum (x :: l) = x + rsum l. Proof. reflexivity. Qed.
Lemma sum_between a b l : (forall x, In x l -> a <= x <= b) -> INR (length l) * a <= rsum l <= INR (length l) * b.
Proof.
  induction l as [|x l IH]; intros H; [unfold rsum; cbn; lra|]. specialize (IH ltac:(intros y Hy; apply H; right; exact Hy)). specialize (H x (or_introl eq_refl)).
  rewrite rsum_cons. cbn [length]. rewrite S_INR. lra.
Qed.
Lemma mean_between a b l : l <> [] -> (forall x, In x l -> a <= x <= b) -> a <= rmean l <= b.
Proof.
  intros N H. destruct (sum_between a b l H) as [H1 H2]. assert (P : 0 < INR (length l)) by (apply lt_0_INR; destruct l; [congruence|cbn; lia]). unfold rmean. split.
  - apply (Rmult_le_reg_r (INR (length l))); auto. unfold Rdiv. rewrite Rmult_assoc, Rinv_l by lra. lra.
  - apply (Rmult_le_reg_r (INR (length l))); auto. unfold Rdiv. rewrite Rmult_assoc, Rinv_l by lra. lra.
Qed.
Lemma squares_expand m l : rsum (map (fun x => (x - m) * (x - m)) l) = rsum (map (fun x => x * x) l) - 2 * m * rsum l + INR (length l) * (m * m).
Proof. induction l as [|x l IH]; [unfold rsum; cbn; ring|]. cbn [map length]. rewrite S_INR, !rsum_cons, IH. ring. Qed.
Lemma squares_between a b l : (forall x, In x l -> a <= x <= b) -> rsum (map (fun x => x * x) l) <= (a + b) * rsum l - INR (length l) * (a * b).
Proof.
  induction l as [|x l IH]; intros H; [unfold rsum; cbn; lra|]. specialize (IH ltac:(intros y Hy; apply H; right; exact Hy)). specialize (H x (or_introl eq_refl)).
  cbn [map length]. rewrite S_INR, !rsum_cons. nra.
Qed.
Lemma spread_bound a b l : l <> [] -> (forall x, In x l -> a <= x <= b) ->
  rsum (map (fun x => (x - rmean l) * (x - rmean l)) l) <= INR (length l) * ((b - a) * (b - a) / 4).
Proof.
  intros N H. rewrite squares_expand. pose proof (squares_between a b l H) as Q. assert (P : 0 < INR (length l)) by (apply lt_0_INR; destruct l; [congruence|cbn; lia]).
  assert (E : rsum l = INR (length l) * rmean l) by (unfold rmean; field; lra). rewrite E in *. set (k := INR (length l)) in *. set (m := rmean l) in *. clearbody k m.
  assert (T : 0 <= (2 * m - a - b) * (2 * m - a - b)) by (apply Rle_0_sqr). nra.
Qed.
Lemma squares_pos m l : 0 <= rsum (map (fun x => (x - m) * (x - m)) l).
Proof. induction l as [|x l IH]; [unfold rsum; cbn; lra|]. cbn [map]. rewrite rsum_cons. pose proof (Rle_0_sqr (x - m)) as Q. unfold Rsqr in Q. lra. Qed.
Lemma squares_zero m l : rsum (map (fun x => (x - m) * (x - m)) l) = 0 -> forall x, In x l -> x = m.
Proof.
  induction l as [|x l IH]; intros E y Hy; [destruct Hy|]. cbn [map] in E. rewrite rsum_cons in E. pose proof (squares_pos m l) as P. pose proof (Rle_0_sqr (x - m)) as Q. unfold Rsqr in Q.
  destruct Hy as [->|Hy]; [|apply IH; [lra|exact Hy]]. assert (Z : (y - m) * (y - m) = 0) by lra. apply Rmult_integral in Z. lra.
Qed.
Lemma std_bound a b l : (2 <= length l)%nat -> (forall x, In x l -> a <= x <= b) ->
  0 <= rstd l <= (b - a) / 2 * sqrt (INR (length l) / INR (length l - 1)).
Proof.
  intros N H. unfold rstd. split; [apply sqrt_pos|]. assert (AB : a <= b) by (destruct l as [|x l]; [cbn in N; lia|specialize (H x (or_introl eq_refl)); lra]).
  assert (P : 0 < INR (length l - 1)) by (apply lt_0_INR; lia). rewrite <- (sqrt_Rsqr ((b - a) / 2)) by lra. rewrite <- sqrt_mult_alt by apply Rle_0_sqr. apply sqrt_le_1_alt.
  pose proof (spread_bound a b l ltac:(destruct l; [cbn in N; lia|discriminate]) H) as Q. unfold Rsqr.
  apply (Rmult_le_reg_r (INR (length l - 1))); auto. unfold Rdiv at 1. rewrite Rmult_assoc, Rinv_l by lra. rewrite Rmult_1_r.
  eapply Rle_trans; [exact Q|]. right. field. lra.
Qed.
Lemma std_zero l : (2 <= length l)%nat -> (rstd l = 0 <-> forall x y, In x l -> In y l -> x = y).
Proof.
  intros N. assert (P : 0 < INR (length l - 1)) by (apply lt_0_INR; lia). unfold rstd. split.
  - intros E. apply sqrt_eq_0 in E; [|apply Rmult_le_pos; [apply squares_pos|left; apply Rinv_0_lt_compat; exact P]].
    assert (Z : rsum (map (fun x => (x - rmean l) * (x - rmean l)) l) = 0). { apply (Rmult_eq_reg_r (/ INR (length l - 1))); [|apply Rinv_neq_0_compat; lra]. rewrite Rmult_0_l. exact E. }
    intros x y Hx Hy. rewrite (squares_zero _ _ Z x Hx), (squares_zero _ _ Z y Hy). reflexivity.
  - intros H. destruct l as [|c l]; [cbn in N; lia|]. pose proof (spread_bound c c (c :: l) ltac:(discriminate) ltac:(intros x Hx; rewrite (H x c Hx (or_introl eq_refl)); lra)) as Q.
    pose proof (squares_pos (rmean (c :: l)) (c :: l)) as Q'. replace (rsum _) with 0 by nra. unfold Rdiv. rewrite Rmult_0_l. apply sqrt_0.
Qed.

Lemma finite_inv n v a : finite n v = Some a -> forall j, (j < n)%nat -> v j = Some (a j).
Proof.
  unfold finite. destruct (forallb _ (seq 0 n)) eqn:F; [|discriminate]. intros E j Hj. injection E as <-. rewrite forallb_forall in F. specialize (F j ltac:(apply in_seq; lia)).
  cbv beta in F. destruct (v j); [reflexivity|discriminate].
Qed.

Section CEM.
Variables (n : nat) (ranking : string) (weigh : list R -> list R) (elite : list R -> list nat) (L : limits) (f : vect -> R).
Hypothesis He : elites_ok elite.
(* the class CEM uses learning rates of 1 and no optimizer (gaussian.py:1159-1180) *)
Notation cem_step := (step n ranking weigh elite R follow_rate Elites 1 L f).
Notation cem_steps := (steps n ranking weigh elite R follow_rate Elites 1 L f).
Notation cem_search := (search n ranking weigh elite R follow_rate Elites 1 L f).
Definition filled (s : state R) : Prop := s_opt R s = 1 /\ s_fits R s = map f (s_pop R s) /\
  exists zs, s_pop R s = map (fun z j => s_mu R s j + s_sigma R s j * z j) zs.

Lemma chosen_in s x : filled s -> In x (chosen elite R s) <-> exists i, In i (elite (s_fits R s)) /\ nth_error (s_pop R s) i = Some x.
Proof using He.
  intros [_ [Ef _]]. unfold chosen. rewrite in_map_iff. split; intros [i [H1 H2]]; exists i.
  - split; auto. assert (Li : (i < length (s_pop R s))%nat) by (rewrite <- (map_length f), <- Ef; apply He; exact H2). rewrite (nth_error_nth' _ ((fun _ => 0) : vect) Li). f_equal. exact H1.
  - split; auto. apply nth_error_nth. exact H2.
Qed.
Lemma step_cem s zs s' : filled s -> cem_step s zs = Some s' -> filled s' /\ forall j, (j < n)%nat ->
  (2 <= length (chosen elite R s))%nat /\ s_mu R s' j = rmean (coord (chosen elite R s) j) /\
  s_sigma R s' j = limit_one (at_coord (l_min L) j) (at_coord (l_max L) j) (at_coord (l_change L) j) (s_sigma R s j) (rstd (coord (chosen elite R s) j)).
Proof using He.
  intros [Eo _] E. unfold step in E. destruct (finite n (mu_grad _ _ _ _ _ s)) as [gm|] eqn:Gm; [|discriminate]. destruct (finite n (sigma_grad _ _ _ _ _ s)) as [gs|] eqn:Gs; [|discriminate].
  unfold follow_rate in E. rewrite Eo in E. injection E as <-. split; [split; [reflexivity|]; split; [reflexivity|]; exists zs; reflexivity|].
  intros j Hj. pose proof (finite_inv n _ _ Gm j Hj) as Em. pose proof (finite_inv n _ _ Gs j Hj) as Es. cbn [mu_grad sigma_grad] in Em, Es.
  assert (N : (2 <= length (chosen elite R s))%nat). { unfold cstd, coord in Es. destruct (chosen elite R s) as [|x [|y l]]; cbn in Es; try discriminate. cbn. lia. }
  assert (Cm : cmean (coord (chosen elite R s) j) = Some (rmean (coord (chosen elite R s) j))) by (unfold coord; destruct (chosen elite R s); [cbn in N; lia|reflexivity]).
  assert (Cs : cstd (coord (chosen elite R s) j) = Some (rstd (coord (chosen elite R s) j))) by (unfold coord; destruct (chosen elite R s) as [|x [|y l]]; cbn in N; try lia; reflexivity).
  rewrite Cm in Em. rewrite Cs in Es. cbn [option_map] in Em, Es. apply (f_equal (fun o => match o with Some x => x | None => 0 end)) in Em. apply (f_equal (fun o => match o with Some x => x | None => 0 end)) in Es. cbv beta iota in Em, Es.
  split; [exact N|]. cbn [fill s_mu s_sigma]. rewrite <- Em, <- Es. split; [ring|]. f_equal. unfold new_sigma, plain_new_sigma. ring.
Qed.
Lemma steps_invariant (P : state R -> Prop) : (forall s zs s', P s -> cem_step s zs = Some s' -> P s') -> forall draws s, P s -> forall s', In s' (cem_steps s draws) -> P s'.
Proof using.
  intros H. induction draws as [|zs draws IH]; intros s Ps s' I; cbn [steps] in I; destruct I as [<-|I]; auto; [destruct I|].
  destruct (cem_step s zs) as [s1|] eqn:E; [|destruct I]. apply (IH s1); [exact (H s zs s1 Ps E)|exact I].
Qed.
Lemma steps_pairs : forall draws s0 s s', consecutive (cem_steps s0 draws) s s' -> In s (cem_steps s0 draws) /\ exists zs, cem_step s zs = Some s'.
Proof using.
  induction draws as [|zs draws IH]; intros s0 s s' [i [E1 E2]]; cbn [steps nth_error] in E2; [destruct i; discriminate|].
  cbn [steps] in *. destruct (cem_step s0 zs) as [s1|] eqn:E; [|destruct i; discriminate].
  destruct i as [|i]; cbn [nth_error] in E1, E2.
  - injection E1 as <-. split; [left; reflexivity|]. exists zs. rewrite E. destruct draws; cbn in E2; exact E2.
  - destruct (IH s1 s s' (ex_intro _ i (conj E1 E2))) as [H1 H2]. split; [right; exact H1|exact H2].
Qed.
Lemma filled_fill mu sigma zs : filled (fill R Elites f mu sigma 1 zs).
Proof using. split; [reflexivity|]. split; [reflexivity|]. exists zs. reflexivity. Qed.
Lemma run_filled mu sigma zs draws s : In s (cem_search mu sigma 1 zs draws) -> filled s.
Proof using He. intros H. eapply (steps_invariant filled); [|apply filled_fill|exact H]. intros s1 z s2 F E. eapply step_cem; eauto. Qed.
Lemma coord_in s j y : filled s -> In y (coord (chosen elite R s) j) -> exists i x, In i (elite (s_fits R s)) /\ nth_error (s_pop R s) i = Some x /\ y = x j.
Proof using He. intros F H. apply in_map_iff in H. destruct H as [x [<- Hx]]. apply chosen_in in Hx; auto. destruct Hx as [i [H1 H2]]. eauto. Qed.
Lemma coord_of s j i x : filled s -> In i (elite (s_fits R s)) -> nth_error (s_pop R s) i = Some x -> In (x j) (coord (chosen elite R s) j).
Proof using He. intros F H1 H2. apply (in_map (fun x : vect => x j)). apply chosen_in; eauto. Qed.

(* C227: the next center is surrounded by the elites, and the next standard deviations are at most half of the range of the elites, times the
   root of k / (k - 1) for k elites, unless a lower limit or a limit on changes keeps them larger. *)
Theorem C227_inside : forall mu sigma zs draws s s' j a b, consecutive (cem_search mu sigma 1 zs draws) s s' -> (j < n)%nat -> elites_between elite s j a b ->
  a <= s_mu R s' j <= b /\
  (l_min L = None -> l_change L = None -> let k := length (elite (s_fits R s)) in
    (2 <= k)%nat /\ s_sigma R s' j <= (b - a) / 2 * sqrt (INR k / INR (k - 1))).
Proof using He.
  intros mu sigma zs draws s s' j a b C Hj B. destruct (steps_pairs _ _ _ _ C) as [I [z E]]. pose proof (run_filled _ _ _ _ _ I) as F. destruct (step_cem s z s' F E) as [_ G]. destruct (G j Hj) as [N [Gm Gs]].
  assert (H : forall y, In y (coord (chosen elite R s) j) -> a <= y <= b) by (intros y Hy; destruct (coord_in s j y F Hy) as [i [x [H1 [H2 ->]]]]; eapply B; eauto).
  assert (Lc : length (coord (chosen elite R s) j) = length (elite (s_fits R s))) by (unfold coord, chosen; rewrite !map_length; reflexivity).
  assert (Le : length (chosen elite R s) = length (elite (s_fits R s))) by (unfold chosen; rewrite map_length; reflexivity).
  split; [rewrite Gm; apply mean_between; auto; intros Z; rewrite Z in Lc; cbn in Lc; lia|]. intros Z1 Z2 k. split; [unfold k; lia|].
  rewrite Gs, Z1, Z2. cbn [at_coord option_map]. unfold limit_one. destruct (std_bound a b (coord (chosen elite R s) j)) as [S1 S2]; [lia|exact H|]. rewrite Lc in S2. fold k in S2.
  destruct (at_coord (l_max L) j) as [h|]; [|exact S2]. eapply Rle_trans; [apply Rmin_l|exact S2].
Qed.
(* A standard deviation becomes 0 exactly if all elites agree on the coordinate ... *)
Theorem C227_collapse : forall mu sigma zs draws s s' j, consecutive (cem_search mu sigma 1 zs draws) s s' -> (j < n)%nat ->
  l_min L = None -> l_change L = None -> (forall h, l_max L = Some h -> 0 < h j) ->
  (s_sigma R s' j = 0 <-> elites_agree elite s j).
Proof using He.
  intros mu sigma zs draws s s' j C Hj Z1 Z2 Hm. destruct (steps_pairs _ _ _ _ C) as [I [z E]]. pose proof (run_filled _ _ _ _ _ I) as F. destruct (step_cem s z s' F E) as [_ G]. destruct (G j Hj) as [N [_ Gs]].
  assert (Lc : length (coord (chosen elite R s) j) = length (chosen elite R s)) by (unfold coord; rewrite map_length; reflexivity).
  assert (T : s_sigma R s' j = 0 <-> rstd (coord (chosen elite R s) j) = 0).
  { rewrite Gs, Z1, Z2. cbn [at_coord option_map]. unfold limit_one. destruct (l_max L) as [h|] eqn:M; cbn [at_coord option_map]; [|tauto]. specialize (Hm h eq_refl).
    assert (0 <= rstd (coord (chosen elite R s) j)) by apply sqrt_pos. unfold Rmin. destruct (Rle_dec _ _); split; intros; lra. }
  rewrite T, std_zero by lia. split.
  - intros H i i' x x' H1 H2 H3 H4. apply H; [apply (coord_of s j i x F H1 H3)|apply (coord_of s j i' x' F H2 H4)].
  - intros H y y' Hy Hy'. destruct (coord_in s j y F Hy) as [i [x [H1 [H2 ->]]]]. destruct (coord_in s j y' F Hy') as [i' [x' [H1' [H2' ->]]]]. eapply H; [exact H1|exact H1'|exact H2|exact H2'].
Qed.
(* ... and it then stays 0 for the rest of the run, the coordinate of the center does not change any more, and all solutions share it. *)
Theorem C227_frozen : forall mu sigma zs draws s s' j, later (cem_search mu sigma 1 zs draws) s s' -> (j < n)%nat ->
  l_min L = None -> (forall h, l_max L = Some h -> 0 <= h j) ->
  s_sigma R s j = 0 -> s_sigma R s' j = 0 /\ s_mu R s' j = s_mu R s j /\ forall x, In x (s_pop R s') -> x j = s_mu R s j.
Proof using He.
  intros mu sigma zs draws s s' j (t & t' & Ht & E & E') Hj Z1 Hm S0.
  assert (Key : forall d t' , nth_error (cem_search mu sigma 1 zs draws) (t + d) = Some t' -> s_sigma R t' j = 0 /\ s_mu R t' j = s_mu R s j).
  { induction d as [|d IH]; intros s2 E2; [rewrite Nat.add_0_r in E2; replace s2 with s by congruence; auto|].
    destruct (nth_error (cem_search mu sigma 1 zs draws) (t + d)) as [s1|] eqn:E1.
    2:{ apply nth_error_None in E1. assert (nth_error (cem_search mu sigma 1 zs draws) (t + S d) <> None) as Q by congruence. apply nth_error_Some in Q. lia. }
    destruct (IH s1 eq_refl) as [A1 A2]. destruct (steps_pairs draws (fill R Elites f mu sigma 1 zs) s1 s2) as [I [z Ez]]; [exists (t + d)%nat; split; [exact E1|rewrite <- Nat.add_succ_r; exact E2]|].
    pose proof (run_filled _ _ _ _ _ I) as F. destruct (step_cem s1 z s2 F Ez) as [_ G]. destruct (G j Hj) as [N [Gm Gs]].
    assert (H : forall y, In y (coord (chosen elite R s1) j) -> y = s_mu R s1 j).
    { intros y Hy. destruct (coord_in s1 j y F Hy) as [i [x [H1 [H2 ->]]]]. destruct F as [_ [_ [zs' Ep]]]. rewrite Ep in H2. apply nth_error_In in H2. apply in_map_iff in H2.
      destruct H2 as [z' [<- _]]. rewrite A1. ring. }
    assert (Lc : length (coord (chosen elite R s1) j) = length (chosen elite R s1)) by (unfold coord; rewrite map_length; reflexivity). split.
    - rewrite Gs, Z1, A1. assert (R0 : rstd (coord (chosen elite R s1) j) = 0) by (apply std_zero; [lia|]; intros; rewrite (H x), (H y); auto).
      rewrite R0. cbn [at_coord option_map]. unfold limit_one.
      destruct (l_change L) as [c|]; destruct (l_max L) as [h|] eqn:M; cbn [at_coord option_map]; rewrite ?Rabs_R0, ?Rmult_0_l; try specialize (Hm h eq_refl); unfold Rmax, Rmin; repeat destruct (Rle_dec _ _); lra.
    - rewrite Gm, <- A2. destruct (mean_between (s_mu R s1 j) (s_mu R s1 j) (coord (chosen elite R s1) j)) as [B1 B2]; [intros Z; rewrite Z in Lc; cbn in Lc; lia| |lra].
      intros y Hy. rewrite (H y Hy). lra. }
  replace t' with (t + (t' - t))%nat in E' by lia. destruct (Key _ _ E') as [K1 K2]. split; [exact K1|]. split; [exact K2|].
  intros x Hx. assert (F : filled s') by (eapply run_filled; eapply nth_error_In; exact E'). destruct F as [_ [_ [zs' Ep]]]. rewrite Ep in Hx. apply in_map_iff in Hx. destruct Hx as [z' [<- _]]. rewrite K1, K2. ring.
Qed.
End CEM.
Print Assumptions C227_inside.
Print Assumptions C227_collapse.
Print Assumptions C227_frozen.

(* Two solutions, both elites, which agree on coordinate 1 but not on coordinate 0: the run goes on, with a positive and a vanished standard deviation;
   the bound is reached for coordinate 0 (two elites at -1 and 1, standard deviation root of 2). *)
Definition everyone (l : list R) : list nat := seq 0 (length l).
Definition apart (j : nat) : R := match j with O => 1 | _ => 0 end.
Definition apart' (j : nat) : R := match j with O => - 1 | _ => 0 end.
Example C227_example :
  elites_ok everyone /\
  let run := search 2 "raw" (fun w => w) everyone R follow_rate Elites 1 (Limits None None None) (fun x => x 0%nat) (fun _ => 0) (fun _ => 1) 1 [apart; apart'] [[apart; apart']] in
  exists s s', consecutive run s s' /\ elites_between everyone s 0 (-1) 1 /\ elites_agree everyone s 1 /\ s_sigma R s' 0%nat = sqrt 2 /\ s_sigma R s' 1%nat = 0.
Proof.
  split; [intros l i H; apply in_seq in H; lia|]. cbv zeta. unfold search. cbn [steps].
  set (s := fill R Elites (fun x => x 0%nat) (fun _ => 0) (fun _ => 1) 1 [apart; apart']).
  assert (St : exists s', step 2 "raw" (fun w => w) everyone R follow_rate Elites 1 (Limits None None None) (fun x => x 0%nat) s [apart; apart'] = Some s' /\
    s_sigma R s' 0%nat = sqrt 2 /\ s_sigma R s' 1%nat = 0).
  { unfold step, finite. cbn [seq forallb mu_grad sigma_grad]. unfold coord, chosen. cbn. eexists. split; [reflexivity|]. cbn. unfold limit_one, plain_new_sigma, rstd, rmean, rsum. cbn. split.
    - match goal with |- context [sqrt ?x] => replace x with 2 by field end. ring.
    - match goal with |- context [sqrt ?x] => replace x with 0 by field end. rewrite sqrt_0. ring. }
  destruct St as [s' [E [S1 S2]]]. rewrite E. exists s, s'. split; [exists 0%nat; split; reflexivity|]. split; [|split; [|split; assumption]].
  - intros [|[|i]] x H Hx; cbn in Hx; [| |destruct i; discriminate]; injection Hx as <-; cbn; lra.
  - intros i i' x x' _ _ Hx Hx'. assert (Q : forall i x, nth_error (s_pop R s) i = Some x -> x 1%nat = 0) by (intros [|[|k]] y Hy; cbn in Hy; [| |destruct k; discriminate]; injection Hy as <-; cbn; lra).
    rewrite (Q i x Hx), (Q i' x' Hx'). reflexivity.
Qed.

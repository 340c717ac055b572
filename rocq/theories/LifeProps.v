(* C233: counters and observation statistics over the life of a parallelized problem. *)
From Coq Require Import Reals.
From Verif Require Import Prelude NormModel NormSpec NormProofs SyncModel SyncSpec SyncProofs LifeModel LifeProofs.
Close Scope R_scope.
Open Scope nat_scope.

(* ---- spec: what is done in the life of a problem, in terms of real observations ---- *)
Inductive deed := Evaluate (works : list (list repisode)) | Run (es : list repisode) | Kill | GoOnWithClone | MakeCopy | StartActors.
Definition lift_deed (o : deed) : lop :=
  match o with Evaluate works => LEval (map (map lift_ep) works) | Run es => LRun (map lift_ep es) | Kill => LKill | GoOnWithClone => LGo | MakeCopy => LCopy | StartActors => LStart end.
(* n actors, observations of length d *)
Definition deed_ok (n d : nat) (o : deed) : Prop :=
  match o with Evaluate works => length works = n /\ Forall (fun x => length x = d) (flat_map eps_obs works) | Run es => Forall (fun x => length x = d) (eps_obs es) | _ => True end.
Definition seen (os : list deed) : obs := flat_map (fun o => match o with Evaluate works => flat_map eps_obs works | Run es => eps_obs es | _ => [] end) os.
Definition steps_made (os : list deed) : nat := list_sum (map (fun o => match o with Evaluate works => list_sum (map eps_steps works) | Run es => eps_steps es | _ => 0 end) os).
Definition episodes_made (os : list deed) : nat := list_sum (map (fun o => match o with Evaluate works => list_sum (map (@length repisode) works) | Run es => length es | _ => 0 end) os).
Definition only_evaluation (o : deed) : Prop := match o with Evaluate _ => True | _ => False end.
Definition no_run_no_kill (o : deed) : Prop := match o with Run _ | Kill => False | _ => True end.

(* ---- invariant while nothing is run by the main object and no actor is killed ---- *)
Definition clean (d n : nat) (l : life) (M : obs) (e i : nat) : Prop :=
  exists acts, books d n l M [] e i acts /\ (forall rs, l_remote l = Some rs -> length rs = n) /\
    match acts with
    | Some cs => Forall (fun c : account => fst c = []) cs /\ episodes_of cs = e /\ steps_of cs = i
    | None => match l_remote l with
              | Some rs => list_sum (map fst rs) = e /\ list_sum (map snd rs) = i
              | None => e = 0 /\ i = 0
              end
    end.
Lemma zero_accounts n : episodes_of (repeat ([], (0, 0)) n) = 0 /\ steps_of (repeat ([], (0, 0)) n) = 0.
Proof. unfold episodes_of, steps_of. induction n as [|n [A B]]; cbn; auto. Qed.
Lemma repeat_accounts n (C : obs) e i : episodes_of (repeat (C, (e, i)) n) = n * e /\ steps_of (repeat (C, (e, i)) n) = n * i.
Proof. unfold episodes_of, steps_of. induction n as [|n [A B]]; cbn [repeat map]; [auto|]. change (list_sum (?a :: ?l)) with (a + list_sum l). rewrite A, B. cbn [fst snd]. lia. Qed.
Lemma remote_accounts (rs : list (nat * nat)) : episodes_of (map (fun r => ([] : obs, r)) rs) = list_sum (map fst rs) /\ steps_of (map (fun r => ([] : obs, r)) rs) = list_sum (map snd rs).
Proof. unfold episodes_of, steps_of. rewrite !map_map. auto. Qed.
(* the accounts from which the next evaluation starts *)
Lemma starting d n l M e i : clean d n l M e i -> exists acts, books d n l M [] e i acts /\ (forall rs, l_remote l = Some rs -> length rs = n) /\
  let cs := match acts with Some cs => cs | None => fresh_actors n [] e i (l_remote l) end in Forall (fun c : account => fst c = []) cs /\ episodes_of cs = e /\ steps_of cs = i /\ length cs = n.
Proof.
  intros (acts & B & Rn & H). exists acts. split; auto. split; auto. cbv zeta. destruct acts as [cs|].
  - destruct H as (H1 & H2 & H3). repeat (split; auto). destruct B as [_ _ _ _ B]. destruct (l_actors l); [|contradiction]. apply B.
  - unfold fresh_actors. destruct (l_remote l) as [rs|].
    + destruct (remote_accounts rs) as [A1 A2]. rewrite A1, A2. split; [apply Forall_forall; intros c Hc; apply in_map_iff in Hc; destruct Hc as (x & <- & _); reflexivity|]. rewrite map_length. intuition.
    + destruct H as [-> ->]. destruct (zero_accounts n) as [A1 A2]. split; [apply Forall_forall; intros c Hc; apply repeat_spec in Hc; subst; reflexivity|]. split; [exact A1|]. split; [exact A2|]. apply repeat_length.
Qed.
Lemma clean_eval d n l M e i works : clean d n l M e i -> length works = n -> Forall (fun x => length x = d) (flat_map eps_obs works) ->
  exists l', l_eval n l (map (map lift_ep) works) = Ok l' /\ clean d n l' (M ++ flat_map eps_obs works) (e + list_sum (map (@length repisode) works)) (i + list_sum (map eps_steps works)) /\
    (forall acts, books d n l M [] e i acts -> l_remote l' = match acts with Some _ => l_remote l | None => None end) /\ l_actors l' <> None.
Proof.
  intros Cl HL HW. destruct (starting d n l M e i Cl) as (acts & B & Rn & S). cbv zeta in S. destruct (eval_books d n l M [] e i acts works B Rn HL HW) as (l' & E & H & Er). cbv zeta in H.
  set (cs := match acts with Some cs => cs | None => _ end) in *. destruct S as (S1 & S2 & S3 & S4). rewrite (nothing_collected cs works) in H by (auto; lia).
  destruct (books_sum cs works ltac:(lia)) as [A1 A2]. rewrite A1, A2, S2, S3 in H. exists l'. split; auto. split; [|split].
  - eexists. split; [exact H|]. split; [rewrite Er; destruct acts; [exact Rn|discriminate]|]. split; [apply all_sent|]. destruct (sent_sum (map2 book cs works)) as [-> ->]. rewrite A1, A2, S2, S3. auto.
  - intros acts' B'. rewrite Er. destruct B as [_ _ _ _ B], B' as [_ _ _ _ B']. destruct (l_actors l), acts, acts'; try contradiction; reflexivity.
  - destruct H as [_ _ _ _ H]. destruct (l_actors l'); [discriminate|contradiction].
Qed.
Lemma clean_step d n l M e i o : clean d n l M e i -> deed_ok n d o -> no_run_no_kill o ->
  exists l', l_step n l (lift_deed o) = Ok l' /\ clean d n l' (M ++ seen [o]) (e + episodes_made [o]) (i + steps_made [o]).
Proof.
  intros Cl Ok1 Nr. unfold seen, episodes_made, steps_made. cbn [flat_map map]. rewrite app_nil_r. change (list_sum [?a]) with (a + 0). rewrite !Nat.add_0_r. destruct o as [works|es| | | |]; try contradiction; cbn [lift_deed l_step].
  - destruct Ok1 as [H1 H2]. destruct (clean_eval d n l M e i works Cl H1 H2) as (l' & E & C & _). exists l'. auto.
  - rewrite app_nil_r, !Nat.add_0_r. eexists. split; [reflexivity|]. destruct Cl as (acts & B & Rn & H). destruct (clone_books d n l M [] e i acts B) as (_ & B2 & _ & R2). cbv zeta in R2. exists None. split; auto. rewrite R2.
    destruct acts as [cs|]; [|auto]. destruct H as (_ & H2 & H3). destruct B as [_ _ _ _ B]. destruct (l_actors l); [|contradiction]. split; [intros rs E; injection E as <-; rewrite map_length; apply B|].
    unfold episodes_of, steps_of in *. rewrite !map_map. auto.
  - rewrite app_nil_r, !Nat.add_0_r. eexists. split; [reflexivity|]. destruct Cl as (acts & B & Rn & H). destruct (clone_books d n l M [] e i acts B) as (B1 & _ & R1 & _). cbv zeta in R1. exists acts. split; auto. rewrite R1.
    destruct acts as [cs|]; [|auto]. destruct B as [_ _ _ _ B]. destruct (l_actors l); [|contradiction]. split; [intros rs E; injection E as <-; rewrite map_length; apply B|]. auto.
  - rewrite app_nil_r, !Nat.add_0_r. eexists. split; [reflexivity|]. destruct (starting d n l M e i Cl) as (acts & B & Rn & S). cbv zeta in S. destruct (parallelize_books d n l M [] e i acts B Rn) as (cs & B' & Ec & Er).
    exists (Some cs). split; auto. rewrite Er. split; [destruct acts; [exact Rn|discriminate]|]. rewrite Ec. intuition.
Qed.
Lemma seen_app a b : seen (a ++ b) = seen a ++ seen b. Proof. apply flat_map_app. Qed.
Lemma episodes_app a b : episodes_made (a ++ b) = episodes_made a + episodes_made b. Proof. unfold episodes_made. rewrite map_app, list_sum_app. reflexivity. Qed.
Lemma steps_app a b : steps_made (a ++ b) = steps_made a + steps_made b. Proof. unfold steps_made. rewrite map_app, list_sum_app. reflexivity. Qed.
Lemma history_app n a b : l_history n (a ++ b) = fold_left (fun r o => bind r (fun l => l_step n l o)) b (l_history n a).
Proof. apply fold_left_app. Qed.
Lemma clean_new d n : clean d n l_new [] 0 0.
Proof. exists None. split; [apply new_books|]. cbn. split; [discriminate|auto]. Qed.
Lemma clean_from d n : forall os l M e i, clean d n l M e i -> Forall (deed_ok n d) os -> Forall no_run_no_kill os ->
  exists l', fold_left (fun r o => bind r (fun l => l_step n l o)) (map lift_deed os) (Ok l) = Ok l' /\ clean d n l' (M ++ seen os) (e + episodes_made os) (i + steps_made os).
Proof.
  induction os as [|o os IH]; intros l M e i Cl HO HN; [exists l; cbn; rewrite app_nil_r, !Nat.add_0_r; auto|]. inversion HO as [|? ? O1 O2]; inversion HN as [|? ? N1 N2]; subst. cbn [map fold_left bind].
  destruct (clean_step d n l M e i o Cl O1 N1) as (l1 & -> & C1). destruct (IH l1 _ _ _ C1 O2 N2) as (l2 & E & C2). exists l2. split; auto.
  change (o :: os) with ([o] ++ os). rewrite seen_app, episodes_app, steps_app, app_assoc, !Nat.add_assoc. exact C2.
Qed.
Lemma clean_counts d n l M e i : clean d n l M e i -> stats_are d (g_stats (l_main l)) M /\ g_episodes (l_main l) = e /\ g_interactions (l_main l) = i.
Proof. intros (acts & [A B E I H] & _). split; [apply rs_repr_stats; auto|]. auto. Qed.
(* evaluations only: no kept states *)
Lemma evaluations d n : forall os l M e i, clean d n l M e i -> Forall (deed_ok n d) os -> Forall only_evaluation os -> os <> [] -> 
  exists l', fold_left (fun r o => bind r (fun l => l_step n l o)) (map lift_deed os) (Ok l) = Ok l' /\ clean d n l' (M ++ seen os) (e + episodes_made os) (i + steps_made os) /\
    l_remote l' = match l_actors l with Some _ => l_remote l | None => None end /\ l_actors l' <> None.
Proof.
  induction os as [|o os IH]; intros l M e i Cl HO HN NE; [congruence|]. inversion HO as [|? ? O1 O2]; inversion HN as [|? ? N1 N2]; subst. destruct o as [works| | | | |]; try contradiction. cbn [map fold_left bind lift_deed l_step].
  destruct O1 as [H1 H2]. destruct (clean_eval d n l M e i works Cl H1 H2) as (l1 & E1 & C1 & R1 & A1). rewrite E1.
  assert (R1' : l_remote l1 = match l_actors l with Some _ => l_remote l | None => None end).
  { destruct Cl as (acts & B & _). rewrite (R1 acts B). destruct B as [_ _ _ _ B]. destruct (l_actors l), acts; try contradiction; reflexivity. }
  assert (S : seen [Evaluate works] = flat_map eps_obs works /\ episodes_made [Evaluate works] = list_sum (map (@length repisode) works) /\ steps_made [Evaluate works] = list_sum (map eps_steps works)).
  { unfold seen, episodes_made, steps_made. cbn [flat_map map]. rewrite app_nil_r. change (list_sum [?a]) with (a + 0). rewrite !Nat.add_0_r. auto. }
  destruct S as (S1 & S2 & S3). change (Evaluate works :: os) with ([Evaluate works] ++ os). rewrite seen_app, episodes_app, steps_app, S1, S2, S3, app_assoc, !Nat.add_assoc. destruct os as [|o os].
  - exists l1. cbn [map fold_left]. unfold seen at 1, episodes_made, steps_made. cbn [flat_map map list_sum fold_right]. rewrite app_nil_r, !Nat.add_0_r. auto.
  - destruct (IH l1 _ _ _ C1 O2 N2 ltac:(discriminate)) as (l2 & E & C2 & R2 & A2). exists l2. split; auto. split; auto. split; auto. rewrite R2. destruct (l_actors l1); [exact R1'|congruence].
Qed.

(* ---- theorems ---- *)
(* As long as the main object runs nothing itself and no actor is killed: the counters of the problem, or of the clone that replaced it, are the totals, and the statistics are those of all observations. *)
Theorem C233_clones_partial : forall d n os, Forall (deed_ok n d) os -> Forall no_run_no_kill os ->
  exists l, l_history n (map lift_deed os) = Ok l /\ stats_are d (g_stats (l_main l)) (seen os) /\ g_episodes (l_main l) = episodes_made os /\ g_interactions (l_main l) = steps_made os.
Proof.
  intros d n os HO HN. destruct (clean_from d n os l_new [] 0 0 (clean_new d n) HO HN) as (l & E & C). exists l. split; auto. apply (clean_counts d n l _ _ _ C).
Qed.
(* Episodes run by the main object before its actors exist are counted once more for each actor, and so are their observations. *)
Theorem C233_run_first_refuted : forall d n es works, deed_ok n d (Run es) -> deed_ok n d (Evaluate works) ->
  exists l, l_history n (map lift_deed [Run es; Evaluate works]) = Ok l /\
    stats_are d (g_stats (l_main l)) (eps_obs es ++ flat_map (fun w => eps_obs es ++ eps_obs w) works) /\
    g_episodes (l_main l) = n * length es + list_sum (map (@length repisode) works) /\ g_interactions (l_main l) = n * eps_steps es + list_sum (map eps_steps works).
Proof.
  intros d n es works H1 [H2 H3]. cbn [deed_ok] in H1. unfold l_history. cbn [map lift_deed fold_left bind l_step].
  destruct (run_books d n l_new [] [] 0 0 None es (new_books d n) H1) as (l1 & -> & B1 & R1). cbn [bind].
  destruct (eval_books d n l1 _ _ _ _ None works B1 ltac:(rewrite R1; discriminate) H2 H3) as (l2 & -> & B2 & _). cbv zeta in B2. rewrite R1 in B2. cbn [l_remote l_new fresh_actors app] in B2. rewrite !Nat.add_0_l in B2.
  exists l2. split; auto. set (cs := repeat _ n) in *. assert (L : length cs = n) by apply repeat_length. destruct (books_sum cs works (eq_trans H2 (eq_sym L))) as [A1 A2]. destruct (repeat_accounts n (eps_obs es) (length es) (eps_steps es)) as [A3 A4].
  destruct B2 as [S N E I _]. rewrite E, I, A1, A2. unfold cs. rewrite A3, A4. split; [|auto]. apply rs_repr_stats. 
  replace (flat_map (fun w => eps_obs es ++ eps_obs w) works) with (flat_map fst (map2 book cs works)); [exact S|].
  clear - H2. subst n. subst cs. induction works as [|w works IH]; [reflexivity|]. cbn [length repeat map2 flat_map book fst]. rewrite IH. reflexivity.
Qed.
(* After kill_actors, new actors begin with the counters of the main object, so that everything is counted once for each actor; the statistics are right. *)
Theorem C233_kill_refuted : forall d n os works, Forall (deed_ok n d) os -> Forall only_evaluation os -> os <> [] -> deed_ok n d (Evaluate works) ->
  exists l, l_history n (map lift_deed (os ++ [Kill; Evaluate works])) = Ok l /\ stats_are d (g_stats (l_main l)) (seen os ++ flat_map eps_obs works) /\
    g_episodes (l_main l) = n * episodes_made os + list_sum (map (@length repisode) works) /\ g_interactions (l_main l) = n * steps_made os + list_sum (map eps_steps works).
Proof.
  intros d n os works HO HE NE [H2 H3]. rewrite map_app, history_app. destruct (evaluations d n os l_new [] 0 0 (clean_new d n) HO HE NE) as (l & E & (acts & B & Rn & H) & R & A). unfold l_history. rewrite E. cbn [map lift_deed fold_left bind l_step].
  cbn [app] in B. rewrite !Nat.add_0_l in B. destruct acts as [cs|]; [|destruct B as [_ _ _ _ B]; destruct (l_actors l); [contradiction|congruence]].
  destruct (kill_books d n l _ _ _ _ cs B) as (l1 & -> & B1 & R1). cbn [bind]. cbn [l_actors l_new] in R.
  destruct (eval_books d n l1 _ _ _ _ None works B1 ltac:(rewrite R1, R; discriminate) H2 H3) as (l2 & -> & B2 & _). cbv zeta in B2. rewrite R1, R in B2. cbn [fresh_actors] in B2. exists l2. split; auto.
  set (ks := repeat _ n) in *. assert (L : length ks = n) by apply repeat_length. destruct (books_sum ks works (eq_trans H2 (eq_sym L))) as [A1 A2]. destruct (repeat_accounts n [] (episodes_made os) (steps_made os)) as [A3 A4].
  rewrite (nothing_collected ks works) in B2 by (try exact (eq_trans H2 (eq_sym L)); apply Forall_forall; intros c Hc; apply repeat_spec in Hc; subst; reflexivity).
  destruct B2 as [S N Ee I _]. rewrite Ee, I, A1, A2. unfold ks. rewrite A3, A4. split; [|auto]. apply rs_repr_stats. exact S.
Qed.
(* After a copy was made, the original keeps the counters of its actors as they were then: after a later kill_actors the counters go back to that time. *)
Theorem C233_stale_refuted : forall d n os os' works, Forall (deed_ok n d) (os ++ os') -> Forall only_evaluation (os ++ os') -> os <> [] -> os' <> [] -> deed_ok n d (Evaluate works) ->
  exists l, l_history n (map lift_deed (os ++ [MakeCopy] ++ os' ++ [Kill; Evaluate works])) = Ok l /\ stats_are d (g_stats (l_main l)) (seen os ++ seen os' ++ flat_map eps_obs works) /\
    g_episodes (l_main l) = episodes_made os + list_sum (map (@length repisode) works) /\ g_interactions (l_main l) = steps_made os + list_sum (map eps_steps works).
Proof.
  intros d n os os' works HO HE NE NE' [H2 H3]. apply Forall_app in HO. destruct HO as [O1 O2]. apply Forall_app in HE. destruct HE as [E1 E2].
  rewrite map_app, history_app. destruct (evaluations d n os l_new [] 0 0 (clean_new d n) O1 E1 NE) as (l & E & C & R & A). unfold l_history. rewrite E. cbn [app] in C. rewrite !Nat.add_0_l in C.
  cbn [app map lift_deed fold_left bind l_step]. rewrite map_app, fold_left_app.
  assert (C' : clean d n (fst (l_clone l)) (seen os) (episodes_made os) (steps_made os) /\ l_actors (fst (l_clone l)) <> None /\
    exists rs, l_remote (fst (l_clone l)) = Some rs /\ length rs = n /\ list_sum (map fst rs) = episodes_made os /\ list_sum (map snd rs) = steps_made os).
  { destruct C as (acts & B & Rn & H). destruct (clone_books d n l _ [] _ _ acts B) as (B1 & _ & R1 & _). cbv zeta in R1.
    destruct acts as [cs|]; [|destruct B as [_ _ _ _ B]; destruct (l_actors l); [contradiction|congruence]]. destruct H as (Ha & Hb & Hc).
    assert (Lc : length cs = n) by (destruct B as [_ _ _ _ B]; destruct (l_actors l); [apply B|contradiction]).
    split; [exists (Some cs); rewrite R1; split; auto; split; [intros rs Q; injection Q as <-; rewrite map_length; auto|auto]|]. split; [exact A|].
    exists (map snd cs). rewrite map_length, !map_map. auto. }
  destruct C' as (C' & A' & rs & Rr & Lr & Se & Si). destruct (evaluations d n os' _ _ _ _ C' O2 E2 NE') as (l1 & E' & (acts & B & Rn & H) & R' & A1). rewrite E'. cbn [map lift_deed fold_left bind l_step].
  destruct acts as [cs|]; [|destruct B as [_ _ _ _ B]; destruct (l_actors l1); [contradiction|congruence]].
  destruct (kill_books d n l1 _ _ _ _ cs B) as (l2 & -> & B1 & R1). cbn [bind]. assert (R2 : l_remote l2 = Some rs) by (rewrite R1, R'; destruct (l_actors (fst (l_clone l))); [exact Rr|congruence]).
  destruct (eval_books d n l2 _ _ _ _ None works B1 ltac:(rewrite R2; intros q Q; injection Q as <-; exact Lr) H2 H3) as (l3 & -> & B2 & _). cbv zeta in B2. rewrite R2 in B2. cbn [fresh_actors] in B2. exists l3. split; auto.
  set (ks := map (fun r : nat * nat => ([] : obs, r)) rs) in *. assert (L : length ks = n) by (subst ks; rewrite map_length; auto). destruct (books_sum ks works (eq_trans H2 (eq_sym L))) as [A3 A4]. destruct (remote_accounts rs) as [A5 A6].
  rewrite (nothing_collected ks works) in B2 by (try exact (eq_trans H2 (eq_sym L)); apply Forall_forall; intros c Hc; apply in_map_iff in Hc; destruct Hc as (x & <- & _); reflexivity).
  destruct B2 as [S N Ee I _]. rewrite Ee, I, A3, A4. unfold ks. rewrite A5, A6, Se, Si. split; [|auto]. apply rs_repr_stats. rewrite app_assoc. exact S.
Qed.
Print Assumptions C233_clones_partial.
Print Assumptions C233_run_first_refuted.
Print Assumptions C233_kill_refuted.
Print Assumptions C233_stale_refuted.

(* ---- examples: two actors; an evaluation of three steps, cloning, an evaluation of two steps ---- *)
Example C233_example : let a := Evaluate [[([1]%R, [[2]%R; [3]%R])]; [([4]%R, [[5]%R])]] in let b := Evaluate [[([1]%R, [[2]%R])]; [([4]%R, [[5]%R])]] in
  Forall (deed_ok 2 1) [a; GoOnWithClone; MakeCopy; b] /\ Forall no_run_no_kill [a; GoOnWithClone; MakeCopy; b] /\ steps_made [a; GoOnWithClone; MakeCopy; b] = 5 /\ Forall only_evaluation [a; b] /\
  steps_made [a; Kill; b] = 5 /\ deed_ok 2 1 (Run [([7]%R, [[8]%R])]).
Proof. cbn. repeat split; repeat constructor. Qed.

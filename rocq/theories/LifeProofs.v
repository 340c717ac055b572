(* Lemmas about the life of a parallelized problem. *)
From Coq Require Import Reals.
From Verif Require Import Prelude NormModel NormSpec NormProofs SyncModel SyncSpec SyncProofs LifeModel.
Close Scope R_scope.
Open Scope nat_scope.

(* what one object has collected but not sent, and its counters *)
Definition account := (obs * (nat * nat))%type.
Definition episodes_of (l : list account) : nat := list_sum (map (fun c => fst (snd c)) l).
Definition steps_of (l : list account) : nat := list_sum (map (fun c => snd (snd c)) l).
Definition holds (d : nat) (g : gstate) (c : account) : Prop := rs_repr d (g_collected g) (fst c) /\ g_episodes g = fst (snd c) /\ g_interactions g = snd (snd c).
Definition book (c : account) (w : list repisode) : account := (fst c ++ eps_obs w, (fst (snd c) + length w, snd (snd c) + eps_steps w)).
Definition sent (c : account) : account := ([], snd c).

Lemma main_to_actors d M r cs : rs_repr d r M -> forall actors, Forall2 (holds d) actors cs ->
  exists actors', sequence (map (fun a => g_from_main a r) actors) = Ok actors' /\ Forall2 (fun a c => rs_repr d (g_stats a) M /\ holds d a c) actors' cs.
Proof.
  intros R actors HF. induction HF as [|a c actors cs (A1 & A2 & A3) HF IH]; cbn [map sequence]; [exists []; auto|].
  destruct IH as (actors' & -> & IH). unfold g_from_main at 1. destruct (rs_merge_repr d None [] r M eq_refl R) as (st & -> & R'). cbn [bind]. eexists. split; [reflexivity|]. constructor; auto.
  split; [exact R'|]. split; auto.
Qed.
Lemma actors_work d M : forall actors cs works, Forall2 (fun a c => rs_repr d (g_stats a) M /\ holds d a c) actors cs -> length works = length cs ->
  Forall (fun x => length x = d) (flat_map eps_obs works) ->
  exists actors', sequence (map2 g_work actors (map (map lift_ep) works)) = Ok actors' /\ Forall2 (holds d) actors' (map2 book cs works).
Proof.
  induction actors as [|a actors IH]; intros cs works HF HL HW; inversion HF as [|? c ? cs' A B]; subst; destruct works as [|w works]; try discriminate; cbn [map map2 sequence]; [exists []; auto|].
  cbn [flat_map] in HW. apply Forall_app in HW. destruct HW as [W1 W2]. destruct A as (A1 & A2 & A3 & A4).
  destruct (g_work_repr d w a M (fst c) (fst (snd c)) (snd (snd c))) as (a' & -> & [R1 R2 R3 R4]); [split; auto|exact W1|].
  destruct (IH cs' works B) as (actors' & -> & IH'); [cbn in HL; lia|auto|]. eexists. split; [reflexivity|]. constructor; auto. split; auto.
Qed.
Lemma actors_to_main d : forall actors cs M g te ti, Forall2 (holds d) actors cs -> rs_repr d (g_stats g) M ->
  exists g', fold_left (fun r p => let '(e, i, delta) := p in
     bind r (fun '(g, te, ti) => bind (rs_merge (g_stats g) delta) (fun st => Ok (G st (g_collected g) (g_episodes g) (g_interactions g), te + e, ti + i))))
     (map snd (map g_for_main actors)) (Ok (g, te, ti)) = Ok (g', te + episodes_of cs, ti + steps_of cs) /\
    rs_repr d (g_stats g') (M ++ flat_map fst cs) /\ g_collected g' = g_collected g.
Proof.
  unfold episodes_of, steps_of. induction actors as [|a actors IH]; intros cs M g te ti HF R; inversion HF as [|? c ? cs' A B]; subst.
  - exists g. cbn. rewrite app_nil_r, !Nat.add_0_r. auto.
  - destruct A as (A1 & A2 & A3). cbn [map fold_left]. unfold g_for_main at 2. cbn [snd]. cbn [bind]. destruct (rs_merge_repr d _ _ _ _ R A1) as (st & -> & R'). cbn [bind].
    destruct (IH cs' (M ++ fst c) (G st (g_collected g) (g_episodes g) (g_interactions g)) (te + g_episodes a) (ti + g_interactions a) B R') as (g' & E & R2 & R3).
    exists g'. split; [|cbn [flat_map]; rewrite app_assoc; auto].
    rewrite E, A2, A3. cbn [map list_sum fold_right]. change (fold_right Nat.add 0) with list_sum. f_equal. apply f_equal2; [apply f_equal2; [reflexivity|lia]|lia].
Qed.
(* one parallel evaluation *)
Lemma round_books d main actors M cs works : rs_repr d (g_stats main) M -> Forall2 (holds d) actors cs -> length works = length cs ->
  Forall (fun x => length x = d) (flat_map eps_obs works) ->
  exists main' actors', g_round main actors (map (map lift_ep) works) = Ok (main', actors') /\
    rs_repr d (g_stats main') (M ++ flat_map fst (map2 book cs works)) /\ g_collected main' = g_collected main /\
    g_episodes main' = episodes_of (map2 book cs works) /\ g_interactions main' = steps_of (map2 book cs works) /\
    Forall2 (holds d) actors' (map sent (map2 book cs works)).
Proof.
  intros R HA HL HW. unfold g_round. destruct (main_to_actors d M (g_stats main) cs R actors HA) as (a1 & -> & R1). cbn [bind].
  destruct (actors_work d M a1 cs works R1 HL HW) as (a2 & -> & R2). cbn [bind]. unfold g_from_actors.
  destruct (actors_to_main d a2 (map2 book cs works) M main 0 0 R2 R) as (g' & -> & R3 & R4). cbn [bind]. do 2 eexists. split; [reflexivity|]. cbn [g_stats g_collected g_episodes g_interactions].
  repeat (split; [auto|]). rewrite map_map. clear - R2. induction R2 as [|a c ? ? (A & B & C) HF IH]; cbn [map]; constructor; auto. split; [reflexivity|]. split; auto.
Qed.
Lemma books_sum : forall cs works, length works = length cs ->
  episodes_of (map2 book cs works) = episodes_of cs + list_sum (map (@length repisode) works) /\ steps_of (map2 book cs works) = steps_of cs + list_sum (map eps_steps works).
Proof.
  unfold episodes_of, steps_of. induction cs as [|c cs IH]; intros [|w works] E; try discriminate; auto. cbn [map2 map]. destruct (IH works ltac:(cbn in E; lia)) as [A B].
  change (list_sum (?a :: ?l)) with (a + list_sum l). rewrite A, B. cbn [book fst snd]. change (list_sum (?a :: ?l)) with (a + list_sum l). lia.
Qed.
Lemma sent_sum l : episodes_of (map sent l) = episodes_of l /\ steps_of (map sent l) = steps_of l.
Proof. unfold episodes_of, steps_of. rewrite !map_map. auto. Qed.
Lemma nothing_collected cs works : length works = length cs -> Forall (fun c : account => fst c = []) cs -> flat_map fst (map2 book cs works) = flat_map eps_obs works.
Proof.
  revert works. induction cs as [|c cs IH]; intros [|w works] E F; try discriminate; auto. inversion F as [|? ? F1 F2]; subst. cbn [map2 flat_map book fst]. rewrite F1, IH by (auto; cbn in E; lia). reflexivity.
Qed.
Lemma all_sent l : Forall (fun c : account => fst c = []) (map sent l).
Proof. apply Forall_forall. intros c H. apply in_map_iff in H. destruct H as (x & <- & _). reflexivity. Qed.
Lemma map2_len {A B C} (f : A -> B -> C) : forall l k, length k = length l -> length (map2 f l k) = length l.
Proof. induction l as [|a l IH]; intros [|b k] E; try discriminate; cbn in *; auto. Qed.

(* the books of a whole system *)
Record books (d n : nat) (l : life) (M C : obs) (e i : nat) (acts : option (list account)) : Prop := {
  b_main : rs_repr d (g_stats (l_main l)) M; b_new : rs_repr d (g_collected (l_main l)) C; b_e : g_episodes (l_main l) = e; b_i : g_interactions (l_main l) = i;
  b_acts : match l_actors l, acts with None, None => True | Some a, Some cs => Forall2 (holds d) a cs /\ length cs = n | _, _ => False end }.
Definition fresh_actors (n : nat) (C : obs) (e i : nat) (remote : option (list (nat * nat))) : list account :=
  match remote with None => repeat (C, (e, i)) n | Some rs => map (fun r => (C, r)) rs end.
Lemma made d main C e i : rs_repr d (g_collected main) C -> g_episodes main = e -> g_interactions main = i -> forall n remote,
  Forall2 (holds d) (map (make_actor main) (match remote with None => repeat None n | Some rs => map Some rs end)) (fresh_actors n C e i remote).
Proof.
  intros R E I n remote. destruct remote as [rs|]; unfold fresh_actors.
  - rewrite map_map. induction rs as [|[e1 i1] rs IH]; cbn [map]; constructor; auto. split; auto.
  - induction n as [|n IH]; cbn [repeat map]; constructor; auto. split; auto.
Qed.
Lemma parallelize_books d n l M C e i acts : books d n l M C e i acts -> (forall rs, l_remote l = Some rs -> length rs = n) ->
  exists cs, books d n (parallelize n l) M C e i (Some cs) /\ cs = match acts with Some cs => cs | None => fresh_actors n C e i (l_remote l) end /\
    l_remote (parallelize n l) = match acts with Some _ => l_remote l | None => None end.
Proof.
  intros [A B E I H] Rn. unfold parallelize. destruct (l_actors l) as [a|] eqn:EA, acts as [cs|]; try contradiction.
  - exists cs. split; [split; auto; rewrite EA; auto|]. auto.
  - eexists. split; [|split; reflexivity]. split; auto. cbn [l_main l_actors]. split; [apply made; auto|]. unfold fresh_actors. destruct (l_remote l) as [rs|]; [rewrite map_length; auto|apply repeat_length].
Qed.
Lemma eval_books d n l M C e i acts works : books d n l M C e i acts -> (forall rs, l_remote l = Some rs -> length rs = n) -> length works = n -> Forall (fun x => length x = d) (flat_map eps_obs works) ->
  exists l', l_eval n l (map (map lift_ep) works) = Ok l' /\
    let bs := map2 book (match acts with Some cs => cs | None => fresh_actors n C e i (l_remote l) end) works in
    books d n l' (M ++ flat_map fst bs) C (episodes_of bs) (steps_of bs) (Some (map sent bs)) /\
    l_remote l' = match acts with Some _ => l_remote l | None => None end.
Proof.
  intros Bk Rn HL HW. destruct (parallelize_books d n l M C e i acts Bk Rn) as (cs & [A B E I H] & Ecs & Er). rewrite <- Ecs. unfold l_eval.
  destruct (l_actors (parallelize n l)) as [a|]; [|contradiction]. destruct H as [H1 H2].
  destruct (round_books d (l_main (parallelize n l)) a M cs works A H1 ltac:(lia) HW) as (m' & a' & -> & R1 & R2 & R3 & R4 & R5). cbn [rmap]. eexists. split; [reflexivity|]. cbv zeta. split; [|exact Er].
  split; cbn [l_main l_actors fst snd]; auto; [rewrite R2; auto|]. split; auto. rewrite map_length, map2_len; lia.
Qed.
Lemma run_books d n l M C e i acts es : books d n l M C e i acts -> Forall (fun x => length x = d) (eps_obs es) ->
  exists l', l_run l (map lift_ep es) = Ok l' /\ books d n l' (M ++ eps_obs es) (C ++ eps_obs es) (e + length es) (i + eps_steps es) acts /\ l_remote l' = l_remote l.
Proof.
  intros [A B E I H] HW. unfold l_run. destruct (g_work_repr d es (l_main l) M C e i) as (g & -> & [R1 R2 R3 R4]); [split; auto|auto|]. cbn [rmap]. eexists. split; [reflexivity|]. split; [|reflexivity]. split; auto.
Qed.
Lemma kill_books d n l M C e i cs : books d n l M C e i (Some cs) -> exists l', l_kill l = Ok l' /\ books d n l' M C e i None /\ l_remote l' = l_remote l.
Proof. intros [A B E I H]. unfold l_kill. destruct (l_actors l); [|contradiction]. eexists. split; [reflexivity|]. split; [|reflexivity]. split; cbn; auto. Qed.
Lemma remote_counts d : forall a cs, Forall2 (holds d) a cs -> map (fun a => (g_episodes a, g_interactions a)) a = map snd cs.
Proof. induction 1 as [|a c ? ? (A & B & C) HF IH]; cbn [map]; [auto|]. rewrite IH, B, C. destruct c as [o [x y]]. reflexivity. Qed.
Lemma clone_books d n l M C e i acts : books d n l M C e i acts ->
  let remote := match acts with None => l_remote l | Some cs => Some (map snd cs) end in
  books d n (fst (l_clone l)) M C e i acts /\ books d n (snd (l_clone l)) M C e i None /\ l_remote (fst (l_clone l)) = remote /\ l_remote (snd (l_clone l)) = remote.
Proof.
  intros [A B E I H]. cbv zeta. unfold l_clone. cbn [fst snd l_remote]. destruct (l_actors l) as [a|] eqn:EA, acts as [cs|]; try contradiction.
  - destruct H as [H1 H2]. rewrite (remote_counts d a cs H1). split; [split; cbn; auto|]. split; [split; cbn; auto|]. auto.
  - split; [split; cbn; auto|]. split; [split; cbn; auto|]. auto.
Qed.
Lemma new_books d n : books d n l_new [] [] 0 0 None.
Proof. split; cbn; auto. Qed.

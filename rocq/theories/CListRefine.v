(* Batch-level refinement of the CList model to batches of bounded queues. *)
From Verif Require Import Prelude StructModel StructSpec CListProofs.
Open Scope Z_scope.

Section Refine.
Context {V : Type} (D : dops V).
Variable M : nat.
Hypothesis HM : (2 <= M)%nat.
Variable verify : bool.
Variable fallback : V.
Hypothesis laws : unit_laws D.
Notation MZ := (Z.of_nat M).
Notation rep := (rep M).

Definition some_b {A} (o : option A) : bool := match o with Some _ => true | None => false end.

Lemma all_some_cons {A} (o : option A) l :
  all_some (o :: l) = match o with Some a => option_map (cons a) (all_some l) | None => None end.
Proof. destruct o; reflexivity. Qed.

(* masks *)
Lemma masks_length n w : mask_shaped n w = true -> length (masks n w) = n.
Proof.
  destruct w as [l|]; simpl; intros H.
  - rewrite map_length. apply Nat.eqb_eq in H; auto.
  - apply repeat_length.
Qed.
Lemma masks_sel n w : map sel (masks n w) = mask_of n w.
Proof.
  destruct w as [l|]; simpl.
  - rewrite map_map. simpl. apply map_id.
  - induction n; simpl; f_equal; auto.
Qed.
Lemma mask_of_length n w : mask_shaped n w = true -> length (mask_of n w) = n.
Proof. intros H. rewrite <- masks_sel, map_length. apply masks_length; auto. Qed.
Lemma get_where_ok n w : mask_shaped n w = true -> get_where n w = Ok w.
Proof. destruct w as [l|]; simpl; auto. intros ->; auto. Qed.
Lemma expand_ok {A} e n (b : barg A) : shaped n b = true -> expand e n b = Ok (arg_of n b).
Proof. destruct b; simpl; auto. intros ->; auto. Qed.
Lemma arg_of_length {A} n (b : barg A) : shaped n b = true -> length (arg_of n b) = n.
Proof. destruct b; simpl; intros H; [apply repeat_length | apply Nat.eqb_eq; auto]. Qed.

Lemma Forall2_len {A B} (R : A -> B -> Prop) l l' : Forall2 R l l' -> length l = length l'.
Proof. induction 1; simpl; auto. Qed.

(* writing through a key, all lanes *)
Definition mods mt (qs : list (list V)) (ks : list Z) (vs : list V) (bs : list bool) :=
  map2 (fun q kvb => q_modify D mt q (fst kvb) (fst (snd kvb)) (snd (snd kvb))) qs (combine ks (combine vs bs)).

Lemma apply_batch mt : forall ls qs ks vs (ws : list (option bool)),
  Forall2 rep ls qs -> length ks = length ls -> length vs = length ls -> length ws = length ls ->
  forallb (key_in_capacity M) ks = true ->
  (scales mt = false \/ d_isbool D = true \/ Forall (fun w => w <> None) ws) ->
  let news := mods mt qs ks vs (map sel ws) in
  let us := map2 (ukey M verify) ls ks in
  forallb (fun b => b) (map2 (fun v wi => v || negb (sel wi)) (map2 (ukey_valid M) ls us) ws) = some_b (all_some news)
  /\ forall qs', all_some news = Some qs' -> exists ls',
     sequence (map3 (fun l u fv => rmap (fun b => mkLane b (lbeg l) (lend l)) (lane_modify (lbuf l) u fv))
       ls us (map2 (fun wi v old => meth_cell D mt wi old v) ws vs)) = Ok ls'
     /\ Forall2 rep ls' qs'.
Proof.
  induction ls as [|l ls IH]; intros qs ks vs ws HR Hk Hv Hw Hcap Hmt; inversion HR; subst;
    destruct ks as [|k ks], vs as [|v vs], ws as [|w ws]; try discriminate; cbn -[all_some].
  { split; auto. intros qs' E; injection E as <-. exists []. auto. }
  rename y into q, l' into qs.
  simpl in Hcap. apply andb_true_iff in Hcap. destruct Hcap as [Hk1 Hcap].
  assert (Hmt' : scales mt = false \/ d_isbool D = true \/ Forall (fun w => w <> None) ws).
  { destruct Hmt as [?|[?|Hf]]; auto. inversion Hf; auto. }
  assert (Hmt1 : scales mt = false \/ d_isbool D = true \/ w <> None).
  { destruct Hmt as [?|[?|Hf]]; auto. inversion Hf; auto. }
  destruct (IH qs ks vs ws) as [IH1 IH2]; auto.
  destruct (ukey_rep M HM verify l q k) as (Hr & Hval & Hidx); auto.
  unfold mods. cbn [map combine map2 fst snd]. rewrite all_some_cons.
  fold (mods mt qs ks vs (map sel ws)).
  cbn [fst snd]. unfold q_modify at 1 2.
  rewrite IH1, Hval. clear IH1. rename IH2 into IH'.
  destruct (sel w) eqn:Hs; cbn [negb orb]; rewrite ?orb_false_r, ?orb_true_r.
  - destruct (py_index (length q) k) as [i|] eqn:Ei; cbn [andb some_b].
    + destruct (Hidx i eq_refl) as [Hi Hu].
      destruct (lane_modify_rep M HM l q i (fun old => meth_cell D mt w old v)) as (old & b' & Eo & Em & Hrep'); auto.
      rewrite Eo. split; [destruct (all_some (mods mt qs ks vs (map sel ws))); reflexivity|].
      intros qs' Eq. destruct (all_some (mods mt qs ks vs (map sel ws))) as [qs''|]; [|discriminate].
      injection Eq as <-. destruct (IH' qs'' eq_refl) as (ls' & Es & Hl').
      rewrite Hu, Em, Es. cbn. eexists; split; [reflexivity|]. constructor; auto.
      rewrite meth_cell_sel in Hrep' by auto. exact Hrep'.
    + split; auto. discriminate.
  - destruct w as [[|]|]; try discriminate.
    assert (Hid : lane_modify (lbuf l) (ukey M verify l k) (fun old => meth_cell D mt (Some false) old v) = Ok (lbuf l)).
    { apply (lane_modify_id M); auto. - eapply rep_buf; eauto. - intros x; apply meth_cell_unsel; auto. }
    split; [destruct (all_some (mods mt qs ks vs (map sel ws))); reflexivity|].
    intros qs' Eq. destruct (all_some (mods mt qs ks vs (map sel ws))) as [qs''|]; [|discriminate].
    injection Eq as <-. destruct (IH' qs'' eq_refl) as (ls' & Es & Hl').
    rewrite Hid, Es. cbn. eexists; split; [reflexivity|]. constructor; auto. destruct l; auto.
Qed.

Lemma meth_ok_masks mt n w : meth_ok D mt w = true ->
  scales mt = false \/ d_isbool D = true \/ Forall (fun x => x <> None) (masks n w).
Proof.
  unfold meth_ok. destruct (scales mt); simpl; auto. destruct (d_isbool D); simpl; auto.
  destruct w as [l|]; [|discriminate]. intros _. right; right. simpl.
  apply Forall_forall. intros x Hx. apply in_map_iff in Hx. destruct Hx as (b & <- & _). discriminate.
Qed.

Lemma cl_apply_refines mt ls qs k v w :
  Forall2 rep ls qs -> shaped (length ls) k = true -> forallb (key_in_capacity M) (arg_of (length ls) k) = true ->
  shaped (length ls) v = true -> mask_shaped (length ls) w = true -> meth_ok D mt w = true ->
  match all_some (mods mt qs (arg_of (length ls) k) (arg_of (length ls) v) (mask_of (length ls) w)) with
  | Some qs' => exists ls', cl_apply D M verify mt ls k v w = (ls', Ok tt) /\ Forall2 rep ls' qs'
  | None => verify = true -> cl_apply D M verify mt ls k v w = (ls, Err IndexError)
  end.
Proof.
  intros HR Hk Hc Hv Hw Hm.
  destruct (apply_batch mt ls qs (arg_of (length ls) k) (arg_of (length ls) v) (masks (length ls) w)) as [H1 H2]; auto;
    try (apply arg_of_length; auto). { apply masks_length; auto. } { apply meth_ok_masks; auto. }
  rewrite masks_sel in *. unfold cl_apply, get_ukeys.
  rewrite (get_where_ok _ _ Hw). cbn [bind]. rewrite (expand_ok _ _ _ Hk). cbn [bind]. rewrite H1.
  destruct (all_some (mods mt qs (arg_of (length ls) k) (arg_of (length ls) v) (mask_of (length ls) w))) as [qs'|] eqn:E; cbn [some_b negb].
  - rewrite andb_false_r. cbn [bind fst snd]. rewrite (expand_ok _ _ _ Hv). cbn [bind].
    destruct (H2 qs' eq_refl) as (ls' & Es & Hl'). rewrite Es. eauto.
  - intros ->. reflexivity.
Qed.

(* pushing: move then set the new end element *)
Section Push.
Variable mv : lane V -> option bool -> lane V.
Variable qpush : list V -> V -> bool -> option (list V).
Variable pos : Z.
Hypothesis pos_cap : key_in_capacity M pos = true.
Variable ins : list V -> V -> list V.
Hypothesis qpush_def : forall q v b, qpush q v b = if b then if Nat.ltb (length q) M then Some (ins q v) else None else Some q.
Hypothesis mv_rep : forall l q, rep l q -> (length q < M)%nat -> exists x, rep (mv l None) (ins q x).
Hypothesis mv_true : forall l, mv l (Some true) = mv l None.
Hypothesis mv_false : forall l, mv l (Some false) = l.
Hypothesis ins_set : forall q x v, q_modify D MSet (ins q x) pos v true = Some (ins q v).

Lemma push_batch : forall ls qs vs (ws : list (option bool)),
  Forall2 rep ls qs -> length vs = length ls -> length ws = length ls ->
  let news := map3 qpush qs vs (map sel ws) in
  existsb (fun b => b) (map2 (add_rejected M) ls ws) = negb (some_b (all_some news))
  /\ forall qs', all_some news = Some qs' -> exists qs1,
     Forall2 rep (map2 mv ls ws) qs1 /\ all_some (mods MSet qs1 (repeat pos (length ls)) vs (map sel ws)) = Some qs'.
Proof.
  induction ls as [|l ls IH]; intros qs vs ws HR Hv Hw; inversion HR; subst;
    destruct vs as [|v vs], ws as [|w ws]; try discriminate; cbn -[all_some].
  { split; auto. intros qs' E; injection E as <-. exists []. split; auto. }
  rename y into q, l' into qs.
  destruct (IH qs vs ws) as [IH1 IH2]; auto.
  rewrite all_some_cons, qpush_def, IH1.
  unfold add_rejected. rewrite (is_full_rep M HM l q) by auto.
  assert (Hcap : (length q <= M)%nat) by (eapply rep_cap; eauto).
  destruct (sel w) eqn:Hs; rewrite ?andb_true_r, ?andb_false_r; cbn [orb].
  - destruct (Nat.ltb_spec (length q) M) as [Hlt|Hge].
    + replace (Nat.eqb (length q) M) with false by (symmetry; apply Nat.eqb_neq; lia). cbn [orb].
      split; [destruct (all_some (map3 qpush qs vs (map sel ws))); reflexivity|].
      intros qs' Eq. destruct (all_some (map3 qpush qs vs (map sel ws))) as [qs''|]; [|discriminate].
      injection Eq as <-. destruct (IH2 qs'' eq_refl) as (qs1 & Hf & Ha).
      destruct (mv_rep l q) as [x Hx]; auto.
      exists (ins q x :: qs1). split.
      * constructor; auto. destruct w as [[|]|]; try discriminate; [rewrite mv_true|]; auto.
      * unfold mods in *. cbn [repeat combine map map2 fst snd]. rewrite all_some_cons.
        cbn [fst snd]. rewrite ins_set, Ha. reflexivity.
    + replace (Nat.eqb (length q) M) with true by (symmetry; apply Nat.eqb_eq; lia). cbn [orb].
      split; auto; discriminate.
  - split; [destruct (all_some (map3 qpush qs vs (map sel ws))); reflexivity|].
    intros qs' Eq. destruct (all_some (map3 qpush qs vs (map sel ws))) as [qs''|]; [|discriminate].
    injection Eq as <-. destruct (IH2 qs'' eq_refl) as (qs1 & Hf & Ha).
    exists (q :: qs1). split.
    + constructor; auto. destruct w as [[|]|]; try discriminate. rewrite mv_false; auto.
    + unfold mods in *. cbn [repeat combine map map2 fst snd]. rewrite all_some_cons.
      cbn [fst snd]. unfold q_modify at 1. rewrite Ha. reflexivity.
Qed.

Lemma push_refines ls qs v w :
  Forall2 rep ls qs -> shaped (length ls) v = true -> mask_shaped (length ls) w = true ->
  match all_some (map3 qpush qs (arg_of (length ls) v) (mask_of (length ls) w)) with
  | Some qs' => exists ls', cl_push D M verify (add_rejected M) mv pos ls v w = (ls', Ok COUnit) /\ Forall2 rep ls' qs'
  | None => verify = true -> cl_push D M verify (add_rejected M) mv pos ls v w = (ls, Err IndexError)
  end.
Proof.
  intros HR Hv Hw. unfold cl_push. rewrite (get_where_ok _ _ Hw).
  destruct (push_batch ls qs (arg_of (length ls) v) (masks (length ls) w)) as [H1 H2]; auto.
  { apply arg_of_length; auto. } { apply masks_length; auto. }
  rewrite masks_sel in *. unfold move. rewrite H1.
  destruct (all_some (map3 qpush qs (arg_of (length ls) v) (mask_of (length ls) w))) as [qs'|] eqn:E; cbn [some_b negb].
  - rewrite andb_false_r.
    destruct (H2 qs' eq_refl) as (qs1 & Hf & Ha).
    assert (Hlen : length (map2 mv ls (masks (length ls) w)) = length ls).
    { rewrite map2_length, masks_length by auto. lia. }
    assert (HX := cl_apply_refines MSet (map2 mv ls (masks (length ls) w)) qs1 (Sc pos) v w).
    rewrite Hlen in HX. cbn [shaped arg_of] in HX.
    rewrite Ha in HX. destruct HX as (ls' & Ec & Hr'); auto.
    { clear -pos_cap. induction (length ls); simpl; auto. rewrite pos_cap; auto. }
    rewrite Ec. cbn. eauto.
  - intros ->. reflexivity.
Qed.
End Push.

(* popping *)
Lemma getd_batch : forall (ls : list (lane V)) (qs : list (list V)) (ks : list Z) (ds : list V),
  Forall2 rep ls qs -> length ks = length ls -> length ds = length ls ->
  forallb (key_in_capacity M) ks = true ->
  let us := map2 (ukey M verify) ls ks in
  exists vs, sequence (map2 (fun l u => lane_read (lbuf l) (u mod MZ)) ls us) = Ok vs /\
  map3 (fun (ok : bool) v d => if ok then v else d) (map2 (ukey_valid M) ls us) vs ds =
  map3 (fun q k d => match q_get q k with Some v => v | None => d end) qs ks ds.
Proof.
  induction ls as [|l ls IH]; intros qs ks ds HR Hk Hd Hcap; inversion HR; subst;
    destruct ks as [|k ks], ds as [|d ds]; try discriminate; cbn.
  { exists []; auto. }
  rename y into q, l' into qs.
  simpl in Hcap. apply andb_true_iff in Hcap. destruct Hcap as [Hk1 Hcap].
  destruct (IH qs ks ds) as (vs & E1 & E2); auto.
  destruct (ukey_rep M HM verify l q k) as (Hr & Hval & Hidx); auto.
  rewrite Z.mod_small by lia. rewrite Hval.
  destruct (py_index (length q) k) as [i|] eqn:Ei.
  - destruct (Hidx i eq_refl) as [Hi Hu]. destruct (lane_read_rep M HM l q i) as (v & Ev & El); auto.
    rewrite Hu, El, E1. exists (v :: vs). split; auto. rewrite E2. f_equal.
    unfold q_get. rewrite Ei, Ev. reflexivity.
  - destruct (lane_read_any M HM l (ukey M verify l k)) as [v Ev]; auto. { eapply rep_buf; eauto. }
    rewrite Ev, E1. exists (v :: vs). split; auto. rewrite E2. f_equal. unfold q_get; rewrite Ei; reflexivity.
Qed.

Lemma cl_getd_refines (ls : list (lane V)) (qs : list (list V)) (k : barg Z) (d : barg V) :
  Forall2 rep ls qs -> shaped (length ls) k = true -> forallb (key_in_capacity M) (arg_of (length ls) k) = true ->
  shaped (length ls) d = true ->
  cl_get M verify ls k (Some d) =
  Ok (map3 (fun q k d => match q_get q k with Some v => v | None => d end) qs (arg_of (length ls) k) (arg_of (length ls) d)).
Proof.
  intros HR Hk Hc Hd. unfold cl_get, get_ukeys. rewrite (expand_ok _ _ _ Hd), (expand_ok _ _ _ Hk). cbn [bind get_where andb fst snd].
  destruct (getd_batch ls qs (arg_of (length ls) k) (arg_of (length ls) d)) as (vs & E1 & E2); auto; try (apply arg_of_length; auto).
  rewrite E1. cbn [bind]. rewrite E2. reflexivity.
Qed.

Lemma get_batch : forall (ls : list (lane V)) (qs : list (list V)) (ks : list Z),
  Forall2 rep ls qs -> length ks = length ls -> forallb (key_in_capacity M) ks = true ->
  let us := map2 (ukey M verify) ls ks in
  forallb (fun b => b) (map2 (fun v wi => v || negb (sel wi)) (map2 (ukey_valid M) ls us) (repeat None (length ls)))
    = some_b (all_some (map2 q_get qs ks)) /\
  forall vs, all_some (map2 q_get qs ks) = Some vs ->
  sequence (map2 (fun l u => lane_read (lbuf l) u) ls us) = Ok vs.
Proof.
  induction ls as [|l ls IH]; intros qs ks HR Hk Hcap; inversion HR; subst;
    destruct ks as [|k ks]; try discriminate; cbn -[all_some q_get].
  { split; auto. intros vs E; injection E as <-; auto. }
  rename y into q, l' into qs.
  simpl in Hcap. apply andb_true_iff in Hcap. destruct Hcap as [Hk1 Hcap].
  destruct (IH qs ks) as (E1 & E2); auto.
  destruct (ukey_rep M HM verify l q k) as (Hr & Hval & Hidx); auto.
  rewrite E1, Hval, all_some_cons. rewrite orb_false_r.
  assert (Eq : q_get q k = match py_index (length q) k with None => None | Some i => nth_error q i end) by reflexivity.
  rewrite Eq; clear Eq.
  destruct (py_index (length q) k) as [i|] eqn:Ei; cbn [andb].
  - destruct (Hidx i eq_refl) as [Hi Hu]. destruct (lane_read_rep M HM l q i) as (v & Ev & El); auto.
    rewrite Ev, Hu, El. split; [destruct (all_some (map2 q_get qs ks)); reflexivity|].
    intros vs Es. destruct (all_some (map2 q_get qs ks)) as [vs'|]; [|discriminate]. injection Es as <-.
    rewrite (E2 vs' eq_refl). reflexivity.
  - split; auto; discriminate.
Qed.

Section Pop.
Variable mv : lane V -> option bool -> lane V.
Variable qpop : list V -> bool -> option (list V).
Variable pos : Z.
Hypothesis pos_cap : key_in_capacity M pos = true.
Variable rem : list V -> list V.
Hypothesis qpop_def : forall q b, qpop q b = if b then if Nat.eqb (length q) 0 then None else Some (rem q) else Some q.
Hypothesis mv_rep : forall l q, rep l q -> (0 < length q)%nat -> rep (mv l None) (rem q).
Hypothesis mv_true : forall l, mv l (Some true) = mv l None.
Hypothesis mv_false : forall l, mv l (Some false) = l.

Lemma pop_batch : forall ls qs (ws : list (option bool)),
  Forall2 rep ls qs -> length ws = length ls ->
  let news := map2 qpop qs (map sel ws) in
  existsb (fun b => b) (map2 rem_rejected ls ws) = negb (some_b (all_some news))
  /\ forall qs', all_some news = Some qs' -> Forall2 rep (map2 mv ls ws) qs'.
Proof.
  induction ls as [|l ls IH]; intros qs ws HR Hw; inversion HR; subst;
    destruct ws as [|w ws]; try discriminate; cbn -[all_some].
  { split; auto. intros qs' E; injection E as <-. auto. }
  rename y into q, l' into qs.
  destruct (IH qs ws) as [IH1 IH2]; auto.
  rewrite all_some_cons, qpop_def, IH1.
  unfold rem_rejected. rewrite (is_empty_rep M HM l q) by auto.
  destruct (sel w) eqn:Hs; rewrite ?andb_true_r, ?andb_false_r; cbn [orb].
  - destruct (Nat.eqb_spec (length q) 0) as [Hlt|Hge]; cbn [orb].
    + split; auto; discriminate.
    + split; [destruct (all_some (map2 qpop qs (map sel ws))); reflexivity|].
      intros qs' Eq. destruct (all_some (map2 qpop qs (map sel ws))) as [qs''|]; [|discriminate].
      injection Eq as <-. constructor; auto.
      destruct w as [[|]|]; try discriminate; [rewrite mv_true|]; apply mv_rep; auto; lia.
  - split; [destruct (all_some (map2 qpop qs (map sel ws))); reflexivity|].
    intros qs' Eq. destruct (all_some (map2 qpop qs (map sel ws))) as [qs''|]; [|discriminate].
    injection Eq as <-. constructor; auto.
    destruct w as [[|]|]; try discriminate. rewrite mv_false; auto.
Qed.

Lemma map3_repeat_r {A B C E} (f : A -> B -> C -> E) (l : list A) b c :
  map3 f l (repeat b (length l)) (repeat c (length l)) = map (fun a => f a b c) l.
Proof. induction l; simpl; f_equal; auto. Qed.

Lemma pop_refines ls qs w :
  Forall2 rep ls qs -> mask_shaped (length ls) w = true ->
  match all_some (map2 qpop qs (mask_of (length ls) w)) with
  | Some qs' => exists ls', cl_pop M verify fallback rem_rejected mv pos ls w =
       (ls', Ok (COVals (map (fun q => match q_get q pos with Some v => v | None => fallback end) qs)))
       /\ Forall2 rep ls' qs'
  | None => verify = true -> cl_pop M verify fallback rem_rejected mv pos ls w = (ls, Err IndexError)
  end.
Proof.
  intros HR Hw. unfold cl_pop. rewrite (get_where_ok _ _ Hw).
  assert (Hn := Forall2_len _ _ _ HR).
  rewrite (cl_getd_refines ls qs (Sc pos) (Sc fallback)) by
    (auto; clear -pos_cap; simpl; induction (length ls); simpl; auto; rewrite pos_cap; auto).
  cbn [arg_of].
  assert (E3 := map3_repeat_r (fun q k d => match q_get q k with Some v => v | None => d end) qs pos fallback).
  rewrite <- Hn in E3. rewrite E3. clear E3.
  destruct (pop_batch ls qs (masks (length ls) w)) as [H1 H2]; auto. { apply masks_length; auto. }
  rewrite masks_sel in *. unfold move. rewrite H1.
  destruct (all_some (map2 qpop qs (mask_of (length ls) w))) as [qs'|] eqn:E; cbn [some_b negb].
  - rewrite andb_false_r. cbn. eauto.
  - intros ->. reflexivity.
Qed.
End Pop.

Lemma cap_small k : -1 <= k <= 0 -> key_in_capacity M k = true.
Proof. unfold key_in_capacity. intros. lia. Qed.

Lemma upd_app_last (q : list V) x v : upd (q ++ [x]) (length q) v = q ++ [v].
Proof. induction q; simpl; f_equal; auto. Qed.

Lemma step_refines ls qs o :
  Forall2 rep ls qs -> op_covered D M (length ls) o = true ->
  (verify = true \/ is_ok (snd (q_step D M fallback qs o)) = true) ->
  snd (cl_step D M verify fallback ls o) = snd (q_step D M fallback qs o) /\
  Forall2 rep (fst (cl_step D M verify fallback ls o)) (fst (q_step D M fallback qs o)).
Proof.
  intros HR Hc Hok. assert (Hn := Forall2_len _ _ _ HR).
  destruct o as [v w|v w|w|w|mt k v w|k d| |w]; cbn [op_covered] in Hc; cbn [cl_step q_step] in *; rewrite <- ?Hn in *.
  - apply andb_true_iff in Hc; destruct Hc as [Hv Hw].
    assert (HX := push_refines (move_end_forward M) (q_append M) (-1) (cap_small (-1) ltac:(lia)) (fun q v => q ++ [v])
      (fun q v b => eq_refl) (fun l q => mef_rep M HM l q) (fun l => eq_refl) (mef_false M)).
    specialize (HX ltac:(intros q x v0; unfold q_modify, py_index; rewrite app_length; simpl length;
      replace ((0 <=? -1) && (-1 <? Z.of_nat (length q + 1))) with false by lia;
      replace ((- Z.of_nat (length q + 1) <=? -1) && (-1 <? 0)) with true by lia;
      replace (Z.to_nat (Z.of_nat (length q + 1) + -1)) with (length q) by lia;
      rewrite nth_error_app2, Nat.sub_diag by lia; simpl; rewrite upd_app_last; reflexivity)).
    specialize (HX ls qs v w HR Hv Hw). unfold commit in *.
    destruct (all_some (map3 (q_append M) qs (arg_of (length ls) v) (mask_of (length ls) w))) as [qs'|].
    + destruct HX as (ls' & -> & Hr'). auto.
    + destruct Hok as [Hok|Hok]; [|discriminate]. rewrite HX by auto. auto.
  - apply andb_true_iff in Hc; destruct Hc as [Hv Hw].
    assert (HX := push_refines (move_begin_backward M) (q_appendleft M) 0 (cap_small 0 ltac:(lia)) (fun q v => v :: q)
      (fun q v b => eq_refl) (fun l q => mbb_rep M HM l q) (fun l => eq_refl) (mbb_false M)).
    specialize (HX ltac:(intros q x v0; unfold q_modify, py_index; simpl length;
      replace ((0 <=? 0) && (0 <? Z.of_nat (S (length q)))) with true by lia; reflexivity)).
    specialize (HX ls qs v w HR Hv Hw). unfold commit in *.
    destruct (all_some (map3 (q_appendleft M) qs (arg_of (length ls) v) (mask_of (length ls) w))) as [qs'|].
    + destruct HX as (ls' & -> & Hr'). auto.
    + destruct Hok as [Hok|Hok]; [|discriminate]. rewrite HX by auto. auto.
  - assert (HX := pop_refines (move_end_backward M) q_pop (-1) (cap_small (-1) ltac:(lia)) (@removelast V)).
    specialize (HX ltac:(intros [|x q] [|]; reflexivity) (fun l q => meb_rep M HM l q) (fun l => eq_refl) (meb_false M)).
    specialize (HX ls qs w HR Hc). unfold commit in *.
    destruct (all_some (map2 q_pop qs (mask_of (length ls) w))) as [qs'|].
    + destruct HX as (ls' & -> & Hr'). auto.
    + destruct Hok as [Hok|Hok]; [|discriminate]. rewrite HX by auto. auto.
  - assert (HX := pop_refines (move_begin_forward M) q_popleft 0 (cap_small 0 ltac:(lia)) (@tl V)).
    specialize (HX ltac:(intros [|x q] [|]; reflexivity) (fun l q => mbf_rep M HM l q) (fun l => eq_refl) (mbf_false M)).
    specialize (HX ls qs w HR Hc). unfold commit in *.
    destruct (all_some (map2 q_popleft qs (mask_of (length ls) w))) as [qs'|].
    + destruct HX as (ls' & -> & Hr'). auto.
    + destruct Hok as [Hok|Hok]; [|discriminate]. rewrite HX by auto. auto.
  - rewrite !andb_true_iff in Hc. destruct Hc as ((((Hk & Hkc) & Hv) & Hw) & Hm).
    assert (HX := cl_apply_refines mt ls qs k v w HR Hk Hkc Hv Hw Hm).
    unfold commit in *. fold (mods mt qs (arg_of (length ls) k) (arg_of (length ls) v) (mask_of (length ls) w)) in *.
    destruct (all_some (mods mt qs (arg_of (length ls) k) (arg_of (length ls) v) (mask_of (length ls) w))) as [qs'|].
    + destruct HX as (ls' & -> & Hr'). auto.
    + destruct Hok as [Hok|Hok]; [|discriminate]. rewrite HX by auto. auto.
  - rewrite !andb_true_iff in Hc. destruct Hc as ((Hk & Hkc) & Hd).
    destruct d as [d|].
    + cbn [fst snd]. rewrite (cl_getd_refines ls qs k d) by auto. auto.
    + destruct (get_batch ls qs (arg_of (length ls) k)) as [H1 H2]; auto; try (apply arg_of_length; auto).
      unfold cl_get, get_ukeys. rewrite (expand_ok _ _ _ Hk). cbn [bind get_where masks]. rewrite H1.
      destruct (all_some (map2 q_get qs (arg_of (length ls) k))) as [vs|] eqn:E; cbn [some_b negb].
      * rewrite andb_false_r. cbn [bind fst]. rewrite (H2 vs) by auto. auto.
      * destruct Hok as [Hok|Hok]; [|discriminate]. rewrite Hok. auto.
  - cbn [fst snd]. split; auto. f_equal. f_equal. clear -HM HR.
    induction HR; simpl; f_equal; auto. apply lane_length_rep; auto.
  - destruct w as [w|]; [discriminate|]. cbn [fst snd]. split; auto. clear -HR.
    induction HR as [|l q ls qs H HR IH]; simpl; constructor; auto.
    constructor; simpl; try lia; try congruence. eapply rep_buf; eauto.
Qed.

Lemma step_len ls qs o :
  Forall2 rep ls qs -> op_covered D M (length ls) o = true ->
  (verify = true \/ is_ok (snd (q_step D M fallback qs o)) = true) ->
  length (fst (cl_step D M verify fallback ls o)) = length ls.
Proof.
  intros HR Hc Hok. destruct (step_refines ls qs o HR Hc Hok) as [_ H].
  assert (H1 := Forall2_len _ _ _ H). assert (H2 := Forall2_len _ _ _ HR).
  rewrite H1, H2. clear -Hc H2. rewrite H2 in Hc. clear H2.
  assert (Hcm : forall (T : Type) (out : T) e (ns : list (option (list V))), length ns = length qs -> length (fst (commit e qs ns out)) = length qs).
  { intros T out e ns Hns. unfold commit. destruct (all_some ns) as [l'|] eqn:E; auto. simpl. rewrite <- Hns. clear -E.
    revert l' E; induction ns as [|[a|] ns IH]; intros l' E; simpl in *.
    - injection E as <-; auto.
    - destruct (all_some ns) as [t|]; [|discriminate]. injection E as <-. simpl; f_equal; auto.
    - discriminate. }
  destruct o as [v w|v w|w|w|mt k v w|k d| |w]; cbn [op_covered] in Hc; cbn [q_step]; rewrite ?andb_true_iff in Hc;
    try (apply Hcm; rewrite ?map3_length, ?map2_length, ?combine_length, ?mask_of_length, ?arg_of_length by tauto; lia).
  - destruct d; auto. destruct (all_some _); auto.
  - auto.
  - simpl. apply map_length.
Qed.

Lemma run_refines : forall os ls qs,
  Forall2 rep ls qs -> forallb (op_covered D M (length ls)) os = true ->
  (verify = true \/ forallb is_ok (snd (run (q_step D M fallback) qs os)) = true) ->
  snd (run (cl_step D M verify fallback) ls os) = snd (run (q_step D M fallback) qs os) /\
  Forall2 rep (fst (run (cl_step D M verify fallback) ls os)) (fst (run (q_step D M fallback) qs os)).
Proof.
  induction os as [|o os IH]; intros ls qs HR Hc Hok; cbn [run] in *.
  { auto. }
  cbn [forallb] in Hc. apply andb_true_iff in Hc. destruct Hc as [Hc1 Hc2].
  assert (Hok1 : verify = true \/ is_ok (snd (q_step D M fallback qs o)) = true).
  { destruct Hok as [?|Hok]; auto. right. destruct (q_step D M fallback qs o) as [qs1 r1].
    destruct (run (q_step D M fallback) qs1 os). cbn in *. apply andb_true_iff in Hok; tauto. }
  destruct (step_refines ls qs o HR Hc1 Hok1) as [H1 H2].
  assert (Hlen := step_len ls qs o HR Hc1 Hok1).
  destruct (cl_step D M verify fallback ls o) as [ls1 r1]. destruct (q_step D M fallback qs o) as [qs1 r1'].
  cbn [fst snd] in *. subst r1'. rewrite <- Hlen in Hc2.
  destruct (IH ls1 qs1 H2 Hc2) as [H3 H4].
  { destruct Hok as [?|Hok]; auto. right. destruct (run (q_step D M fallback) qs1 os). cbn in *. apply andb_true_iff in Hok; tauto. }
  destruct (run (cl_step D M verify fallback) ls1 os), (run (q_step D M fallback) qs1 os). cbn [fst snd] in *.
  split; congruence || auto.
Qed.

Lemma new_rep (bufs : list (list V)) : Forall (fun b => length b = M) bufs -> Forall2 rep (cl_new bufs) (map (fun _ : list V => @nil V) bufs).
Proof.
  induction 1; simpl; constructor; auto. constructor; simpl; try lia; auto; congruence.
Qed.
End Refine.

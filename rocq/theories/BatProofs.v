From Verif Require Import Prelude NdimModel NdimSpec NdimProofs NdimProps BatModel BatSpec.
From Coq Require Import FunctionalExtensionality.

Lemma lastn_lastn {X} x m (l : list X) : x <= m -> m <= length l -> lastn x (lastn m l) = lastn x l.
Proof.
  intros H1 H2. unfold lastn. rewrite skipn_length. replace (length l - (length l - m) - x) with (m - x) by lia.
  replace (length l - x) with ((m - x) + (length l - m)) by lia. generalize (length l - m) as k. intros k. generalize (m - x) as j. intros j. clear.
  revert l. induction k as [|k IH]; intros l; [rewrite Nat.add_0_r; reflexivity|]. destruct l as [|a l]; [rewrite !skipn_nil; reflexivity|].
  replace (j + S k) with (S (j + k)) by lia. cbn. apply IH.
Qed.
Lemma inside_lastn m : forall bi B, inside bi B -> inside (lastn m bi) (lastn m B).
Proof.
  intros bi B H. assert (L : length bi = length B) by (induction H; cbn; auto). unfold lastn. rewrite L. generalize (length B - m) as k. clear L. intros k. revert k.
  induction H; intros k; [rewrite !skipn_nil; constructor|]. destruct k; cbn; [constructor; auto|apply IHForall2].
Qed.
Lemma inside_length bi B : inside bi B -> length bi = length B.
Proof. intros H. induction H; cbn; auto. Qed.

Section PROOFS.
Context {A Sc Obj : Type}.
Variable cast : nat -> Sc -> A.
Variable is_bool : Sc -> bool.
Variable bool_dtype : nat.
Notation arg := (arg A Sc Obj).
Notation func := (func A Sc Obj).
Notation expects_ndim := (expects_ndim cast is_bool bool_dtype).

Lemma levels_first f xs : forall k (args : list arg) r, length xs = length args -> Forall2 (deep k) xs args -> levels k f xs args = Ok r ->
  exists r0, f (map2 (item (repeat 0 k)) (map (fun x => Nat.min x k) xs) args) = Ok r0 /\ dtype r = dtype r0 /\ device r = device r0.
Proof.
  induction k as [|k IH]; intros args r L D H.
  - cbn [levels repeat] in *. rewrite item_none by auto. exists r. auto.
  - cbn [levels] in H. unfold vmap in H. destruct (sizes _ args) as [|b t]; [discriminate|]. destruct (forallb _ _); [|discriminate].
    destruct (levels k f xs _) as [r0|] eqn:E; [|discriminate]. cbn [bind] in H. injection H as <-.
    apply IH in E; [|rewrite map2_length, map_length; lia|apply deep_slice; auto]. destruct E as (q & Hq & H1 & H2). exists q.
    rewrite item_slice in Hq by (auto using repeat_length). cbn [repeat dtype device]. auto.
Qed.

Lemma in_batch_facts B : forall es (args : list arg), Forall2 (in_batch B) es args ->
  length es = length args /\ all_taken es args args /\ Forall2 enough es args /\ Forall (fun x => x <= length B) (map2 extra es args) /\
  Forall2 (fun x a => match a with ATensor t => firstn x (shape t) = lastn x B | _ => True end) (map2 extra es args) args.
Proof.
  intros es args F. induction F as [|e a es args H F (L & [_ T] & E & M & S)]; [repeat split; constructor|].
  destruct e as [n|], a as [t|s|t|o]; cbn in H; try tauto; cbn [map2 extra]; (split; [cbn; auto|]); (split; [split; [cbn; auto|]; cbn; constructor; auto; constructor|]);
    (split; [constructor; auto; cbn; tauto|]); (split; constructor; auto; try tauto; try lia); exact I.
Qed.
Lemma items_alike bi bi' : length bi = length bi' -> forall xs (args : list arg), Forall2 alike (map2 (item bi) xs args) (map2 (item bi') xs args).
Proof.
  intros L. induction xs as [|x xs IH]; intros [|a args]; cbn; constructor; auto. destruct a; cbn; auto.
Qed.
Lemma item_lastn m bi : m <= length bi -> forall xs (args : list arg), Forall (fun x => x <= m) xs -> map2 (item (lastn m bi)) xs args = map2 (item bi) xs args.
Proof.
  intros Hm. induction xs as [|x xs IH]; intros [|a args] H; cbn; auto. inversion H as [|? ? H1 H2]; subst. rewrite IH by auto. f_equal.
  destruct a; cbn; auto. rewrite lastn_lastn by auto. reflexivity.
Qed.
Lemma lanes_items bi : forall es (args : list arg), map2 (lane bi) es args = map2 (item bi) (map2 extra es args) args.
Proof. induction es as [|e es IH]; intros [|a args]; cbn; auto. f_equal. apply IH. Qed.
Lemma lane_own B bi : inside bi B -> forall es (args : list arg), Forall2 (in_batch B) es args ->
  Forall2 (in_batch []) es (map2 (lane bi) es args) /\ list_max (map2 extra es (map2 (lane bi) es args)) = 0.
Proof.
  intros I es args F. induction F as [|e a es args H F (F1 & IH)]; [split; [constructor|reflexivity]|].
  cbn [map2 list_max fold_right]. change (fold_right Init.Nat.max 0 ?l) with (list_max l). rewrite IH. unfold lane.
  destruct e as [n|], a as [t|s|t|o]; cbn in H; try tauto; cbn [extra item shape]; (split; [constructor; auto; cbn [in_batch shape]; try tauto|try lia]).
  - rewrite !skipn_length. cbn [length]. replace (length (shape t) - (length (shape t) - n)) with n by lia. rewrite Nat.sub_diag. cbn. auto.
  - rewrite skipn_length. lia.
Qed.
Lemma own_call es allow (f : func) args : Forall2 (in_batch []) es args -> list_max (map2 extra es args) = 0 -> expects_ndim es allow f args = f args.
Proof.
  intros F M. destruct (in_batch_facts [] es args F) as (L & T & E & _). rewrite (called cast is_bool bool_dtype es allow f args args T (or_intror E)). rewrite M. reflexivity.
Qed.
Lemma tensor_ext (r s : tensor A) : shape r = shape s -> (forall ix, at_ r ix = at_ s ix) -> dtype r = dtype s -> device r = device s -> r = s.
Proof. destruct r, s; cbn. intros -> H -> ->. apply functional_extensionality in H. subst. reflexivity. Qed.

(* one call *)
Lemma call_ok B n es allow (f : func) args : Forall (fun b => 0 < b) B -> regular n f -> Forall2 (in_batch B) es args ->
  match expects_ndim es allow f args with
  | Ok r => in_batch B (Some n) (ATensor r : arg) /\
            forall bi, inside bi B -> exists r', expects_ndim es allow f (map2 (lane bi) es args) = Ok r' /\ (ATensor r' : arg) = lane bi (Some n) (ATensor r)
  | Err e => forall bi, inside bi B -> expects_ndim es allow f (map2 (lane bi) es args) = Err e
  end.
Proof.
  intros Pos Reg F. destruct (in_batch_facts B es args F) as (L & T & E & M & S). set (xs := map2 extra es args) in *.
  assert (Mx : list_max xs <= length B) by (apply list_max_le; auto).
  set (m := list_max xs) in *. assert (Mm : Forall (fun x => x <= m) xs) by (apply list_max_le; unfold m; auto).
  assert (BS : batch_shape xs args (lastn m B)).
  { split; [apply lastn_length; auto|]. clear - S Mm Mx. clearbody m. revert Mm. induction S as [|x a xs' args' H S IH]; intros Mm; constructor; inversion Mm; subst; auto.
    destruct a; auto. rewrite lastn_lastn by auto. auto. }
  assert (LB : length (lastn m B) = m) by (apply lastn_length; auto).
  assert (Pos' : Forall (fun b => 0 < b) (lastn m B)) by (unfold lastn; clear - Pos; rewrite <- (firstn_skipn (length B - m) B) in Pos; apply Forall_app in Pos; exact (proj2 Pos)).
  set (z := repeat 0 m).
  assert (Hz : inside z (lastn m B)).
  { assert (G : forall l, Forall (fun b => 0 < b) l -> inside (repeat 0 (length l)) l) by (intros l P; unfold inside; induction P; cbn; constructor; auto).
    specialize (G _ Pos'). rewrite LB in G. exact G. }
  assert (Lz : length z = m) by apply repeat_length.
  assert (Ln : forall bi, inside bi B -> expects_ndim es allow f (map2 (lane bi) es args) = f (map2 (item (lastn m bi)) xs args)).
  { intros bi I. destruct (lane_own B bi I es args F) as (F1 & M1). rewrite own_call by auto. rewrite lanes_items. fold xs. rewrite item_lastn; auto. rewrite (inside_length _ _ I). exact Mx. }
  destruct (f (map2 (item z) xs args)) as [r0|e] eqn:E0.
  - assert (Rl : forall bi, length bi = m -> exists r, f (map2 (item bi) xs args) = Ok r /\ length (shape r) = n /\ shape r = shape r0 /\ dtype r = dtype r0 /\ device r = device r0).
    { intros bi Lb. pose proof (Reg _ _ (items_alike bi z (eq_trans Lb (eq_sym Lz)) xs args)) as R. rewrite E0 in R. destruct (f (map2 (item bi) xs args)) as [r|]; [|tauto]. exists r. intuition congruence. }
    assert (U : forall bi, length bi = length (lastn m B) -> inside bi (lastn m B) \/ In 0 (lastn m B) -> exists r, f (map2 (item bi) xs args) = Ok r /\ shape r = shape r0).
    { intros bi Lb _. destruct (Rl bi) as (r & Hr & _ & Hs & _); [congruence|]. eauto. }
    destruct (C52_batched cast is_bool bool_dtype es allow f args args (lastn m B) (shape r0) T (or_intror E) BS U) as (r & Hr & Hs & Hv).
    rewrite Hr.
    assert (N0 : length (shape r0) = n) by (destruct (Rl z Lz) as (q & Hq & Hn & Hs' & _); rewrite <- Hs'; exact Hn).
    assert (Tags : dtype r = dtype r0 /\ device r = device r0).
    { pose proof Hr as Hr'. rewrite (called cast is_bool bool_dtype es allow f args args T (or_intror E)) in Hr'. fold xs in Hr'. fold m in Hr'.
      apply levels_first in Hr'; [|unfold xs; rewrite map2_length; lia|apply extra_deep; auto]. rewrite (min_max cast xs m (Nat.le_refl m)) in Hr'. fold z in Hr'. destruct Hr' as (q & Hq & H1 & H2). split; congruence. }
    assert (Lr : length (shape r) - n = m) by (rewrite Hs, app_length; lia).
    split.
    + cbn. rewrite Lr. split; [rewrite Hs, app_length; lia|]. split; auto. rewrite Hs, firstn_app, LB, Nat.sub_diag, firstn_O, app_nil_r. rewrite <- LB at 1. apply firstn_all.
    + intros bi I. rewrite Ln by auto. assert (Lb : length (lastn m bi) = m) by (apply lastn_length; rewrite (inside_length _ _ I); auto).
      destruct (Rl _ Lb) as (r' & Hr' & _ & Hs' & Hd & Hdev). exists r'. split; auto. unfold lane, item, extra. rewrite Lr. f_equal. apply tensor_ext; cbn [shape at_ dtype device].
      * rewrite Hs, skipn_app, LB, Nat.sub_diag. rewrite <- LB at 1. rewrite skipn_all. exact Hs'.
      * intros ix. destruct (Hv (lastn m bi) ix (inside_lastn m bi B I)) as (r'' & H1 & H2). fold xs in H1. rewrite Hr' in H1. injection H1 as <-. symmetry. exact H2.
      * destruct Tags. congruence.
      * destruct Tags. congruence.
  - assert (Rl : forall bi, length bi = m -> f (map2 (item bi) xs args) = Err e).
    { intros bi Lb. pose proof (Reg _ _ (items_alike bi z (eq_trans Lb (eq_sym Lz)) xs args)) as R. rewrite E0 in R. destruct (f (map2 (item bi) xs args)); [tauto|congruence]. }
    rewrite (C52_raises cast is_bool bool_dtype es allow f args args (lastn m B) e T (or_intror E) BS); [|intros bi Lb _; apply Rl; congruence].
    intros bi I. rewrite Ln by auto. apply Rl. apply lastn_length. rewrite (inside_length _ _ I). auto.
Qed.

(* a generation *)
Fixpoint typed (decl : list (option nat)) (cs : list (call A Sc Obj)) (ns : list nat) : Prop :=
  match cs, ns with
  | [], [] => True
  | c :: cs', n :: ns' => Forall2 (fun p e => nth_error decl p = Some e) (c_args c) (c_expected c) /\ regular n (c_func c) /\ typed (decl ++ [Some n]) cs' ns'
  | _, _ => False
  end.
Lemma fetch_ok B bi (decl : list (option nat)) : forall (env : list arg), Forall2 (in_batch B) decl env -> forall ps es, Forall2 (fun p e => nth_error decl p = Some e) ps es ->
  exists args, fetch env ps = Ok args /\ Forall2 (in_batch B) es args /\ fetch (map2 (lane bi) decl env) ps = Ok (map2 (lane bi) es args).
Proof.
  intros env F ps es G. induction G as [|p e ps es H G (args & IH1 & IH2 & IH3)]; [exists []; repeat split; constructor|].
  assert (Q : exists a, nth_error env p = Some a /\ in_batch B e a /\ nth_error (map2 (lane bi) decl env) p = Some (lane bi e a)).
  { clear - F H. revert p H. induction F as [|d a decl env Hd F IH]; intros [|p] H; cbn in *; try discriminate; [injection H as ->; eauto|apply IH; auto]. }
  destruct Q as (a & Q1 & Q2 & Q3). exists (a :: args). unfold fetch in *. cbn [map map2 sequence bind]. rewrite Q1, Q3, IH1, IH3. cbn. repeat split; auto.
Qed.
Lemma map2_app {X Y Z} (g : X -> Y -> Z) : forall a a' b b', length a = length b -> map2 g (a ++ a') (b ++ b') = map2 g a b ++ map2 g a' b'.
Proof. induction a as [|x a IH]; intros a' [|y b] b' L; try discriminate; cbn; auto. f_equal. apply IH. cbn in L. lia. Qed.
Lemma calls_ok B (Pos : Forall (fun b => 0 < b) B) : forall cs ns decl env, typed decl cs ns -> Forall2 (in_batch B) decl env ->
  match perform_all cast is_bool bool_dtype env cs with
  | Ok env' => Forall2 (in_batch B) (decl ++ map Some ns) env' /\
      forall bi, inside bi B -> perform_all cast is_bool bool_dtype (map2 (lane bi) decl env) cs = Ok (map2 (lane bi) (decl ++ map Some ns) env')
  | Err e => forall bi, inside bi B -> perform_all cast is_bool bool_dtype (map2 (lane bi) decl env) cs = Err e
  end.
Proof.
  induction cs as [|c cs IH]; intros [|n ns] decl env Ty F; cbn in Ty; try tauto.
  - cbn. rewrite app_nil_r. auto.
  - destruct Ty as (G & R & Ty). cbn [perform_all]. unfold perform.
    destruct (fetch_ok B [] decl env F _ _ G) as (args & H1 & H2 & _). rewrite H1. cbn [bind].
    assert (H3 : forall bi, fetch (map2 (lane bi) decl env) (c_args c) = Ok (map2 (lane bi) (c_expected c) args)).
    { intros bi. destruct (fetch_ok B bi decl env F _ _ G) as (args' & H1' & _ & H3). congruence. }
    pose proof (call_ok B n _ (c_smaller c) _ _ Pos R H2) as C.
    assert (Ld : length decl = length env) by (clear - F; induction F; cbn; auto).
    destruct (expects_ndim (c_expected c) (c_smaller c) (c_func c) args) as [r|e]; cbn [bind].
    + destruct C as (C1 & C2). specialize (IH ns (decl ++ [Some n]) (env ++ [ATensor r]) Ty (Forall2_app F (Forall2_cons _ _ C1 (Forall2_nil _)))).
      cbn [map]. change (Some n :: map Some ns) with ([Some n] ++ map Some ns). rewrite app_assoc.
      assert (Q : forall bi, inside bi B -> bind (fetch (map2 (lane bi) decl env) (c_args c)) (fun args0 => bind (expects_ndim (c_expected c) (c_smaller c) (c_func c) args0) (fun r0 => Ok (map2 (lane bi) decl env ++ [ATensor r0]))) = Ok (map2 (lane bi) (decl ++ [Some n]) (env ++ [ATensor r]))).
      { intros bi I. rewrite H3. cbn [bind]. destruct (C2 bi I) as (r' & -> & Hr'). cbn [bind]. rewrite map2_app by auto. cbn [map2]. rewrite <- Hr'. reflexivity. }
      destruct (perform_all cast is_bool bool_dtype (env ++ [ATensor r]) cs) as [env'|e].
      * destruct IH as (I1 & I2). split; auto. intros bi I. rewrite (Q bi I). cbn [bind]. auto.
      * intros bi I. rewrite (Q bi I). cbn [bind]. auto.
    + intros bi I. rewrite H3. cbn [bind]. rewrite (C bi I). reflexivity.
Qed.
Definition well_formed (ds di : list (option nat)) (al : algorithm A Sc Obj) : Prop :=
  exists ns, typed (ds ++ di) (a_calls al) ns /\ Forall2 (fun p e => nth_error ((ds ++ di) ++ map Some ns) p = Some e) (a_next al) ds.
Lemma generation_ok B (Pos : Forall (fun b => 0 < b) B) ds di al : well_formed ds di al -> forall st inp, Forall2 (in_batch B) ds st -> Forall2 (in_batch B) di inp ->
  match generation cast is_bool bool_dtype al st inp with
  | Ok st' => Forall2 (in_batch B) ds st' /\ forall bi, inside bi B -> generation cast is_bool bool_dtype al (map2 (lane bi) ds st) (map2 (lane bi) di inp) = Ok (map2 (lane bi) ds st')
  | Err e => forall bi, inside bi B -> generation cast is_bool bool_dtype al (map2 (lane bi) ds st) (map2 (lane bi) di inp) = Err e
  end.
Proof.
  intros (ns & Ty & Nx) st inp Fs Fi. unfold generation. pose proof (calls_ok B Pos _ ns _ _ Ty (Forall2_app Fs Fi)) as C.
  assert (Ls : length ds = length st) by (clear - Fs; induction Fs; cbn; auto).
  destruct (perform_all _ _ _ (st ++ inp) (a_calls al)) as [env|e]; cbn [bind].
  - destruct C as (C1 & C2). destruct (fetch_ok B [] _ _ C1 _ _ Nx) as (st' & H1 & H2 & _). rewrite H1. split; auto.
    intros bi I. rewrite <- map2_app by auto. rewrite C2 by auto. cbn [bind]. destruct (fetch_ok B bi _ _ C1 _ _ Nx) as (st'' & H1' & _ & H3). congruence.
  - intros bi I. rewrite <- map2_app by auto. rewrite C by auto. reflexivity.
Qed.
Lemma search_ok B (Pos : Forall (fun b => 0 < b) B) ds di al : well_formed ds di al -> forall ins st, Forall2 (in_batch B) ds st -> Forall (Forall2 (in_batch B) di) ins ->
  match search cast is_bool bool_dtype al st ins with
  | Ok st' => Forall2 (in_batch B) ds st' /\ forall bi, inside bi B -> search cast is_bool bool_dtype al (map2 (lane bi) ds st) (map (map2 (lane bi) di) ins) = Ok (map2 (lane bi) ds st')
  | Err e => forall bi, inside bi B -> search cast is_bool bool_dtype al (map2 (lane bi) ds st) (map (map2 (lane bi) di) ins) = Err e
  end.
Proof.
  intros W. induction ins as [|i ins IH]; intros st Fs Fi; cbn [search map]; [auto|]. inversion Fi as [|? ? F1 F2]; subst.
  pose proof (generation_ok B Pos ds di al W st i Fs F1) as G. destruct (generation _ _ _ al st i) as [s1|e]; cbn [bind].
  - destruct G as (G1 & G2). specialize (IH s1 G1 F2). destruct (search _ _ _ al s1 ins) as [s2|e].
    + destruct IH as (I1 & I2). split; auto. intros bi I. rewrite G2 by auto. cbn [bind]. auto.
    + intros bi I. rewrite G2 by auto. cbn [bind]. auto.
  - intros bi I. rewrite G by auto. reflexivity.
Qed.
End PROOFS.

From Coq Require Import QArith Sorted.
From Verif Require Import Prelude FloatLib SortLib BatchModel ParetoModel WorkProofs CMemProofs.
Close Scope Q_scope.
Open Scope nat_scope.

(* ------------------------------------------------------------------ tabulated lists *)
Definition tab {A} (n : nat) (f : nat -> A) : list A := map f (seq 0 n).
Lemma tab_length {A} n (f : nat -> A) : length (tab n f) = n.
Proof. unfold tab. now rewrite map_length, seq_length. Qed.
Lemma tab_nth_error {A} n (f : nat -> A) i : nth_error (tab n f) i = if Nat.ltb i n then Some (f i) else None.
Proof.
  unfold tab. rewrite nth_error_map. destruct (Nat.ltb_spec i n).
  - rewrite (nth_error_nth' (seq 0 n) 0) by (rewrite seq_length; auto). rewrite seq_nth by auto. reflexivity.
  - rewrite (proj2 (nth_error_None (seq 0 n) i)) by (rewrite seq_length; auto). reflexivity.
Qed.
Lemma tab_nth {A} n (f : nat -> A) i d : i < n -> nth i (tab n f) d = f i.
Proof. intros H. apply nth_error_nth. rewrite tab_nth_error. destruct (Nat.ltb_spec i n); [auto|lia]. Qed.
Lemma tab_ext {A} n (f g : nat -> A) : (forall i, i < n -> f i = g i) -> tab n f = tab n g.
Proof. intros H. unfold tab. apply map_ext_in. intros i Hi. apply in_seq in Hi. apply H; lia. Qed.
Lemma list_tab {A} (l : list A) d : l = tab (length l) (fun i => nth i l d).
Proof.
  apply nth_error_ext. intros i. rewrite tab_nth_error. destruct (Nat.ltb_spec i (length l)).
  - apply nth_error_nth'; auto. - apply nth_error_None; auto.
Qed.
Lemma map_tab {A B} (g : A -> B) n f : map g (tab n f) = tab n (fun i => g (f i)).
Proof. unfold tab. apply map_map. Qed.
Lemma map_is_tab {A B} (g : A -> B) (l : list A) d : map g l = tab (length l) (fun i => g (nth i l d)).
Proof. rewrite (list_tab l d) at 1. apply map_tab. Qed.
Lemma map2_tab {A B C} (g : A -> B -> C) n a b : map2 g (tab n a) (tab n b) = tab n (fun i => g (a i) (b i)).
Proof.
  apply nth_error_ext. intros i. rewrite map2_nth_error, !tab_nth_error. destruct (i <? n); auto.
Qed.
Definition cnt (n : nat) (p : nat -> bool) : nat := length (filter p (seq 0 n)).
Lemma filter_map_swap {A B} (p : B -> bool) (f : A -> B) l : filter p (map f l) = map f (filter (fun x => p (f x)) l).
Proof. induction l as [|x l IH]; cbn; auto. destruct (p (f x)); cbn; rewrite IH; auto. Qed.
Lemma count_tab n p : count_true (tab n p) = cnt n p.
Proof. unfold count_true, tab, cnt. rewrite filter_map_swap, map_length. reflexivity. Qed.
Lemma combine_map {A B C} (f : A -> B) (g : A -> C) l : combine (map f l) (map g l) = map (fun x => (f x, g x)) l.
Proof. induction l; cbn; auto. now rewrite IHl. Qed.
Lemma select_tab {A} n m (f : nat -> A) : select (tab n m) (tab n f) = map f (filter m (seq 0 n)).
Proof. unfold select, tab. rewrite combine_map, filter_map_swap, map_map. reflexivity. Qed.
Lemma existsb_tab n p : existsb (fun x => x) (tab n p) = true <-> exists i, i < n /\ p i = true.
Proof.
  unfold tab. rewrite existsb_exists. split.
  - intros (x & Hx & ->). apply in_map_iff in Hx. destruct Hx as (i & E & Hi). apply in_seq in Hi. exists i. split; [lia|auto].
  - intros (i & Hi & Hp). exists true. split; auto. apply in_map_iff. exists i. split; auto. apply in_seq. lia.
Qed.
Lemma count_select n m p : count_true (select (tab n m) (tab n p)) = cnt n (fun i => m i && p i).
Proof.
  rewrite select_tab. unfold count_true, cnt. rewrite filter_map_swap, map_length. f_equal.
  induction (seq 0 n) as [|x l IH]; cbn; auto. destruct (m x); cbn; [|auto]. destruct (p x); cbn; rewrite IH; auto.
Qed.
Lemma cnt_split n a b : (forall i, i < n -> b i = true -> a i = true) ->
  cnt n a = cnt n b + cnt n (fun i => a i && negb (b i)).
Proof.
  intros H. unfold cnt. assert (G : forall l, (forall i, In i l -> b i = true -> a i = true) ->
    length (filter a l) = length (filter b l) + length (filter (fun i => a i && negb (b i)) l)).
  { induction l as [|x l IH]; intros HH; cbn; auto. specialize (IH (fun i Hi => HH i (or_intror Hi))).
    specialize (HH x (or_introl eq_refl)). destruct (b x); [rewrite HH by auto|destruct (a x)]; cbn; lia. }
  apply G. intros i Hi. apply in_seq in Hi. apply H. lia.
Qed.
Lemma cnt_ext n a b : (forall i, i < n -> a i = b i) -> cnt n a = cnt n b.
Proof. intros H. unfold cnt. f_equal. apply filter_ext_in. intros i Hi. apply in_seq in Hi. apply H. lia. Qed.
Lemma cnt_zero n p : cnt n p = 0 <-> forall i, i < n -> p i = false.
Proof.
  unfold cnt. split.
  - intros H i Hi. destruct (p i) eqn:E; auto. assert (In i (filter p (seq 0 n))) by (apply filter_In; split; auto; apply in_seq; lia).
    destruct (filter p (seq 0 n)); [contradiction|discriminate].
  - intros H. rewrite (proj2 (length_zero_iff_nil _)); auto. destruct (filter p (seq 0 n)) as [|x l] eqn:E; auto.
    assert (Hx : In x (filter p (seq 0 n))) by (rewrite E; left; auto). apply filter_In in Hx. destruct Hx as [Hx Hp].
    apply in_seq in Hx. rewrite H in Hp by lia. discriminate.
Qed.
Lemma cnt_le n p : cnt n p <= n.
Proof. unfold cnt. rewrite <- (seq_length n 0) at 2. generalize (seq 0 n). induction l; cbn; auto. destruct (p a); cbn; lia. Qed.

(* ------------------------------------------------------------------ masked fill *)
Lemma masked_fill_length {A} (l : list A) : forall m vs, length (masked_fill l m vs) = length l.
Proof. induction l as [|x l IH]; intros [|[] m] vs; cbn; auto; destruct vs; cbn; auto. Qed.
Lemma masked_fill_other {A} (l : list A) : forall m vs i, nth i m false = false -> nth_error (masked_fill l m vs) i = nth_error l i.
Proof.
  induction l as [|x l IH]; intros [|[] m] vs [|i] H; cbn in *; auto; try discriminate; destruct vs; cbn; auto.
Qed.
Lemma masked_fill_in {A} (l : list A) : forall m vs x, In x (masked_fill l m vs) -> In x l \/ In x vs.
Proof.
  induction l as [|y l IH]; intros [|[] m] vs x; cbn; auto.
  - destruct vs as [|v vs]; cbn; intros [->|H]; auto; apply IH in H; cbn in *; tauto.
  - intros [->|H]; auto. apply IH in H; tauto.
Qed.
Lemma masked_fill_select {A} (l : list A) : forall m vs, length m = length l -> length vs = count_true m ->
  select m (masked_fill l m vs) = vs.
Proof.
  induction l as [|y l IH]; intros [|[] m] vs Hm Hv; cbn in *; try discriminate; unfold count_true in *; cbn in *.
  - destruct vs; [auto|discriminate].
  - destruct vs as [|v vs]; [discriminate|]. unfold select. cbn. f_equal. apply IH; auto.
  - unfold select. cbn. apply IH; auto.
Qed.

(* ------------------------------------------------------------------ domination *)
Lemma fge_spec a b : fge a b = true <-> is_nan a = false /\ is_nan b = false /\ flt a b = false.
Proof.
  unfold fge, feq. destruct a, b; cbn; rewrite ?Z.ltb_irrefl; cbn; intuition (try discriminate; auto); lia.
Qed.
Lemma fge_trans a b c : fge a b = true -> fge b c = true -> fge a c = true.
Proof. rewrite !fge_spec. intros (H1 & H2 & H3) (H4 & H5 & H6). repeat split; auto. apply (flt_neg_trans a b c); auto. Qed.
Lemma flt_fge_trans a b c : flt b a = true -> fge b c = true -> flt c a = true.
Proof. rewrite fge_spec. intros H1 (H2 & H3 & H4). destruct a, b, c; cbn in *; try discriminate; auto. lia. Qed.
Lemma fge_flt_trans a b c : fge a b = true -> flt c b = true -> flt c a = true.
Proof. rewrite fge_spec. intros (H2 & H3 & H4) H1. destruct a, b, c; cbn in *; try discriminate; auto. lia. Qed.

Lemma dom_iff u v : dominated_by u v = true <->
  (forall k x y, nth_error u k = Some x -> nth_error v k = Some y -> fge y x = true) /\
  (exists k x y, nth_error u k = Some x /\ nth_error v k = Some y /\ flt x y = true).
Proof.
  unfold dominated_by. rewrite andb_true_iff, forallb_forall, existsb_exists. split.
  - intros [H1 ((y & x) & Hin & Hlt)]. split.
    + intros k x0 y0 Hx Hy. specialize (H1 (y0, x0)). apply H1. apply nth_error_In with k. rewrite combine_nth_error, Hx, Hy. reflexivity.
    + apply In_nth_error in Hin. destruct Hin as (k & Hk). rewrite combine_nth_error in Hk.
      destruct (nth_error v k) as [y'|] eqn:Ey; [|discriminate]. destruct (nth_error u k) as [x'|] eqn:Ex; [|discriminate].
      injection Hk as -> ->. exists k, x, y. auto.
  - intros [H1 (k & x & y & Hx & Hy & Hlt)]. split.
    + intros (y0, x0) Hin. apply In_nth_error in Hin. destruct Hin as (k0 & Hk). rewrite combine_nth_error in Hk.
      destruct (nth_error v k0) as [y'|] eqn:Ey; [|discriminate]. destruct (nth_error u k0) as [x'|] eqn:Ex; [|discriminate].
      injection Hk as -> ->. cbn. eauto.
    + exists (y, x). split; auto. apply nth_error_In with k. rewrite combine_nth_error, Hx, Hy. reflexivity.
Qed.
Lemma dom_irrefl u : dominated_by u u = false.
Proof.
  apply not_true_iff_false. rewrite dom_iff. intros [_ (k & x & y & Hx & Hy & Hlt)].
  rewrite Hx in Hy. injection Hy as ->. rewrite flt_irrefl in Hlt. discriminate.
Qed.
Lemma dom_trans u v w : length u = length v -> length v = length w ->
  dominated_by u v = true -> dominated_by v w = true -> dominated_by u w = true.
Proof.
  intros L1 L2. rewrite !dom_iff. intros [A1 (k & x & y & Hx & Hy & Hlt)] [B1 _]. split.
  - intros i a c Ha Hc. destruct (nth_error v i) as [b|] eqn:Eb.
    + eapply fge_trans; eauto.
    + apply nth_error_None in Eb. assert (i < length u) by (apply nth_error_Some; congruence). lia.
  - destruct (nth_error w k) as [z|] eqn:Ez.
    2:{ apply nth_error_None in Ez. assert (k < length v) by (apply nth_error_Some; congruence). lia. }
    exists k, x, z. split; auto. split; auto. specialize (B1 k y z Hy Ez). eapply fge_flt_trans; eauto.
Qed.

(* ------------------------------------------------------------------ the ranking loop *)
Section Loop.
Variable crowd_order : list (list fl) -> list nat.
Variable us : list (list fl).
Variable width : nat.
Hypothesis shaped : Forall (fun u => length u = width) us.
Variable crowdsort : bool.
Hypothesis crowd_len : forall l, length (crowd_order l) = length l.
Notation n := (length us).
Definition dom (i j : nat) : bool := dominated_by (nth i us []) (nth j us []).  (* j dominates i *)

Lemma dom_irr i : dom i i = false.
Proof. apply dom_irrefl. Qed.
Lemma dom_tr i j k : i < n -> j < n -> k < n -> dom i j = true -> dom j k = true -> dom i k = true.
Proof.
  intros Hi Hj Hk. rewrite Forall_forall in shaped. apply dom_trans; rewrite !shaped; auto using nth_In.
Qed.

Lemma matrix_tab : dominated_matrix us = tab n (fun i => tab n (fun j => dom i j)).
Proof.
  unfold dominated_matrix. rewrite (map_is_tab _ us []). apply tab_ext. intros i Hi. rewrite (map_is_tab _ us []). reflexivity.
Qed.

(* a non-empty set of solutions has a member dominated by no other member *)
Lemma exists_maximal (l : list nat) : l <> [] -> (forall x, In x l -> x < n) ->
  exists x, In x l /\ forall y, In y l -> dom x y = false.
Proof.
  induction l as [|a l IH]; [congruence|]. intros _ Hn. destruct l as [|b l].
  - exists a. split; [left; auto|]. intros y [<-|[]]. apply dom_irr.
  - destruct IH as (m & Hm & Hmax); [discriminate|intros; apply Hn; right; auto|].
    destruct (dom m a) eqn:E.
    + exists a. split; [left; auto|]. intros y [<-|Hy]; [apply dom_irr|].
      destruct (dom a y) eqn:Ey; auto. rewrite <- (Hmax y Hy). symmetry.
      apply (dom_tr m a y); auto; apply Hn; auto; [right|left|right]; auto.
    + exists m. split; [right; auto|]. intros y [<-|Hy]; auto.
Qed.

(* functional view of a state *)
Record fstate := mkF { f_un : nat -> bool; f_rk : nat -> nat; f_cs : list nat; f_cur : nat }.
Definition undom (f : fstate) (i : nat) : nat := cnt n (fun j => f_un f j && dom i j).
Definition rep (f : fstate) (s : pstate) : Prop :=
  p_ndom s = tab n (fun i => Z.of_nat (undom f i)) /\ p_ranks s = tab n (f_rk f) /\ p_unranked s = tab n (f_un f) /\
  p_cs s = f_cs f /\ p_cur s = f_cur f.
Definition fnew (f : fstate) (i : nat) : bool := (0 =? Z.of_nat (undom f i))%Z && f_un f i.
Definition fstep (f : fstate) : fstate :=
  mkF (fun i => if fnew f i then false else f_un f i)
      (fun i => if fnew f i then f_cur f else f_rk f i)
      (if crowdsort then masked_fill (f_cs f) (tab n (fnew f)) (crowd_order (map (fun i => nth i us []) (filter (fnew f) (seq 0 n)))) else f_cs f)
      (f_cur f + 1).

Lemma step_rep f s : rep f s -> rep (fstep f) (pstep crowd_order us crowdsort s).
Proof.
  intros (H1 & H2 & H3 & H4 & H5). unfold pstep. rewrite H1, H2, H3, H4, H5.
  rewrite map_tab, map2_tab. fold (fnew f). change (fun i => (0 =? Z.of_nat (undom f i))%Z && f_un f i) with (fnew f).
  unfold rep. cbn [p_ndom p_ranks p_unranked p_cs p_cur].
  split; [|split; [|split; [|split]]].
  - rewrite matrix_tab, map2_tab. apply tab_ext. intros i Hi. rewrite count_select.
    assert (E : undom f i = cnt n (fun j => fnew f j && dom i j) + undom (fstep f) i).
    { unfold undom. rewrite (cnt_split n (fun j => f_un f j && dom i j) (fun j => fnew f j && dom i j)).
      - f_equal. apply cnt_ext. intros j Hj. cbn [fstep f_un]. unfold fnew.
        destruct (0 =? Z.of_nat (undom f j))%Z; destruct (f_un f j); destruct (dom i j); reflexivity.
      - intros j Hj. unfold fnew. destruct (f_un f j); destruct (dom i j); rewrite ?andb_false_r; cbn; congruence. }
    lia.
  - rewrite map2_tab. apply tab_ext. reflexivity.
  - rewrite map2_tab. apply tab_ext. reflexivity.
  - cbn [fstep f_cs]. destruct crowdsort; auto. do 2 f_equal.
    rewrite <- select_tab. f_equal. apply list_tab.
  - reflexivity.
Qed.

Definition fin (f : fstate) : Prop :=
  (forall i, i < n -> f_un f i = false -> f_rk f i < f_cur f) /\
  (forall i j, i < n -> j < n -> f_un f i = false -> dom i j = true -> f_un f j = false /\ f_rk f j < f_rk f i) /\
  (forall i k, i < n -> f_un f i = false -> f_rk f i = S k -> exists j, j < n /\ f_un f j = false /\ f_rk f j = k /\ dom i j = true) /\
  (forall i k, i < n -> f_un f i = true -> f_cur f = S k ->
     exists j, j < n /\ dom i j = true /\ (f_un f j = true \/ (f_un f j = false /\ f_rk f j = k))) /\
  length (f_cs f) = n /\
  (crowdsort = true -> forall k, k < f_cur f ->
     map (fun i => nth i (f_cs f) 0) (filter (fun i => negb (f_un f i) && Nat.eqb (f_rk f i) k) (seq 0 n)) =
     crowd_order (map (fun i => nth i us []) (filter (fun i => negb (f_un f i) && Nat.eqb (f_rk f i) k) (seq 0 n)))).

Lemma fnew_iff f i : fnew f i = true <-> f_un f i = true /\ forall j, j < n -> f_un f j = true -> dom i j = false.
Proof.
  unfold fnew. rewrite andb_true_iff. rewrite Z.eqb_eq. unfold undom. split.
  - intros [H1 H2]. split; auto. assert (E : cnt n (fun j => f_un f j && dom i j) = 0) by lia.
    rewrite cnt_zero in E. intros j Hj Hu. specialize (E j Hj). cbn in E. rewrite Hu in E. exact E.
  - intros [H1 H2]. split; auto. assert (E : cnt n (fun j => f_un f j && dom i j) = 0); [|lia].
    apply cnt_zero. intros j Hj. destruct (f_un f j) eqn:Eu; auto. cbn. auto.
Qed.
Lemma fnew_un f i : fnew f i = true -> f_un f i = true.
Proof. rewrite fnew_iff. tauto. Qed.
Lemma unranked_after f i : f_un (fstep f) i = true <-> f_un f i = true /\ fnew f i = false.
Proof. cbn [fstep f_un]. destruct (fnew f i) eqn:E; [split; [discriminate|intros []; discriminate]|tauto]. Qed.
Lemma un_false_after f i : f_un (fstep f) i = false <-> f_un f i = false \/ fnew f i = true.
Proof. cbn [fstep f_un]. destruct (fnew f i) eqn:E; intuition discriminate. Qed.

Lemma rk_after f i : f_rk (fstep f) i = if fnew f i then f_cur f else f_rk f i.
Proof. reflexivity. Qed.

Lemma step_fin f : fin f -> fin (fstep f).
Proof.
  intros (I1 & I2 & I3 & I4 & I5 & I6). unfold fin.
  assert (NF : forall i, f_un f i = false -> fnew f i = false).
  { intros i H. destruct (fnew f i) eqn:E; auto. apply fnew_un in E. congruence. }
  split; [|split; [|split; [|split; [|split]]]].
  - intros i Hi. rewrite un_false_after, rk_after. cbn [fstep f_cur]. intros [Hu|Hn].
    + rewrite (NF i Hu). specialize (I1 i Hi Hu). lia.
    + rewrite Hn. lia.
  - intros i j Hi Hj. rewrite !un_false_after, !rk_after. intros [Hu|Hn] Hd.
    + destruct (I2 i j Hi Hj Hu Hd) as [A B]. rewrite (NF i Hu), (NF j A). auto.
    + rewrite Hn. apply fnew_iff in Hn. destruct Hn as [Hun Hnd].
      destruct (f_un f j) eqn:Ej. { rewrite (Hnd j Hj Ej) in Hd. discriminate. }
      split; auto. rewrite (NF j Ej). apply I1; auto.
  - intros i k Hi. rewrite un_false_after, rk_after. intros [Hu|Hn] Hk.
    + rewrite (NF i Hu) in Hk. destruct (I3 i k Hi Hu Hk) as (j & Hj & Uj & Rj & Dj).
      exists j. split; auto. split; [apply un_false_after; auto|]. rewrite rk_after, (NF j Uj). auto.
    + rewrite Hn in Hk. pose proof Hn as Hn'. apply fnew_iff in Hn'. destruct Hn' as [Hun Hnd].
      destruct (I4 i k Hi Hun Hk) as (j & Hj & Dj & [Uj|[Uj Rj]]).
      * rewrite (Hnd j Hj Uj) in Dj. discriminate.
      * exists j. split; auto. split; [apply un_false_after; auto|]. rewrite rk_after, (NF j Uj). auto.
  - intros i k Hi. rewrite unranked_after. cbn [fstep f_cur]. intros [Hu Hnn] Hk. assert (k = f_cur f) by lia. subst k.
    (* i is not new: it has an unranked dominator *)
    destruct (filter (fun j => f_un f j && dom i j) (seq 0 n)) as [|j l] eqn:El.
    + exfalso. assert (fnew f i = true); [|congruence]. apply fnew_iff. split; auto. intros j Hj Hu'.
      destruct (dom i j) eqn:E; auto. assert (In j (filter (fun j => f_un f j && dom i j) (seq 0 n))).
      { apply filter_In. rewrite Hu', E. split; auto. apply in_seq. lia. } rewrite El in H. destruct H.
    + assert (Hj : In j (filter (fun j => f_un f j && dom i j) (seq 0 n))) by (rewrite El; left; auto).
      apply filter_In in Hj. destruct Hj as [Hj1 Hj2]. apply in_seq in Hj1. apply andb_true_iff in Hj2. destruct Hj2 as [Uj Dj].
      exists j. split; [lia|]. split; auto. destruct (fnew f j) eqn:Nj.
      * right. split; [apply un_false_after; auto|]. rewrite rk_after, Nj. reflexivity.
      * left. apply unranked_after. auto.
  - cbn [fstep f_cs]. destruct crowdsort; auto. rewrite masked_fill_length. auto.
  - intros Hc k Hk. cbn [fstep f_cur] in Hk. cbn [fstep f_cs]. rewrite Hc.
    assert (FE : filter (fun i => negb (f_un (fstep f) i) && Nat.eqb (f_rk (fstep f) i) k) (seq 0 n) =
                 if Nat.eqb k (f_cur f) then filter (fnew f) (seq 0 n)
                 else filter (fun i => negb (f_un f i) && Nat.eqb (f_rk f i) k) (seq 0 n)).
    { destruct (Nat.eqb_spec k (f_cur f)) as [->|Hne]; apply filter_ext_in; intros i Hi; apply in_seq in Hi; cbn [fstep f_un f_rk].
      - destruct (fnew f i) eqn:E; cbn; [apply Nat.eqb_refl|]. destruct (f_un f i) eqn:Eu; cbn; auto.
        assert (f_rk f i < f_cur f) by (apply I1; auto; lia). apply Nat.eqb_neq. lia.
      - destruct (fnew f i) eqn:E; cbn; auto. rewrite (fnew_un f i E). cbn. apply Nat.eqb_neq. lia. }
    cbn [fstep f_un f_rk] in FE. cbn [fstep f_un f_rk]. rewrite FE. clear FE.
    set (vs := crowd_order (map (fun i => nth i us []) (filter (fnew f) (seq 0 n)))).
    assert (Lvs : length vs = count_true (tab n (fnew f))) by (unfold vs; rewrite crowd_len, map_length, count_tab; reflexivity).
    destruct (Nat.eqb_spec k (f_cur f)) as [->|Hne].
    + pose proof (masked_fill_select (f_cs f) (tab n (fnew f)) vs (eq_trans (tab_length _ _) (eq_sym I5)) Lvs) as HS.
      rewrite (list_tab (masked_fill (f_cs f) (tab n (fnew f)) vs) 0) in HS at 1. rewrite masked_fill_length, I5 in HS.
      rewrite select_tab in HS. exact HS.
    + rewrite <- (I6 Hc k) by lia. apply map_ext_in. intros i Hi. apply filter_In in Hi. destruct Hi as [Hi1 Hi2].
      apply in_seq in Hi1. apply andb_true_iff in Hi2. destruct Hi2 as [Hi2 _]. apply negb_true_iff in Hi2.
      assert (Em : nth i (tab n (fnew f)) false = false) by (rewrite tab_nth by lia; auto).
      pose proof (masked_fill_other (f_cs f) (tab n (fnew f)) vs i Em) as HO.
      assert (Hlt : i < length (f_cs f)) by (rewrite I5; lia).
      apply nth_error_nth' with (d := 0) in Hlt. rewrite Hlt in HO. rewrite (nth_error_nth _ _ 0 HO). reflexivity.
Qed.

Definition left_ (f : fstate) : nat := cnt n (f_un f).
Lemma step_decreases f : (exists i, i < n /\ f_un f i = true) -> left_ (fstep f) < left_ f.
Proof.
  intros (i & Hi & Hu).
  destruct (exists_maximal (filter (f_un f) (seq 0 n))) as (m & Hm & Hmax).
  { intros C. assert (H : In i (filter (f_un f) (seq 0 n))) by (apply filter_In; split; auto; apply in_seq; lia). rewrite C in H. destruct H. }
  { intros x Hx. apply filter_In in Hx. destruct Hx as [Hx _]. apply in_seq in Hx. lia. }
  apply filter_In in Hm. destruct Hm as [Hm1 Hm2]. apply in_seq in Hm1.
  assert (Nm : fnew f m = true).
  { apply fnew_iff. split; auto. intros j Hj Hju. apply Hmax. apply filter_In. split; auto. apply in_seq. lia. }
  unfold left_. rewrite (cnt_split n (f_un f) (fnew f)) by (intros; apply fnew_un; auto).
  assert (E : cnt n (f_un (fstep f)) = cnt n (fun j => f_un f j && negb (fnew f j))).
  { apply cnt_ext. intros j Hj. cbn [fstep f_un]. destruct (fnew f j), (f_un f j); reflexivity. }
  rewrite E. assert (Hpos : cnt n (fnew f) <> 0). { intros C. rewrite cnt_zero in C. rewrite (C m) in Nm by lia. discriminate. }
  lia.
Qed.

Lemma loop_ok : forall fuel f s, rep f s -> fin f -> left_ f <= fuel ->
  exists s' f', ploop crowd_order fuel us crowdsort s = Ok s' /\ rep f' s' /\ fin f' /\ (forall i, i < n -> f_un f' i = false).
Proof.
  induction fuel as [|fuel IH]; intros f s Hr Hf Hl.
  - cbn [ploop]. destruct (existsb (fun x => x) (p_unranked s)) eqn:E.
    + destruct Hr as (_ & _ & H3 & _). rewrite H3 in E. apply existsb_tab in E. apply step_decreases in E. lia.
    + exists s, f. split; auto. split; auto. split; auto. intros i Hi. destruct (f_un f i) eqn:Eu; auto.
      destruct Hr as (_ & _ & H3 & _). rewrite H3 in E. assert (existsb (fun x => x) (tab n (f_un f)) = true) by (apply existsb_tab; eauto). congruence.
  - cbn [ploop]. destruct (existsb (fun x => x) (p_unranked s)) eqn:E.
    + pose proof Hr as (_ & _ & H3 & _). rewrite H3 in E. apply existsb_tab in E. apply step_decreases in E.
      apply (IH (fstep f)); [apply step_rep; auto|apply step_fin; auto|lia].
    + exists s, f. split; auto. split; auto. split; auto. intros i Hi. destruct (f_un f i) eqn:Eu; auto.
      destruct Hr as (_ & _ & H3 & _). rewrite H3 in E. assert (existsb (fun x => x) (tab n (f_un f)) = true) by (apply existsb_tab; eauto). congruence.
Qed.

Definition f0 : fstate := mkF (fun _ => true) (fun _ => 0) (map (fun _ => 0) us) 0.
Lemma init_rep : rep f0 (pinit us).
Proof.
  unfold rep, pinit. cbn [p_ndom p_ranks p_unranked p_cs p_cur f0 f_cs f_cur f_un f_rk].
  split; [|split; [|split; [|split]]]; auto.
  - rewrite matrix_tab, map_tab. apply tab_ext. intros i Hi. rewrite count_tab. reflexivity.
  - apply (map_is_tab (fun _ => 0) us []). - apply (map_is_tab (fun _ => true) us []).
Qed.
Lemma init_fin : fin f0.
Proof.
  unfold fin. cbn. split; [|split; [|split; [|split; [|split]]]]; try discriminate; try lia.
  - apply map_length.
Qed.

(* the levels of the domination order *)
Theorem ranks_ok : exists ranks cs, compute_pareto_ranks crowd_order us crowdsort = Ok (ranks, cs) /\
  length ranks = n /\ length cs = n /\
  (forall i j, i < n -> j < n -> dom i j = true -> nth j ranks 0 < nth i ranks 0) /\
  (forall i k, i < n -> nth i ranks 0 = S k -> exists j, j < n /\ nth j ranks 0 = k /\ dom i j = true) /\
  (crowdsort = true -> forall k, k < n + 1 -> (exists i, i < n /\ nth i ranks 0 = k) ->
     map (fun i => nth i cs 0) (front_of ranks k) = crowd_order (map (fun i => nth i us []) (front_of ranks k))).
Proof.
  destruct (loop_ok n f0 (pinit us) init_rep init_fin) as (s' & f' & Hs & Hr & (I1 & I2 & I3 & I4 & I5 & I6) & Hu).
  { apply cnt_le. }
  exists (p_ranks s'), (p_cs s'). unfold compute_pareto_ranks. rewrite Hs. cbn [rmap].
  destruct Hr as (R1 & R2 & R3 & R4 & R5). rewrite R2, R4.
  split; [auto|]. split; [apply tab_length|]. split; [auto|]. split; [|split].
  - intros i j Hi Hj Hd. rewrite !tab_nth by auto. apply I2; auto.
  - intros i k Hi Hk. rewrite tab_nth in Hk by auto. destruct (I3 i k Hi (Hu i Hi) Hk) as (j & Hj & _ & Rj & Dj).
    exists j. rewrite tab_nth by auto. auto.
  - intros Hc k _ (i & Hi & Hk). rewrite tab_nth in Hk by auto.
    assert (Hlt : k < f_cur f') by (rewrite <- Hk; apply I1; auto). specialize (I6 Hc k Hlt).
    assert (E : front_of (tab n (f_rk f')) k = filter (fun i => negb (f_un f' i) && Nat.eqb (f_rk f' i) k) (seq 0 n)).
    { unfold front_of. rewrite tab_length. apply filter_ext_in. intros j Hj. apply in_seq in Hj. rewrite tab_nth by lia. rewrite Hu by lia. reflexivity. }
    rewrite E. exact I6.
Qed.
End Loop.

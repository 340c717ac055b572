From Coq Require Import QArith Qround Lqa Sorted.
From Verif Require Import Prelude FloatLib SortLib BatchModel BatchSpec BatchProofs ParetoModel ParetoSpec ParetoProofs ParetoProofs2 RankModel RankSpec RankProofs OperModel OperSpec.
Close Scope Q_scope.
Open Scope nat_scope.

Lemma ok_inj {A} (a b : A) : Ok a = Ok b -> a = b.
Proof. congruence. Qed.
Lemma forall2_len {A B} (P : A -> B -> Prop) l l' : Forall2 P l l' -> length l = length l'.
Proof. induction 1; cbn; auto. Qed.
(* ------------------------------------------------------------------ tournaments *)
Lemma next_even_ok n : Z.Even (next_even n) /\ (n <= next_even n <= n + 1)%Z.
Proof.
  unfold next_even. destruct (n mod 2 =? 0)%Z eqn:E; split; try lia.
  - exists (n / 2)%Z. lia.
  - exists ((n + 1) / 2)%Z. lia.
Qed.
Lemma even_mod c : (c mod 2 =? 0)%Z = true <-> Z.Even c.
Proof. split; [intros; exists (c / 2)%Z; lia|intros [k ->]; lia]. Qed.

Lemma num_even cx len n : num_tournaments cx len = Ok n -> Z.Even n.
Proof.
  unfold num_tournaments. destruct (cx_children cx) as [c|].
  - destruct (c mod 2 =? 0)%Z eqn:E; [|discriminate]. intros X; injection X as <-. apply even_mod; auto.
  - destruct (cx_rate cx) as [r|]; intros X; apply ok_inj in X; subst n; [|apply next_even_ok].
    set (f := (inject_Z (Z.of_nat len) * r)%Q). destruct (Qceiling f =? Qfloor f)%Z eqn:E; [apply next_even_ok|].
    destruct (Qceiling f mod 2 =? 0)%Z eqn:E2; [apply even_mod; auto|].
    pose proof (Qfloor_le f). pose proof (Qlt_floor f). pose proof (Qle_ceiling f). pose proof (Qceiling_lt f).
    assert (Hc : (Qceiling f <= Qfloor f + 1)%Z).
    { apply Z.lt_succ_r. apply Z.lt_le_trans with (Qfloor f + 2)%Z; [|lia].
      assert (inject_Z (Qceiling f - 1) < inject_Z (Qfloor f + 1))%Q by lra.
      rewrite <- Zlt_Qlt in H3. lia. }
    assert (Hf : (Qfloor f <= Qceiling f)%Z).
    { rewrite Zle_Qle. lra. }
    exists (Qfloor f / 2)%Z. lia.
Qed.
Lemma num_rate cx len n r : cx_children cx = None -> cx_rate cx = Some r -> num_tournaments cx len = Ok n ->
  (inject_Z n - 1 <= inject_Z (Z.of_nat len) * r <= inject_Z n + 1)%Q.
Proof.
  unfold num_tournaments. intros -> -> X; apply ok_inj in X; subst n.
  set (f := (inject_Z (Z.of_nat len) * r)%Q).
  pose proof (Qfloor_le f) as A. pose proof (Qlt_floor f) as B. pose proof (Qle_ceiling f) as C. pose proof (Qceiling_lt f) as D.
  rewrite inject_Z_plus in B. unfold Z.sub in D. rewrite inject_Z_plus in D. change (inject_Z 1) with 1%Q in B. change (inject_Z (-(1))) with (-1)%Q in D.
  destruct (Qceiling f =? Qfloor f)%Z eqn:E.
  - apply Z.eqb_eq in E. destruct (next_even_ok (Qceiling f)) as [_ [L U]].
    rewrite Zle_Qle in L, U. rewrite inject_Z_plus in U. change (inject_Z 1) with 1%Q in U. rewrite E in *. lra.
  - destruct (Qceiling f mod 2 =? 0)%Z; lra.
Qed.

Lemma qbeats_trans x y z : qbeats y z = true -> qbeats x z = false -> qbeats x y = false.
Proof.
  destruct x as [x|], y as [y|], z as [z|]; cbn; try discriminate; auto.
  rewrite !negb_true_iff, !negb_false_iff. intros A B. apply Qle_bool_iff in B. apply Qle_bool_iff.
  destruct (Qle_bool y z) eqn:E; [discriminate|]. assert (~ (y <= z)%Q) by (rewrite <- Qle_bool_iff; congruence). lra.
Qed.
Lemma qargmax_from_ok c : forall best bv i pre, length pre = i -> best < i -> nth best pre None = bv ->
  (forall x, In x pre -> qbeats x bv = false) ->
  let k := qargmax_from best bv i c in k < length (pre ++ c) /\ forall x, In x (pre ++ c) -> qbeats x (nth k (pre ++ c) None) = false.
Proof.
  induction c as [|x c IH]; intros best bv i pre Hl Hb Hv H; cbn.
  - rewrite app_nil_r. split; [lia|]. intros y Hy. rewrite Hv. auto.
  - replace (pre ++ x :: c) with ((pre ++ [x]) ++ c) by (rewrite <- app_assoc; auto).
    assert (L : length (pre ++ [x]) = S i) by (rewrite app_length; cbn; lia).
    destruct (qbeats x bv) eqn:E.
    + apply (IH i x (S i) (pre ++ [x])); auto.
      * rewrite app_nth2 by lia. rewrite Hl, Nat.sub_diag. auto.
      * intros y Hy. apply in_app_or in Hy. destruct Hy as [Hy|[<-|[]]].
        -- apply (qbeats_trans y x bv); auto.
        -- destruct x as [x|]; cbn; auto. rewrite (proj2 (Qle_bool_iff x x)); auto. apply Qle_refl.
    + apply (IH best bv (S i) (pre ++ [x])); auto.
      * rewrite app_nth1 by lia. auto.
      * intros y Hy. apply in_app_or in Hy. destruct Hy as [Hy|[<-|[]]]; auto.
Qed.
Lemma qargmax_ok c : c <> [] -> exists k, qargmax c = Ok k /\ k < length c /\ forall x, In x c -> qbeats x (nth k c None) = false.
Proof.
  destruct c as [|x c]; [congruence|]. intros _. eexists. split; [reflexivity|].
  apply (qargmax_from_ok c 0 x 1 [x]); auto. intros y [<-|[]]. destruct x as [x|]; cbn; auto.
  rewrite (proj2 (Qle_bool_iff x x)); auto. apply Qle_refl.
Qed.
Lemma winner_ok ranks row : row <> [] -> exists w, winner ranks row = Ok w /\ In w row /\
  forall c, In c row -> qbeats (nth c ranks None) (nth w ranks None) = false.
Proof.
  intros Hr. unfold winner. destruct (qargmax_ok (map (fun i => nth i ranks None) row)) as (k & E & Hk & H).
  { destruct row; [congruence|discriminate]. }
  rewrite E. cbn. rewrite map_length in Hk. destruct (nth_error row k) as [w|] eqn:Ew.
  - exists w. split; [auto|]. split; [eapply nth_error_In; eauto|]. intros c Hc.
    assert (Hw : nth k (map (fun i => nth i ranks None) row) None = nth w ranks None).
    { apply nth_error_nth. apply (map_nth_error (fun i => nth i ranks None)). auto. }
    rewrite <- Hw. apply H. apply (in_map (fun i => nth i ranks None)). auto.
  - apply nth_error_None in Ew. lia.
Qed.
Lemma winners_ok ranks rows : Forall (fun row => row <> []) rows ->
  exists ws, sequence (map (winner ranks) rows) = Ok ws /\ length ws = length rows /\
  forall k row w, nth_error rows k = Some row -> nth_error ws k = Some w -> In w row /\
    forall c, In c row -> qbeats (nth c ranks None) (nth w ranks None) = false.
Proof.
  induction 1 as [|row rows Hr H (ws & E & L & IH)].
  - exists []. split; [auto|]. split; auto. intros [|k]; discriminate.
  - destruct (winner_ok ranks row Hr) as (w & Ew & Hw). exists (w :: ws). cbn. rewrite Ew, E. split; [auto|]. split; [cbn; lia|].
    intros [|k] row' w'; cbn.
    + intros X Y; injection X as <-; injection Y as <-. auto.
    + intros X Y; eapply IH; eauto.
Qed.

Lemma gather_Forall2 {A} (l : list A) idx : Forall (fun i => i < length l) idx ->
  exists vs, gather l idx = Ok vs /\ Forall2 (fun i v => nth_error l i = Some v) idx vs.
Proof.
  unfold gather. induction 1 as [|i idx Hi H (vs & E & F)]; [exists []; auto|].
  destruct (nth_error l i) as [x|] eqn:Ex; [|apply nth_error_None in Ex; lia].
  exists (x :: vs). cbn. rewrite Ex. rewrite E. auto.
Qed.

Section T.
Context {V : Type} (sorter : bool -> list fl -> list nat) (co : list (list fl) -> list nat).

(* the part of the selection which does not depend on the kind of ranks *)
Lemma tournament_core cx (b : batch V) noise draw n ranks :
  num_tournaments cx (b_len b) = Ok n -> (0 <= n)%Z -> 1 <= cx_size cx -> 1 <= b_len b -> uniform_ints draw ->
  candidate_ranks sorter co cx b noise = Ok ranks ->
  exists parents p1 p2, do_tournament sorter co cx b noise draw = Ok (p1, p2) /\ are_values b parents p1 p2 /\
    length parents = length (draw (Z.to_nat n) (cx_size cx) (b_len b)) /\
    forall k row w, nth_error (draw (Z.to_nat n) (cx_size cx) (b_len b)) k = Some row -> nth_error parents k = Some w ->
      In w row /\ Forall (fun i => i < b_len b) row /\ forall c, In c row -> qbeats (nth c ranks None) (nth w ranks None) = false.
Proof.
  intros En Hn Hs Hb HU Er. destruct (HU (Z.to_nat n) (cx_size cx) (b_len b)) as [HL HF]; [left; lia|].
  unfold do_tournament. rewrite En. cbn [bind]. rewrite Er. cbn [bind].
  unfold randint. destruct (n <? 0)%Z eqn:E0; [lia|]. destruct (Nat.eqb_spec (b_len b) 0) as [E1|_]; [lia|]. cbn [andb bind].
  destruct (Nat.eqb_spec (cx_size cx) 0) as [E2|_]; [lia|].
  set (rows := draw (Z.to_nat n) (cx_size cx) (b_len b)) in *.
  destruct (winners_ok ranks rows) as (ws & Ew & Lw & Hw).
  { apply Forall_forall. intros row Hr. apply (proj1 (Forall_forall _ _) HF) in Hr. destruct Hr as [Hr _]. destruct row; [cbn in Hr; lia|discriminate]. }
  rewrite Ew. cbn [bind].
  assert (HW : Forall (fun i => i < length (b_vals b)) ws).
  { apply Forall_forall. intros w Hin. apply In_nth_error in Hin. destruct Hin as [k Hk].
    destruct (nth_error rows k) as [row|] eqn:Erow.
    - destruct (Hw _ _ _ Erow Hk) as [Hin _]. apply nth_error_In in Erow. apply (proj1 (Forall_forall _ _) HF) in Erow.
      destruct Erow as [_ Hall]. apply (proj1 (Forall_forall _ _) Hall) in Hin. exact Hin.
    - apply nth_error_None in Erow. assert (nth_error ws k <> None) by congruence. apply nth_error_Some in H. lia. }
  destruct (gather_Forall2 _ _ HW) as (vs & Ev & Fv). rewrite Ev. cbn [bind].
  exists ws, (firstn (length ws / 2) vs), (skipn (length ws / 2) vs). split; [auto|]. split; [|split].
  - split.
    + pose proof (forall2_len _ _ _ Fv) as Lv. apply num_even in En. destruct En as [m Em].
      rewrite firstn_length, skipn_length. rewrite <- Lv. rewrite Lw, HL. replace (Z.to_nat n) with (2 * Z.to_nat m) by lia. lia.
    + rewrite firstn_skipn. auto.
  - auto.
  - intros k row w Hr Hk. destruct (Hw k row w Hr Hk) as [A B]. split; [auto|]. split; auto.
    apply nth_error_In in Hr. apply (proj1 (Forall_forall _ _) HF) in Hr. apply Hr.
Qed.

Hypothesis Hs : argsort_ok sorter.
Lemma column_ok (b : batch V) j : j < num_objs b -> column b (Z.of_nat j) = Ok (map (fun r => nth j r NaN) (b_ev b)).
Proof.
  intros H. unfold column, eval_width. replace ((0 <=? Z.of_nat j) && (Z.of_nat j <? Z.of_nat (num_objs b + b_ndata b)))%Z with true by lia.
  rewrite Nat2Z.id. auto.
Qed.
Lemma single_ranks cx (b : batch V) noise j d : compares cx b j -> nth_error (b_desc b) j = Some d -> no_nan_col b j ->
  candidate_ranks sorter co cx b noise = Ok (centered sorter (map (fun r => nth j r NaN) (b_ev b)) d).
Proof.
  intros HC Hd HN. assert (Hj : j < num_objs b) by (apply nth_error_Some; congruence).
  assert (NN : existsb is_nan (map (fun r => nth j r NaN) (b_ev b)) = false).
  { apply not_true_is_false. intros X. apply existsb_exists in X. destruct X as (x & Hx & Hn). apply in_map_iff in Hx.
    destruct Hx as (r & <- & Hr). apply (proj1 (Forall_forall _ _) HN) in Hr. cbn in Hr. congruence. }
  assert (K : bind (column b (Z.of_nat j)) (fun c => bind (descending b (Z.of_nat j)) (fun d =>
     if existsb is_nan c then Err ValueError else Ok (centered sorter c d))) = Ok (centered sorter (map (fun r => nth j r NaN) (b_ev b)) d)).
  { rewrite column_ok by auto. cbn [bind]. unfold descending. rewrite Nat2Z.id, Hd. cbn [bind]. rewrite NN. auto. }
  unfold candidate_ranks, centered_utility. destruct HC as [-> | (-> & H1 & ->)].
  - rewrite andb_false_r. unfold normalize_obj_index. destruct (Z.of_nat j <? 0)%Z eqn:E; [lia|].
    replace ((Z.of_nat j <? 0) || (Z.of_nat (num_objs b) <? Z.of_nat j))%Z with false by lia. cbn [bind]. exact K.
  - rewrite H1. cbn [Nat.ltb Nat.leb andb bind]. exact K.
Qed.

Lemma single_tournament cx (b : batch V) noise draw j d n :
  compares cx b j -> nth_error (b_desc b) j = Some d -> wf b -> no_nan_col b j -> 1 <= b_len b -> 1 <= cx_size cx ->
  num_tournaments cx (b_len b) = Ok n -> (0 <= n)%Z -> uniform_ints draw ->
  exists parents p1 p2, do_tournament sorter co cx b noise draw = Ok (p1, p2) /\ are_values b parents p1 p2 /\
    length parents = Z.to_nat n /\ won_all b j d (draw (Z.to_nat n) (cx_size cx) (b_len b)) parents.
Proof.
  intros HC Hd Hwf HN Hb Hz En Hn HU.
  pose proof (single_ranks cx b noise j d HC Hd HN) as Er.
  destruct (tournament_core cx b noise draw n _ En Hn Hz Hb HU Er) as (ps & p1 & p2 & E & A & L & H).
  exists ps, p1, p2. split; [auto|]. split; [auto|]. split; [rewrite L; apply (HU _ _ _ (or_introl (ltac:(lia) : b_len b <> 0)))|].
  split; auto. intros k row w Hr Hk. destruct (H k row w Hr Hk) as (Hin & HF & HB). split; auto.
  intros c rc rw Hc Hrc Hrw HBt. specialize (HB c Hc).
  set (x := map (fun r => nth j r NaN) (b_ev b)) in *.
  assert (Lx : length x = b_len b) by (unfold x; rewrite map_length; apply Hwf).
  assert (SC : forall i r, nth_error (rows b) i = Some r -> i < length x /\ at_ x i = score j r).
  { intros i r Hi. unfold rows, rows_of in Hi. 
    assert (Hi2 : nth_error (b_ev b) i = Some (snd r)).
    { rewrite <- (rows_ev b Hwf). apply (map_nth_error snd) in Hi. auto. }
    split; [rewrite Lx; destruct Hwf as [<- _]; apply nth_error_Some; congruence|].
    unfold at_, x, score. apply nth_error_nth. apply (map_nth_error (fun r => nth j r NaN)) in Hi2. auto. }
  destruct (SC _ _ Hrc) as [Lc Ec]. destruct (SC _ _ Hrw) as [Lw Ew].
  destruct (le_lt_dec 2 (length x)) as [L2|L1].
  - destruct (centered_ok sorter Hs x d L2) as (LU & RU & _ & MU).
    { apply Forall_forall. intros v Hv. unfold x in Hv. apply in_map_iff in Hv. destruct Hv as (r & <- & Hr2). apply (proj1 (Forall_forall _ _) HN) in Hr2. auto. }
    assert (Nn : forall i, i < length x -> exists a, nth_error (centered sorter x d) i = Some a /\ nth i (centered sorter x d) None = a).
    { intros i Hi. destruct (nth_error (centered sorter x d) i) as [a|] eqn:Ea.
      - exists a. split; auto. apply nth_error_nth; auto.
      - apply nth_error_None in Ea. rewrite LU in Ea. lia. }
    destruct (Nn c Lc) as (a & Ea & Na). destruct (Nn w Lw) as (a' & Ea' & Na').
    assert (OL : olt a' a). { apply (MU w c a' a); auto. rewrite Ec, Ew. auto. }
    rewrite Na, Na' in HB. destruct a as [a|], a' as [a'|]; cbn in *; try contradiction.
    apply negb_false_iff in HB. apply Qle_bool_iff in HB. lra.
  - assert (c = w) by lia. subst w. rewrite Hrc in Hrw. injection Hrw as <-. apply (better_irrefl _ _ HBt).
Qed.
End T.

Section M.
Context {V : Type} (sorter : bool -> list fl -> list nat) (co : list (list fl) -> list nat).
Lemma multi_tournament cx (b : batch V) noise draw n :
  cx_obj cx = None -> 2 <= num_objs b -> wf b -> all_no_nan b -> reordering co -> 1 <= b_len b -> 1 <= cx_size cx ->
  length noise = b_len b -> Forall (fun u => 0 <= u < 1)%Q noise ->
  num_tournaments cx (b_len b) = Ok n -> (0 <= n)%Z -> uniform_ints draw ->
  exists ranks parents p1 p2, do_tournament sorter co cx b noise draw = Ok (p1, p2) /\ are_values b parents p1 p2 /\
    length parents = Z.to_nat n /\ front_numbers (b_desc b) (rows b) ranks /\
    forall k row w, nth_error (draw (Z.to_nat n) (cx_size cx) (b_len b)) k = Some row -> nth_error parents k = Some w ->
      In w row /\ forall c rc rw, In c row -> nth_error ranks c = Some rc -> nth_error ranks w = Some rw -> rw <= rc.
Proof.
  intros HC H2 Hwf HN HR Hb Hz Ln Fn En Hn HU.
  destruct (ranks_front_numbers co b false Hwf HN) as (ranks & cs & Ep & _ & FN & _).
  { intros l. specialize (HR l). apply Permutation_length in HR. rewrite seq_length in HR. auto. }
  assert (LR : length ranks = b_len b) by (rewrite (proj1 FN); apply rows_length; auto).
  set (nf := list_max ranks + 1).
  set (rk := map2 (fun r u => Some (inject_Z (Z.of_nat nf - Z.of_nat r) + u * (1 # 10))%Q) ranks noise).
  assert (Er : candidate_ranks sorter co cx b noise = Ok rk).
  { unfold candidate_ranks. rewrite HC. destruct (Nat.ltb_spec 1 (num_objs b)); [|lia]. cbn [andb]. rewrite Ep. cbn [bind fst].
    destruct ranks as [|r0 ranks']; [cbn in LR; lia|]. reflexivity. }
  destruct (tournament_core sorter co cx b noise draw n _ En Hn Hz Hb HU Er) as (ps & p1 & p2 & E & A & L & H).
  exists ranks, ps, p1, p2. split; [auto|]. split; [auto|].
  split; [rewrite L; apply (HU _ _ _ (or_introl (ltac:(lia) : b_len b <> 0)))|]. split; auto.
  intros k row w Hr Hk. destruct (H k row w Hr Hk) as (Hin & HF & HB). split; auto.
  intros c rc rw Hc Hrc Hrw. specialize (HB c Hc).
  assert (Nt : forall i r, nth_error ranks i = Some r -> exists u, (0 <= u < 1)%Q /\ nth i rk None = Some (inject_Z (Z.of_nat nf - Z.of_nat r) + u * (1 # 10))%Q).
  { intros i r Hi. assert (Hl : i < length noise) by (rewrite Ln, <- LR; apply nth_error_Some; congruence).
    destruct (nth_error noise i) as [u|] eqn:Eu; [|apply nth_error_None in Eu; lia].
    exists u. split; [apply nth_error_In in Eu; apply (proj1 (Forall_forall _ _) Fn) in Eu; auto|].
    apply nth_error_nth. unfold rk. rewrite map2_nth_error, Hi, Eu. auto. }
  destruct (Nt c rc Hrc) as (u & Hu & E1). destruct (Nt w rw Hrw) as (u' & Hu' & E2). rewrite E1, E2 in HB. cbn in HB.
  apply negb_false_iff in HB. apply Qle_bool_iff in HB.
  destruct (le_lt_dec rw rc) as [|Hlt]; auto. exfalso.
  assert (Z1 : (inject_Z (Z.of_nat nf - Z.of_nat rw) + 1 <= inject_Z (Z.of_nat nf - Z.of_nat rc))%Q).
  { change 1%Q with (inject_Z 1). rewrite <- inject_Z_plus. rewrite <- Zle_Qle. lia. }
  lra.
Qed.
End M.

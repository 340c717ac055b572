(* C194: what MAPElites reports about its population (SinglePopulationAlgorithmMixin, modelled in RepModel) and its archive (MapModel). *)
From Coq Require Import QArith String.
From Verif Require Import Prelude FloatLib LoopModel BatchModel BatchSpec BatchProofs ParetoModel ParetoProofs2 GaModel GaSpec GaProofs GaProofs2 MapModel MapSpec MapProofs MapProofs2
  RepModel MapProps.
Close Scope Q_scope. Open Scope nat_scope.

Lemma sequence_nth {A B} (g : A -> result B) l best : sequence (map g l) = Ok best ->
  length best = length l /\ forall i r, nth_error best i = Some r -> exists c, nth_error l i = Some c /\ g c = Ok r.
Proof.
  revert best. induction l as [|a l IH]; cbn; intros best H.
  - injection H as <-. split; auto. intros [|]; discriminate.
  - destruct (g a) as [b|] eqn:E; [|discriminate]. destruct (sequence (map g l)) as [bs|] eqn:Q; [|discriminate]. injection H as <-.
    destruct (IH bs eq_refl) as [L N]. split; [cbn; auto|]. intros [|i] r; cbn; [intros R; injection R as <-; eauto|apply N].
Qed.
Lemma argext_const d p n : argext d (repeat p (S n)) = Ok 0.
Proof.
  cbn. f_equal. generalize 1 at 1. induction n as [|n IH]; intros i; cbn; auto. unfold beats. rewrite flt_irrefl. destruct (is_nan p), d; cbn; apply IH.
Qed.

Section M.
Context {V : Type}.
Variable pick : bool -> list fl -> nat.
Variable ev : nat -> list V -> list (list fl).
(* every occupant of a cell, of a filled one or not, is a candidate of the last generation; if no candidate fits it is the one torch.argmin takes from equal numbers *)
Lemma occupants cf ops grid s s' pool : map_step pick ev cf ops grid s = Ok (s', pool) ->
  (forall v, In v (b_vals (s_pop (m_st s'))) -> In v (b_vals pool)).
Proof.
  unfold map_step. destruct (extended ev cf ops (m_st s)) as [[[s1 p] c]|]; [|discriminate]. cbn [bind]. destruct (b_desc (cat p c)) as [|d ds]; [discriminate|].
  destruct (sequence _) as [best|] eqn:E; [|discriminate]. cbn [bind]. intros H. injection H as <- <-. intros v. cbn [m_st s_pop b_vals]. intros Hv.
  apply in_map_iff in Hv. destruct Hv as ([[v' e] b] & Q & Hr). cbn in Q. subst v'. apply In_nth_error in Hr. destruct Hr as [i Hi].
  apply sequence_nth in E. destruct E as [_ E]. destruct (E i _ Hi) as (cl & _ & B). unfold best_for_cell in B.
  destruct (sequence _) as [suits|]; [|discriminate]. cbn [bind] in B. destruct (map2 _ _ _); [discriminate|].
  destruct (nth_error (b_vals (cat p c)) _) as [w|] eqn:W; [|discriminate]. destruct (nth_error (b_ev _) _); [|discriminate]. destruct (nth_error suits _); [|discriminate].
  injection B as <- <- <-. eapply nth_error_In; eauto.
Qed.
Lemma last_step cf ops grid n s s' seen : map_run pick ev cf ops grid (S n) s = Ok (s', seen) ->
  exists s1 seen1 pool, map_run pick ev cf ops grid n s = Ok (s1, seen1) /\ map_step pick ev cf ops grid s1 = Ok (s', pool) /\ seen = seen1 ++ b_vals pool.
Proof.
  cbn [map_run]. destruct (map_run pick ev cf ops grid n s) as [[s1 seen1]|]; [|discriminate]. cbn [bind fst snd].
  destruct (map_step pick ev cf ops grid s1) as [[s2 pool]|] eqn:E; [|discriminate]. cbn [bind fst snd]. intros H. injection H as <- <-. eauto 8.
Qed.
End M.
(* torch.argmin and torch.argmax take the first of equal numbers: cells which nobody fits are all given the same candidate *)
Lemma unfilled V ev cf ops grid (s s' : mstate V) pool : map_step first_pick ev cf ops grid s = Ok (s', pool) ->
  (forall c row b, In c grid -> In row (b_ev pool) -> suitable c row = Ok b -> b = true -> forall i, nth_error grid i = Some c -> nth_error (m_filled s') i = Some true) ->
  length (b_ev pool) = length (b_vals pool) ->
  forall i v, nth_error (b_vals (s_pop (m_st s'))) i = Some v -> nth_error (m_filled s') i = Some false -> hd_error (b_vals pool) = Some v.
Proof.
  unfold map_step. destruct (extended ev cf ops (m_st s)) as [[[s1 p] c]|]; [|discriminate]. cbn [bind]. destruct (b_desc (cat p c)) as [|d ds]; [discriminate|].
  destruct (sequence _) as [best|] eqn:E; [|discriminate]. cbn [bind]. intros H. injection H as <- <-. cbn [m_st s_pop b_vals m_filled]. intros F LE i v Hv Hf.
  rewrite nth_error_map in Hv, Hf. destruct (nth_error best i) as [[[v' e] b]|] eqn:Hi; [|discriminate]. cbn in Hv, Hf. injection Hv as ->. injection Hf as ->.
  apply sequence_nth in E. destruct E as [_ E]. destruct (E i _ Hi) as (cl & Hc & B). unfold best_for_cell in B.
  destruct (sequence _) as [suits|] eqn:Sq; [|discriminate]. cbn [bind] in B. apply sequence_nth in Sq. destruct Sq as [L1 N1].
  assert (AF : suits = repeat false (length suits)).
  { clear - N1 F Hc Hi. apply nth_error_In in Hc as Ic. assert (X : forall j b, nth_error suits j = Some b -> b = false).
    { intros j b Hj. destruct (N1 j b Hj) as (row & Hr & Hs). apply nth_error_In in Hr. destruct b; auto. exfalso.
      specialize (F cl row true Ic Hr Hs eq_refl i Hc). rewrite nth_error_map, Hi in F. discriminate. }
    clear - X. induction suits as [|b l IH]; cbn; auto. rewrite (X 0 b eq_refl). f_equal. apply IH. intros j b' H. exact (X (S j) b' H). }
  assert (P : map2 (fun (s : bool) row => if s then nth 0 row NaN else if d then NInf else PInf) suits (b_ev (cat p c)) = repeat (if d then NInf else PInf) (length (b_ev (cat p c)))).
  { rewrite AF, L1. clear. induction (b_ev (cat p c)) as [|r l IH]; cbn; auto. f_equal. exact IH. }
  cbv zeta in B. rewrite P in B. destruct (length (b_ev (cat p c))) as [|m] eqn:Lm; [discriminate|]. cbn [repeat] in B.
  assert (Z : first_pick d ((if d then NInf else PInf) :: repeat (if d then NInf else PInf) m) = 0).
  { unfold first_pick. change (?a :: repeat ?a m) with (repeat a (S m)). rewrite argext_const. auto. }
  rewrite Z in B. destruct (b_vals (cat p c)) as [|w ws] eqn:W; [cbn in LE; discriminate|]. cbn [nth_error] in B.
  destruct (b_ev (cat p c)) as [|r rs]; [discriminate|]. destruct suits as [|b bs]; [discriminate|]. cbn [nth_error] in B. injection B as <- _ _. reflexivity.
Qed.

(* the solutions in the filled cells *)
Definition elites {V} (s : mstate V) : list V := map fst (filter snd (combine (b_vals (s_pop (m_st s))) (m_filled s))).
(* the algorithm as the reporters see it *)
Definition seen_by_reports {V} (s : mstate V) : alg V := mkAlg (Some (s_pop (m_st s))) (@None fl).
Definition average (l : list Z) : Q := (inject_Z (fold_right Z.add 0%Z l) / inject_Z (Z.of_nat (length l)))%Q.

Lemma better_trans_not d a b c : b <> NaN -> ~ better d a b -> ~ better d b c -> ~ better d a c.
Proof.
  intros N H1 H2 H3. unfold better in *. destruct d; rewrite <- flt_lt in *; destruct a, b, c; cbn in *; try congruence; lia.
Qed.
Section Run.
Context {V : Type}.
Variables (pick : bool -> list fl -> nat) (ev : nat -> list V -> list (list fl)) (d : bool) (f : V -> list fl) (cf : config) (ops : list (operator V)) (grid : list cell)
  (like : batch V) (values : list V) (n : nat) (s : mstate V) (seen : list V).
Hypothesis Hp : pick_ok pick.
Hypothesis HL : Forall legal ops.
Hypothesis HD : deterministic f ev.
Hypothesis HF : acceptable d f.
Hypothesis Hd : b_desc like = [d].
Hypothesis Hw : forall v, length (f v) = 1 + b_ndata like.
Hypothesis Hg : Forall (fun c : cell => length c = b_ndata like) grid.
Hypothesis Hl : length values = length grid.
Hypothesis Hrun : map_run pick ev cf ops grid n (map_init like values) = Ok (s, seen).
Hypothesis Hn : 0 < n.
Hypothesis Hgrid : grid <> [].

Lemma run_facts : wf (s_pop (m_st s)) /\ b_desc (s_pop (m_st s)) = [d] /\ b_ndata (s_pop (m_st s)) = b_ndata like /\ evaluated f (s_pop (m_st s)) /\ archive d f grid seen s.
Proof.
  assert (Hw' : forall v, length (f v) = eval_width (s_pop (m_st (map_init like values)))) by (intros v; unfold eval_width, num_objs; cbn; rewrite Hd; apply Hw).
  destruct (map_run_ok pick ev Hp d f cf ops grid n (map_init like values) s [] seen HL (proj1 (fresh_kind like values)) HD HF Hw' Hg Hd) as (K & A & R & E); auto.
  - right; left; auto.
  - apply init_archive; auto.
  - destruct K as (K1 & K2 & K3). cbn in K2, K3. split; [auto|]. split; [congruence|]. split; [congruence|]. auto.
Qed.
Lemma occupants_seen v : In v (b_vals (s_pop (m_st s))) -> In v seen.
Proof.
  destruct n as [|m]; [lia|]. destruct (last_step pick ev cf ops grid m _ s seen Hrun) as (s1 & seen1 & pool & _ & E & ->). intros H. apply in_or_app. right. eapply occupants; eauto.
Qed.
Lemma pop_best_is : exists v, get_pop_best 0 (seen_by_reports s) = Ok (VSol (v, f v) 1) /\ In v (b_vals (s_pop (m_st s))) /\
  forall w, In w (b_vals (s_pop (m_st s))) -> ~ better d (fitness f w) (fitness f v).
Proof.
  destruct run_facts as (W & D & _ & E & A & _). unfold evaluated in E.
  assert (R : rows (s_pop (m_st s)) = map (fun v => (v, f v)) (b_vals (s_pop (m_st s)))).
  { unfold rows, rows_of. rewrite E. clear. induction (b_vals (s_pop (m_st s))); cbn; congruence. }
  destruct (argbest_ok (s_pop (m_st s)) 0 d) as (i & r & B & N & Fb & _); auto.
  - rewrite A. destruct grid; [congruence|discriminate].
  - rewrite D. auto.
  - unfold no_nan_col. rewrite E. apply Forall_map, Forall_forall. intros v _. destruct (HF v) as [X _]. destruct (nth 0 (f v) NaN); cbn in *; congruence.
  - rewrite R in N, Fb. rewrite nth_error_map in N. destruct (nth_error (b_vals (s_pop (m_st s))) i) as [v|] eqn:Ev; [|discriminate]. injection N as <-. exists v.
    split; [|split].
    + unfold get_pop_best, seen_by_reports, with_pop. cbn [a_pop]. cbn [Z.of_nat] in *. rewrite B. cbn [bind]. unfold row. rewrite Ev, E, nth_error_map, Ev. cbn. unfold num_objs. rewrite D. auto.
    + eapply nth_error_In; eauto.
    + intros w Hw0. rewrite Forall_map, Forall_forall in Fb. apply (Fb w Hw0).
Qed.
Lemma elites_in v : In v (elites s) <-> exists i, nth_error (b_vals (s_pop (m_st s))) i = Some v /\ nth_error (m_filled s) i = Some true.
Proof.
  unfold elites. rewrite in_map_iff. split.
  - intros ([v' b] & Q & H). cbn in Q. subst v'. apply filter_In in H. destruct H as [H B]. cbn in B. subst b. apply In_nth_error in H. destruct H as [i H].
    exists i. revert H. generalize (m_filled s) (b_vals (s_pop (m_st s))). clear. intros l1 l2. revert l1 i. induction l2 as [|a l2 IH]; intros [|b l1] [|i]; cbn; try discriminate.
    + intros H. injection H as -> ->. auto.
    + apply IH.
  - intros (i & H1 & H2). exists (v, true). split; auto. apply filter_In. split; auto. revert H1 H2. generalize (m_filled s) (b_vals (s_pop (m_st s))). clear. intros l1 l2. revert l1 i.
    induction l2 as [|a l2 IH]; intros [|b l1] [|i]; cbn; try discriminate.
    + intros H1 H2. injection H1 as ->. injection H2 as ->. auto.
    + intros H1 H2. right. eapply IH; eauto.
Qed.
(* a candidate which fits some cell is matched by an elite *)
Lemma elite_for x c : In x seen -> In c grid -> fits c (f x) -> exists w, In w (elites s) /\ ~ better d (fitness f x) (fitness f w).
Proof.
  destruct run_facts as (_ & _ & _ & _ & A1 & A2 & A3). intros Hx Hc Fx. apply In_nth_error in Hc. destruct Hc as [i Hi].
  assert (Li : i < length grid) by (apply nth_error_Some; congruence).
  destruct (nth_error (m_filled s) i) as [b|] eqn:Eb; [|apply nth_error_None in Eb; lia].
  destruct (nth_error (b_vals (s_pop (m_st s))) i) as [w|] eqn:Ew; [|apply nth_error_None in Ew; unfold b_len in A1; lia].
  destruct (A3 i c b w Hi Eb Ew) as [B1 B2]. assert (T : b = true) by (apply B1; eauto). subst b. exists w. split; [apply elites_in; eauto|].
  destruct (B2 eq_refl) as (_ & _ & B). apply B; auto.
Qed.
End Run.

Lemma pool_evaluated (V : Type) pick ev (f : V -> list fl) cf ops grid s s' pool : deterministic f ev -> ready f cf (m_st s) -> map_step pick ev cf ops grid s = Ok (s', pool) -> evaluated f pool.
Proof.
  intros HD HR. unfold map_step. destruct (extended ev cf ops (m_st s)) as [[[s1 p] c]|] eqn:E; [|discriminate]. cbn [bind].
  destruct (extended_evaluated ev f cf ops (m_st s) s1 p c HD HR E) as [Ep Ec]. destruct (b_desc (cat p c)); [discriminate|]. destruct (sequence _); [|discriminate].
  cbn [bind]. intros H. injection H as <- <-. exact (ev_cat _ _ _ Ep Ec).
Qed.
Lemma sums {V} (g : V -> Z) x : forall vals filled, length filled = length vals -> (forall i v, nth_error vals i = Some v -> nth_error filled i = Some false -> v = x) ->
  let e := map g (map fst (filter snd (combine vals filled))) in exists u : nat, (In false filled -> 0 < u) /\ length vals = length e + u /\
    fold_right Z.add 0%Z (map g vals) = (fold_right Z.add 0 e + Z.of_nat u * g x)%Z.
Proof.
  induction vals as [|v vals IH]; intros [|b filled] L H; cbn in L; try discriminate.
  - exists 0. cbn. repeat split; auto. intros [].
  - destruct (IH filled) as (u & U1 & U2 & U3); [lia|intros i; apply (H (S i))|]. cbn [combine filter snd map]. destruct b.
    + exists u. cbn. rewrite U3. split; [intros [|]; [discriminate|auto]|]. split; [lia|lia].
    + exists (S u). cbn [map fold_right length]. rewrite (H 0 v eq_refl eq_refl), U3. split; [lia|]. split; [lia|]. nia.
Qed.
Lemma average_coincidence (E G : Z) (k u : nat) : 0 < k -> 0 < u ->
  (Qeq (inject_Z (E + Z.of_nat u * G) / inject_Z (Z.of_nat (k + u))) (inject_Z E / inject_Z (Z.of_nat k)) <-> Qeq (inject_Z G) (inject_Z E / inject_Z (Z.of_nat k))).
Proof.
  intros Hk Hu. assert (N1 : ~ Qeq (inject_Z (Z.of_nat (k + u))) 0%Q) by (unfold Qeq; cbn; lia). assert (N2 : ~ Qeq (inject_Z (Z.of_nat k)) 0%Q) by (unfold Qeq; cbn; lia).
  assert (X : forall a b c, ~ Qeq b 0%Q -> (Qeq (a / b)%Q c <-> Qeq a (c * b)%Q)).
  { intros a b c Nb. split; intros H; [rewrite <- H; field; auto|rewrite H; field; auto]. }
  rewrite X by auto. assert (Y : forall a b c d, ~ Qeq b 0%Q -> (Qeq a ((c / b) * d)%Q <-> Qeq (a * b)%Q (c * d)%Q)).
  { intros a b c d Nb. split; intros H; [rewrite H; field; auto|]. rewrite <- (Qmult_inj_r _ _ b Nb). rewrite H. field. auto. }
  rewrite Y by auto. assert (Y2 : Qeq (inject_Z G) (inject_Z E / inject_Z (Z.of_nat k)) <-> Qeq (inject_Z G * inject_Z (Z.of_nat k)) (inject_Z E)).
  { split; intros H; [rewrite H; field; auto|rewrite <- H; field; auto]. }
  rewrite Y2, <- !inject_Z_mult. unfold Qeq, inject_Z; cbn [Qnum Qden]. rewrite !Z.mul_1_r, Nat2Z.inj_add. nia.
Qed.

Section Reports.
Variable mean : list fl -> fl.
(* If every solution fits some cell (a grid of make_feature_grid, without NaN among the features: C39), pop_best is a candidate of the run, it is the best of all
   of them, and some elite is as good. *)
Theorem C194_best_partial : forall (V : Type) pick ev d (f : V -> list fl) cf ops grid like values n s seen,
  pick_ok pick -> Forall legal ops -> deterministic f ev -> acceptable d f ->
  b_desc like = [d] -> (forall v, length (f v) = 1 + b_ndata like) -> Forall (fun c : cell => length c = b_ndata like) grid -> length values = length grid ->
  map_run pick ev cf ops grid n (map_init like values) = Ok (s, seen) -> 0 < n -> grid <> [] ->
  (forall v, In v seen -> exists c, In c grid /\ fits c (f v)) ->
  exists v w, get_pop_best 0 (seen_by_reports s) = Ok (VSol (v, f v) 1) /\ In v seen /\ (forall x, In x seen -> ~ better d (fitness f x) (fitness f v)) /\
    In w (elites s) /\ fitness f w = fitness f v.
Proof.
  intros V pick ev d f cf ops grid like values n s seen Hp HL HD HF Hd Hw Hg Hl Hr Hn HG HC.
  destruct (pop_best_is pick ev d f cf ops grid like values n s seen Hp HL HD HF Hd Hw Hg Hl Hr Hn HG) as (v & E & Iv & Bv).
  assert (Sv : In v seen) by (eapply occupants_seen; eauto).
  assert (EL : forall x, In x seen -> exists w, In w (elites s) /\ ~ better d (fitness f x) (fitness f w)).
  { intros x Hx. destruct (HC x Hx) as (c & Hc & Fx). eapply elite_for; eauto. }
  assert (EV : forall w, In w (elites s) -> ~ better d (fitness f w) (fitness f v)).
  { intros w Hw0. apply Bv. apply elites_in in Hw0. destruct Hw0 as (i & Hi & _). eapply nth_error_In; eauto. }
  destruct (EL v Sv) as (w & Iw & Nw). exists v, w. split; [auto|]. split; [auto|]. split.
  - intros x Hx. destruct (EL x Hx) as (y & Iy & Ny). eapply better_trans_not; [|exact Ny|apply EV; auto]. apply (HF y).
  - split; [auto|]. specialize (EV w Iw). destruct (HF v) as [N1 _], (HF w) as [N2 _]. change (nth 0 (f v) NaN) with (fitness f v) in N1. change (nth 0 (f w) NaN) with (fitness f w) in N2.
    unfold better in *. destruct d; rewrite <- flt_lt in *; destruct (fitness f v), (fitness f w); cbn in *; try congruence; f_equal; lia.
Qed.
(* If no candidate fits any cell, no cell is filled, but pop_best and pop_best_eval report one of the misfits all the same. *)
Theorem C194_misfit_refuted : forall (V : Type) pick ev d (f : V -> list fl) cf ops grid like values n s seen,
  pick_ok pick -> Forall legal ops -> deterministic f ev -> acceptable d f ->
  b_desc like = [d] -> (forall v, length (f v) = 1 + b_ndata like) -> Forall (fun c : cell => length c = b_ndata like) grid -> length values = length grid ->
  map_run pick ev cf ops grid n (map_init like values) = Ok (s, seen) -> 0 < n -> grid <> [] ->
  (forall v c, In v seen -> In c grid -> ~ fits c (f v)) ->
  elites s = [] /\ exists v, get_pop_best 0 (seen_by_reports s) = Ok (VSol (v, f v) 1) /\ best_eval 0 (VSol (v, f v) 1) = Ok (VNum (fitness f v)) /\ In v seen.
Proof.
  intros V pick ev d f cf ops grid like values n s seen Hp HL HD HF Hd Hw Hg Hl Hr Hn HG HC.
  destruct (pop_best_is pick ev d f cf ops grid like values n s seen Hp HL HD HF Hd Hw Hg Hl Hr Hn HG) as (v & E & Iv & Bv).
  assert (Sv : In v seen) by (eapply occupants_seen; eauto). split.
  - destruct (elites s) as [|w l] eqn:EL; auto. exfalso. assert (Iw : In w (elites s)) by (rewrite EL; left; auto).
    apply elites_in in Iw. destruct Iw as (i & Hi & Hb). destruct (run_facts pick ev d f cf ops grid like values n s seen Hp HL HD HF Hd Hw Hg Hl Hr Hn) as (_ & _ & _ & _ & A1 & A2 & A3).
    destruct (nth_error grid i) as [c|] eqn:Ec; [|apply nth_error_None in Ec; assert (i < length (m_filled s)) by (apply nth_error_Some; congruence); lia].
    destruct (A3 i c true w Ec Hb Hi) as [B _]. destruct (proj1 B eq_refl) as (x & Hx & Fx). eapply HC; eauto. eapply nth_error_In; eauto.
  - exists v. split; [auto|]. split; [|auto]. cbn [best_eval]. unfold sol_evaluated. cbn [snd]. destruct (HF v) as [N _]. unfold fitness. specialize (Hw v). destruct (f v) as [|x r]; [discriminate|].
    cbn in *. destruct x; cbn; congruence.
Qed.
(* mean_eval is the mean over all cells.  Those which nobody fits are counted with copies of one and the same candidate: as soon as there are any,
   mean_eval is the mean of the elites only by coincidence. *)
Theorem C194_mean_refuted : forall (V : Type) ev d (f : V -> list fl) (g : V -> Z) cf ops grid like values n s seen,
  Forall legal ops -> deterministic f ev -> (forall v, fitness f v = Fin (g v)) ->
  b_desc like = [d] -> (forall v, length (f v) = 1 + b_ndata like) -> Forall (fun c : cell => length c = b_ndata like) grid -> length values = length grid ->
  map_run first_pick ev cf ops grid n (map_init like values) = Ok (s, seen) -> 0 < n -> In false (m_filled s) -> elites s <> [] ->
  exists x, In x seen /\ (forall i v, nth_error (b_vals (s_pop (m_st s))) i = Some v -> nth_error (m_filled s) i = Some false -> v = x) /\
    get_mean_eval mean 0 (seen_by_reports s) = Ok (VNum (mean (map (fun v => Fin (g v)) (b_vals (s_pop (m_st s)))))) /\
    (Qeq (average (map g (b_vals (s_pop (m_st s))))) (average (map g (elites s))) <-> Qeq (inject_Z (g x)) (average (map g (elites s)))).
Proof.
  intros V ev d f g cf ops grid like values n s seen HL HD HG Hd Hw Hg Hl Hr Hn HI HE.
  assert (HF : acceptable d f) by (intros v; change (nth 0 (f v) NaN) with (fitness f v); rewrite HG; split; destruct d; discriminate).
  destruct (run_facts first_pick ev d f cf ops grid like values n s seen first_pick_ok HL HD HF Hd Hw Hg Hl Hr Hn) as (W & D & ND & EV & A1 & A2 & A3).
  destruct n as [|m]; [lia|]. destruct (last_step first_pick ev cf ops grid m _ s seen Hr) as (s1 & seen1 & pool & R1 & St & ->).
  assert (Hw' : forall v, length (f v) = eval_width (s_pop (m_st (map_init like values)))) by (intros v; unfold eval_width, num_objs; cbn; rewrite Hd; apply Hw).
  destruct (map_run_ok first_pick ev first_pick_ok d f cf ops grid m (map_init like values) s1 [] seen1 HL (proj1 (fresh_kind like values)) HD HF Hw' Hg Hd) as (_ & _ & RD & _); auto.
  { right; left; auto. } { apply init_archive; auto. }
  pose proof (pool_evaluated V first_pick ev f cf ops grid s1 s pool HD RD St) as EP. unfold evaluated in EP, EV.
  assert (U : forall i v, nth_error (b_vals (s_pop (m_st s))) i = Some v -> nth_error (m_filled s) i = Some false -> hd_error (b_vals pool) = Some v).
  { apply (unfilled V ev cf ops grid s1 s pool St); [|rewrite EP; apply map_length]. intros c row b Hc Hrow Hs -> i Hi. rewrite EP in Hrow. apply in_map_iff in Hrow. destruct Hrow as (x & <- & Hx).
    assert (Lc : length c = length (tl (f x))). { rewrite (proj1 (Forall_forall _ _) Hg c Hc). specialize (Hw x). destruct (f x); cbn in *; lia. }
    rewrite suitable_ok in Hs by auto. injection Hs as Hs. apply fitsb_fits in Hs; auto. assert (Li : i < length grid) by (apply nth_error_Some; congruence).
    destruct (nth_error (m_filled s) i) as [b|] eqn:Eb; [|apply nth_error_None in Eb; lia].
    destruct (nth_error (b_vals (s_pop (m_st s))) i) as [w|] eqn:Ew; [|apply nth_error_None in Ew; unfold b_len in A1; lia].
    destruct (A3 i c b w Hi Eb Ew) as [B _]. f_equal. apply B. exists x. split; auto. apply in_or_app; auto. }
  destruct (In_nth_error _ _ HI) as [i0 H0]. destruct (nth_error (b_vals (s_pop (m_st s))) i0) as [x|] eqn:Ex; [|apply nth_error_None in Ex; unfold b_len in A1; assert (i0 < length (m_filled s)) by (apply nth_error_Some; congruence); lia].
  pose proof (U i0 x Ex H0) as Hx. exists x. split; [|split; [|split]].
  - apply in_or_app. right. destruct (b_vals pool); [discriminate|]. injection Hx as ->. left; auto.
  - intros i v Hv Hf. pose proof (U i v Hv Hf). congruence.
  - unfold get_mean_eval, seen_by_reports, with_pop. cbn [a_pop]. unfold access_evals, normalize_obj_index, num_objs. rewrite D. cbn [Z.of_nat]. change ((0 <? 0)%Z) with false. cbn iota. change (((0 <? 0) || (Z.of_nat (length [d]) <? 0))%Z) with false. cbn iota. cbn [bind].
    unfold column, eval_width, num_objs. rewrite D. cbn [length Z.to_nat].
    assert (T : ((0 <=? 0) && (0 <? Z.of_nat (1 + b_ndata (s_pop (m_st s)))))%Z = true) by lia. cbn [Nat.add] in T |- *. rewrite T. cbn [rmap bind]. rewrite EV, map_map.
    do 2 f_equal. f_equal. apply map_ext. intros v. apply HG.
  - destruct (sums g x (b_vals (s_pop (m_st s))) (m_filled s)) as (u & U1 & U2 & U3); [unfold b_len in A1; lia|intros i v Hv Hf; pose proof (U i v Hv Hf); congruence|].
    fold (elites s) in U2, U3. unfold average. rewrite map_length, U3, U2. apply average_coincidence; [|auto]. destruct (elites s); [congruence|cbn; lia].
Qed.
End Reports.
Print Assumptions C194_best_partial.
Print Assumptions C194_misfit_refuted.
Print Assumptions C194_mean_refuted.
(* the run of C38_example: two of three cells are filled, the third is counted with a copy of the best solution *)
Example C194_example : exists s seen, map_run first_pick (fun _ vs => map mf vs) (mkConf 3 true true true) mops mgrid 2 (map_init (mkBatch [] [] [true] 1) [9; 3; 7]%Z) = Ok (s, seen) /\
  (forall v, In v seen -> exists c, In c mgrid /\ fits c (mf v)) /\ In false (m_filled s) /\ elites s = [9; 15]%Z /\ (forall v, fitness mf v = Fin (v mod 10)) /\
  get_pop_best 0 (seen_by_reports s) = Ok (VSol (9%Z, mf 9) 1) /\ Qeq (average (map (fun v => v mod 10)%Z (elites s))) 7%Q /\
  ~ Qeq (average (map (fun v => v mod 10)%Z (b_vals (s_pop (m_st s))))) 7%Q.
Proof.
  eexists _, _. split; [vm_compute; reflexivity|]. split; [|vm_compute; intuition (auto; discriminate)].
  intros v H. assert (B : (v <= 10 \/ 10 <= v <= 20)%Z) by (cbn in H; lia). destruct B; [exists [(NInf, Fin 10%Z)]|exists [(Fin 10%Z, Fin 20%Z)]]; (split; [cbn; auto|]).
  - apply fitsb_fits; auto. cbn. unfold fle. cbn. lia.
  - apply fitsb_fits; auto. cbn. unfold fle. cbn. lia.
Qed.
Example C194_misfit_example : exists s seen, map_run first_pick (fun _ vs => map mf vs) (mkConf 1 true true true) mops [[(Fin 100, PInf)]]%Z 2 (map_init (mkBatch [] [] [true] 1) [9]%Z) = Ok (s, seen) /\
  (forall v c, In v seen -> In c [[(Fin 100, PInf)]]%Z -> ~ fits c (mf v)).
Proof.
  eexists _, _. split; [vm_compute; reflexivity|]. intros v c Hv [<-|[]] H. apply fitsb_fits in H; auto. cbn in H. unfold fle in H. cbn in H, Hv. lia.
Qed.

From Verif Require Import Prelude FloatLib StaleModel.
Open Scope nat_scope.

Section P.
Context {V : Type}.
Variable f : V -> list fl.
Variable nobj ndata : nat.
Hypothesis obj_pos : 1 <= nobj.
Notation cell := (@cell V).
Notation nans := (nans nobj ndata).

Definition fresh_ok (c : cell) : Prop := snd c = nans \/ snd c = f (fst c).

Lemma nth_set_cell h a g x : nth_error (@set_cell V h a g) x =
  if Nat.eqb a x then option_map g (nth_error h x) else nth_error h x.
Proof.
  unfold set_cell. destruct (nth_error h a) as [c|] eqn:E.
  - rewrite nth_error_upd. destruct (Nat.eqb_spec a x) as [->|]; auto. rewrite E.
    assert (x < length h) by (apply nth_error_Some; congruence). destruct (Nat.ltb_spec x (length h)); [reflexivity|lia].
  - destruct (Nat.eqb_spec a x) as [->|]; auto. rewrite E. reflexivity.
Qed.
Lemma set_cell_length h a g : length (@set_cell V h a g) = length h.
Proof. unfold set_cell. destruct (nth_error h a); auto using upd_length. Qed.

(* folding idempotent per-cell updates *)
Lemma fold_set (g : cell -> cell) : (forall c, g (g c) = g c) -> forall addrs h x,
  nth_error (fold_left (fun h a => set_cell h a g) addrs h) x =
  if existsb (Nat.eqb x) addrs then option_map g (nth_error h x) else nth_error h x.
Proof.
  intros Hg. induction addrs as [|a addrs IH]; intros h x; cbn [fold_left existsb]; auto.
  rewrite IH, nth_set_cell. rewrite (Nat.eqb_sym x a). destruct (Nat.eqb_spec a x) as [->|]; cbn [orb].
  - destruct (existsb (Nat.eqb x) addrs); auto. destruct (nth_error h x); cbn; rewrite ?Hg; auto.
  - reflexivity.
Qed.

Lemma nth_forget h addrs x : nth_error (forget nobj ndata h addrs) x =
  if existsb (Nat.eqb x) addrs then option_map (fun c : cell => (fst c, nans)) (nth_error h x) else nth_error h x.
Proof. unfold forget. rewrite (fold_set (fun c => (fst c, nans))); auto. Qed.

(* writes of values only change the first components *)
Lemma fold_write : forall (avs : list (nat * V)) h x c',
  nth_error (fold_left (fun h av => set_cell h (fst av) (fun c => (snd av, snd c))) avs h) x = Some c' ->
  exists c, nth_error h x = Some c /\ snd c' = snd c /\ (~ In x (map fst avs) -> c' = c).
Proof.
  induction avs as [|[a v] avs IH]; intros h x c' H; cbn [fold_left] in H.
  - exists c'. auto.
  - apply IH in H. destruct H as (c1 & H1 & E1 & N1). cbn [fst snd] in H1. rewrite nth_set_cell in H1.
    destruct (Nat.eqb_spec a x) as [->|Hn].
    + destruct (nth_error h x) as [c|]; [|discriminate]. cbn in H1. injection H1 as <-. exists c. split; auto. split; auto.
      intros Hi. exfalso. apply Hi. cbn. auto.
    + exists c1. split; auto. split; auto. intros Hi. apply N1. intros Hj. apply Hi. cbn. auto.
Qed.

Definition inv (s : @state V) (safe : list (list nat)) : Prop :=
  Forall fresh_ok (heap s) /\
  length safe = length (handles s) /\
  (forall h a c, In a (nth h safe []) -> nth_error (heap s) a = Some c -> snd c = nans) /\
  (forall h a, In a (nth h safe []) -> a < length (heap s)) /\
  (forall b a, In a (nth b (batches s) []) -> a < length (heap s)).

Lemma Forall_nth' {A} (P : A -> Prop) l : (forall i x, nth_error l i = Some x -> P x) -> Forall P l.
Proof. intros H. apply Forall_forall. intros x Hx. apply In_nth_error in Hx. destruct Hx as (i & Hi). eauto. Qed.

Lemma read_in s addrs (c : cell) : In c (read s addrs) -> In c (heap s).
Proof.
  unfold read. intros H. apply in_flat_map in H. destruct H as (a & _ & H). destruct (nth_error (heap s) a) eqn:E; [|destruct H].
  destruct H as [<-|[]]. eapply nth_error_In; eauto.
Qed.

Lemma inv_alloc s safe cs : inv s safe -> Forall fresh_ok cs -> inv (alloc s cs) safe.
Proof.
  intros (H1 & H2 & H3 & H4 & H5) HC. unfold alloc. split; [apply Forall_app; auto|]. cbn [heap handles batches].
  split; auto. split; [|split].
  - intros h a c Ha Hc. rewrite nth_error_app1 in Hc by eauto. eauto.
  - intros h a Ha. rewrite app_length. pose proof (H4 h a Ha). lia.
  - intros b a Ha. rewrite app_length. destruct (Nat.ltb_spec b (length (batches s))).
    + rewrite app_nth1 in Ha by auto. pose proof (H5 b a Ha). lia.
    + rewrite app_nth2 in Ha by auto. destruct (b - length (batches s)) as [|[|k]]; cbn in Ha; try contradiction.
      apply in_seq in Ha. lia.
Qed.

Lemma forget_len h addrs : length (forget nobj ndata h addrs : list cell) = length h.
Proof.
  unfold forget. revert h. induction addrs as [|a l IH]; intros h; cbn; auto. rewrite IH. apply set_cell_length.
Qed.

Lemma inv_forget_heap (h : list cell) addrs : Forall fresh_ok h -> Forall fresh_ok (forget nobj ndata h addrs).
Proof.
  intros H. apply Forall_nth'. intros i x. rewrite nth_forget. intros E.
  destruct (existsb (Nat.eqb i) addrs).
  - destruct (nth_error h i) as [c|] eqn:Ec; [|discriminate]. cbn in E. injection E as <-. left. reflexivity.
  - rewrite Forall_forall in H. apply H. eapply nth_error_In; eauto.
Qed.

Lemma forget_snd (h : list cell) addrs a c' : nth_error (forget nobj ndata h addrs) a = Some c' ->
  exists c, nth_error h a = Some c /\ fst c' = fst c /\ (snd c' = nans \/ snd c' = snd c) /\ (In a addrs -> snd c' = nans) /\ (~ In a addrs -> c' = c).
Proof.
  rewrite nth_forget. destruct (existsb (Nat.eqb a) addrs) eqn:E.
  - destruct (nth_error h a) as [c|]; [|discriminate]. cbn. intros H. injection H as <-. exists c. cbn.
    split; [reflexivity|]. split; [reflexivity|]. split; [auto|]. split; [auto|].
    intros Hn. exfalso. apply Hn. apply existsb_exists in E. destruct E as (y & Hy & Ey). apply Nat.eqb_eq in Ey. subst; auto.
  - intros H. exists c'. split; [exact H|]. split; [auto|]. split; [auto|]. split; [|auto].
    intros Hi. exfalso. assert (existsb (Nat.eqb a) addrs = true) by (apply existsb_exists; exists a; split; auto; apply Nat.eqb_refl). congruence.
Qed.

Lemma nth_map_nil {A B} (g : list A -> list B) l i : g [] = [] -> nth i (map g l) [] = g (nth i l []).
Proof. intros H. rewrite <- H at 1. apply map_nth. Qed.

Lemma fold_write_len (avs : list (nat * V)) h : length (fold_left (fun h av => set_cell h (fst av) (fun c => (snd av, snd c))) avs h) = length h.
Proof. revert h. induction avs; intros h; cbn; auto. rewrite IHavs. apply set_cell_length. Qed.

Lemma fold_set_len (g : cell -> cell) addrs : forall h, length (fold_left (fun h a => set_cell h a g) addrs h) = length h.
Proof. induction addrs; intros h; cbn; auto. rewrite IHaddrs. apply set_cell_length. Qed.

Lemma step_inv s safe o : inv s safe ->
  match o with Write h k _ => forall a, nth_error (nth h (handles s) []) k = Some a -> In a (nth h safe []) | _ => True end ->
  inv (step f nobj ndata s o) (safe_after f nobj ndata s safe [o]).
Proof.
  intros HI HW. pose proof HI as (H1 & H2 & H3 & H4 & H5). destruct o as [vs|b rws vs|b keep|h k v|b lo hi|b rws|bs|b|b rws]; cbn [step safe_after].
  - apply inv_alloc; auto. apply Forall_map. apply Forall_forall. intros v _. left. reflexivity.
  - set (ad := pick (get_batch s b) rws). set (h1 := fold_left _ _ (heap s)).
    assert (L1 : length h1 = length (heap s)) by apply fold_write_len.
    split; [|split; [|split; [|split]]]; cbn [heap batches handles]; auto.
    + apply Forall_nth'. intros i c Hc. apply forget_snd in Hc. destruct Hc as (c1 & Hc1 & Ef & Es & Ein & Enin).
      destruct Es as [Es|Es]; [left; auto|]. destruct (in_dec Nat.eq_dec i ad) as [Hi|Hi]; [left; auto|].
      rewrite (Enin Hi). apply fold_write in Hc1. destruct Hc1 as (c0 & Hc0 & _ & Hkeep).
      rewrite Hkeep. * rewrite Forall_forall in H1. apply H1. eapply nth_error_In; eauto.
      * intros Hm. apply Hi. apply in_map_iff in Hm. destruct Hm as ((a & v) & <- & Hin). apply in_combine_l in Hin. exact Hin.
    + intros h a c Ha Hc. apply forget_snd in Hc. destruct Hc as (c1 & Hc1 & Ef & Es & _). destruct Es as [Es|Es]; auto.
      apply fold_write in Hc1. destruct Hc1 as (c0 & Hc0 & E0 & _). rewrite Es, E0. eauto.
    + intros h a Ha. rewrite forget_len, L1. eauto.
    + intros b' a Ha. rewrite forget_len, L1. eauto.
  - assert (L1 : length (if keep then heap s else forget nobj ndata (heap s) (get_batch s b)) = length (heap s)) by (destruct keep; auto using forget_len).
    split; [|split; [|split; [|split]]]; cbn [heap batches handles].
    + destruct keep; auto. apply inv_forget_heap; auto.
    + rewrite !app_length. cbn. lia.
    + intros h a c Ha Hc. destruct (Nat.ltb_spec h (length safe)).
      * rewrite app_nth1 in Ha by auto. destruct keep; [eauto|]. apply forget_snd in Hc. destruct Hc as (c1 & Hc1 & _ & [Es|Es] & _); auto. rewrite Es. eauto.
      * rewrite app_nth2 in Ha by auto. destruct (h - length safe) as [|[|m]]; cbn in Ha; try contradiction.
        destruct keep; [destruct Ha|]. apply forget_snd in Hc. destruct Hc as (c1 & _ & _ & _ & Hin & _). auto.
    + intros h a Ha. rewrite L1. destruct (Nat.ltb_spec h (length safe)).
      * rewrite app_nth1 in Ha by auto. eauto.
      * rewrite app_nth2 in Ha by auto. destruct (h - length safe) as [|[|m]]; cbn in Ha; try contradiction.
        destruct keep; [destruct Ha|]. unfold get_batch in Ha. eauto.
    + intros b' a Ha. rewrite L1. eauto.
  - destruct (nth_error (nth h (handles s) []) k) as [a|] eqn:Ea; [|exact HI]. specialize (HW a eq_refl).
    split; [|split; [|split; [|split]]]; cbn [heap batches handles]; auto.
    + apply Forall_nth'. intros i c Hc. rewrite nth_set_cell in Hc. destruct (Nat.eqb_spec a i) as [->|].
      * destruct (nth_error (heap s) i) as [c0|] eqn:E0; [|discriminate]. cbn in Hc. injection Hc as <-. left. cbn. eauto.
      * rewrite Forall_forall in H1. apply H1. eapply nth_error_In; eauto.
    + intros h' a' c Ha' Hc. rewrite nth_set_cell in Hc. destruct (Nat.eqb_spec a a') as [->|].
      * destruct (nth_error (heap s) a') as [c0|] eqn:E0; [|discriminate]. cbn in Hc. injection Hc as <-. cbn. eauto.
      * eauto.
    + intros h' a' Ha'. rewrite set_cell_length. eauto.
    + intros b' a' Ha'. rewrite set_cell_length. eauto.
  - split; [|split; [|split; [|split]]]; cbn [heap batches handles]; auto.
    intros b' a Ha. destruct (Nat.ltb_spec b' (length (batches s))).
    + rewrite app_nth1 in Ha by auto. eauto.
    + rewrite app_nth2 in Ha by auto. destruct (b' - length (batches s)) as [|[|m]]; cbn in Ha; try contradiction.
      apply (H5 b). unfold get_batch in Ha. rewrite <- (firstn_skipn lo (nth b (batches s) [])). apply in_or_app. right.
      rewrite <- (firstn_skipn (hi - lo) (skipn lo (nth b (batches s) []))). apply in_or_app. left. exact Ha.
  - apply inv_alloc; auto. apply Forall_forall. intros c Hc. apply read_in in Hc. rewrite Forall_forall in H1. auto.
  - apply inv_alloc; auto. apply Forall_forall. intros c Hc. apply read_in in Hc. rewrite Forall_forall in H1. auto.
  - split; [|split; [|split; [|split]]]; cbn [heap batches handles].
    + apply Forall_nth'. intros i c Hc. rewrite fold_set in Hc by auto. destruct (existsb (Nat.eqb i) (get_batch s b)).
      * destruct (nth_error (heap s) i); [|discriminate]. cbn in Hc. injection Hc as <-. right. reflexivity.
      * rewrite Forall_forall in H1. apply H1. eapply nth_error_In; eauto.
    + rewrite map_length. auto.
    + intros h a c Ha Hc. rewrite nth_map_nil in Ha by reflexivity. apply filter_In in Ha. destruct Ha as [Ha Hn].
      rewrite fold_set in Hc by auto. apply negb_true_iff in Hn. rewrite Hn in Hc. eauto.
    + intros h a Ha. rewrite nth_map_nil in Ha by reflexivity. apply filter_In in Ha. destruct Ha as [Ha _]. rewrite fold_set_len. eauto.
    + intros b' a Ha. rewrite fold_set_len. eauto.
  - split; [|split; [|split; [|split]]]; cbn [heap batches handles]; auto.
    + apply inv_forget_heap; auto.
    + intros h a c Ha Hc. apply forget_snd in Hc. destruct Hc as (c1 & Hc1 & _ & [Es|Es] & _); auto. rewrite Es. eauto.
    + intros h a Ha. rewrite forget_len. eauto.
    + intros b' a Ha. rewrite forget_len. eauto.
Qed.

Lemma run_inv : forall ops s safe, inv s safe -> disciplined f nobj ndata s safe ops ->
  Forall fresh_ok (heap (run f nobj ndata s ops)).
Proof.
  induction ops as [|o ops IH]; intros s safe HI HD; cbn [run fold_left].
  - apply HI.
  - destruct HD as [HD1 HD2]. apply (IH _ (safe_after f nobj ndata s safe [o])); auto. apply step_inv; auto.
Qed.

Lemma never_stale ops c : disciplined f nobj ndata init [] ops ->
  In c (heap (run f nobj ndata init ops)) -> evaluated nobj c = false \/ snd c = f (fst c).
Proof.
  intros HD Hc. assert (HF : Forall fresh_ok (heap (run f nobj ndata init ops))).
  { apply (run_inv ops init []); auto. split; [constructor|]. split; [reflexivity|]. cbn.
    split; [|split]; intros [|?] a; cbn; contradiction. }
  rewrite Forall_forall in HF. destruct (HF c Hc) as [H|H]; [left|right; auto].
  unfold evaluated, StaleModel.nans in *. rewrite H. destruct nobj as [|n]; [lia|]. reflexivity.
Qed.

(* an evaluated batch is evaluated, whatever happened before *)
Lemma evaluate_sets s b a c : In a (get_batch s b) -> nth_error (heap s) a = Some c ->
  nth_error (heap (step f nobj ndata s (Evaluate b))) a = Some (fst c, f (fst c)).
Proof.
  intros Ha Hc. cbn [step heap]. rewrite fold_set by auto. rewrite Hc.
  assert (E : existsb (Nat.eqb a) (get_batch s b) = true) by (apply existsb_exists; exists a; split; auto; apply Nat.eqb_refl).
  rewrite E. reflexivity.
Qed.
End P.

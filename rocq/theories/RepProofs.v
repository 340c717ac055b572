(* Lemmas about decimal names, report keys and the status machine. *)
From Coq Require Import String Ascii DecimalString DecimalNat DecimalFacts Sorted.
From Verif Require Import Prelude FloatLib SortLib BatchModel BatchSpec BatchProofs LoopModel LoopProofs LoopProofs2 RoProofs RepModel RepSpec.
Open Scope nat_scope.

(* ---------------------------------------------------------------- strings *)
Fixpoint chars (s : string) : list ascii := match s with EmptyString => [] | String c s => c :: chars s end.
Lemma chars_app a b : chars (a ++ b)%string = chars a ++ chars b.
Proof. induction a as [|c a IH]; cbn; congruence. Qed.
Lemma chars_inj a b : chars a = chars b -> a = b.
Proof. revert b; induction a as [|c a IH]; intros [|d b]; cbn; intros Q; try discriminate; auto. injection Q as -> Q. f_equal; auto. Qed.
Lemma app_inj_l a b c : (a ++ b)%string = (a ++ c)%string -> b = c.
Proof. induction a as [|x a IH]; cbn; intros Q; auto. injection Q as Q. auto. Qed.
Lemma app_inj_r a b c : (a ++ c)%string = (b ++ c)%string -> a = b.
Proof. intros Q. apply chars_inj. apply (f_equal chars) in Q. rewrite !chars_app in Q. eapply app_inv_tail; eauto. Qed.
Lemma split_first (c : ascii) a b x y : ~ In c (chars a) -> ~ In c (chars b) ->
  (a ++ String c x)%string = (b ++ String c y)%string -> a = b /\ x = y.
Proof.
  revert b; induction a as [|d a IH]; intros [|e b]; cbn; intros Ha Hb Q.
  - injection Q as ->. auto.
  - injection Q as -> _. tauto.
  - injection Q as -> _. tauto.
  - injection Q as -> Q. destruct (IH b) as [-> ->]; auto.
Qed.
Lemma decimal_inj n m : decimal n = decimal m -> n = m.
Proof.
  intros Q. unfold decimal in Q. apply (f_equal NilEmpty.uint_of_string) in Q. rewrite !NilEmpty.usu in Q. injection Q as Q.
  apply DecimalNat.Unsigned.to_uint_inj. exact Q.
Qed.
Definition digit (c : ascii) : Prop := In c ["0"; "1"; "2"; "3"; "4"; "5"; "6"; "7"; "8"; "9"]%char.
Lemma uint_digits u : Forall digit (chars (NilEmpty.string_of_uint u)).
Proof. induction u; cbn [NilEmpty.string_of_uint chars]; constructor; auto; unfold digit; cbn; tauto. Qed.
Lemma decimal_digits n : Forall digit (chars (decimal n)).
Proof. apply uint_digits. Qed.
Lemma no_underscore n : ~ In "_"%char (chars (decimal n)).
Proof.
  intros C. pose proof (decimal_digits n) as F. rewrite Forall_forall in F. specialize (F _ C). unfold digit in F.
  cbn in F. intuition discriminate.
Qed.
Lemma name_inj r r' : name_of r = name_of r' -> r = r'.
Proof. destruct r, r'; cbn; intros Q; try discriminate; auto. Qed.
Lemma obj_key_inj i r i' r' : obj_key i r = obj_key i' r' -> i = i' /\ r = r'.
Proof.
  unfold obj_key. intros Q. apply app_inj_l in Q. cbn [append] in Q.
  destruct (split_first "_" _ _ _ _ (no_underscore i) (no_underscore i') Q) as [Q1 Q2]. split; [apply decimal_inj | apply name_inj]; auto.
Qed.
Lemma obj_key_not_name i r r' : obj_key i r <> name_of r'.
Proof. destruct r'; discriminate. Qed.

(* zero-padded numbers *)
Lemma parse_zeros n s u : NilEmpty.uint_of_string s = Some u ->
  exists u', NilEmpty.uint_of_string (zeros n s) = Some u' /\ Nat.of_uint u' = Nat.of_uint u.
Proof.
  intros P. induction n as [|n (u' & E1 & E2)]; cbn [zeros]; [eauto|].
  exists (Decimal.D0 u'). split; auto. cbn [NilEmpty.uint_of_string]. rewrite E1. reflexivity.
Qed.
Lemma zfill_inj w g g' : zfill w (decimal g) = zfill w (decimal g') -> g = g'.
Proof.
  unfold zfill. intros Q.
  assert (forall k h, exists u, NilEmpty.uint_of_string (zeros k (decimal h)) = Some u /\ Nat.of_uint u = h) as P.
  { intros k h. destruct (parse_zeros k (decimal h) (Nat.to_uint h)) as (u & E1 & E2).
    - unfold decimal. apply NilEmpty.usu.
    - exists u. split; auto. rewrite E2. apply DecimalNat.Unsigned.of_to. }
  destruct (P (w - String.length (decimal g)) g) as (u & E1 & E2), (P (w - String.length (decimal g')) g') as (u' & E1' & E2').
  rewrite Q, E1' in E1. injection E1 as ->. congruence.
Qed.

(* ---------------------------------------------------------------- the keys of the mixin *)
Section Keys.
Context {V : Type}.
Variable mean : list fl -> fl.
Notation getter := (getter V).
Notation status := (status V).
Variables (order : list reportable) (e : exclusion) (obj_index : option nat) (n : nat).
Notation regs := (@mixin_getters V order e obj_index n) (only parsing).

Lemma in_register r : In r (to_register order e) <-> In r order /\ ~ In (name_of r) (excluded e).
Proof.
  unfold to_register. rewrite filter_In. rewrite negb_true_iff. rewrite <- not_true_iff_false, existsb_exists.
  split; intros [A B]; split; auto; intros C; apply B.
  - exists (name_of r). split; auto. apply String.eqb_refl.
  - destruct C as (x & Hx & Q). apply String.eqb_eq in Q. congruence.
Qed.
Lemma in_regs k g : In (k, g) regs <-> exists i r, g = Rep i r /\ In r order /\ ~ In (name_of r) (excluded e) /\
  match single_objective obj_index n with Some j => i = j /\ k = name_of r | None => i < n /\ k = obj_key i r end.
Proof.
  unfold mixin_getters. destruct (single_objective obj_index n) as [j|].
  - rewrite in_map_iff. split.
    + intros (r & Q & I). injection Q as <- <-. apply in_register in I. exists j, r. tauto.
    + intros (i & r & -> & I1 & I2 & -> & ->). exists r. split; auto. apply in_register. auto.
  - rewrite in_flat_map. split.
    + intros (i & Ii & I). apply in_map_iff in I. destruct I as (r & Q & I). injection Q as <- <-. apply in_register in I.
      apply in_seq in Ii. exists i, r. intuition lia.
    + intros (i & r & -> & I1 & I2 & L & ->). exists i. split; [apply in_seq; lia|]. apply in_map_iff. exists r. split; auto. apply in_register. auto.
Qed.
Lemma nodup_map_inj {A B} (f : A -> B) l : (forall x y, In x l -> In y l -> f x = f y -> x = y) -> NoDup l -> NoDup (map f l).
Proof.
  intros I. induction 1 as [|x l Nx ND IH]; cbn; constructor.
  - rewrite in_map_iff. intros (y & Q & Iy). apply Nx. rewrite <- (I y x); auto; cbn; auto.
  - apply IH. intros; apply I; cbn; auto.
Qed.
Lemma nodup_app {A} (l l' : list A) : NoDup l -> NoDup l' -> (forall x, In x l -> ~ In x l') -> NoDup (l ++ l').
Proof.
  induction 1 as [|x l Nx ND IH]; cbn; intros N' D; auto. constructor.
  - rewrite in_app_iff. intros [C|C]; [tauto|]. apply (D x); cbn; auto.
  - apply IH; auto.
Qed.
Lemma regs_nodup : NoDup order -> NoDup (map fst regs).
Proof.
  intros NO. assert (NR : NoDup (to_register order e)) by (apply NoDup_filter; auto).
  unfold mixin_getters. destruct (single_objective obj_index n) as [j|].
  - rewrite map_map. apply nodup_map_inj; auto. intros x y _ _. apply name_inj.
  - generalize 0 as st. intros st. revert st. clear -NR. induction n as [|m IH]; intros st; [constructor|].
    cbn [seq flat_map]. rewrite map_app. apply nodup_app.
    + rewrite map_map. apply nodup_map_inj; auto. intros x y _ _ Q. apply obj_key_inj in Q. tauto.
    + apply IH.
    + intros k K C. rewrite map_map, in_map_iff in K. destruct K as (r & <- & _). cbn [fst] in C.
      rewrite in_map_iff in C. destruct C as ((k', g) & Q & C). cbn [fst] in Q. subst k'. rewrite in_flat_map in C. destruct C as (i & Ii & C).
      rewrite in_map_iff in C. destruct C as (r' & Q & _). apply (f_equal fst) in Q. cbn [fst] in Q. apply obj_key_inj in Q. apply in_seq in Ii. lia.
Qed.
Lemma init_get s k g : NoDup order -> In (k, g) regs -> dget k (getters (mixin_init true order e obj_index n s)) = Some g.
Proof.
  intros NO I. cbn [mixin_init getters].
  destruct (dget_dupdate_in k regs (getters s)) as (g' & -> & I'); [apply in_map_iff; exists (k, g); auto|].
  f_equal. apply in_regs in I, I'. destruct I as (i & r & -> & A1 & A2 & A3), I' as (i' & r' & -> & B1 & B2 & B3).
  destruct (single_objective obj_index n).
  - destruct A3 as [-> ->], B3 as [-> Q]. apply name_inj in Q. congruence.
  - destruct A3 as [_ ->], B3 as [_ Q]. apply obj_key_inj in Q. destruct Q as [-> ->]. auto.
Qed.

(* ---------------------------------------------------------------- the machine *)
Hypothesis order_nodup : NoDup order.
(* the keys which status dictionaries must leave alone *)
Definition reserved (k : string) : Prop := In k (map fst regs) \/ k = "pop_best"%string.
Definition steady (s : status) : Prop :=
  (forall k g, In (k, g) regs -> dget k (getters s) = Some g) /\
  (single_objective obj_index n = None -> has "pop_best" (getters s) = false).
Definition expected (i : nat) (r : reportable) (a : alg V) (v : value V) : Prop :=
  match r with
  | PopBest => get_pop_best i a = Ok v
  | PopBestEval => exists p, get_pop_best i a = Ok p /\ best_eval i p = Ok v
  | MeanEval => get_mean_eval mean i a = Ok v
  | MedianEval => get_median_eval i a = Ok v
  end.
Definition cached (a : alg V) (s : status) : Prop :=
  forall k i r v, In (k, Rep i r) regs -> dget k (computed s) = Some v -> expected i r a v.

Lemma update_getters_get d : forall (s : status) k, (forall kv, In kv d -> fst kv <> k) -> dget k (getters (update s d)) = dget k (getters s).
Proof.
  unfold update. induction d as [|[k' v] d IH]; intros s k A; cbn [fold_left]; auto.
  rewrite IH by (intros; apply A; right; auto). cbn [getters fst]. destruct (has k' (getters s)); auto.
  apply dget_dset_other. apply (A (k', v)). left; auto.
Qed.
Lemma update_computed_get d : forall (s : status) k, (forall kv, In kv d -> fst kv <> k) -> dget k (computed (update s d)) = dget k (@computed V s).
Proof.
  unfold update. induction d as [|[k' v] d IH]; intros s k A; cbn [fold_left]; auto.
  rewrite IH by (intros; apply A; right; auto). cbn [computed fst]. apply dget_dset_other. apply (A (k', v)). left; auto.
Qed.
Lemma update_steady s d : (forall kv, In kv d -> ~ reserved (fst kv)) -> steady s -> steady (update s d).
Proof.
  intros A [G P]. split.
  - intros k g I. rewrite update_getters_get; auto. intros kv Ikv Q. apply (A kv Ikv). left. rewrite Q. apply in_map_iff. exists (k, g). auto.
  - intros M. specialize (P M). unfold has in *. rewrite update_getters_get; auto. intros kv Ikv Q. apply (A kv Ikv). right. auto.
Qed.
Lemma clear_steady s : steady s -> steady (clear s).
Proof. auto. Qed.
Lemma store_getters k (s : status) v : getters (fst (store k s v)) = getters s.
Proof. destruct v; reflexivity. Qed.
Lemma plain_getters k a (s : status) : getters (fst (read_plain mean k a s)) = getters s.
Proof. unfold read_plain. destruct (dget k (computed s)); auto. destruct (dget k (getters s)); auto. apply store_getters. Qed.
Lemma read_getters k a (s : status) : getters (fst (read mean k a s)) = getters s.
Proof.
  unfold read. destruct (dget k (computed s)); auto. destruct (dget k (getters s)) as [g|]; auto.
  destruct g as [i r| |f]; try apply store_getters. destruct r; try apply store_getters.
  unfold get_pop_best_eval. destruct (find _ _) as [k'|]; [|apply store_getters].
  pose proof (plain_getters k' a s) as G. destruct (read_plain mean k' a s) as [s' v]. rewrite store_getters. auto.
Qed.
Lemma steady_ext s s' : getters s' = getters s -> steady s -> steady s'.
Proof. unfold steady. intros ->. auto. Qed.

(* the key under which pop_best_eval looks *)
Lemma pop_best_key s k i : steady s -> In PopBest order -> ~ In "pop_best"%string (excluded e) -> In (k, Rep i PopBestEval) regs ->
  exists kp, In (kp, Rep i PopBest) regs /\ find (fun k => has k (getters s)) ["pop_best"%string; obj_key i PopBest] = Some kp.
Proof.
  intros [G P] O X I. apply in_regs in I. destruct I as (i' & r & Q & _ & _ & M). injection Q as <- <-.
  destruct (single_objective obj_index n) as [j|] eqn:E.
  - destruct M as [-> _]. assert (In ("pop_best"%string, @Rep V j PopBest) regs) as I1.
    { apply in_regs. rewrite E. exists j, PopBest. auto. }
    exists "pop_best"%string. split; auto. cbn [find]. unfold has. rewrite (G _ _ I1). reflexivity.
  - destruct M as [L _]. assert (In (obj_key i PopBest, @Rep V i PopBest) regs) as I1.
    { apply in_regs. rewrite E. exists i, PopBest. auto. }
    exists (obj_key i PopBest). split; auto. cbn [find]. rewrite (P eq_refl). unfold has. rewrite (G _ _ I1). reflexivity.
Qed.
Lemma key_unique k i r i' r' : In (k, @Rep V i r) regs -> In (k, @Rep V i' r') regs -> i = i' /\ r = r'.
Proof.
  intros A B. apply in_regs in A, B. destruct A as (a & b & Q & _ & _ & A), B as (c & d & Q' & _ & _ & B).
  injection Q as -> ->. injection Q' as -> ->. destruct (single_objective obj_index n).
  - destruct A as [-> ->], B as [-> Q]. apply name_inj in Q. auto.
  - destruct A as [_ ->], B as [_ Q]. apply obj_key_inj in Q. destruct Q. auto.
Qed.
Lemma cached_store a s k v : cached a s ->
  (forall i r, In (k, Rep i r) regs -> match v with Ok v => expected i r a v | Err _ => True end) -> cached a (fst (store k s v)).
Proof.
  intros C X. destruct v as [v|]; cbn [store fst]; auto. intros k' i r w I D. cbn [computed] in D. rewrite dget_dset_eq in D.
  destruct (String.eqb_spec k k') as [Q|_]; [|eapply C; eauto]. injection D as <-. subst k'. apply (X i r I).
Qed.
Lemma plain_value a s k i r : steady s -> cached a s -> In (k, Rep i r) regs -> r <> PopBestEval ->
  match snd (read_plain mean k a s) with Ok v => expected i r a v | Err x => call_plain mean (Rep i r) a = Err x end /\
  cached a (fst (read_plain mean k a s)).
Proof.
  intros [G P] C I R. unfold read_plain. destruct (dget k (computed s)) as [v|] eqn:D; cbn [fst snd].
  - split; auto. eapply C; eauto.
  - rewrite (G _ _ I). assert (match call_plain mean (Rep i r) a with Ok v => expected i r a v | Err x => True end) as V1.
    { destruct r; cbn [call_plain expected]; try congruence;
        [destruct (get_pop_best i a) | destruct (get_mean_eval mean i a) | destruct (get_median_eval i a)]; auto. }
    split.
    + unfold store; cbn [snd]. destruct (call_plain mean (Rep i r) a); auto.
    + apply cached_store; auto. intros i' r' I'. destruct (key_unique _ _ _ _ _ I I') as [<- <-]. auto.
Qed.
Lemma read_value a s k i r : steady s -> cached a s -> In PopBest order -> ~ In "pop_best"%string (excluded e) -> In (k, Rep i r) regs ->
  (forall v, expected i r a v -> snd (read mean k a s) = Ok v) /\ cached a (fst (read mean k a s)).
Proof.
  intros S C O X I. pose proof S as [G P].
  assert (forall v w, expected i r a v -> expected i r a w -> v = w) as U.
  { destruct r; cbn [expected]; intros v w A B; try congruence. destruct A as (p & A1 & A2), B as (q & B1 & B2). congruence. }
  destruct r; try (assert (read mean k a s = read_plain mean k a s) as ->
      by (unfold read, read_plain; rewrite (G _ _ I); reflexivity);
    destruct (plain_value a s k i _ S C I) as [A B]; [discriminate|]; split; [|exact B]; intros v Xv;
    destruct (snd (read_plain mean k a s)); [f_equal; eauto | cbn [call_plain expected] in *; congruence]).
  unfold read. destruct (dget k (computed s)) as [v|] eqn:D; cbn [fst snd].
  - split; auto. intros w W. f_equal. eapply U; eauto.
  - rewrite (G _ _ I). unfold get_pop_best_eval. destruct (pop_best_key s k i S O X I) as (kp & Ip & ->).
    destruct (plain_value a s kp i PopBest S C Ip) as [A B]; [discriminate|].
    destruct (read_plain mean kp a s) as [s' p]. cbn [fst snd] in *. unfold store at 1; cbn [snd]. split.
    + intros w (q & W1 & W2). destruct p as [p|]; cbn [expected call_plain bind] in *; congruence.
    + apply cached_store; auto. intros i' r' I'. destruct (key_unique _ _ _ _ _ I I') as [<- <-].
      destruct p as [p|]; cbn [bind]; auto. destruct (best_eval i p) eqn:BE; auto. cbn [expected] in *. eauto.
Qed.
Lemma read_cached a s k : steady s -> cached a s -> In PopBest order -> ~ In "pop_best"%string (excluded e) -> cached a (fst (read mean k a s)).
Proof.
  intros S C O X. destruct (in_dec string_dec k (map fst regs)) as [I|N].
  - apply in_map_iff in I. destruct I as ((k', g) & Q & I). cbn in Q. subst k'. pose proof I as I0. apply in_regs in I0.
    destruct I0 as (i & r & -> & _). apply (read_value a s k i r); auto.
  - assert (forall s v, cached a s -> cached a (fst (store k s v))) as K.
    { intros s1 v C1. apply cached_store; auto. intros i r I. exfalso. apply N. apply in_map_iff. exists (k, Rep i r). auto. }
    unfold read. destruct (dget k (computed s)); auto. destruct (dget k (getters s)) as [g|]; auto.
    destruct g as [j r| |f]; auto. destruct r; auto. unfold get_pop_best_eval. destruct (find _ _) as [kp|] eqn:F; auto.
    assert (cached a (fst (read_plain mean kp a s))) as C'.
    { destruct (in_dec string_dec kp (map fst regs)) as [Ip|Np].
      - apply in_map_iff in Ip. destruct Ip as ((k', g) & Q & I). cbn in Q. subst k'. pose proof I as I0. apply in_regs in I0.
        destruct I0 as (i & r & -> & _). destruct r; try (apply (plain_value a s kp i _ S C I); discriminate).
        unfold read_plain. destruct (dget kp (computed s)); auto. destruct S as [G _]. rewrite (G _ _ I). cbn [call_plain store fst]. auto.
      - unfold read_plain. destruct (dget kp (computed s)); auto. destruct (dget kp (getters s)); auto.
        apply cached_store; auto. intros i r I. exfalso. apply Np. apply in_map_iff. exists (kp, Rep i r). auto. }
    destruct (read_plain mean kp a s) as [s' v]. auto.
Qed.

Definition op_ok (o : op V) : Prop := match o with Step _ d => forall kv, In kv d -> ~ reserved (fst kv) | Read _ => True end.
Lemma run_steady os : Forall op_ok os -> forall x, steady (snd x) -> steady (snd (run_ops mean x os)).
Proof.
  induction 1 as [|o os O _ IH]; intros x S; cbn [run_ops fold_left]; auto. apply IH. destruct o as [a d|k]; cbn [run_op snd].
  - apply update_steady; auto.
  - eapply steady_ext; [apply read_getters|auto].
Qed.
Lemma reads_cached ks a : In PopBest order -> ~ In "pop_best"%string (excluded e) -> forall s, steady s -> cached a s ->
  fst (run_ops mean (a, s) (map Read ks)) = a /\ steady (snd (run_ops mean (a, s) (map Read ks))) /\ cached a (snd (run_ops mean (a, s) (map Read ks))).
Proof.
  intros O X. induction ks as [|k ks IH]; intros s S C; cbn [map run_ops fold_left]; auto. cbn [run_op fst snd]. apply IH.
  - eapply steady_ext; [apply read_getters|auto].
  - apply read_cached; auto.
Qed.
Lemma init_steady s : has "pop_best" (getters s) = false -> steady (mixin_init true order e obj_index n s).
Proof.
  intros H. split; [intros; apply init_get; auto|]. intros M. unfold has in *. cbn [mixin_init getters].
  rewrite dget_dupdate_out; auto. rewrite in_map_iff. intros ((k & g) & Q & I). cbn in Q. subst k. apply in_regs in I. rewrite M in I.
  destruct I as (i & r & _ & _ & _ & _ & Q). apply (obj_key_not_name i r PopBest). auto.
Qed.
(* after a step, and any reads, every report is what the population gives *)
Lemma reports_expected s os a d ks k i r v : has "pop_best" (getters s) = false -> In PopBest order -> ~ In "pop_best"%string (excluded e) ->
  Forall op_ok os -> op_ok (Step a d) -> In (k, Rep i r) regs -> expected i r a v -> forall a0,
  let x := run_ops mean (a0, mixin_init true order e obj_index n s) (os ++ Step a d :: map Read ks) in
  snd (read mean k (fst x) (snd x)) = Ok v.
Proof.
  intros H O X OS OK I EX a0. unfold run_ops. rewrite fold_left_app. cbn [fold_left].
  pose proof (run_steady os OS (a0, mixin_init true order e obj_index n s) (init_steady s H)) as S. unfold run_ops in S.
  set (x1 := fold_left (run_op mean) os _) in *. cbn [run_op].
  assert (steady (update (clear (snd x1)) d)) as S1 by (apply update_steady; auto).
  assert (cached a (update (clear (snd x1)) d)) as C1.
  { intros k' i' r' w I' D. rewrite update_computed_get in D; [discriminate|].
    intros kv Ikv Q. apply (OK kv Ikv). left. rewrite Q. apply in_map_iff. eexists; split; [|exact I']. auto. }
  destruct (reads_cached ks a O X _ S1 C1) as (Q & S2 & C2). unfold run_ops in *. cbn. rewrite Q.
  apply (read_value a _ k i r S2 C2 O X I). auto.
Qed.
End Keys.

(* ---------------------------------------------------------------- the median *)
Lemma filter_all {A} (f : A -> bool) l : Forall (fun x => f x = true) l -> filter f l = l.
Proof. induction 1 as [|x l H _ IH]; cbn; auto. rewrite H, IH. auto. Qed.
Lemma count_perm {A} (f : A -> bool) l l' : Permutation l l' -> count f l = count f l'.
Proof. unfold count. induction 1; cbn; try destruct (f x); try destruct (f y); cbn; congruence. Qed.
Lemma count_app {A} (f : A -> bool) l l' : count f (l ++ l') = count f l + count f l'.
Proof. unfold count. rewrite filter_app, app_length. auto. Qed.
Lemma median_ok c : c <> [] -> Forall (fun x => is_nan x = false) c -> lower_median (median c) c.
Proof.
  intros N F. unfold median. assert (existsb is_nan c = false) as ->.
  { rewrite <- not_true_iff_false, existsb_exists. intros (x & I & Q). rewrite Forall_forall in F. rewrite (F x I) in Q. discriminate. }
  assert (length c <> 0) as L by (destruct c; cbn; congruence). set (k := (length c - 1) / 2).
  assert (k < length c) as Lk by (subst k; apply Nat.div_lt_upper_bound; lia).
  pose proof (isort_perm tle c) as P. pose proof (isort_sorted tle tle_total tle_trans c) as SS.
  destruct (nth_error (isort tle c) k) as [v|] eqn:E; [|apply nth_error_None in E; rewrite isort_length in E; lia].
  rewrite (nth_error_nth _ _ NaN E). apply nth_error_split in E. destruct E as (l1 & l2 & E & L1). rewrite E in P, SS.
  assert (length c = length l1 + S (length l2)) as LL by (rewrite (Permutation_length P), app_length; reflexivity).
  assert (forall x, In x (l1 ++ v :: l2) -> is_nan x = false) as NN.
  { intros x I. rewrite Forall_forall in F. apply F. eapply Permutation_in; [symmetry; exact P|auto]. }
  assert (Forall (fun x => tle x v = true) l1 /\ Forall (fun x => tle v x = true) l2) as [A B].
  { clear -SS. induction l1 as [|y l1 IH]; cbn in SS; inversion SS as [|? ? S1 F1]; subst.
    - split; auto.
    - destruct (IH S1) as [A B]. split; auto. constructor; auto. rewrite Forall_app in F1. destruct F1 as [_ F2]. inversion F2; auto. }
  assert (is_nan v = false) as Nv by (apply NN; apply in_app_iff; cbn; auto).
  assert (2 * k <= length c - 1 <= 2 * k + 1) as D.
  { unfold k. pose proof (Nat.div_mod (length c - 1) 2 ltac:(lia)) as DM. pose proof (Nat.mod_upper_bound (length c - 1) 2 ltac:(lia)). lia. }
  split; [|split].
  - eapply Permutation_in; [symmetry; exact P|]. apply in_app_iff. cbn. auto.
  - rewrite (count_perm _ _ _ P), count_app. unfold count at 1. rewrite filter_all.
    + unfold count. cbn [filter]. rewrite flt_irrefl. cbn [negb length]. rewrite LL in D |- *. lia.
    + apply Forall_forall. intros x Ix. rewrite Forall_forall in A. rewrite <- tle_flt; auto. apply NN, in_app_iff. auto.
  - rewrite (count_perm _ _ _ P), count_app. unfold count at 2. cbn [filter]. rewrite flt_irrefl. cbn [negb]. rewrite filter_all.
    + cbn [length]. rewrite LL in D |- *. lia.
    + apply Forall_forall. intros x Ix. rewrite Forall_forall in B. rewrite <- tle_flt; auto. apply NN, in_app_iff. cbn; auto.
Qed.

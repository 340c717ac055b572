From Verif Require Import Prelude FloatLib BatchModel BatchSpec SortLib CMemProofs.
From Coq Require Import Sorted.
Open Scope nat_scope.

Lemma flt_lt a b : flt a b = true <-> lt_fl a b.
Proof.
  split.
  - destruct a, b; cbn; try discriminate; intros H; constructor. lia.
  - destruct 1; cbn; auto. lia.
Qed.
Lemma flt_nlt a b : flt a b = false <-> ~ lt_fl a b.
Proof. rewrite <- flt_lt. destruct (flt a b); split; congruence. Qed.
Lemma fib_better d a b : first_is_better d a b = true <-> better d a b.
Proof. destruct d; cbn; apply flt_lt. Qed.
Lemma fiw_better d a b : first_is_worse d a b = true <-> better (negb d) a b.
Proof. destruct d; cbn; apply flt_lt. Qed.

(* ------------------------------------------------------------------------ indices *)
Lemma normalize_row_ok n i :
  normalize_row_index n i = match py_index n i with Some k => Ok (Z.of_nat k) | None => Err IndexError end.
Proof.
  unfold normalize_row_index, py_index.
  destruct (Z.ltb_spec i 0); destruct (Z.leb_spec (- Z.of_nat n) i); destruct (Z.ltb_spec i (Z.of_nat n)); cbn [andb];
  match goal with |- context [if ?c then _ else _] => destruct c eqn:E end; try lia; try reflexivity; f_equal.
  - rewrite Z2Nat.id by (apply Z.mod_pos_bound; lia).
    apply (Z.mod_unique i (Z.of_nat n) (-1)); lia.
  - rewrite Z2Nat.id by (apply Z.mod_pos_bound; lia). symmetry. apply Z.mod_small. lia.
Qed.

Lemma problem_normalize_ok n i :
  problem_normalize_obj_index n (Some i) = match py_index n i with Some k => Ok (Z.of_nat k) | None => Err IndexError end.
Proof.
  rewrite <- normalize_row_ok. unfold problem_normalize_obj_index, normalize_row_index.
  set (i' := if (i <? 0)%Z then (Z.of_nat n + i)%Z else i).
  replace (Z.of_nat n - 1 <? i')%Z with (Z.of_nat n <=? i')%Z by lia. reflexivity.
Qed.

Lemma batch_normalize_ok n i : i <> Z.of_nat n ->
  normalize_obj_index n i = match py_index n i with Some k => Ok (Z.of_nat k) | None => Err IndexError end.
Proof.
  intros Hi. rewrite <- normalize_row_ok. unfold normalize_obj_index, normalize_row_index.
  destruct (Z.ltb_spec i 0).
  - replace (Z.of_nat n - 1 <? Z.of_nat n + i)%Z with (Z.of_nat n <? Z.of_nat n + i)%Z by lia. reflexivity.
  - replace (Z.of_nat n - 1 <? i)%Z with (Z.of_nat n <? i)%Z by lia. reflexivity.
Qed.
Lemma batch_normalize_off n : normalize_obj_index n (Z.of_nat n) = Ok (Z.of_nat n) /\ py_index n (Z.of_nat n) = None.
Proof.
  unfold normalize_obj_index, py_index. split.
  - destruct (Z.ltb_spec (Z.of_nat n) 0); [lia|]. rewrite Z.ltb_irrefl. replace (Z.of_nat n <? 0)%Z with false by lia. reflexivity.
  - rewrite Z.ltb_irrefl, andb_false_r. reflexivity.
Qed.

Section B.
Context {V : Type}.
Variable sorter : bool -> list fl -> list nat.
Hypothesis sorter_ok : argsort_ok sorter.
Implicit Type b : batch V.


Lemma rows_length b : wf b -> length (rows b) = b_len b.
Proof. intros [H _]. unfold rows, rows_of, b_len in *. rewrite combine_length. lia. Qed.
Lemma rows_ev b : wf b -> map snd (rows b) = b_ev b.
Proof.
  intros [H _]. unfold rows, rows_of, b_len in *. revert H. generalize (b_vals b). generalize (b_ev b).
  induction l as [|e l IH]; intros [|v vs]; cbn; intros; try lia; auto. f_equal. apply IH; lia.
Qed.

Lemma solution_ok b i : wf b -> i <> Z.of_nat (b_len b) ->
  match py_index (b_len b) i with
  | Some k => exists s v e, solution b i = Ok s /\ rows s = [(v, e)] /\ nth_error (rows b) k = Some (v, e)
  | None => solution b i = Err IndexError
  end.
Proof.
  intros Hwf Hi. unfold py_index, solution. set (n := b_len b) in *.
  destruct ((- Z.of_nat n <=? i) && (i <? Z.of_nat n))%Z eqn:E.
  - set (i' := if (i <? 0)%Z then (Z.of_nat n + i)%Z else i).
    assert (Hm : (i mod Z.of_nat n = i')%Z).
    { unfold i'. destruct (Z.ltb_spec i 0).
      - symmetry. apply (Z.mod_unique i (Z.of_nat n) (-1)); lia.
      - apply Z.mod_small. lia. }
    assert (Hr : (0 <= i' < Z.of_nat n)%Z) by (unfold i'; destruct (Z.ltb_spec i 0); lia).
    rewrite Hm. replace ((0 <=? i') && (i' <=? Z.of_nat n))%Z with true by lia.
    set (k := Z.to_nat i'). assert (Hk : k < n) by (unfold k; lia). clearbody k. clear - Hwf Hk.
    destruct (nth_error (b_vals b) k) as [v|] eqn:Ev.
    2:{ apply nth_error_None in Ev. unfold n, b_len in Hk. lia. }
    destruct (nth_error (b_ev b) k) as [e|] eqn:Ee.
    2:{ apply nth_error_None in Ee. destruct Hwf as [Hl _]. rewrite Hl in Ee. fold n in Ee. lia. }
    assert (F : forall A (l : list A) x, nth_error l k = Some x -> firstn 1 (skipn k l) = [x]).
    { clear. intros A l. revert k. induction l as [|y l IH]; intros [|k] x; cbn; try discriminate; intros H.
      - congruence. - apply IH in H. exact H. }
    eexists _, v, e. split; [reflexivity|]. unfold rows. cbn [b_vals b_ev].
    rewrite (F _ _ _ Ev), (F _ _ _ Ee). split; [reflexivity|].
    unfold rows_of. rewrite combine_nth_error, Ev, Ee. reflexivity.
  - match goal with |- context [if ?c then _ else _] => destruct c eqn:E2 end; [|reflexivity].
    exfalso. clear - E E2 Hi. destruct (Z.ltb_spec i 0); lia.
Qed.

Lemma solution_off b : exists s, solution b (Z.of_nat (b_len b)) = Ok s /\ rows s = [] /\ py_index (b_len b) (Z.of_nat (b_len b)) = None.
Proof.
  unfold solution. destruct (Z.ltb_spec (Z.of_nat (b_len b)) 0); [lia|].
  replace ((0 <=? Z.of_nat (b_len b)) && (Z.of_nat (b_len b) <=? Z.of_nat (b_len b)))%Z with true by lia.
  eexists. split; [reflexivity|]. split.
  - unfold rows. cbn [b_vals]. rewrite Nat2Z.id. unfold b_len. rewrite skipn_all. reflexivity.
  - apply batch_normalize_off.
Qed.

(* ---------------------------------------------------------------- objective access *)
Lemma obj_index_ok b j d : nth_error (b_desc b) j = Some d ->
  optionally_get_obj_index (num_objs b) (Some (Z.of_nat j)) = Ok (Z.of_nat j) /\ descending b (Z.of_nat j) = Ok d /\
  column b (Z.of_nat j) = Ok (map (fun r => nth j r NaN) (b_ev b)) /\
  access_evals b (Z.of_nat j) = Ok (map (fun r => nth j r NaN) (b_ev b)).
Proof.
  intros H. assert (Hj : j < num_objs b) by (apply nth_error_Some; unfold num_objs; rewrite H; discriminate).
  assert (E1 : normalize_obj_index (num_objs b) (Z.of_nat j) = Ok (Z.of_nat j)).
  { unfold normalize_obj_index. destruct (Z.ltb_spec (Z.of_nat j) 0); [lia|].
    match goal with |- context [if ?c then _ else _] => replace c with false by lia end. reflexivity. }
  assert (E2 : column b (Z.of_nat j) = Ok (map (fun r => nth j r NaN) (b_ev b))).
  { unfold column. unfold eval_width. replace ((0 <=? Z.of_nat j) && (Z.of_nat j <? Z.of_nat (num_objs b + b_ndata b)))%Z with true by lia.
    rewrite Nat2Z.id. reflexivity. }
  split; [exact E1|]. split; [unfold descending; rewrite Nat2Z.id, H; reflexivity|]. split; [exact E2|].
  unfold access_evals. rewrite E1. exact E2.
Qed.

(* ---------------------------------------------------------------- argext *)
Lemma argext_from_spec d c : forall best bv i,
  is_nan bv = false -> Forall (fun x => is_nan x = false) c ->
  let r := argext_from d best bv i c in
  (r = best /\ Forall (fun x => ~ better d x bv) c) \/
  (exists pre v post, c = pre ++ v :: post /\ r = i + length pre /\ better d v bv /\
     Forall (fun x => better d v x) pre /\ Forall (fun x => ~ better d x v) post).
Proof.
  assert (TR : forall x y z, is_nan y = false -> is_nan z = false -> better d x y -> ~ better d z y -> better d x z).
  { intros x y z. unfold better. destruct d; rewrite <- !flt_lt; intros Hy Hz Hxy Hzy;
    destruct x, y, z; cbn in *; try discriminate; auto; try congruence; lia. }
  induction c as [|x c IH]; intros best bv i Hbv HF; cbn [argext_from].
  - left. split; auto.
  - inversion HF as [|? ? Hx HF']; subst.
    assert (HB : beats d x bv = true <-> better d x bv).
    { unfold beats. rewrite Hx. cbn. unfold better. destruct d; apply flt_lt. }
    destruct (beats d x bv) eqn:E.
    + assert (Hb : better d x bv) by (apply HB; reflexivity). clear HB.
      right. destruct (IH i x (S i) Hx HF') as [[Hr Hn]|(pre & v & post & Hc & Hr & Hv & Hpre & Hpost)].
      * exists [], x, c. cbn. split; [auto|]. split; [rewrite Hr; lia|]. split; auto.
      * exists (x :: pre), v, post. cbn. subst c. split; [auto|]. split; [cbn in Hr; rewrite Hr; lia|].
        split.
        { revert Hv Hb. unfold better. destruct d; rewrite <- !flt_lt; intros; eapply flt_trans; eauto. }
        split; [constructor; auto|auto].
    + assert (Hb : ~ better d x bv) by (intros C; apply HB in C; congruence). clear HB.
      destruct (IH best bv (S i) Hbv HF') as [[Hr Hn]|(pre & v & post & Hc & Hr & Hv & Hpre & Hpost)].
      * left. split; auto.
      * right. exists (x :: pre), v, post. cbn. subst c. split; [auto|]. split; [cbn in Hr; rewrite Hr; lia|].
        split; auto. split; [|auto]. constructor; auto. apply (TR v bv x); auto.
Qed.

Lemma argext_spec d c : c <> [] -> Forall (fun x => is_nan x = false) c ->
  exists i pre v post, argext d c = Ok i /\ c = pre ++ v :: post /\ i = length pre /\
    Forall (fun x => better d v x) pre /\ Forall (fun x => ~ better d x v) post.
Proof.
  destruct c as [|x c]; [congruence|]. intros _ HF. inversion HF as [|? ? Hx HF']; subst. cbn [argext].
  destruct (argext_from_spec d c 0 x 1 Hx HF') as [[Hr Hn]|(pre & v & post & Hc & Hr & Hv & Hpre & Hpost)].
  - exists 0, [], x, c. rewrite Hr. repeat split; auto.
  - exists (S (length pre)), (x :: pre), v, post. rewrite Hr. subst c. repeat split; auto.
Qed.

Lemma better_irrefl d v : ~ better d v v.
Proof. unfold better. destruct d; rewrite <- flt_lt, flt_irrefl; discriminate. Qed.
Lemma better_asym d v w : better d v w -> ~ better d w v.
Proof. unfold better. destruct d; rewrite <- !flt_lt; intros H; apply flt_asym in H; congruence. Qed.
Lemma better_trans d u v w : better d u v -> better d v w -> better d u w.
Proof. unfold better. destruct d; rewrite <- !flt_lt; intros; eapply flt_trans; eauto. Qed.
(* negative transitivity *)
Lemma better_ntrans d u v w : is_nan v = false -> ~ better d u v -> ~ better d v w -> ~ better d u w.
Proof.
  unfold better. destruct d; rewrite <- !flt_lt; intros Hv H1 H2 H3.
  - destruct u, v, w; cbn in *; try discriminate; try congruence; lia.
  - destruct u, v, w; cbn in *; try discriminate; try congruence; lia.
Qed.

Lemma col_nth b j i r : nth_error (b_ev b) i = Some r -> nth i (map (fun r => nth j r NaN) (b_ev b)) NaN = nth j r NaN.
Proof.
  intros H. apply nth_error_nth. rewrite nth_error_map, H. reflexivity.
Qed.

Lemma argbest_ok b j d : wf b -> b_len b <> 0 -> nth_error (b_desc b) j = Some d -> no_nan_col b j ->
  exists i r, argbest b (Some (Z.of_nat j)) = Ok i /\ nth_error (rows b) i = Some r /\
    Forall (fun x => ~ better d (score j x) (score j r)) (rows b) /\
    (exists pre post, rows b = pre ++ r :: post /\ length pre = i /\
       Forall (fun x => better d (score j r) (score j x)) pre /\
       Forall (fun x => ~ better d (score j x) (score j r)) post).
Proof.
  intros Hwf Hn Hd HN. destruct (obj_index_ok b j d Hd) as (E1 & E2 & E3 & _).
  unfold argbest. rewrite E1. cbn [bind]. rewrite E2. cbn [bind]. rewrite E3. cbn [bind].
  replace (if d then argext true (map (fun r : list fl => nth j r NaN) (b_ev b)) else argext false (map (fun r : list fl => nth j r NaN) (b_ev b)))
    with (argext d (map (fun r => nth j r NaN) (b_ev b))) by (destruct d; reflexivity).
  rewrite <- (rows_ev b Hwf), map_map. change (fun x : V * list fl => nth j (snd x) NaN) with (@score V j).
  assert (HF : Forall (fun x => is_nan x = false) (map (score j) (rows b))).
  { unfold no_nan_col in HN. rewrite <- (rows_ev b Hwf) in HN. rewrite Forall_map in *. exact HN. }
  destruct (argext_spec d (map (score j) (rows b))) as (i & pre & v & post & Hi & Hc & Hlen & Hpre & Hpost); auto.
  { intros C. apply map_eq_nil in C. pose proof (rows_length b Hwf) as L. rewrite C in L. cbn in L. lia. }
  apply map_eq_app in Hc. destruct Hc as (rp & rq & Hrows & Hrp & Hrq).
  destruct rq as [|r rq]; [discriminate|]. cbn in Hrq. injection Hrq as Hv Hq. subst v pre post.
  rewrite map_length in Hlen. rewrite Forall_map in Hpre, Hpost.
  exists i, r. split; [exact Hi|]. split.
  { rewrite Hrows, nth_error_app2 by lia. replace (i - length rp) with 0 by lia. reflexivity. }
  split.
  - rewrite Hrows. apply Forall_app. split.
    + eapply Forall_impl; [|exact Hpre]. intros x. apply better_asym.
    + constructor; auto. apply better_irrefl.
  - exists rp, rq. auto.
Qed.

Lemma argworst_is_argbest_flip b j : 
  argworst b j = argbest (mkBatch (b_vals b) (b_ev b) (map negb (b_desc b)) (b_ndata b)) j.
Proof.
  unfold argworst, argbest, optionally_get_obj_index, descending, column, eval_width, num_objs. cbn [b_desc b_ev b_ndata]. rewrite map_length.
  destruct j as [j|].
  - destruct (normalize_obj_index (length (b_desc b)) j) as [k|e]; cbn [bind]; auto.
    rewrite nth_error_map. destruct (nth_error (b_desc b) (Z.to_nat k)) as [[]|]; cbn [option_map bind negb]; reflexivity.
  - destruct (negb (length (b_desc b) =? 1)); cbn [bind]; auto.
    rewrite nth_error_map. destruct (nth_error (b_desc b) (Z.to_nat 0)) as [[]|]; cbn [option_map bind negb]; reflexivity.
Qed.

Lemma argworst_ok b j d : wf b -> b_len b <> 0 -> nth_error (b_desc b) j = Some d -> no_nan_col b j ->
  exists i r, argworst b (Some (Z.of_nat j)) = Ok i /\ nth_error (rows b) i = Some r /\
    Forall (fun x => ~ better d (score j r) (score j x)) (rows b) /\
    (exists pre post, rows b = pre ++ r :: post /\ length pre = i /\
       Forall (fun x => better (negb d) (score j r) (score j x)) pre /\
       Forall (fun x => ~ better (negb d) (score j x) (score j r)) post).
Proof.
  intros Hwf Hn Hd HN. rewrite argworst_is_argbest_flip.
  destruct (argbest_ok (mkBatch (b_vals b) (b_ev b) (map negb (b_desc b)) (b_ndata b)) j (negb d)) as (i & r & H1 & H2 & H3 & H4); auto.
  { destruct Hwf as [Ha Hb]. split; auto. unfold eval_width, num_objs in *. cbn. rewrite map_length. auto. }
  { cbn. rewrite nth_error_map, Hd. reflexivity. }
  exists i, r. split; [exact H1|]. split; [exact H2|]. split; [|exact H4].
  eapply Forall_impl; [|exact H3]. cbn. intros x Hx. destruct d; exact Hx.
Qed.

(* ---------------------------------------------------------------- argsort, take_best *)
Lemma nthopt b j i : at_ (map (fun r => nth j r NaN) (b_ev b)) i = nth j (nth i (b_ev b) []) NaN.
Proof.
  unfold at_. destruct (nth_error (b_ev b) i) as [r|] eqn:E.
  - rewrite (col_nth b j i r E). rewrite (nth_error_nth _ _ _ E). reflexivity.
  - apply nth_error_None in E. rewrite (nth_overflow (map _ _)) by (rewrite map_length; lia).
    rewrite (nth_overflow (b_ev b)) by lia. destruct j; reflexivity.
Qed.

Lemma argsort_spec b j d : wf b -> nth_error (b_desc b) j = Some d -> no_nan_col b j ->
  exists p, argsort sorter b (Some (Z.of_nat j)) = Ok p /\ Permutation p (seq 0 (b_len b)) /\
    forall k l x y rx ry, k < l -> nth_error p k = Some x -> nth_error p l = Some y ->
      nth_error (rows b) x = Some rx -> nth_error (rows b) y = Some ry -> ~ better d (score j ry) (score j rx).
Proof.
  intros Hwf Hd HN. destruct (obj_index_ok b j d Hd) as (E1 & E2 & E3 & _).
  unfold argsort. rewrite E1. cbn [bind]. rewrite E2. cbn [bind]. rewrite E3. cbn [bind].
  set (c := map (fun r => nth j r NaN) (b_ev b)). destruct (sorter_ok d c) as [HP HS].
  exists (sorter d c). split; [reflexivity|]. split.
  { unfold c in HP at 2. rewrite map_length in HP. destruct Hwf as [Hl _]. rewrite Hl in HP. exact HP. }
  intros k l x y rx ry Hkl Hx Hy Hrx Hry.
  pose proof (sorted_nth _ _ _ _ _ _ HS Hkl Hx Hy) as H. cbn in H.
  assert (G : forall z rz, nth_error (rows b) z = Some rz -> at_ c z = score j rz /\ is_nan (score j rz) = false).
  { intros z rz Hz. assert (Hz' : nth_error (b_ev b) z = Some (snd rz)).
    { rewrite <- (rows_ev b Hwf), nth_error_map, Hz. reflexivity. }
    split. - unfold c, at_. rewrite (col_nth b j z _ Hz'). reflexivity.
    - unfold no_nan_col in HN. rewrite Forall_forall in HN. apply (HN (snd rz)). eapply nth_error_In; eauto. }
  destruct (G x rx Hrx) as [Ex Nx]. destruct (G y ry Hry) as [Ey Ny]. rewrite Ex, Ey in H.
  unfold better. destruct d; rewrite tle_flt in H by auto; rewrite <- flt_lt; intros C; rewrite C in H; discriminate.
Qed.

Lemma gather_ok {A} (l : list A) idx : Forall (fun i => i < length l) idx ->
  exists r, gather l idx = Ok r /\ length r = length idx /\ forall k i, nth_error idx k = Some i -> nth_error r k = nth_error l i.
Proof.
  induction 1 as [|i idx Hi HF IH]; [exists []; split; [reflexivity|split; [reflexivity|]]; intros [|k] ?; discriminate|].
  destruct IH as (r & Hr & Hl & Hn). destruct (nth_error l i) as [x|] eqn:E.
  2:{ apply nth_error_None in E. lia. }
  exists (x :: r). unfold gather in *. cbn. rewrite E. rewrite Hr. split; [reflexivity|]. split; [cbn; lia|].
  intros [|k] z; cbn; intros Hz. - congruence. - apply Hn; auto.
Qed.

Lemma take_rows b idx : wf b -> Forall (fun i => i < b_len b) idx ->
  exists b', take b idx = Ok b' /\ wf b' /\ b_desc b' = b_desc b /\ length (rows b') = length idx /\
    forall k i, nth_error idx k = Some i -> nth_error (rows b') k = nth_error (rows b) i.
Proof.
  intros [Hl Hw] HF. destruct (gather_ok (b_vals b) idx) as (vs & Ev & Lv & Nv); auto.
  destruct (gather_ok (b_ev b) idx) as (es & Ee & Le & Ne); [rewrite Hl; auto|].
  unfold take. rewrite Ev. cbn [bind]. rewrite Ee. cbn [bind]. eexists. split; [reflexivity|].
  assert (W : wf (mkBatch vs es (b_desc b) (b_ndata b))).
  { split; cbn; [unfold b_len; cbn; lia|]. unfold eval_width, num_objs in *. cbn. apply Forall_forall. intros r Hr.
    apply In_nth_error in Hr. destruct Hr as (k & Hk). destruct (nth_error idx k) as [i|] eqn:Ei.
    - rewrite (Ne k i Ei) in Hk. rewrite Forall_forall in Hw. apply Hw. eapply nth_error_In; eauto.
    - apply nth_error_None in Ei. assert (k < length es) by (apply nth_error_Some; congruence). lia. }
  split; [exact W|]. split; [reflexivity|]. split; [rewrite rows_length by exact W; unfold b_len; cbn; lia|].
  intros k i Hk. unfold rows, rows_of. cbn. rewrite !combine_nth_error, (Nv k i Hk), (Ne k i Hk). reflexivity.
Qed.

Lemma take_perm (rs : list (V * list fl)) p : Permutation p (seq 0 (length rs)) ->
  exists l, length l = length p /\ (forall k i, nth_error p k = Some i -> nth_error l k = nth_error rs i) /\ Permutation l rs.
Proof.
  intros HP. destruct rs as [|r0 rs0] eqn:E.
  { apply Permutation_sym, Permutation_nil in HP. subst p. exists []. split; [auto|]. split; [|auto]. intros [|k] i; discriminate. }
  rewrite <- E in *. exists (map (fun i => nth i rs r0) p). split; [apply map_length|]. split.
  - intros k i Hk. rewrite nth_error_map, Hk. cbn. symmetry. apply nth_error_nth'.
    apply nth_error_In in Hk. apply (Permutation_in _ HP) in Hk. apply in_seq in Hk. lia.
  - transitivity (map (fun i => nth i rs r0) (seq 0 (length rs))); [apply Permutation_map; auto|].
    replace (map (fun i => nth i rs r0) (seq 0 (length rs))) with rs; [reflexivity|].
    apply nth_error_ext. intros k. rewrite nth_error_map. destruct (Nat.ltb_spec k (length rs)).
    + rewrite (nth_error_nth' (seq 0 (length rs)) 0) by (rewrite seq_length; auto). rewrite seq_nth by auto. cbn.
      apply nth_error_nth'; auto.
    + rewrite !(proj2 (nth_error_None _ _)); auto. rewrite seq_length; auto.
Qed.

Lemma take_best_ok b j d n : wf b -> nth_error (b_desc b) j = Some d -> no_nan_col b j ->
  exists b' rest, take_best sorter b n (Some (Z.of_nat j)) = Ok b' /\
    length (rows b') = Nat.min n (b_len b) /\ Permutation (rows b' ++ rest) (rows b) /\
    (forall x y, In x (rows b') -> In y rest -> ~ better d (score j y) (score j x)).
Proof.
  intros Hwf Hd HN. destruct (argsort_spec b j d Hwf Hd HN) as (p & Hp & HP & HO).
  unfold take_best. rewrite Hp. cbn [bind].
  assert (Hin : forall i, In i p -> i < b_len b).
  { intros i Hi. apply (Permutation_in _ HP) in Hi. apply in_seq in Hi. lia. }
  destruct (take_rows b (firstn n p) Hwf) as (b' & Hb' & Wb' & _ & Lb' & Nb').
  { apply Forall_forall. intros i Hi. apply Hin. rewrite <- (firstn_skipn n p). apply in_or_app; auto. }
  rewrite <- (rows_length b Hwf) in HP. destruct (take_perm (rows b) p HP) as (l & Ll & Nl & Pl).
  assert (Lp : length p = b_len b) by (apply Permutation_length in HP; rewrite seq_length in HP; rewrite HP; apply rows_length; auto).
  assert (Eb : rows b' = firstn n l).
  { apply nth_error_ext. intros k. destruct (nth_error (firstn n p) k) as [i|] eqn:Ei.
    - rewrite (Nb' k i Ei). assert (Hk : k < n) by (assert (k < length (firstn n p)) by (apply nth_error_Some; congruence); rewrite firstn_length in *; lia).
      rewrite <- (firstn_skipn n p) in Nl. specialize (Nl k i). rewrite nth_error_app1 in Nl by (apply nth_error_Some; congruence).
      specialize (Nl Ei). rewrite <- Nl. rewrite <- (firstn_skipn n l) at 1. rewrite nth_error_app1; auto.
      rewrite firstn_length. assert (k < length (firstn n p)) by (apply nth_error_Some; congruence). rewrite firstn_length in *. lia.
    - apply nth_error_None in Ei. rewrite !(proj2 (nth_error_None _ _)); auto.
      + rewrite firstn_length in *. lia.
      + rewrite Lb'. lia. }
  exists b', (skipn n l). split; [exact Hb'|]. split; [rewrite Lb', firstn_length; lia|]. split.
  - rewrite Eb, firstn_skipn. exact Pl.
  - intros x y Hx Hy. rewrite Eb in Hx. apply In_nth_error in Hx, Hy. destruct Hx as (k & Hk), Hy as (m & Hm).
    assert (Kn : k < n) by (assert (k < length (firstn n l)) by (apply nth_error_Some; congruence); rewrite firstn_length in *; lia).
    assert (Hk' : nth_error l k = Some x).
    { rewrite <- (firstn_skipn n l). rewrite nth_error_app1; auto. apply nth_error_Some; congruence. }
    assert (Hm' : nth_error l (n + m) = Some y).
    { destruct (Nat.le_gt_cases n (length l)) as [Hle|Hgt].
      - rewrite <- (firstn_skipn n l). rewrite nth_error_app2; rewrite firstn_length; [|lia].
        replace (n + m - Nat.min n (length l)) with m by lia. exact Hm.
      - rewrite skipn_all2 in Hm by lia. destruct m; discriminate. }
    destruct (nth_error p k) as [i|] eqn:Ei. 2:{ apply nth_error_None in Ei. assert (k < length l) by (apply nth_error_Some; congruence). lia. }
    destruct (nth_error p (n + m)) as [i'|] eqn:Ei'. 2:{ apply nth_error_None in Ei'. assert (n + m < length l) by (apply nth_error_Some; congruence). lia. }
    apply (HO k (n + m) i i'); auto; try lia.
    + rewrite <- (Nl k i Ei). auto. + rewrite <- (Nl _ _ Ei'). auto.
Qed.

(* a batch with a single objective: the index may be omitted *)
Lemma argsort_none b : num_objs b = 1 -> argsort sorter b None = argsort sorter b (Some 0%Z).
Proof. unfold argsort, optionally_get_obj_index. intros ->. reflexivity. Qed.
Lemma argbest_none b : num_objs b = 1 -> argbest b None = argbest b (Some 0%Z).
Proof. unfold argbest, optionally_get_obj_index. intros ->. reflexivity. Qed.
Lemma argworst_none b : num_objs b = 1 -> argworst b None = argworst b (Some 0%Z).
Proof. unfold argworst, optionally_get_obj_index. intros ->. reflexivity. Qed.
Lemma take_best_none b n : num_objs b = 1 -> take_best sorter b n None = take_best sorter b n (Some 0%Z).
Proof. unfold take_best. intros H. rewrite argsort_none; auto. Qed.
End B.

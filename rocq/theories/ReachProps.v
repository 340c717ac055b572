(* C219: Mutations can reach every solution within the bounds, from any state of a genetic search;
   simulated binary cross-over produces exactly the pairs of children centred like their parents. *)
From Coq Require Import QArith Reals Lra Permutation.
From Verif Require Import Prelude FloatLib SortLib BatchModel BatchSpec BatchProofs ParetoModel ParetoSpec ParetoProofs3 RankModel RankProofs OperModel OperSpec OperProofs OperProofs2 OperProofs3 OperProofs4 OperProps GaModel GaSpec GaProofs GaProofs2 MapModel BndModel BndProps.
Close Scope Q_scope.
Close Scope R_scope.
Open Scope nat_scope.

(* ------------------------------------------------------------------------------------ specification *)
(* the solutions are all of these numbers *)
Definition are_numbers (m : list (list R)) : list (list (option R)) := map (map Some) m.
(* every gene of the matrix is strictly below the upper bound of its variable, and not below the lower one *)
Definition below_upper (lb ub : list R) (m : list (list R)) : Prop :=
  forall k j x, gene m k j = Some x -> (nth j lb 0 <= x < nth j ub 0)%R.
(* children with the same centre as their parents, and whose difference is a non-negative multiple of that of the parents *)
Definition centred_like (p1 p2 c1 c2 : list (list R)) : Prop :=
  forall k j x y c d, gene p1 k j = Some x -> gene p2 k j = Some y -> gene c1 k j = Some c -> gene c2 k j = Some d ->
    (c + d = x + y)%R /\ exists t, (0 <= t /\ c - d = t * (x - y))%R.

(* ------------------------------------------------------------------------------------ matrices *)
Lemma row_choice {A} (P : nat -> A -> Prop) l : (forall j, j < l -> exists x, P j x) ->
  exists r, length r = l /\ forall j x, nth_error r j = Some x -> P j x.
Proof.
  induction l as [|l IH]; intros H.
  - exists []. split; auto. intros [|j]; discriminate.
  - destruct IH as (r & L & N); [intros; apply H; lia|]. destruct (H l) as [x Hx]; [lia|]. exists (r ++ [x]). rewrite app_length. cbn. split; [lia|].
    intros j y E. destruct (Nat.lt_ge_cases j l) as [Lt|Ge].
    + rewrite nth_error_app1 in E by lia. auto.
    + rewrite nth_error_app2 in E by lia. rewrite L in E. destruct (j - l) as [|q] eqn:Q; cbn in E; [|destruct q; discriminate].
      injection E as <-. replace j with l by lia. auto.
Qed.
Lemma matrix_choice {A} (P : nat -> nat -> A -> Prop) n l : (forall k j, k < n -> j < l -> exists x, P k j x) ->
  exists m, shaped n l m /\ forall k j x, gene m k j = Some x -> P k j x.
Proof.
  intros H. destruct (row_choice (fun k r => length r = l /\ forall j x, nth_error r j = Some x -> P k j x) n) as (m & L & N).
  { intros k Hk. apply row_choice. auto. }
  exists m. split; [split; auto|].
  - apply Forall_forall. intros r Hr. apply In_nth_error in Hr. destruct Hr as [k Hk]. apply (N k r Hk).
  - intros k j x. unfold gene. destruct (nth_error m k) as [r|] eqn:E; [|discriminate]. apply (N k r E).
Qed.
Lemma genes_ext {A} n l (a b : list (list A)) : shaped n l a -> shaped n l b ->
  (forall k j, k < n -> j < l -> gene a k j = gene b k j) -> a = b.
Proof.
  intros [La Fa] [Lb Fb] H. apply nth_error_ext. intros k.
  destruct (nth_error a k) as [r|] eqn:Er.
  - assert (Hk : k < n) by (rewrite <- La; apply nth_error_Some; congruence).
    destruct (nth_error b k) as [r'|] eqn:Er'; [|apply nth_error_None in Er'; lia]. f_equal.
    pose proof (proj1 (Forall_forall _ _) Fa r (nth_error_In _ _ Er)) as L1. pose proof (proj1 (Forall_forall _ _) Fb r' (nth_error_In _ _ Er')) as L2. cbn in L1, L2.
    apply nth_error_ext. intros j. destruct (Nat.lt_ge_cases j l) as [Lt|Ge].
    + specialize (H k j Hk Lt). unfold gene in H. rewrite Er, Er' in H. auto.
    + rewrite (proj2 (nth_error_None r j)), (proj2 (nth_error_None r' j)) by lia. auto.
  - apply nth_error_None in Er. symmetry. apply nth_error_None. lia.
Qed.
Lemma gene_in {A} (P : A -> Prop) n l (m : list (list A)) : shaped n l m -> (forall k j x, gene m k j = Some x -> P x) -> all_genes P m.
Proof.
  intros _ H. apply Forall_forall. intros r Hr. apply Forall_forall. intros x Hx. apply In_nth_error in Hr, Hx. destruct Hr as [k Hk], Hx as [j Hj].
  apply (H k j x). unfold gene. rewrite Hk. auto.
Qed.
Lemma gene_numbers m k j : gene (are_numbers m) k j = option_map Some (gene m k j).
Proof. unfold gene, are_numbers. rewrite nth_error_map. destruct (nth_error m k); cbn; auto. rewrite nth_error_map. auto. Qed.
Lemma numbers_shaped n l m : shaped n l m -> shaped n l (are_numbers m).
Proof. intros [L F]. split; [unfold are_numbers; rewrite map_length; auto|]. apply Forall_map. eapply Forall_impl; [|exact F]. intros r Hr. rewrite map_length. auto. Qed.

(* ------------------------------------------------------------------------------------ one gene *)
Local Open Scope R_scope.
Lemma pv_lt a a' b : 0 <= a < a' -> 0 < b -> pv a b < pv a' b.
Proof.
  intros [H0 H] Hb. unfold pv. destruct (Rlt_dec 0 a), (Rlt_dec 0 a'); try lra.
  - apply Rlt_Rpower_l; lra.
  - apply rpower_pos.
Qed.
Lemma pv_inv' a b : 0 <= a -> 0 < b -> pv (pv a (1 / b)) b = a.
Proof.
  intros Ha Hb. assert (0 < 1 / b) by (apply Rdiv_lt_0_compat; lra). rewrite <- (pv_inv a (1 / b)) at 2 by auto. f_equal. field. lra.
Qed.
Lemma div_between a b c : 0 < c -> 0 <= a <= b -> b <= c -> 0 <= a / c <= b / c /\ b / c <= 1.
Proof.
  intros Hc Ha Hb. assert (Hi : 0 < / c) by (apply Rinv_0_lt_compat; auto). unfold Rdiv. split; [split; nra|].
  apply Rmult_le_reg_r with c; auto. rewrite Rmult_assoc, Rinv_l by lra. lra.
Qed.
Lemma poly_reach lb ub eta x y : -1 < eta -> lb < ub -> lb <= x <= ub -> lb <= y < ub ->
  exists r, unit_draw r /\ poly_raw lb ub eta x r = Some y.
Proof.
  intros He Hlu Hx Hy. assert (He1 : 0 < eta + 1) by lra. set (e := eta + 1) in *. set (c := ub - lb). assert (Hc : 0 < c) by (unfold c; lra).
  assert (DD : (x - lb) / c + (ub - x) / c = 1) by (unfold c; field; lra).
  assert (SHAPE : forall r, poly_raw lb ub eta x r =
     option_map (fun dq => x + dq * c) (if Rlt_dec r 0.5 then option_map (fun d => d - 1) (tpow (2 * r + (1 - 2 * r) * pv (1 - (x - lb) / c) e) (1 / e))
       else option_map (fun d => 1 - d) (tpow (2 * (1 - r) + 2 * (r - 0.5) * pv (1 - (ub - x) / c) e) (1 / e)))).
  { intros r. unfold poly_raw. fold c. rewrite !fdiv_ok by auto. fold e.
    destruct (div_between (x - lb) (x - lb) c) as [_ A1]; [auto|lra|unfold c; lra|]. destruct (div_between (ub - x) (ub - x) c) as [_ A2]; [auto|lra|unfold c; lra|].
    rewrite (tpow_pv (1 - (x - lb) / c) e), (tpow_pv (1 - (ub - x) / c) e) by lra. destruct (Rlt_dec r 0.5); reflexivity. }
  assert (He2 : 0 < 1 / e) by (apply Rdiv_lt_0_compat; lra).
  destruct (Rlt_dec y x) as [Lt|Ge].
  - (* below *)
    set (a := 1 - (x - lb) / c). set (q := 1 - (x - y) / c).
    destruct (div_between (x - y) (x - lb) c) as [[B0 B1] B2]; [auto|lra|unfold c; lra|].
    assert (0 < (x - y) / c) by (apply Rdiv_lt_0_compat; lra).
    assert (A : 0 <= a <= q /\ q < 1) by (unfold a, q; lra).
    set (w := pv a e). set (v := pv q e).
    assert (W : 0 <= w <= v) by (split; [apply pv_nonneg|apply pv_mono; lra]).
    assert (V : v < 1) by (rewrite <- (pv_one e); apply pv_lt; lra).
    exists ((v - w) / (2 * (1 - w))).
    assert (E : (v - w) / (2 * (1 - w)) * (2 * (1 - w)) = v - w) by (field; lra). set (r := (v - w) / (2 * (1 - w))) in *.
    assert (R1 : 0 <= r) by (unfold r; apply Rmult_le_pos; [lra|left; apply Rinv_0_lt_compat; lra]).
    assert (R2 : r < 0.5) by (apply Rmult_lt_reg_r with (2 * (1 - w)); lra).
    split; [unfold unit_draw; lra|]. rewrite SHAPE. destruct (Rlt_dec r 0.5); [|lra]. fold a w.
    replace (2 * r + (1 - 2 * r) * w) with v by lra. rewrite tpow_pv by (auto; lra). unfold v. rewrite pv_inv by lra. cbn. f_equal.
    unfold q. field. lra.
  - destruct (Req_dec x y) as [<-|Ne].
    + exists 0.5. split; [unfold unit_draw; lra|]. rewrite SHAPE. destruct (Rlt_dec 0.5 0.5); [lra|].
      replace (2 * (1 - 0.5) + 2 * (0.5 - 0.5) * pv (1 - (ub - x) / c) e) with 1 by lra. rewrite tpow_pv by lra. rewrite pv_one. cbn. f_equal. lra.
    + (* above *)
      set (a := 1 - (ub - x) / c). set (q := 1 - (y - x) / c).
      destruct (div_between (y - x) (ub - x) c) as [[B0 B1] B2]; [auto|lra|unfold c; lra|].
      assert (0 < (y - x) / c) by (apply Rdiv_lt_0_compat; lra).
      assert (0 < (ub - y) / c) by (apply Rdiv_lt_0_compat; lra). assert (Eq : q - a = (ub - y) / c) by (unfold a, q; field; lra).
      assert (A : 0 <= a < q /\ q < 1) by (unfold a, q in *; lra).
      set (w := pv a e). set (v := pv q e).
      assert (W0 : 0 <= w) by apply pv_nonneg. assert (W : w < v) by (apply pv_lt; lra).
      assert (V : v < 1) by (rewrite <- (pv_one e); apply pv_lt; lra).
      exists ((2 - w - v) / (2 * (1 - w))).
      assert (E : (2 - w - v) / (2 * (1 - w)) * (2 * (1 - w)) = 2 - w - v) by (field; lra). set (r := (2 - w - v) / (2 * (1 - w))) in *.
      assert (R1 : 0.5 <= r) by (apply Rmult_le_reg_r with (2 * (1 - w)); lra).
      assert (R2 : r < 1) by (apply Rmult_lt_reg_r with (2 * (1 - w)); lra).
      split; [unfold unit_draw; lra|]. rewrite SHAPE. destruct (Rlt_dec r 0.5); [lra|]. fold a w.
      replace (2 * (1 - r) + 2 * (r - 0.5) * w) with v by lra. rewrite tpow_pv by (auto; lra). unfold v. rewrite pv_inv by lra. cbn. f_equal.
      unfold q. field. lra.
Qed.
Lemma poly_below lb ub eta x r : -1 < eta -> lb <= x < ub -> unit_draw r -> exists y, poly_raw lb ub eta x r = Some y /\ lb <= y < ub.
Proof.
  intros He Hx Hr. destruct (poly_ok lb ub eta x r He) as (y & E & I & Dn & _); [lra|lra|auto|]. exists y. split; auto. split; [lra|].
  destruct (Rlt_dec r 0.5) as [Lt|Ge]; [specialize (Dn Lt); lra|]. revert E. unfold poly_raw. rewrite !fdiv_ok by lra. set (c := ub - lb). assert (Hc : 0 < c) by (unfold c; lra).
  set (e := eta + 1). assert (He1 : 0 < e) by (unfold e; lra). assert (He2 : 0 < 1 / e) by (apply Rdiv_lt_0_compat; lra). destruct (Rlt_dec r 0.5) as [Lt|_]; [lra|].
  destruct (div_between (ub - x) (ub - x) c) as [[A0 _] A2]; [auto|lra|unfold c; lra|]. assert (P : 0 < (ub - x) / c) by (apply Rdiv_lt_0_compat; lra).
  rewrite (tpow_pv (1 - (ub - x) / c) e) by lra. set (a := 1 - (ub - x) / c) in *. set (w := pv a e).
  assert (W0 : 0 <= w) by apply pv_nonneg. assert (W1 : w < 1) by (apply Rlt_le_trans with (pv 1 e); [apply pv_lt; unfold a; lra|rewrite pv_one; lra]).
  destruct Hr as [Hr0 Hr1]. assert (V : w < 2 * (1 - r) + 2 * (r - 0.5) * w) by (assert (0 < (1 - r) * (1 - w)) by (apply Rmult_lt_0_compat; lra); lra). rewrite tpow_pv by (auto; lra).
  pose proof (pv_lt w _ (1 / e) (conj W0 V) He2) as Q. unfold w in Q at 1. rewrite pv_inv in Q by (unfold a; lra). cbn. intros X. injection X as <-.
  set (v := pv (2 * (1 - r) + 2 * (r - 0.5) * w) (1 / e)) in *. assert (H : (1 - v) * c < (ub - x) / c * c) by (apply Rmult_lt_compat_r; unfold a in Q; lra).
  replace ((ub - x) / c * c) with (ub - x) in H by (field; lra). fold c. lra.
Qed.
Lemma beta_reach eta t : -1 < eta -> 0 <= t -> exists u, unit_draw u /\ sbx_beta eta u = Some t.
Proof.
  intros He Ht. assert (He1 : 0 < eta + 1) by lra. assert (He2 : 0 < 1 / (eta + 1)) by (apply Rdiv_lt_0_compat; lra). unfold sbx_beta.
  destruct (Rle_dec t 1) as [L|G].
  - exists (pv t (eta + 1) / 2). assert (P : 0 <= pv t (eta + 1) <= 1) by (split; [apply pv_nonneg|apply Rle_trans with (pv 1 (eta + 1)); [apply pv_mono; lra|rewrite pv_one; lra]]).
    split; [unfold unit_draw; lra|]. destruct (Rlt_dec 0.5 (pv t (eta + 1) / 2)); [lra|].
    replace (2 * (pv t (eta + 1) / 2)) with (pv t (eta + 1)) by lra. rewrite tpow_pv by lra. rewrite pv_inv by lra. auto.
  - set (v := pv t (eta + 1)). assert (V : 1 < v) by (apply Rle_lt_trans with (pv 1 (eta + 1)); [rewrite pv_one; lra|apply pv_lt; lra]). exists (1 - 1 / (2 * v)).
    assert (I : 0 < 1 / (2 * v) < 0.5).
    { split; [apply Rdiv_lt_0_compat; lra|]. apply Rmult_lt_reg_r with (2 * v); [lra|]. unfold Rdiv. rewrite Rmult_assoc, Rinv_l by lra. lra. }
    split; [unfold unit_draw; lra|]. destruct (Rlt_dec 0.5 (1 - 1 / (2 * v))); [|lra].
    replace (1 / (2 * (1 - (1 - 1 / (2 * v))))) with v by (field; lra). rewrite tpow_pv by lra. unfold v. rewrite pv_inv by lra. auto.
Qed.
Local Close Scope R_scope.

(* ------------------------------------------------------------------------------------ C219 *)
(* Polynomial mutation: any solutions can be turned into any others within the bounds (the upper one excluded, which
   no draw below 1 gives). *)
Theorem C219_polynomial : forall prob eta lb ub rows targets n l,
  match eta with Some e => (-1 < e)%R | None => True end -> (forall p, prob = Some p -> (0 < p)%R) ->
  shaped n l rows -> shaped n l targets -> (forall j, j < l -> (nth j lb 0 < nth j ub 0)%R) ->
  (forall k j x, gene rows k j = Some x -> (nth j lb 0 <= x <= nth j ub 0)%R) -> below_upper lb ub targets ->
  exists us rs, shaped n l us /\ shaped n l rs /\ all_genes unit_draw us /\ all_genes unit_draw rs /\
    poly_mutation prob eta lb ub rows us rs = are_numbers targets.
Proof.
  intros prob eta lb ub rows targets n l He Hp SR ST HB HR HT. set (e := match eta with Some e => e | None => 20%R end).
  assert (He' : (-1 < e)%R) by (unfold e; destruct eta; [auto|lra]).
  destruct (matrix_choice (fun k j r => unit_draw r /\ forall x y, gene rows k j = Some x -> gene targets k j = Some y ->
     poly_raw (nth j lb 0%R) (nth j ub 0%R) e x r = Some y) n l) as (rs & SS & HS).
  { intros k j Hk Hj. destruct (gene_some l _ _ _ _ SR Hk Hj) as [x Ex]. destruct (gene_some l _ _ _ _ ST Hk Hj) as [y Ey].
    destruct (poly_reach (nth j lb 0%R) (nth j ub 0%R) e x y He' (HB j Hj) (HR k j x Ex) (HT k j y Ey)) as (r & U & E). exists r. split; auto.
    intros x' y' Ex' Ey'. rewrite Ex in Ex'. rewrite Ey in Ey'. injection Ex' as <-. injection Ey' as <-. auto. }
  destruct (matrix_choice (fun k j (u : R) => u = 0%R) n l) as (us & SU & HU); [eauto|].
  exists us, rs. split; [auto|]. split; [auto|]. split; [apply gene_in with n l; auto; intros k j u E; rewrite (HU k j u E); unfold unit_draw; lra|].
  split; [apply gene_in with n l; auto; intros k j r E; apply (HS k j r E)|].
  apply (genes_ext n l).
  - apply map3_shape; [intros; rewrite map_length, seq_length; auto|exact SR|apply SU|apply SS].
  - apply numbers_shaped; auto.
  - intros k j Hk Hj. rewrite gene_numbers. destruct (gene_some l _ _ _ _ SR Hk Hj) as [x Ex]. destruct (gene_some l _ _ _ _ ST Hk Hj) as [y Ey].
    destruct (gene_some l _ _ _ _ SU Hk Hj) as [u Eu]. destruct (gene_some l _ _ _ _ SS Hk Hj) as [r Er]. rewrite Ey. cbn [option_map].
    unfold poly_mutation. fold e.
    rewrite (gene_rowmap (fun j x u r => poly_gene prob (nth j lb 0%R) (nth j ub 0%R) e x u r) 0%R 0%R 0%R rows us rs n l k j x u r SR SU SS Ex Eu Er).
    f_equal. unfold poly_gene. destruct (HS k j r Er) as [_ Q]. rewrite (Q x y Ex Ey). rewrite (HU k j u Eu). specialize (HT k j y Ey).
    assert (M : respect (Some (nth j lb 0%R)) (Some (nth j ub 0%R)) (Some y) = Some y).
    { cbn. rewrite Rmax_right by lra. rewrite Rmin_right by lra. auto. }
    destruct prob as [p|]; auto. destruct (Rlt_dec 0 p) as [|N]; auto. exfalso. apply N, Hp; auto.
Qed.
(* Indeed, polynomial mutation never moves a variable to its upper bound. *)
Theorem C219_upper_bound : forall prob eta lb ub rows us rs n l k j x,
  match eta with Some e => (-1 < e)%R | None => True end ->
  shaped n l rows -> shaped n l us -> shaped n l rs -> all_genes unit_draw rs ->
  gene rows k j = Some x -> (nth j lb 0 <= x < nth j ub 0)%R ->
  exists y, gene (poly_mutation prob eta lb ub rows us rs) k j = Some (Some y) /\ (nth j lb 0 <= y < nth j ub 0)%R.
Proof.
  intros prob eta lb ub rows us rs n l k j x He SR SU SS AR Ex I. set (e := match eta with Some e => e | None => 20%R end).
  assert (He' : (-1 < e)%R) by (unfold e; destruct eta; [auto|lra]).
  assert (Hk : k < n /\ j < l).
  { destruct SR as [L1 L2]. unfold gene in Ex. destruct (nth_error rows k) as [r|] eqn:Er; [|discriminate]. split; [rewrite <- L1; apply nth_error_Some; congruence|].
    rewrite <- (proj1 (Forall_forall _ _) L2 r (nth_error_In _ _ Er)). apply nth_error_Some; congruence. }
  destruct Hk as [Hk Hj]. destruct (gene_some l _ _ _ _ SU Hk Hj) as [u Eu]. destruct (gene_some l _ _ _ _ SS Hk Hj) as [r Er].
  destruct (poly_below (nth j lb 0%R) (nth j ub 0%R) e x r He' I (gene_all _ _ _ _ _ AR Er)) as (y & E & Iy).
  unfold poly_mutation. fold e.
  rewrite (gene_rowmap (fun j x u r => poly_gene prob (nth j lb 0%R) (nth j ub 0%R) e x u r) 0%R 0%R 0%R rows us rs n l k j x u r SR SU SS Ex Eu Er).
  unfold poly_gene. rewrite E.
  assert (M : forall z, (nth j lb 0 <= z < nth j ub 0)%R -> respect (Some (nth j lb 0%R)) (Some (nth j ub 0%R)) (Some z) = Some z).
  { intros z Hz. cbn. rewrite Rmax_right by lra. rewrite Rmin_right by lra. auto. }
  destruct prob as [p|]; [destruct (Rlt_dec u p)|]; eexists; (split; [f_equal; apply M|]); auto.
Qed.
(* Gaussian mutation: any solutions can be turned into any others within the bounds. *)
Theorem C219_gaussian : forall lb ub stdev probability rows targets n l,
  (stdev <> 0)%R -> (forall p, probability = Some p -> (0 <= p)%R) ->
  shaped n l rows -> shaped n l targets -> consistent_bounds lb ub ->
  (forall k j x, gene targets k j = Some x -> inside (bound_at lb j) (bound_at ub j) x) ->
  exists us gs, shaped n l us /\ shaped n l gs /\ all_genes unit_draw us /\
    gaussian_mutation lb ub stdev probability rows us gs = are_numbers targets.
Proof.
  intros lb ub stdev pr rows targets n l Hs Hp SR ST HC HT.
  destruct (matrix_choice (fun k j g => forall x y, gene rows k j = Some x -> gene targets k j = Some y -> (x + stdev * g = y)%R) n l) as (gs & SG & HG).
  { intros k j Hk Hj. destruct (gene_some l _ _ _ _ SR Hk Hj) as [x Ex]. destruct (gene_some l _ _ _ _ ST Hk Hj) as [y Ey].
    exists ((y - x) / stdev)%R. intros x' y' Ex' Ey'. rewrite Ex in Ex'. rewrite Ey in Ey'. injection Ex' as <-. injection Ey' as <-. field. auto. }
  destruct (matrix_choice (fun k j (u : R) => u = 0%R) n l) as (us & SU & HU); [eauto|].
  assert (UD : all_genes unit_draw us) by (apply gene_in with n l; auto; intros k j u E; rewrite (HU k j u E); unfold unit_draw; lra).
  exists us, gs. split; [auto|]. split; [auto|]. split; [auto|]. apply (genes_ext n l).
  - apply map3_shape; [intros; rewrite map_length, seq_length; auto|exact SR|apply SU|apply SG].
  - apply numbers_shaped; auto.
  - intros k j Hk Hj. rewrite gene_numbers. destruct (gene_some l _ _ _ _ SR Hk Hj) as [x Ex]. destruct (gene_some l _ _ _ _ ST Hk Hj) as [y Ey].
    destruct (gene_some l _ _ _ _ SU Hk Hj) as [u Eu]. destruct (gene_some l _ _ _ _ SG Hk Hj) as [g Eg]. rewrite Ey. cbn [option_map].
    destruct (C89_gaussian_mutation lb ub stdev pr _ _ _ _ _ k j x u g SR SU SG HC Ex Eu Eg (gene_all _ _ _ _ _ UD Eu)) as (z & Ez & _ & _ & M).
    rewrite Ez. do 2 f_equal. rewrite <- (HG k j g Eg x y Ex Ey). apply M.
    + destruct pr as [p|]; [right; exists p; split; auto; rewrite (HU k j u Eu); apply Hp; auto|auto].
    + rewrite (HG k j g Eg x y Ex Ey). apply (HT k j y Ey).
Qed.
(* Simulated binary cross-over (before the bounds): with some draws the children are c1 and c2 if and only if
   they are centred like their parents. *)
Theorem C219_sbx : forall eta p1 p2 c1 c2 n l, (-1 < eta)%R -> shaped n l p1 -> shaped n l p2 -> shaped n l c1 -> shaped n l c2 ->
  ((exists us, shaped n l us /\ all_genes unit_draw us /\ sbx_raw eta p1 p2 us = are_numbers (c1 ++ c2)) <-> centred_like p1 p2 c1 c2).
Proof.
  intros eta p1 p2 c1 c2 n l He S1 S2 T1 T2.
  set (row := fun a b u => map3 (fun x y w => sbx_child (sbx_beta eta w) x y) a b u).
  assert (LEN : forall us, shaped n l us -> length (map3 row p1 p2 us) = n) by (intros us [Lu _]; destruct S1, S2; rewrite map3_length; lia).
  assert (G : forall us k j x y u t, shaped n l us -> k < n -> gene p1 k j = Some x -> gene p2 k j = Some y -> gene us k j = Some u -> sbx_beta eta u = Some t ->
    gene (sbx_raw eta p1 p2 us) k j = Some (Some (0.5 * ((1 + t) * x + (1 - t) * y))%R) /\
    gene (sbx_raw eta p1 p2 us) (n + k) j = Some (Some (0.5 * ((1 + t) * y + (1 - t) * x))%R)).
  { intros us k j x y u t SU Hk Ex Ey Eu Et. unfold sbx_raw. fold row. destruct (gene_app (map3 row p1 p2 us) (map3 row p2 p1 us) n k j (LEN us SU)) as [G2 G1].
    rewrite (G1 Hk), G2. unfold row. rewrite !gene_map3, Ex, Ey, Eu, Et. auto. }
  assert (GT : forall k j, k < n -> gene (are_numbers (c1 ++ c2)) k j = option_map Some (gene c1 k j) /\
     gene (are_numbers (c1 ++ c2)) (n + k) j = option_map Some (gene c2 k j)).
  { intros k j Hk. rewrite !gene_numbers. destruct (gene_app c1 c2 n k j (proj1 T1)) as [A B]. rewrite A, (B Hk). auto. }
  split.
  - intros (us & SU & AU & E) k j x y c d Ex Ey Ec Ed.
    assert (Hk : k < n). { unfold gene in Ex. destruct (nth_error p1 k) eqn:Q; [|discriminate]. rewrite <- (proj1 S1). apply nth_error_Some. congruence. }
    assert (Hj : j < l). { unfold gene in Ex. destruct (nth_error p1 k) as [r|] eqn:Q; [|discriminate]. rewrite <- (proj1 (Forall_forall _ _) (proj2 S1) r (nth_error_In _ _ Q)). apply nth_error_Some. congruence. }
    destruct (gene_some l _ _ _ _ SU Hk Hj) as [u Eu]. destruct (beta_ok eta u He (gene_all _ _ _ _ _ AU Eu)) as (t & Et & Ht & _).
    destruct (G us k j x y u t SU Hk Ex Ey Eu Et) as [G1 G2]. destruct (GT k j Hk) as [H1 H2]. rewrite E in G1, G2. rewrite H1, Ec in G1. rewrite H2, Ed in G2.
    cbn in G1, G2. injection G1 as ->. injection G2 as ->. split; [lra|]. exists t. split; [auto|lra].
  - intros C.
    destruct (matrix_choice (fun k j u => unit_draw u /\ forall x y c d, gene p1 k j = Some x -> gene p2 k j = Some y -> gene c1 k j = Some c -> gene c2 k j = Some d ->
        exists t, sbx_beta eta u = Some t /\ (c = 0.5 * ((1 + t) * x + (1 - t) * y))%R /\ (d = 0.5 * ((1 + t) * y + (1 - t) * x))%R) n l) as (us & SU & HU).
    { intros k j Hk Hj. destruct (gene_some l _ _ _ _ S1 Hk Hj) as [x Ex]. destruct (gene_some l _ _ _ _ S2 Hk Hj) as [y Ey].
      destruct (gene_some l _ _ _ _ T1 Hk Hj) as [c Ec]. destruct (gene_some l _ _ _ _ T2 Hk Hj) as [d Ed].
      destruct (C k j x y c d Ex Ey Ec Ed) as (Sm & t & Ht & Df). destruct (beta_reach eta t He Ht) as (u & U & Et). exists u. split; auto.
      intros x' y' c' d' Ex' Ey' Ec' Ed'. rewrite Ex in Ex'. rewrite Ey in Ey'. rewrite Ec in Ec'. rewrite Ed in Ed'.
      injection Ex' as <-. injection Ey' as <-. injection Ec' as <-. injection Ed' as <-. exists t. split; auto. split; lra. }
    exists us. split; [auto|]. split; [apply gene_in with n l; auto; intros k j u E; apply (HU k j u E)|].
    assert (AU : all_genes unit_draw us) by (apply gene_in with n l; auto; intros k j u E; apply (HU k j u E)).
    assert (SH : shaped (n + n) l (sbx_raw eta p1 p2 us)).
    { unfold sbx_raw. fold row. assert (Q : forall a b, shaped n l a -> shaped n l b -> shaped n l (map3 row a b us)).
      { intros a b [La Fa] [Lb Fb]. split; [rewrite map3_length; destruct SU; lia|]. apply Forall_forall. intros r Hr. apply In_nth_error in Hr. destruct Hr as [k Hk].
        rewrite map3_nth in Hk. destruct (nth_error a k) as [ra|] eqn:Ea; [|discriminate]. destruct (nth_error b k) as [rb|] eqn:Eb; [|discriminate].
        destruct (nth_error us k) as [ru|] eqn:Eu; [|discriminate]. injection Hk as <-. unfold row. rewrite map3_length.
        apply nth_error_In in Ea, Eb, Eu. pose proof (proj1 (Forall_forall _ _) Fa ra Ea) as Q1. pose proof (proj1 (Forall_forall _ _) Fb rb Eb) as Q2.
        pose proof (proj1 (Forall_forall _ _) (proj2 SU) ru Eu) as Q3. cbn in Q1, Q2, Q3. lia. }
      destruct (Q p1 p2 S1 S2) as [L1 F1]. destruct (Q p2 p1 S2 S1) as [L2 F2]. split; [rewrite app_length; lia|apply Forall_app; auto]. }
    apply (genes_ext (n + n) l); [exact SH| |].
    + apply numbers_shaped. destruct T1 as [L1 F1], T2 as [L2 F2]. split; [rewrite app_length; lia|apply Forall_app; auto].
    + intros k' j Hk' Hj. assert (K : exists k, k < n /\ (k' = k \/ k' = n + k)) by (destruct (Nat.lt_ge_cases k' n); [exists k'; lia|exists (k' - n); lia]).
      destruct K as (k & Hk & K).
      destruct (gene_some l _ _ _ _ S1 Hk Hj) as [x Ex]. destruct (gene_some l _ _ _ _ S2 Hk Hj) as [y Ey].
      destruct (gene_some l _ _ _ _ T1 Hk Hj) as [c Ec]. destruct (gene_some l _ _ _ _ T2 Hk Hj) as [d Ed]. destruct (gene_some l _ _ _ _ SU Hk Hj) as [u Eu].
      destruct (HU k j u Eu) as [_ Q]. destruct (Q x y c d Ex Ey Ec Ed) as (t & Et & Qc & Qd). destruct (G us k j x y u t SU Hk Ex Ey Eu Et) as [G1 G2].
      destruct (GT k j Hk) as [H1 H2]. destruct K as [-> | ->]; [rewrite G1, H1, Ec, Qc|rewrite G2, H2, Ed, Qd]; auto.
Qed.

(* ------------------------------------------------------------------------------------ a generation *)
Section Generation.
Context {V : Type}.
Variables (so : bool -> list fl -> list nat) (co : list (list fl) -> list nat) (qs : list Q -> list nat).
Variable ev : nat -> list V -> list (list fl).
Hypothesis Hs : argsort_ok so.
Hypothesis Hco : reordering co.
Hypothesis Hqs : qargsort_ok qs.
Lemma use_app ops op : forall k (b : batch V), use_operators k b (ops ++ [op]) = bind (use_operators k b ops) (fun b1 => use_operator (k + length ops) b1 op).
Proof.
  induction ops as [|o ops IH]; cbn; intros k b.
  - rewrite Nat.add_0_r. destruct (use_operator k b op); auto.
  - destruct (use_operator k b o) as [b1|]; cbn; auto. rewrite IH. rewrite Nat.add_succ_r. auto.
Qed.
(* the batch which the last operator of a generation is given does not depend on that operator *)
Lemma before_last (L : V -> Prop) cf ops (s : state V) : Forall legal ops -> Forall productive ops -> Forall (keeps L) ops -> wf (s_pop s) ->
  evaluates (eval_width (s_pop s)) ev -> Forall L (b_vals (s_pop s)) -> b_vals (s_pop s) <> [] ->
  exists k b1, wf b1 /\ b_vals b1 <> [] /\ Forall L (b_vals b1) /\
    forall op s1 p c, extended ev cf (ops ++ [op]) s = Ok (s1, p, c) -> exists ch, use_operator k b1 op = Ok ch /\ b_vals c = b_vals ch.
Proof.
  intros HL HP HK W HE F N.
  assert (U : forall k (pop : batch V), wf pop -> b_vals pop <> [] -> Forall L (b_vals pop) -> exists b1, use_operators k pop ops = Ok b1 /\ wf b1 /\ b_vals b1 <> [] /\ Forall L (b_vals b1)).
  { intros k pop Wp Np Fp. destruct (use_operators_total ops k pop HL HP Wp Np) as (b1 & E & N1). exists b1. split; auto.
    destruct (use_operators_kind ops k pop b1 HL Wp E) as (W1 & _). split; auto. split; auto. eapply ops_keep; [exact HK| |exact E]; auto. }
  assert (P : exists k0 pop, wf pop /\ b_vals pop <> [] /\ Forall L (b_vals pop) /\ forall op s1 p c, extended ev cf (ops ++ [op]) s = Ok (s1, p, c) ->
     exists ch, use_operators k0 pop (ops ++ [op]) = Ok ch /\ b_vals c = b_vals ch).
  { unfold extended. destruct (g_reeval cf); [destruct (g_first cf)|].
    - destruct (evaluate_total ev (s_clock s) (s_pop s) N) as [pop E]. destruct (evaluate_inv ev _ _ _ HE E) as (K & Vp & _).
      exists (s_clock s + 1), pop. split; [apply K|]. rewrite Vp. split; [auto|]. split; [auto|]. rewrite E. cbn [bind]. intros op s1 p c X.
      destruct (use_operators (s_clock s + 1) pop (ops ++ [op])) as [ch|]; [|discriminate]. cbn [bind] in X. destruct (evaluate ev _ ch) as [ch'|] eqn:Ec; [|discriminate].
      injection X as <- <- <-. exists ch. split; auto. eapply evaluate_vals; eauto.
    - exists (s_clock s), (s_pop s). split; [auto|]. split; [auto|]. split; [auto|]. intros op s1 p c X.
      destruct (use_operators (s_clock s) (s_pop s) (ops ++ [op])) as [ch|]; [|discriminate]. cbn [bind] in X. destruct (evaluate ev _ (cat _ ch)) as [w|] eqn:Ec; [|discriminate].
      injection X as <- <- <-. exists ch. split; auto. cbn [tail b_vals]. rewrite (evaluate_vals _ _ _ _ Ec). cbn [cat b_vals]. unfold b_len.
      rewrite skipn_app, skipn_all, Nat.sub_diag. auto.
    - assert (E0 : exists pop, (if s_first s then evaluate ev (s_clock s) (s_pop s) else Ok (s_pop s)) = Ok pop /\ b_vals pop = b_vals (s_pop s) /\ wf pop).
      { destruct (s_first s); [|eauto]. destruct (evaluate_total ev (s_clock s) (s_pop s) N) as [pop E]. destruct (evaluate_inv ev _ _ _ HE E) as (K & Vp & _). exists pop. split; auto. split; auto. apply K. }
      destruct E0 as (pop & E & Vp & Wp). exists (s_clock s + 1), pop. split; [auto|]. rewrite Vp. split; [auto|]. split; [auto|]. rewrite E. cbn [bind]. intros op s1 p c X.
      destruct (use_operators (s_clock s + 1) pop (ops ++ [op])) as [ch|]; [|discriminate]. cbn [bind] in X. destruct (evaluate ev _ ch) as [ch'|] eqn:Ec; [|discriminate].
      injection X as <- <- <-. exists ch. split; auto. eapply evaluate_vals; eauto. }
  destruct P as (k0 & pop & Wp & Np & Fp & H). destruct (U k0 pop Wp Np Fp) as (b1 & E1 & W1 & N1 & F1).
  exists (k0 + length ops), b1. split; [auto|]. split; [auto|]. split; [auto|]. intros op s1 p c X. destruct (H op s1 p c X) as (ch & Eu & Vc).
  rewrite use_app, E1 in Eu. cbn [bind] in Eu. eauto.
Qed.
(* an elitist generation whose last operator makes t has a solution which is not worse than t *)
Lemma generation_reaches d f (L : V -> Prop) cf ops (s : state V) t : Forall legal ops -> Forall productive ops -> Forall (keeps L) ops -> wf (s_pop s) ->
  evaluates (eval_width (s_pop s)) ev -> deterministic f ev -> nan_free f -> b_desc (s_pop s) = [d] -> 1 <= g_popsize cf -> b_len (s_pop s) = g_popsize cf ->
  g_elitist cf = true -> ready f cf s -> Forall L (b_vals (s_pop s)) ->
  exists k b1, wf b1 /\ b_vals b1 <> [] /\ Forall L (b_vals b1) /\
    forall op ch, legal op -> productive op -> use_operator k b1 op = Ok ch -> In t (b_vals ch) ->
      exists s', ga_step so co qs ev cf (ops ++ [op]) s = Ok s' /\ exists v, In v (b_vals (s_pop s')) /\ ~ better d (nth 0 (f t) NaN) (nth 0 (f v) NaN).
Proof.
  intros HL HP HK W HE HD HN Hd Hp Hlen He HR F.
  assert (N : b_vals (s_pop s) <> []) by (unfold b_len in Hlen; destruct (b_vals (s_pop s)); [cbn in Hlen; lia|discriminate]).
  destruct (before_last L cf ops s HL HP HK W HE F N) as (k & b1 & W1 & N1 & F1 & H). exists k, b1. split; [auto|]. split; [auto|]. split; [auto|].
  intros op ch Lop Pop Eu Ht.
  assert (HL' : Forall legal (ops ++ [op])) by (apply Forall_app; auto). assert (HP' : Forall productive (ops ++ [op])) by (apply Forall_app; auto).
  destruct (extended_total ev cf (ops ++ [op]) s HL' HP' W HE N) as [[[s1 p] c] E].
  destruct (H op s1 p c E) as (ch' & Eu' & Vc). rewrite Eu in Eu'. injection Eu' as <-.
  destruct (extended_inv ev cf (ops ++ [op]) s s1 p c HL' W HE E) as (Kp & Kc & Ks & Vp & Vs & _).
  destruct (extended_evaluated ev f cf (ops ++ [op]) s s1 p c HD HR E) as [Ep Ec]. pose proof (cat_kind _ _ _ Kp Kc) as KC.
  assert (Dc : b_desc (cat p c) = [d]) by (destruct KC as (_ & D & _); congruence).
  destruct (best_of_total so co qs Hs Hco Hqs (cat p c) (g_popsize cf) (proj1 KC)) as [pop EB]; [left; unfold num_objs; rewrite Dc; auto|].
  unfold ga_step. rewrite E. cbn [bind]. rewrite He, EB. cbn [rmap]. eexists. split; [reflexivity|]. cbn [s_pop].
  destruct (best_of_keeps so co qs ev Hs Hco Hqs d f _ _ _ (proj1 KC) Dc (ev_cat f _ _ Ep Ec) HN EB) as (_ & rest & P & HO).
  destruct (best_of_inv so co qs Hs Hco Hqs _ _ _ (proj1 KC) EB) as (_ & _ & _ & _ & Lb).
  assert (I : In t (b_vals pop ++ rest)). { apply (Permutation_in t (Permutation_sym P)). cbn. apply in_or_app. right. rewrite Vc. auto. }
  apply in_app_or in I. destruct I as [I|I].
  - exists t. split; auto. apply better_irrefl.
  - rewrite cat_len in Lb. assert (Lp : b_len p = b_len (s_pop s)) by (unfold b_len; rewrite Vp; auto).
    unfold b_len in Lb at 1. destruct (b_vals pop) as [|v vs] eqn:Ev; [cbn in Lb; lia|]. exists v. split; [left; auto|]. apply HO; [left; auto|auto].
Qed.
End Generation.

Lemma last_draws {A} (P : A -> Prop) l (z : A) k n (m : list (list A)) : P z -> shaped n l m -> all_genes P m ->
  exists draws, makes P l draws /\ draws k n = m.
Proof.
  intros Hz S Am. exists (fun k' n' => if (Nat.eqb k' k && Nat.eqb n' n)%bool then m else repeat (repeat z l) n'). split.
  - intros k' n'. destruct (Nat.eqb k' k && Nat.eqb n' n)%bool eqn:E.
    + apply andb_true_iff in E. destruct E as [_ E]. apply Nat.eqb_eq in E. subst. auto.
    + split; [split; [apply repeat_length|]|]; apply Forall_forall; intros r Hr; apply repeat_spec in Hr; subst.
      * apply repeat_length.
      * apply Forall_forall. intros x Hx. apply repeat_spec in Hx. subst. auto.
  - rewrite !Nat.eqb_refl. auto.
Qed.
Lemma repeat_shaped {A} n l (t : list A) : length t = l -> shaped n l (repeat t n).
Proof. intros H. split; [apply repeat_length|]. apply Forall_forall. intros r Hr. apply repeat_spec in Hr. subst. auto. Qed.
Lemma gene_repeat {A} (t : list A) n k j x : gene (repeat t n) k j = Some x -> nth_error t j = Some x.
Proof.
  unfold gene. destruct (nth_error (repeat t n) k) as [r|] eqn:E; [|discriminate]. apply nth_error_In, repeat_spec in E. subst. auto.
Qed.
Lemma in_numbers t n : n <> 0 -> In (map Some t) (are_numbers (repeat t n)).
Proof. intros H. destruct n; [congruence|]. left. auto. Qed.
Lemma gaussian_productive lb ub l stdev prob us gs : makes unit_draw l us -> makes (fun _ => True) l gs -> legal (gaussian_op lb ub stdev prob us gs) /\ productive (gaussian_op lb ub stdev prob us gs).
Proof.
  intros HU HG. split.
  - intros k b b' W X. injection X as <-. apply fresh_kind.
  - intros k b W N. eexists. split; [reflexivity|]. cbn [fresh b_vals]. destruct (HU k (b_len b)) as [[L1 _] _]. destruct (HG k (b_len b)) as [[L2 _] _].
    intros Q. apply (f_equal (@length _)) in Q. unfold gaussian_mutation in Q. rewrite map3_length, map_length, L1, L2 in Q. unfold b_len in Q. destruct (b_vals b); [tauto|cbn in Q; lia].
Qed.
Lemma poly_productive lo hi l prob eta us rs : poly_init (Some lo) (Some hi) = Ok (lo, hi) -> makes unit_draw l us -> makes unit_draw l rs ->
  legal (poly_op (Some lo) (Some hi) prob eta us rs) /\ productive (poly_op (Some lo) (Some hi) prob eta us rs).
Proof.
  intros I HU HG. unfold poly_op. rewrite I. cbn [bind fst snd]. split.
  - intros k b b' W X. injection X as <-. apply fresh_kind.
  - intros k b W N. eexists. split; [reflexivity|]. cbn [fresh b_vals]. destruct (HU k (b_len b)) as [[L1 _] _]. destruct (HG k (b_len b)) as [[L2 _] _].
    intros Q. apply (f_equal (@length _)) in Q. unfold poly_mutation in Q. rewrite map3_length, map_length, L1, L2 in Q. unfold b_len in Q. destruct (b_vals b); [tauto|cbn in Q; lia].
Qed.
Lemma all_true n l (m : list (list R)) : shaped n l m -> all_genes (fun _ => True) m.
Proof. intros _. apply Forall_forall. intros r _. apply Forall_forall. auto. Qed.

(* Whatever the state of an elitist search with one objective and whatever operators precede the mutation, there are draws with
   which the next population has a solution at least as good as any given solution t: the search cannot get stuck. *)
Theorem C219_generation_gaussian : forall so co qs ev d f lb ub l cf ops (s : state row) t stdev probability,
  argsort_ok so -> reordering co -> qargsort_ok qs ->
  Forall legal ops -> Forall productive ops -> Forall (keeps (legal_row lb ub l)) ops -> consistent_bounds lb ub ->
  wf (s_pop s) -> evaluates (eval_width (s_pop s)) ev -> deterministic f ev -> nan_free f -> b_desc (s_pop s) = [d] ->
  1 <= g_popsize cf -> b_len (s_pop s) = g_popsize cf -> g_elitist cf = true ->
  (g_reeval cf = true \/ s_first s = true \/ evaluated f (s_pop s)) -> Forall (legal_row lb ub l) (b_vals (s_pop s)) ->
  legal_row lb ub l (map Some t) -> (stdev <> 0)%R -> (forall p, probability = Some p -> (0 <= p)%R) ->
  exists us gs, makes unit_draw l us /\ makes (fun _ => True) l gs /\
    exists s', ga_step so co qs ev cf (ops ++ [gaussian_op lb ub stdev probability us gs]) s = Ok s' /\
      exists v, In v (b_vals (s_pop s')) /\ ~ better d (nth 0 (f (map Some t)) NaN) (nth 0 (f v) NaN).
Proof.
  intros so co qs ev d f lb ub l cf ops s t stdev pr Hs Hco Hqs HL HP HK HC W HE HD HN Hd Hp Hlen He HR F [Tl Tb] Hsd Hpr. rewrite map_length in Tl.
  destruct (generation_reaches so co qs ev Hs Hco Hqs d f _ cf ops s (map Some t) HL HP HK W HE HD HN Hd Hp Hlen He HR F) as (k & b1 & W1 & N1 & F1 & H).
  destruct (fine_numbers lb ub l _ F1) as [SR _]. set (n := length (b_vals b1)) in *.
  destruct (C219_gaussian lb ub stdev pr (map numbers (b_vals b1)) (repeat t n) n l Hsd Hpr SR (repeat_shaped n l t Tl) HC) as (us & gs & SU & SG & AU & E).
  { intros i j x G. apply gene_repeat in G. destruct (Tb j (Some x)) as (y & Ey & I); [rewrite nth_error_map, G; auto|]. injection Ey as <-. auto. }
  destruct (last_draws unit_draw l 0%R k n us) as (us' & MU & Eu); [unfold unit_draw; lra|auto|auto|].
  destruct (last_draws (fun _ : R => True) l 0%R k n gs) as (gs' & MG & Eg); [auto|auto|eapply all_true; eauto|].
  exists us', gs'. split; [auto|]. split; [auto|]. destruct (gaussian_productive lb ub l stdev pr us' gs' MU MG) as [Lo Po].
  eapply H; [exact Lo|exact Po|reflexivity|]. cbn [fresh b_vals]. unfold b_len. fold n. rewrite Eu, Eg, E. apply in_numbers.
  unfold n. destruct (b_vals b1); [tauto|discriminate].
Qed.
Theorem C219_generation_polynomial : forall so co qs ev d f lo hi l cf ops (s : state row) t prob eta,
  argsort_ok so -> reordering co -> qargsort_ok qs ->
  Forall legal ops -> Forall productive ops -> Forall (keeps (legal_row (Some lo) (Some hi) l)) ops ->
  length lo = l -> length hi = l -> (forall j, j < l -> (nth j lo 0 < nth j hi 0)%R) ->
  wf (s_pop s) -> evaluates (eval_width (s_pop s)) ev -> deterministic f ev -> nan_free f -> b_desc (s_pop s) = [d] ->
  1 <= g_popsize cf -> b_len (s_pop s) = g_popsize cf -> g_elitist cf = true ->
  (g_reeval cf = true \/ s_first s = true \/ evaluated f (s_pop s)) -> Forall (legal_row (Some lo) (Some hi) l) (b_vals (s_pop s)) ->
  length t = l -> (forall j, j < l -> (nth j lo 0 <= nth j t 0 < nth j hi 0)%R) ->
  match eta with Some e => (-1 < e)%R | None => True end -> (forall p, prob = Some p -> (0 < p)%R) ->
  exists us rs, makes unit_draw l us /\ makes unit_draw l rs /\
    exists s', ga_step so co qs ev cf (ops ++ [poly_op (Some lo) (Some hi) prob eta us rs]) s = Ok s' /\
      exists v, In v (b_vals (s_pop s')) /\ ~ better d (nth 0 (f (map Some t)) NaN) (nth 0 (f v) NaN).
Proof.
  intros so co qs ev d f lo hi l cf ops s t prob eta Hs Hco Hqs HL HP HK Ll Lh HB W HE HD HN Hd Hp Hlen He HR F Tl Tb Het Hpr.
  destruct (generation_reaches so co qs ev Hs Hco Hqs d f _ cf ops s (map Some t) HL HP HK W HE HD HN Hd Hp Hlen He HR F) as (k & b1 & W1 & N1 & F1 & H).
  destruct (fine_numbers (Some lo) (Some hi) l _ F1) as [SR GR]. set (n := length (b_vals b1)) in *.
  assert (BA : forall j, j < l -> bound_at (Some lo) j = Some (nth j lo 0%R) /\ bound_at (Some hi) j = Some (nth j hi 0%R)).
  { intros j Hj. cbn. split; apply nth_error_nth'; lia. }
  destruct (C219_polynomial prob eta lo hi (map numbers (b_vals b1)) (repeat t n) n l Het Hpr SR (repeat_shaped n l t Tl) HB) as (us & rs & SU & SG & AU & AR & E).
  { intros i j x G. assert (Hi : i < n /\ j < l).
    { destruct SR as [L1 L2]. unfold gene in G. destruct (nth_error (map numbers (b_vals b1)) i) as [r|] eqn:Er; [|discriminate]. split; [rewrite <- L1; apply nth_error_Some; congruence|].
      rewrite <- (proj1 (Forall_forall _ _) L2 r (nth_error_In _ _ Er)). apply nth_error_Some; congruence. }
    destruct (GR i j (proj1 Hi) (proj2 Hi)) as (x' & Ex & I1 & I2). rewrite G in Ex. injection Ex as <-. destruct (BA j (proj2 Hi)) as [B1 B2]. auto. }
  { intros i j x G. apply gene_repeat in G. assert (Hj : j < l) by (rewrite <- Tl; apply nth_error_Some; congruence). rewrite <- (nth_error_nth _ _ 0%R G). auto. }
  assert (PI : poly_init (Some lo) (Some hi) = Ok (lo, hi)).
  { cbn. assert (EB : existsb (fun b => b) (map2 (fun a b => if Rlt_dec b a then true else false) lo hi) = false); [|rewrite EB; auto].
    clear -HB Ll Lh. revert hi l HB Ll Lh. induction lo as [|a lo IH]; intros [|b hi] l HB Ll Lh; cbn; auto. cbn in Ll, Lh.
    pose proof (HB 0) as H0. cbn in H0. destruct (Rlt_dec b a); [exfalso; specialize (H0 ltac:(lia)); lra|].
    apply (IH hi (l - 1)); [intros j Hj; apply (HB (S j)); lia|lia|lia]. }
  destruct (last_draws unit_draw l 0%R k n us) as (us' & MU & Eu); [unfold unit_draw; lra|auto|auto|].
  destruct (last_draws unit_draw l 0%R k n rs) as (rs' & MR & Er); [unfold unit_draw; lra|auto|auto|].
  exists us', rs'. split; [auto|]. split; [auto|]. destruct (poly_productive lo hi l prob eta us' rs' PI MU MR) as [Lo Po].
  eapply (H _ (fresh b1 (are_numbers (repeat t n)))); [exact Lo|exact Po| |cbn; apply in_numbers; unfold n; destruct (b_vals b1); [tauto|discriminate]].
  cbn [use_operator poly_op]. rewrite PI. cbn [bind fst snd]. unfold b_len. fold n. rewrite Eu, Er, E. auto.
Qed.
Print Assumptions C219_polynomial.
Print Assumptions C219_upper_bound.
Print Assumptions C219_gaussian.
Print Assumptions C219_sbx.
Print Assumptions C219_generation_gaussian.
Print Assumptions C219_generation_polynomial.

(* two solutions of two variables; a cross-over before the mutation; a target in the opposite corner; parents 0 and 4
   with children 5 and -1, and with no children 3 and 2 *)
Example C219_example :
  (exists us rs, shaped 1 2 us /\ shaped 1 2 rs /\ all_genes unit_draw us /\ all_genes unit_draw rs /\
     poly_mutation (Some (1 / 2)%R) None [0; -1]%R [10; 1]%R [[0; 1]]%R us rs = are_numbers [[9; -1]]%R) /\
  (exists us gs, shaped 1 2 us /\ shaped 1 2 gs /\ all_genes unit_draw us /\
     gaussian_mutation bd_lb bd_ub 3 (Some 0%R) [[0; 1]]%R us gs = are_numbers [[10; -1]]%R) /\
  (exists us, shaped 1 1 us /\ all_genes unit_draw us /\ sbx_raw 20 [[0]]%R [[4]]%R us = are_numbers ([[-1]] ++ [[5]])%R) /\
  ~ (exists us, shaped 1 1 us /\ all_genes unit_draw us /\ sbx_raw 20 [[0]]%R [[4]]%R us = are_numbers ([[3]] ++ [[2]])%R) /\
  (exists us gs s', makes unit_draw 2 us /\ makes (fun _ => True) 2 gs /\
     ga_step stable_argsort (fun l => seq 0 (length l)) qstable (fun _ vs => map (fun _ => [Fin 1]) vs) (mkConf 2 true true true)
       ([] ++ [gaussian_op bd_lb bd_ub 3 None us gs]) bd_state = Ok s').
Proof.
  assert (SH : forall (a b : R), shaped 1 2 [[a; b]]) by (intros; split; auto).
  assert (S1 : forall (a : R), shaped 1 1 [[a]]) by (intros; split; auto).
  split; [|split; [|split; [|split]]].
  - apply C219_polynomial; auto.
    + intros p X; injection X as <-. lra.
    + intros [|[|j]] Hj; cbn; [lra|lra|lia].
    + intros [|k] [|[|j]] x X; cbn in X; try discriminate; try (destruct j; discriminate); try (destruct k; discriminate); injection X as <-; cbn; lra.
    + intros [|k] [|[|j]] x X; cbn in X; try discriminate; try (destruct j; discriminate); try (destruct k; discriminate); injection X as <-; cbn; lra.
  - apply C219_gaussian; auto; try lra.
    + intros p X; injection X as <-. lra.
    + intros [|[|[|j]]] a b; cbn; intros A B; try discriminate; injection A as <-; injection B as <-; lra.
    + intros [|k] [|[|j]] x X; cbn in X; try discriminate; try (destruct j; discriminate); try (destruct k; discriminate); injection X as <-; split; cbn; intros y Y; injection Y as <-; lra.
  - apply (C219_sbx 20 [[0]]%R [[4]]%R [[-1]]%R [[5]]%R 1 1); auto; try lra.
    intros [|k] [|j] x y c d X Y C D; cbn in X, Y, C, D; try (destruct j; discriminate); try (destruct k; discriminate).
    injection X as <-. injection Y as <-. injection C as <-. injection D as <-. split; [lra|]. exists 1.5%R. lra.
  - intros Q. apply (C219_sbx 20 [[0]]%R [[4]]%R [[3]]%R [[2]]%R 1 1) in Q; auto; try lra.
    destruct (Q 0 0 0%R 4%R 3%R 2%R eq_refl eq_refl eq_refl eq_refl) as [E _]. lra.
  - destruct (C219_generation_gaussian stable_argsort (fun l => seq 0 (length l)) qstable (fun _ vs => map (fun _ => [Fin 1]) vs) true (fun _ => [Fin 1]) bd_lb bd_ub 2
       (mkConf 2 true true true) [] bd_state [5; 0]%R 3%R None) as (us & gs & MU & MG & s' & E & _); auto.
    + apply stable_argsort_ok.
    + intros x. auto.
    + apply qstable_ok.
    + intros [|[|[|j]]] a b; cbn; intros A B; try discriminate; injection A as <-; injection B as <-; lra.
    + split; cbn; auto.
    + intros k vs. rewrite map_length. split; auto. apply Forall_map, Forall_forall. auto.
    + intros k vs. auto.
    + intros v. auto.
    + cbn. lia.
    + constructor; [|constructor; [|constructor]]; (split; [auto|]); intros [|[|[|j]]] x X; cbn in X; try discriminate; injection X as <-; eexists; (split; [reflexivity|]);
      split; cbn; intros y Ey; injection Ey as <-; lra.
    + split; [auto|]. intros [|[|[|j]]] x X; cbn in X; try discriminate; injection X as <-; eexists; (split; [reflexivity|]); split; cbn; intros y Ey; injection Ey as <-; lra.
    + discriminate.
    + exists us, gs, s'. auto.
Qed.

(* Adam and SGD: closed forms. *)
From Coq Require Import Reals Lra Lia.
From Verif Require Import Prelude RollProofs FuncModel FuncSpec.
Open Scope R_scope.

(* ------------------------------------------------------------ discounted sums *)
Lemma total_map_scale {A} k (f : A -> R) l : total (map (fun i => k * f i) l) = k * total (map f l).
Proof. unfold total. induction l as [|a l IH]; cbn in *; [lra|]. rewrite IH. lra. Qed.
Lemma discounted_nil b : discounted b [] = 0. Proof. reflexivity. Qed.
Lemma discounted_snoc b l x : discounted b (l ++ [x]) = x + b * discounted b l.
Proof.
  unfold discounted. rewrite rev_app_distr, app_length. cbn [rev app length]. rewrite Nat.add_1_r. cbn [seq map].
  unfold total at 1. cbn [fold_right pow nth]. fold (total (map (fun i => b ^ i * nth i (x :: rev l) 0) (seq 1 (length l)))).
  rewrite <- seq_shift, map_map, <- total_map_scale. f_equal; [lra|]. unfold total. f_equal. apply map_ext. intros i. cbn [pow nth]. lra.
Qed.
Lemma discounted_nonneg b l : 0 <= b -> Forall (fun x => 0 <= x) l -> 0 <= discounted b l.
Proof.
  intros Hb. induction l as [|x l IH] using rev_ind; intros H; [rewrite discounted_nil; lra|].
  apply Forall_app in H. destruct H as [H1 H2]. inversion H2; subst. rewrite discounted_snoc. specialize (IH H1). nra.
Qed.
Lemma squares_nonneg l : Forall (fun x => 0 <= x) (map (fun g : R => g * g) l).
Proof. apply Forall_forall. intros x. rewrite in_map_iff. intros (y & <- & _). nra. Qed.
Lemma pow_lt_1 b t : proper_beta b -> (0 < t)%nat -> 0 <= b ^ t < 1.
Proof.
  intros [A B] T. split; [apply pow_le; auto|]. destruct t as [|t]; [lia|]. clear T. induction t as [|t IH]; [cbn; lra|].
  change (b ^ S (S t)) with (b * b ^ S t). nra.
Qed.
Lemma coordinate_snoc j gs g : coordinate j (gs ++ [g]) = coordinate j gs ++ [nth j g 0].
Proof. unfold coordinate. now rewrite map_app. Qed.
Lemma coordinate_length j gs : length (coordinate j gs) = length gs. Proof. apply map_length. Qed.
Lemma nth_error_some j (g : list R) n : length g = n -> (j < n)%nat -> nth_error (map Some g) j = Some (Some (nth j g 0)).
Proof.
  intros L H. rewrite nth_error_map. destruct (nth_error g j) eqn:E; [|apply nth_error_None in E; lia]. cbn.
  now rewrite (nth_error_nth _ _ _ E).
Qed.
Lemma sqrt_some x : 0 <= x -> nsqrt (Some x) = Some (sqrt x).
Proof. intros H. cbn. destruct (Rlt_dec x 0); [lra|reflexivity]. Qed.
Lemma div_some x y : y <> 0 -> ndiv (Some x) (Some y) = Some (x / y).
Proof. intros H. cbn. destruct (Req_EM_T y 0); [contradiction|reflexivity]. Qed.
Lemma div_same x y : ndiv (Some x) (Some y) = if Req_EM_T y 0 then None else Some (x / y). Proof. reflexivity. Qed.
Lemma sqrt_div' x y : 0 <= x -> 0 < y -> sqrt x / sqrt y = sqrt (x / y).
Proof. intros. symmetry. now apply sqrt_div_alt. Qed.

(* ------------------------------------------------------------ the class Adam *)
Definition avg (b : R) (l : list R) : R := (1 - b) * discounted b l.
Definition sq (l : list R) : list R := map (fun g => g * g) l.
Lemma sq_snoc l x : sq (l ++ [x]) = sq l ++ [x * x]. Proof. unfold sq. now rewrite map_app. Qed.
Lemma sq_length l : length (sq l) = length l. Proof. apply map_length. Qed.
Lemma avg_snoc b l x : avg b (l ++ [x]) = b * avg b l + (1 - b) * x.
Proof. unfold avg. rewrite discounted_snoc. lra. Qed.
Lemma avg_nonneg b l : proper_beta b -> 0 <= avg b (sq l).
Proof. intros [A B]. unfold avg. apply Rmult_le_pos; [lra|]. apply discounted_nonneg; auto. apply squares_nonneg. Qed.

Definition adam_inv (n : nat) (past : list (list R)) (a : tadam) : Prop :=
  ta_t a = length past /\ length (ta_cells a) = n /\ ta_amsgrad a = false /\ proper_beta (ta_beta1 a) /\ proper_beta (ta_beta2 a) /\
  forall j, (j < n)%nat -> exists mx, nth_error (ta_cells a) j =
    Some (mkCell (Some (avg (ta_beta1 a) (coordinate j past))) (Some (avg (ta_beta2 a) (sq (coordinate j past)))) mx).
Definition adam_rule (lr b1 b2 eps : R) := adam_move lr b1 b2 eps.

Lemma nmul_neg1_sub0 x : nmul (Some (-1)) (nsub (Some 0) x) = x.
Proof. destruct x; cbn; auto. f_equal. lra. Qed.
Lemma cell_ok a past j g mx : proper_beta (ta_beta1 a) -> proper_beta (ta_beta2 a) -> ta_amsgrad a = false ->
  tadam_cell a (S (length past)) (mkCell (Some (avg (ta_beta1 a) (coordinate j past))) (Some (avg (ta_beta2 a) (sq (coordinate j past)))) mx)
    (Some (nth j g 0)) (Some 0) =
  (mkCell (Some (avg (ta_beta1 a) (coordinate j (past ++ [g])))) (Some (avg (ta_beta2 a) (sq (coordinate j (past ++ [g]))))) mx,
   nsub (Some 0) (adam_move (ta_lr a) (ta_beta1 a) (ta_beta2 a) (ta_eps a) (coordinate j (past ++ [g])))).
Proof.
  intros B1 B2 A. unfold tadam_cell. cbv zeta. rewrite A. cbn [c_m c_v c_max].
  set (l := coordinate j past). set (x := nth j g 0). rewrite coordinate_snoc. fold l x. rewrite sq_snoc.
  change (nadd (Some (avg (ta_beta1 a) l)) (nmul (Some (1 - ta_beta1 a)) (nsub (Some x) (Some (avg (ta_beta1 a) l)))))
    with (Some (avg (ta_beta1 a) l + (1 - ta_beta1 a) * (x - avg (ta_beta1 a) l))).
  change (nadd (nmul (Some (ta_beta2 a)) (Some (avg (ta_beta2 a) (sq l)))) (nmul (Some (1 - ta_beta2 a)) (nmul (Some x) (Some x))))
    with (Some (ta_beta2 a * avg (ta_beta2 a) (sq l) + (1 - ta_beta2 a) * (x * x))).
  replace (avg (ta_beta1 a) l + (1 - ta_beta1 a) * (x - avg (ta_beta1 a) l)) with (avg (ta_beta1 a) (l ++ [x])) by (rewrite avg_snoc; lra).
  replace (ta_beta2 a * avg (ta_beta2 a) (sq l) + (1 - ta_beta2 a) * (x * x)) with (avg (ta_beta2 a) (sq (l ++ [x])))
    by (rewrite sq_snoc, avg_snoc; lra).
  rewrite <- sq_snoc. f_equal. f_equal.
  assert (P1 := pow_lt_1 _ (S (length past)) B1 (Nat.lt_0_succ _)). assert (P2 := pow_lt_1 _ (S (length past)) B2 (Nat.lt_0_succ _)).
  assert (V := avg_nonneg (ta_beta2 a) (l ++ [x]) B2).
  rewrite (sqrt_some _ V), sqrt_some by lra.
  assert (0 < sqrt (1 - ta_beta2 a ^ S (length past))) by (apply sqrt_lt_R0; lra).
  rewrite !div_some by lra. rewrite sqrt_div' by lra.
  unfold adam_move, v_hat, m_hat. fold (sq (l ++ [x])). fold (avg (ta_beta2 a) (sq (l ++ [x]))). fold (avg (ta_beta1 a) (l ++ [x])).
  assert (LL : length (l ++ [x]) = S (length past)) by (rewrite app_length; unfold l; rewrite coordinate_length; cbn; lia).
  rewrite LL. set (d := sqrt (avg (ta_beta2 a) (sq (l ++ [x])) / (1 - ta_beta2 a ^ S (length past)))).
  change (nadd (Some d) (Some (ta_eps a))) with (Some (d + ta_eps a)). rewrite div_same. cbv zeta.
  destruct (Req_EM_T (d + ta_eps a) 0) as [Z|Z]; [reflexivity|]. cbn [nmul nsub nlift]. unfold nmul, nsub, nlift. f_equal. field. split; lra.
Qed.
Lemma map3_nth3 {A B C D} (f : A -> B -> C -> D) : forall l1 l2 l3 i a b c, nth_error l1 i = Some a -> nth_error l2 i = Some b -> nth_error l3 i = Some c ->
  nth_error (map3 f l1 l2 l3) i = Some (f a b c).
Proof.
  induction l1 as [|x l1 IH]; intros [|y l2] [|z l3] [|i] a b c H1 H2 H3; cbn in *; try discriminate; [congruence|]. eauto.
Qed.
Lemma map3_len {A B C D} (f : A -> B -> C -> D) l1 l2 l3 n : length l1 = n -> length l2 = n -> length l3 = n -> length (map3 f l1 l2 l3) = n.
Proof. revert l2 l3 n. induction l1; intros [|y l2] [|z l3] n; cbn; intros; try lia. destruct n; try lia. erewrite IHl1; [reflexivity|lia|lia|lia]. Qed.

Lemma adam_ascent n past a g : adam_inv n past a -> length g = n ->
  exists a' step, torch_ascent (WAdam a) (map Some g) = Ok (WAdam a', step) /\ adam_inv n (past ++ [g]) a' /\
    ta_lr a' = ta_lr a /\ ta_beta1 a' = ta_beta1 a /\ ta_beta2 a' = ta_beta2 a /\ ta_eps a' = ta_eps a /\
    length step = n /\ forall j, (j < n)%nat ->
      nth_error step j = Some (adam_move (ta_lr a) (ta_beta1 a) (ta_beta2 a) (ta_eps a) (coordinate j (past ++ [g]))).
Proof.
  intros (T & L & A & B1 & B2 & C) G. unfold torch_ascent. cbn [wrapped_length]. rewrite map_length, L, G, Nat.eqb_refl. cbn [negb].
  cbv zeta. cbn [wrapped_step]. unfold tadam_step. cbv zeta. cbn [fst snd]. eexists _, _. split; [reflexivity|].
  assert (N : forall j, (j < n)%nat -> exists mx, nth_error (map3 (tadam_cell a (S (ta_t a))) (ta_cells a) (map Some g) (repeat (Some 0) n)) j =
    Some (mkCell (Some (avg (ta_beta1 a) (coordinate j (past ++ [g])))) (Some (avg (ta_beta2 a) (sq (coordinate j (past ++ [g]))))) mx,
     nsub (Some 0) (adam_move (ta_lr a) (ta_beta1 a) (ta_beta2 a) (ta_eps a) (coordinate j (past ++ [g]))))).
  { intros j J. destruct (C j J) as (mx & E). exists mx.
    erewrite map3_nth3; [|exact E|apply (nth_error_some j g n); auto|apply nth_error_repeat; auto]. rewrite T. f_equal. apply cell_ok; auto. }
  split; [|repeat split; auto].
  - unfold adam_inv. cbn [ta_t ta_cells ta_amsgrad ta_beta1 ta_beta2]. rewrite app_length. cbn [length].
    split; [lia|]. split; [rewrite map_length; apply map3_len; rewrite ?map_length, ?repeat_length; auto|]. repeat split; try apply B1; try apply B2; auto.
    intros j J. destruct (N j J) as (mx & E). exists mx. rewrite nth_error_map, E. reflexivity.
  - rewrite !map_length. apply map3_len; rewrite ?map_length, ?repeat_length; auto.
  - intros j J. destruct (N j J) as (mx & E). rewrite !nth_error_map, E. cbn [option_map snd]. f_equal. apply nmul_neg1_sub0.
Qed.
Lemma firstn_app_exact {A} (l1 l2 : list A) : firstn (length l1) (l1 ++ l2) = l1.
Proof. rewrite firstn_app, Nat.sub_diag, firstn_all. cbn. apply app_nil_r. Qed.
(* a generic induction over the ascents *)
Lemma ascents_rule (inv : list (list R) -> wrapped -> Prop) rule n :
  (forall past w g, inv past w -> length g = n -> exists w' step, torch_ascent w (map Some g) = Ok (w', step) /\ inv (past ++ [g]) w' /\
     length step = n /\ forall j, (j < n)%nat -> nth_error step j = Some (rule (coordinate j (past ++ [g])))) ->
  forall gs past w, inv past w -> gradients n gs ->
  exists w' steps, ascents w gs = Ok (w', steps) /\ length steps = length gs /\
    forall k step, nth_error steps k = Some step ->
      length step = n /\ forall j, (j < n)%nat -> nth_error step j = Some (rule (coordinate j (past ++ firstn (S k) gs))).
Proof.
  intros ST. induction gs as [|g gs IH]; intros past w I G; cbn [ascents].
  - exists w, []. repeat split; auto; destruct k; discriminate.
  - inversion G; subst. destruct (ST past w g I eq_refl) as (w1 & st & E & I1 & L1 & N1). rewrite E. cbn [bind fst snd].
    destruct (IH _ _ I1 H2) as (w2 & sts & E2 & L2 & N2). rewrite E2. cbn [bind fst snd]. exists w2, (st :: sts).
    split; [reflexivity|]. split; [cbn; lia|]. intros [|k] step K; cbn in K.
    + injection K as <-. split; auto.
    + destruct (N2 k step K) as [X Y]. split; auto. intros j J. rewrite (Y j J). rewrite <- app_assoc. reflexivity.
Qed.

(* ------------------------------------------------------------ the functional Adam *)
Definition fadam_inv (n : nat) (past : list (list R)) (s : fadam) : Prop :=
  fa_t s = length past /\ length (fa_m s) = n /\ length (fa_v s) = n /\ length (fa_center s) = n /\
  proper_beta (fa_beta1 s) /\ proper_beta (fa_beta2 s) /\
  forall j, (j < n)%nat -> nth_error (fa_m s) j = Some (Some (avg (fa_beta1 s) (coordinate j past))) /\
    nth_error (fa_v s) j = Some (Some (avg (fa_beta2 s) (sq (coordinate j past)))).
Lemma fadam_ok n past s g : fadam_inv n past s -> length g = n ->
  let s' := fadam_tell s (map Some g) in
  fadam_inv n (past ++ [g]) s' /\ fa_lr s' = fa_lr s /\ fa_beta1 s' = fa_beta1 s /\ fa_beta2 s' = fa_beta2 s /\ fa_eps s' = fa_eps s /\
  forall j c, (j < n)%nat -> nth_error (fa_center s) j = Some c ->
    nth_error (fa_center s') j = Some (nadd c (adam_move (fa_lr s) (fa_beta1 s) (fa_beta2 s) (fa_eps s) (coordinate j (past ++ [g])))).
Proof.
  intros (T & LM & LV & LC & B1 & B2 & C) G. unfold fadam_tell, fadam_step. cbv zeta.
  set (t := (fa_t s + 1)%nat). set (m := map2 _ (fa_m s) _). set (v := map2 _ (fa_v s) _).
  cbn [fa_lr fa_beta1 fa_beta2 fa_eps fa_center].
  assert (Lm : length m = n) by (unfold m; rewrite map2_length, map_length; lia).
  assert (Lv : length v = n) by (unfold v; rewrite map2_length, map_length; lia).
  assert (N : forall j, (j < n)%nat -> nth_error m j = Some (Some (avg (fa_beta1 s) (coordinate j (past ++ [g])))) /\
    nth_error v j = Some (Some (avg (fa_beta2 s) (sq (coordinate j (past ++ [g])))))).
  { intros j J. destruct (C j J) as [E1 E2]. unfold m, v. rewrite !map2_nth_error, E1, E2, (nth_error_some j g n G J). cbn [nadd nmul nlift].
    rewrite coordinate_snoc, sq_snoc, !avg_snoc. split; reflexivity. }
  split; [|repeat split; auto].
  - unfold fadam_inv. cbn [fa_t fa_m fa_v fa_center fa_beta1 fa_beta2]. unfold t. rewrite T, app_length. cbn [length].
    split; [lia|]. split; [exact Lm|]. split; [exact Lv|]. split; [rewrite !map2_length, !map_length, Lm, Lv, LC; lia|].
    split; [exact B1|]. split; [exact B2|]. exact N.
  - intros j c J Hc. destruct (N j J) as [E1 E2]. rewrite !map2_nth_error, Hc, !nth_error_map, E1, E2. cbn [option_map]. f_equal. f_equal.
    assert (TT : t = S (length past)) by (unfold t; lia). rewrite TT.
    assert (P1 := pow_lt_1 _ (S (length past)) B1 (Nat.lt_0_succ _)). assert (P2 := pow_lt_1 _ (S (length past)) B2 (Nat.lt_0_succ _)).
    rewrite !div_some by lra. set (l := coordinate j (past ++ [g])). assert (V := avg_nonneg (fa_beta2 s) l B2).
    rewrite sqrt_some by (apply Rmult_le_pos; [lra|left; apply Rinv_0_lt_compat; lra]).
    unfold adam_move, v_hat, m_hat. fold (sq l). fold (avg (fa_beta2 s) (sq l)). fold (avg (fa_beta1 s) l).
    assert (LL : length l = S (length past)) by (unfold l; rewrite coordinate_length, app_length; cbn; lia). rewrite LL.
    set (d := sqrt _). change (nadd (Some d) (Some (fa_eps s))) with (Some (d + fa_eps s)).
    change (nmul (Some (fa_lr s)) ?x) with (nmul (Some (fa_lr s)) x). cbn [nmul nlift]. rewrite div_same. reflexivity.
Qed.

(* Controlled updates of standard deviations and the cross entropy method: properties C22, C23, C24, C55, C71. *)
From Coq Require Import QArith Qabs Qround Reals Lra Lqa.
From Verif Require Import Prelude FloatLib BatchSpec ExtQ SigmaModel SigmaSpec SigmaProofs SigmaProofs2 RankModel RankSpec CemModel CemProofs.
Close Scope Q_scope.
Open Scope nat_scope.

(* C22: the result is admissible, equals an admissible target, and lies between the target and every admissible value
   (so no admissible value is nearer to the target) *)
Theorem C22_modify_tensor : forall original target lb ub max_change in_place,
  length target = length original -> fits (length original) lb -> fits (length original) ub -> fits (length original) max_change ->
  exists r, modify_tensor original target lb ub max_change in_place = Ok (if in_place then r else original, r) /\ length r = length original /\
    forall i o t v, nth_error original i = Some o -> nth_error target i = Some t -> nth_error r i = Some v ->
      t <> XNaN -> change_fine (limit_at max_change i) o ->
      (exists w, admissible (limit_at lb i) (limit_at ub i) (limit_at max_change i) o w) ->
      admissible (limit_at lb i) (limit_at ub i) (limit_at max_change i) o v /\
      (admissible (limit_at lb i) (limit_at ub i) (limit_at max_change i) o t -> xeq v t) /\
      (forall w, admissible (limit_at lb i) (limit_at ub i) (limit_at max_change i) o w -> between t v w).
Proof. exact modify_tensor_ok. Qed.
Print Assumptions C22_modify_tensor.
Theorem C22_between_is_nearest : forall t v w, between (XF t) (XF v) (XF w) -> (Qabs (v - t) <= Qabs (w - t))%Q.
Proof.
  intros t v w [[A B]|[A B]]; rewrite xle_F in A, B.
  - rewrite !Qabs_pos by Lqa.lra. Lqa.lra.
  - rewrite !Qabs_neg by Lqa.lra. Lqa.lra.
Qed.
Print Assumptions C22_between_is_nearest.
(* modify_vector gives the same numbers when the original respects the bounds *)
Theorem C22_modify_vector : forall original target lb ub max_change,
  length target = length original -> fits (length original) lb -> fits (length original) ub -> fits (length original) max_change ->
  (lb = None <-> ub = None) ->
  exists r, modify_vector original target lb ub max_change = Ok r /\ length r = length original /\
    forall i o t v, nth_error original i = Some o -> nth_error target i = Some t -> nth_error r i = Some v ->
      o <> XNaN -> t <> XNaN -> change_fine (limit_at max_change i) o -> above (limit_at lb i) o -> below (limit_at ub i) o ->
      admissible (limit_at lb i) (limit_at ub i) (limit_at max_change i) o v /\
      (admissible (limit_at lb i) (limit_at ub i) (limit_at max_change i) o t -> xeq v t) /\
      (exists w, option_map snd (match modify_tensor original target lb ub max_change false with Ok p => Some p | Err _ => None end) = Some w /\
         forall u, nth_error w i = Some u -> xeq u v).
Proof. exact modify_vector_ok. Qed.
Print Assumptions C22_modify_vector.
Example C22_example :
  let o := [XF 1; XF (-2); XF 0] in let t := [XF 9; XF (-9); XPI] in
  fits 3 (Some (Scalar (XF (-10)))) /\ fits 3 (Some (Vec [XF 1; XF 5; XF 5])) /\ fits 3 (Some (Scalar (XF (1 # 2)))) /\
  change_fine (Some (XF (1 # 2))) (XF (-2)) /\ admissible (Some (XF (-10))) (Some (XF 5)) (Some (XF (1 # 2))) (XF (-2)) (XF (-2)) /\
  modify_tensor o t (Some (Scalar (XF (-10)))) (Some (Vec [XF 1; XF 5; XF 5])) (Some (Scalar (XF (1 # 2)))) false
    = Ok (o, [XF 1; XF (-6 # 2); XF (0 # 2)]) /\
  modify_vector o t (Some (Scalar (XF (-10)))) (Some (Vec [XF 1; XF 5; XF 5])) (Some (Scalar (XF (1 # 2)))) = Ok [XF 1; XF (-6 # 2); XF (0 # 2)].
Proof.
  cbv zeta. split; [discriminate|]. split; [split; [reflexivity|repeat constructor; discriminate]|]. split; [discriminate|].
  split; [split; [discriminate|eexists; reflexivity]|]. split.
  { split; [discriminate|]. split; [reflexivity|]. split; [reflexivity|]. exists (-2)%Q, (-2)%Q. repeat split; auto; discriminate. }
  split; reflexivity.
Qed.

(* C23: the standard deviation stays within its limits over every history of updates *)
Theorem C23_sigma_history : forall (G : Type) (follow : list xq -> G -> list xq) g n grads sigma,
  fits n (g_min g) -> fits n (g_max g) -> change_ok n (g_change g) ->
  length sigma = n -> in_bounds (g_min g) (g_max g) sigma -> finites sigma -> targets_ok n follow grads ->
  exists sigma', update_history follow g sigma grads = Ok sigma' /\ length sigma' = n /\ in_bounds (g_min g) (g_max g) sigma'.
Proof.
  intros G follow g n grads sigma F1 F2 F3 L B F T.
  destruct (history_ok follow g n (conj F1 (conj F2 F3)) grads sigma) as (s & E & I1 & I2 & _); auto.
  - split; [auto|]. split; auto.
  - exists s. auto.
Qed.
Print Assumptions C23_sigma_history.
Theorem C23_sigma_step : forall (G : Type) (follow : list xq -> G -> list xq) g n grads x sigma s1 s2,
  fits n (g_min g) -> fits n (g_max g) -> change_ok n (g_change g) ->
  length sigma = n -> in_bounds (g_min g) (g_max g) sigma -> finites sigma -> targets_ok n follow (grads ++ [x]) ->
  update_history follow g sigma grads = Ok s1 -> update_history follow g sigma (grads ++ [x]) = Ok s2 ->
  forall i o v, nth_error s1 i = Some o -> nth_error s2 i = Some v -> within_change (limit_at (g_change g) i) o v.
Proof.
  intros G follow g n grads x sigma s1 s2 F1 F2 F3 L B F T E1 E2.
  assert (T1 : targets_ok n follow grads) by (intros s y Hy; apply T; apply in_or_app; auto).
  destruct (history_ok follow g n (conj F1 (conj F2 F3)) grads sigma) as (s & E & I); auto.
  { split; [auto|]. split; auto. }
  rewrite E in E1. injection E1 as <-.
  assert (APP : forall xs a, update_history follow g a (xs ++ [x]) = bind (update_history follow g a xs) (fun b => update_sigma follow g b x)).
  { induction xs as [|y ys IH]; intros a; cbn [app update_history].
    - cbn [bind]. destruct (update_sigma follow g a x); reflexivity.
    - destruct (update_sigma follow g a y); cbn [bind]; auto. }
  rewrite APP, E in E2. cbn [bind] in E2.
  destruct (T s x) as [L2 N2]; [apply in_or_app; right; left; auto|apply I|apply (inv_numbers g n s I)|].
  destruct (update_ok follow g n s x (conj F1 (conj F2 F3)) I L2 N2) as (s' & E' & _ & W). rewrite E' in E2. injection E2 as <-. exact W.
Qed.
Print Assumptions C23_sigma_step.
Definition sgd_follow (lr : Q) (s : list xq) (grad : list Q) : list xq := map2 (fun a d => xadd a (XF (lr * d))) s grad.
Definition exg : gauss := mkGauss (Some (Scalar (XF (1 # 10)))) (Some (Vec [XF 2; XF 4])) (Some (Scalar (XF (1 # 5)))).
Example C23_example :
  fits 2 (g_min exg) /\ fits 2 (g_max exg) /\ change_ok 2 (g_change exg) /\ in_bounds (g_min exg) (g_max exg) [XF 1; XF 4] /\ finites [XF 1; XF 4] /\
  targets_ok 2 (sgd_follow (1 # 2)) [[8; 1]; [-8; 0]]%Q /\
  (exists s, update_history (sgd_follow (1 # 2)) exg [XF 1; XF 4] [[8; 1]; [-8; 0]]%Q = Ok s /\ Forall2 xeq s [XF (24 # 25); XF 4]).
Proof.
  split; [discriminate|]. split; [split; [reflexivity|repeat constructor; discriminate]|]. split; [exists (1 # 5)%Q; split; [reflexivity|discriminate]|].
  split. { intros [|[|i]] v Hv; cbn in Hv; try (injection Hv as <-); try (destruct i; discriminate Hv); repeat split; try reflexivity; discriminate. }
  split; [repeat constructor; eexists; reflexivity|]. split.
  { intros s x Hx Ls Ns. assert (Lx : length x = 2) by (destruct Hx as [<-|[<-|[]]]; reflexivity). unfold sgd_follow. rewrite map2_length, Ls, Lx. split; auto.
    apply Forall_forall. intros v Hv. apply In_nth_error in Hv. destruct Hv as (i & Hv). rewrite map2_nth_error in Hv.
    destruct (nth_error s i) as [a|] eqn:Ea; [|discriminate]. destruct (nth_error x i); [|discriminate]. injection Hv as <-.
    unfold numbers in Ns. rewrite Forall_forall in Ns. specialize (Ns a (nth_error_In _ _ Ea)). destruct a; try congruence; discriminate. }
  eexists. split; [reflexivity|]. repeat constructor; vm_compute; reflexivity.
Qed.

(* C24 (false of the code): a component that is zero becomes NaN for ever when the maximum change is unlimited, which is
   what stdev_max_change=None stands for (the default of cem) *)
Theorem C24_zero_stdev_refuted : forall (G : Type) (follow : list xq -> G -> list xq) s s1 s2 before x after i q,
  ftells follow s before = Ok s1 -> ftells follow s (before ++ x :: after) = Ok s2 ->
  nth_error (f_change s1) i = Some XPI -> nth_error (f_stdev s1) i = Some (XF q) -> (q == 0)%Q ->
  nth_error (f_stdev s2) i = Some XNaN.
Proof.
  intros G follow s s1 s2 before x after i q E1 E2 Hc Hq Z.
  assert (APP : forall xs a, ftells follow a (xs ++ x :: after) = bind (ftells follow a xs) (fun b => ftells follow b (x :: after))).
  { induction xs as [|y ys IH]; intros a; cbn [app ftells]; [reflexivity|]. destruct (ftell follow a y); cbn [bind]; auto. }
  rewrite APP, E1 in E2. cbn [bind ftells] in E2. destruct (ftell follow s1 x) as [s3|] eqn:E3; [|discriminate]. cbn [bind] in E2.
  destruct (ftell_nan follow s1 x s3 i (XF q) XPI E3 Hq Hc) as [A B]. { right. split; [exists q; auto|reflexivity]. }
  apply (ftells_nan follow after s3 s2 i XPI E2 A). rewrite B. exact Hc.
Qed.
Print Assumptions C24_zero_stdev_refuted.
(* true when the maximum change is a number, or when the lower limit is positive *)
Theorem C24_tells_partial : forall (G : Type) (follow : list xq -> G -> list xq) n xs s,
  length (f_stdev s) = n -> length (f_min s) = n -> length (f_max s) = n -> length (f_change s) = n ->
  (forall i mn mx mc, nth_error (f_min s) i = Some mn -> nth_error (f_max s) i = Some mx -> nth_error (f_change s) i = Some mc ->
     mn <> XPI /\ mx <> XNI /\ xle mn mx /\
     ((exists m, mc = XF m /\ (0 <= m)%Q) \/ (mc = XPI /\ exists p, xle (XF p) mn /\ (0 < p)%Q))) ->
  (forall i v mc, nth_error (f_stdev s) i = Some v -> nth_error (f_change s) i = Some mc -> exists q, v = XF q /\ (mc = XPI -> ~ (q == 0)%Q)) ->
  finite_targets n follow xs -> xs <> [] ->
  exists s', ftells follow s xs = Ok s' /\ finites (f_stdev s') /\
    forall i v mn mx, nth_error (f_stdev s') i = Some v -> nth_error (f_min s) i = Some mn -> nth_error (f_max s) i = Some mx -> xle mn v /\ xle v mx.
Proof.
  intros G follow n xs s L1 L2 L3 L4 C D T Hne.
  assert (F : finites (f_stdev s)).
  { apply Forall_forall. intros v Hv. apply In_nth_error in Hv. destruct Hv as (i & Hv).
    destruct (nth_error (f_change s) i) as [mc|] eqn:Ec. - destruct (D i v mc Hv Ec) as (q & -> & _). eexists; reflexivity.
    - apply nth_error_None in Ec. assert (i < length (f_stdev s)) by (apply nth_error_Some; congruence). lia. }
  destruct (ftells_ok follow n xs s) as (s' & E & _ & _ & _ & F' & _ & _ & _ & R); auto. { repeat split; auto. }
  exists s'. split; [exact E|]. split; [exact F'|]. intros i v mn mx. apply R. exact Hne.
Qed.
Print Assumptions C24_tells_partial.
Theorem C24_change_partial : forall (G : Type) (follow : list xq -> G -> list xq) n s x,
  length (f_stdev s) = n -> length (f_min s) = n -> length (f_max s) = n -> length (f_change s) = n ->
  (forall i mn mx mc, nth_error (f_min s) i = Some mn -> nth_error (f_max s) i = Some mx -> nth_error (f_change s) i = Some mc ->
     mn <> XPI /\ mx <> XNI /\ xle mn mx /\
     ((exists m, mc = XF m /\ (0 <= m)%Q) \/ (mc = XPI /\ exists p, xle (XF p) mn /\ (0 < p)%Q))) ->
  (forall i v mc, nth_error (f_stdev s) i = Some v -> nth_error (f_change s) i = Some mc -> exists q, v = XF q /\ (mc = XPI -> ~ (q == 0)%Q)) ->
  length (follow (f_stdev s) x) = n -> finites (follow (f_stdev s) x) ->
  exists s', ftell follow s x = Ok s' /\
    forall i o v mn mx mc, nth_error (f_stdev s) i = Some o -> nth_error (f_stdev s') i = Some v ->
      nth_error (f_min s) i = Some mn -> nth_error (f_max s) i = Some mx -> nth_error (f_change s) i = Some mc ->
      (within_change (Some mc) o v \/ xeq v mn \/ xeq v mx) /\
      (xle mn o -> xle o mx -> within_change (Some mc) o v).
Proof.
  intros G follow n s x L1 L2 L3 L4 C D LT FT. destruct (ftell_ok follow n s x) as (s' & E & _ & _ & _ & _ & _ & _ & R); auto. { repeat split; auto. }
  exists s'. split; [exact E|]. intros i o v mn mx mc H1 H2 H3 H4 H5. destruct (R i o v mn mx mc H1 H2 H3 H4 H5) as (_ & _ & X & Y). auto.
Qed.
Print Assumptions C24_change_partial.
(* stated from the arguments: with a numeric maximum change, the result respects stdev_min (0 if not given) and stdev_max *)
Theorem C24_arguments_partial : forall (G : Type) (follow : list xq -> G -> list xq) n xs init mn mx m s,
  let lo i := match limit_at mn i with Some v => v | None => XF 0 end in
  let hi i := match limit_at mx i with Some v => v | None => XPI end in
  finit n init mn mx (Some (Scalar (XF m))) = Ok s -> (0 <= m)%Q -> length init = n -> finites init ->
  (forall i, i < n -> lo i <> XPI /\ hi i <> XNI /\ xle (lo i) (hi i)) ->
  finite_targets n follow xs -> xs <> [] ->
  exists s', ftells follow s xs = Ok s' /\ length (f_stdev s') = n /\ finites (f_stdev s') /\
    forall i v, nth_error (f_stdev s') i = Some v -> xle (lo i) v /\ xle v (hi i).
Proof.
  intros G follow n xs init mn mx m s lo hi E M L F C T Hne. unfold finit in E.
  assert (V : forall o d l, as_vector_like_center n (match o with None => Scalar d | Some l => l end) = Ok l ->
     length l = n /\ forall i, i < n -> nth_error l i = Some (match limit_at o i with Some v => v | None => d end)).
  { intros o d l H. assert (R : forall v : xq, length (repeat v n) = n /\ forall i, i < n -> nth_error (repeat v n) i = Some v).
    { intros v. split; [apply repeat_length|]. intros i Hi. apply nth_error_repeat. auto. }
    destruct o as [[v|l']|]; cbn in *.
    - inversion H; subst. apply R.
    - destruct (Nat.eqb_spec (length l') n); [|discriminate]. inversion H; subst. split; auto. intros i Hi.
      destruct (nth_error l i) eqn:X; auto. apply nth_error_None in X. lia.
    - inversion H; subst. apply R. }
  destruct (as_vector_like_center n (match mn with None => Scalar (XF 0) | Some l => l end)) as [vmn|] eqn:E1; [|discriminate].
  destruct (as_vector_like_center n (match mx with None => Scalar XPI | Some l => l end)) as [vmx|] eqn:E2; [|discriminate].
  apply V in E1. apply V in E2. destruct E1 as [A1 A2]. destruct E2 as [B1 B2]. cbn in E. inversion E; subst s; clear E.
  assert (Rc : length (repeat (XF m) n) = n) by apply repeat_length.
  destruct (C24_tells_partial G follow n xs (mkF init vmn vmx (repeat (XF m) n))) as (s' & Es & Fs & R); auto.
  - cbn. intros i a b c Ha Hb Hc. assert (Hi : i < n) by (rewrite <- A1; apply nth_error_Some; congruence).
    rewrite A2 in Ha by auto. rewrite B2 in Hb by auto. inversion Ha; inversion Hb; subst. destruct (C i Hi) as (C1 & C2 & C3).
    split; auto. split; auto. split; auto. left. exists m. split; auto. apply nth_error_In in Hc. apply repeat_spec in Hc. auto.
  - cbn. intros i v mc Hv Hc. apply nth_error_In in Hv. destruct (proj1 (Forall_forall _ _) F v Hv) as [q ->]. exists q. split; auto.
    apply nth_error_In in Hc. apply repeat_spec in Hc. subst. discriminate.
  - assert (Ls : length (f_stdev s') = n).
    { destruct (ftells_ok follow n xs (mkF init vmn vmx (repeat (XF m) n))) as (s2 & E2 & X); auto.
      - repeat split; auto.
      - intros i a b c Ha Hb Hc. cbn in Ha, Hb, Hc. assert (Hi : i < n) by (rewrite <- A1; apply nth_error_Some; congruence).
        rewrite A2 in Ha by auto. rewrite B2 in Hb by auto. inversion Ha; inversion Hb; subst. destruct (C i Hi) as (C1 & C2 & C3).
        split; auto. split; auto. split; auto. left. exists m. split; auto. apply nth_error_In in Hc. apply repeat_spec in Hc. auto.
      - intros i v mc Hv Hc. cbn in Hv, Hc. apply nth_error_In in Hv. destruct (proj1 (Forall_forall _ _) F v Hv) as [q ->]. exists q. split; auto.
        apply nth_error_In in Hc. apply repeat_spec in Hc. subst. discriminate.
      - rewrite Es in E2. inversion E2; subst s2. exact (proj1 (proj1 X)). }
    exists s'. split; auto. split; auto. split; auto. intros i v Hv.
    assert (Hi : i < n) by (rewrite <- Ls; apply nth_error_Some; congruence).
    apply (R i v (lo i) (hi i) Hv); cbn; [apply A2|apply B2]; auto.
Qed.
Print Assumptions C24_arguments_partial.
Definition set_to (s : list xq) (x : list Q) : list xq := map XF x.
Example C24_example :
  (* cem(stdev_init=1): the elites agree in the first coordinate, so the stdev gets 0, then NaN *)
  finit 2 [XF 1; XF 1] None None None = Ok (mkF [XF 1; XF 1] [XF 0; XF 0] [XPI; XPI] [XPI; XPI]) /\
  rmap f_stdev (ftells set_to (mkF [XF 1; XF 1] [XF 0; XF 0] [XPI; XPI] [XPI; XPI]) [[0; 1 # 2]]%Q) = Ok [XF 0; XF (1 # 2)] /\
  rmap f_stdev (ftells set_to (mkF [XF 1; XF 1] [XF 0; XF 0] [XPI; XPI] [XPI; XPI]) [[0; 1 # 2]; [0; 1 # 2]]%Q) = Ok [XNaN; XF (1 # 2)] /\
  (* with a positive stdev_min *)
  rmap f_stdev (ftells set_to (mkF [XF 1; XF 1] [XF (1#9); XF (1#9)] [XPI; XPI] [XPI; XPI]) [[0; 1 # 2]; [0; 1 # 2]]%Q) = Ok [XF (1 # 9); XF (1 # 2)] /\
  (* stdev_max_change given, no stdev_min: a negative target stops at 0 *)
  rmap f_stdev (bind (finit 2 [XF 1; XF 1] None None (Some (Scalar (XF 3)))) (fun s => ftells set_to s [[- (1); 1 # 2]]%Q)) = Ok [XF 0; XF (1 # 2)] /\
  finite_targets 2 set_to [[0; 1 # 2]]%Q.
Proof.
  repeat (split; [reflexivity|]). intros s x [<-|[]] _ _. split; [reflexivity|]. repeat constructor; eexists; reflexivity.
Qed.

(* C55: the elites of the cross entropy method *)
Theorem C55_elites : forall sorter ratio (values : list (list R)) evals maximize,
  argsort_ok sorter -> length evals = length values -> no_nan evals -> (0 <= ratio <= 1)%Q ->
  exists idx, elites sorter values ratio (raw_weights evals maximize) = map (fun i => nth i values []) idx /\
    length idx = Z.to_nat (Qfloor (inject_Z (Z.of_nat (length values)) * ratio)) /\
    NoDup idx /\ (forall i, In i idx -> i < length values) /\
    (forall i j, In i idx -> j < length values -> ~ In j idx -> ~ better maximize (at_ evals j) (at_ evals i)).
Proof.
  intros sorter ratio values evals mx Hs L N R. eexists. split; [reflexivity|]. apply elites_ok; auto.
Qed.
Print Assumptions C55_elites.
Theorem C55_center_and_stdev : forall sorter ratio mu sigma (values : list (list R)) evals maximize,
  argsort_ok sorter -> length evals = length values -> no_nan evals -> (0 <= ratio <= 1)%Q ->
  2 <= Z.to_nat (Qfloor (inject_Z (Z.of_nat (length values)) * ratio)) ->
  length sigma = length mu -> (forall m, In m mu -> m <> None) -> (forall m, In m sigma -> m <> None) ->
  let e := elites sorter values ratio (raw_weights evals maximize) in
  let r := cem_targets sorter maximize ratio mu sigma values evals in
  length (fst r) = length mu /\ length (snd r) = length mu /\
  forall j, j < length mu ->
    nth_error (fst r) j = Some (Some (rmean (map (fun row => nth j row 0%R) e))) /\
    nth_error (snd r) j = Some (Some (rstd (map (fun row => nth j row 0%R) e))).
Proof.
  intros sorter ratio mu sigma values evals mx Hs L N R K LS Nm Ns e r.
  destruct (cem_targets_ok sorter mx ratio mu sigma values evals LS Nm Ns) as (A & B & C). split; [exact A|]. split; [exact B|].
  intros j Hj. destruct (C j Hj) as [C1 C2]. unfold r. rewrite C1, C2. fold e.
  assert (Le : 2 <= length e). { unfold e, elites. rewrite map_length. destruct (elites_ok sorter (length values) ratio evals mx Hs L N R) as (E & _). rewrite E. exact K. }
  unfold column. destruct e as [|a [|b e']]; cbn [length] in Le; try lia. split; reflexivity.
Qed.
Print Assumptions C55_center_and_stdev.
Definition exv : list (list R) := [[1]; [2]; [3]; [5]]%R.
Definition exf : list fl := [Fin 7; NInf; Fin 9; Fin 4].
Example C55_example :
  argsort_ok stable_argsort /\ length exf = length exv /\ no_nan exf /\ (0 <= 1 # 2 <= 1)%Q /\
  2 <= Z.to_nat (Qfloor (inject_Z (Z.of_nat (length exv)) * (1 # 2))) /\
  elites stable_argsort exv (1 # 2) (raw_weights exf false) = [[2]; [5]]%R /\
  elites stable_argsort exv (1 # 2) (raw_weights exf true) = [[3]; [1]]%R.
Proof.
  split; [apply stable_argsort_ok|]. split; [reflexivity|]. split; [unfold no_nan, exf; repeat constructor|].
  split; [split; discriminate|]. split; [vm_compute; lia|]. split; reflexivity.
Qed.

(* C71 (false of the code): a CEM update of numbers gives numbers *)
Theorem C71_one_elite_refuted : forall sorter ratio mu sigma (values : list (list R)) evals maximize,
  argsort_ok sorter -> length evals = length values -> no_nan evals -> (0 <= ratio <= 1)%Q ->
  Z.to_nat (Qfloor (inject_Z (Z.of_nat (length values)) * ratio)) <= 1 ->
  length sigma = length mu -> (forall m, In m mu -> m <> None) -> (forall m, In m sigma -> m <> None) ->
  forall j, j < length mu -> nth_error (snd (cem_targets sorter maximize ratio mu sigma values evals)) j = Some None.
Proof.
  intros sorter ratio mu sigma values evals mx Hs L N R K LS Nm Ns j Hj.
  destruct (cem_targets_ok sorter mx ratio mu sigma values evals LS Nm Ns) as (_ & _ & C). destruct (C j Hj) as [_ C2]. rewrite C2.
  assert (Le : length (elites sorter values ratio (raw_weights evals mx)) <= 1).
  { unfold elites. rewrite map_length. destruct (elites_ok sorter (length values) ratio evals mx Hs L N R) as (E & _). rewrite E. exact K. }
  unfold column. destruct (elites sorter values ratio (raw_weights evals mx)) as [|a [|b e']]; cbn [length] in Le; try lia; reflexivity.
Qed.
Print Assumptions C71_one_elite_refuted.
Theorem C71_two_elites_partial : forall sorter ratio mu sigma (values : list (list R)) evals maximize,
  argsort_ok sorter -> length evals = length values -> no_nan evals -> (0 <= ratio <= 1)%Q ->
  2 <= Z.to_nat (Qfloor (inject_Z (Z.of_nat (length values)) * ratio)) ->
  length sigma = length mu -> (forall m, In m mu -> m <> None) -> (forall m, In m sigma -> m <> None) ->
  let r := cem_targets sorter maximize ratio mu sigma values evals in
  finite (fst r) /\ finite (snd r).
Proof.
  intros sorter ratio mu sigma values evals mx Hs L N R K LS Nm Ns r.
  destruct (C55_center_and_stdev sorter ratio mu sigma values evals mx Hs L N R K LS Nm Ns) as (A & B & C). fold r in A, B, C.
  split; intros a Ha ->; apply In_nth_error in Ha; destruct Ha as (j & Hj).
  - assert (Hl : j < length mu) by (rewrite <- A; apply nth_error_Some; congruence). destruct (C j Hl) as [C1 _]. congruence.
  - assert (Hl : j < length mu) by (rewrite <- B; apply nth_error_Some; congruence). destruct (C j Hl) as [_ C1]. congruence.
Qed.
Print Assumptions C71_two_elites_partial.
Example C71_example : (0 <= 2 # 5 <= 1)%Q /\ Z.to_nat (Qfloor (inject_Z (Z.of_nat (length exv)) * (2 # 5))) <= 1 /\
  snd (cem_targets stable_argsort true (2 # 5) [Some 0%R] [Some 1%R] exv exf) = [None].
Proof. split; [split; discriminate|]. split; [vm_compute; lia|reflexivity]. Qed.

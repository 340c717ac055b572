(* C211: In one dimension, XNES and SNES are the same search. *)
From Coq Require Import Reals String Lra.
From Verif Require Import Prelude FloatLib MatLib RankModel RankSpec RankProps CemModel DistModel XnesModel XafModel XafProps SafModel.
Open Scope R_scope.

(* ---- spec ---- *)
(* a 1 x 1 matrix is a number, and its exponential too *)
Definition exp_of_number (mexp : mat -> mat) : Prop := forall M, mexp M 0%nat 0%nat = exp (M 0%nat 0%nat).
(* what SNES divides the weights by *)
Definition divisor (ranking : string) (w : list R) : R := if String.eqb ranking "nes" then 1 else rsum (map Rabs w).
(* the weights of a population of p solutions sum up to 0, and SNES always divides them by T *)
Definition balanced_weights (ranking : string) (p : nat) (T : R) (weigh : list R -> list R) : Prop :=
  T <> 0 /\ forall l, length l = p -> length (weigh l) = p /\ rsum (weigh l) = 0 /\ divisor ranking (weigh l) = T.
(* the same center, standard deviation, solutions and fitnesses; the stored inverse is the inverse *)
Definition same_search {O} (s : SafModel.state O) (x : XafModel.state) : Prop :=
  SafModel.s_mu _ s 0%nat = XnesModel.mu (XafModel.s_dist x) 0%nat /\
  SafModel.s_sigma _ s 0%nat = XnesModel.A (XafModel.s_dist x) 0%nat 0%nat /\
  XnesModel.A_inv (XafModel.s_dist x) 0%nat 0%nat = / XnesModel.A (XafModel.s_dist x) 0%nat 0%nat /\
  map (fun v : vect => v 0%nat) (SafModel.s_pop _ s) = map (fun v : vect => v 0%nat) (XafModel.s_pop x) /\
  SafModel.s_fits _ s = XafModel.s_fits x.
(* gaussian.py:954-956, 1376-1378: the default learning rates for the standard deviations *)
Definition snes_default (n : nat) : R := 0.2 * (3 + ln (INR n)) / sqrt (INR n).
Definition xnes_default (n : nat) : R := 0.6 * (3 + ln (INR n)) / (INR n * sqrt (INR n)).
Definition no_limits : limits := Limits None None None.

(* ---- proofs ---- *)
Lemma wsum_map w (xs : list vect) (f : vect -> R) : wsum w (map f xs) = fold_right Rplus 0 (map2 (fun a x => a * f x) w xs).
Proof. unfold wsum. revert w. induction xs as [|x xs IH]; intros [|a w]; cbn; auto. rewrite <- IH. auto. Qed.
Lemma scaled_sum k w (xs : list vect) (f : vect -> R) : fold_right Rplus 0 (map2 (fun a x => a * f x) (map (fun a => a / k) w) xs) = fold_right Rplus 0 (map2 (fun a x => a * f x) w xs) / k.
Proof. revert w. induction xs as [|x xs IH]; intros [|a w]; cbn; try (unfold Rdiv; rewrite Rmult_0_l; auto; fail). rewrite IH. unfold Rdiv. ring. Qed.
Lemma scaled_inner k w (xs : list vect) (f : vect -> R) : fold_right Rplus 0 (map2 (fun a x => a * f x) (map (fun a => a / k) w) xs) = fold_right Rplus 0 (map2 (fun a x => a * (f x / k)) w xs).
Proof. revert w. induction xs as [|x xs IH]; intros [|a w]; cbn; auto. rewrite IH. unfold Rdiv. ring. Qed.
Lemma centered_same ranking w : rsum w = 0 -> centered_weights ranking w = w.
Proof.
  intros H. unfold centered_weights. destruct (is_centering ranking); auto. rewrite (map_ext _ (fun x => x)); [apply map_id|]. intros x. unfold rmean. rewrite H. unfold Rdiv. ring.
Qed.
Lemma sumcong (f g : R -> vect -> R) : forall w xs ys, map (fun v : vect => v 0%nat) xs = map (fun v : vect => v 0%nat) ys -> (forall a x y, x 0%nat = y 0%nat -> f a x = g a y) ->
  fold_right Rplus 0 (map2 f w xs) = fold_right Rplus 0 (map2 g w ys).
Proof.
  induction w as [|a w IH]; intros [|x xs] [|y ys] E H; cbn in *; auto; try discriminate. injection E as E1 E2. rewrite (H a x y E1), (IH xs ys E2 H). auto.
Qed.
Lemma Rdiv_1 x : x / 1 = x.
Proof. field. Qed.
Section RUN.
Variables (mexp : mat -> mat) (ranking : string) (weigh : list R -> list R) (elite : list R -> list nat) (p : nat) (T center_lr stdev_lr : R) (f : vect -> R).
Hypothesis Exp : exp_of_number mexp.
Hypothesis W : balanced_weights ranking p T weigh.
Hypothesis Sees : sees 1 f.
Local Notation snes_step := (SafModel.step 1 ranking weigh elite R follow_rate Exponential stdev_lr no_limits f).
Local Notation xnes_step := (XafModel.step 1 mexp weigh ranking (center_lr / T) (stdev_lr / T) f).
Lemma fill_same (m s : vect) D zs : m 0%nat = XnesModel.mu D 0%nat -> s 0%nat = XnesModel.A D 0%nat 0%nat -> XnesModel.A_inv D 0%nat 0%nat = / XnesModel.A D 0%nat 0%nat ->
  same_search (SafModel.fill R Exponential f m s center_lr zs) (XafModel.fill 1 f D zs).
Proof.
  intros H1 H2 H3. split; [exact H1|]. split; [exact H2|]. split; [exact H3|]. cbn [SafModel.fill SafModel.s_pop SafModel.s_fits XafModel.fill XafModel.s_pop XafModel.s_fits draw].
  rewrite !map_map. assert (G : forall z : vect, m 0%nat + s 0%nat * z 0%nat = to_global 1 D z 0%nat).
  { intros z. unfold to_global, vplus, mv. cbn. rewrite H1, H2. ring. }
  split; [apply map_ext; auto|]. apply map_ext. intros z. apply Sees. intros i Hi. assert (i = 0)%nat by lia. subst i. apply G.
Qed.
Lemma step_same (s : SafModel.state R) x zs : same_search s x -> SafModel.s_opt _ s = center_lr -> 0 < SafModel.s_sigma _ s 0%nat -> length (SafModel.s_fits _ s) = p ->
  exists s' x', snes_step s zs = Some s' /\ xnes_step x zs = Ok x' /\ same_search s' x' /\ SafModel.s_opt _ s' = center_lr /\ 0 < SafModel.s_sigma _ s' 0%nat /\ length (SafModel.s_fits _ s') = length zs.
Proof.
  intros (H1 & H2 & H3 & H4 & H5) HO Pos Len. destruct W as [TN WB]. destruct (WB _ Len) as (_ & WS & WD).
  set (w := weigh (SafModel.s_fits R s)) in *.
  assert (EW : exp_weights ranking w = Some (map (fun a => a / T) w)).
  { unfold exp_weights. unfold divisor in WD. destruct (String.eqb ranking "nes").
    - rewrite <- WD. f_equal. rewrite (map_ext _ (fun a => a)); [symmetry; apply map_id|]. intros. field.
    - destruct (Req_EM_T (rsum (map Rabs w)) 0); [congruence|]. rewrite WD. auto. }
  set (mg := fold_right Rplus 0 (map2 (fun a (x : vect) => a * (x 0%nat - SafModel.s_mu R s 0%nat)) w (SafModel.s_pop R s)) / T).
  set (sg := fold_right Rplus 0 (map2 (fun a (x : vect) => a * ((x 0%nat - SafModel.s_mu R s 0%nat) / SafModel.s_sigma R s 0%nat * ((x 0%nat - SafModel.s_mu R s 0%nat) / SafModel.s_sigma R s 0%nat) - 1)) w (SafModel.s_pop R s)) / T).
  assert (EM : mu_grad ranking weigh elite R Exponential s 0%nat = Some mg).
  { unfold mu_grad. fold w. rewrite EW. cbn [option_map]. f_equal. unfold exp_mu, coord. rewrite map_map, wsum_map. apply (scaled_sum T w (SafModel.s_pop R s) (fun x => x 0%nat - SafModel.s_mu R s 0%nat)). }
  assert (ES : sigma_grad ranking weigh elite R Exponential s 0%nat = Some sg).
  { unfold sigma_grad. fold w. rewrite EW. cbn [option_map]. unfold nonzero. destruct (Req_EM_T _ 0); [lra|]. f_equal. unfold exp_sigma, coord. rewrite map_map, wsum_map.
    apply (scaled_sum T w (SafModel.s_pop R s) (fun x => (x 0%nat - SafModel.s_mu R s 0%nat) / SafModel.s_sigma R s 0%nat * ((x 0%nat - SafModel.s_mu R s 0%nat) / SafModel.s_sigma R s 0%nat) - 1)). }
  set (D := XafModel.s_dist x) in *. set (a := SafModel.s_sigma R s 0%nat) in *.
  assert (LO : forall v y : vect, v 0%nat = y 0%nat -> to_local 1 D y 0%nat = (v 0%nat - SafModel.s_mu R s 0%nat) / a).
  { intros v y E. unfold to_local, mv, vminus. cbn. rewrite H3, <- H2, E, <- H1. unfold Rdiv. ring. }
  assert (ED : d_grad 1 D (centered_weights ranking (weigh (XafModel.s_fits x))) (XafModel.s_pop x) 0%nat = mg * T / a).
  { unfold d_grad. rewrite <- H5. fold w. rewrite centered_same by auto. unfold mg. symmetry.
    replace (fold_right Rplus 0 (map2 (fun a0 (x0 : vect) => a0 * (x0 0%nat - SafModel.s_mu R s 0%nat)) w (SafModel.s_pop R s)) / T * T / a) with (fold_right Rplus 0 (map2 (fun a0 (x0 : vect) => a0 * (x0 0%nat - SafModel.s_mu R s 0%nat)) w (SafModel.s_pop R s)) / a) by (field; split; lra).
    rewrite <- (scaled_sum a w (SafModel.s_pop R s) (fun x => x 0%nat - SafModel.s_mu R s 0%nat)), scaled_inner.
    apply sumcong; auto. intros b v y E. rewrite (LO v y E). auto. }
  assert (EMG : M_grad 1 D (centered_weights ranking (weigh (XafModel.s_fits x))) (XafModel.s_pop x) 0%nat 0%nat = sg * T).
  { unfold M_grad. rewrite <- H5. fold w. rewrite centered_same by auto. unfold sg. assert (QT : forall q, q / T * T = q) by (intros; field; auto). rewrite QT.
    symmetry. apply sumcong; auto. intros b v y E. rewrite (LO v y E). unfold mid. cbn. auto. }
  unfold SafModel.step. unfold finite. cbn [seq forallb]. rewrite EM, ES. cbn [andb]. rewrite HO. unfold follow_rate at 1.
  unfold XafModel.step, XafModel.grads. fold D. set (dg := d_grad 1 D _ _) in *. set (Mg := M_grad 1 D _ _) in *. unfold algorithm_update, update, algorithm_rates, algorithm_optimizers, rmap. cbn -[SafModel.fill XafModel.fill mmul mv mscale vplus mu_grad sigma_grad].
  eexists. eexists. split; [reflexivity|]. split; [reflexivity|]. assert (NA : a <> 0) by (apply Rgt_not_eq; exact Pos).
  split; [|split; [reflexivity|split]].
  - apply fill_same.
    + cbn -[mmul mv mscale vplus mu_grad sigma_grad limit_one]. rewrite EM. unfold vplus, mv. cbn. rewrite ED, <- H1, <- H2. fold a. field. split; auto.
    + cbn -[mmul mv mscale vplus mu_grad sigma_grad limit_one]. rewrite ES. unfold limit_one, no_limits, exp_new_sigma, mmul. cbn. rewrite Exp. unfold mscale. rewrite EMG, <- H2. fold a. rewrite Rplus_0_l || idtac.
      replace (0.5 * (stdev_lr / T * (sg * T))) with (0.5 * (stdev_lr * sg)) by (field; auto). try ring.
    + cbn -[mscale]. unfold mmul. cbn -[mscale]. rewrite !Exp. unfold mscale. rewrite EMG, H3, <- H2. fold a.
      replace (-0.5 * (stdev_lr / T * (sg * T))) with (- (0.5 * (stdev_lr / T * (sg * T)))) by lra. rewrite exp_Ropp.
      pose proof (exp_pos (0.5 * (stdev_lr / T * (sg * T)))). field. split; lra.
  - cbn -[mmul mv mscale vplus mu_grad sigma_grad limit_one]. rewrite ES. unfold limit_one, no_limits, exp_new_sigma. cbn. fold a. apply Rmult_lt_0_compat; [exact Pos|apply exp_pos].
  - cbn. rewrite !map_length. auto.
Qed.
Lemma steps_same draws : Forall (fun zs : list vect => length zs = p) draws -> forall s x, same_search s x -> SafModel.s_opt _ s = center_lr -> 0 < SafModel.s_sigma _ s 0%nat -> length (SafModel.s_fits _ s) = p ->
  exists xs, XafModel.steps 1 mexp weigh ranking (center_lr / T) (stdev_lr / T) f x draws = Ok xs /\
    length xs = S (length draws) /\ Forall2 same_search (SafModel.steps 1 ranking weigh elite R follow_rate Exponential stdev_lr no_limits f s draws) xs.
Proof.
  induction 1 as [|zs draws Lz _ IH]; intros s x Sm HO Pos Len; cbn [XafModel.steps SafModel.steps].
  - exists [x]. split; auto.
  - destruct (step_same s x zs Sm HO Pos Len) as (s' & x' & E1 & E2 & Sm' & HO' & Pos' & Len'). rewrite E1, E2. cbn [bind].
    destruct (IH s' x' Sm' HO' Pos') as (xs & E3 & L & F); [lia|]. rewrite E3. cbn [rmap]. exists (x :: xs). split; [auto|]. split; [cbn; lia|]. constructor; auto.
Qed.
End RUN.

(* ---- theorems ---- *)
(* The learning rates of XNES are those of SNES divided by what SNES divides the weights by (by 1 for the ranking "nes"). *)
Theorem C211_same_search_partial : forall mexp ranking weigh elite p T center_lr stdev_lr f (m s : vect) zs draws,
  exp_of_number mexp -> balanced_weights ranking p T weigh -> sees 1 f -> 0 < s 0%nat -> Forall (fun zs => length zs = p) (zs :: draws) ->
  exists xs, xnes 1 mexp weigh ranking (center_lr / T) (stdev_lr / T) f (make_diag (fun M i j => / M i j) m s) zs draws = Ok xs /\
    length xs = S (length draws) /\
    Forall2 same_search (search 1 ranking weigh elite R follow_rate Exponential stdev_lr no_limits f m s center_lr zs draws) xs.
Proof.
  intros mexp ranking weigh elite p T center_lr stdev_lr f m s zs draws HE HW HS Hs HD. inversion HD; subst. unfold xnes, search. apply steps_same with (p := length zs); auto.
  - apply fill_same; auto.
  - cbn. rewrite !map_length. auto.
Qed.
(* the ranking "nes", which both use by default: equal learning rates give equal searches *)
Theorem C211_nes : forall mexp sorter higher_is_better (toF : R -> fl) elite center_lr stdev_lr f (m s : vect) zs draws,
  argsort_ok sorter -> (forall x, is_nan (toF x) = false) -> exp_of_number mexp -> sees 1 f -> 0 < s 0%nat -> zs <> [] -> Forall (fun z => length z = length zs) draws ->
  let weigh l := nes sorter (map toF l) higher_is_better in
  exists xs, xnes 1 mexp weigh "nes" center_lr stdev_lr f (make_diag (fun M i j => / M i j) m s) zs draws = Ok xs /\
    length xs = S (length draws) /\
    Forall2 same_search (search 1 "nes" weigh elite R follow_rate Exponential stdev_lr no_limits f m s center_lr zs draws) xs.
Proof.
  intros mexp so hib toF elite clr slr f m s zs draws HA HN HE HS Hs HZ HD weigh.
  pose proof (C211_same_search_partial mexp "nes" weigh elite (length zs) 1 clr slr f m s zs draws HE) as X. rewrite !Rdiv_1 in X. apply X; auto. split; [lra|]. intros l Hl. unfold weigh.
  destruct (C21_nes so (map toF l) hib HA) as (U1 & U2 & _); [rewrite map_length; destruct zs; [tauto|cbn in Hl; lia]|apply Forall_map, Forall_forall; auto|].
  rewrite map_length in U1. split; [lia|]. split; auto.
Qed.
(* With the default learning rates they are different searches: the standard deviation of XNES changes by the third power of the factor
   by which that of SNES changes. *)
Theorem C211_defaults_refuted : forall mexp weigh elite p center_lr f (s : SafModel.state R) x zs,
  exp_of_number mexp -> balanced_weights "nes" p 1 weigh -> sees 1 f -> same_search s x -> SafModel.s_opt _ s = center_lr -> 0 < SafModel.s_sigma _ s 0%nat -> length (SafModel.s_fits _ s) = p ->
  exists s' x', SafModel.step 1 "nes" weigh elite R follow_rate Exponential (snes_default 1) no_limits f s zs = Some s' /\
    XafModel.step 1 mexp weigh "nes" center_lr (xnes_default 1) f x zs = Ok x' /\
    let before := SafModel.s_sigma _ s 0%nat in let snes := SafModel.s_sigma _ s' 0%nat in let xnes := XnesModel.A (XafModel.s_dist x') 0%nat 0%nat in
    xnes / before = (snes / before) ^ 3 /\ (snes <> before -> xnes <> snes).
Proof.
  intros mexp weigh elite p clr f s x zs HE HW HS Sm HO Pos Len.
  destruct (step_same mexp "nes" weigh elite p 1 clr (snes_default 1) f HE HW HS s x zs Sm HO Pos Len) as (s1 & x1 & E1 & _).
  destruct (step_same mexp "nes" weigh elite p 1 clr (xnes_default 1) f HE HW HS s x zs Sm HO Pos Len) as (s2 & x2 & E2 & E2' & Sm2 & _).
  rewrite !Rdiv_1 in E2'. exists s1, x2. split; [exact E1|]. split; [exact E2'|]. destruct Sm2 as (_ & Q & _). cbn zeta. rewrite <- Q. clear Q E2'.
  unfold SafModel.step in E1, E2. destruct (finite 1 (mu_grad _ _ _ _ _ s)) as [gm|]; [|discriminate]. destruct (finite 1 (sigma_grad _ _ _ _ _ s)) as [gs|]; [|discriminate].
  destruct (follow_rate _ gm) as [[o dd]|]; [|discriminate]. injection E1 as <-. injection E2 as <-. cbn. unfold exp_new_sigma. set (a := s_sigma R s 0%nat) in *.
  assert (D3 : xnes_default 1 = 3 * snes_default 1).
  { unfold xnes_default, snes_default. cbn [INR]. rewrite sqrt_1. lra. }
  assert (DP : 0 < snes_default 1) by (unfold snes_default; cbn [INR]; rewrite sqrt_1, ln_1; lra).
  set (t := 0.5 * (snes_default 1 * gs 0%nat)). replace (0.5 * (xnes_default 1 * gs 0%nat)) with (t + t + t) by (rewrite D3; unfold t; lra).
  rewrite !exp_plus. pose proof (exp_pos t) as HP. set (e := exp t) in *. split; [field; apply Rgt_not_eq; exact Pos|].
  intros N Hc. apply N. assert (E2 : e * e * e = e) by (apply (Rmult_eq_reg_l a); [exact Hc|apply Rgt_not_eq; exact Pos]).
  assert (e = 1); [|subst e; rewrite H; ring]. assert ((e - 1) * (e * (e + 1)) = 0) by (ring_simplify; ring_simplify in E2; lra).
  apply Rmult_integral in H. destruct H as [H|H]; [lra|]. apply Rmult_integral in H. lra.
Qed.
Print Assumptions C211_same_search_partial.
Print Assumptions C211_nes.
Print Assumptions C211_defaults_refuted.

(* any strictly positive start, and a fitness function of one number; a matrix exponential which is right for numbers *)
Example C211_example : exp_of_number (fun M i j => exp (M i j)) /\ sees 1 (fun x => x 0%nat * x 0%nat) /\ argsort_ok stable_argsort /\
  balanced_weights "nes" 2 1 (fun l => nes stable_argsort (map (fun _ => Fin 0) l) true) /\
  exists xs, xnes 1 (fun M i j => exp (M i j)) (fun l => nes stable_argsort (map (fun _ => Fin 0) l) true) "nes" 1 0.6 (fun x => x 0%nat * x 0%nat)
    (make_diag (fun M i j => / M i j) (fun _ => 3) (fun _ => 2)) [(fun _ => 1); (fun _ => -1)] [[(fun _ => 2); (fun _ => 0)]] = Ok xs /\ length xs = 2%nat.
Proof.
  assert (S1 : sees 1 (fun x => x 0%nat * x 0%nat)) by (intros x y H; rewrite (H 0%nat) by lia; auto).
  split; [intros M; auto|]. split; [exact S1|]. split; [apply stable_argsort_ok|]. split.
  - split; [lra|]. intros l Hl. destruct (C21_nes stable_argsort (map (fun _ => Fin 0) l) true stable_argsort_ok) as (U1 & U2 & _); [rewrite map_length; lia|apply Forall_map, Forall_forall; auto|].
    rewrite map_length in U1. split; [lia|]. split; auto.
  - destruct (C211_nes (fun M i j => exp (M i j)) stable_argsort true (fun _ => Fin 0) (fun _ => []) 1 0.6 (fun x => x 0%nat * x 0%nat) (fun _ => 3) (fun _ => 2) [(fun _ => 1); (fun _ => -1)] [[(fun _ => 2); (fun _ => 0)]]) as (xs & E & L & _); auto.
    + apply stable_argsort_ok.
    + intros M; auto.
    + lra.
    + discriminate.
    + exists xs. auto.
Qed.

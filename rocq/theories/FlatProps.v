(* C217: what SNES, PGPE and CEM do on average where all solutions are equally good. *)
From Coq Require Import Reals String Lra.
From Verif Require Import Prelude MatLib RankModel CemModel DistModel ClipUpModel FuncModel SafModel ExpProps.
Open Scope R_scope.

(* ---- spec: averages over whole runs of k generations with m draws each ---- *)
Fixpoint avg_runs (D : dist) (m k : nat) (g : list (list vect) -> R) : R :=
  match k with O => g [] | S r => avg_n D m (fun zs => avg_runs D m r (fun ds => g (zs :: ds))) end.
Definition probabilities (D : dist) : Prop := total D = 1 /\ Forall (fun p => 0 <= fst p) D.
Definition no_limits : limits := Limits None None None.

(* ---- averages ---- *)
Lemma avg_le D g h : Forall (fun p => 0 <= fst p) D -> (forall z, g z <= h z) -> avg D g <= avg D h.
Proof.
  intros P H. unfold avg. induction P as [|p D Hp P IH]; cbn [map]; rewrite ?rsum_cons; [lra|]. pose proof (Rmult_le_compat_l _ _ _ Hp (H (snd p))). lra.
Qed.
Lemma avg_n_le D n : Forall (fun p => 0 <= fst p) D -> forall g h, (forall zs, length zs = n -> g zs <= h zs) -> avg_n D n g <= avg_n D n h.
Proof. intros P. induction n as [|n IH]; intros g h H; cbn; [apply H; auto|]. apply avg_le; auto. intros z. apply IH. intros zs L. apply H. cbn. lia. Qed.
Lemma avg_n_minus D n g h : avg_n D n (fun zs => g zs - h zs) = avg_n D n g - avg_n D n h.
Proof. rewrite (avg_n_ext D n _ (fun zs => g zs + (-1) * h zs)) by (intros; ring). rewrite avg_n_plus, avg_n_scale. ring. Qed.
Lemma avg_n_wsum D n G : total D = 1 -> avg D G = 0 -> forall cs, avg_n D n (fun zs => wsum cs (map G zs)) = 0.
Proof.
  intros T E. induction n as [|n IH]; intros cs; cbn [avg_n]; [destruct cs; reflexivity|].
  destruct cs as [|c cs].
  - rewrite (avg_ext D _ (fun _ => 0)); [rewrite avg_const; ring|]. intros z. rewrite (avg_n_ext D n _ (fun _ => 0)) by reflexivity. apply avg_n_const. auto.
  - rewrite (avg_ext D _ (fun z => c * G z)); [rewrite avg_scale, E; ring|]. intros z.
    rewrite (avg_n_ext D n _ (fun zs => c * G z + wsum cs (map G zs))) by reflexivity. rewrite avg_n_plus, avg_n_const, IH by auto. ring.
Qed.
Lemma avg_n_at D n i g : total D = 1 -> (i < n)%nat -> avg_n D n (fun zs => g (nth i zs (fun _ => 0))) = avg D g.
Proof.
  intros T. revert i. induction n as [|n IH]; intros i H; [lia|]. cbn [avg_n]. destruct i as [|i].
  - apply avg_ext. intros z. cbn [nth]. apply avg_n_const. auto.
  - rewrite (avg_ext D _ (fun _ => avg D g)); [rewrite avg_const, T; ring|]. intros z. cbn [nth]. apply IH. lia.
Qed.
Lemma avg_n_two D n : total D = 1 -> forall i k g h, (i < n)%nat -> (k < n)%nat -> i <> k ->
  avg_n D n (fun zs => g (nth i zs (fun _ => 0)) * h (nth k zs (fun _ => 0))) = avg D g * avg D h.
Proof.
  intros T. induction n as [|n IH]; intros i k g h Hi Hk N; [lia|]. cbn [avg_n]. destruct i as [|i], k as [|k]; [lia| | |].
  - rewrite (avg_ext D _ (fun z => avg D h * g z)); [rewrite avg_scale; ring|]. intros z. cbn [nth]. rewrite avg_n_scale, avg_n_at by (auto; lia). ring.
  - rewrite (avg_ext D _ (fun z => avg D g * h z)); [rewrite avg_scale; ring|]. intros z. cbn [nth].
    rewrite (avg_n_ext D n _ (fun zs => h z * g (nth i zs (fun _ => 0)))) by (intros; ring). rewrite avg_n_scale, avg_n_at by (auto; lia). ring.
  - rewrite (avg_ext D _ (fun _ => avg D g * avg D h)); [rewrite avg_const, T; ring|]. intros z. cbn [nth]. apply IH; lia.
Qed.
(* sums over chosen draws *)
Definition sum_at (g : vect -> R) (es : list nat) (zs : list vect) : R := rsum (map (fun i => g (nth i zs (fun _ => 0))) es).
Lemma sum_at_avg D n g es : total D = 1 -> Forall (fun i => (i < n)%nat) es -> avg_n D n (sum_at g es) = INR (length es) * avg D g.
Proof.
  intros T. induction 1 as [|i es Hi F IH]; [rewrite (avg_n_ext D n _ (fun _ => 0)) by reflexivity; rewrite avg_n_const by auto; cbn; ring|].
  rewrite (avg_n_ext D n _ (fun zs => g (nth i zs (fun _ => 0)) + sum_at g es zs)) by reflexivity.
  rewrite avg_n_plus, IH. rewrite (avg_n_at D n i g) by auto. cbn [length]. rewrite S_INR. ring.
Qed.
Lemma sum_at_other D n g i es : total D = 1 -> (i < n)%nat -> Forall (fun i => (i < n)%nat) es -> ~ In i es -> avg D g = 0 ->
  avg_n D n (fun zs => g (nth i zs (fun _ => 0)) * sum_at g es zs) = 0.
Proof.
  intros T Hi F NI E. induction F as [|k es Hk F IH].
  - rewrite (avg_n_ext D n _ (fun _ => 0)); [apply avg_n_const; auto|]. intros. unfold sum_at. cbn. ring.
  - rewrite (avg_n_ext D n _ (fun zs => g (nth i zs (fun _ => 0)) * g (nth k zs (fun _ => 0)) + g (nth i zs (fun _ => 0)) * sum_at g es zs)).
    + rewrite avg_n_plus, IH by (intros I; apply NI; right; auto). rewrite (avg_n_two D n T i k g g) by (auto; intros ->; apply NI; left; auto). rewrite E. ring.
    + intros zs _. unfold sum_at. cbn [map]. rewrite rsum_cons. ring.
Qed.
Lemma sum_at_square D n g es : total D = 1 -> Forall (fun i => (i < n)%nat) es -> NoDup es -> avg D g = 0 ->
  avg_n D n (fun zs => sum_at g es zs * sum_at g es zs) = INR (length es) * avg D (fun z => g z * g z).
Proof.
  intros T F N E. induction F as [|i es Hi F IH].
  - rewrite (avg_n_ext D n _ (fun _ => 0)); [rewrite avg_n_const by auto; cbn; ring|]. intros. unfold sum_at. cbn. ring.
  - inversion N; subst. rewrite (avg_n_ext D n _ (fun zs => (fun z => g z * g z) (nth i zs (fun _ => 0)) + (2 * (g (nth i zs (fun _ => 0)) * sum_at g es zs) + sum_at g es zs * sum_at g es zs))).
    + rewrite !avg_n_plus, avg_n_scale, IH by auto. rewrite (avg_n_at D n i (fun z => g z * g z)), sum_at_other by auto. cbn [length]. rewrite S_INR. ring.
    + intros zs _. unfold sum_at. cbn [map]. rewrite rsum_cons. ring.
Qed.

(* ---- one generation ---- *)
Section Flat.
Variables (n m : nat) (ranking : string) (weigh : list R -> list R) (elite : list R -> list nat) (K : kind) (stdev_lr : R) (L : limits) (c lr : R) (D : dist).
Hypothesis Pr : probabilities D.
Let T : total D = 1. Proof. apply Pr. Qed.
Definition flat : vect -> R := fun _ => c.
(* the number of solutions, and their fitnesses *)
Definition size : nat := match K with Mirrored _ => 2 * m | _ => m end.
Definition equal_fits : list R := repeat c size.
Notation st := (fill R K flat).
Lemma flat_fits mu sigma o zs : length zs = m -> s_fits R (st mu sigma o zs) = equal_fits.
Proof.
  intros E. cbn [fill s_fits]. assert (A : forall l : list vect, map flat l = repeat c (length l)) by (induction l as [|x l IH]; cbn; [auto|]; rewrite IH; reflexivity).
  rewrite A. unfold equal_fits, size. f_equal. destruct K; cbn [draw]; rewrite ?map_length; auto. rewrite (length_pairs (fun z j => mu j + sigma j * z j) (fun z j => mu j - sigma j * z j)). rewrite <- E. reflexivity.
Qed.
Lemma divide_linear opt w : exists (b : bool) k, forall g, finite_result (divide_grad opt g w) = if b then Some (k * g) else None.
Proof.
  unfold divide_grad. destruct opt as [s|]; [|exists true, 1; intros; cbn; f_equal; ring].
  assert (Q : forall d, exists (b : bool) k, forall g, rdivo g d = if b then Some (k * g) else None).
  { intros d. unfold rdivo. destruct (Req_EM_T d 0); [exists false, 0; auto|]. exists true, (/ d). intros. f_equal. unfold Rdiv. ring. }
  destruct (String.eqb s "num_solutions"); [apply Q|]. destruct (String.eqb s "num_directions"); [apply Q|]. destruct (String.eqb s "total_weight"); [apply Q|].
  destruct (String.eqb s "weight_stdev"); [|exists false, 0; auto]. destruct (cstd w); [apply Q|exists false, 0; auto].
Qed.
Definition fixed_weights := centered_weights ranking (weigh equal_fits).
Definition elites_of := elite equal_fits.
Hypothesis In_range : K = Elites -> Forall (fun i => (i < m)%nat) elites_of.
Lemma chosen_flat mu sigma o zs : length zs = m -> K = Elites -> forall j, coord (chosen elite R (st mu sigma o zs)) j = map (fun i => mu j + sigma j * nth i zs (fun _ => 0) j) elites_of.
Proof.
  intros E KE j. unfold chosen. rewrite flat_fits by auto. fold elites_of. unfold coord. rewrite map_map. apply map_ext_in. intros i Hi.
  pose proof (proj1 (Forall_forall _ _) (In_range KE) i Hi) as Hm. cbn [fill s_pop]. rewrite KE. cbn [draw]. rewrite (nth_indep _ _ (fun j => mu j + sigma j * (fun _ => 0) j)) by (rewrite map_length; exact (eq_ind_r (fun k => (i < k)%nat) Hm E)).
  rewrite (map_nth (fun (z : vect) (j : nat) => mu j + sigma j * z j) zs (fun _ => 0)). reflexivity.
Qed.
Lemma rmean_shift a s g (es : list nat) : es <> [] -> rmean (map (fun i => a + s * g i) es) = a + s * (rsum (map g es) / INR (length es)).
Proof.
  intros N. unfold rmean. rewrite map_length. assert (NZ : INR (length es) <> 0) by (apply not_0_INR; destruct es; [congruence|discriminate]).
  assert (A : rsum (map (fun i => a + s * g i) es) = INR (length es) * a + s * rsum (map g es)); [|rewrite A; field; auto].
  clear. induction es as [|i es IH]; [cbn; ring|]. cbn [map length]. rewrite !rsum_cons, S_INR, IH. ring.
Qed.
(* the gradient of the center: whether it is a number depends neither on the draws nor on the coordinate, and it vanishes on average *)
Lemma mu_flat mu sigma o : exists (b : bool) (g : list vect -> nat -> R),
  (forall zs j, length zs = m -> mu_grad ranking weigh elite R K (st mu sigma o zs) j = if b then Some (g zs j) else None) /\
  (forall j, avg D (fun z => z j) = 0 -> avg_n D m (fun zs => g zs j) = 0).
Proof.
  assert (Z : forall s j, avg D (fun z => z j) = 0 -> avg D (fun z => s * z j) = 0) by (intros s j E; rewrite avg_scale, E; ring).
  case_eq K; [intros op EK|intros op EK|intros EK|intros EK].
  - destruct (divide_linear (divide_mu op) fixed_weights) as (b & k & H). exists b, (fun zs j => k * wsum fixed_weights (map (fun z => sigma j * z j) zs)). split.
    + intros zs j E. unfold mu_grad. rewrite <- EK, flat_fits by auto. fold fixed_weights. rewrite EK. rewrite H. destruct b; auto. f_equal. f_equal. unfold plain_mu. f_equal.
      cbn [fill s_pop s_mu draw]. unfold coord. rewrite !map_map. apply map_ext. intros. ring.
    + intros j E. rewrite avg_n_scale, avg_n_wsum by auto. ring.
  - destruct (divide_linear (divide_mu op) fixed_weights) as (b & k & H). exists b, (fun zs j => k * wsum (map2 (fun p q => (p - q) / 2) (evens fixed_weights) (odds fixed_weights)) (map (fun z => sigma j * z j) zs)). split.
    + intros zs j E. unfold mu_grad. rewrite <- EK, flat_fits by auto. fold fixed_weights. rewrite EK. rewrite H. destruct b; auto. f_equal. f_equal. unfold symmetric_mu. f_equal.
      cbn [fill s_pop s_mu draw]. unfold coord. rewrite (map_pairs (fun x : vect => x j)), evens_pairs, map_map. apply map_ext. intros. ring.
    + intros j E. rewrite avg_n_scale, avg_n_wsum by auto. ring.
  - destruct (exp_weights ranking (weigh equal_fits)) as [w|] eqn:EW.
    + exists true, (fun zs j => wsum w (map (fun z => sigma j * z j) zs)). split.
      * intros zs j E. unfold mu_grad. rewrite <- EK, flat_fits, EW by auto. rewrite EK. cbn [option_map]. f_equal. unfold exp_mu. f_equal.
        cbn [fill s_pop s_mu draw]. unfold coord. rewrite !map_map. apply map_ext. intros. ring.
      * intros j E. rewrite avg_n_wsum by auto. ring.
    + exists false, (fun _ _ => 0). split.
      * intros zs j E. unfold mu_grad. rewrite <- EK, flat_fits, EW by auto. rewrite EK. reflexivity.
      * intros. apply avg_n_const. auto.
  - destruct (list_eq_dec Nat.eq_dec elites_of []) as [EE|NE].
    + exists false, (fun _ _ => 0). split.
      * intros zs j E. unfold mu_grad. rewrite <- EK. rewrite chosen_flat, EE by auto. reflexivity.
      * intros. apply avg_n_const. auto.
    + exists true, (fun zs j => sigma j / INR (length elites_of) * sum_at (fun z => z j) elites_of zs). split.
      * intros zs j E. unfold mu_grad. rewrite <- EK. rewrite chosen_flat by auto. unfold cmean. destruct (map _ elites_of) eqn:EM; [apply map_eq_nil in EM; contradiction|]. rewrite <- EM.
        rewrite (rmean_shift (mu j) (sigma j) (fun i => nth i zs (fun _ => 0) j)) by auto. cbn [option_map fill s_mu]. f_equal. unfold sum_at. unfold Rdiv. ring.
      * intros j E. rewrite avg_n_scale, sum_at_avg, E by auto. ring.
Qed.
(* the gradient of the standard deviation of PGPE and SNES *)
Definition spread_of (mu sigma : vect) (zs : list vect) (j : nat) : R := rstd (map (fun i => mu j + sigma j * nth i zs (fun _ => 0) j) elites_of).
Lemma sigma_flat mu sigma o : exists (b : nat -> bool) (g : list vect -> nat -> R),
  (forall zs j, length zs = m -> sigma_grad ranking weigh elite R K (st mu sigma o zs) j = if b j then Some (g zs j) else None) /\
  (K <> Elites -> forall j, avg D (fun z => z j * z j) = 1 -> avg_n D m (fun zs => g zs j) = 0) /\
  (K = Elites -> forall zs j, g zs j = spread_of mu sigma zs j - sigma j /\ b j = (2 <=? length elites_of)%nat).
Proof.
  assert (Z : forall s j, avg D (fun z => z j * z j) = 1 -> avg D (fun z => s * (z j * z j - 1)) = 0) by (intros s j E; rewrite avg_scale, avg_minus, E, avg_const, T; ring).
  case_eq K; [intros op EK|intros op EK|intros EK|intros EK].
  - destruct (divide_linear (divide_sigma op) fixed_weights) as (b & k & H). exists (fun j => if Req_EM_T (sigma j) 0 then false else b), (fun zs j => k * wsum fixed_weights (map (fun z => sigma j * (z j * z j - 1)) zs)). split; [|split; [|congruence]].
    + intros zs j E. unfold sigma_grad. rewrite <- EK, flat_fits by auto. fold fixed_weights. rewrite EK. rewrite H. cbn [fill s_sigma]. unfold nonzero. destruct (Req_EM_T (sigma j) 0); auto. destruct b; auto. f_equal. f_equal. unfold plain_sigma. f_equal.
      cbn [fill s_pop s_mu draw]. unfold coord. rewrite !map_map. apply map_ext. intros. field. auto.
    + intros _ j E. rewrite avg_n_scale, avg_n_wsum by auto. ring.
  - destruct (divide_linear (divide_sigma op) fixed_weights) as (b & k & H). exists (fun j => if Req_EM_T (sigma j) 0 then false else b), (fun zs j => k * wsum (map2 (fun p q => (p + q) / 2) (evens fixed_weights) (odds fixed_weights)) (map (fun z => sigma j * (z j * z j - 1)) zs)). split; [|split; [|congruence]].
    + intros zs j E. unfold sigma_grad. rewrite <- EK, flat_fits by auto. fold fixed_weights. rewrite EK. rewrite H. cbn [fill s_sigma]. unfold nonzero. destruct (Req_EM_T (sigma j) 0); auto. destruct b; auto. f_equal. f_equal. unfold symmetric_sigma. f_equal.
      cbn [fill s_pop s_mu draw]. unfold coord. rewrite (map_pairs (fun x : vect => x j)), evens_pairs, map_map. apply map_ext. intros. field. auto.
    + intros _ j E. rewrite avg_n_scale, avg_n_wsum by auto. ring.
  - destruct (exp_weights ranking (weigh equal_fits)) as [w|] eqn:EW.
    + exists (fun j => if Req_EM_T (sigma j) 0 then false else true), (fun zs j => wsum w (map (fun z => 1 * (z j * z j - 1)) zs)). split; [|split; [|congruence]].
      * intros zs j E. unfold sigma_grad. rewrite <- EK, flat_fits, EW by auto. rewrite EK. cbn [option_map fill s_sigma]. unfold nonzero. destruct (Req_EM_T (sigma j) 0); auto. f_equal. unfold exp_sigma. f_equal.
        cbn [fill s_pop s_mu draw]. unfold coord. rewrite !map_map. apply map_ext. intros. field. auto.
      * intros _ j E. rewrite avg_n_wsum by auto. ring.
    + exists (fun _ => false), (fun _ _ => 0). split; [|split; [|congruence]].
      * intros zs j E. unfold sigma_grad. rewrite <- EK, flat_fits, EW by auto. rewrite EK. cbn [option_map]. unfold nonzero. destruct (Req_EM_T _ 0); reflexivity.
      * intros. apply avg_n_const. auto.
  - exists (fun _ => 2 <=? length elites_of)%nat, (fun zs j => spread_of mu sigma zs j - sigma j). split; [|split; [congruence|auto]].
    intros zs j E. unfold sigma_grad. rewrite <- EK, chosen_flat by auto. unfold spread_of, cstd. destruct elites_of as [|i [|k r]] eqn:EE; cbn [map length]; reflexivity.
Qed.
(* ---- whole runs ---- *)
Definition limited (sigma : vect) (j : nat) (t : R) : R := limit_one (at_coord (l_min L) j) (at_coord (l_max L) j) (at_coord (l_change L) j) (sigma j) t.
Definition next (mu sigma : vect) (zs : list vect) : option (vect * vect) :=
  match finite n (mu_grad ranking weigh elite R K (st mu sigma lr zs)), finite n (sigma_grad ranking weigh elite R K (st mu sigma lr zs)) with
  | Some gm, Some gs => Some (fun j => mu j + lr * gm j, fun j => limited sigma j (new_sigma K (sigma j) (stdev_lr * gs j)))
  | _, _ => None
  end.
Notation search := (search n ranking weigh elite R follow_rate K stdev_lr L flat).
Notation steps := (steps n ranking weigh elite R follow_rate K stdev_lr L flat).
(* the state after the generations with the given draws; it is the last state before the first number which is not finite, if there is one *)
Definition at_end (mu sigma : vect) (ds : list (list vect)) : state R :=
  match ds with [] => st mu sigma lr [] | zs :: r => last (search mu sigma lr zs r) (st mu sigma lr zs) end.
Lemma search_next mu sigma zs zs' r : search mu sigma lr zs (zs' :: r) = st mu sigma lr zs :: match next mu sigma zs with None => [] | Some p => search (fst p) (snd p) lr zs' r end.
Proof.
  unfold SafModel.search. cbn [SafModel.steps]. f_equal. unfold step, next.
  destruct (finite n (mu_grad ranking weigh elite R K (st mu sigma lr zs))); [|reflexivity]. destruct (finite n (sigma_grad ranking weigh elite R K (st mu sigma lr zs))); reflexivity.
Qed.
Lemma last_default {A} (l : list A) a b : l <> [] -> last l a = last l b.
Proof. induction l as [|x l IH]; [congruence|]. intros _. destruct l; [reflexivity|]. cbn [last] in *. apply IH. discriminate. Qed.
Lemma at_end_next mu sigma zs zs' r : at_end mu sigma (zs :: zs' :: r) = match next mu sigma zs with None => st mu sigma lr zs | Some p => at_end (fst p) (snd p) (zs' :: r) end.
Proof.
  cbn [at_end]. rewrite search_next. destruct (next mu sigma zs) as [p|]; [|reflexivity].
  assert (N : search (fst p) (snd p) lr zs' r <> []) by (unfold SafModel.search; destruct r; discriminate).
  rewrite <- (last_default _ (st mu sigma lr zs) _ N). destruct (search (fst p) (snd p) lr zs' r) eqn:E; [congruence|reflexivity].
Qed.
Lemma avg_runs_ext k : forall g h, (forall zs ds, length zs = m -> g (zs :: ds) = h (zs :: ds)) -> avg_runs D m (S k) g = avg_runs D m (S k) h.
Proof. clear. intros g h H. cbn [avg_runs]. apply avg_n_ext. intros zs E. induction k as [|k IH] in g, h, H, zs, E |- *; cbn [avg_runs]; [apply H; auto|]. apply avg_n_ext. intros zs' E'. apply (IH (fun l => g (zs :: l)) (fun l => h (zs :: l))); auto. Qed.
Lemma avg_runs_const k x : avg_runs D m k (fun _ => x) = x.
Proof. induction k as [|k IH]; cbn [avg_runs]; [auto|]. rewrite (avg_n_ext D m _ (fun _ => x)) by auto. apply avg_n_const. auto. Qed.
(* a quantity which does not grow on average in one generation does not grow on average over a run *)
Lemma runs_le (F : vect -> vect -> R) (P : vect -> vect -> Prop) :
  (forall mu sigma zs p, P mu sigma -> length zs = m -> next mu sigma zs = Some p -> P (fst p) (snd p)) ->
  (forall mu sigma, P mu sigma -> avg_n D m (fun zs => match next mu sigma zs with Some p => F (fst p) (snd p) | None => F mu sigma end) <= F mu sigma) ->
  forall k mu sigma, P mu sigma -> avg_runs D m (S k) (fun ds => F (s_mu R (at_end mu sigma ds)) (s_sigma R (at_end mu sigma ds))) <= F mu sigma.
Proof.
  intros HP HF. induction k as [|k IH]; intros mu sigma Pm.
  - cbn [avg_runs]. rewrite (avg_n_ext D m _ (fun _ => F mu sigma)) by reflexivity. rewrite avg_n_const by auto. lra.
  - change (avg_runs D m (S (S k)) ?g) with (avg_n D m (fun zs => avg_runs D m (S k) (fun ds => g (zs :: ds)))).
    eapply Rle_trans; [|apply (HF mu sigma Pm)]. apply avg_n_le; [apply Pr|]. intros zs E. destruct (next mu sigma zs) as [p|] eqn:EN.
    + eapply Rle_trans; [|apply (IH (fst p) (snd p))]; [|eapply HP; eauto]. apply Req_le. apply avg_runs_ext. intros zs' ds E'. rewrite at_end_next, EN. reflexivity.
    + apply Req_le. rewrite <- (avg_runs_const (S k) (F mu sigma)). apply avg_runs_ext. intros zs' ds E'. rewrite at_end_next, EN. reflexivity.
Qed.
Lemma avg_runs_opp k : forall g, avg_runs D m k (fun ds => - g ds) = - avg_runs D m k g.
Proof.
  induction k as [|k IH]; intros g; cbn [avg_runs]; [auto|]. rewrite (avg_n_ext D m _ (fun zs => (-1) * avg_runs D m k (fun ds => g (zs :: ds)))); [rewrite avg_n_scale; ring|].
  intros zs _. rewrite (IH (fun ds => g (zs :: ds))). ring.
Qed.
Lemma runs_eq (F : vect -> vect -> R) (P : vect -> vect -> Prop) :
  (forall mu sigma zs p, P mu sigma -> length zs = m -> next mu sigma zs = Some p -> P (fst p) (snd p)) ->
  (forall mu sigma, P mu sigma -> avg_n D m (fun zs => match next mu sigma zs with Some p => F (fst p) (snd p) | None => F mu sigma end) = F mu sigma) ->
  forall k mu sigma, P mu sigma -> avg_runs D m (S k) (fun ds => F (s_mu R (at_end mu sigma ds)) (s_sigma R (at_end mu sigma ds))) = F mu sigma.
Proof.
  intros HP HF k mu sigma Pm. apply Rle_antisym; [apply (runs_le F P); auto; intros; apply Req_le; auto|].
  assert (Q : avg_runs D m (S k) (fun ds => - F (s_mu R (at_end mu sigma ds)) (s_sigma R (at_end mu sigma ds))) <= - F mu sigma).
  - apply (runs_le (fun a b => - F a b) P); auto. intros mu1 sigma1 P1. apply Req_le. transitivity (- avg_n D m (fun zs => match next mu1 sigma1 zs with Some p => F (fst p) (snd p) | None => F mu1 sigma1 end)); [|rewrite (HF mu1 sigma1 P1); reflexivity].
    rewrite (avg_n_ext D m _ (fun zs => (-1) * match next mu1 sigma1 zs with Some p => F (fst p) (snd p) | None => F mu1 sigma1 end)); [rewrite avg_n_scale; ring|].
    intros zs _. destruct (next mu1 sigma1 zs); ring.
  - rewrite avg_runs_opp in Q. lra.
Qed.
Lemma finite_spec (b : nat -> bool) (g : nat -> R) v : (forall j, v j = if b j then Some (g j) else None) ->
  match finite n v with Some u => forallb b (seq 0 n) = true /\ forall j, u j = if b j then g j else 0 | None => forallb b (seq 0 n) = false end.
Proof.
  clear. intros H. unfold finite. assert (E : forall l, forallb (fun j => match v j with Some _ => true | None => false end) l = forallb b l).
  { induction l as [|x l IH]; cbn [forallb]; [auto|]. rewrite IH, H. destruct (b x); reflexivity. }
  rewrite E. destruct (forallb b (seq 0 n)); [|auto]. split; auto. intros j. rewrite H. destruct (b j); reflexivity.
Qed.
(* the next center and standard deviations: whether they exist depends on the present ones only *)
Lemma next_flat mu sigma : exists (ok : bool) (gm gs : list vect -> nat -> R),
  (forall zs, length zs = m -> match next mu sigma zs with
     | Some p => ok = true /\ forall j, (j < n)%nat -> fst p j = mu j + lr * gm zs j /\ snd p j = limited sigma j (new_sigma K (sigma j) (stdev_lr * gs zs j))
     | None => ok = false end) /\
  (forall j, avg D (fun z => z j) = 0 -> avg_n D m (fun zs => gm zs j) = 0) /\
  (K <> Elites -> forall j, avg D (fun z => z j * z j) = 1 -> avg_n D m (fun zs => gs zs j) = 0) /\
  (K = Elites -> forall zs j, gs zs j = spread_of mu sigma zs j - sigma j) /\
  (K = Elites -> (2 <= length elites_of)%nat -> ok = true).
Proof.
  destruct (mu_flat mu sigma lr) as (b & gm & M1 & M2). destruct (sigma_flat mu sigma lr) as (bs & gs & S1 & S2 & S3).
  exists (forallb (fun _ => b) (seq 0 n) && forallb bs (seq 0 n))%bool, gm, gs. split; [|split; [auto|split; [auto|split]]].
  - intros zs E. unfold next. pose proof (finite_spec (fun _ => b) (gm zs) _ (fun j => M1 zs j E)) as A. pose proof (finite_spec bs (gs zs) _ (fun j => S1 zs j E)) as B.
    destruct (finite n (mu_grad ranking weigh elite R K (st mu sigma lr zs))) as [u|]; [|rewrite A; reflexivity]. destruct A as (A1 & A2). rewrite A1. cbn [andb].
    destruct (finite n (sigma_grad ranking weigh elite R K (st mu sigma lr zs))) as [v|]; [|exact B]. destruct B as (B1 & B2). split; [auto|]. intros j Hj. cbn [fst snd].
    assert (Hb : b = true) by (apply (proj1 (forallb_forall _ _) A1 j); apply in_seq; lia). assert (Hs : bs j = true) by (apply (proj1 (forallb_forall _ _) B1 j); apply in_seq; lia).
    rewrite A2, B2, Hb, Hs. auto.
  - intros EK zs j. apply (S3 EK zs j).
  - intros EK N2. apply andb_true_intro. split; apply forallb_forall; intros j _.
    + destruct b; auto. exfalso. assert (H := M1 (repeat (fun _ => 0) m) 0%nat (repeat_length _ _)). rewrite EK in H. unfold mu_grad in H. rewrite <- EK, chosen_flat in H by (auto using repeat_length).
      destruct elites_of; [cbn in N2; lia|discriminate H].
    + destruct (S3 EK [] j) as (_ & ->). apply Nat.leb_le. auto.
Qed.
End Flat.
Lemma unlimited sigma j t : limited no_limits sigma j t = t.
Proof. reflexivity. Qed.
(* ---- the theorems ---- *)
(* Where all solutions are equally good, the center does not move on average: with any of the three algorithms, any ranking method, any limits on the
   standard deviations, any population size and after any number of generations. *)
Theorem C217_center : forall n m ranking weigh elite K stdev_lr L c lr D, probabilities D -> (K = Elites -> Forall (fun i => (i < m)%nat) (elite (repeat c m))) ->
  forall j, (j < n)%nat -> avg D (fun z => z j) = 0 ->
  forall k mu sigma, avg_runs D m (S k) (fun ds => s_mu R (at_end n ranking weigh elite K stdev_lr L c lr mu sigma ds) j) = mu j.
Proof.
  intros n m ranking weigh elite K stdev_lr L c lr D Pr El j Hj E k mu sigma. assert (El' : K = Elites -> Forall (fun i => (i < m)%nat) (elites_of m elite K c)) by (intros EK; unfold elites_of, equal_fits, size; rewrite EK; auto).
  refine (runs_eq n m ranking weigh elite K stdev_lr L c lr D Pr (fun a _ => a j) (fun _ _ => True) _ _ k mu sigma Logic.I); [auto|].
  intros mu1 sigma1 _. destruct (next_flat n m ranking weigh elite K stdev_lr L c lr D Pr El' mu1 sigma1) as (ok & gm & gs & N & A & _). destruct ok.
  - rewrite (avg_n_ext D m _ (fun zs => mu1 j + lr * gm zs j)).
    + rewrite avg_n_plus, avg_n_scale, avg_n_const, A by (auto; apply Pr). ring.
    + intros zs Lz. specialize (N zs Lz). destruct (next _ _ _ _ _ _ _ _ _ _ _ _) as [p|]; [|discriminate]. apply (proj1 (proj2 N j Hj)).
  - rewrite (avg_n_ext D m _ (fun zs => mu1 j)); [apply avg_n_const; apply Pr|]. intros zs Lz. specialize (N zs Lz). destruct (next _ _ _ _ _ _ _ _ _ _ _ _) as [p|]; [|auto]. destruct N; discriminate.
Qed.
(* Nor do the standard deviations of PGPE change on average, unless they are limited. *)
Theorem C217_pgpe : forall n m ranking weigh elite K o stdev_lr c lr D, probabilities D -> (K = Plain o \/ K = Mirrored o) ->
  forall j, (j < n)%nat -> avg D (fun z => z j * z j) = 1 ->
  forall k mu sigma, avg_runs D m (S k) (fun ds => s_sigma R (at_end n ranking weigh elite K stdev_lr no_limits c lr mu sigma ds) j) = sigma j.
Proof.
  intros n m ranking weigh elite K o stdev_lr c lr D Pr HK j Hj E k mu sigma. assert (NK : K <> Elites) by (destruct HK; congruence).
  refine (runs_eq n m ranking weigh elite K stdev_lr no_limits c lr D Pr (fun _ b => b j) (fun _ _ => True) _ _ k mu sigma Logic.I); [auto|].
  intros mu1 sigma1 _. destruct (next_flat n m ranking weigh elite K stdev_lr no_limits c lr D Pr (fun e => False_ind _ (NK e)) mu1 sigma1) as (ok & gm & gs & N & _ & A & _). destruct ok.
  - rewrite (avg_n_ext D m _ (fun zs => sigma1 j + stdev_lr * gs zs j)).
    + rewrite avg_n_plus, avg_n_scale, avg_n_const, A by (auto; apply Pr). ring.
    + intros zs Lz. specialize (N zs Lz). destruct (next _ _ _ _ _ _ _ _ _ _ _ _) as [p|]; [|discriminate]. rewrite (proj2 (proj2 N j Hj)), unlimited. destruct HK as [-> | ->]; reflexivity.
  - rewrite (avg_n_ext D m _ (fun zs => sigma1 j)); [apply avg_n_const; apply Pr|]. intros zs Lz. specialize (N zs Lz). destruct (next _ _ _ _ _ _ _ _ _ _ _ _) as [p|]; [|auto]. destruct N; discriminate.
Qed.
(* SNES: it is the logarithm which does not change on average; so the standard deviation itself does not shrink on average. *)
Theorem C217_snes : forall n m ranking weigh elite stdev_lr c lr D, probabilities D ->
  forall j, (j < n)%nat -> avg D (fun z => z j * z j) = 1 ->
  forall k mu sigma, 0 < sigma j ->
  avg_runs D m (S k) (fun ds => ln (s_sigma R (at_end n ranking weigh elite Exponential stdev_lr no_limits c lr mu sigma ds) j)) = ln (sigma j) /\
  sigma j <= avg_runs D m (S k) (fun ds => s_sigma R (at_end n ranking weigh elite Exponential stdev_lr no_limits c lr mu sigma ds) j).
Proof.
  intros n m ranking weigh elite stdev_lr c lr D Pr j Hj E k mu sigma Ps.
  assert (KE : Exponential = Elites -> Forall (fun i => (i < m)%nat) (elites_of m elite Exponential c)) by discriminate. assert (NK : Exponential <> Elites) by discriminate.
  assert (INV : forall (mu0 sigma0 : vect) zs p, 0 < sigma0 j -> length zs = m -> next n ranking weigh elite Exponential stdev_lr no_limits c lr mu0 sigma0 zs = Some p -> 0 < snd p j).
  { intros mu0 sigma0 zs p P0 Lz EN. destruct (next_flat n m ranking weigh elite Exponential stdev_lr no_limits c lr D Pr KE mu0 sigma0) as (ok & gm & gs & N & _). specialize (N zs Lz). rewrite EN in N.
    rewrite (proj2 (proj2 N j Hj)), unlimited. cbn [new_sigma]. unfold exp_new_sigma. apply Rmult_lt_0_compat; [auto|apply exp_pos]. }
  split.
  - refine (runs_eq n m ranking weigh elite Exponential stdev_lr no_limits c lr D Pr (fun _ b => ln (b j)) (fun _ s => 0 < s j) _ _ k mu sigma Ps); [intros; eapply INV; eauto|].
    intros mu1 sigma1 P1. destruct (next_flat n m ranking weigh elite Exponential stdev_lr no_limits c lr D Pr KE mu1 sigma1) as (ok & gm & gs & N & _ & A & _). destruct ok.
    + rewrite (avg_n_ext D m _ (fun zs => ln (sigma1 j) + (0.5 * stdev_lr) * gs zs j)).
      * rewrite avg_n_plus, avg_n_scale, avg_n_const, A by (auto; apply Pr). ring.
      * intros zs Lz. specialize (N zs Lz). destruct (next _ _ _ _ _ _ _ _ _ _ _ _) as [p|]; [|discriminate]. rewrite (proj2 (proj2 N j Hj)), unlimited. cbn [new_sigma]. unfold exp_new_sigma.
        rewrite ln_mult by (auto; apply exp_pos). rewrite ln_exp. ring.
    + rewrite (avg_n_ext D m _ (fun zs => ln (sigma1 j))); [apply avg_n_const; apply Pr|]. intros zs Lz. specialize (N zs Lz). destruct (next _ _ _ _ _ _ _ _ _ _ _ _) as [p|]; [|auto]. destruct N; discriminate.
  - enough (Q : avg_runs D m (S k) (fun ds => - s_sigma R (at_end n ranking weigh elite Exponential stdev_lr no_limits c lr mu sigma ds) j) <= - sigma j) by (rewrite avg_runs_opp in Q by (auto; apply Pr); lra).
    refine (runs_le n m ranking weigh elite Exponential stdev_lr no_limits c lr D Pr (fun _ b => - b j) (fun _ s => 0 < s j) _ _ k mu sigma Ps); [intros; eapply INV; eauto|].
    intros mu1 sigma1 P1. destruct (next_flat n m ranking weigh elite Exponential stdev_lr no_limits c lr D Pr KE mu1 sigma1) as (ok & gm & gs & N & _ & A & _). destruct ok.
    + apply Rle_trans with (avg_n D m (fun zs => - sigma1 j + (- (sigma1 j * (0.5 * stdev_lr))) * gs zs j)).
      * apply avg_n_le; [apply Pr|]. intros zs Lz. specialize (N zs Lz). destruct (next _ _ _ _ _ _ _ _ _ _ _ _) as [p|]; [|discriminate]. rewrite (proj2 (proj2 N j Hj)), unlimited. cbn [new_sigma]. unfold exp_new_sigma.
        pose proof (exp_ineq1_le (0.5 * (stdev_lr * gs zs j))) as I. pose proof (Rmult_le_compat_l (sigma1 j) _ _ (Rlt_le _ _ P1) I). lra.
      * rewrite avg_n_plus, avg_n_scale, avg_n_const, A by (auto; apply Pr). lra.
    + rewrite (avg_n_ext D m _ (fun zs => - sigma1 j)); [rewrite avg_n_const by apply Pr; lra|]. intros zs Lz. specialize (N zs Lz). destruct (next _ _ _ _ _ _ _ _ _ _ _ _) as [p|]; [|auto]. destruct N; discriminate.
Qed.
(* ---- the sample standard deviation ---- *)
Lemma avg_pos D g p z : Forall (fun p => 0 <= fst p) D -> In (p, z) D -> 0 < p -> (forall x, 0 <= g x) -> 0 < g z -> 0 < avg D g.
Proof.
  intros P. induction P as [|q D Hq P IH]; [contradiction|]. intros I Hp G Gz. unfold avg. cbn [map]. rewrite rsum_cons. fold (avg D g).
  assert (N : 0 <= avg D g) by (rewrite <- (Rmult_0_l (total D)), <- avg_const; apply avg_le; auto).
  destruct I as [-> |I]; [cbn [fst snd]; pose proof (Rmult_lt_0_compat _ _ Hp Gz); lra|]. specialize (IH I Hp G Gz). pose proof (Rmult_le_pos _ _ Hq (G (snd q))). lra.
Qed.
Lemma avg_n_pos D p z : Forall (fun p => 0 <= fst p) D -> In (p, z) D -> 0 < p -> total D = 1 -> forall m g, (forall zs, 0 <= g zs) -> 0 < g (repeat z m) -> 0 < avg_n D m g.
Proof.
  intros P I Hp T. induction m as [|m IH]; intros g G Gz; cbn [avg_n]; [exact Gz|]. apply (avg_pos D _ p z); auto.
  - intros x. rewrite <- (avg_n_const D m 0 T). apply avg_n_le; auto.
Qed.
Lemma some_probability D : probabilities D -> exists p z, In (p, z) D /\ 0 < p.
Proof.
  intros (T & P). enough (H : total D <= 0 \/ exists p z, In (p, z) D /\ 0 < p) by (destruct H; [lra|auto]). clear T. unfold total. induction P as [|q D Hq P IH]; [left; cbn; lra|]. cbn [map]. rewrite rsum_cons.
  destruct (Rle_lt_or_eq_dec _ _ Hq) as [L|E]; [right; destruct q as (p, z); exists p, z; split; [left; auto|auto]|].
  destruct IH as [IH|(p & z & I & H)]; [left; lra|right; exists p, z; split; [right; auto|auto]].
Qed.
Section Spread.
Variables (m : nat) (es : list nat) (D : dist) (mu sigma : vect) (j : nat).
Hypothesis Pr : probabilities D.
Hypothesis R1 : Forall (fun i => (i < m)%nat) es.
Hypothesis R2 : NoDup es.
Hypothesis R3 : (2 <= length es)%nat.
Hypothesis E1 : avg D (fun z => z j) = 0.
Hypothesis E2 : avg D (fun z => z j * z j) = 1.
Let X (zs : list vect) : R := rstd (map (fun i => mu j + sigma j * nth i zs (fun _ => 0) j) es).
Lemma spread_square zs : X zs * X zs = sigma j * sigma j / INR (length es - 1) * (sum_at (fun z => z j * z j) es zs - / INR (length es) * (sum_at (fun z => z j) es zs * sum_at (fun z => z j) es zs)).
Proof.
  clear E1 E2 R1 R2. unfold X, rstd. rewrite map_length. assert (NE : es <> []) by (destruct es; [cbn in R3; lia|discriminate]). assert (NZ : INR (length es) <> 0) by (apply not_0_INR; lia).
  assert (N1 : 0 < INR (length es - 1)) by (apply lt_0_INR; lia).
  rewrite sqrt_sqrt.
  2:{ apply Rmult_le_pos; [|left; apply Rinv_0_lt_compat; auto]. generalize (rmean (map (fun i => mu j + sigma j * nth i zs (fun _ => 0) j) es)). intros a. clear. induction (map _ es) as [|x l IH]; [cbn; lra|]. cbn [map]. rewrite rsum_cons. pose proof (Rle_0_sqr (x - a)) as Q. unfold Rsqr in Q. lra. }
  rewrite (rmean_shift (mu j) (sigma j) (fun i => nth i zs (fun _ => 0) j)) by auto. set (a := rsum (map (fun i => nth i zs (fun _ => 0) j) es) / INR (length es)).
  assert (A : forall l, rsum (map (fun x => (x - (mu j + sigma j * a)) * (x - (mu j + sigma j * a))) (map (fun i => mu j + sigma j * nth i zs (fun _ => 0) j) l)) =
    sigma j * sigma j * (rsum (map (fun i => nth i zs (fun _ => 0) j * nth i zs (fun _ => 0) j) l) - 2 * a * rsum (map (fun i => nth i zs (fun _ => 0) j) l) + INR (length l) * (a * a))).
  { clear. induction l as [|i l IH]; [cbn; ring|]. cbn [map length]. rewrite !rsum_cons, S_INR, IH. ring. }
  rewrite A. unfold sum_at, a. field. repeat split; try lra; auto.
Qed.
Lemma spread_average : avg_n D m (fun zs => X zs * X zs) = sigma j * sigma j.
Proof.
  assert (NZ : INR (length es) <> 0) by (apply not_0_INR; lia). assert (N1 : 0 < INR (length es - 1)) by (apply lt_0_INR; lia).
  rewrite (avg_n_ext D m _ (fun zs => sigma j * sigma j / INR (length es - 1) * (sum_at (fun z => z j * z j) es zs - / INR (length es) * (sum_at (fun z => z j) es zs * sum_at (fun z => z j) es zs)))) by (intros; apply spread_square).
  rewrite avg_n_scale, avg_n_minus, avg_n_scale. rewrite sum_at_avg, sum_at_square, E2 by (auto; apply Pr). rewrite minus_INR by lia. rewrite minus_INR in N1 by lia. cbn [INR] in *. field. split; [auto|lra].
Qed.
Lemma spread_nonneg zs : 0 <= X zs. Proof. apply sqrt_pos. Qed.
Lemma spread_shrinks : 0 < sigma j -> avg_n D m X < sigma j.
Proof.
  intros Ps. destruct (some_probability D Pr) as (p & z & I & Hp). destruct Pr as (T & P).
  assert (Q : 0 < avg_n D m (fun zs => (X zs - sigma j) * (X zs - sigma j))).
  { apply (avg_n_pos D p z); auto; [intros zs; pose proof (Rle_0_sqr (X zs - sigma j)) as Q; exact Q|].
    assert (Z : X (repeat z m) = 0).
    { unfold X. rewrite (map_ext_in _ (fun _ => mu j + sigma j * z j)).
      - assert (NE : es <> []) by (destruct es; [cbn in R3; lia|discriminate]). unfold rstd. rewrite map_length. assert (M : rmean (map (fun _ : nat => mu j + sigma j * z j) es) = mu j + sigma j * z j).
        { rewrite (rmean_shift (mu j) (sigma j) (fun _ => z j)) by auto. assert (NZ : INR (length es) <> 0) by (apply not_0_INR; lia). assert (A : forall l : list nat, rsum (map (fun _ => z j) l) = INR (length l) * z j) by (induction l as [|i l IH]; [cbn; ring|]; cbn [map length]; rewrite rsum_cons, S_INR, IH; ring). rewrite A. field. auto. }
        rewrite M, map_map. assert (A : forall l : list nat, rsum (map (fun _ => (mu j + sigma j * z j - (mu j + sigma j * z j)) * (mu j + sigma j * z j - (mu j + sigma j * z j))) l) = 0) by (induction l as [|i l IH]; [reflexivity|]; cbn [map]; rewrite rsum_cons, IH; ring). rewrite A. unfold Rdiv. rewrite Rmult_0_l. apply sqrt_0.
      - intros i Hi. pose proof (proj1 (Forall_forall _ _) R1 i Hi) as L. rewrite (nth_indep _ _ z) by (rewrite repeat_length; auto). rewrite nth_repeat. reflexivity. }
    rewrite Z. pose proof (Rmult_lt_0_compat _ _ Ps Ps). lra. }
  rewrite (avg_n_ext D m _ (fun zs => X zs * X zs + ((- (2 * sigma j)) * X zs + sigma j * sigma j))) in Q by (intros; ring). rewrite !avg_n_plus, avg_n_scale, avg_n_const, spread_average in Q by auto.
  assert (H : 0 < 2 * sigma j * (sigma j - avg_n D m X)) by lra. apply Rmult_lt_reg_l with (2 * sigma j); [lra|]. lra.
Qed.
End Spread.
(* CEM: the squared standard deviation does not change on average; the standard deviation itself shrinks, although nothing was learned. *)
Theorem C217_cem : forall n m ranking weigh elite c lr D, probabilities D -> Forall (fun i => (i < m)%nat) (elite (repeat c m)) -> NoDup (elite (repeat c m)) ->
  forall j, (j < n)%nat -> avg D (fun z => z j) = 0 -> avg D (fun z => z j * z j) = 1 ->
  forall k mu sigma,
  avg_runs D m (S k) (fun ds => let s := s_sigma R (at_end n ranking weigh elite Elites 1 no_limits c lr mu sigma ds) j in s * s) = sigma j * sigma j /\
  ((2 <= length (elite (repeat c m)))%nat -> 0 < sigma j ->
   avg_runs D m (S (S k)) (fun ds => s_sigma R (at_end n ranking weigh elite Elites 1 no_limits c lr mu sigma ds) j) < sigma j).
Proof.
  intros n m ranking weigh elite c lr D Pr R1 R2 j Hj E1 E2 k mu sigma.
  set (es := elite (repeat c m)) in *. assert (El : Elites = Elites -> Forall (fun i => (i < m)%nat) (elites_of m elite Elites c)) by (intros _; exact R1).
  assert (LE : elites_of m elite Elites c = es) by reflexivity.
  assert (NX : forall mu1 sigma1, exists ok, forall zs, length zs = m -> match next n ranking weigh elite Elites 1 no_limits c lr mu1 sigma1 zs with
      | Some p => ok = true /\ (2 <= length es)%nat /\ snd p j = rstd (map (fun i => mu1 j + sigma1 j * nth i zs (fun _ => 0) j) es) | None => ok = false end).
  { intros mu1 sigma1. destruct (next_flat n m ranking weigh elite Elites 1 no_limits c lr D Pr El mu1 sigma1) as (ok & gm & gs & N & _ & _ & A & B). exists ok. intros zs Lz. specialize (N zs Lz).
    destruct (next n ranking weigh elite Elites 1 no_limits c lr mu1 sigma1 zs) as [p|] eqn:EN; [|auto]. destruct N as (O & N). split; [auto|].
    assert (L2 : (2 <= length es)%nat).
    { destruct (le_lt_dec 2 (length es)) as [|L]; [auto|]. exfalso. unfold next in EN. destruct (finite n (mu_grad ranking weigh elite R Elites (fill R Elites (flat c) mu1 sigma1 lr zs))); [|discriminate].
      destruct (sigma_flat m ranking weigh elite Elites c D Pr El mu1 sigma1 lr) as (bs & g & S1 & _ & S3). pose proof (finite_spec n bs (g zs) _ (fun i => S1 zs i Lz)) as F.
      destruct (finite n (sigma_grad ranking weigh elite R Elites (fill R Elites (flat c) mu1 sigma1 lr zs))); [|discriminate]. destruct F as (F & _). rewrite forallb_forall in F. specialize (F j (proj2 (in_seq n 0 j) ltac:(lia))).
      rewrite (proj2 (S3 eq_refl zs j)), LE in F. apply Nat.leb_le in F. lia. }
    split; auto. rewrite (proj2 (N j Hj)), unlimited. cbn [new_sigma]. unfold plain_new_sigma. rewrite (A eq_refl zs j). unfold spread_of. rewrite LE. ring. }
  split.
  - refine (runs_eq n m ranking weigh elite Elites 1 no_limits c lr D Pr (fun _ b => b j * b j) (fun _ _ => True) _ _ k mu sigma Logic.I); [auto|].
    intros mu1 sigma1 _. destruct (NX mu1 sigma1) as (ok & N). destruct ok.
    + assert (L2 : (2 <= length es)%nat). { specialize (N (repeat (fun _ => 0) m) (repeat_length _ _)). destruct (next _ _ _ _ _ _ _ _ _ _ _ _); [apply N|discriminate]. }
      rewrite <- (spread_average m es D mu1 sigma1 j Pr R1 R2 L2 E1 E2). apply avg_n_ext. intros zs Lz. specialize (N zs Lz). destruct (next _ _ _ _ _ _ _ _ _ _ _ _) as [p|]; [|discriminate]. destruct N as (_ & _ & ->). reflexivity.
    + rewrite (avg_n_ext D m _ (fun zs => sigma1 j * sigma1 j)); [apply avg_n_const; apply Pr|]. intros zs Lz. specialize (N zs Lz). destruct (next _ _ _ _ _ _ _ _ _ _ _ _) as [p|]; [|auto]. destruct N; discriminate.
  - intros L2 Ps.
    assert (RL : forall k mu sigma, 0 <= sigma j -> avg_runs D m (S k) (fun ds => s_sigma R (at_end n ranking weigh elite Elites 1 no_limits c lr mu sigma ds) j) <= sigma j).
    { clear k mu sigma Ps. intros k mu sigma Ps. refine (runs_le n m ranking weigh elite Elites 1 no_limits c lr D Pr (fun _ b => b j) (fun _ s => 0 <= s j) _ _ k mu sigma Ps).
      - intros mu1 sigma1 zs p _ Lz EN. destruct (NX mu1 sigma1) as (ok & N). specialize (N zs Lz). rewrite EN in N. destruct N as (_ & _ & ->). apply sqrt_pos.
      - intros mu1 sigma1 P1. destruct (NX mu1 sigma1) as (ok & N). destruct ok.
        + rewrite (avg_n_ext D m _ (fun zs => rstd (map (fun i => mu1 j + sigma1 j * nth i zs (fun _ => 0) j) es))).
          * destruct P1 as [P1|Z]; [left; apply (spread_shrinks m es D mu1 sigma1 j Pr R1 R2 L2 E1 E2 P1)|].
            rewrite <- Z. rewrite (avg_n_ext D m _ (fun _ => 0)); [rewrite avg_n_const by apply Pr; lra|]. intros zs _. unfold rstd. rewrite (map_ext_in (fun i => mu1 j + 0 * nth i zs (fun _ => 0) j) (fun _ => mu1 j + 0 * 0)) by (intros; ring).
            rewrite (rmean_shift (mu1 j) 0 (fun _ => 0)) by (destruct es; [cbn in L2; lia|discriminate]). rewrite map_map.
            rewrite (map_ext_in _ (fun _ => 0)) by (intros; ring). assert (A : forall l : list nat, rsum (map (fun _ => 0) l) = 0) by (induction l as [|i l IH]; [reflexivity|]; cbn [map]; rewrite rsum_cons, IH; ring). rewrite A. unfold Rdiv. rewrite Rmult_0_l. apply sqrt_0.
          * intros zs Lz. specialize (N zs Lz). destruct (next _ _ _ _ _ _ _ _ _ _ _ _) as [p|]; [|discriminate]. apply N.
        + rewrite (avg_n_ext D m _ (fun zs => sigma1 j)); [rewrite avg_n_const by apply Pr; lra|]. intros zs Lz. specialize (N zs Lz). destruct (next _ _ _ _ _ _ _ _ _ _ _ _) as [p|]; [|auto]. destruct N; discriminate. }
    change (avg_runs D m (S (S k)) ?g) with (avg_n D m (fun zs => avg_runs D m (S k) (fun ds => g (zs :: ds)))).
    eapply Rle_lt_trans; [|apply (spread_shrinks m es D mu sigma j Pr R1 R2 L2 E1 E2 Ps)]. apply avg_n_le; [apply Pr|]. intros zs Lz.
    destruct (next_flat n m ranking weigh elite Elites 1 no_limits c lr D Pr El mu sigma) as (ok & gm0 & gs0 & N0 & _ & _ & _ & B). specialize (N0 zs Lz). rewrite (B eq_refl L2) in N0.
    destruct (NX mu sigma) as (ok' & N). specialize (N zs Lz). destruct (next n ranking weigh elite Elites 1 no_limits c lr mu sigma zs) as [p|] eqn:EN; [|discriminate]. destruct N as (_ & _ & N).
    cbv beta. rewrite <- N. eapply Rle_trans; [|apply (RL k (fst p) (snd p))]; [|rewrite N; apply sqrt_pos]. apply Req_le. apply avg_runs_ext. intros zs' ds E'. rewrite at_end_next, EN. reflexivity.
Qed.
Print Assumptions C217_center.
Print Assumptions C217_pgpe.
Print Assumptions C217_snes.
Print Assumptions C217_cem.
(* two equally likely draws; the first two of four solutions are the elites *)
Example C217_example : let D := [(1 / 2, fun _ : nat => 1); (1 / 2, fun _ : nat => -1)] in
  probabilities D /\ (forall j, avg D (fun z => z j) = 0 /\ avg D (fun z => z j * z j) = 1) /\
  forall mu sigma, 0 < sigma 0%nat ->
  avg_runs D 4 3 (fun ds => s_mu R (at_end 1 "raw" (fun l => l) (fun _ => [0; 1]%nat) Elites 1 no_limits 7 1 mu sigma ds) 0%nat) = mu 0%nat /\
  avg_runs D 4 3 (fun ds => s_sigma R (at_end 1 "raw" (fun l => l) (fun _ => [0; 1]%nat) Elites 1 no_limits 7 1 mu sigma ds) 0%nat) < sigma 0%nat.
Proof.
  intros D. assert (P : probabilities D) by (split; [unfold total, rsum; cbn; lra|repeat constructor; cbn; lra]).
  assert (M : forall j, avg D (fun z => z j) = 0 /\ avg D (fun z => z j * z j) = 1) by (intros j; unfold avg, rsum; cbn; split; lra).
  split; [exact P|]. split; [exact M|]. intros mu sigma Ps.
  assert (F : Forall (fun i => (i < 4)%nat) [0; 1]%nat) by (repeat constructor; lia). assert (ND : NoDup [0; 1]%nat) by (repeat constructor; cbn; intuition lia).
  split.
  - apply (C217_center 1 4 "raw" (fun l => l) (fun _ => [0; 1]%nat) Elites 1 no_limits 7 1 D P (fun _ => F) 0%nat ltac:(lia) (proj1 (M 0%nat)) 2 mu sigma).
  - apply (proj2 (C217_cem 1 4 "raw" (fun l => l) (fun _ => [0; 1]%nat) 7 1 D P F ND 0%nat ltac:(lia) (proj1 (M 0%nat)) (proj2 (M 0%nat)) 1 mu sigma)); [cbn; lia|auto].
Qed.

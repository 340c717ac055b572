(* C232: a search with mirrored samples that starts where the fitness function is symmetric. *)
From Coq Require Import Reals String Lra Permutation QArith.
From Verif Require Import Prelude FloatLib MatLib RankModel CemModel DistModel ClipUpModel FuncModel SafModel SafProps ExpProps.
Close Scope Q_scope. Open Scope nat_scope. Open Scope R_scope.

(* ---- spec ---- *)
(* solutions opposite to each other, as seen from mu, are equally good *)
Definition symmetric_about (n : nat) (mu : vect) (f : vect -> R) : Prop :=
  forall x y, (forall j, (j < n)%nat -> x j - mu j = mu j - y j) -> f x = f y.
(* equally good solutions get equal weights *)
Definition fair (weigh : list R -> list R) : Prop := forall x, length (weigh x) = length x /\
  forall i k, (i < length x)%nat -> (k < length x)%nat -> nth i x 0 = nth k x 0 -> nth i (weigh x) 0 = nth k (weigh x) 0.
Definition centers_at {Opt} (n : nat) (mu : vect) (st : state Opt) : Prop := forall j, (j < n)%nat -> s_mu Opt st j = mu j.

(* ---- weights of pairs ---- *)
Lemma nth_evens {A} (d : A) : forall k l, nth k (evens l) d = nth (2 * k) l d.
Proof.
  fix IH 1. intros k l. destruct k as [|k]; [destruct l as [|a [|b l]]; reflexivity|].
  replace (2 * S k)%nat with (S (S (2 * k))) by lia. destruct l as [|a [|b l]]; cbn [evens nth]; [reflexivity| |apply IH]. destruct k; reflexivity.
Qed.
Lemma nth_odds {A} (d : A) : forall k l, nth k (odds l) d = nth (S (2 * k)) l d.
Proof.
  fix IH 1. intros k l. destruct k as [|k]; [destruct l as [|a [|b l]]; reflexivity|].
  replace (2 * S k)%nat with (S (S (2 * k))) by lia. destruct l as [|a [|b l]]; cbn [odds nth]; [reflexivity| |apply IH]. destruct (2 * k)%nat; reflexivity.
Qed.
Lemma same_length_pairs {A} : forall m (l : list A), length l = (2 * m)%nat -> length (evens l) = m /\ length (odds l) = m.
Proof.
  induction m as [|m IH]; intros l E; [destruct l; [auto|discriminate]|]. destruct l as [|a [|b l]]; cbn [length] in E; try lia.
  destruct (IH l ltac:(lia)) as [A1 A2]. cbn [evens odds length]. rewrite A1, A2. auto.
Qed.
Lemma wsum_no_difference : forall l xs, wsum (map2 (fun p m => (p - m) / 2) l l) xs = 0.
Proof.
  unfold wsum. induction l as [|a l IH]; intros [|x xs]; auto. cbn [map2]. rewrite rsum_cons, IH. lra.
Qed.
Lemma centered_nth ranking w i : (i < length w)%nat -> nth i (centered_weights ranking w) 0 = nth i w 0 - (if is_centering ranking then 0 else rmean w).
Proof.
  intros Hi. unfold centered_weights. destruct (is_centering ranking); [ring|]. rewrite (nth_indep _ _ (0 - rmean w)) by (rewrite map_length; auto). apply (map_nth (fun x => x - rmean w)).
Qed.
Lemma centered_length ranking w : length (centered_weights ranking w) = length w.
Proof. unfold centered_weights. destruct (is_centering ranking); rewrite ?map_length; auto. Qed.
(* the fitnesses of the two members of a pair *)
Lemma pair_fits n c mu sigma f zs : symmetric_about n c f -> (forall j, (j < n)%nat -> mu j = c j) ->
  map f (flat_map (fun z => [(fun j => mu j + sigma j * z j); (fun j => mu j - sigma j * z j)]) zs) = flat_map (fun z => [f (fun j => mu j + sigma j * z j); f (fun j => mu j + sigma j * z j)]) zs.
Proof.
  intros Sy M. rewrite (map_pairs f (fun z j => mu j + sigma j * z j) (fun z j => mu j - sigma j * z j)). apply flat_map_ext. intros z. do 2 f_equal. apply (Sy (fun j => mu j - sigma j * z j)). intros j Hj. rewrite M by auto. ring.
Qed.
Lemma equal_weights ranking weigh (g : vect -> R) (zs : list vect) : fair weigh ->
  let w := centered_weights ranking (weigh (flat_map (fun z => [g z; g z]) zs)) in length w = (2 * length zs)%nat /\ evens w = odds w.
Proof.
  intros F. cbv zeta. set (x := flat_map _ zs). destruct (F x) as [L E]. assert (Lx : length x = (2 * length zs)%nat) by (apply (length_pairs g g)).
  set (w := centered_weights ranking (weigh x)). assert (Lw : length w = (2 * length zs)%nat) by (unfold w; rewrite centered_length; lia). split; auto.
  destruct (same_length_pairs (length zs) w Lw) as [A1 A2]. apply (nth_ext _ _ 0 0); [congruence|]. intros k Hk. rewrite nth_evens, nth_odds. unfold w. rewrite !centered_nth by lia. f_equal.
  apply E; try lia. rewrite <- nth_evens, <- nth_odds. unfold x. rewrite (evens_pairs g g), (odds_pairs g g). reflexivity.
Qed.
(* ---- the gradient of the center ---- *)
Lemma no_gradient n c ranking weigh elite Opt op mu sigma o zs f : fair weigh -> symmetric_about n c f -> (forall j, (j < n)%nat -> mu j = c j) ->
  forall j, mu_grad ranking weigh elite Opt (Mirrored op) (fill Opt (Mirrored op) f mu sigma o zs) j =
    finite_result (divide_grad (divide_mu op) 0 (centered_weights ranking (weigh (flat_map (fun z => [f (fun j => mu j + sigma j * z j); f (fun j => mu j + sigma j * z j)]) zs)))).
Proof.
  intros F Sy M j. unfold mu_grad. cbn [fill s_pop s_fits s_mu draw]. rewrite (pair_fits n c) by auto. pose proof (equal_weights ranking weigh (fun z => f (fun j => mu j + sigma j * z j)) zs F) as [_ E]. cbv beta in E.
  set (w := centered_weights ranking _) in *. unfold symmetric_mu. rewrite E, wsum_no_difference. reflexivity.
Qed.
Lemma divided_zero opt w g : finite_result (divide_grad opt 0 w) = Some g -> g = 0.
Proof.
  unfold divide_grad. destruct opt as [s|]; [|cbn; congruence].
  assert (Q : forall d, rdivo 0 d = Some g -> g = 0) by (intros d; unfold rdivo; destruct (Req_EM_T d 0); [discriminate|]; intros E; injection E as <-; unfold Rdiv; ring).
  destruct (String.eqb s "num_solutions"); [apply Q|]. destruct (String.eqb s "num_directions"); [apply Q|]. destruct (String.eqb s "total_weight"); [apply Q|].
  destruct (String.eqb s "weight_stdev"); [|discriminate]. destruct (cstd w); [apply Q|discriminate].
Qed.
Lemma finite_at n v a j : (j < n)%nat -> finite n v = Some a -> v j = Some (a j).
Proof.
  unfold finite. destruct (forallb _ (seq 0 n)) eqn:F; [|discriminate]. intros Hj E. injection E as <-. rewrite forallb_forall in F. specialize (F j ltac:(apply in_seq; lia)).
  cbv beta in F. destruct (v j); [reflexivity|discriminate].
Qed.
(* an optimizer in such a state does not move without a gradient, and remains in such a state *)
Definition rests {Opt} (n : nat) (follow : Opt -> vect -> option (Opt * vect)) (Q : Opt -> Prop) : Prop :=
  forall o g, Q o -> (forall j, (j < n)%nat -> g j = 0) -> forall o' d, follow o g = Some (o', d) -> Q o' /\ forall j, (j < n)%nat -> d j = 0.
Lemma stays n c ranking weigh elite Opt follow op stdev_lr L f Q : fair weigh -> symmetric_about n c f -> rests n follow Q ->
  forall draws mu sigma o zs, (forall j, (j < n)%nat -> mu j = c j) -> Q o ->
  Forall (centers_at n c) (search n ranking weigh elite Opt follow (Mirrored op) stdev_lr L f mu sigma o zs draws).
Proof.
  intros F Sy Re. unfold search. induction draws as [|zs' r IH]; intros mu sigma o zs M Qo; cbn [steps]; (constructor; [exact M|]); [constructor|].
  unfold step. destruct (finite n (mu_grad _ _ _ _ _ _)) as [gm|] eqn:EG; [|constructor]. destruct (finite n (sigma_grad _ _ _ _ _ _)) as [gs|]; [|constructor].
  cbn [fill s_opt s_mu s_sigma]. destruct (follow o gm) as [[o1 d]|] eqn:EF; [|constructor].
  assert (Z : forall j, (j < n)%nat -> gm j = 0). { intros j Hj. apply (finite_at n _ gm j Hj) in EG. rewrite (no_gradient n c) in EG by auto. apply divided_zero in EG. exact EG. }
  destruct (Re o gm Qo Z o1 d EF) as [Q1 Z1]. apply IH; auto. intros j Hj. rewrite Z1, M by auto. ring.
Qed.
Lemma rate_rests n : rests n follow_rate (fun _ => True).
Proof. intros lr g _ G lr' d E. injection E as <- <-. split; auto. intros j Hj. rewrite G by auto. ring. Qed.
Lemma sgd_rests n : rests n (follow_torch n) (fun w => match w with WSgd s => torch_times (fun _ => 2) 1 w w | _ => False end).
Proof.
  intros w g Qw G w' d E. pose proof (torch_equivariant n (fun _ => 2) 1 ltac:(lra) w w g g) as T. destruct w as [a|s]; [contradiction|]. specialize (T Qw).
  assert (A : agree n g (fun j => 2 * g j)) by (intros j Hj; rewrite G by auto; ring). specialize (T A). rewrite E in T. destruct T as [T1 T2]. split.
  - unfold follow_torch in E. destruct (torch_ascent (WSgd s) _) as [[w1 d1]|] eqn:EA; [|discriminate]. unfold torch_ascent in EA. destruct (negb _); [discriminate|]. cbv zeta in EA. injection EA as <- <-. cbn [wrapped_step fst snd] in E.
    destruct (finite n _); [|discriminate]. cbn [option_map] in E. injection E as <- <-. exact T1.
  - intros j Hj. specialize (T2 j Hj). cbv beta in T2. lra.
Qed.
Definition empty_cell : cell := mkCell (Some 0) (Some 0) (Some 0).
Lemma adam_cell_rests a t : fst (tadam_cell a t empty_cell (Some 0) (Some 0)) = empty_cell /\ (snd (tadam_cell a t empty_cell (Some 0) (Some 0)) = None \/ snd (tadam_cell a t empty_cell (Some 0) (Some 0)) = Some 0).
Proof.
  unfold tadam_cell, empty_cell. cbn [c_m c_v c_max fst snd]. 
  assert (E1 : nadd (Some 0) (nmul (Some (1 - ta_beta1 a)) (nsub (Some 0) (Some 0))) = Some 0) by (cbn; f_equal; ring).
  assert (E2 : nadd (nmul (Some (ta_beta2 a)) (Some 0)) (nmul (Some (1 - ta_beta2 a)) (nmul (Some 0) (Some 0))) = Some 0) by (cbn; f_equal; ring).
  rewrite E1, E2. assert (E3 : nmax (Some 0) (Some 0) = Some 0) by (cbn; f_equal; apply Rmax_left; lra). rewrite E3. split; [destruct (ta_amsgrad a); reflexivity|].
  destruct (ndiv (Some (ta_lr a)) _) as [q|]; [|left; reflexivity]. destruct (nadd (ndiv _ _) (Some (ta_eps a))) as [e|]; [|left; reflexivity]. cbn. destruct (Req_EM_T e 0); [left; reflexivity|right]. cbn. f_equal. unfold Rdiv. ring.
Qed.
Lemma adam_cells_rest a t n : map fst (map3 (tadam_cell a t) (repeat empty_cell n) (repeat (Some 0) n) (repeat (Some 0) n)) = repeat empty_cell n /\
  Forall (fun x => x = None \/ x = Some 0) (map snd (map3 (tadam_cell a t) (repeat empty_cell n) (repeat (Some 0) n) (repeat (Some 0) n))).
Proof.
  destruct (adam_cell_rests a t) as [A B]. induction n as [|n [IH1 IH2]]; cbn [repeat map3 map]; [split; [reflexivity|constructor]|]. rewrite A, IH1. split; [reflexivity|]. constructor; auto.
Qed.
Lemma zeros_list n (g : vect) : (forall j, (j < n)%nat -> g j = 0) -> map (fun j => Some (g j)) (seq 0 n) = repeat (Some 0) n.
Proof.
  intros G. apply (nth_ext _ _ (Some (g 0%nat)) (Some 0)); [rewrite map_length, seq_length, repeat_length; reflexivity|]. intros k Hk. rewrite map_length, seq_length in Hk.
  rewrite (map_nth (fun j => Some (g j))), seq_nth, nth_repeat, G by auto. reflexivity.
Qed.
Lemma adam_rests n : rests n (follow_torch n) (fun w => match w with WAdam a => ta_cells a = repeat empty_cell n | _ => False end).
Proof.
  intros w g Qw G w' d E. destruct w as [a|s]; [|contradiction]. unfold follow_torch, torch_ascent in E. rewrite (zeros_list n g G) in E. cbn [wrapped_length wrapped_step] in E. rewrite Qw, !repeat_length, Nat.eqb_refl in E.
  cbn [negb] in E. cbv zeta in E. unfold tadam_step in E. cbv zeta in E. rewrite Qw in E. destruct (adam_cells_rest a (S (ta_t a)) n) as [A B]. cbn [fst snd] in E. rewrite A in E.
  destruct (finite n _) as [v|] eqn:EF; [|discriminate]. cbn [option_map] in E. injection E as <- <-. split; [reflexivity|]. intros j Hj. apply (finite_at n _ v j Hj) in EF.
  set (l := map snd _) in *. assert (N : nth j l None = None \/ nth j l None = Some 0). { destruct (Nat.lt_ge_cases j (length l)) as [C|C]; [|left; apply nth_overflow; auto]. rewrite Forall_forall in B. apply B. apply nth_In. auto. }
  cbv beta in EF. change None with (nmul (Some (-1)) None) in EF at 1.
  rewrite (map_nth (fun x => nmul (Some (-1)) x)) in EF. destruct N as [N|N]; rewrite N in EF; cbn in EF; [discriminate|]. injection EF as <-. ring.
Qed.

(* ---- theorems ---- *)
(* Where opposite solutions are equally good, and where equally good solutions get equal weights ("raw", "normalized"), the gradient of the center is zero ... *)
Theorem C232_gradient : forall n ranking weigh elite Opt op f mu sigma o zs, fair weigh -> symmetric_about n mu f -> zs <> [] -> divide_mu op = Some "num_directions"%string ->
  forall j, mu_grad ranking weigh elite Opt (Mirrored op) (fill Opt (Mirrored op) f mu sigma o zs) j = Some 0.
Proof.
  intros n ranking weigh elite Opt op f mu sigma o zs F Sy NE D j. rewrite (no_gradient n mu) by auto. rewrite D.
  destruct (equal_weights ranking weigh (fun z => f (fun j => mu j + sigma j * z j)) zs F) as [L _]. cbv beta in L.
  match goal with |- finite_result (divide_grad _ _ ?w) = _ => change (length w = (2 * length zs)%nat) in L; set (w0 := w) in * end.
  change (rdivo 0 (INR (length w0 / 2)) = Some 0). rewrite L. unfold rdivo. destruct (Req_EM_T _ 0) as [E|E]; [|f_equal; unfold Rdiv; ring]. exfalso. revert E. apply not_0_INR. rewrite Nat.mul_comm, Nat.div_mul by discriminate. destruct zs; [congruence|discriminate].
Qed.
(* ... and the search never leaves the center of symmetry: with a learning rate, *)
Theorem C232_rate : forall n ranking weigh elite op lr stdev_lr L f mu sigma zs draws, fair weigh -> symmetric_about n mu f ->
  Forall (centers_at n mu) (search n ranking weigh elite R follow_rate (Mirrored op) stdev_lr L f mu sigma lr zs draws).
Proof. intros. apply (stays n mu _ _ _ _ _ _ _ _ _ _ H H0 (rate_rests n)); auto. Qed.
(* with SGD, with or without momentum, *)
Theorem C232_sgd : forall n ranking weigh elite op lr momentum dampening nesterov w stdev_lr L f mu sigma zs draws, fair weigh -> symmetric_about n mu f ->
  sgd_class n lr momentum dampening nesterov = Ok w ->
  Forall (centers_at n mu) (search n ranking weigh elite wrapped (follow_torch n) (Mirrored op) stdev_lr L f mu sigma w zs draws).
Proof.
  intros n ranking weigh elite op lr mo da ne w sl L f mu sigma zs draws F Sy W. apply (stays n mu _ _ _ _ _ _ _ _ _ _ F Sy (sgd_rests n)); auto. pose proof (sgd_fresh n (fun _ => 2) lr mo da ne w W) as T. destruct w; [destruct T as [T _]; specialize (T 0%nat); cbv beta in T; lra|exact T].
Qed.
(* and with Adam. *)
Theorem C232_adam : forall n ranking weigh elite op lr beta1 beta2 eps amsgrad w stdev_lr L f mu sigma zs draws, fair weigh -> symmetric_about n mu f ->
  adam_class n lr beta1 beta2 eps amsgrad = Ok w ->
  Forall (centers_at n mu) (search n ranking weigh elite wrapped (follow_torch n) (Mirrored op) stdev_lr L f mu sigma w zs draws).
Proof.
  intros n ranking weigh elite op lr b1 b2 ep am w sl L f mu sigma zs draws F Sy W. apply (stays n mu _ _ _ _ _ _ _ _ _ _ F Sy (adam_rests n)); auto. revert W. unfold adam_class, tadam_init. cbv zeta. intros W.
  destruct b1, b2; try discriminate; cbn in W; repeat match goal with H : context [if ?x then _ else _] |- _ => destruct x end; try discriminate; cbn in W; injection W as <-; reflexivity.
Qed.
(* With ClipUp the search does not survive there: the normalized gradient is 0 / 0, so no generation follows the first one. *)
Theorem C232_clipup_refuted : forall n ranking weigh elite op c stdev_lr L f mu sigma zs draws, fair weigh -> symmetric_about n mu f ->
  search n ranking weigh elite clipup (follow_clipup n) (Mirrored op) stdev_lr L f mu sigma c zs draws = [fill clipup (Mirrored op) f mu sigma c zs].
Proof.
  intros n ranking weigh elite op c sl L f mu sigma zs draws F Sy. unfold search. destruct draws as [|zs' r]; [reflexivity|]. cbn [steps]. f_equal.
  unfold step. destruct (finite n (mu_grad _ _ _ _ _ _)) as [gm|] eqn:EG; [|reflexivity]. destruct (finite n (sigma_grad _ _ _ _ _ _)) as [gs|]; [|reflexivity].
  assert (Z : forall j, (j < n)%nat -> gm j = 0). { intros j Hj. apply (finite_at n _ gm j Hj) in EG. rewrite (no_gradient n mu) in EG by auto. apply divided_zero in EG. exact EG. }
  cbn [fill s_opt]. unfold follow_clipup, ascent. destruct (Nat.eqb _ _); [|reflexivity].
  assert (U : unit_of (map gm (seq 0 n)) = None).
  { unfold unit_of. destruct (Req_EM_T _ 0) as [E|E]; [reflexivity|]. exfalso. apply E. unfold norm. replace (sumsq (map gm (seq 0 n))) with 0; [apply sqrt_0|]. symmetry. clear - Z.
    assert (G : forall l, (forall j, In j l -> gm j = 0) -> sumsq (map gm l) = 0). { induction l as [|j l IH]; intros Zl; [reflexivity|]. cbn [map sumsq]. cbn. fold (sumsq (map gm l)). rewrite IH by (intros; apply Zl; right; auto). rewrite (Zl j (or_introl eq_refl)). ring. }
    apply G. intros j Hj. apply in_seq in Hj. apply Z. lia. }
  cbv zeta. rewrite U. destruct (vscale (momentum c) (velocity c)); reflexivity.
Qed.
(* With the centered ranks as weights, equally good solutions get different weights: with a single pair, the center moves by half of the perturbation, symmetric fitness function or not. *)
Theorem C232_ranked_refuted : forall n weigh elite op lr stdev_lr L f mu sigma z zs', (forall x, length x = 2%nat -> Permutation (weigh x) [- (1 / 2); 1 / 2]) ->
  divide_mu op = Some "num_directions"%string -> divide_sigma op = Some "num_directions"%string -> (forall j, (j < n)%nat -> sigma j <> 0) ->
  exists st, search n "centered" weigh elite R follow_rate (Mirrored op) stdev_lr L f mu sigma lr [z] [zs'] = [fill R (Mirrored op) f mu sigma lr [z]; st] /\
    forall j, (j < n)%nat -> Rabs (s_mu R st j - mu j) = Rabs (lr * (sigma j * z j)) / 2.
Proof.
  intros n weigh elite op lr sl L f mu sigma z zs' P D1 D2 SN. unfold search. cbn [steps]. unfold step. set (st := fill R (Mirrored op) f mu sigma lr [z]).
  assert (W : exists a b, weigh (s_fits R st) = [a; b] /\ Rabs (a - b) = 1).
  { pose proof (P (s_fits R st) eq_refl) as PW. destruct (Permutation_length_2_inv (Permutation_sym PW)) as [E|E]; rewrite E; do 2 eexists; (split; [reflexivity|]).
    - rewrite Rabs_left1; lra. - rewrite Rabs_right; lra. }
  destruct W as (a & b & EW & AB).
  assert (I1 : INR 1 = 1) by reflexivity.
  assert (Gm : forall j, mu_grad "centered" weigh elite R (Mirrored op) st j = Some ((a - b) / 2 * (sigma j * z j))).
  { intros j. unfold mu_grad. rewrite EW, D1. change (centered_weights "centered" [a; b]) with [a; b]. unfold divide_grad. cbn [String.eqb Ascii.eqb Bool.eqb finite_result length Nat.div Nat.divmod fst]. rewrite I1.
    unfold rdivo. destruct (Req_EM_T 1 0); [lra|]. f_equal. unfold symmetric_mu, wsum. cbn. field. }
  assert (Gs : forall j, (j < n)%nat -> exists x, sigma_grad "centered" weigh elite R (Mirrored op) st j = Some x).
  { intros j Hj. unfold sigma_grad. rewrite EW, D2. change (centered_weights "centered" [a; b]) with [a; b]. unfold divide_grad. cbn [String.eqb Ascii.eqb Bool.eqb finite_result length Nat.div Nat.divmod fst]. rewrite I1.
    unfold nonzero. change (s_sigma R st j) with (sigma j). destruct (Req_EM_T (sigma j) 0) as [E|_]; [exfalso; exact (SN j Hj E)|]. unfold rdivo. destruct (Req_EM_T 1 0); [lra|]. eexists. reflexivity. }
  assert (Fi : forall v : nat -> option R, (forall j, (j < n)%nat -> exists x, v j = Some x) -> exists g, finite n v = Some g).
  { intros v H. unfold finite. replace (forallb _ (seq 0 n)) with true; [eexists; reflexivity|]. symmetry. apply forallb_forall. intros j Hj. apply in_seq in Hj. destruct (H j ltac:(lia)) as [x ->]. reflexivity. }
  destruct (Fi _ Gs) as [gs ->]. destruct (Fi (mu_grad "centered" weigh elite R (Mirrored op) st) ltac:(intros j _; eexists; apply Gm)) as [gm EG]. rewrite EG.
  unfold follow_rate. cbn [fill s_opt s_mu]. eexists. split; [reflexivity|]. intros j Hj. pose proof (finite_at n _ gm j Hj EG) as E. cbv beta in E. rewrite Gm in E. injection E as E. cbn [s_mu].
  change (s_opt R st) with lr. change (s_mu R st j) with (mu j). transitivity (Rabs (lr * gm j)); [f_equal; cbn; ring|]. rewrite <- E.
  replace (lr * ((a - b) / 2 * (sigma j * z j))) with ((a - b) * (lr * (sigma j * z j) * / 2)) by field. rewrite Rabs_mult, AB, Rabs_mult, (Rabs_right (/ 2)) by lra. lra.
Qed.
Print Assumptions C232_gradient.
Print Assumptions C232_rate.
Print Assumptions C232_sgd.
Print Assumptions C232_adam.
Print Assumptions C232_clipup_refuted.
Print Assumptions C232_ranked_refuted.

(* ---- examples ---- *)
(* raw and normalized weights are fair *)
Definition by_normalizing (x : list R) : list R := map (fun o => match o with Some w => w | None => 0 end) (normalized x true).
Example C232_raw_fair : fair (fun x => raw x true) /\ fair (fun x => raw x false).
Proof.
  split; intros x; unfold raw.
  - split; [reflexivity|]. auto.
  - rewrite map_length. split; [reflexivity|]. intros i k Hi Hk E. rewrite !(nth_indep (map _ x) 0 (Ropp 0)) by (rewrite map_length; auto). rewrite !(map_nth Ropp), E. reflexivity.
Qed.
Example C232_normalized_fair : fair by_normalizing.
Proof.
  intros x. assert (A : forall (g : R -> R) i k, (i < length x)%nat -> (k < length x)%nat -> nth i x 0 = nth k x 0 -> nth i (map g x) 0 = nth k (map g x) 0).
  { intros g i k Hi Hk E. rewrite (nth_indep (map g x) 0 (g 0)) by (rewrite map_length; auto). symmetry. rewrite (nth_indep (map g x) 0 (g 0)) by (rewrite map_length; auto). rewrite !map_nth, E. reflexivity. }
  unfold by_normalizing, normalized. cbv zeta. destruct (Nat.eqb (length x) 1); rewrite !map_map, map_length; auto.
Qed.
(* a function of distance, and the centered ranks of two equally good solutions *)
Example C232_bowl : symmetric_about 2 (fun _ => 3) (fun x => (x 0%nat - 3) * (x 0%nat - 3) + (x 1%nat - 3) * (x 1%nat - 3)).
Proof. intros x y H. rewrite (H 0%nat), (H 1%nat) by lia. ring. Qed.
Example C232_ranks : centered stable_argsort [Fin 7; Fin 7] true = [Some (-1 # 2)%Q; Some (1 # 2)%Q] \/ centered stable_argsort [Fin 7; Fin 7] true = [Some (1 # 2)%Q; Some (-1 # 2)%Q].
Proof. vm_compute. auto. Qed.

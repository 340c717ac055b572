(* C226: what a distributed step of PGPE with raw fitnesses loses compared to a step with the same solutions in one place. *)
From Coq Require Import Reals Lra String.
From Verif Require Import Prelude RankModel RankProofs CemModel DistModel WorkModel WorkSpec WorkProofs DsModel DsProps.
Open Scope R_scope.

(* ---------------------------------------------------------------- specification *)
(* the utility of a solution: better solutions have higher ones *)
Definition utility (maximize : bool) (fitness : list R -> R) (x : list R) : R := if maximize then fitness x else - fitness x.
Definition mean_utility (maximize : bool) (fitness : list R -> R) (l : list (list R)) : R :=
  rsum (map (utility maximize fitness) l) / INR (length l).
(* symmetric sampling makes pairs of solutions, of which only the first counts for a direction *)
Fixpoint firsts {A} (l : list A) : list A := match l with x :: _ :: t => x :: firsts t | _ => [] end.
Definition directions {A} (symmetric : bool) (l : list A) : list A := if symmetric then firsts l else l.
(* how a solution pulls at a coordinate of the center, and at a standard deviation *)
Definition pull_center (mu : list R) (j : nat) (x : list R) : R := nth j x 0 - nth j mu 0.
Definition pull_stdev (mu sigma : list R) (j : nat) (x : list R) : R :=
  ((nth j x 0 - nth j mu 0) * (nth j x 0 - nth j mu 0) - nth j sigma 0 * nth j sigma 0) / nth j sigma 0.
(* tasks whose solutions are better than average, times the sum of the pulls of their solutions, divided by the number of directions *)
Definition between_tasks (symmetric maximize : bool) (fitness : list R -> R) (pull : list R -> R) (tasks : list (list (list R))) : R :=
  rsum (map (fun t => (mean_utility maximize fitness t - mean_utility maximize fitness (concat tasks)) * rsum (map pull (directions symmetric t))) tasks)
  / INR (length (directions symmetric (concat tasks))).

(* ---------------------------------------------------------------- proofs *)
Lemma rsum_app2 a b : rsum (a ++ b) = rsum a + rsum b.
Proof. unfold rsum. induction a; cbn; [ring|rewrite IHa; ring]. Qed.
Lemma rsum_cons x l : rsum (x :: l) = x + rsum l. Proof. reflexivity. Qed.
Lemma evens_firsts {A} (l : list A) : forall n, length l = (2 * n)%nat -> evens l = firsts l.
Proof.
  intros n. revert l. induction n as [|n IH]; intros [|x [|y l]] L; cbn in L; try lia; auto.
  cbn. f_equal. apply IH. lia.
Qed.
Lemma firsts_app {A} : forall n (a b : list A), length a = (2 * n)%nat -> firsts (a ++ b) = firsts a ++ firsts b.
Proof.
  induction n as [|n IH]; intros [|x [|y a]] b L; cbn in L; try lia; auto. cbn. f_equal. apply IH. lia.
Qed.
Lemma firsts_length {A} : forall n (a : list A), length a = (2 * n)%nat -> length (firsts a) = n.
Proof. induction n as [|n IH]; intros [|x [|y a]] L; cbn in L; try lia; auto. cbn. f_equal. apply IH. lia. Qed.
Definition ok_size (s : bool) (n : nat) : Prop := (1 <= n)%nat /\ (s = true -> exists k, n = (2 * k)%nat).

(* the four sums: a function of the weights which is linear and additive over the tasks *)
Section SUMS.
Variable s : bool.
Variable pull : list R -> R.
(* symmetric sums of differences (center) or averages (standard deviation) of the weights of pairs *)
Variable sign : R.
Fixpoint sym_sum (w : list R) (X : list (list R)) : R :=
  match w, X with p :: m :: w', x :: _ :: X' => (p + sign * m) / 2 * pull x + sym_sum w' X' | _, _ => 0 end.
Fixpoint plain_sum (w : list R) (X : list (list R)) : R :=
  match w, X with a :: w', x :: X' => a * pull x + plain_sum w' X' | _, _ => 0 end.
Definition the_sum w X := if s then sym_sum w X else plain_sum w X.

Lemma plain_app w1 : forall X1 w2 X2, length w1 = length X1 -> plain_sum (w1 ++ w2) (X1 ++ X2) = plain_sum w1 X1 + plain_sum w2 X2.
Proof. induction w1 as [|a w1 IH]; intros [|x X1] w2 X2 L; cbn in L; try lia; cbn; [ring|]. rewrite IH by lia. ring. Qed.
Lemma sym_app n : forall w1 X1 w2 X2, length w1 = (2 * n)%nat -> length X1 = (2 * n)%nat -> sym_sum (w1 ++ w2) (X1 ++ X2) = sym_sum w1 X1 + sym_sum w2 X2.
Proof.
  induction n as [|n IH]; intros [|a [|b w1]] [|x [|y X1]] w2 X2 L1 L2; cbn in L1, L2; try lia; cbn; [ring|]. rewrite IH by lia. ring.
Qed.
Lemma sum_app w1 X1 w2 X2 : ok_size s (length X1) -> length w1 = length X1 -> the_sum (w1 ++ w2) (X1 ++ X2) = the_sum w1 X1 + the_sum w2 X2.
Proof.
  intros [_ O] L. unfold the_sum. destruct s; [|apply plain_app; exact L]. destruct (O eq_refl) as [n E]. apply (sym_app n); congruence.
Qed.
Lemma plain_shift c : forall w X, length w = length X -> plain_sum (map (fun a => a - c) w) X = plain_sum w X - c * rsum (map pull X).
Proof. induction w as [|a w IH]; intros [|x X] L; cbn in L; try lia; cbn; [unfold rsum; cbn; ring|]. rewrite IH by lia. unfold rsum. cbn. ring. Qed.
Lemma sym_shift c n : forall w X, length w = (2 * n)%nat -> length X = (2 * n)%nat ->
  sym_sum (map (fun a => a - c) w) X = sym_sum w X - c * ((1 + sign) / 2 * rsum (map pull (firsts X))).
Proof.
  induction n as [|n IH]; intros [|a [|b w]] [|x [|y X]] L1 L2; cbn in L1, L2; try lia; cbn; [unfold rsum; cbn; ring|]. rewrite IH by lia. unfold rsum. cbn. field.
Qed.
Definition share : R := if s then (1 + sign) / 2 else 1.
Lemma sum_shift c w X : ok_size s (length X) -> length w = length X ->
  the_sum (map (fun a => a - c) w) X = the_sum w X - c * (share * rsum (map pull (directions s X))).
Proof.
  intros [_ O] L. unfold the_sum, share, directions. destruct s.
  - destruct (O eq_refl) as [n E]. rewrite (sym_shift c n) by congruence. reflexivity.
  - rewrite plain_shift by exact L. ring.
Qed.

Variable u : list R -> R.
Definition avg (X : list (list R)) : R := rsum (map u X) / INR (length X).
(* the gradient found with the solutions X, whose weights are centered by their own mean *)
Definition grad (X : list (list R)) : R := the_sum (map (fun a => a - avg X) (map u X)) X / INR (length (directions s X)).
Lemma concat_size (ts : list (list (list R))) : ts <> [] -> Forall (fun X : list (list R) => ok_size s (length X)) ts -> ok_size s (length (concat ts)).
Proof.
  intros N F. split.
  - destruct F as [|X ts [H _] F]; [congruence|]. cbn. rewrite app_length. lia.
  - intros ->. clear N. induction F as [|X ts [_ H] F IH]; [exists 0%nat; reflexivity|]. destruct (H eq_refl) as [a Ea]. destruct IH as [b Eb].
    exists (a + b)%nat. cbn. rewrite app_length. lia.
Qed.
Lemma dirs_length (X : list (list R)) : ok_size s (length X) -> INR (length (directions s X)) = (if s then / 2 else 1) * INR (length X).
Proof.
  intros [_ O]. unfold directions. destruct s; [|ring]. destruct (O eq_refl) as [n E]. rewrite (firsts_length n) by exact E. rewrite E, mult_INR. cbn. field.
Qed.
Lemma dirs_app (X Y : list (list R)) : ok_size s (length X) -> directions s (X ++ Y) = directions s X ++ directions s Y.
Proof. intros [_ O]. unfold directions. destruct s; auto. destruct (O eq_refl) as [n E]. apply (firsts_app n). exact E. Qed.
Lemma sum_concat (ts : list (list (list R))) : Forall (fun X : list (list R) => ok_size s (length X)) ts -> the_sum (map u (concat ts)) (concat ts) = rsum (map (fun X => the_sum (map u X) X) ts) /\
  rsum (map pull (directions s (concat ts))) = rsum (map (fun X => rsum (map pull (directions s X))) ts).
Proof.
  induction 1 as [|X ts O F [IH1 IH2]].
  - cbn. unfold the_sum, directions. destruct s; split; reflexivity.
  - cbn [concat map]. rewrite !rsum_cons, <- IH1, <- IH2, map_app. split; [apply sum_app; [exact O|apply map_length]|].
    rewrite dirs_app by exact O. rewrite map_app, rsum_app2. reflexivity.
Qed.
Lemma difference (ts : list (list (list R))) : ts <> [] -> Forall (fun X : list (list R) => ok_size s (length X)) ts ->
  grad (concat ts) - rsum (map (fun X => INR (length X) / INR (length (concat ts)) * grad X) ts) =
  share * (rsum (map (fun X => (avg X - avg (concat ts)) * rsum (map pull (directions s X))) ts) / INR (length (directions s (concat ts)))).
Proof.
  intros N F. pose proof (concat_size ts N F) as OC. unfold grad at 1. rewrite sum_shift by (auto; apply map_length). destruct (sum_concat ts F) as [E1 E2]. rewrite E1, E2.
  set (m := avg (concat ts)). rewrite (dirs_length _ OC). assert (PC : 0 < INR (length (concat ts))) by (apply lt_0_INR, OC). set (T := INR (length (concat ts))) in *.
  set (h := if s then / 2 else 1). assert (Ph : 0 < h) by (unfold h; destruct s; lra).
  assert (Eg : rsum (map (fun X => INR (length X) / T * grad X) ts) =
    rsum (map (fun X => the_sum (map u X) X - avg X * (share * rsum (map pull (directions s X)))) ts) / (h * T)).
  { clearbody T. clear N E1 E2 OC m. induction F as [|X ts O F IH]; [unfold rsum; cbn; field; split; lra|]. cbn [map]. rewrite !rsum_cons, IH.
    unfold grad. rewrite sum_shift by (auto; apply map_length). rewrite (dirs_length _ O). fold h. assert (PX : 0 < INR (length X)) by (apply lt_0_INR, O). field. repeat split; lra. }
  rewrite Eg. clear Eg. clearbody T m. clear E1 E2 OC N.
  assert (G : rsum (map (fun X => (avg X - m) * rsum (map pull (directions s X))) ts) * share =
    rsum (map (fun X => the_sum (map u X) X) ts) - m * (share * rsum (map (fun X => rsum (map pull (directions s X))) ts)) -
    rsum (map (fun X => the_sum (map u X) X - avg X * (share * rsum (map pull (directions s X)))) ts)).
  { clear F PC. induction ts as [|X ts IH]; [unfold rsum; cbn; ring|]. cbn [map]. rewrite !rsum_cons, Rmult_plus_distr_r, IH. ring. }
  transitivity (rsum (map (fun X => (avg X - m) * rsum (map pull (directions s X))) ts) * share / (h * T)); [|field; split; lra].
  rewrite G. field. split; lra.
Qed.
End SUMS.

Lemma plain_is (pull : list R -> R) (q : R -> R) (j : nat) : (forall x, pull x = q (nth j x 0)) ->
  forall w X, wsum w (map q (column X j)) = plain_sum pull w X.
Proof.
  intros Q. unfold wsum, column. induction w as [|a w IH]; intros [|x X]; [reflexivity|reflexivity|reflexivity|]. cbn [map map2 plain_sum]. rewrite rsum_cons, Q. f_equal. apply IH.
Qed.
Lemma sym_is (pull : list R -> R) (q : R -> R) (sign : R) (f : R -> R -> R) (j : nat) : (forall x, pull x = q (nth j x 0)) -> (forall p m, f p m = (p + sign * m) / 2) ->
  forall n w X, length w = (2 * n)%nat -> length X = (2 * n)%nat -> wsum (map2 f (evens w) (odds w)) (map q (evens (column X j))) = sym_sum pull sign w X.
Proof.
  intros Q H. unfold wsum, column. induction n as [|n IH]; intros [|a [|b w]] [|x [|y X]] L1 L2; cbn in L1, L2; try lia; auto.
  cbn [evens odds map map2 sym_sum]. rewrite rsum_cons, H, Q. f_equal. apply IH; lia.
Qed.

Section STEP.
  Variable draw : nat -> nat -> list (list R).
  Variable fitness : list R -> R.
  Variable argsort : bool -> list R -> list nat.
  Hypothesis Hd : samples_ok draw.

  Definition center_grad (s m : bool) mu X j := grad s (pull_center mu j) (-1) (utility m fitness) X.
  Definition stdev_grad (s m : bool) mu sigma X j := grad s (pull_stdev mu sigma j) 1 (utility m fitness) X.
  Lemma raw_all (l : list R) : all_numbers (map Some l) = Some l.
  Proof. induction l; cbn; auto. rewrite IHl. reflexivity. Qed.
  Lemma raw_utility m (X : list (list R)) : raw (map fitness X) m = map (utility m fitness) X.
  Proof. unfold raw, utility. destruct m; auto. apply map_map. Qed.
  Lemma divided (s : bool) n x : ok_size s n -> rdivo x (INR (divisor s n)) = Some (x / INR (divisor s n)).
  Proof.
    intros [P O]. unfold rdivo. destruct (Req_EM_T _ 0) as [E|]; auto. exfalso. revert E. apply not_0_INR. destruct s; cbn [divisor]; [|lia].
    destruct (O eq_refl) as [k ->]. rewrite Nat.mul_comm, Nat.div_mul; lia.
  Qed.
  Lemma dirs_divisor (s : bool) (X : list (list R)) : ok_size s (length X) -> divisor s (length X) = length (directions s X).
  Proof.
    intros [P O]. unfold directions. destruct s; cbn [divisor]; auto. destruct (O eq_refl) as [k E]. rewrite (firsts_length k) by exact E. rewrite E, Nat.mul_comm, Nat.div_mul; lia.
  Qed.
  Lemma sums_center (s : bool) mu j w X : ok_size s (length X) -> length w = length X ->
    (if s then symmetric_mu else plain_mu) w (column X j) (nth j mu 0) = the_sum s (pull_center mu j) (-1) w X.
  Proof.
    intros [P O] L. unfold the_sum. destruct s.
    - destruct (O eq_refl) as [k E]. apply (sym_is _ (fun x => x - nth j mu 0) (-1) (fun p m => (p - m) / 2) j) with (n := k); try congruence; [reflexivity|intros; lra].
    - apply (plain_is _ (fun x => x - nth j mu 0)). reflexivity.
  Qed.
  Lemma sums_stdev (s : bool) mu sigma j w X : ok_size s (length X) -> length w = length X ->
    (if s then symmetric_sigma else plain_sigma) w (column X j) (nth j mu 0) (nth j sigma 0) = the_sum s (pull_stdev mu sigma j) 1 w X.
  Proof.
    intros [P O] L. unfold the_sum. destruct s.
    - destruct (O eq_refl) as [k E]. apply (sym_is _ (fun x => ((x - nth j mu 0) * (x - nth j mu 0) - nth j sigma 0 * nth j sigma 0) / nth j sigma 0) 1 (fun p m => (p + m) / 2) j) with (n := k); try congruence; [reflexivity|intros; lra].
    - apply (plain_is _ (fun x => ((x - nth j mu 0) * (x - nth j mu 0) - nth j sigma 0 * nth j sigma 0) / nth j sigma 0)). reflexivity.
  Qed.
  Lemma gradients_raw s m mu sigma X : ok_size s (length X) ->
    gradients s false mu sigma X (weights_of argsort false m (map fitness X)) =
    Ok (map (fun j => Some (center_grad s m mu X j)) (seq 0 (length mu)), map (fun j => Some (stdev_grad s m mu sigma X j)) (seq 0 (length mu))).
  Proof.
    intros O. unfold gradients, weights_of. rewrite raw_utility, raw_all.
    assert (G : forall F G, gradients_of F G (pgpe_options s) "raw" mu sigma X (map (utility m fitness) X) =
      let c := map (fun a => a - avg (utility m fitness) X) (map (utility m fitness) X) in
      Ok (map (fun j => rdivo (F c (column X j) (nth j mu 0)) (INR (divisor s (length X)))) (seq 0 (length mu)),
          map (fun j => rdivo (G c (column X j) (nth j mu 0) (nth j sigma 0)) (INR (divisor s (length X)))) (seq 0 (length mu)))).
    { intros F G. unfold gradients_of. cbv zeta.
      assert (Ec : centered_weights "raw" (map (utility m fitness) X) = map (fun a => a - avg (utility m fitness) X) (map (utility m fitness) X)).
      { unfold centered_weights, is_centering. cbn [String.eqb Ascii.eqb Bool.eqb orb]. unfold avg, rmean. rewrite map_length. reflexivity. }
      rewrite Ec. set (c := map _ (map _ X)). assert (Lc : length c = length X) by (unfold c; rewrite !map_length; reflexivity). clearbody c.
      rewrite (map_ext _ _ (fun j => divide_pgpe s (F c (column X j) (nth j mu 0)) c)).
      rewrite (map_ext (fun j => divide_grad (divide_sigma (pgpe_options s)) _ c) _ (fun j => divide_pgpe' s (G c (column X j) (nth j mu 0) (nth j sigma 0)) c)).
      rewrite !seq_map_ok, Lc. reflexivity. }
    assert (E : (if s then symmetric_gradients else plain_gradients) = gradients_of (if s then symmetric_mu else plain_mu) (if s then symmetric_sigma else plain_sigma)) by (destruct s; reflexivity).
    rewrite E, G. cbv zeta. f_equal. f_equal; apply map_ext; intros j; rewrite divided by exact O; f_equal.
    - rewrite sums_center by (auto; rewrite !map_length; reflexivity). rewrite dirs_divisor by exact O. reflexivity.
    - rewrite sums_stdev by (auto; rewrite !map_length; reflexivity). rewrite dirs_divisor by exact O. reflexivity.
  Qed.

  Definition answer_of s m mu sigma X : answer :=
    mkAnswer (map (fun j => Some (center_grad s m mu X j)) (seq 0 (length mu))) (map (fun j => Some (stdev_grad s m mu sigma X j)) (seq 0 (length mu)))
      (length X) (cmean (map fitness X)).
  Lemma tasks_raw s m mu sigma sizes : Forall (ok_size s) sizes -> forall k,
    sequence (map2 (task draw fitness argsort s false m mu sigma) (seq k (length sizes)) sizes) =
    Ok (map (answer_of s m mu sigma) (map2 draw (seq k (length sizes)) sizes)).
  Proof using Hd.
    induction 1 as [|n sizes O F IH]; intros k; cbn [length seq map2 map sequence]; [reflexivity|].
    unfold task at 1. rewrite gradients_raw by (rewrite Hd; exact O). cbn [bind fst snd]. rewrite (IH (S k)). reflexivity.
  Qed.
  Lemma average_raw (wt : answer -> R) n part (k : answer -> nat -> R) : forall l, (forall a, In a l -> part a = map (fun j => Some (k a j)) (seq 0 n)) -> forall h : nat -> R,
    fold_left (fun acc a => map2 nadd acc (map (nmul (Some (wt a))) (part a))) l (map (fun j => Some (h j)) (seq 0 n)) =
    map (fun j => Some (h j + rsum (map (fun a => wt a * k a j) l))) (seq 0 n).
  Proof using.
    induction l as [|a l IH]; intros H h; cbn [fold_left].
    - apply map_ext. intros j. unfold rsum. cbn. f_equal. ring.
    - rewrite (H a) by (left; auto). assert (E : map2 nadd (map (fun j => Some (h j)) (seq 0 n)) (map (nmul (Some (wt a))) (map (fun j => Some (k a j)) (seq 0 n))) =
        map (fun j => Some (h j + wt a * k a j)) (seq 0 n)) by (generalize (seq 0 n); intros q; induction q as [|j q IHq]; cbn; auto; rewrite IHq; reflexivity).
      rewrite E, (IH ltac:(intros b Hb; apply H; right; exact Hb)). apply map_ext. intros j. cbn [map]. rewrite rsum_cons. f_equal. ring.
  Qed.
  Lemma sizes_ok s popsize ss ns actors sizes : enough s popsize ss ns actors -> popsize_per_task popsize ss ns actors s = Ok sizes ->
    Forall (ok_size s) sizes /\ sizes <> [].
  Proof using argsort.
    intros H E. destruct (enough_sizes s popsize ss ns actors H) as [z [E' [P [N _]]]]. assert (z = sizes) by congruence. subst z. split; [|exact N].
    apply Forall_forall. intros p Hp. split; [specialize (P p Hp); lia|]. intros ->. unfold popsize_per_task in E.
    destruct (match ss, ns with Some m, _ => _ | None, Some k => _ | None, None => _ end) as [l|]; [|discriminate]. unfold bind in E. apply (f_equal (fun r => match r with Ok z => z | Err _ => [] end)) in E. cbv beta iota in E. rewrite <- E in Hp.
    apply in_map_iff in Hp. destruct Hp as [q [<- _]]. pose proof (Nat.div_mod q 2 ltac:(lia)) as DM. pose proof (Nat.mod_upper_bound q 2 ltac:(lia)) as MB. destruct (Nat.eqb (q mod 2) 0) eqn:B.
    - apply Nat.eqb_eq in B. exists (q / 2)%nat. lia.
    - apply Nat.eqb_neq in B. exists (q / 2 + 1)%nat. lia.
  Qed.

  (* what the tasks sample *)
  Definition samples_of (sizes : list nat) : list (list (list R)) := map2 draw (seq 0 (length sizes)) sizes.
  Lemma samples_sizes s sizes : Forall (ok_size s) sizes -> sizes <> [] -> Forall (fun X : list (list R) => ok_size s (length X)) (samples_of sizes) /\ samples_of sizes <> [].
  Proof using Hd.
    intros F N. unfold samples_of. split; [|destruct sizes; [congruence|discriminate]]. clear N. generalize 0%nat. induction F as [|n sizes O F IH]; intros k; cbn; constructor; [rewrite Hd; exact O|apply IH].
  Qed.
  Lemma distributed_raw s m popsize ss ns actors mu sigma sizes : enough s popsize ss ns actors -> popsize_per_task popsize ss ns actors s = Ok sizes ->
    exists mean, distributed_step draw fitness argsort s false m true popsize ss ns actors mu sigma =
      Ok (map (fun j => Some (rsum (map (fun X => INR (length X) / INR (length (concat (samples_of sizes))) * center_grad s m mu X j) (samples_of sizes)))) (seq 0 (length mu)),
          map (fun j => Some (rsum (map (fun X => INR (length X) / INR (length (concat (samples_of sizes))) * stdev_grad s m mu sigma X j) (samples_of sizes)))) (seq 0 (length mu)), mean).
  Proof using Hd.
    intros H E. destruct (sizes_ok _ _ _ _ _ _ H E) as [F N]. unfold distributed_step. rewrite E. cbn [bind]. rewrite (tasks_raw s m mu sigma sizes F 0). cbn [bind]. fold (samples_of sizes).
    destruct (samples_sizes s sizes F N) as [FS NS]. set (ts := samples_of sizes) in *.
    assert (T : total_solutions (map (answer_of s m mu sigma) ts) = length (concat ts)).
    { unfold total_solutions. rewrite total_sum, map_map. cbn [a_num answer_of Nat.add]. unfold list_sum. clear. induction ts; cbn; auto. rewrite app_length. lia. }
    assert (PT : (1 <= length (concat ts))%nat). { destruct FS as [|X ts' [P _] _]; [congruence|]. cbn. rewrite app_length. lia. }
    rewrite T. destruct (Nat.eqb_spec (length (concat ts)) 0) as [C|_]; [lia|]. eexists. f_equal. f_equal. f_equal.
    - unfold average. assert (Z : repeat (Some 0) (length mu) = map (fun j : nat => Some 0) (seq 0 (length mu))) by (generalize 0%nat; induction (length mu); intros k; cbn; f_equal; auto). rewrite Z.
      rewrite (average_raw (task_weight true (map (answer_of s m mu sigma) ts)) (length mu) a_mu (fun a j => match nth_error (a_mu a) j with Some (Some x) => x | _ => 0 end)).
      + apply map_ext_in. intros j Hj. apply in_seq in Hj. f_equal. rewrite Rplus_0_l, map_map. f_equal. apply map_ext. intros X. unfold task_weight. rewrite T. cbn [a_num a_mu answer_of].
        rewrite nth_error_map, (nth_error_nth' _ 0%nat) by (rewrite seq_length; lia). rewrite seq_nth by lia. reflexivity.
      + intros a Ha. apply in_map_iff in Ha. destruct Ha as [X [<- _]]. cbn [a_mu answer_of]. apply map_ext_in. intros j Hj. apply in_seq in Hj.
        rewrite nth_error_map, (nth_error_nth' _ 0%nat) by (rewrite seq_length; lia). rewrite seq_nth by lia. reflexivity.
    - unfold average. assert (Z : repeat (Some 0) (length mu) = map (fun j : nat => Some 0) (seq 0 (length mu))) by (generalize 0%nat; induction (length mu); intros k; cbn; f_equal; auto). rewrite Z.
      rewrite (average_raw (task_weight true (map (answer_of s m mu sigma) ts)) (length mu) a_sigma (fun a j => match nth_error (a_sigma a) j with Some (Some x) => x | _ => 0 end)).
      + apply map_ext_in. intros j Hj. apply in_seq in Hj. f_equal. rewrite Rplus_0_l, map_map. f_equal. apply map_ext. intros X. unfold task_weight. rewrite T. cbn [a_num a_sigma answer_of].
        rewrite nth_error_map, (nth_error_nth' _ 0%nat) by (rewrite seq_length; lia). rewrite seq_nth by lia. reflexivity.
      + intros a Ha. apply in_map_iff in Ha. destruct Ha as [X [<- _]]. cbn [a_sigma answer_of]. apply map_ext_in. intros j Hj. apply in_seq in Hj.
        rewrite nth_error_map, (nth_error_nth' _ 0%nat) by (rewrite seq_length; lia). rewrite seq_nth by lia. reflexivity.
  Qed.

  (* C226: compared with the gradients which the same solutions would give in one place, a distributed step with raw fitnesses and weighted averages
     lacks exactly what the differences between the tasks have to say -- except for the center with symmetric sampling, which lacks nothing. *)
Theorem C226_difference : forall symmetric maximize popsize subbatch_size num_subbatches num_actors mu sigma sizes mu_grad sigma_grad mean,
    enough symmetric popsize subbatch_size num_subbatches num_actors ->
    popsize_per_task popsize subbatch_size num_subbatches num_actors symmetric = Ok sizes ->
    distributed_step draw fitness argsort symmetric false maximize true popsize subbatch_size num_subbatches num_actors mu sigma = Ok (mu_grad, sigma_grad, mean) ->
    let tasks := samples_of sizes in
    exists mu_grad' sigma_grad',
      gradients symmetric false mu sigma (concat tasks) (weights_of argsort false maximize (map fitness (concat tasks))) = Ok (mu_grad', sigma_grad') /\
      forall j, (j < length mu)%nat -> exists x x' y y',
        nth_error mu_grad j = Some (Some x) /\ nth_error mu_grad' j = Some (Some x') /\
        nth_error sigma_grad j = Some (Some y) /\ nth_error sigma_grad' j = Some (Some y') /\
        x' - x = (if symmetric then 0 else between_tasks symmetric maximize fitness (pull_center mu j) tasks) /\
        y' - y = between_tasks symmetric maximize fitness (pull_stdev mu sigma j) tasks.
  Proof using Hd.
    intros s m popsize ss ns actors mu sigma sizes mg sg mean H E D. destruct (distributed_raw s m popsize ss ns actors mu sigma sizes H E) as [mean' D']. rewrite D in D'. injection D' as -> -> ->.
    destruct (sizes_ok _ _ _ _ _ _ H E) as [F N]. destruct (samples_sizes s sizes F N) as [FS NS]. cbv zeta. set (ts := samples_of sizes) in *.
    eexists. eexists. split; [apply gradients_raw; apply concat_size; assumption|]. intros j Hj. do 4 eexists.
    assert (J : forall (f : nat -> R), nth_error (map (fun j => Some (f j)) (seq 0 (length mu))) j = Some (Some (f j))).
    { intros f. rewrite nth_error_map, (nth_error_nth' _ 0%nat) by (rewrite seq_length; lia). rewrite seq_nth by lia. reflexivity. }
    split; [apply J|]. split; [apply J|]. split; [apply J|]. split; [apply J|]. split.
    - unfold center_grad. rewrite difference by assumption. unfold share. destruct s; [|rewrite Rmult_1_l; reflexivity]. replace ((1 + -1) / 2) with 0 by lra. apply Rmult_0_l.
    - unfold stdev_grad. rewrite difference by assumption. unfold share. replace (if s then (1 + 1) / 2 else 1) with 1 by (destruct s; lra). rewrite Rmult_1_l. reflexivity.
  Qed.

  (* So nothing is lost if all tasks happen to find the same mean fitness, ... *)
Theorem C226_equal_means_partial : forall symmetric maximize popsize subbatch_size num_subbatches num_actors mu sigma sizes mu_grad sigma_grad mean m,
    enough symmetric popsize subbatch_size num_subbatches num_actors ->
    popsize_per_task popsize subbatch_size num_subbatches num_actors symmetric = Ok sizes ->
    distributed_step draw fitness argsort symmetric false maximize true popsize subbatch_size num_subbatches num_actors mu sigma = Ok (mu_grad, sigma_grad, mean) ->
    (forall t, In t (samples_of sizes) -> mean_utility maximize fitness t = m) ->
    gradients symmetric false mu sigma (concat (samples_of sizes)) (weights_of argsort false maximize (map fitness (concat (samples_of sizes)))) = Ok (mu_grad, sigma_grad).
  Proof using Hd.
    intros s mx popsize ss ns actors mu sigma sizes mg sg mean m H E D M. destruct (distributed_raw s mx popsize ss ns actors mu sigma sizes H E) as [mean' D']. rewrite D in D'. injection D' as -> -> ->.
    destruct (sizes_ok _ _ _ _ _ _ H E) as [F N]. destruct (samples_sizes s sizes F N) as [FS NS]. set (ts := samples_of sizes) in *.
    assert (MC : mean_utility mx fitness (concat ts) = m).
    { unfold mean_utility. assert (G : rsum (map (utility mx fitness) (concat ts)) = m * INR (length (concat ts))).
      { clear -FS M. induction FS as [|X ts [P _] FS IH]; [cbn; lra|]. cbn [concat]. rewrite map_app, rsum_app2, app_length, plus_INR, IH by (intros t Ht; apply M; right; exact Ht).
        pose proof (M X (or_introl eq_refl)) as Q. unfold mean_utility in Q. assert (0 < INR (length X)) by (apply lt_0_INR; lia). rewrite <- Q. field. lra. }
      rewrite G. field. apply not_0_INR. destruct (concat_size s ts NS FS). lia. }
    assert (Z : forall pull, rsum (map (fun X => (avg (utility mx fitness) X - avg (utility mx fitness) (concat ts)) * rsum (map pull (directions s X))) ts) = 0).
    { intros pull. change (avg (utility mx fitness)) with (mean_utility mx fitness). rewrite MC. clear -M. induction ts as [|X ts IH]; [reflexivity|]. cbn [map]. rewrite rsum_cons, IH by (intros t Ht; apply M; right; exact Ht).
      rewrite (M X) by (left; auto). ring. }
    rewrite gradients_raw by (apply concat_size; assumption). f_equal. f_equal; apply map_ext; intros j; f_equal.
    - unfold center_grad. pose proof (difference s (pull_center mu j) (-1) (utility mx fitness) ts NS FS) as Df. rewrite Z in Df. unfold Rdiv at 2 in Df. rewrite Rmult_0_l, Rmult_0_r in Df. lra.
    - unfold stdev_grad. pose proof (difference s (pull_stdev mu sigma j) 1 (utility mx fitness) ts NS FS) as Df. rewrite Z in Df. unfold Rdiv at 2 in Df. rewrite Rmult_0_l, Rmult_0_r in Df. lra.
  Qed.

  (* ... and everything is lost if each task finds solutions of one fitness only: the step goes nowhere, however much the tasks differ. *)
Theorem C226_blind_refuted : forall symmetric maximize popsize subbatch_size num_subbatches num_actors mu sigma sizes mu_grad sigma_grad mean,
    enough symmetric popsize subbatch_size num_subbatches num_actors ->
    popsize_per_task popsize subbatch_size num_subbatches num_actors symmetric = Ok sizes ->
    distributed_step draw fitness argsort symmetric false maximize true popsize subbatch_size num_subbatches num_actors mu sigma = Ok (mu_grad, sigma_grad, mean) ->
    (forall t, In t (samples_of sizes) -> exists c, Forall (fun x => fitness x = c) t) ->
    mu_grad = repeat (Some 0) (length mu) /\ sigma_grad = repeat (Some 0) (length mu).
  Proof using Hd.
    intros s mx popsize ss ns actors mu sigma sizes mg sg mean H E D C. destruct (distributed_raw s mx popsize ss ns actors mu sigma sizes H E) as [mean' D']. rewrite D in D'. injection D' as -> -> ->.
    destruct (sizes_ok _ _ _ _ _ _ H E) as [F N]. destruct (samples_sizes s sizes F N) as [FS _]. set (ts := samples_of sizes) in *. clearbody ts.
    assert (Zr : forall (f : nat -> R), (forall j, f j = 0) -> map (fun j => Some (f j)) (seq 0 (length mu)) = repeat (Some 0) (length mu)).
    { clear D. intros f Q. generalize 0%nat. induction (length mu) as [|n IHn]; intros k; cbn; [reflexivity|]. rewrite Q, IHn. reflexivity. }
    assert (G0 : forall pull sign X, In X ts -> grad s pull sign (utility mx fitness) X = 0).
    { intros pull sign X HX. destruct (C X HX) as [c Hc]. rewrite Forall_forall in FS. destruct (FS X HX) as [P O].
      assert (U : map (utility mx fitness) X = repeat (if mx then c else - c) (length X)).
      { clear -Hc. induction Hc as [|x X Hx Hc IH]; cbn; f_equal; auto. unfold utility. destruct mx; rewrite Hx; reflexivity. }
      assert (A : avg (utility mx fitness) X = if mx then c else - c).
      { unfold avg. rewrite U. assert (R : forall n q, rsum (repeat q n) = INR n * q). { induction n; intros q; [unfold rsum; cbn; ring|]. rewrite S_INR. cbn [repeat]. rewrite rsum_cons, IHn. ring. }
        rewrite R. field. apply not_0_INR. lia. }
      unfold grad. rewrite A, U. assert (W : map (fun a => a - (if mx then c else - c)) (repeat (if mx then c else - c) (length X)) = repeat 0 (length X)).
      { clear. induction (length X); cbn; f_equal; auto. ring. }
      rewrite W. assert (S0 : forall n X, the_sum s pull sign (repeat 0 n) X = 0).
      { unfold the_sum. destruct s.
        - assert (Q : forall k X n, (n <= k)%nat -> sym_sum pull sign (repeat 0 n) X = 0).
          { induction k as [|k IH]; intros Y [|[|n]] L; try lia; cbn; auto. destruct Y as [|y [|z Y]]; auto. rewrite IH by lia. lra. }
          intros n Y. apply (Q n). lia.
        - induction n as [|n IH]; intros [|y Y]; cbn; auto. rewrite IH. ring. }
      rewrite S0. unfold Rdiv. apply Rmult_0_l. }
    assert (S0 : forall (f : list (list R) -> R), (forall X, In X ts -> f X = 0) -> rsum (map (fun X => INR (length X) / INR (length (concat ts)) * f X) ts) = 0).
    { intros f. generalize (INR (length (concat ts))). clear. intros T Q. induction ts as [|X ts IH]; [reflexivity|]. cbn [map]. rewrite rsum_cons, IH by (intros; apply Q; right; assumption). rewrite (Q X) by (left; auto). ring. }
    split; apply Zr; intros j; apply S0; intros X HX; apply G0; exact HX.
  Qed.
End STEP.
Print Assumptions C226_difference.
Print Assumptions C226_equal_means_partial.
Print Assumptions C226_blind_refuted.

(* Two tasks of two solutions each, the first of fitness 1 and the second of fitness 3, in one dimension and without symmetry: the tasks
   see no differences, so the distributed step stays at 0, but the four solutions together would give the center gradient 1. *)
Definition two_tasks (i n : nat) : list (list R) := repeat [match i with O => 0 | _ => 2 end] n.
Example C226_example :
  samples_ok two_tasks /\ enough false 4 None (Some 2%nat) 0 /\ popsize_per_task 4 None (Some 2%nat) 0 false = Ok [2; 2]%nat /\
  let fitness := fun x : list R => nth 0 x 0 + 1 in
  (forall t, In t (samples_of two_tasks [2; 2]%nat) -> exists c, Forall (fun x => fitness x = c) t) /\
  between_tasks false true fitness (pull_center [1] 0) (samples_of two_tasks [2; 2]%nat) = 1.
Proof.
  split; [intros i n; apply repeat_length|]. split; [unfold enough, tasks_number; lia|]. split; [reflexivity|]. cbv zeta. split.
  - intros t [<-|[<-|[]]]; [exists 1|exists 3]; repeat constructor; cbn; lra.
  - unfold between_tasks, mean_utility, utility, pull_center, rsum, two_tasks, samples_of, directions. cbn. field.
Qed.

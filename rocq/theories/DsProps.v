(* C222: a distributed step of PGPE uses finite gradients and reports the mean of all evaluations, provided that there
   are enough solutions for all tasks. *)
From Coq Require Import Reals Lra String.
From Verif Require Import Prelude RankModel RankProofs CemModel DistModel WorkModel WorkSpec WorkProofs DsModel.
Open Scope R_scope.

(* ---------------------------------------------------------------- specification *)
(* Sampling gives as many solutions as are asked for, and sorting gives an order of the indices. *)
Definition samples_ok (draw : nat -> nat -> list (list R)) : Prop := forall i n, length (draw i n) = n.
Definition orders_ok (argsort : bool -> list R -> list nat) : Prop :=
  forall d l, Permutation (argsort d l) (seq 0 (length l)).
(* Without subbatch_size, the number of tasks is num_subbatches or else the number of actors. *)
Definition tasks_number (num_subbatches : option nat) (num_actors : nat) : nat :=
  match num_subbatches with Some k => k | None => num_actors end.
(* Every task gets two solutions (a single solution is rounded up to two when sampling is symmetric). *)
Definition enough (symmetric : bool) (popsize : nat) (subbatch_size num_subbatches : option nat) (num_actors : nat) : Prop :=
  let least := (if symmetric then 1 else 2)%nat in
  match subbatch_size with
  | Some m => (least <= m /\ 1 <= popsize /\ popsize mod m = 0)%nat
  | None => (1 <= tasks_number num_subbatches num_actors /\ least * tasks_number num_subbatches num_actors <= popsize)%nat
  end.

(* ---------------------------------------------------------------- proofs *)
Lemma seq_ok {A B} (F : A -> result B) (P : A -> B -> Prop) l :
  (forall x, In x l -> exists y, F x = Ok y /\ P x y) -> exists ys, sequence (map F l) = Ok ys /\ Forall2 P l ys.
Proof.
  induction l as [|x t IH]; intros H; cbn; [exists []; split; auto; constructor|].
  destruct (H x) as [y [E Py]]; [left; auto|]. destruct IH as [ys [E' F2]]; [intros z Hz; apply H; right; exact Hz|].
  rewrite E. cbn. rewrite E'. cbn. exists (y :: ys). split; auto.
Qed.

Lemma seq_map_ok {A B} (f : A -> B) l : sequence (map (fun x => Ok (f x)) l) = Ok (map f l).
Proof. induction l; cbn; auto. rewrite IHl. reflexivity. Qed.

Definition divisor (symmetric : bool) (n : nat) : nat := if symmetric then Nat.div n 2 else n.

Lemma divide_pgpe symmetric g w : divide_grad (divide_mu (pgpe_options symmetric)) g w = Ok (rdivo g (INR (divisor symmetric (length w)))).
Proof. destruct symmetric; reflexivity. Qed.
Lemma divide_pgpe' symmetric g w : divide_grad (divide_sigma (pgpe_options symmetric)) g w = Ok (rdivo g (INR (divisor symmetric (length w)))).
Proof. destruct symmetric; reflexivity. Qed.

Lemma centered_weights_length r w : length (centered_weights r w) = length w.
Proof. unfold centered_weights. destruct (is_centering r); [|rewrite map_length]; auto. Qed.

Lemma gradients_pgpe F G symmetric r mu sigma samples w : exists gm gs,
  gradients_of F G (pgpe_options symmetric) r mu sigma samples w =
  Ok (map (fun x => rdivo x (INR (divisor symmetric (length w)))) gm, map (fun x => rdivo x (INR (divisor symmetric (length w)))) gs)
  /\ length gm = length mu /\ length gs = length mu.
Proof.
  unfold gradients_of. set (c := centered_weights r w). assert (Lc : length c = length w) by apply centered_weights_length. clearbody c.
  eexists (map (fun j => F c (column samples j) (nth j mu 0)) (seq 0 (length mu))), (map (fun j => G c (column samples j) (nth j mu 0) (nth j sigma 0)) (seq 0 (length mu))).
  split; [|rewrite !map_length, seq_length; auto].
  rewrite (map_ext _ _ (fun j => divide_pgpe symmetric (F c (column samples j) (nth j mu 0)) c)).
  rewrite (map_ext (fun j => divide_grad (divide_sigma (pgpe_options symmetric)) _ c) _ (fun j => divide_pgpe' symmetric (G c (column samples j) (nth j mu 0) (nth j sigma 0)) c)).
  rewrite !seq_map_ok. cbn. rewrite !map_map, Lc. reflexivity.
Qed.

Lemma all_numbers_length l : forall w, all_numbers l = Some w -> length w = length l.
Proof.
  induction l as [|[x|] t IH]; cbn; intros w E; try discriminate; [injection E as <-; auto|].
  destruct (all_numbers t); cbn in E; [|discriminate]. injection E as <-. cbn. f_equal. auto.
Qed.
Lemma all_numbers_ok l : (forall x, In x l -> x <> None) -> exists w, all_numbers l = Some w.
Proof.
  induction l as [|[x|] t IH]; cbn; intros H; [eauto| |destruct (H None); auto].
  destruct IH as [w E]; [auto|]. rewrite E. cbn. eauto.
Qed.
Lemma all_numbers_none l : In None l -> all_numbers l = None.
Proof.
  induction l as [|[x|] t IH]; cbn; intros H; [tauto| |auto].
  destruct H as [H|H]; [discriminate|]. rewrite IH by exact H. reflexivity.
Qed.

Lemma map_rdivo_zero l : map (fun x => rdivo x (INR 0)) l = repeat None (length l).
Proof. induction l; cbn; auto. f_equal; auto. unfold rdivo. destruct (Req_EM_T 0 0); tauto. Qed.
Lemma map_rdivo_ok l n : (1 <= n)%nat -> map (fun x => rdivo x (INR n)) l = map Some (map (fun x => x / INR n) l).
Proof.
  intros H. rewrite map_map. apply map_ext. intros x. unfold rdivo. destruct (Req_EM_T (INR n) 0) as [E|]; auto.
  exfalso. revert E. apply not_0_INR. lia.
Qed.

Section Step.
  Variable draw : nat -> nat -> list (list R).
  Variable fitness : list R -> R.
  Variable argsort : bool -> list R -> list nat.
  Hypothesis Hd : samples_ok draw.
  Hypothesis Ha : orders_ok argsort.

  Lemma weights_length c h x : length (weights_of argsort c h x) = length x.
  Proof.
    unfold weights_of. destruct c; [|rewrite map_length; unfold raw; destruct h; auto; apply map_length].
    destruct (scatter_ok None (argsort (negb h) x) (map (fun k => option_map (fun w => w - 1 / 2) (rdivo (INR k) (INR (length x) - 1))) (seq 0 (length x)))) as [L _].
    - rewrite map_length, seq_length. apply Ha.
    - etransitivity; [exact L|]. rewrite map_length, seq_length. reflexivity.
  Qed.
  Lemma weights_finite c h x : (2 <= length x)%nat -> exists w, all_numbers (weights_of argsort c h x) = Some w.
  Proof.
    intros H. apply all_numbers_ok. intros o Ho. unfold weights_of in Ho. destruct c.
    - eapply Permutation_in in Ho; [|apply scatter_perm; rewrite map_length, seq_length; apply Ha].
      apply in_map_iff in Ho. destruct Ho as [k [<- _]]. unfold rdivo. destruct (Req_EM_T _ 0) as [E|]; [|discriminate].
      exfalso. assert (INR 2 <= INR (length x)) by (apply le_INR; exact H). cbn in H0. lra.
    - apply in_map_iff in Ho. destruct Ho as [k [<- _]]. discriminate.
  Qed.
  Lemma weights_single h x : length x = 1%nat -> all_numbers (weights_of argsort true h x) = None.
  Proof.
    intros H. apply all_numbers_none. unfold weights_of. eapply Permutation_in.
    - apply Permutation_sym, scatter_perm. rewrite map_length, seq_length. apply Ha.
    - rewrite H. cbn. left. unfold rdivo. destruct (Req_EM_T (1 - 1) 0); [reflexivity|lra].
  Qed.

  Notation nans mu := (repeat (@None R) (length mu)).

  Lemma task_some s c m mu sigma i n : exists a, task draw fitness argsort s c m mu sigma i n = Ok a /\
    a_num a = n /\ a_mean a = cmean (map fitness (draw i n)) /\ length (a_mu a) = length mu /\ length (a_sigma a) = length mu /\
    (n = 0%nat -> a_mu a = nans mu /\ a_sigma a = nans mu) /\
    (n = 1%nat -> c = true -> a_mu a = nans mu /\ a_sigma a = nans mu) /\
    ((2 <= n)%nat -> exists gm gs, a_mu a = map Some gm /\ a_sigma a = map Some gs).
  Proof.
    assert (Lw : length (weights_of argsort c m (map fitness (draw i n))) = n) by (rewrite weights_length, map_length; apply Hd).
    assert (Lf : length (map fitness (draw i n)) = n) by (rewrite map_length; apply Hd).
    unfold task, gradients. destruct (all_numbers (weights_of argsort c m (map fitness (draw i n)))) as [w|] eqn:E.
    - pose proof (all_numbers_length _ _ E) as L.
      assert (G : exists gm gs, (if s then symmetric_gradients else plain_gradients) (pgpe_options s) (if c then "centered" else "raw")%string mu sigma (draw i n) w =
        Ok (map (fun x => rdivo x (INR (divisor s (length w)))) gm, map (fun x => rdivo x (INR (divisor s (length w)))) gs) /\ length gm = length mu /\ length gs = length mu)
        by (destruct s; apply gradients_pgpe).
      destruct G as [gm [gs [G [Lm Ls]]]]. cbv zeta. rewrite G. cbn [bind fst snd].
      eexists. split; [reflexivity|]. cbn [a_num a_mean a_mu a_sigma].
      split; [apply Hd|]. split; [reflexivity|]. split; [rewrite map_length; exact Lm|]. split; [rewrite map_length; exact Ls|].
      split; [|split].
      + intros ->. assert (Z : divisor s (length w) = 0%nat) by (rewrite L, Lw; destruct s; reflexivity).
        rewrite Z, !map_rdivo_zero, Lm, Ls. auto.
      + intros -> ->. exfalso. rewrite (weights_single m _ Lf) in E. discriminate.
      + intros H2. assert (Z : (1 <= divisor s (length w))%nat).
        { rewrite L, Lw. destruct s; cbn [divisor]; [|lia]. apply (Nat.div_le_lower_bound n 2 1); lia. }
        rewrite !map_rdivo_ok by exact Z. eauto.
    - cbn [bind fst snd]. eexists. split; [reflexivity|]. cbn [a_num a_mean a_mu a_sigma].
      split; [apply Hd|]. split; [reflexivity|]. split; [apply repeat_length|]. split; [apply repeat_length|]. split; [auto|]. split; [auto|].
      intros H2. exfalso. destruct (weights_finite c m (map fitness (draw i n))) as [w W]; [lia|]. congruence.
  Qed.

  Lemma nadd_none_r a : nadd a None = None. Proof. destruct a; reflexivity. Qed.
  Lemma map2_none n : forall acc, length acc = n -> map2 nadd acc (repeat None n) = repeat None n.
  Proof. induction n; intros [|x t] H; cbn in *; try lia; auto. rewrite nadd_none_r, IHn by lia. reflexivity. Qed.
  Lemma map2_none_l n : forall acc, length acc = n -> map2 nadd (repeat None n) acc = repeat None n.
  Proof. induction n; intros [|x t] H; cbn in *; try lia; auto. rewrite IHn by lia. reflexivity. Qed.
  Lemma nmul_nones n w : map (nmul w) (repeat None n) = repeat None n.
  Proof. induction n; cbn; auto. rewrite IHn. destruct w; reflexivity. Qed.

  Lemma fold_none (n : nat) (wt : answer -> R) part (l : list answer) : forall acc, length acc = n -> (forall a, In a l -> length (part a) = n) ->
    (acc = repeat None n \/ exists a, In a l /\ part a = repeat None n) ->
    fold_left (fun acc a => map2 nadd acc (map (nmul (Some (wt a))) (part a))) l acc = repeat None n.
  Proof.
    induction l as [|a t IH]; intros acc L Lp H; cbn.
    - destruct H as [H|[a [[] _]]]. exact H.
    - assert (La : length (part a) = n) by (apply Lp; left; auto).
      assert (Lm : length (map2 nadd acc (map (nmul (Some (wt a))) (part a))) = n).
      { etransitivity; [apply map2_length|]. assert (E : length (map (nmul (Some (wt a))) (part a)) = n) by (rewrite map_length; exact La).
        etransitivity; [|apply (Nat.min_id n)]. f_equal; [exact L|exact E]. }
      apply IH; [exact Lm|intros b Hb; apply Lp; right; auto|].
      destruct H as [->|[b [[->|Hb] E]]].
      + left. apply map2_none_l. rewrite map_length. exact La.
      + left. rewrite E, nmul_nones. apply map2_none. exact L.
      + right. exists b. auto.
  Qed.
  Lemma fold_some (n : nat) (wt : answer -> R) part (l : list answer) : forall acc, (forall a, In a l -> exists g, part a = map Some g) ->
    exists g, fold_left (fun acc a => map2 nadd acc (map (nmul (Some (wt a))) (part a))) l (map Some acc) = map Some g.
  Proof.
    induction l as [|a t IH]; intros acc H; cbn; [eauto|].
    destruct (H a) as [g E]; [left; auto|]. rewrite E.
    assert (M : map2 nadd (map Some acc) (map (nmul (Some (wt a))) (map Some g)) = map Some (map2 (fun x y => x + wt a * y) acc g)).
    { clear. revert g. induction acc; intros [|y g]; cbn; auto. f_equal. apply IHacc. }
    rewrite M. apply IH. intros b Hb. apply H. right. exact Hb.
  Qed.
  Lemma mean_none (l : list answer) : forall acc, acc = None \/ (exists a, In a l /\ a_mean a = None) ->
    fold_left (fun t a => nadd t (nmul (Some (INR (a_num a))) (a_mean a))) l acc = None.
  Proof.
    induction l as [|a t IH]; intros acc H; cbn; [destruct H as [H|[a [[] _]]]; exact H|].
    apply IH. destruct H as [->|[b [[->|Hb] E]]]; [left; reflexivity|left; rewrite E; apply nadd_none_r|right; eauto].
  Qed.
  Lemma total_sum (l : list answer) : forall t, fold_left (fun t a => (t + a_num a)%nat) l t = (t + list_sum (map a_num l))%nat.
  Proof. induction l as [|a l IH]; intros t; cbn; [lia|]. rewrite IH. unfold list_sum. lia. Qed.
End Step.

(* the tasks *)
Lemma even_up_zero p : (if Nat.eqb (p mod 2) 0 then p else p + 1)%nat = 0%nat <-> p = 0%nat.
Proof. destruct p as [|p]; [cbn; tauto|]. destruct (Nat.eqb_spec (S p mod 2) 0); split; intros; lia. Qed.
Lemma list_sum_all l m : Forall (fun p => m <= p)%nat l -> (m * length l <= list_sum l)%nat.
Proof. induction 1; cbn; [lia|]. unfold list_sum in *. lia. Qed.

Lemma sizes_cases symmetric popsize ns actors : (1 <= tasks_number ns actors)%nat -> exists l sizes,
  popsize_per_task popsize None ns actors symmetric = Ok sizes /\ even_split popsize (tasks_number ns actors) l /\
  sizes = (if symmetric then map (fun p => if Nat.eqb (p mod 2) 0 then p else p + 1)%nat l else l).
Proof.
  intros H. destruct (split_workload_ok popsize _ H) as [l [E S]]. exists l. unfold popsize_per_task, tasks_number in *.
  destruct ns; rewrite E; cbn; eauto.
Qed.
Lemma some_small (m : nat) popsize n l : even_split popsize n l -> (popsize < m * n)%nat -> exists p, In p l /\ (p < m)%nat.
Proof.
  intros [L [S _]] H. destruct (Exists_dec (fun p => (p < m)%nat) l) as [D|D]; [intros x; apply lt_dec|apply Exists_exists in D; exact D|].
  exfalso. rewrite <- Forall_Exists_neg in D. assert (m * length l <= list_sum l)%nat by (apply list_sum_all; eapply Forall_impl; [|exact D]; cbn; intros; lia). nia.
Qed.
Lemma even_split_le popsize n l m p : even_split popsize n l -> In p l -> (m * n <= popsize)%nat -> (m <= p)%nat.
Proof.
  intros [L [S E]] Hp H. destruct (Nat.lt_ge_cases p m) as [C|C]; auto. exfalso.
  (* every part is at most p + 1 <= m, and p itself is smaller *)
  assert (U : Forall (fun x => x <= m)%nat l).
  { apply Forall_forall. intros x Hx. apply In_nth_error in Hx. destruct Hx as [i Hi]. apply In_nth_error in Hp. destruct Hp as [j Hj].
    destruct (Nat.le_ge_cases i j) as [O|O]; [specialize (E i j x p O Hi Hj)|specialize (E j i p x O Hj Hi)]; lia. }
  assert (G : forall l, Forall (fun x => x <= m)%nat l -> In p l -> (list_sum l < m * length l)%nat).
  { clear -C. induction l as [|x l IH]; cbn; intros U I; [tauto|]. inversion U; subst. destruct I as [->|I].
    - assert (list_sum l <= m * length l)%nat by (clear -H2; induction H2; cbn; [lia|unfold list_sum in *; lia]). unfold list_sum in *. lia.
    - specialize (IH H2 I). unfold list_sum in *. lia. }
  specialize (G l U Hp). nia.
Qed.

Lemma map2_combine {A B C} (f : A -> B -> C) a b : map2 f a b = map (fun p => f (fst p) (snd p)) (combine a b).
Proof. revert b. induction a; intros [|y b]; cbn; auto. f_equal. auto. Qed.
Lemma combine_seq_in {A} (l : list A) x : In x l -> exists i, In (i, x) (combine (seq 0 (length l)) l).
Proof.
  generalize 0%nat. induction l as [|y t IH]; cbn; intros k H; [tauto|]. destruct H as [->|H]; [eauto|].
  destruct (IH (S k) H) as [i Hi]. eauto.
Qed.

Section Results.
  Variable draw : nat -> nat -> list (list R).
  Variable fitness : list R -> R.
  Variable argsort : bool -> list R -> list nat.
  Hypothesis Hd : samples_ok draw.
  Hypothesis Ha : orders_ok argsort.

  Notation describes s c m mu sigma p a :=
    (task draw fitness argsort s c m mu sigma (fst p) (snd p) = Ok a).
  Lemma answers_ok s c m mu sigma sizes : exists l,
    sequence (map2 (task draw fitness argsort s c m mu sigma) (seq 0 (length sizes)) sizes) = Ok l /\
    Forall2 (fun p a => describes s c m mu sigma p a) (combine (seq 0 (length sizes)) sizes) l.
  Proof.
    rewrite map2_combine. apply seq_ok. intros p _. destruct (task_some draw fitness argsort Hd Ha s c m mu sigma (fst p) (snd p)) as [a [E _]]. eauto.
  Qed.
  Lemma answers_in {s c m mu sigma} {ps l} : Forall2 (fun p a => describes s c m mu sigma p a) ps l ->
    (forall p, In p ps -> exists a, In a l /\ describes s c m mu sigma p a) /\ (forall a, In a l -> exists p, In p ps /\ describes s c m mu sigma p a) /\
    map a_num l = map snd ps.
  Proof.
    induction 1 as [|p a ps l D F [I [J N]]]; [repeat split; cbn; tauto|]. split; [|split].
    - intros q [->|Hq]; [exists a; cbn; auto|]. destruct (I q Hq) as [b [? ?]]. exists b. cbn. auto.
    - intros b [->|Hb]; [exists p; cbn; auto|]. destruct (J b Hb) as [q [? ?]]. exists q. cbn. auto.
    - cbn. f_equal; [|exact N]. destruct (task_some draw fitness argsort Hd Ha s c m mu sigma (fst p) (snd p)) as [a' [E [N' _]]]. congruence.
  Qed.
  Lemma snd_combine_seq {A} (l : list A) k : map snd (combine (seq k (length l)) l) = l.
  Proof. revert k. induction l; intros k; cbn; auto. f_equal. auto. Qed.

  Lemma task_facts {s c m mu sigma p a} : describes s c m mu sigma p a ->
    a_num a = snd p /\ a_mean a = cmean (map fitness (draw (fst p) (snd p))) /\ length (a_mu a) = length mu /\ length (a_sigma a) = length mu /\
    (snd p = 0%nat -> a_mu a = repeat None (length mu) /\ a_sigma a = repeat None (length mu)) /\
    (snd p = 1%nat -> c = true -> a_mu a = repeat None (length mu) /\ a_sigma a = repeat None (length mu)) /\
    ((2 <= snd p)%nat -> exists gm gs, a_mu a = map Some gm /\ a_sigma a = map Some gs).
  Proof.
    intros D. destruct (task_some draw fitness argsort Hd Ha s c m mu sigma (fst p) (snd p)) as [a' [E R]].
    assert (a' = a) by congruence. subst. exact R.
  Qed.

  (* a task whose gradient is NaN makes NaN of the average *)
  Lemma nan_spreads s c m w popsize ns actors mu sigma sizes p0 :
    popsize_per_task popsize None ns actors s = Ok sizes -> In p0 sizes -> (p0 = 0 \/ (p0 = 1 /\ c = true))%nat -> (1 <= list_sum sizes)%nat ->
    exists e, distributed_step draw fitness argsort s c m w popsize None ns actors mu sigma = Ok (repeat None (length mu), repeat None (length mu), e) /\
      (p0 = 0%nat -> e = None).
  Proof.
    intros E I Z T. unfold distributed_step. rewrite E. cbn [bind].
    destruct (answers_ok s c m mu sigma sizes) as [l [Es F]]. rewrite Es. cbn [bind].
    destruct (answers_in F) as [I1 [I2 N]]. rewrite snd_combine_seq in N.
    assert (Tl : total_solutions l = list_sum sizes) by (unfold total_solutions; rewrite total_sum, N; reflexivity).
    rewrite Tl. destruct (Nat.eqb_spec (list_sum sizes) 0) as [C|_]; [lia|].
    destruct (combine_seq_in sizes p0 I) as [i Hi]. destruct (I1 _ Hi) as [a [Al D]]. destruct (task_facts D) as [_ [Me [_ [_ [F0 [F1 _]]]]]]. cbn [fst snd] in *.
    assert (Na : a_mu a = repeat None (length mu) /\ a_sigma a = repeat None (length mu)) by (destruct Z as [Z|[Z C]]; auto).
    assert (Ll : forall b, In b l -> length (a_mu b) = length mu /\ length (a_sigma b) = length mu).
    { intros b Hb. destruct (I2 b Hb) as [q [_ Dq]]. destruct (task_facts Dq) as [_ [_ [? [? _]]]]. auto. }
    eexists. split.
    - do 2 f_equal. f_equal.
      + unfold average. apply fold_none; [apply repeat_length|intros b Hb; apply Ll; auto|right; exists a; split; [auto|apply Na]].
      + unfold average. apply fold_none; [apply repeat_length|intros b Hb; apply Ll; auto|right; exists a; split; [auto|apply Na]].
    - intros Z0. unfold overall_mean. rewrite mean_none; [reflexivity|]. right. exists a. split; auto. rewrite Me. subst p0.
      pose proof (Hd i 0%nat) as L0. destruct (draw i 0%nat); [reflexivity|cbn in L0; lia].
  Qed.

  Lemma sum_pos l p : In p l -> (1 <= p)%nat -> (1 <= list_sum l)%nat.
  Proof. induction l as [|x t IH]; cbn; intros H1 H2; [tauto|]. destruct H1 as [->|H1]; [unfold list_sum; lia|]. specialize (IH H1 H2). unfold list_sum in *. lia. Qed.

  Lemma sizes_positive (s : bool) l : (1 <= list_sum l)%nat -> (1 <= list_sum (if s then map (fun p => if Nat.eqb (p mod 2) 0 then p else p + 1)%nat l else l))%nat.
  Proof.
    destruct s; auto. intros H. assert (G : (list_sum l <= list_sum (map (fun p => if Nat.eqb (p mod 2) 0 then p else p + 1)%nat l))%nat); [|lia].
    clear H. induction l as [|x t IH]; [apply le_n|]. unfold list_sum in *. cbn [map fold_right]. destruct (Nat.eqb (x mod 2) 0); lia.
  Qed.

  (* C222: with fewer solutions than tasks, the gradients and the reported mean evaluation are NaN *)
Theorem C222_fewer_solutions_than_tasks_refuted : forall symmetric centered maximize weighted popsize num_subbatches num_actors mu sigma,
    (1 <= popsize < tasks_number num_subbatches num_actors)%nat ->
    distributed_step draw fitness argsort symmetric centered maximize weighted popsize None num_subbatches num_actors mu sigma =
    Ok (repeat None (length mu), repeat None (length mu), None).
  Proof.
    intros s c m w popsize ns actors mu sigma H. destruct (sizes_cases s popsize ns actors) as [l [sizes [E [S Z]]]]; [lia|].
    destruct (some_small 1 popsize _ l S) as [p [Hp Hz]]; [lia|]. assert (p = 0%nat) by lia. subst p. clear Hz.
    assert (I : In 0%nat sizes). { subst sizes. destruct s; auto. apply in_map_iff. exists 0%nat. split; [apply even_up_zero; reflexivity|exact Hp]. }
    destruct (nan_spreads s c m w popsize ns actors mu sigma sizes 0%nat E I) as [e [R Q]]; [auto| |].
    - subst sizes. apply sizes_positive. destruct S as [_ [-> _]]. lia.
    - rewrite R, Q; reflexivity.
  Qed.

  (* With centered ranks (the default), a task which samples a single solution makes NaN of the gradients. *)
Theorem C222_single_solutions_refuted : forall maximize weighted popsize num_subbatches num_actors mu sigma,
    (1 <= popsize < 2 * tasks_number num_subbatches num_actors)%nat ->
    exists mean_eval, distributed_step draw fitness argsort false true maximize weighted popsize None num_subbatches num_actors mu sigma =
      Ok (repeat None (length mu), repeat None (length mu), mean_eval).
  Proof.
    intros m w popsize ns actors mu sigma H. destruct (sizes_cases false popsize ns actors) as [l [sizes [E [S Z]]]]; [lia|]. subst sizes.
    destruct (some_small 2 popsize _ l S) as [p [Hp Hz]]; [lia|].
    destruct (nan_spreads false true m w popsize ns actors mu sigma l p E Hp) as [e [R _]]; [lia| |eauto].
    destruct S as [_ [-> _]]. lia.
  Qed.

  Lemma rsum_app a b : rsum (a ++ b) = rsum a + rsum b.
  Proof. unfold rsum. induction a; cbn; [lra|]. rewrite IHa. lra. Qed.

  Lemma mean_some s c m mu sigma (ps : list (nat * nat)) l : Forall2 (fun p a => describes s c m mu sigma p a) ps l -> (forall p, In p ps -> (1 <= snd p)%nat) ->
    forall acc, fold_left (fun t a => nadd t (nmul (Some (INR (a_num a))) (a_mean a))) l (Some acc) =
    Some (acc + rsum (concat (map (fun p => map fitness (draw (fst p) (snd p))) ps))).
  Proof.
    induction 1 as [|p a ps l D F IH]; intros P acc; cbn [fold_left map concat]; [cbn; f_equal; lra|].
    destruct (task_facts D) as [N [Me _]]. specialize (P p (or_introl eq_refl)) as P1.
    assert (Lf : length (map fitness (draw (fst p) (snd p))) = snd p) by (rewrite map_length; apply Hd).
    assert (M : nmul (Some (INR (a_num a))) (a_mean a) = Some (rsum (map fitness (draw (fst p) (snd p))))).
    { rewrite N, Me. destruct (map fitness (draw (fst p) (snd p))) as [|x t] eqn:Ex; [cbn in Lf; lia|]. unfold cmean, nmul, rmean. rewrite Lf. f_equal.
      field. apply not_0_INR. lia. }
    rewrite M. cbn [nadd]. rewrite IH by (intros q Hq; apply P; right; exact Hq). rewrite rsum_app. f_equal. lra.
  Qed.

  Lemma length_samples (ps : list (nat * nat)) : length (concat (map (fun p => map fitness (draw (fst p) (snd p))) ps)) = list_sum (map snd ps).
  Proof. induction ps as [|p t IH]; auto. cbn [map concat]. rewrite app_length, IH, map_length, Hd. reflexivity. Qed.

  Lemma enough_sizes s popsize ss ns actors : enough s popsize ss ns actors -> exists sizes,
    popsize_per_task popsize ss ns actors s = Ok sizes /\ (forall p, In p sizes -> (2 <= p)%nat) /\ sizes <> [] /\ (popsize <= list_sum sizes)%nat /\
    (s = false -> list_sum sizes = popsize).
  Proof.
    intros H. destruct ss as [k|]; cbn [enough] in H.
    - destruct H as [H1 [H2 H3]]. unfold popsize_per_task. destruct (Nat.eqb_spec k 0) as [C|C]; [destruct s; lia|]. rewrite H3. cbn [Nat.eqb bind].
      eexists. split; [reflexivity|]. assert (D : (popsize = k * (popsize / k))%nat) by (pose proof (Nat.div_mod popsize k C); lia).
      assert (Q1 : (popsize / k <> 0)%nat) by nia. set (q := (popsize / k)%nat) in *. clearbody q.
      destruct s.
      + assert (M : map (fun p => if Nat.eqb (p mod 2) 0 then p else p + 1)%nat (repeat k q) = repeat (if Nat.eqb (k mod 2) 0 then k else k + 1)%nat q)
          by (clear; induction q; cbn; f_equal; auto).
        rewrite M. split; [|split; [|split]].
        * intros p Hp. apply repeat_spec in Hp. subst p. destruct (Nat.eqb_spec (k mod 2) 0); [|lia]. destruct k as [|[|k]]; cbn in *; lia.
        * destruct q; [lia|discriminate].
        * rewrite list_sum_repeat. destruct (Nat.eqb (k mod 2) 0); nia.
        * discriminate.
      + split; [|split; [|split]].
        * intros p Hp. apply repeat_spec in Hp. subst p. lia.
        * destruct q; [lia|discriminate].
        * rewrite list_sum_repeat. lia.
        * intros _. rewrite list_sum_repeat. lia.
    - destruct H as [H1 H2]. destruct (sizes_cases s popsize ns actors H1) as [l [sizes [E [S Z]]]]. exists sizes. split; [exact E|].
      assert (Ln : l <> []). { destruct S as [L _]. intros ->. cbn in L. lia. }
      assert (P : forall p, In p l -> ((if s then 1 else 2) <= p)%nat) by (intros p Hp; eapply even_split_le; eauto).
      destruct S as [L [S _]]. subst sizes. destruct s.
      + split; [|split; [|split]].
        * intros p Hp. apply in_map_iff in Hp. destruct Hp as [q [<- Hq]]. specialize (P q Hq). destruct (Nat.eqb_spec (q mod 2) 0); [|lia]. destruct q as [|[|q]]; cbn in *; lia.
        * destruct l; [congruence|discriminate].
        * rewrite <- S. clear. induction l as [|x t IH]; [apply le_n|]. unfold list_sum in *. cbn [map fold_right]. destruct (Nat.eqb (x mod 2) 0); lia.
        * discriminate.
      + split; [exact P|]. split; [exact Ln|]. split; [lia|auto].
  Qed.

  (* With two solutions for every task, all gradients are finite, and the mean evaluation reported is the mean of the
     evaluations of all the solutions sampled by the tasks (as many as asked for, or more where sizes are made even). *)
Theorem C222_partial : forall symmetric centered maximize weighted popsize subbatch_size num_subbatches num_actors mu sigma,
    enough symmetric popsize subbatch_size num_subbatches num_actors ->
    exists sizes mu_grad sigma_grad,
      let evals := concat (map2 (fun i n => map fitness (draw i n)) (seq 0 (length sizes)) sizes) in
      distributed_step draw fitness argsort symmetric centered maximize weighted popsize subbatch_size num_subbatches num_actors mu sigma =
        Ok (map Some mu_grad, map Some sigma_grad, Some (rsum evals / INR (length evals))) /\
      (popsize <= length evals)%nat /\ (symmetric = false -> length evals = popsize).
  Proof.
    intros s c m w popsize ss ns actors mu sigma H. destruct (enough_sizes s popsize ss ns actors H) as [sizes [E [P [Nn [T T']]]]].
    exists sizes. unfold distributed_step. rewrite E. cbn [bind].
    destruct (answers_ok s c m mu sigma sizes) as [l [Es F]]. rewrite Es. cbn [bind].
    destruct (answers_in F) as [I1 [I2 N]]. rewrite snd_combine_seq in N.
    assert (Tl : total_solutions l = list_sum sizes) by (unfold total_solutions; rewrite total_sum, N; reflexivity).
    assert (Pos : (1 <= list_sum sizes)%nat). { destruct sizes as [|x t]; [congruence|]. apply (sum_pos _ x); [left; auto|]. specialize (P x (or_introl eq_refl)). lia. }
    assert (Pp : forall p, In p (combine (seq 0 (length sizes)) sizes) -> (2 <= snd p)%nat) by (intros [i p] Hp; apply in_combine_r in Hp; apply P; exact Hp).
    assert (Fin : forall a, In a l -> exists gm gs, a_mu a = map Some gm /\ a_sigma a = map Some gs).
    { intros a Ha'. destruct (I2 a Ha') as [p [Hp D]]. destruct (task_facts D) as [_ [_ [_ [_ [_ [_ G]]]]]]. apply G. apply Pp. exact Hp. }
    rewrite Tl. destruct (Nat.eqb_spec (list_sum sizes) 0) as [C|_]; [lia|].
    destruct (fold_some (length mu) (task_weight w l) a_mu l (repeat 0 (length mu))) as [gm Gm]; [intros a A; destruct (Fin a A) as [g [? [? ?]]]; eauto|].
    destruct (fold_some (length mu) (task_weight w l) a_sigma l (repeat 0 (length mu))) as [gs Gs]; [intros a A; destruct (Fin a A) as [? [g [? ?]]]; eauto|].
    assert (MR : forall n, map Some (repeat 0 n) = repeat (Some 0) n) by (induction n; cbn; f_equal; auto).
    exists gm, gs. rewrite MR in Gm, Gs.
    assert (Ev : concat (map2 (fun i n => map fitness (draw i n)) (seq 0 (length sizes)) sizes) =
                 concat (map (fun p => map fitness (draw (fst p) (snd p))) (combine (seq 0 (length sizes)) sizes))) by (rewrite map2_combine; reflexivity).
    cbv zeta. rewrite Ev, length_samples, snd_combine_seq. split; [|split; [exact T|exact T']].
    unfold average. rewrite Gm, Gs. do 2 f_equal. unfold overall_mean. rewrite (mean_some s c m mu sigma _ l F) by (intros p Hp; specialize (Pp p Hp); lia).
    rewrite Tl. cbn [nmul]. f_equal. rewrite Rplus_0_l. reflexivity.
  Qed.

  (* ... and the gradients are averages of those of the tasks: no component leaves the range of what the tasks found. *)
  Lemma fold_between (wt : answer -> R) part (j : nat) lo hi : forall (l : list answer) acc,
    (forall a, In a l -> 0 <= wt a /\ exists g x, part a = map Some g /\ nth_error g j = Some x /\ lo <= x <= hi) ->
    forall v, nth_error acc j = Some v -> exists g y, fold_left (fun acc a => map2 nadd acc (map (nmul (Some (wt a))) (part a))) l (map Some acc) = map Some g /\
      nth_error g j = Some y /\ v + rsum (map wt l) * lo <= y <= v + rsum (map wt l) * hi.
  Proof using.
    induction l as [|a t IH]; intros acc H v Hv; cbn [fold_left map].
    - exists acc, v. split; [reflexivity|]. split; [exact Hv|]. unfold rsum. cbn. lra.
    - destruct (H a) as [W [g [x [E [Hx B]]]]]; [left; auto|]. rewrite E.
      assert (M : map2 nadd (map Some acc) (map (nmul (Some (wt a))) (map Some g)) = map Some (map2 (fun x y => x + wt a * y) acc g)).
      { clear. revert g. induction acc; intros [|y g]; cbn; auto. f_equal. apply IHacc. }
      rewrite M. destruct (IH (map2 (fun x y => x + wt a * y) acc g)) with (v := v + wt a * x) as [g' [y [E' [Hy B']]]].
      + intros b Hb. apply H. right. exact Hb.
      + clear -Hv Hx. revert acc g Hv Hx. induction j as [|j IHj]; intros [|p acc] [|q g] Hv Hx; cbn in *; try discriminate; [congruence|auto].
      + exists g', y. split; [exact E'|]. split; [exact Hy|]. unfold rsum in *. cbn [map fold_right].
        assert (wt a * lo <= wt a * x <= wt a * hi) by (split; apply Rmult_le_compat_l; lra). nra.
  Qed.
  Lemma weights_sum_1 (w : bool) (l : list answer) : (1 <= total_solutions l)%nat -> rsum (map (task_weight w l) l) = 1 /\ forall a, 0 <= task_weight w l a.
  Proof using.
    intros T. assert (Ln : (1 <= length l)%nat) by (destruct l; [cbn in T; lia|cbn; lia]).
    assert (P1 : 0 < INR (total_solutions l)) by (apply lt_0_INR; lia). assert (P2 : 0 < INR (length l)) by (apply lt_0_INR; lia).
    destruct w; cbn [task_weight]; split.
    - assert (G : forall (m : list answer) d, 0 < d -> rsum (map (fun a => INR (a_num a) / d) m) = INR (list_sum (map a_num m)) / d).
      { unfold rsum, list_sum. induction m as [|a m IHm]; intros d Pd; cbn [map fold_right]; [cbn; field; lra|]. rewrite IHm by auto. rewrite plus_INR. field. lra. }
      change (task_weight true l) with (fun a => INR (a_num a) / INR (total_solutions l)). rewrite G by auto. assert (E : total_solutions l = list_sum (map a_num l)) by (unfold total_solutions; rewrite total_sum; reflexivity). rewrite <- E. field. lra.
    - intros a. unfold task_weight, Rdiv. apply Rmult_le_pos; [apply pos_INR|]. apply Rlt_le, Rinv_0_lt_compat. exact P1.
    - assert (G : forall (m : list answer) d, 0 < d -> rsum (map (fun a => 1 / d) m) = INR (length m) / d).
      { unfold rsum. induction m as [|a m IHm]; intros d Pd; [cbn; field; lra|]. cbn [length]. rewrite S_INR. cbn [map fold_right]. rewrite IHm by auto. field. lra. }
      change (task_weight false l) with (fun _ : answer => 1 / INR (length l)). rewrite G by auto. field. lra.
    - intros a. unfold task_weight, Rdiv. apply Rmult_le_pos; [lra|]. apply Rlt_le, Rinv_0_lt_compat. exact P2.
  Qed.
Theorem C222_between_partial : forall symmetric centered maximize weighted popsize subbatch_size num_subbatches num_actors mu sigma sizes mu_grad sigma_grad mean j lo hi,
    enough symmetric popsize subbatch_size num_subbatches num_actors ->
    popsize_per_task popsize subbatch_size num_subbatches num_actors symmetric = Ok sizes ->
    distributed_step draw fitness argsort symmetric centered maximize weighted popsize subbatch_size num_subbatches num_actors mu sigma = Ok (mu_grad, sigma_grad, mean) ->
    (j < length mu)%nat ->
    (forall i n, nth_error sizes i = Some n -> exists a x y, task draw fitness argsort symmetric centered maximize mu sigma i n = Ok a /\
       nth_error (a_mu a) j = Some (Some x) /\ nth_error (a_sigma a) j = Some (Some y) /\ lo <= x <= hi /\ lo <= y <= hi) ->
    exists x y, nth_error mu_grad j = Some (Some x) /\ nth_error sigma_grad j = Some (Some y) /\ lo <= x <= hi /\ lo <= y <= hi.
  Proof.
    intros s c m w popsize ss ns actors mu sigma sizes mg sg mean j lo hi H E D Hj T. destruct (enough_sizes s popsize ss ns actors H) as [sizes' [E' [P [Nn [Tt _]]]]].
    assert (sizes' = sizes) by congruence. subst sizes'. unfold distributed_step in D. rewrite E in D. cbn [bind] in D.
    destruct (answers_ok s c m mu sigma sizes) as [l [Es F]]. rewrite Es in D. cbn [bind] in D.
    destruct (answers_in F) as [I1 [I2 N]]. rewrite snd_combine_seq in N.
    assert (Tl : total_solutions l = list_sum sizes) by (unfold total_solutions; rewrite total_sum, N; reflexivity).
    assert (Pos : (1 <= list_sum sizes)%nat). { destruct sizes as [|x t]; [congruence|]. apply (sum_pos _ x); [left; auto|]. specialize (P x (or_introl eq_refl)). lia. }
    destruct (Nat.eqb_spec (total_solutions l) 0) as [C|_]; [lia|]. injection D as <- <- <-.
    destruct (weights_sum_1 w l) as [W1 W0]; [lia|].
    assert (Fin : forall a, In a l -> exists gm gs x y, a_mu a = map Some gm /\ a_sigma a = map Some gs /\ nth_error gm j = Some x /\ nth_error gs j = Some y /\ lo <= x <= hi /\ lo <= y <= hi).
    { intros a Ha'. destruct (I2 a Ha') as [[i n] [Hp Dp]]. destruct (task_facts Dp) as [_ [_ [_ [_ [_ [_ G]]]]]].
      destruct G as [gm [gs [Gm Gs]]]; [apply in_combine_r in Hp; apply P; exact Hp|].
      assert (Hn : nth_error sizes i = Some n).
      { clear -Hp. assert (Gn : forall (l : list nat) k, In (i, n) (combine (seq k (length l)) l) -> (k <= i)%nat /\ nth_error l (i - k) = Some n).
        { induction l as [|q l IH]; intros k Hk; cbn in Hk; [destruct Hk|]. destruct Hk as [Q|Hk]; [injection Q as -> ->; split; [lia|]; rewrite Nat.sub_diag; reflexivity|].
          destruct (IH _ Hk) as [L Q]. split; [lia|]. replace (i - k)%nat with (S (i - S k)) by lia. exact Q. }
        destruct (Gn sizes 0%nat Hp) as [_ Q]. rewrite Nat.sub_0_r in Q. exact Q. }
      destruct (T i n Hn) as [a' [x [y [Ta [X [Y [Bx By]]]]]]].
      assert (a' = a) by (cbn [fst snd] in Dp; congruence). subst a'. rewrite Gm in X. rewrite Gs in Y.
      rewrite nth_error_map in X, Y. exists gm, gs, x, y. split; [exact Gm|]. split; [exact Gs|].
      destruct (nth_error gm j); [|discriminate]. destruct (nth_error gs j); [|discriminate]. cbn in X, Y. split; [congruence|]. split; [congruence|]. auto. }
    assert (MR : forall n, repeat (Some 0) n = map Some (repeat 0 n)) by (induction n; cbn; f_equal; auto).
    assert (Z : nth_error (repeat 0 (length mu)) j = Some 0). { clear -Hj. revert j Hj. induction (length mu); intros [|j] Hj; cbn; auto; try lia. apply IHn. lia. }
    unfold average. rewrite MR.
    destruct (fold_between (task_weight w l) a_mu j lo hi l (repeat 0 (length mu))) with (v := 0) as [g1 [x [E1 [X Bx]]]]; [|exact Z|].
    { intros a A. destruct (Fin a A) as [gm [gs [x [y [A1 [A2 [A3 [A4 [A5 A6]]]]]]]]]. split; [apply W0|]. exists gm, x. auto. }
    destruct (fold_between (task_weight w l) a_sigma j lo hi l (repeat 0 (length mu))) with (v := 0) as [g2 [y [E2 [Y By]]]]; [|exact Z|].
    { intros a A. destruct (Fin a A) as [gm [gs [x' [y [A1 [A2 [A3 [A4 [A5 A6]]]]]]]]]. split; [apply W0|]. exists gs, y. auto. }
    rewrite E1, E2, W1 in *. exists x, y. rewrite !nth_error_map, X, Y. split; [reflexivity|]. split; [reflexivity|]. lra.
  Qed.
End Results.
Print Assumptions C222_fewer_solutions_than_tasks_refuted.
Print Assumptions C222_single_solutions_refuted.
Print Assumptions C222_partial.
Print Assumptions C222_between_partial.

(* With an adaptive population size and fewer solutions than tasks, some task never ends (unless popsize_max is given). *)
Theorem C222_never_ends_refuted : forall symmetric popsize num_interactions num_subbatches num_actors cost,
  (1 <= popsize < tasks_number num_subbatches num_actors)%nat ->
  exists sizes n, popsize_per_task popsize None num_subbatches num_actors symmetric = Ok sizes /\ In n sizes /\
    forall fuel, adaptive_task cost popsize num_interactions None n fuel = Err OutOfFuel.
Proof.
  intros s popsize ni ns actors cost H. destruct (sizes_cases s popsize ns actors) as [l [sizes [E [Sp Z]]]]; [lia|].
  destruct (some_small 1 popsize _ l Sp) as [p [Hp Hz]]; [lia|]. assert (p = 0%nat) by lia. subst p. clear Hz.
  exists sizes, 0%nat. split; [exact E|]. split.
  { subst sizes. destruct s; auto. apply in_map_iff. exists 0%nat. split; [apply even_up_zero; reflexivity|exact Hp]. }
  intros fuel. unfold adaptive_task. assert (Q : ceil_div (0 * ni) popsize = 0%nat). { unfold ceil_div. apply Nat.div_small. lia. } rewrite Q.
  assert (G : forall k t, adaptive_loop_remote 0 None 0 (made_by cost 0) fuel k t = Err OutOfFuel); [|apply G].
  induction fuel as [|fuel IH]; intros k t; cbn [adaptive_loop_remote]; auto.
  assert (M : made_by cost 0 (S k) = 0%Z) by (unfold made_by; rewrite Nat.mul_0_r; reflexivity). rewrite M. cbn [max_reached].
  rewrite Z.ltb_irrefl. apply IH.
Qed.
Print Assumptions C222_never_ends_refuted.

(* three solutions for four actors; eight solutions for three tasks *)
Example C222_example :
  popsize_per_task 3 None None 4 false = Ok [1; 1; 1; 0]%nat /\ (1 <= 3 < tasks_number None 4)%nat /\
  enough false 8 None (Some 3%nat) 4 /\ enough true 3 None None 3 /\ ~ enough false 3 None None 3 /\ enough false 8 (Some 2%nat) None 3 /\
  samples_ok (fun _ n => repeat [1; 2] n) /\ orders_ok (fun _ l => seq 0 (length l)).
Proof.
  split; [reflexivity|]. unfold enough, tasks_number. split; [lia|]. split; [lia|]. split; [lia|]. split; [lia|].
  split; [split; [lia|split; [lia|reflexivity]]|]. split.
  - intros i n. apply repeat_length.
  - intros d l. apply Permutation_refl.
Qed.

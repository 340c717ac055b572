(* Proofs about evaluation: refused verdicts, statistics, and callable evaluators. *)
From Verif Require Import Prelude FloatLib BatchModel BatchSpec BatchProofs BatchProofs2 WorkModel WorkSpec WorkProofs
  EvalModel EvalSpec EvalProofs.

Definition fine {A} (r : result A) : Prop := match r with Ok _ => True | Err e => e = ValueError end.

Section R.
Context {V : Type}.
Implicit Type b : batch V.

Lemma set_evals_fine b ev d idx : fine (set_evals b ev d idx).
Proof.
  unfold set_evals. destruct ev; cbn [bind].
  1: destruct (negb _); [reflexivity|].
  3: reflexivity.
  all: cbn [bind fst snd]; destruct (negb _); [reflexivity|]; destruct d as [[[? ?]|]|]; cbn iota;
       repeat match goal with |- fine (if ?c then _ else _) => destruct c end; cbn; auto.
Qed.
Lemma fine_bind {A B} (r : result A) (f : A -> result B) : fine r -> (forall a, fine (f a)) -> fine (bind r f).
Proof. destruct r; cbn; auto. Qed.

Lemma solution_set_evals_fine b o : fine (solution_set_evals b o).
Proof.
  unfold solution_set_evals. apply fine_bind; [destruct (fst o); cbn; auto|]. intros row.
  apply fine_bind; [destruct (snd o) as [[?|]|]; cbn; auto|]. intros. apply set_evals_fine.
Qed.

Lemma evaluate_rows_fine (f : V -> result one_out) desc nd_ vals : (forall v, exists o, f v = Ok o) ->
  forall m k ev, k + m = length vals -> length ev = length vals ->
  fine (evaluate_rows f (mkBatch vals ev desc nd_) (seq k m)).
Proof.
  intros Hf. induction m as [|m IH]; intros k ev K L; cbn [seq evaluate_rows]; [exact Logic.I|].
  unfold solution. cbn [b_len b_vals b_ev b_desc b_ndata]. unfold b_len. cbn [b_vals].
  destruct (Z.ltb_spec (Z.of_nat k) 0); [lia|].
  destruct (Z.leb_spec 0 (Z.of_nat k)); [|lia]. destruct (Z.leb_spec (Z.of_nat k) (Z.of_nat (length vals))); [|lia].
  cbn [andb bind]. rewrite Nat2Z.id.
  destruct (firstn1_skipn vals k) as (v & Nv & ->); [lia|].
  destruct (firstn1_skipn ev k) as (r & Nr & ->); [lia|].
  unfold evaluate_solution. cbn [b_vals]. destruct (Hf v) as (o & ->). cbn [bind].
  apply fine_bind; [apply solution_set_evals_fine|]. intros s'. unfold store_row. cbn [b_vals b_ev b_desc b_ndata].
  destruct (b_ev s'); apply IH; rewrite ?upd_length; auto; lia.
Qed.

Definition total_fun (f : V -> result one_out) := forall v, exists o, f v = Ok o.
Definition refuses (nobj ndata : nat) (f : V -> result one_out) (v : V) : Prop :=
  forall o w, f v = Ok o -> says_one o w -> ~ acceptable nobj ndata w.

Lemma here_fine f dev b : total_fun f -> length (b_ev b) = b_len b -> fine (evaluate_here (Scalar f) dev b).
Proof.
  intros Hf L. destruct b as [vals ev desc nd_]. cbn in L. unfold b_len in L. cbn in L.
  assert (G : fine (evaluate_batch (Scalar f) (mkBatch vals ev desc nd_))).
  { cbn [evaluate_batch]. apply evaluate_rows_fine; auto; unfold b_len; cbn; lia. }
  destruct dev; cbn [evaluate_here]; auto; apply fine_bind; auto; intros m; apply set_evals_fine.
Qed.

Lemma here_refused f dev b v : total_fun f -> length (b_ev b) = b_len b -> In v (b_vals b) ->
  refuses (num_objs b) (b_ndata b) f v -> evaluate_here (Scalar f) dev b = Err ValueError.
Proof.
  intros Hf L I R. destruct b as [vals ev desc nd_]. cbn in L. unfold b_len in L. cbn in L, I, R.
  assert (G : evaluate_batch (Scalar f) (mkBatch vals ev desc nd_) = Err ValueError).
  { cbn [evaluate_batch]. apply In_nth_error in I. destruct I as (i & I).
    apply (evaluate_rows_refused f desc nd_ vals v Hf R (b_len (mkBatch vals ev desc nd_)) 0 ev i); auto; unfold b_len; cbn; lia. }
  destruct dev; cbn [evaluate_here]; auto.
  - rewrite G. reflexivity.
  - unfold moved. cbn [b_vals b_ev b_desc b_ndata]. rewrite G. reflexivity.
Qed.

Lemma collect_err fit dev b sl pieces order i p :
  (forall p, In p pieces -> fine (evaluate_piece fit dev b p)) ->
  In i order -> (exists ab, nth_error sl i = Some ab) -> nth_error pieces i = Some p ->
  evaluate_piece fit dev b p = Err ValueError ->
  collect fit dev b sl pieces order = Err ValueError.
Proof.
  intros F I (ab & Nab) Np E. unfold collect.
  set (stp := fun (acc : result (list (list fl))) (i0 : nat) => bind acc (fun ev =>
     match nth_error sl i0 with
     | Some ab0 => match nth_error pieces i0 with
                  | Some p0 => bind (evaluate_piece fit dev b p0) (fun es => Ok (write_slice ev ab0 es))
                  | None => Ok ev end
     | None => Ok ev end)).
  assert (K : forall o, fold_left stp o (Err ValueError) = Err ValueError) by (induction o; cbn; auto).
  generalize (b_ev b). induction order as [|j order IH]; intros ev; [destruct I|]. cbn [fold_left].
  destruct (Nat.eq_dec j i) as [->|Hj].
  - unfold stp at 2. cbn [bind]. rewrite Nab, Np, E. cbn [bind]. apply K.
  - destruct I as [I|I]; [contradiction|]. unfold stp at 2. cbn [bind].
    destruct (nth_error sl j) as [ab'|]; [|apply IH; auto].
    destruct (nth_error pieces j) as [p'|] eqn:Nj; [|apply IH; auto].
    pose proof (F p' (nth_error_In _ _ Nj)) as Fp. destruct (evaluate_piece fit dev b p') as [es|e]; cbn in *.
    + apply IH; auto.
    + subst e. apply K.
Qed.

Lemma evaluate_all_refused f g b v : wf b -> total_fun f -> sensible g (b_len b) -> In v (b_vals b) ->
  refuses (num_objs b) (b_ndata b) f v -> evaluate_all (Scalar f) g b = Err ValueError.
Proof.
  intros W Hf S I R. unfold evaluate_all, sensible in *. destruct (g_actors g) as [a|].
  2:{ apply (here_refused f (g_dev g) b v); auto. apply W. }
  destruct S as (S1 & S2 & S3 & S4). destruct (combine_facts b W) as (CF & CL & CW).
  destruct (choose_ok (g_nsub g) (g_subsize g) a (combine (b_vals b) (b_ev b)) S1 S2 S3) as (sl & -> & Ls & Ch).
  cbn [bind fst snd].
  rewrite <- CF in I. apply in_map_iff in I. destruct I as ([v' e] & Q & I). cbn in Q. subst v'.
  apply In_nth_error in I. destruct I as (r & I).
  assert (Hr : r < length (combine (b_vals b) (b_ev b))) by (apply nth_error_Some; congruence).
  destruct (chain_covers 0 _ sl r Ch) as (i & lo & hi & Ni & B); [lia|].
  rewrite (collect_err (Scalar f) (g_dev g) b sl (map (slice (combine (b_vals b) (b_ev b))) sl) (g_order g) i
            (slice (combine (b_vals b) (b_ev b)) (lo, hi))).
  - reflexivity.
  - intros p _. unfold evaluate_piece. destruct (evaluate_here _ _ _) eqn:E; cbn; auto.
    pose proof (here_fine f (g_dev g) (mkBatch (map fst p) (map snd p) (b_desc b) (b_ndata b)) Hf) as F.
    rewrite E in F. apply F. unfold b_len. cbn. rewrite !map_length. reflexivity.
  - apply (Permutation_in _ (Permutation_sym S4)). apply in_seq. rewrite <- CL, <- Ls. split; [lia|].
    cbn. apply nth_error_Some. congruence.
  - eauto.
  - rewrite nth_error_map, Ni. reflexivity.
  - unfold evaluate_piece. erewrite (here_refused f (g_dev g)); [reflexivity| | | |].
    + exact Hf.
    + unfold b_len. cbn. rewrite !map_length. reflexivity.
    + cbn [b_vals]. apply in_map_iff. exists (v, e). split; [reflexivity|]. apply (nth_error_In _ (r - lo)).
      rewrite slice_nth. destruct (Nat.ltb_spec (r - lo) (hi - lo)); [|lia]. replace (lo + (r - lo)) with r by lia. exact I.
    + exact R.
Qed.
End R.

(* --------------------------------------------------------------------- callable evaluators *)
Section C.
Context {A : Type}.

Lemma numel_app s L : numel (s ++ [L]) = numel s * L.
Proof. induction s as [|d s IH]; cbn [app numel]; [lia|]. rewrite IH. lia. Qed.
Lemma position_app s idx L k : inside s idx -> position (s ++ [L]) (idx ++ [k]) = position s idx * L + k.
Proof.
  intros H. induction H as [|d i s idx Hd H IH]; cbn [app position numel]; [lia|]. rewrite IH, numel_app. lia.
Qed.
Lemma position_lt s idx : inside s idx -> position s idx < numel s.
Proof. intros H. induction H as [|d i s idx Hd H IH]; cbn [position numel]; [lia|]. nia. Qed.

Lemma chunks_nth L : forall n (d : list A) i, n * L <= length d -> i < n ->
  nth_error (chunks n L d) i = Some (firstn L (skipn (i * L) d)).
Proof.
  induction n as [|n IH]; intros d [|i] H Hi; try lia; cbn [chunks nth_error]; [reflexivity|].
  rewrite IH; [|rewrite skipn_length; lia|lia]. rewrite skipn_skipn'. do 3 f_equal. 
Qed.
Lemma chunks_length L : forall n (d : list A), length (chunks n L d) = n.
Proof. induction n; intros; cbn; auto. Qed.

(* the vector at a batch index *)
Lemma row_is_vector (t : nd A) bs L idx : proper t -> nd_shape t = bs ++ [L] -> inside bs idx -> 0 < L ->
  is_vector t idx L (firstn L (skipn (position bs idx * L) (nd_data t))).
Proof.
  intros P Sh I HL. unfold proper in P. rewrite Sh, numel_app in P. pose proof (position_lt bs idx I) as B.
  assert (LE : position bs idx * L + L <= length (nd_data t)) by nia.
  split.
  - rewrite firstn_length, skipn_length. lia.
  - intros k Hk. unfold element. rewrite Sh, position_app by auto.
    rewrite nth_error_firstn', nth_error_skipn'. destruct (Nat.ltb_spec k L); [reflexivity|lia].
Qed.

Lemma vector_unique (t : nd A) idx L v v' : is_vector t idx L v -> is_vector t idx L v' -> v = v'.
Proof.
  intros [L1 H1] [L2 H2]. apply nth_error_ext. intros i. destruct (Nat.lt_ge_cases i L) as [H|H].
  - rewrite <- H1, <- H2 by auto. reflexivity.
  - rewrite (proj2 (nth_error_None v i)), (proj2 (nth_error_None v' i)); auto; lia.
Qed.

Lemma last_snoc (bs : list nat) L d : last (bs ++ [L]) d = L.
Proof. induction bs as [|x [|y bs] IH]; cbn in *; auto. Qed.

Variable senses : list bool.
Variable ndata : nat.
Variable junk : nat -> list fl.
Hypothesis Hjunk : forall i, length (junk i) = length senses + ndata.

Lemma batch_of_rows_wf (rows : list (list A)) : wf (batch_of_rows senses ndata junk rows).
Proof.
  split; cbn [batch_of_rows b_ev b_len b_vals]; unfold b_len; cbn [b_vals].
  - rewrite map_length, seq_length. reflexivity.
  - rewrite Forall_forall. intros x H. apply in_map_iff in H. destruct H as (i & <- & _). apply Hjunk.
Qed.

(* what `evaluate` adds to the evaluations: the statistics *)
Lemma evaluate_ok fit h g (stats : bool) st (b : batch (list A)) : wf b -> computes (num_objs b) (b_ndata b) fit h ->
  (forall v, acceptable (num_objs b) (b_ndata b) (h v)) -> sensible g (b_len b) ->
  (stats = true -> is_ok (snd (get_best_and_worst (b_desc b) st (evaluated b h))) = true) ->
  evaluate fit g stats st b =
  Ok (evaluated b h, if stats then fst (get_best_and_worst (b_desc b) st (evaluated b h)) else st).
Proof.
  intros W C Ha S HS. unfold evaluate. rewrite (evaluate_all_ok fit h g b W C Ha S). cbn [bind].
  destruct stats; [|reflexivity]. change (b_desc (evaluated b h)) with (b_desc b).
  specialize (HS eq_refl). destruct (snd (get_best_and_worst (b_desc b) st (evaluated b h))); [reflexivity|discriminate].
Qed.

Definition the_rows (t : nd A) (L : nat) : list (list A) := chunks (length (nd_data t) / L) L (nd_data t).

Lemma call_ok fit h g (stats : bool) st (j : nat) (t : nd A) bs L :
  proper t -> nd_shape t = bs ++ [L] -> 0 < L -> j < length senses ->
  computes (length senses) ndata fit h -> (forall v, acceptable (length senses) ndata (h v)) ->
  sensible g (numel bs) ->
  let b' := evaluated (batch_of_rows senses ndata junk (the_rows t L)) h in
  (stats = true -> is_ok (snd (get_best_and_worst senses st b')) = true) ->
  length (the_rows t L) = numel bs /\
  exists r, call_evaluator senses ndata junk fit g stats st (Z.of_nat j) t =
      Ok (r, if stats then fst (get_best_and_worst senses st b') else st) /\
    nd_shape r = bs /\ proper r /\
    forall idx v, inside bs idx -> is_vector t idx L v ->
      element r idx = Some (nth j (fst (h v)) NaN) /\ nth_error (the_rows t L) (position bs idx) = Some v.
Proof.
  intros P Sh HL Hj C Ha S b' HS. unfold proper in P. rewrite Sh, numel_app in P.
  assert (LR : length (the_rows t L) = numel bs).
  { unfold the_rows. rewrite chunks_length, P. apply Nat.div_mul. lia. }
  split; [exact LR|].
  unfold call_evaluator. rewrite Sh. destruct (bs ++ [L]) as [|d ds] eqn:Eb; [destruct bs; discriminate|].
  rewrite <- Eb, last_snoc, removelast_last. unfold reshape_rows.
  destruct (Nat.eqb_spec L 0); [lia|]. cbn [bind]. change (chunks (length (nd_data t) / L) L (nd_data t)) with (the_rows t L).
  rewrite (evaluate_ok fit h g stats st (batch_of_rows senses ndata junk (the_rows t L))); auto.
  2: apply batch_of_rows_wf.
  2: { unfold b_len. cbn [batch_of_rows b_vals]. rewrite LR. exact S. }
  cbn [bind fst snd]. unfold column.
  change (eval_width (evaluated (batch_of_rows senses ndata junk (the_rows t L)) h)) with (length senses + ndata).
  destruct (Z.leb_spec 0 (Z.of_nat j)); [|lia]. destruct (Z.ltb_spec (Z.of_nat j) (Z.of_nat (length senses + ndata))); [|lia].
  cbn [andb bind]. rewrite Nat2Z.id. eexists. split; [reflexivity|]. cbn [nd_shape]. split; [reflexivity|]. split.
  - unfold proper. cbn [nd_shape nd_data evaluated b_ev batch_of_rows b_vals]. rewrite !map_length. exact LR.
  - intros idx v I Hv. pose proof (position_lt bs idx I) as B.
    assert (Nv : nth_error (the_rows t L) (position bs idx) = Some v).
    { unfold the_rows. assert (length (nd_data t) / L = numel bs) as -> by (rewrite P; apply Nat.div_mul; lia).
      rewrite chunks_nth; [|nia|exact B]. f_equal. apply (vector_unique t idx L).
      - apply row_is_vector; auto. unfold proper. rewrite Sh, <- Eb, numel_app. exact P. rewrite Sh. auto.
      - exact Hv. }
    split; [|exact Nv]. unfold element. cbn [nd_shape nd_data evaluated b_ev batch_of_rows b_vals].
    rewrite !nth_error_map, Nv. cbn [option_map]. f_equal. cbn [num_objs b_desc b_ndata].
    unfold num_objs. cbn [b_desc]. unfold recorded. specialize (Ha v). unfold acceptable in Ha.
    destruct (snd (h v)) as [dd|].
    + rewrite app_nth1 by lia. reflexivity.
    + match goal with |- context [Nat.eqb ?a ?c] => destruct (Nat.eqb a c) end; [|reflexivity].
      rewrite app_nth1; [reflexivity|]. destruct Ha as [-> | ->]; lia.
Qed.
End C.

(* Properties of evaluation and of callable evaluators. *)
From Verif Require Import Prelude FloatLib BatchModel BatchSpec BatchProofs BatchProofs2 WorkModel WorkSpec WorkProofs
  EvalModel EvalSpec EvalProofs EvalProofs2.

(* C159: however a problem is configured, each solution gets the verdict about its own values. *)
Theorem C159_evaluations : forall (V : Type) (fit : fitness V) (h : V -> verdict) g (b : batch V),
  wf b -> computes (num_objs b) (b_ndata b) fit h -> (forall v, acceptable (num_objs b) (b_ndata b) (h v)) ->
  sensible g (b_len b) ->
  exists b', evaluate_all fit g b = Ok b' /\ b_vals b' = b_vals b /\ b_desc b' = b_desc b /\ b_ndata b' = b_ndata b /\
    b_ev b' = map (fun v => recorded (num_objs b) (b_ndata b) (h v)) (b_vals b).
Proof.
  intros V fit h g b W C Ha S. exists (evaluated b h). split; [apply evaluate_all_ok; auto|]. repeat split.
Qed.
Print Assumptions C159_evaluations.

(* a verdict which does not fit about one of the solutions is refused *)
Theorem C159_refused : forall (V : Type) (f : V -> result one_out) g (b : batch V) v,
  wf b -> (forall v, exists o, f v = Ok o) -> sensible g (b_len b) -> In v (b_vals b) ->
  (forall o w, f v = Ok o -> says_one o w -> ~ acceptable (num_objs b) (b_ndata b) w) ->
  evaluate_all (Scalar f) g b = Err ValueError.
Proof. intros V f g b v W Hf S I R. eapply evaluate_all_refused; eauto. Qed.
Print Assumptions C159_refused.

(* ... and so is a result of a vectorized function which cannot be read as one verdict per solution *)
Theorem C159_refused_vectorized : forall (V : Type) (F : list V -> result many_out) dev (b : batch V) o,
  wf b -> F (b_vals b) = Ok o ->
  (match fst o with E2 rows nc => Forall (fun r => length r = nc) rows | _ => True end) ->
  (forall ws, length ws = b_len b -> ~ says_many (num_objs b) (b_ndata b) o ws) ->
  evaluate_all (Vectorized F) (mkSetting None None None [] dev) b = Err ValueError.
Proof.
  intros V F dev b o W E T N.
  assert (G : evaluate_batch (Vectorized F) b = Err ValueError).
  { cbn [evaluate_batch]. rewrite E. cbn [bind].
    pose proof (set_evals_fine b (fst o) (snd o) (seq 0 (b_len b))) as Fi.
    destruct (set_evals b (fst o) (snd o) (seq 0 (b_len b))) as [b'|e] eqn:Es; [|cbn in Fi; congruence].
    exfalso. unfold says_many in N. unfold set_evals in Es. destruct o as [ev d]. cbn [fst snd] in *.
    destruct ev as [xs|rows nc|]; cbn [bind fst snd] in Es; [| |discriminate].
    - destruct (Nat.eqb_spec (num_objs b) 1) as [Q1|]; cbn [negb bind fst snd] in Es; [|discriminate].
      rewrite map_length, seq_length in Es. destruct (Nat.eqb_spec (length xs) (b_len b)) as [Q2|]; cbn [negb] in Es; [|discriminate].
      destruct d as [[[d dc]|]|]; [| discriminate |].
      + destruct (Nat.eqb_spec dc (b_ndata b)) as [Q3|]; cbn [negb] in Es; [|discriminate]. rewrite Q1 in Es. cbn [Nat.eqb negb] in Es.
        destruct (Nat.eqb_spec (length xs) (length d)) as [Q4|]; cbn [negb] in Es; [|discriminate].
        refine (N _ _ (conj Q1 (conj Q3 (conj (eq_sym Q4) eq_refl)))). rewrite map2_length. lia.
      + refine (N _ _ (conj Q1 eq_refl)). rewrite map_length. lia.
    - rewrite seq_length in Es. destruct (Nat.eqb_spec (length rows) (b_len b)) as [Q2|]; cbn [negb] in Es; [|discriminate].
      destruct d as [[[d dc]|]|]; [| discriminate |].
      + destruct (Nat.eqb_spec dc (b_ndata b)) as [Q3|]; cbn [negb] in Es; [|discriminate].
        destruct (Nat.eqb_spec nc (num_objs b)) as [Q5|]; cbn [negb] in Es; [|discriminate].
        destruct (Nat.eqb_spec (length rows) (length d)) as [Q4|]; cbn [negb] in Es; [|discriminate].
        refine (N _ _ (conj Q5 (conj Q3 (conj (eq_sym Q4) (conj T eq_refl))))). rewrite map2_length. lia.
      + assert (Q : nc = num_objs b \/ nc = num_objs b + b_ndata b).
        { destruct (Nat.eqb_spec nc (num_objs b)); auto. destruct (Nat.eqb_spec nc (eval_width b)); [auto|discriminate]. }
        refine (N _ _ (conj Q (conj T eq_refl))). rewrite map_length. lia. }
  unfold evaluate_all. cbn [g_actors g_dev]. destruct dev; cbn [evaluate_here]; auto.
  - rewrite G. reflexivity.
  - assert (Q : moved b = b) by (destruct b; reflexivity). rewrite Q, G. reflexivity.
Qed.
Print Assumptions C159_refused_vectorized.

Definition ex_h (v : nat) : verdict := ([Fin (Z.of_nat v * 2); Fin 7], None).
Definition ex_scalar : fitness nat := Scalar (fun v => Ok (S1 [Fin (Z.of_nat v * 2); Fin 7], None)).
Definition ex_vector : fitness nat := Vectorized (fun vs => Ok (E2 (map (fun v => [Fin (Z.of_nat v * 2); Fin 7]) vs) 2, None)).
Definition ex_b : batch nat := mkBatch [3; 4; 5] [[NaN; NaN; NaN]; [Fin 1; Fin 2; Fin 3]; [NaN; NaN; NaN]] [true; false] 1.
Definition ex_g : setting := mkSetting (Some 2) None (Some 1) [2; 0; 1] Other.
Example C159_example :
  wf ex_b /\ computes 2 1 ex_scalar ex_h /\ computes 2 1 ex_vector ex_h /\ (forall v, acceptable 2 1 (ex_h v)) /\ sensible ex_g 3 /\
  rmap b_ev (evaluate_all ex_scalar ex_g ex_b) = Ok [[Fin 6; Fin 7; NaN]; [Fin 8; Fin 7; NaN]; [Fin 10; Fin 7; NaN]] /\
  evaluate_all ex_vector ex_g ex_b = evaluate_all ex_scalar ex_g ex_b /\
  evaluate_all (Scalar (fun v => Ok (if Nat.eqb v 4 then S0 (Fin 1) else S1 [Fin 1; Fin 2], None))) ex_g ex_b = Err ValueError /\
  (* a mean over the batch instead of one number per solution *)
  evaluate_all (Vectorized (fun vs : list nat => Ok (E2 [[Fin 1; Fin 2]] 2, None))) (mkSetting None None None [] Undeclared) ex_b = Err ValueError.
Proof.
  repeat split.
  - repeat constructor.
  - intros v. eexists. split; [reflexivity|]. split; reflexivity.
  - intros vs. eexists. split; [reflexivity|]. cbn. split; [auto|]. split.
    + rewrite Forall_map. apply Forall_forall. reflexivity.
    + rewrite map_map. reflexivity.
  - intros v. left. reflexivity.
  - lia.
  - intros k Q. discriminate.
  - intros m Q. injection Q as <-. lia.
  - cbn. apply (Permutation_app_comm [2] [0; 1]).
Qed.

(* ------------------------------------------------------------------------------- C160 *)
(* the objective meant by obj_index *)
Definition objective_meant (n : nat) (obj_index : option Z) (j : nat) : Prop :=
  match obj_index with Some i => py_index n i = Some j | None => n = 1 /\ j = 0 end.

Theorem C160_made : forall n is_object same_dtype obj_index jz,
  make_evaluator n is_object same_dtype obj_index = Ok jz <->
  is_object = false /\ same_dtype = true /\ exists j, objective_meant n obj_index j /\ jz = Z.of_nat j.
Proof.
  intros n is_object same_dtype obj_index jz. unfold make_evaluator, objective_meant.
  destruct obj_index as [i|].
  - rewrite problem_normalize_ok. destruct (py_index n i) as [k|]; cbn [bind].
    + destruct is_object, same_dtype; cbn [negb]; split; intros H; try discriminate; try (destruct H as (H1 & H2 & _); discriminate).
      * injection H as <-. repeat split; eauto.
      * destruct H as (_ & _ & j & Q & ->). congruence.
    + split; [discriminate|]. intros (_ & _ & j & Q & _). discriminate.
  - unfold problem_normalize_obj_index. destruct (Nat.eqb_spec n 1) as [->|N]; cbn [bind].
    + destruct is_object, same_dtype; cbn [negb]; split; intros H; try discriminate; try (destruct H as (H1 & H2 & _); discriminate).
      * injection H as <-. repeat split. exists 0. auto.
      * destruct H as (_ & _ & j & [_ ->] & ->). reflexivity.
    + split; [discriminate|]. intros (_ & _ & j & [Q _] & _). congruence.
Qed.
Print Assumptions C160_made.

Lemma meant_lt n i j : objective_meant n i j -> j < n.
Proof.
  unfold objective_meant, py_index. destruct i as [i|]; [|lia].
  destruct (Z.leb_spec (- Z.of_nat n) i); destruct (Z.ltb_spec i (Z.of_nat n)); cbn [andb]; try discriminate.
  intros Q. injection Q as <-. pose proof (Z.mod_pos_bound i (Z.of_nat n)). lia.
Qed.

(* statistics switched off *)
Theorem C160_values : forall (A : Type) senses ndata (junk : nat -> list fl) fit (h : list A -> verdict) g st
    is_object same_dtype obj_index jz j (t : nd A) bs L,
  (forall i, length (junk i) = length senses + ndata) ->
  make_evaluator (length senses) is_object same_dtype obj_index = Ok jz -> objective_meant (length senses) obj_index j ->
  proper t -> nd_shape t = bs ++ [L] -> 0 < L ->
  computes (length senses) ndata fit h -> (forall v, acceptable (length senses) ndata (h v)) -> sensible g (numel bs) ->
  exists r, call_evaluator senses ndata junk fit g false st jz t = Ok (r, st) /\
    nd_shape r = bs /\ proper r /\
    forall idx v, inside bs idx -> is_vector t idx L v -> element r idx = Some (nth j (fst (h v)) NaN).
Proof.
  intros A senses ndata junk fit h g st o s oi jz j t bs L HJ M Hm P Sh HL C Ha S.
  apply C160_made in M. destruct M as (_ & _ & j' & Hm' & ->).
  assert (j' = j) by (unfold objective_meant in *; destruct oi; [congruence|lia]). subst j'.
  destruct (call_ok senses ndata junk HJ fit h g false st j t bs L P Sh HL (meant_lt _ _ _ Hm) C Ha S) as (LR & r & E & H1 & H2 & H3).
  { discriminate. }
  exists r. repeat split; auto. intros idx v I Hv. apply (H3 idx v I Hv).
Qed.
Print Assumptions C160_values.

(* statistics switched on: finite fitnesses; the solutions count for the best and worst ever seen *)
Theorem C160_status : forall (A : Type) senses ndata (junk : nat -> list fl) fit (h : list A -> verdict) g hist
    is_object same_dtype obj_index jz j (t : nd A) bs L,
  (forall i, length (junk i) = length senses + ndata) ->
  make_evaluator (length senses) is_object same_dtype obj_index = Ok jz -> objective_meant (length senses) obj_index j ->
  proper t -> nd_shape t = bs ++ [L] -> 0 < L -> 0 < numel bs ->
  computes (length senses) ndata fit h -> (forall v, acceptable (length senses) ndata (h v)) -> sensible g (numel bs) ->
  (forall v k, k < length senses -> is_fin (nth k (fst (h v)) NaN) = true) ->
  Forall (good senses) hist ->
  exists r b, call_evaluator senses ndata junk fit g true (track_history senses hist) jz t =
      Ok (r, track_history senses (hist ++ [b])) /\
    good senses b /\ nd_shape r = bs /\ proper r /\
    (forall idx v, inside bs idx -> is_vector t idx L v ->
       element r idx = Some (nth j (fst (h v)) NaN) /\
       nth_error (rows b) (position bs idx) = Some (v, recorded (length senses) ndata (h v))) /\
    length (rows b) = numel bs.
Proof.
  intros A senses ndata junk fit h g hist o s oi jz j t bs L HJ M Hm P Sh HL HN C Ha S HF HG.
  apply C160_made in M. destruct M as (_ & _ & j' & Hm' & ->).
  assert (j' = j) by (unfold objective_meant in *; destruct oi; [congruence|lia]). subst j'.
  set (b' := evaluated (batch_of_rows senses ndata junk (the_rows t L)) h).
  assert (LR : length (the_rows t L) = numel bs).
  { unfold the_rows. rewrite chunks_length. unfold proper in P. rewrite P, Sh, numel_app. apply Nat.div_mul. lia. }
  assert (HR : forall k v, nth_error (the_rows t L) k = Some v -> nth_error (rows b') k = Some (v, recorded (length senses) ndata (h v))).
  { intros k v N. unfold rows, rows_of, b', evaluated. cbn [b_vals b_ev batch_of_rows].
    assert (G : forall l : list (list A), combine l (map (fun v => recorded (length senses) ndata (h v)) l) = map (fun v => (v, recorded (length senses) ndata (h v))) l).
    { induction l; cbn; congruence. }
    unfold num_objs. cbn [b_desc b_ndata]. rewrite G, nth_error_map, N. reflexivity. }
  assert (LB : length (rows b') = numel bs).
  { rewrite rows_length; [exact LR|]. apply evaluated_wf. exact Ha. }
  assert (GB : good senses b').
  { split; [apply evaluated_wf; exact Ha|]. split; [reflexivity|].
    split; [unfold b_len; cbn [b' evaluated b_vals batch_of_rows]; lia|].
    intros k Hk. unfold finite. apply Forall_forall. intros x Hx. apply In_nth_error in Hx. destruct Hx as (i & Hi).
    assert (Hl : i < length (the_rows t L)) by (rewrite LR, <- LB; apply nth_error_Some; congruence).
    destruct (nth_error (the_rows t L) i) as [v|] eqn:N; [|apply nth_error_None in N; lia].
    rewrite (HR i v N) in Hi. injection Hi as <-. unfold score. cbn [snd].
    replace (nth k (recorded (length senses) ndata (h v)) NaN) with (nth k (fst (h v)) NaN); [apply HF; auto|].
    unfold recorded. specialize (Ha v). unfold acceptable in Ha. destruct (snd (h v)) as [dd|].
    - rewrite app_nth1 by lia. reflexivity.
    - destruct (Nat.eqb (length (fst (h v))) (length senses)); [|reflexivity]. rewrite app_nth1; [reflexivity|].
      destruct Ha as [-> | ->]; lia. }
  destruct (best_and_worst_ok senses hist b') as [B1 B2].
  { apply Forall_app. auto. }
  destruct (call_ok senses ndata junk HJ fit h g true (track_history senses hist) j t bs L P Sh HL (meant_lt _ _ _ Hm) C Ha S)
    as (_ & r & E & H1 & H2 & H3).
  { intros _. fold b'. destruct (Nat.eq_dec (length senses) 1) as [Q|Q].
    - destruct senses as [|d [|? ?]]; try discriminate. destruct (B1 d eq_refl) as (rb & rw & -> & _). reflexivity.
    - destruct (B2 Q) as (bs' & ws & -> & _). reflexivity. }
  exists r, b'. fold b' in E. rewrite track_history_snoc. repeat split; auto; try apply GB.
  - apply (H3 idx v); auto.
  - apply HR. apply (H3 idx v); auto.
Qed.
Print Assumptions C160_status.

(* what is refused: numbers, solutions of length zero, and (with statistics) batches without solutions *)
Theorem C160_refused : forall (A : Type) senses ndata (junk : nat -> list fl) fit g stats st jz (t : nd A),
  (nd_shape t = [] -> call_evaluator senses ndata junk fit g stats st jz t = Err ValueError) /\
  (forall bs, nd_shape t = bs ++ [0] -> call_evaluator senses ndata junk fit g stats st jz t = Err RuntimeError) /\
  (forall bs L (h : list A -> verdict), proper t -> nd_shape t = bs ++ [L] -> 0 < L -> numel bs = 0 -> senses <> [] ->
     computes (length senses) ndata fit h -> (forall v, acceptable (length senses) ndata (h v)) -> sensible g 0 ->
     call_evaluator senses ndata junk fit g true None jz t = Err IndexError).
Proof.
  intros A senses ndata junk fit g stats st jz t. split; [|split].
  - intros Q. unfold call_evaluator. rewrite Q. reflexivity.
  - intros bs Q. unfold call_evaluator. rewrite Q. destruct (bs ++ [0]) as [|d ds] eqn:Eb; [destruct bs; discriminate|].
    rewrite <- Eb, last_snoc. reflexivity.
  - intros bs L h P Sh HL HN HS C Ha S. unfold call_evaluator. rewrite Sh.
    destruct (bs ++ [L]) as [|d ds] eqn:Eb; [destruct bs; discriminate|]. rewrite <- Eb, last_snoc.
    unfold reshape_rows. destruct (Nat.eqb_spec L 0); [lia|]. cbn [bind].
    unfold proper in P. rewrite Sh, <- Eb, numel_app, HN in P. cbn in P. rewrite P, Nat.div_0_l by lia. cbn [chunks].
    unfold evaluate. rewrite (evaluate_all_ok fit h g (batch_of_rows senses ndata junk [])); auto.
    + destruct senses as [|[|] ss]; [congruence|reflexivity|reflexivity].
    + split; [reflexivity|constructor].
Qed.
Print Assumptions C160_refused.

(* two batch dimensions, solutions of length 2; objective -1 of two; evaluation in pieces *)
Definition ex_t : nd Z := mkNd [2; 1; 2] [5; 6; 7; 8]%Z.
Definition zsum (v : list Z) : Z := fold_left Z.add v 0%Z.
Definition ex_hz (v : list Z) : verdict := ([Fin 3; Fin (zsum v)], None).
Definition ex_fit : fitness (list Z) := Scalar (fun v => Ok (S1 [Fin 3; Fin (zsum v)], None)).
Definition ex_junk (i : nat) : list fl := [Fin 99; NaN].
Example C160_example :
  make_evaluator 2 false true (Some (-1)%Z) = Ok 1%Z /\ objective_meant 2 (Some (-1)%Z) 1 /\
  make_evaluator 2 false true None = Err ValueError /\ make_evaluator 2 false true (Some 2%Z) = Err IndexError /\
  (forall i, length (ex_junk i) = length [true; false] + 0) /\
  proper ex_t /\ nd_shape ex_t = [2; 1] ++ [2] /\ computes 2 0 ex_fit ex_hz /\ (forall v, acceptable 2 0 (ex_hz v)) /\
  sensible (mkSetting (Some 3) None None [1; 0; 2] Undeclared) 2 /\
  inside [2; 1] [1; 0] /\ is_vector ex_t [1; 0] 2 [7; 8]%Z /\
  rmap fst (call_evaluator [true; false] 0 ex_junk ex_fit (mkSetting (Some 3) None None [1; 0; 2] Undeclared) true None 1%Z ex_t)
    = Ok (mkNd [2; 1] [Fin 11; Fin 15]).
Proof.
  repeat split.
  - intros v. eexists. split; [reflexivity|]. split; reflexivity.
  - intros v. left. reflexivity.
  - lia.
  - intros k Q. discriminate.
  - intros m Q. discriminate.
  - cbn. apply perm_swap.
  - repeat constructor.
  - intros [|[|k]] H; try reflexivity. lia.
Qed.

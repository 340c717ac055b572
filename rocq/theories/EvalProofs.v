(* Proofs about evaluation. *)
From Verif Require Import Prelude FloatLib BatchModel BatchSpec BatchProofs BatchProofs2 WorkModel WorkSpec WorkProofs
  EvalModel EvalSpec.

Section E.
Context {V : Type}.
Implicit Type b : batch V.

Lemma put_all ev n f : length ev = n ->
  put_rows ev (seq 0 n) f = map (fun k => f k (nth k ev [])) (seq 0 n).
Proof.
  intros L. destruct (put_rows_spec ev (seq 0 n) f (seq_NoDup n 0)) as (PL & P1 & _).
  apply nth_error_ext. intros i. destruct (Nat.lt_ge_cases i n) as [Hi|Hi].
  - assert (Hs : nth_error (seq 0 n) i = Some i).
    { rewrite (nth_error_nth' _ 0) by (rewrite seq_length; auto). rewrite seq_nth; auto. }
    rewrite nth_error_map, Hs. cbn [option_map].
    apply P1; auto. apply nth_error_nth'. lia.
  - rewrite (proj2 (nth_error_None _ i)) by lia. symmetry. apply nth_error_None. rewrite map_length, seq_length. auto.
Qed.

Lemma map_seq_nth {A B} (g : nat -> A -> B) (l : list A) d :
  map (fun k => g k (nth k l d)) (seq 0 (length l)) = map2 g (seq 0 (length l)) l.
Proof.
  enough (H : forall l' n, map (fun k => g k (nth (k - n) l' d)) (seq n (length l')) = map2 g (seq n (length l')) l').
  { rewrite <- H. apply map_ext. intros k. rewrite Nat.sub_0_r. reflexivity. }
  clear l. induction l' as [|x l IH]; intros n; cbn [length seq map map2]; auto.
  rewrite Nat.sub_diag. cbn [nth]. f_equal. rewrite <- IH. apply map_ext_in. intros k Hk. apply in_seq in Hk.
  replace (k - n) with (S (k - S n)) by lia. reflexivity.
Qed.

Lemma map_nth_seq {A B} (g : A -> B) (l : list A) d :
  map (fun k => g (nth k l d)) (seq 0 (length l)) = map g l.
Proof.
  apply nth_error_ext. intros i. rewrite !nth_error_map. destruct (Nat.lt_ge_cases i (length l)) as [H|H].
  - rewrite (nth_error_nth' (seq 0 (length l)) 0) by (rewrite seq_length; auto). rewrite seq_nth by auto.
    cbn. rewrite (nth_error_nth' l d) by auto. reflexivity.
  - rewrite (proj2 (nth_error_None l i)) by auto. rewrite (proj2 (nth_error_None _ i)) by (rewrite seq_length; auto). reflexivity.
Qed.

Lemma map2_nth_seq {A B C} (g : A -> B -> C) (l : list A) (m : list B) d e : length l = length m ->
  map (fun k => g (nth k l d) (nth k m e)) (seq 0 (length l)) = map2 g l m.
Proof.
  revert m. induction l as [|x l IH]; intros [|y m] H; cbn in H; try discriminate; [reflexivity|].
  cbn [length seq map map2 nth]. f_equal. rewrite <- IH by lia. rewrite <- seq_shift, map_map. reflexivity.
Qed.

Lemma map2_map_r {A B C D} (g : C -> D) (h : A -> B -> C) l m : map g (map2 h l m) = map2 (fun a c => g (h a c)) l m.
Proof. revert m; induction l as [|x l IH]; intros [|y m]; cbn; auto. f_equal. auto. Qed.
Lemma map2_map_l {A A' B C} (g : A -> A') (h : A' -> B -> C) l m : map2 h (map g l) m = map2 (fun a c => h (g a) c) l m.
Proof. revert m; induction l as [|x l IH]; intros [|y m]; cbn; auto. f_equal. auto. Qed.

Lemma evw (ev : list (list fl)) n w i : Forall (fun r => length r = w) ev -> length ev = n -> i < n -> length (nth i ev []) = w.
Proof. intros F L H. rewrite Forall_forall in F. apply F. apply nth_In. lia. Qed.

(* storing the verdicts about all rows *)
Lemma set_all b o ws : wf b -> says_many (num_objs b) (b_ndata b) o ws -> length ws = b_len b ->
  set_evals b (fst o) (snd o) (seq 0 (b_len b)) =
  Ok (mkBatch (b_vals b) (map (recorded (num_objs b) (b_ndata b)) ws) (b_desc b) (b_ndata b)).
Proof.
  intros [Hl Hw] S L. destruct o as [ev data]. unfold says_many in S. cbn [fst snd] in *. unfold set_evals.
  destruct ev as [xs|rows nc|]; [| |destruct data as [[[? ?]|]|]; tauto].
  - destruct data as [[[d dc]|]|]; [| tauto |].
    + destruct S as (N & -> & Ld & <-). rewrite N. cbn [Nat.eqb negb bind fst snd].
      rewrite map2_length, Ld, Nat.min_id in L. rewrite map_length, seq_length, L, !Nat.eqb_refl, Ld, L, Nat.eqb_refl. cbn [negb].
      do 2 f_equal. rewrite put_all by auto.
      rewrite <- L at 1. rewrite <- (map_length (fun x => [x]) xs) at 1.
      rewrite (map2_nth_seq (fun a c => a ++ c) (map (fun x => [x]) xs) d [] []) by (rewrite map_length; lia).
      rewrite map2_map_l, map2_map_r. reflexivity.
    + destruct S as (N & <-). rewrite N. cbn [Nat.eqb negb bind fst snd].
      rewrite map_length in L. rewrite map_length, seq_length, L, !Nat.eqb_refl. cbn [negb].
      do 2 f_equal. rewrite put_all by auto.
      etransitivity; [|etransitivity; [apply (map_nth_seq (fun r => r ++ repeat NaN (b_ndata b)) (map (fun x => [x]) xs) [])|]].
      * rewrite map_length, L. apply map_ext_in. intros k Hk. apply in_seq in Hk. do 2 f_equal.
        rewrite (evw _ (b_len b) _ k Hw Hl) by lia. unfold eval_width. rewrite N. lia.
      * rewrite !map_map. reflexivity.
  - destruct data as [[[d dc]|]|]; [| tauto |].
    + destruct S as (-> & -> & Ld & F & <-). cbn [bind fst snd].
      rewrite map2_length, Ld, Nat.min_id in L. rewrite seq_length, L, !Nat.eqb_refl, Ld, L, Nat.eqb_refl. cbn [negb].
      do 2 f_equal. rewrite put_all by auto. rewrite <- L at 1.
      rewrite (map2_nth_seq (fun a c => a ++ c) rows d [] []) by lia.
      rewrite map2_map_r. reflexivity.
    + destruct S as (Q & F & <-). cbn [bind fst snd]. rewrite map_length in L. rewrite seq_length, L, Nat.eqb_refl. cbn [negb].
      destruct (Nat.eqb_spec nc (num_objs b)) as [->|Hn].
      * do 2 f_equal. rewrite put_all by auto.
        etransitivity; [|etransitivity; [apply (map_nth_seq (fun r => r ++ repeat NaN (b_ndata b)) rows [])|]].
        -- rewrite L. apply map_ext_in. intros k Hk. apply in_seq in Hk. do 2 f_equal.
           rewrite (evw _ (b_len b) _ k Hw Hl) by lia. unfold eval_width. lia.
        -- rewrite map_map. apply map_ext_in. intros r Hr. unfold recorded. cbn [fst snd].
           rewrite Forall_forall in F. rewrite (F r Hr), Nat.eqb_refl. reflexivity.
      * destruct Q as [Q|Q]; [contradiction|]. unfold eval_width. rewrite Q, Nat.eqb_refl. do 2 f_equal.
        rewrite put_all by auto. rewrite <- L. rewrite (map_nth_seq (fun r => r) rows []).
        rewrite map_id, map_map. symmetry. erewrite map_ext_in; [apply map_id|]. intros r Hr. unfold recorded. cbn [fst snd].
        rewrite Forall_forall in F. rewrite (F r Hr). destruct (Nat.eqb_spec nc (num_objs b)); congruence.
Qed.

Lemma recorded_length nobj ndata w : acceptable nobj ndata w -> length (recorded nobj ndata w) = nobj + ndata.
Proof.
  unfold acceptable, recorded. destruct (snd w) as [d|].
  - intros [H1 H2]. rewrite app_length. lia.
  - intros [H|H]; destruct (Nat.eqb_spec (length (fst w)) nobj) as [Q|Q]; rewrite ?app_length, ?repeat_length; lia.
Qed.

(* one row *)
Lemma says_one_many nobj ndata o w : says_one o w -> acceptable nobj ndata w ->
  exists row data, match fst o with S0 x => Ok [x] | S1 xs => Ok xs | SMore => Err ValueError end = Ok row /\
    match snd o with None => Ok None | Some (Some d) => Ok (Some (Some ([d], length d))) | Some None => Err ValueError end = Ok data /\
    says_many nobj ndata (E2 [row] (length row), data) [w].
Proof.
  unfold says_one, acceptable, says_many. destruct o as [e d], w as [wf_ wd]. cbn [fst snd]. intros [H1 H2].
  assert (HR : match e with S0 x => Ok [x] | S1 xs => Ok xs | SMore => Err ValueError end = Ok wf_) by (destruct e; subst; auto; tauto).
  destruct d as [[d|]|]; [| tauto |]; subst wd.
  - intros [A1 A2]. do 2 eexists. split; [exact HR|]. split; [reflexivity|]. repeat split; auto.
  - intros A. do 2 eexists. split; [exact HR|]. split; [reflexivity|]. cbn. repeat split; auto.
Qed.

Lemma evaluate_solution_ok (f : V -> result one_out) v r desc nd_ h :
  (forall v, exists o, f v = Ok o /\ says_one o (h v)) -> acceptable (length desc) nd_ (h v) -> length r = length desc + nd_ ->
  evaluate_solution f (mkBatch [v] [r] desc nd_) = Ok (mkBatch [v] [recorded (length desc) nd_ (h v)] desc nd_).
Proof.
  intros Hf Ha Hr. unfold evaluate_solution. cbn [b_vals]. destruct (Hf v) as (o & -> & So). cbn [bind].
  destruct (says_one_many _ _ _ _ So Ha) as (row & data & Q1 & Q2 & SM).
  unfold solution_set_evals. rewrite Q1. cbn [bind]. rewrite Q2. cbn [bind].
  apply (set_all (mkBatch [v] [r] desc nd_) (E2 [row] (length row), data) [h v]); auto.
  split; [reflexivity|]. repeat constructor. exact Hr.
Qed.

Lemma firstn1_skipn {A} (l : list A) i : i < length l -> exists x, nth_error l i = Some x /\ firstn 1 (skipn i l) = [x].
Proof.
  revert i; induction l as [|x l IH]; intros [|i] H; cbn in H; try lia; [exists x; auto|].
  destruct (IH i) as (y & N & Q); [lia|]. exists y. auto.
Qed.

Lemma evaluate_rows_ok (f : V -> result one_out) h vals desc nd_ :
  (forall v, exists o, f v = Ok o /\ says_one o (h v)) -> (forall v, acceptable (length desc) nd_ (h v)) ->
  forall m k ev, k + m = length vals -> length ev = length vals -> Forall (fun r => length r = length desc + nd_) ev ->
  (forall i v, i < k -> nth_error vals i = Some v -> nth_error ev i = Some (recorded (length desc) nd_ (h v))) ->
  evaluate_rows f (mkBatch vals ev desc nd_) (seq k m) =
  Ok (mkBatch vals (map (fun v => recorded (length desc) nd_ (h v)) vals) desc nd_).
Proof.
  intros Hf Ha. induction m as [|m IH]; intros k ev K L F D; cbn [seq evaluate_rows].
  - do 2 f_equal. apply nth_error_ext. intros i. rewrite nth_error_map. destruct (nth_error vals i) as [v|] eqn:N.
    + cbn. apply D; auto. assert (i < length vals) by (apply nth_error_Some; congruence). lia.
    + cbn. apply nth_error_None. apply nth_error_None in N. lia.
  - unfold solution. cbn [b_len b_vals b_ev b_desc b_ndata]. unfold b_len. cbn [b_vals].
    destruct (Z.ltb_spec (Z.of_nat k) 0); [lia|].
    destruct (Z.leb_spec 0 (Z.of_nat k)); [|lia]. destruct (Z.leb_spec (Z.of_nat k) (Z.of_nat (length vals))); [|lia].
    cbn [andb bind]. rewrite Nat2Z.id.
    destruct (firstn1_skipn vals k) as (v & Nv & ->); [lia|].
    destruct (firstn1_skipn ev k) as (r & Nr & ->); [lia|].
    rewrite (evaluate_solution_ok f v r desc nd_ h Hf (Ha v)).
    2:{ rewrite Forall_forall in F. apply F. eapply nth_error_In; eauto. }
    cbn [bind store_row b_ev b_vals b_desc b_ndata].
    apply IH; [lia|rewrite upd_length; auto| |].
    + rewrite Forall_forall in *. intros x Hx. apply In_nth_error in Hx. destruct Hx as (i & Hi).
      destruct (Nat.eq_dec i k) as [->|Hk].
      * rewrite upd_same in Hi by lia. injection Hi as <-. apply recorded_length, Ha.
      * rewrite upd_other in Hi by auto. apply F. eapply nth_error_In; eauto.
    + intros i v' Hi Nv'. destruct (Nat.eq_dec i k) as [->|Hk].
      * rewrite upd_same by lia. congruence.
      * rewrite upd_other by auto. apply D; auto. lia.
Qed.

Definition evaluated (b : batch V) (h : V -> verdict) : batch V :=
  mkBatch (b_vals b) (map (fun v => recorded (num_objs b) (b_ndata b) (h v)) (b_vals b)) (b_desc b) (b_ndata b).

Lemma evaluated_wf b h : (forall v, acceptable (num_objs b) (b_ndata b) (h v)) -> wf (evaluated b h).
Proof.
  intros Ha. split; cbn [evaluated b_ev b_len b_vals]; unfold b_len; cbn [b_vals]; [apply map_length|].
  rewrite Forall_forall. intros x Hx. apply in_map_iff in Hx. destruct Hx as (v & <- & _). apply recorded_length, Ha.
Qed.

Lemma evaluate_batch_ok fit h b : wf b -> computes (num_objs b) (b_ndata b) fit h ->
  (forall v, acceptable (num_objs b) (b_ndata b) (h v)) ->
  evaluate_batch fit b = Ok (evaluated b h).
Proof.
  intros W C Ha. destruct fit as [f|F]; cbn [computes evaluate_batch] in *.
  - destruct b as [vals ev desc nd_], W as [L F]. cbn in *. apply evaluate_rows_ok; auto; try lia.
  - destruct (C (b_vals b)) as (o & -> & SM). cbn [bind]. rewrite (set_all b o _ W SM) by (rewrite map_length; reflexivity).
    unfold evaluated. rewrite map_map. reflexivity.
Qed.

(* writing complete evaluations *)
Lemma set_whole b (ev : list (list fl)) : wf b -> length ev = b_len b -> Forall (fun r => length r = eval_width b) ev ->
  set_evals b (E2 ev (eval_width b)) None (seq 0 (b_len b)) = Ok (mkBatch (b_vals b) ev (b_desc b) (b_ndata b)).
Proof.
  intros W L F. pose proof (set_all b (E2 ev (eval_width b), None) (map (fun r => (r, None)) ev) W) as P. cbn [fst snd] in P.
  rewrite P; [|split; [right; reflexivity|auto]|rewrite map_length; auto].
  do 2 f_equal. rewrite map_map. erewrite map_ext_in; [apply map_id|]. intros r Hr. unfold recorded. cbn [fst snd].
  rewrite Forall_forall in F. rewrite (F r Hr). destruct (Nat.eqb_spec (eval_width b) (num_objs b)) as [Q|Q]; auto.
  unfold eval_width in Q. replace (b_ndata b) with 0 by lia. apply app_nil_r.
Qed.

Lemma evaluate_here_ok fit h dev b : wf b -> computes (num_objs b) (b_ndata b) fit h ->
  (forall v, acceptable (num_objs b) (b_ndata b) (h v)) ->
  evaluate_here fit dev b = Ok (evaluated b h).
Proof.
  intros W C Ha. pose proof (evaluated_wf b h Ha) as W'. destruct dev; cbn [evaluate_here].
  - apply evaluate_batch_ok; auto.
  - rewrite (evaluate_batch_ok fit h b W C Ha). cbn [bind].
    rewrite (set_whole (evaluated b h) _ W'); auto; apply W'.
  - assert (Q : moved b = b) by (destruct b; reflexivity). rewrite Q, (evaluate_batch_ok fit h b W C Ha). cbn [bind].
    change (eval_width (evaluated b h)) with (eval_width b).
    rewrite (set_whole b (b_ev (evaluated b h)) W); auto; apply W'.
Qed.

Lemma evaluate_piece_ok fit h dev b p : computes (num_objs b) (b_ndata b) fit h ->
  (forall v, acceptable (num_objs b) (b_ndata b) (h v)) ->
  Forall (fun r : V * list fl => length (snd r) = eval_width b) p ->
  evaluate_piece fit dev b p = Ok (map (fun r => recorded (num_objs b) (b_ndata b) (h (fst r))) p).
Proof.
  intros C Ha F. unfold evaluate_piece. rewrite (evaluate_here_ok fit h dev).
  - cbn. rewrite map_map. reflexivity.
  - split; cbn [b_ev b_len b_vals]; unfold b_len; cbn [b_vals]; [rewrite !map_length; auto|].
    rewrite Forall_map. exact F.
  - exact C.
  - exact Ha.
Qed.

Lemma collect_gather fit dev b (g : list (V * list fl) -> list (list fl)) sl pieces order :
  (forall p, In p pieces -> evaluate_piece fit dev b p = Ok (g p)) ->
  collect fit dev b sl pieces order = Ok (gather g sl pieces order (b_ev b)).
Proof.
  intros H. unfold collect, gather. generalize (b_ev b). induction order as [|i order IH]; intros ev; cbn [fold_left]; auto.
  cbn [bind]. destruct (nth_error sl i) as [ab|]; [|apply IH]. destruct (nth_error pieces i) as [p|] eqn:N; [|apply IH].
  rewrite (H p) by (eapply nth_error_In; eauto). cbn [bind]. apply IH.
Qed.

Lemma choose_ok {Row} ns ss a (l : list Row) : 1 <= a -> (forall k, ns = Some k -> 1 <= k) -> (forall m, ss = Some m -> 1 <= m) ->
  exists sl, choose_pieces ns ss a l = Ok (sl, map (slice l) sl) /\ length sl = num_pieces ns ss a (length l) /\ chain 0 (length l) sl.
Proof.
  intros Ha Hk Hm. unfold choose_pieces, num_pieces. destruct ns as [k|]; [|destruct ss as [m|]].
  - destruct (split_count l k (Hk k eq_refl)) as (sl & p & E & Hl & -> & Hc & _). eauto.
  - destruct (split_max l m (Hm m eq_refl)) as (sl & p & E & Hl & -> & Hc & _). eauto.
  - destruct (split_count l a Ha) as (sl & p & E & Hl & -> & Hc & _). eauto.
Qed.

Lemma in_slice {A} (l : list A) ab x : In x (slice l ab) -> In x l.
Proof.
  unfold slice. intros H. apply In_nth_error in H. destruct H as (i & H). rewrite nth_error_firstn' in H.
  destruct (Nat.ltb i (snd ab - fst ab)); [|discriminate]. rewrite nth_error_skipn' in H. eapply nth_error_In; eauto.
Qed.

Lemma combine_facts b : wf b -> map fst (combine (b_vals b) (b_ev b)) = b_vals b /\
  length (combine (b_vals b) (b_ev b)) = b_len b /\
  Forall (fun r : V * list fl => length (snd r) = eval_width b) (combine (b_vals b) (b_ev b)).
Proof.
  intros [L F]. unfold b_len in *. split; [|split].
  - revert L. clear F. generalize (b_ev b). induction (b_vals b) as [|v l IH]; intros [|e ev] L; cbn in *; try lia; auto. f_equal. auto.
  - rewrite combine_length. lia.
  - rewrite Forall_forall in *. intros [v e] H. apply in_combine_r in H. cbn. auto.
Qed.

Lemma evaluate_all_ok fit h g b : wf b -> computes (num_objs b) (b_ndata b) fit h ->
  (forall v, acceptable (num_objs b) (b_ndata b) (h v)) -> sensible g (b_len b) ->
  evaluate_all fit g b = Ok (evaluated b h).
Proof.
  intros W C Ha S. unfold evaluate_all, sensible in *. destruct (g_actors g) as [a|]; [|apply evaluate_here_ok; auto].
  destruct S as (S1 & S2 & S3 & S4). destruct (combine_facts b W) as (CF & CL & CW).
  destruct (choose_ok (g_nsub g) (g_subsize g) a (combine (b_vals b) (b_ev b)) S1 S2 S3) as (sl & -> & Ls & Ch).
  cbn [bind fst snd]. set (gg := map (fun r : V * list fl => recorded (num_objs b) (b_ndata b) (h (fst r)))).
  rewrite (collect_gather fit (g_dev g) b gg).
  - cbn [bind]. unfold evaluated. do 2 f_equal.
    rewrite (gather_chain (fun r : V * list fl => recorded (num_objs b) (b_ndata b) (h (fst r))) gg); auto.
    + rewrite <- (map_map fst (fun v => recorded (num_objs b) (b_ndata b) (h v))). rewrite CF. reflexivity.
    + rewrite Ls, CL. exact S4.
    + rewrite CL. apply W.
  - intros p Hp. apply evaluate_piece_ok; auto. apply in_map_iff in Hp. destruct Hp as (ab & <- & _).
    rewrite Forall_forall in *. intros x Hx. apply CW. eapply in_slice; eauto.
Qed.

(* ------------------------------------------------------------------- refused verdicts *)
Lemma set_row_refused (s : batch V) v row d : b_vals s = [v] -> ~ acceptable (num_objs s) (b_ndata s) (row, d) ->
  set_evals s (E2 [row] (length row)) (option_map (fun d => Some ([d], length d)) d) (seq 0 (b_len s)) = Err ValueError.
Proof.
  intros Ev N. unfold acceptable in N. cbn [fst snd] in N. unfold set_evals, b_len. rewrite Ev. cbn [bind fst snd].
  change (negb (Nat.eqb (length [row]) (length (seq 0 (length [v]))))) with false. cbn iota.
  destruct d as [d|]; cbn [option_map].
  - destruct (Nat.eqb_spec (length d) (b_ndata s)) as [Q1|]; cbn [negb]; auto.
    destruct (Nat.eqb_spec (length row) (num_objs s)) as [Q2|]; cbn [negb]; auto. exfalso. auto.
  - destruct (Nat.eqb_spec (length row) (num_objs s)) as [Q2|]; [exfalso; auto|].
    destruct (Nat.eqb_spec (length row) (eval_width s)) as [Q2|]; [exfalso; auto|auto].
Qed.

(* what a fitness function said about one solution, when it can be read at all *)
Lemma set_one_refused (s : batch V) v o : b_vals s = [v] ->
  (forall w, says_one o w -> ~ acceptable (num_objs s) (b_ndata s) w) -> solution_set_evals s o = Err ValueError.
Proof.
  intros Ev N. unfold solution_set_evals. destruct o as [e d]. cbn [fst snd].
  assert (G : forall row, (forall dd, says_one (e, option_map Some dd) (row, dd)) ->
    bind match d with Some (Some d0) => Ok (Some (Some ([d0], length d0))) | Some None => Err ValueError | None => Ok None end
      (fun data => set_evals s (E2 [row] (length row)) data (seq 0 (b_len s))) = Err ValueError).
  { intros row Hr. destruct d as [[d|]|]; cbn [bind]; auto.
    - apply (set_row_refused s v row (Some d) Ev). apply N. apply (Hr (Some d)).
    - apply (set_row_refused s v row None Ev). apply N. apply (Hr None). }
  destruct e as [x|xs|]; cbn [bind]; auto; apply G; intros [dd|]; split; reflexivity.
Qed.

Lemma evaluate_rows_refused (f : V -> result one_out) desc nd_ vals v0 :
  (forall v, exists o, f v = Ok o) ->
  (forall o w, f v0 = Ok o -> says_one o w -> ~ acceptable (length desc) nd_ w) ->
  forall m k ev i, k + m = length vals -> length ev = length vals -> k <= i -> nth_error vals i = Some v0 ->
  evaluate_rows f (mkBatch vals ev desc nd_) (seq k m) = Err ValueError.
Proof.
  intros Hf Hr. induction m as [|m IH]; intros k ev i K L Hi N; cbn [seq evaluate_rows].
  - assert (i < length vals) by (apply nth_error_Some; congruence). lia.
  - unfold solution. cbn [b_len b_vals b_ev b_desc b_ndata]. unfold b_len. cbn [b_vals].
    destruct (Z.ltb_spec (Z.of_nat k) 0); [lia|].
    destruct (Z.leb_spec 0 (Z.of_nat k)); [|lia]. destruct (Z.leb_spec (Z.of_nat k) (Z.of_nat (length vals))); [|lia].
    cbn [andb bind]. rewrite Nat2Z.id.
    destruct (firstn1_skipn vals k) as (v & Nv & ->); [lia|].
    destruct (firstn1_skipn ev k) as (r & Nr & ->); [lia|].
    unfold evaluate_solution. cbn [b_vals]. destruct (Hf v) as (o & Eo). rewrite Eo. cbn [bind].
    destruct (solution_set_evals (mkBatch [v] [r] desc nd_) o) as [s'|e] eqn:Es; cbn [bind].
    + unfold store_row. cbn [b_vals b_ev b_desc b_ndata].
      assert (Hk : i <> k).
      { intros ->. assert (v = v0) by congruence. subst v0.
        pose proof (set_one_refused (mkBatch [v] [r] desc nd_) v o eq_refl (fun w => Hr o w Eo)) as Q. congruence. }
      destruct (b_ev s'); apply (IH (S k) _ i); rewrite ?upd_length; auto; lia.
    + assert (e = ValueError).
      { clear - Es. unfold solution_set_evals, set_evals in Es. destruct o as [eo d]. cbn [fst snd] in Es.
        destruct eo as [x|xs|]; cbn [bind] in Es; [| |congruence];
        (destruct d as [[d|]|]; cbn [bind fst snd] in Es; [| congruence |]);
        repeat match type of Es with (if ?c then _ else _) = _ => destruct c end; congruence. }
      congruence.
Qed.
End E.

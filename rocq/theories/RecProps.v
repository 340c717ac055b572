(* What the recurrent layers compute, step by step, from a parameter vector; bounds on what they return. *)
From Coq Require Import Reals Lra.
From Verif Require Import Prelude PolModel PolSpec PolProps.
Open Scope R_scope.

(* ---- spec: matrices are lists of rows ---- *)
Definition inner (a b : list R) : R := fold_right Rplus 0 (map2 Rmult a b).
Definition apply (W : list (list R)) (v : list R) : list R := map (fun r => inner r v) W.
Definition plus2 := map2 Rplus.
Definition times2 := map2 Rmult.
Definition shaped (rows cols : nat) (W : list (list R)) : Prop := length W = rows /\ Forall (fun r => length r = cols) W.
Section RnnSpec.
  Variable act : R -> R.
  Variables (W1 W2 : list (list R)) (b1 b2 : list R).
  Fixpoint rnn_outputs (h : list R) (xs : list (list R)) : list (list R) :=
    match xs with
    | [] => []
    | x :: r => let y := map act (plus2 (plus2 (apply W1 x) b1) (plus2 (apply W2 h) b2)) in y :: rnn_outputs y r
    end.
End RnnSpec.
(* the four gates: input, forget, cell, output *)
Inductive gname := I_ | F_ | G_ | O_.
Definition gates := [I_; F_; G_; O_].
Definition sigmoid (x : R) : R := / (1 + exp (- x)).
Section LstmSpec.
  Variables (Wx Wh : gname -> list (list R)) (bx bh : gname -> list R).
  Definition preact (g : gname) (x h : list R) : list R := plus2 (plus2 (plus2 (apply (Wx g) x) (bx g)) (apply (Wh g) h)) (bh g).
  Fixpoint lstm_outputs (h c : list R) (xs : list (list R)) : list (list R) :=
    match xs with
    | [] => []
    | x :: r =>
        let c' := plus2 (times2 (map sigmoid (preact F_ x h)) c) (times2 (map sigmoid (preact I_ x h)) (map tanh (preact G_ x h))) in
        let h' := times2 (map sigmoid (preact O_ x h)) (map tanh c') in
        h' :: lstm_outputs h' c' r
    end.
End LstmSpec.

(* ---- parts of the parameter vector ---- *)
Lemma fold_sum l : forall a, fold_left Rplus l a = a + fold_right Rplus 0 l.
Proof. induction l as [|x l IH]; intros a; cbn; [ring|rewrite IH; ring]. Qed.
Lemma dot_inner a b : dot 0 Rplus Rmult a b = inner a b.
Proof. unfold dot, inner. rewrite fold_sum. ring. Qed.
Lemma block_split {A} (bs : list (list A)) k B : nth_error bs k = Some B -> concat bs = concat (firstn k bs) ++ B ++ concat (skipn (S k) bs).
Proof. revert k. induction bs as [|b bs IH]; intros [|k] E; cbn in *; try discriminate; [congruence|]. rewrite (IH _ E) at 1. rewrite app_assoc. reflexivity. Qed.
Lemma row_of_concat c (W : list (list R)) : Forall (fun r => length r = c) W -> forall i post, (i < length W)%nat -> firstn c (skipn (i * c) (concat W ++ post)) = nth i W [].
Proof.
  intros F. induction F as [|r W Hr F IH]; intros i post Hi; cbn [length] in Hi; [lia|]. destruct i as [|i]; cbn [concat nth Nat.mul].
  - cbn [skipn]. rewrite <- app_assoc, firstn_app, Hr, Nat.sub_diag, firstn_O, app_nil_r. rewrite <- Hr. apply firstn_all.
  - rewrite <- app_assoc, skipn_app, Hr. rewrite skipn_all2 by lia. replace (c + i * c - c)%nat with (i * c)%nat by lia. cbn [app]. apply IH. lia.
Qed.
Lemma mrow_block (bs : list (list R)) k (W : list (list R)) c i off : nth_error bs k = Some (concat W) -> off = length (concat (firstn k bs)) -> Forall (fun r => length r = c) W -> (i < length W)%nat ->
  mrow (concat bs) off c i = nth i W [].
Proof.
  intros E -> F Hi. unfold mrow. rewrite (block_split bs k _ E). rewrite skipn_app. rewrite skipn_all2 by lia.
  rewrite Nat.add_comm, Nat.add_sub. cbn [app]. apply row_of_concat; auto.
Qed.
Lemma velem_block (bs : list (list R)) k b i off : nth_error bs k = Some b -> off = length (concat (firstn k bs)) -> (i < length b)%nat -> velem 0 (concat bs) off i = nth i b 0.
Proof.
  intros E -> Hi. unfold velem. rewrite (block_split bs k _ E). rewrite app_nth2 by lia. replace (length (concat (firstn k bs)) + i - length (concat (firstn k bs)))%nat with i by lia.
  apply app_nth1. auto.
Qed.
Lemma concat_length c (W : list (list R)) : Forall (fun r => length r = c) W -> length (concat W) = (length W * c)%nat.
Proof. induction 1 as [|r W H F IH]; cbn; auto. rewrite app_length, IH, H. auto. Qed.
Lemma map_seq_nth {A} (f : nat -> A) (l : list A) n d : length l = n -> (forall i, (i < n)%nat -> f i = nth i l d) -> map f (seq 0 n) = l.
Proof.
  intros L H. apply nth_ext with (d := d) (d' := d); [rewrite map_length, seq_length; auto|]. rewrite map_length, seq_length. intros i Hi.
  rewrite (nth_indep _ d (f 0%nat)) by (rewrite map_length, seq_length; auto). rewrite map_nth, seq_nth by auto. cbn. auto.
Qed.
Lemma map2_nth2 (f : R -> R -> R) a b i : length a = length b -> (i < length a)%nat -> nth i (map2 f a b) 0 = f (nth i a 0) (nth i b 0).
Proof. revert b i. induction a as [|x a IH]; intros [|y b] [|i] L Hi; cbn in *; try lia; auto. apply IH; lia. Qed.
Lemma len2 (f : R -> R -> R) a b n : length a = n -> length b = n -> length (map2 f a b) = n.
Proof. intros H1 H2. rewrite map2_length. lia. Qed.
Lemma map_nth2 (f : R -> R) a i : (i < length a)%nat -> nth i (map f a) 0 = f (nth i a 0).
Proof. intros H. rewrite (nth_indep _ 0 (f 0)) by (rewrite map_length; auto). apply map_nth. Qed.
Lemma apply_nth W v i : (i < length W)%nat -> nth i (apply W v) 0 = inner (nth i W []) v.
Proof. intros H. unfold apply. rewrite (nth_indep _ 0 (inner [] v)) by (rewrite map_length; auto). apply (map_nth (fun r => inner r v)). Qed.
Lemma apply_length W v : length (apply W v) = length W.
Proof. apply map_length. Qed.

Lemma act_run {row} (m : module row) r x es s ys s' : net_run m r 1 0 (Act [x] :: es) s ys s' -> exists y ys', ys = y :: ys' /\ nth_error (compute m (par s) x (hid s)) (out_ix m) = Some y /\
  net_run m r 1 0 es (Net (par s) (match skel m with None => hid s | Some t => Some (tmap (fun k => nth k (compute m (par s) x (hid s)) x) t) end)) ys' s'.
Proof.
  intros H. inversion H as [|e es' s0 o s1 ys' s2 H1 H2]; subst. inversion H1 as [| | | | | |xs0 x0 s0 y E1 E2]; subst. cbn in E1. injection E1 as <-. eauto.
Qed.

Section Layers.
Variables n_in n_hid : nat.
Section Rnn.
  Variable act : R -> R.
  Variables (W1 W2 : list (list R)) (b1 b2 : list R).
  Hypothesis S1 : shaped n_hid n_in W1.
  Hypothesis S2 : shaped n_hid n_hid W2.
  Hypothesis L1 : length b1 = n_hid.
  Hypothesis L2 : length b2 = n_hid.
  Definition rnn_vector : list R := concat W1 ++ concat W2 ++ b1 ++ b2.
  Lemma rnn_cell_ok x h : rnn_cell 0 Rplus Rmult act n_in n_hid rnn_vector x h = map act (plus2 (plus2 (apply W1 x) b1) (plus2 (apply W2 h) b2)).
  Proof using S1 S2 L1 L2.
    destruct S1 as [A1 F1]. destruct S2 as [A2 F2]. unfold rnn_cell. assert (E : rnn_vector = concat [concat W1; concat W2; b1; b2]) by (unfold rnn_vector; cbn; rewrite app_nil_r; auto).
    rewrite E. unfold plus2.
    assert (LL : length (map2 Rplus (map2 Rplus (apply W1 x) b1) (map2 Rplus (apply W2 h) b2)) = n_hid).
    { apply len2; apply len2; auto; rewrite apply_length; auto. }
    apply map_seq_nth with (d := 0); [rewrite map_length; auto|]. intros i Hi.
    rewrite map_nth2 by lia. rewrite !map2_nth2 by (repeat (rewrite (len2 _ _ _ n_hid)); rewrite ?apply_length; auto; lia).
    rewrite !apply_nth by lia. rewrite !dot_inner.
    rewrite (mrow_block _ 0 W1 n_in i) by (cbn; auto; lia). rewrite (mrow_block _ 1 W2 n_hid i) by (cbn; rewrite ?app_nil_r, ?(concat_length n_in) by auto; auto; lia).
    rewrite (velem_block _ 2 b1 i) by (cbn; rewrite ?app_nil_r, ?app_length, ?(concat_length n_in W1), ?(concat_length n_hid W2) by auto; auto; lia).
    rewrite (velem_block _ 3 b2 i) by (cbn; rewrite ?app_nil_r, ?app_length, ?(concat_length n_in W1), ?(concat_length n_hid W2) by auto; auto; lia). reflexivity.
  Qed.
  Lemma rnn_net xs : forall st ys s', net_run (rnn 0 Rplus Rmult act n_in n_hid) (fun _ => None) 1 0 (map as_batch (map Act1 xs)) (Net rnn_vector st) ys s' ->
    (match st with None => True | Some t => exists h, t = Tensor h end) ->
    ys = rnn_outputs act W1 W2 b1 b2 (match st with Some (Tensor h) => h | _ => repeat 0 n_hid end) xs.
  Proof using S1 S2 L1 L2.
    induction xs as [|x xs IH]; intros st ys s' H Hst; cbn [map] in H; [inversion H; reflexivity|].
    cbn [as_batch] in H. apply act_run in H. destruct H as (y & ys' & -> & E2 & H2). cbn [rnn compute out_ix par hid nth_error skel] in *. injection E2 as E2.
    cbn [tmap nth rnn compute] in H2. rewrite E2 in H2. cbn [rnn_outputs].
    assert (Y : map act (plus2 (plus2 (apply W1 x) b1) (plus2 (apply W2 (match st with Some (Tensor h) => h | _ => repeat 0 n_hid end)) b2)) = y) by (rewrite <- rnn_cell_ok; exact E2).
    rewrite Y. f_equal. apply (IH (Some (Tensor y)) ys' s'); eauto.
  Qed.
End Rnn.
Section Lstm.
  Variables (Wx Wh : gname -> list (list R)) (bx bh : gname -> list R).
  Hypothesis Sx : forall g, shaped n_hid n_in (Wx g).
  Hypothesis Sh : forall g, shaped n_hid n_hid (Wh g).
  Hypothesis Lx : forall g, length (bx g) = n_hid.
  Hypothesis Lh : forall g, length (bh g) = n_hid.
  Definition lstm_vector : list R :=
    flat_map (fun g => concat (Wx g)) gates ++ flat_map (fun g => concat (Wh g)) gates ++ flat_map bx gates ++ flat_map bh gates.
  Definition number (g : gname) : nat := match g with I_ => 0 | F_ => 1 | G_ => 2 | O_ => 3 end.
  Lemma gate_ok g x h i : (i < n_hid)%nat -> gate 0 Rplus Rmult n_in n_hid lstm_vector x h (number g) i = nth i (preact Wx Wh bx bh g x h) 0.
  Proof using Sx Sh Lx Lh.
    intros Hi. set (bs := map (fun g => concat (Wx g)) gates ++ map (fun g => concat (Wh g)) gates ++ map bx gates ++ map bh gates).
    assert (E : lstm_vector = concat bs) by (unfold lstm_vector, bs; rewrite !concat_app, <- !flat_map_concat_map; reflexivity).
    assert (CX : forall g, length (concat (Wx g)) = (n_hid * n_in)%nat) by (intros g'; destruct (Sx g') as [A F]; rewrite (concat_length n_in), A; auto).
    assert (CH : forall g, length (concat (Wh g)) = (n_hid * n_hid)%nat) by (intros g'; destruct (Sh g') as [A F]; rewrite (concat_length n_hid), A; auto).
    rewrite E. unfold gate. cbv zeta. destruct (Sx g) as [A1 F1]. destruct (Sh g) as [A2 F2].
    rewrite (mrow_block bs (number g) (Wx g) n_in i); [|destruct g; reflexivity|destruct g; cbn; rewrite ?app_nil_r, ?app_length, ?CX; lia|auto|lia].
    rewrite (mrow_block bs (4 + number g) (Wh g) n_hid i); [|destruct g; reflexivity|destruct g; cbn [number Nat.add firstn bs map gates app concat]; rewrite ?app_nil_r, ?app_length, ?CX, ?CH; lia|auto|lia].
    rewrite (velem_block bs (8 + number g) (bx g) i); [|destruct g; reflexivity|destruct g; cbn [number Nat.add firstn bs map gates app concat]; rewrite ?app_nil_r, ?app_length, ?CX, ?CH, ?Lx; lia|rewrite Lx; lia].
    rewrite (velem_block bs (12 + number g) (bh g) i); [|destruct g; reflexivity|destruct g; cbn [number Nat.add firstn bs map gates app concat]; rewrite ?app_nil_r, ?app_length, ?CX, ?CH, ?Lx, ?Lh; lia|rewrite Lh; lia].
    unfold preact, plus2. rewrite !map2_nth2 by (repeat (rewrite (len2 _ _ _ n_hid)); rewrite ?apply_length, ?Lx, ?Lh; auto; lia).
    rewrite !apply_nth by lia. rewrite !dot_inner. reflexivity.
  Qed.
  Lemma preact_length g x h : length (preact Wx Wh bx bh g x h) = n_hid.
  Proof using Sx Sh Lx Lh. unfold preact, plus2. repeat apply len2; rewrite ?apply_length; auto; [apply Sx|apply Sh]. Qed.
  Lemma lstm_cell_ok x h c : length c = n_hid -> lstm_cell 0 Rplus Rmult tanh sigmoid n_in n_hid lstm_vector x h c =
    let c' := plus2 (times2 (map sigmoid (preact Wx Wh bx bh F_ x h)) c) (times2 (map sigmoid (preact Wx Wh bx bh I_ x h)) (map tanh (preact Wx Wh bx bh G_ x h))) in
    (times2 (map sigmoid (preact Wx Wh bx bh O_ x h)) (map tanh c'), c').
  Proof using Sx Sh Lx Lh.
    intros Lc. unfold lstm_cell. cbv zeta. unfold plus2, times2.
    set (c' := map2 Rplus _ _). assert (LC : length c' = n_hid) by (unfold c'; repeat apply len2; rewrite ?map_length, ?preact_length; auto).
    assert (E : map (fun i => sigmoid (gate 0 Rplus Rmult n_in n_hid lstm_vector x h 1 i) * nth i c 0 + sigmoid (gate 0 Rplus Rmult n_in n_hid lstm_vector x h 0 i) * tanh (gate 0 Rplus Rmult n_in n_hid lstm_vector x h 2 i)) (seq 0 n_hid) = c').
    { apply map_seq_nth with (d := 0); auto. intros i Hi. unfold c'. rewrite !map2_nth2 by (repeat (rewrite (len2 _ _ _ n_hid)); rewrite ?map_length, ?preact_length; auto; lia).
      rewrite !map_nth2 by (rewrite preact_length; auto). rewrite <- !gate_ok by auto. reflexivity. }
    rewrite E. f_equal. apply map_seq_nth with (d := 0); [apply len2; rewrite ?map_length, ?preact_length; auto|]. intros i Hi.
    rewrite !map2_nth2 by (rewrite ?map_length, ?preact_length; auto; lia). rewrite !map_nth2 by (rewrite ?preact_length; auto; lia). rewrite <- gate_ok by auto. reflexivity.
  Qed.
  Definition pair_of (st : option (tree (list R))) : list R * list R :=
    match st with Some (Iter [Tensor h; Tensor c]) => (h, c) | _ => (repeat 0 n_hid, repeat 0 n_hid) end.
  Lemma lstm_net xs : forall st ys s', net_run (lstm 0 Rplus Rmult tanh sigmoid n_in n_hid) (fun _ => None) 1 0 (map as_batch (map Act1 xs)) (Net lstm_vector st) ys s' ->
    length (snd (pair_of st)) = n_hid -> ys = lstm_outputs Wx Wh bx bh (fst (pair_of st)) (snd (pair_of st)) xs.
  Proof using Sx Sh Lx Lh.
    induction xs as [|x xs IH]; intros st ys s' H Hst; cbn [map] in H; [inversion H; reflexivity|].
    cbn [as_batch] in H. apply act_run in H. destruct H as (y & ys' & -> & E2 & H2). cbn [lstm compute out_ix par hid skel] in *.
    assert (EC : (let '(h, c) := match st with Some (Iter [Tensor h; Tensor c]) => (h, c) | _ => (repeat 0 n_hid, repeat 0 n_hid) end in
                  let '(h0, c0) := lstm_cell 0 Rplus Rmult tanh sigmoid n_in n_hid lstm_vector x h c in [h0; c0]) =
                 let p := lstm_cell 0 Rplus Rmult tanh sigmoid n_in n_hid lstm_vector x (fst (pair_of st)) (snd (pair_of st)) in [fst p; snd p]).
    { change (match st with Some (Iter [Tensor h; Tensor c]) => (h, c) | _ => (repeat 0 n_hid, repeat 0 n_hid) end) with (pair_of st). destruct (pair_of st) as [h c]. cbn [fst snd]. destruct (lstm_cell _ _ _ _ _ _ _ _ _ _ _). reflexivity. }
    rewrite EC in E2, H2. cbv zeta in E2, H2. rewrite lstm_cell_ok in E2, H2 by auto. cbv zeta in E2, H2. cbn [fst snd nth_error tmap map nth] in E2, H2. injection E2 as E2.
    cbn [lstm_outputs]. cbv zeta. rewrite E2 in *. f_equal.
    specialize (IH _ _ _ H2). cbn [pair_of fst snd] in IH. apply IH. unfold plus2, times2. repeat apply len2; rewrite ?map_length, ?preact_length; auto.
  Qed.
End Lstm.
End Layers.

(* ---- bounds ---- *)
Lemma tanh_eq x : tanh x = (exp x - exp (- x)) / (exp x + exp (- x)).
Proof. unfold tanh, sinh, cosh. pose proof (exp_pos x). pose proof (exp_pos (- x)). field. lra. Qed.
Lemma tanh_lt1 x : Rabs (tanh x) < 1.
Proof.
  rewrite tanh_eq. pose proof (exp_pos x). pose proof (exp_pos (- x)). apply Rabs_def1.
  - apply Rmult_lt_reg_r with (exp x + exp (- x)); [lra|]. unfold Rdiv. rewrite Rmult_assoc, Rinv_l by lra. lra.
  - apply Rmult_lt_reg_r with (exp x + exp (- x)); [lra|]. unfold Rdiv. rewrite Rmult_assoc, Rinv_l by lra. lra.
Qed.
Lemma tanh_le x y : x <= y -> tanh x <= tanh y.
Proof.
  intros [H|H]; [|subst; lra]. apply Rlt_le. rewrite !tanh_eq. pose proof (exp_pos x) as A. pose proof (exp_pos (- x)) as B. pose proof (exp_pos y) as C. pose proof (exp_pos (- y)) as D.
  pose proof (exp_increasing _ _ H) as I1. assert (I2 : exp (- y) < exp (- x)) by (apply exp_increasing; lra).
  apply Rmult_lt_reg_r with ((exp x + exp (- x)) * (exp y + exp (- y))); [apply Rmult_lt_0_compat; lra|].
  replace ((exp x - exp (- x)) / (exp x + exp (- x)) * ((exp x + exp (- x)) * (exp y + exp (- y)))) with ((exp x - exp (- x)) * (exp y + exp (- y))) by (field; lra).
  replace ((exp y - exp (- y)) / (exp y + exp (- y)) * ((exp x + exp (- x)) * (exp y + exp (- y)))) with ((exp y - exp (- y)) * (exp x + exp (- x))) by (field; lra).
  assert (exp x * exp (- y) < exp y * exp (- x)) by (apply Rmult_gt_0_lt_compat; lra). lra.
Qed.
Lemma tanh_opp x : tanh (- x) = - tanh x.
Proof. rewrite !tanh_eq, Ropp_involutive. pose proof (exp_pos x). pose proof (exp_pos (- x)). field. lra. Qed.
Lemma tanh_abs x : Rabs (tanh x) = tanh (Rabs x).
Proof.
  assert (Z : tanh 0 = 0) by (rewrite tanh_eq, Ropp_0, exp_0; field). destruct (Rle_dec 0 x) as [H|H].
  - rewrite (Rabs_pos_eq x) by auto. apply Rabs_pos_eq. rewrite <- Z. apply tanh_le. auto.
  - rewrite (Rabs_left x) by lra. rewrite tanh_opp. apply Rabs_left1. rewrite <- Z. apply tanh_le. lra.
Qed.
Lemma sigmoid_range x : 0 < sigmoid x < 1.
Proof. unfold sigmoid. pose proof (exp_pos (- x)). split; [apply Rinv_0_lt_compat; lra|]. rewrite <- Rinv_1. apply Rinv_lt_contravar; lra. Qed.
Definition bounded (m : R) (l : list R) : Prop := Forall (fun v => Rabs v <= m) l.
Lemma cell_bound fs is_ gs : forall c m, bounded m c -> bounded (m + 1) (plus2 (times2 (map sigmoid fs) c) (times2 (map sigmoid is_) (map tanh gs))).
Proof.
  revert is_ gs. induction fs as [|f fs IH]; intros [|i is_] [|g gs] [|v c] m B; cbn; try (constructor; fail). inversion B as [|? ? B1 B2]; subst. constructor; [|apply IH; auto].
  pose proof (sigmoid_range f) as [F1 F2]. pose proof (sigmoid_range i) as [I1 I2]. pose proof (tanh_lt1 g) as T. pose proof (Rabs_pos v). pose proof (Rabs_pos (tanh g)).
  eapply Rle_trans; [apply Rabs_triang|]. rewrite !Rabs_mult, (Rabs_pos_eq (sigmoid f)), (Rabs_pos_eq (sigmoid i)) by lra. apply Rplus_le_compat; nra.
Qed.
Lemma out_bound os : forall c m, bounded m c -> Forall (fun v => Rabs v < 1 /\ Rabs v <= tanh m) (times2 (map sigmoid os) (map tanh c)).
Proof.
  induction os as [|o os IH]; intros [|v c] m B; cbn; try (constructor; fail). inversion B as [|? ? B1 B2]; subst. constructor; [|apply IH; auto].
  pose proof (sigmoid_range o) as [O1 O2]. pose proof (tanh_lt1 v). pose proof (Rabs_pos (tanh v)). rewrite Rabs_mult, (Rabs_pos_eq (sigmoid o)) by lra.
  assert (Rabs (tanh v) <= tanh m) by (rewrite tanh_abs; apply tanh_le; auto). split; nra.
Qed.
Lemma lstm_bound Wx Wh bx bh xs : forall h c m, bounded m c -> forall t y, nth_error (lstm_outputs Wx Wh bx bh h c xs) t = Some y ->
  Forall (fun v => Rabs v < 1 /\ Rabs v <= tanh (m + INR (S t))) y.
Proof.
  induction xs as [|x xs IH]; intros h c m B [|t] y E; cbn [lstm_outputs nth_error] in E; try discriminate.
  - injection E as <-. replace (m + INR 1) with (m + 1) by reflexivity. apply out_bound, cell_bound. auto.
  - specialize (IH _ _ _ (cell_bound _ _ _ _ _ B) _ _ E). replace (m + INR (S (S t))) with (m + 1 + INR (S t)) by (rewrite !S_INR; ring). auto.
Qed.

(* ---- theorems: a policy (vecrl.py Policy) with one parameter vector, called with the observations xs *)
Theorem C214_rnn : forall n_in n_hid act W1 W2 b1 b2 zero poke poke_single b xs h,
  shaped n_hid n_in W1 -> shaped n_hid n_hid W2 -> length b1 = n_hid -> length b2 = n_hid ->
  exists h' p', run1 (rnn 0 Rplus Rmult act n_in n_hid) zero poke poke_single (Set1 (concat W1 ++ concat W2 ++ b1 ++ b2) b :: map Act1 xs) h (Policy None None) =
    Ok (h', p', rnn_outputs act W1 W2 b1 b2 (repeat 0 n_hid) xs).
Proof.
  intros ni nh act W1 W2 b1 b2 zero poke ps b xs h S1 S2 L1 L2.
  destruct (C118_single zero poke ps (rnn 0 Rplus Rmult act ni nh) 1 (concat W1 ++ concat W2 ++ b1 ++ b2) b (map Act1 xs) h) as (h' & p' & ys & s' & E & R).
  { repeat split; cbn; auto; injection H as <-; cbn; auto. }
  exists h', p'. rewrite E. do 2 f_equal. apply (rnn_net ni nh act W1 W2 b1 b2 S1 S2 L1 L2 xs None ys s'); auto.
Qed.
Theorem C214_lstm : forall n_in n_hid Wx Wh bx bh zero poke poke_single b xs h,
  (forall g, shaped n_hid n_in (Wx g)) -> (forall g, shaped n_hid n_hid (Wh g)) -> (forall g, length (bx g) = n_hid) -> (forall g, length (bh g) = n_hid) ->
  exists h' p', run1 (lstm 0 Rplus Rmult tanh sigmoid n_in n_hid) zero poke poke_single
      (Set1 (concat (map (fun g => concat (Wx g)) gates) ++ concat (map (fun g => concat (Wh g)) gates) ++ concat (map bx gates) ++ concat (map bh gates)) b :: map Act1 xs) h (Policy None None) =
    Ok (h', p', lstm_outputs Wx Wh bx bh (repeat 0 n_hid) (repeat 0 n_hid) xs).
Proof.
  intros ni nh Wx Wh bx bh zero poke ps b xs h Sx Sh Lx Lh. rewrite <- !flat_map_concat_map. fold (lstm_vector Wx Wh bx bh).
  destruct (C118_single zero poke ps (lstm 0 Rplus Rmult tanh sigmoid ni nh) 2 (lstm_vector Wx Wh bx bh) b (map Act1 xs) h) as (h' & p' & ys & s' & E & R).
  { repeat split; cbn; auto; [|injection H as <-; cbn; auto..]. intros q x st. destruct (match st with Some (Iter [Tensor h0; Tensor c]) => (h0, c) | _ => _ end). reflexivity. }
  exists h', p'. rewrite E. do 2 f_equal. apply (lstm_net ni nh Wx Wh bx bh Sx Sh Lx Lh xs None ys s'); auto. cbn. apply repeat_length.
Qed.
(* whatever the weights and the observations *)
Theorem C214_bounded : forall n_hid Wx Wh bx bh W1 W2 b1 b2 xs t y,
  (nth_error (rnn_outputs tanh W1 W2 b1 b2 (repeat 0 n_hid) xs) t = Some y -> Forall (fun v => Rabs v < 1) y) /\
  (nth_error (lstm_outputs Wx Wh bx bh (repeat 0 n_hid) (repeat 0 n_hid) xs) t = Some y -> Forall (fun v => Rabs v < 1 /\ Rabs v <= tanh (INR (S t))) y).
Proof.
  intros nh Wx Wh bx bh W1 W2 b1 b2 xs t y. split.
  - generalize (repeat 0 nh). revert t. induction xs as [|x xs IH]; intros [|t] h E; cbn [rnn_outputs nth_error] in E; try discriminate; [|eapply IH; eauto].
    injection E as <-. apply Forall_forall. intros v Hv. apply in_map_iff in Hv. destruct Hv as (u & <- & _). apply tanh_lt1.
  - intros E. assert (B : bounded 0 (repeat 0 nh)) by (apply Forall_forall; intros v Hv; apply repeat_spec in Hv; subst; rewrite Rabs_R0; lra).
    pose proof (lstm_bound _ _ _ _ _ _ _ _ B _ _ E) as G. rewrite Rplus_0_l in G. auto.
Qed.
Print Assumptions C214_rnn.
Print Assumptions C214_lstm.
Print Assumptions C214_bounded.

(* two inputs, one hidden unit, the identity as activation: the second output remembers the first *)
Example C214_example : shaped 1 2 [[2; 3]] /\ shaped 1 1 [[5]] /\ rnn_outputs (fun v => v) [[2; 3]] [[5]] [7] [11] (repeat 0 1) [[1; 0]; [0; 1]] = [[20]; [121]].
Proof.
  unfold shaped. split; [repeat constructor|]. split; [repeat constructor|]. cbn. repeat (f_equal; try lra).
Qed.

(* The AMSGrad variant of the class Adam. *)
From Coq Require Import Reals Lra Lia.
From Verif Require Import Prelude RollProofs FuncModel FuncSpec FuncProofs.
Open Scope R_scope.

Lemma fold_Rmax_snoc l x : fold_right Rmax 0 (l ++ [x]) = Rmax (fold_right Rmax 0 l) (Rmax x 0).
Proof. induction l as [|a l IH]; cbn; [unfold Rmax; repeat destruct (Rle_dec _ _); lra|]. rewrite IH. now rewrite Rmax_assoc. Qed.
Lemma v_bar_avg b l : v_bar b l = avg b (sq l). Proof. reflexivity. Qed.
Lemma v_largest_nonneg b l : 0 <= v_largest b l.
Proof. unfold v_largest. induction (map _ _) as [|a m IH]; cbn; [lra|]. eapply Rle_trans; [exact IH|apply Rmax_r]. Qed.
Lemma v_largest_snoc b l x : proper_beta b -> v_largest b (l ++ [x]) = Rmax (v_largest b l) (v_bar b (l ++ [x])).
Proof.
  intros B. unfold v_largest at 1. rewrite app_length. cbn [length]. rewrite Nat.add_1_r, seq_S, map_app. cbn [map]. rewrite fold_Rmax_snoc.
  cbn [plus Nat.add]. replace (firstn (S (length l)) (l ++ [x])) with (l ++ [x]).
  - rewrite (Rmax_left (v_bar b (l ++ [x])) 0) by (rewrite v_bar_avg; apply avg_nonneg; auto). f_equal. unfold v_largest. f_equal.
    apply map_ext_in. intros k K. apply in_seq in K. rewrite firstn_app. replace (S k - length l)%nat with O by lia. cbn [firstn]. now rewrite app_nil_r.
  - replace (S (length l)) with (length (l ++ [x])) by (rewrite app_length; cbn; lia). symmetry. apply firstn_all.
Qed.
Lemma v_largest_above b l : proper_beta b -> l <> [] -> v_bar b l <= v_largest b l.
Proof. intros B N. destruct (exists_last N) as (m & x & ->). rewrite v_largest_snoc by auto. apply Rmax_r. Qed.

Definition ams_inv (n : nat) (past : list (list R)) (a : tadam) : Prop :=
  ta_t a = length past /\ length (ta_cells a) = n /\ ta_amsgrad a = true /\ proper_beta (ta_beta1 a) /\ proper_beta (ta_beta2 a) /\
  forall j, (j < n)%nat -> nth_error (ta_cells a) j =
    Some (mkCell (Some (avg (ta_beta1 a) (coordinate j past))) (Some (avg (ta_beta2 a) (sq (coordinate j past)))) (Some (v_largest (ta_beta2 a) (coordinate j past)))).
Lemma ams_cell_ok a past j g : proper_beta (ta_beta1 a) -> proper_beta (ta_beta2 a) -> ta_amsgrad a = true ->
  tadam_cell a (S (length past)) (mkCell (Some (avg (ta_beta1 a) (coordinate j past))) (Some (avg (ta_beta2 a) (sq (coordinate j past)))) (Some (v_largest (ta_beta2 a) (coordinate j past))))
    (Some (nth j g 0)) (Some 0) =
  (mkCell (Some (avg (ta_beta1 a) (coordinate j (past ++ [g])))) (Some (avg (ta_beta2 a) (sq (coordinate j (past ++ [g]))))) (Some (v_largest (ta_beta2 a) (coordinate j (past ++ [g])))),
   nsub (Some 0) (amsgrad_move (ta_lr a) (ta_beta1 a) (ta_beta2 a) (ta_eps a) (coordinate j (past ++ [g])))).
Proof.
  intros B1 B2 A. unfold tadam_cell. cbv zeta. rewrite A. cbn [c_m c_v c_max].
  set (l := coordinate j past). set (x := nth j g 0). rewrite coordinate_snoc. fold l x. rewrite sq_snoc.
  change (nadd (Some (avg (ta_beta1 a) l)) (nmul (Some (1 - ta_beta1 a)) (nsub (Some x) (Some (avg (ta_beta1 a) l)))))
    with (Some (avg (ta_beta1 a) l + (1 - ta_beta1 a) * (x - avg (ta_beta1 a) l))).
  change (nadd (nmul (Some (ta_beta2 a)) (Some (avg (ta_beta2 a) (sq l)))) (nmul (Some (1 - ta_beta2 a)) (nmul (Some x) (Some x))))
    with (Some (ta_beta2 a * avg (ta_beta2 a) (sq l) + (1 - ta_beta2 a) * (x * x))).
  replace (avg (ta_beta1 a) l + (1 - ta_beta1 a) * (x - avg (ta_beta1 a) l)) with (avg (ta_beta1 a) (l ++ [x])) by (rewrite avg_snoc; lra).
  replace (ta_beta2 a * avg (ta_beta2 a) (sq l) + (1 - ta_beta2 a) * (x * x)) with (avg (ta_beta2 a) (sq (l ++ [x])))
    by (rewrite sq_snoc, avg_snoc; lra).
  rewrite <- sq_snoc. change (nmax (Some (v_largest (ta_beta2 a) l)) (Some (avg (ta_beta2 a) (sq (l ++ [x])))))
    with (Some (Rmax (v_largest (ta_beta2 a) l) (v_bar (ta_beta2 a) (l ++ [x])))). rewrite <- v_largest_snoc by auto.
  f_equal. f_equal.
  assert (P1 := pow_lt_1 _ (S (length past)) B1 (Nat.lt_0_succ _)). assert (P2 := pow_lt_1 _ (S (length past)) B2 (Nat.lt_0_succ _)).
  assert (V := v_largest_nonneg (ta_beta2 a) (l ++ [x])).
  rewrite (sqrt_some _ V), sqrt_some by lra.
  assert (0 < sqrt (1 - ta_beta2 a ^ S (length past))) by (apply sqrt_lt_R0; lra).
  rewrite !div_some by lra. rewrite sqrt_div' by lra.
  unfold amsgrad_move, m_hat. fold (avg (ta_beta1 a) (l ++ [x])).
  assert (LL : length (l ++ [x]) = S (length past)) by (rewrite app_length; unfold l; rewrite coordinate_length; cbn; lia).
  rewrite LL. set (d := sqrt (v_largest (ta_beta2 a) (l ++ [x]) / (1 - ta_beta2 a ^ S (length past)))).
  change (nadd (Some d) (Some (ta_eps a))) with (Some (d + ta_eps a)). rewrite div_same. cbv zeta.
  destruct (Req_EM_T (d + ta_eps a) 0) as [Z|Z]; [reflexivity|]. cbn [nmul nsub nlift]. unfold nmul, nsub, nlift. f_equal. field. split; lra.
Qed.
Lemma ams_ascent n past a g : ams_inv n past a -> length g = n ->
  exists a' step, torch_ascent (WAdam a) (map Some g) = Ok (WAdam a', step) /\ ams_inv n (past ++ [g]) a' /\
    ta_lr a' = ta_lr a /\ ta_beta1 a' = ta_beta1 a /\ ta_beta2 a' = ta_beta2 a /\ ta_eps a' = ta_eps a /\
    length step = n /\ forall j, (j < n)%nat ->
      nth_error step j = Some (amsgrad_move (ta_lr a) (ta_beta1 a) (ta_beta2 a) (ta_eps a) (coordinate j (past ++ [g]))).
Proof.
  intros (T & L & A & B1 & B2 & C) G. unfold torch_ascent. cbn [wrapped_length]. rewrite map_length, L, G, Nat.eqb_refl. cbn [negb].
  cbv zeta. cbn [wrapped_step]. unfold tadam_step. cbv zeta. cbn [fst snd]. eexists _, _. split; [reflexivity|].
  assert (N : forall j, (j < n)%nat -> nth_error (map3 (tadam_cell a (S (ta_t a))) (ta_cells a) (map Some g) (repeat (Some 0) n)) j =
    Some (mkCell (Some (avg (ta_beta1 a) (coordinate j (past ++ [g])))) (Some (avg (ta_beta2 a) (sq (coordinate j (past ++ [g]))))) (Some (v_largest (ta_beta2 a) (coordinate j (past ++ [g])))),
     nsub (Some 0) (amsgrad_move (ta_lr a) (ta_beta1 a) (ta_beta2 a) (ta_eps a) (coordinate j (past ++ [g]))))).
  { intros j J. erewrite map3_nth3; [|exact (C j J)|apply (nth_error_some j g n); auto|apply nth_error_repeat; auto]. rewrite T. f_equal. apply ams_cell_ok; auto. }
  split; [|repeat split; auto].
  - unfold ams_inv. cbn [ta_t ta_cells ta_amsgrad ta_beta1 ta_beta2]. rewrite app_length. cbn [length].
    split; [lia|]. split; [rewrite map_length; apply map3_len; rewrite ?map_length, ?repeat_length; auto|]. repeat split; try apply B1; try apply B2; auto.
    intros j J. rewrite nth_error_map, (N j J). reflexivity.
  - rewrite !map_length. apply map3_len; rewrite ?map_length, ?repeat_length; auto.
  - intros j J. rewrite !nth_error_map, (N j J). cbn [option_map snd]. f_equal. apply nmul_neg1_sub0.
Qed.
(* amsgrad never moves further than Adam *)
Lemma ams_smaller lr b1 b2 eps l x y : proper_beta b2 -> 0 <= eps -> l <> [] ->
  adam_move lr b1 b2 eps l = Some x -> amsgrad_move lr b1 b2 eps l = Some y -> Rabs y <= Rabs x.
Proof.
  intros B2 E N. unfold adam_move, amsgrad_move. cbv zeta. assert (P2 := pow_lt_1 _ (length l) B2). destruct l as [|g0 l']; [congruence|]. set (l := g0 :: l') in *.
  specialize (P2 ltac:(cbn; lia)). assert (I : 0 < / (1 - b2 ^ length l)) by (apply Rinv_0_lt_compat; lra).
  change (v_hat b2 l) with (v_bar b2 l / (1 - b2 ^ length l)).
  assert (S1 : 0 <= v_bar b2 l) by (rewrite v_bar_avg; apply avg_nonneg; auto). assert (S2 := v_largest_above b2 l B2 N).
  assert (Q : sqrt (v_bar b2 l / (1 - b2 ^ length l)) <= sqrt (v_largest b2 l / (1 - b2 ^ length l))).
  { apply sqrt_le_1_alt. unfold Rdiv. apply Rmult_le_compat_r; lra. }
  assert (Z1 := sqrt_pos (v_bar b2 l / (1 - b2 ^ length l))).
  set (p := sqrt (v_bar _ _ / _)) in *. set (q := sqrt (v_largest _ _ / _)) in *.
  destruct (Req_EM_T (p + eps) 0); [discriminate|]. destruct (Req_EM_T (q + eps) 0); [discriminate|]. intros X Y. injection X as <-. injection Y as <-.
  unfold Rdiv. rewrite !(Rabs_mult (lr * m_hat b1 l)). apply Rmult_le_compat_l; [apply Rabs_pos|].
  rewrite !Rabs_right by (left; apply Rinv_0_lt_compat; lra). apply Rinv_le_contravar; lra.
Qed.

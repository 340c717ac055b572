From Coq Require Import Reals String Lra.
From Verif Require Import Prelude RankModel CemModel DistModel DistSpec DistProofs.
Open Scope R_scope.

Lemma lim_ext f g x l : (forall z, f z = g z) -> derivable_pt_lim f x l -> derivable_pt_lim g x l.
Proof. intros E H eps He. destruct (H eps He) as [d Hd]. exists d. intros h H0 H1. rewrite <- !E. apply Hd; auto. Qed.
Lemma lim_val f x l l' : l = l' -> derivable_pt_lim f x l -> derivable_pt_lim f x l'.
Proof. intros ->; auto. Qed.

Lemma density_mu x m s : 0 < s -> derivable_pt_lim (fun m => log_density m s x) m ((x - m) / (s * s)).
Proof.
  intros Hs. apply (lim_ext (fun m => (- ln s - x * x / (2 * (s * s)) - ln (2 * PI) / 2) + ((x / (s * s)) * m - (/ (2 * (s * s))) * (m * m)))).
  { intros z. unfold log_density. field. lra. }
  apply (lim_val _ _ (0 + ((x / (s * s)) * 1 - (/ (2 * (s * s))) * (1 * m + m * 1)))); [field; lra|].
  apply (derivable_pt_lim_plus (fun _ => _)); [apply derivable_pt_lim_const|].
  apply (derivable_pt_lim_minus (fun m => _ * m) (fun m => _ * (m * m))).
  - apply (derivable_pt_lim_scal (fun m => m)). apply derivable_pt_lim_id.
  - apply (derivable_pt_lim_scal (fun m => m * m)). apply (derivable_pt_lim_mult (fun m => m) (fun m => m)); apply derivable_pt_lim_id.
Qed.
Lemma density_sigma x m s : 0 < s ->
  derivable_pt_lim (fun s => log_density m s x) s (((x - m) * (x - m) - s * s) / (s * s * s)).
Proof.
  intros Hs. set (k := (x - m) * (x - m)).
  apply (lim_val _ _ (- / s - (0 * (2 * (s * s)) - (2 * (1 * s + s * 1)) * k) / (Rsqr (2 * (s * s))) - 0)).
  { unfold Rsqr. field. lra. }
  unfold log_density. fold k.
  apply (derivable_pt_lim_minus (fun s => - ln s - k / (2 * (s * s))) (fun _ => ln (2 * PI) / 2)); [|apply derivable_pt_lim_const].
  apply (derivable_pt_lim_minus (fun s => - ln s) (fun s => k / (2 * (s * s)))).
  - apply (derivable_pt_lim_opp ln). apply derivable_pt_lim_ln. auto.
  - apply (derivable_pt_lim_div (fun _ => k) (fun s => 2 * (s * s))).
    + apply derivable_pt_lim_const.
    + apply (derivable_pt_lim_scal (fun s => s * s)). apply (derivable_pt_lim_mult (fun m => m) (fun m => m)); apply derivable_pt_lim_id.
    + assert (0 < s * s) by (apply Rmult_lt_0_compat; auto). lra.
Qed.
Lemma density_log_sigma x m s : 0 < s ->
  derivable_pt_lim (fun t => log_density m (exp t) x) (ln s) ((x - m) / s * ((x - m) / s) - 1).
Proof.
  intros Hs. apply (lim_val _ _ (((x - m) * (x - m) - exp (ln s) * exp (ln s)) / (exp (ln s) * exp (ln s) * exp (ln s)) * exp (ln s))).
  { rewrite exp_ln by auto. field. lra. }
  apply (derivable_pt_lim_comp exp (fun s => log_density m s x)).
  - apply derivable_pt_lim_exp.
  - rewrite exp_ln by auto. apply density_sigma. auto.
Qed.
Lemma weighted_lim (F : R -> R -> R) (D : R -> R) p : (forall x, derivable_pt_lim (fun t => F t x) p (D x)) -> forall w xs,
  derivable_pt_lim (fun t => fold_right Rplus 0 (map2 (fun a x => a * F t x) w xs)) p (wsum w (map D xs)).
Proof.
  intros H. induction w as [|a w IH]; intros xs; [cbn; apply derivable_pt_lim_const|].
  destruct xs as [|x xs]; [cbn; apply derivable_pt_lim_const|].
  unfold wsum, rsum in *. cbn [map map2 fold_right].
  apply (derivable_pt_lim_plus (fun t => a * F t x) (fun t => fold_right Rplus 0 (map2 (fun a x => a * F t x) w xs))); auto.
  apply (derivable_pt_lim_scal (fun t => F t x)). auto.
Qed.
Lemma wsum_map_ext w (f g : R -> R) xs : (forall x, f x = g x) -> wsum w (map f xs) = wsum w (map g xs).
Proof. intros H. rewrite (map_ext f g H). auto. Qed.
Lemma plain_mu_score w xs m s : 0 < s -> exists dm,
  derivable_pt_lim (fun t => weighted_log_density w xs t s) m dm /\ plain_mu w xs m = s * s * dm.
Proof.
  intros Hs. eexists. split; [apply (weighted_lim (fun t x => log_density t s x)); intros; apply density_mu; auto|].
  unfold plain_mu. rewrite <- wsum_scale, map_map. apply wsum_map_ext. intros. field. lra.
Qed.
Lemma plain_sigma_score w xs m s : 0 < s -> exists ds,
  derivable_pt_lim (fun t => weighted_log_density w xs m t) s ds /\ plain_sigma w xs m s = s * s * ds.
Proof.
  intros Hs. eexists. split; [apply (weighted_lim (fun t x => log_density m t x)); intros; apply density_sigma; auto|].
  unfold plain_sigma. rewrite <- wsum_scale, map_map. apply wsum_map_ext. intros. field. lra.
Qed.
Lemma exp_sigma_score w xs m s : 0 < s ->
  derivable_pt_lim (fun t => weighted_log_density w xs m (exp t)) (ln s) (exp_sigma w xs m s).
Proof. intros Hs. unfold exp_sigma. apply (weighted_lim (fun t x => log_density m (exp t) x)). intros. apply density_log_sigma; auto. Qed.

Lemma used_weights_eq r w : used_weights r w = centered_weights r w.
Proof.
  unfold used_weights, centered_weights, is_centering. destruct (in_dec string_dec r _) as [[H|[H|[]]]|H].
  - subst. reflexivity.
  - subst. reflexivity.
  - destruct (String.eqb_spec r "centered"); [subst; exfalso; apply H; cbn; auto|].
    destruct (String.eqb_spec r "normalized"); [subst; exfalso; apply H; cbn; auto|]. reflexivity.
Qed.
Lemma sequence_ok {A} (l : list A) : sequence (map Ok l) = Ok l.
Proof. induction l; cbn; auto. rewrite IHl. auto. Qed.
Lemma sequence_map_ok {A B} (f : A -> B) (l : list A) : sequence (map (fun x => Ok (f x)) l) = Ok (map f l).
Proof. rewrite <- (map_map f Ok). apply sequence_ok. Qed.
Lemma nth_error_map_seq {B} (f : nat -> B) n j : (j < n)%nat -> nth_error (map f (seq 0 n)) j = Some (f j).
Proof.
  intros H. assert (E : nth_error (seq 0 n) j = Some j).
  { rewrite (nth_error_nth' _ 0%nat) by (rewrite seq_length; auto). rewrite seq_nth; auto. }
  rewrite nth_error_map, E. auto.
Qed.
Lemma divisor_divides opt w k g : divisor opt w k -> k <> 0 -> divide_grad opt g w = Ok (Some (/ k * g)).
Proof.
  intros D Hk. destruct D; cbn.
  - f_equal. f_equal. field.
  - unfold rdivo. destruct (Req_EM_T _ 0); [contradiction|]. f_equal. f_equal. field; auto.
  - unfold rdivo. destruct (Req_EM_T _ 0); [contradiction|]. f_equal. f_equal. field; auto.
  - unfold rdivo, rsum. destruct (Req_EM_T _ 0); [contradiction|]. f_equal. f_equal. field; auto.
  - destruct w as [|a [|b w]]; cbn in H; try lia. cbn [cstd].
    change (rstd (a :: b :: w)) with (std_of (a :: b :: w)).
    unfold rdivo. destruct (Req_EM_T _ 0); [contradiction|]. f_equal. f_equal. field; auto.
Qed.
Lemma gradients_value F G o r mu sigma s w km ks :
  divisor (divide_mu o) (centered_weights r w) km -> divisor (divide_sigma o) (centered_weights r w) ks -> km <> 0 -> ks <> 0 ->
  gradients_of F G o r mu sigma s w =
  Ok (map (fun j => Some (/ km * F (centered_weights r w) (column s j) (nth j mu 0))) (seq 0 (length mu)),
      map (fun j => Some (/ ks * G (centered_weights r w) (column s j) (nth j mu 0) (nth j sigma 0))) (seq 0 (length mu))).
Proof.
  intros D1 D2 H1 H2. unfold gradients_of.
  rewrite (map_ext _ _ (fun j => divisor_divides _ _ _ (F (centered_weights r w) (column s j) (nth j mu 0)) D1 H1)).
  rewrite sequence_map_ok. cbn [bind].
  rewrite (map_ext _ _ (fun j => divisor_divides _ _ _ (G (centered_weights r w) (column s j) (nth j mu 0) (nth j sigma 0)) D2 H2)).
  rewrite sequence_map_ok. cbn [bind]. auto.
Qed.

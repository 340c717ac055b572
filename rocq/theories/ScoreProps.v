(* C86: the gradients of the separable distributions are score gradients. *)
From Coq Require Import Reals String Lra.
From Verif Require Import Prelude RankModel CemModel DistModel DistSpec DistProofs ScoreProofs.
Open Scope R_scope.

(* each coordinate of the gradients is the derivative of the weighted log density of the samples, by the mean and by
   the standard deviation, times the variance, divided by what the options say *)
Theorem C86_plain : forall o ranking mu sigma samples weights km ks,
  divisor (divide_mu o) (used_weights ranking weights) km -> divisor (divide_sigma o) (used_weights ranking weights) ks ->
  km <> 0 -> ks <> 0 ->
  exists gm gs, plain_gradients o ranking mu sigma samples weights = Ok (gm, gs) /\
    length gm = length mu /\ length gs = length mu /\
    forall j m s, nth_error mu j = Some m -> nth_error sigma j = Some s -> 0 < s ->
      exists dm ds,
        derivable_pt_lim (fun t => weighted_log_density (used_weights ranking weights) (coordinate samples j) t s) m dm /\
        derivable_pt_lim (fun t => weighted_log_density (used_weights ranking weights) (coordinate samples j) m t) s ds /\
        nth_error gm j = Some (Some (s * s * dm / km)) /\ nth_error gs j = Some (Some (s * s * ds / ks)).
Proof.
  intros o r mu sigma xs w km ks D1 D2 H1 H2. rewrite used_weights_eq in *.
  eexists _, _. split; [apply gradients_value; eauto|]. rewrite !map_length, !seq_length. split; auto. split; auto.
  intros j m s Hm Hs P. assert (Hj : (j < length mu)%nat) by (apply nth_error_Some; congruence).
  destruct (plain_mu_score (centered_weights r w) (coordinate xs j) m s P) as (dm & Lm & Em).
  destruct (plain_sigma_score (centered_weights r w) (coordinate xs j) m s P) as (ds & Ls & Es).
  exists dm, ds. split; auto. split; auto.
  rewrite !nth_error_map_seq by auto. rewrite (nth_error_nth _ _ _ Hm), (nth_error_nth _ _ _ Hs).
  change (column xs j) with (coordinate xs j). rewrite Em, Es. split; f_equal; f_equal; field; auto.
Qed.
Print Assumptions C86_plain.
Example C86_example : divisor (Some "num_directions"%string) (used_weights "raw"%string [1; 2; 3; 6]) 2 /\
  used_weights "raw"%string [1; 2; 3; 6] = [-2; -1; 0; 3].
Proof.
  assert (E : used_weights "raw"%string [1; 2; 3; 6] = [-2; -1; 0; 3]).
  { unfold used_weights. destruct (in_dec string_dec "raw"%string _) as [[H|[H|[]]]|_]; try discriminate.
    unfold mean_of. cbn [map fold_right length INR]. repeat (apply f_equal2; [lra|]). reflexivity. }
  split; auto. rewrite E. replace 2 with (INR (length [-2; -1; 0; 3] / 2)); [apply by_directions|]. cbn. lra.
Qed.

(* the exponential distribution follows the derivative by the logarithm of the standard deviation *)
Theorem C86_exponential : forall ranking mu sigma samples weights w,
  (ranking = "nes"%string /\ w = weights \/
   ranking <> "nes"%string /\ fold_right Rplus 0 (map Rabs weights) <> 0 /\
     w = map (fun x => x / fold_right Rplus 0 (map Rabs weights)) weights) ->
  forall j m s, nth_error mu j = Some m -> nth_error sigma j = Some s -> 0 < s ->
    exists dm dt,
      derivable_pt_lim (fun t => weighted_log_density w (coordinate samples j) t s) m dm /\
      derivable_pt_lim (fun t => weighted_log_density w (coordinate samples j) m (exp t)) (ln s) dt /\
      nth_error (fst (exp_gradients ranking mu sigma samples weights)) j = Some (Some (s * s * dm)) /\
      nth_error (snd (exp_gradients ranking mu sigma samples weights)) j = Some (Some dt).
Proof.
  intros r mu sigma xs ws w W j m s Hm Hs P. assert (Hj : (j < length mu)%nat) by (apply nth_error_Some; congruence).
  assert (E : exp_weights r ws = Some w).
  { unfold exp_weights. destruct W as [[-> ->]|(N & T & ->)]; [reflexivity|].
    destruct (String.eqb_spec r "nes"); [contradiction|]. unfold rsum. destruct (Req_EM_T _ 0); [contradiction|auto]. }
  destruct (plain_mu_score w (coordinate xs j) m s P) as (dm & Lm & Em).
  exists dm, (exp_sigma w (coordinate xs j) m s). split; auto. split; [apply exp_sigma_score; auto|].
  unfold exp_gradients. cbn [fst snd]. rewrite E. cbn [option_map]. rewrite !nth_error_map_seq by auto.
  rewrite (nth_error_nth _ _ _ Hm), (nth_error_nth _ _ _ Hs). change (column xs j) with (coordinate xs j).
  change (exp_mu w (coordinate xs j) m) with (plain_mu w (coordinate xs j) m). rewrite Em. auto.
Qed.
Print Assumptions C86_exponential.

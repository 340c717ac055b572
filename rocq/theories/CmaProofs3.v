(* Histories of CMAES: symmetry, positive definiteness, the center. *)
From Coq Require Import Reals Lra Permutation.
From Verif Require Import Prelude MatLib RankModel RankProofs CmaModel CmaSpec CmaProofs CmaProofs2.
Open Scope R_scope.

(* ---- symmetry ---- *)
Lemma msum_symmetric n ms : Forall (symmetric n) ms -> symmetric n (msum ms).
Proof.
  intros H i j Hi Hj. unfold mtr, msum. induction H as [|M ms HM H IH]; auto. cbn [map]. rewrite !rsum_cons, IH. f_equal. apply HM; auto.
Qed.
Lemma outer_symmetric n y : symmetric n (outer y y).
Proof. intros i j _ _. unfold mtr, outer. ring. Qed.
Lemma scale_symmetric n k A : symmetric n A -> symmetric n (mscale k A).
Proof. intros H i j Hi Hj. unfold mtr, mscale. rewrite (H i j) by auto. auto. Qed.
Lemma add_symmetric n A B : symmetric n A -> symmetric n B -> symmetric n (madd A B).
Proof. intros H K i j Hi Hj. unfold mtr, madd. rewrite (H i j), (K i j) by auto. auto. Qed.
Lemma update_symmetric P C p zs ys ws h : symmetric (p_d P) C -> symmetric (p_d P) (update_C P C p zs ys ws h).
Proof.
  intros H. unfold update_C. destruct (p_separable P); [apply diagonal_symmetric|].
  repeat first [apply add_symmetric | apply scale_symmetric | apply outer_symmetric | assumption].
  apply msum_symmetric. generalize (reweighted P ws zs). intros aw. revert ys. induction aw; intros [|y ys]; cbn [map2]; constructor; auto.
  apply scale_symmetric, outer_symmetric.
Qed.
Lemma limit_symmetric P sigma C : symmetric (p_d P) C -> symmetric (p_d P) (limit_C P sigma C).
Proof.
  intros H. assert (K : symmetric (p_d P) (limit_stdev P sigma C)).
  { unfold limit_stdev. destruct (p_separable P); [apply diagonal_symmetric|]. intros i j Hi Hj. unfold mtr.
    rewrite (Nat.eqb_sym j i). destruct (Nat.eqb_spec i j) as [->|]; auto. apply H; auto. }
  unfold limit_C. destruct (p_min P); auto. destruct (p_max P); auto.
Qed.
Lemma step_symmetric P ch tk s zs idx : symmetric (p_d P) (s_C s) -> symmetric (p_d P) (s_C (cma_step P ch tk s zs idx)).
Proof. intros H. unfold cma_step. cbn [s_C]. apply limit_symmetric, update_symmetric. auto. Qed.
Lemma mid_symmetric n : symmetric n mid.
Proof. intros i j _ _. unfold mtr, mid. rewrite Nat.eqb_sym. auto. Qed.

(* ---- step size ---- *)
Lemma new_sigma_pos P s p : 0 < s -> 0 < new_sigma P s p.
Proof. intros H. unfold new_sigma. apply Rmult_lt_0_compat; [auto|apply exp_pos]. Qed.

(* ---- limits ---- *)
Lemma limited_diag_ge sigma lo c : 0 < sigma -> c <= (clamp lo None (sigma * sqrt c) / sigma) ^ 2.
Proof.
  intros HS. set (v := clamp _ _ _). assert (V : sigma * sqrt c <= v). { unfold v, clamp. destruct lo; [apply Rmax_l|lra]. }
  assert (W : sqrt c <= v / sigma). { apply Rmult_le_reg_l with sigma; auto. replace (sigma * (v / sigma)) with v by (field; lra). auto. }
  destruct (Rle_lt_dec 0 c) as [C|C].
  - pose proof (sqrt_pos c). pose proof (pow_incr (sqrt c) (v / sigma) 2 (conj H W)). rewrite pow2_sqrt in H0; auto.
  - pose proof (pow2_ge_0 (v / sigma)). lra.
Qed.
Lemma quad_limit_ge P sigma C x : 0 < sigma -> p_max P = None -> (p_separable P = true -> diagonal_matrix (p_d P) C) -> quad (p_d P) C x <= quad (p_d P) (limit_C P sigma C) x.
Proof.
  intros HS HM HD. unfold limit_C. rewrite HM. destruct (p_min P) as [lo|] eqn:EL; [|lra]. rewrite <- (Rplus_0_r (quad (p_d P) C x)).
  set (delta := diagonal (fun i => (clamp (Some lo) None (sigma * sqrt (C i i)) / sigma) ^ 2 - C i i)).
  assert (E : meq (p_d P) (limit_stdev P sigma C) (madd C delta)).
  { intros i j Hi Hj. unfold limit_stdev, madd, delta, diagonal. rewrite EL, HM. destruct (p_separable P) eqn:Sp.
    - destruct (Nat.eqb_spec i j) as [<-|N]; [ring|]. rewrite (HD eq_refl i j Hi Hj N). ring.
    - destruct (Nat.eqb_spec i j) as [<-|N]; ring. }
  rewrite (quad_ext _ _ _ x E), quad_add. apply Rplus_le_compat_l. unfold delta. rewrite (quad_diagonal _ (diagonal _)) by apply diagonal_diag.
  apply sumn_nonneg. intros i Hi. rewrite diagonal_at. apply Rmult_le_pos; [apply Rle_0_sqr|]. pose proof (limited_diag_ge sigma (Some lo) (C i i) HS). lra.
Qed.
Lemma limit_diagonal P sigma C : p_separable P = true -> diagonal_matrix (p_d P) C -> diagonal_matrix (p_d P) (limit_C P sigma C).
Proof.
  intros Sp D. unfold limit_C, limit_stdev. rewrite Sp. destruct (p_min P), (p_max P); auto; apply diagonal_diag.
Qed.
Lemma clamp_pos lo hi x : 0 < x -> (forall h, hi = Some h -> 0 < h) -> 0 < clamp lo hi x.
Proof.
  intros H K. assert (0 < match lo with Some l => Rmax x l | None => x end). { destruct lo; auto. pose proof (Rmax_l x r). lra. }
  unfold clamp. destruct hi as [h|]; auto. apply Rmin_glb_lt; auto.
Qed.
Lemma limit_separable_pd P sigma C : 0 < sigma -> p_separable P = true -> (forall h, p_max P = Some h -> 0 < h) -> diagonal_matrix (p_d P) C ->
  positive_definite (p_d P) C -> positive_definite (p_d P) (limit_C P sigma C).
Proof.
  intros HS Sp HM D PD. assert (K : positive_definite (p_d P) (limit_stdev P sigma C)).
  { apply pd_of_diagonal; unfold limit_stdev; rewrite Sp; [apply diagonal_diag|]. intros i Hi. rewrite diagonal_at. apply pow_lt, Rdiv_lt_0_compat; auto.
    apply clamp_pos; auto. apply Rmult_lt_0_compat; auto. apply sqrt_lt_R0. apply (pd_diag_pos (p_d P)); auto. }
  unfold limit_C. destruct (p_min P); auto. destruct (p_max P); auto.
Qed.

(* ---- frequency of the decompositions ---- *)
Lemma freq_ok limit d c1 cmu : let K := decompose_freq limit d c1 cmu in 0 < c1 + cmu ->
  (1 <= K)%nat /\ ((2 <= K)%nat -> 10 * INR d * (c1 + cmu) * INR K <= 1).
Proof.
  intros K H. unfold K, decompose_freq. destruct limit; [|lia]. split; [lia|]. intros G.
  set (b := 10 * INR d * (c1 + cmu)) in *. set (q := safe_divide_1 b) in *.
  assert (B : 0 <= b) by (unfold b; pose proof (pos_INR d); repeat apply Rmult_le_pos; lra).
  assert (EK : Nat.max 1 (Z.to_nat (Int_part q)) = Z.to_nat (Int_part q)) by lia. rewrite EK.
  assert (IK : INR (Z.to_nat (Int_part q)) <= q).
  { rewrite INR_IZR_INZ, Z2Nat.id by lia. destruct (base_Int_part q); auto. }
  assert (T : 0 < tolerance) by (unfold tolerance; apply Rinv_0_lt_compat; apply pow_lt; lra).
  assert (Q : b * q <= 1).
  { unfold q, safe_divide_1. destruct (Rlt_dec (Rabs b) tolerance) as [L|L].
    - rewrite Rabs_pos_eq in L by auto. destruct (Rlt_dec b 0); [lra|]. unfold Rdiv. rewrite Rmult_1_l.
      apply Rmult_le_reg_r with tolerance; auto. rewrite Rmult_assoc, Rinv_l by lra. lra.
    - rewrite Rabs_pos_eq in L by auto. assert (0 < b) by lra. right. field. lra. }
  eapply Rle_trans; [|exact Q]. apply Rmult_le_compat_l; auto.
Qed.

Section Hist.
Variable P : params.
Notation d := (p_d P).
Variable cholesky : mat -> mat.
Variable topk : nat -> list R -> list nat.
Hypothesis RO : rates_ok P.
Hypothesis CH : cholesky_ok d cholesky.
Hypothesis FK : (1 <= p_freq P)%nat /\ ((2 <= p_freq P)%nat -> 10 * INR d * (p_c_1 P + p_c_mu P) * INR (p_freq P) <= 1).
Hypothesis LIM : p_max P = None \/ (p_separable P = true /\ p_freq P = 1%nat /\ forall h, p_max P = Some h -> 0 < h).
Definition rho : R := 2 * INR d * (p_c_1 P + p_c_mu P).
Definition QA (s : state) (x : vect) : R := quad d (mmul d (s_A s) (mtr (s_A s))) x.
Record inv (s : state) : Prop := mkInv {
  i_sigma : 0 < s_sigma s;
  i_sym : symmetric d (s_C s);
  i_diag : p_separable P = true -> diagonal_matrix d (s_C s) /\ diagonal_matrix d (s_A s);
  i_pd : positive_definite d (mmul d (s_A s) (mtr (s_A s)));
  i_low : forall x, (1 - INR (s_steps s mod p_freq P) * rho) * QA s x <= quad d (s_C s) x;
  i_fresh : (s_steps s mod p_freq P = 0)%nat -> meq d (mmul d (s_A s) (mtr (s_A s))) (s_C s) }.

Lemma rho_small j : (j <= p_freq P)%nat -> (2 <= p_freq P)%nat -> 0 <= INR j * rho <= / 5.
Proof.
  intros L G. destruct FK as [_ F]. specialize (F G). destruct RO as (HD & _ & H1 & HM & _). apply le_INR in L. pose proof (pos_INR j).
  assert (0 < rho) by (unfold rho; apply Rmult_lt_0_compat; [|lra]; apply Rmult_lt_0_compat; [lra|apply lt_0_INR; lia]).
  split; [apply Rmult_le_pos; lra|]. assert (INR (p_freq P) * rho <= / 5) by (unfold rho; lra).
  eapply Rle_trans; [apply Rmult_le_compat_r; [lra|exact L]|auto].
Qed.
Lemma inv_quad s x : inv s -> 4 / 5 * QA s x <= quad d (s_C s) x.
Proof.
  intros I. pose proof (i_low s I x). pose proof (quad_nonneg_of_gram d (s_A s) x). fold (QA s x) in H0.
  destruct (le_lt_dec 2 (p_freq P)) as [G|G].
  - pose proof (rho_small (s_steps s mod p_freq P) ltac:(apply Nat.lt_le_incl, Nat.mod_upper_bound; lia) G). nra.
  - destruct FK as [F _]. assert (E : p_freq P = 1%nat) by lia. rewrite E, Nat.mod_1_r in H. cbn [INR] in H. lra.
Qed.
Lemma inv_pd s : inv s -> positive_definite d (s_C s).
Proof. intros I x N. pose proof (inv_quad s x I). pose proof (i_pd s I x N). fold (QA s x) in H0. lra. Qed.

Lemma decompose_ok C : symmetric d C -> positive_definite d C -> (p_separable P = true -> diagonal_matrix d C) ->
  meq d (mmul d (decompose P cholesky C) (mtr (decompose P cholesky C))) C /\ (p_separable P = true -> diagonal_matrix d (decompose P cholesky C)).
Proof.
  intros Sy PD D. unfold decompose. destruct (p_separable P) eqn:Sp.
  - split; [|intros; apply diagonal_diag]. intros i j Hi Hj. destruct (Nat.eq_dec i j) as [<-|N].
    + rewrite gram_diagonal by (auto; apply diagonal_diag). rewrite diagonal_at. apply sqrt_sqrt. left. apply (pd_diag_pos d); auto.
    + rewrite (gram_is_diagonal d) by (auto; apply diagonal_diag). symmetry. apply D; auto.
  - split; [apply CH; auto|discriminate].
Qed.
Lemma pd_meq A B : meq d A B -> positive_definite d A -> positive_definite d B.
Proof. intros H K x N. rewrite <- (quad_ext d A B x H). auto. Qed.

Lemma step_inv s zs idx : inv s -> generation_ok P (zs, idx) -> inv (cma_step P cholesky topk s zs idx).
Proof.
  intros I (LZ & HP & NZ). cbn [fst snd] in *. pose proof RO as (HD & H2 & H1 & HM & HR & HC).
  destruct (neg_mass_bounds P RO) as (N0 & NB & NC & NA).
  set (s' := cma_step P cholesky topk s zs idx). unfold cma_step in s'.
  set (ys := ys_of P s zs) in s'. set (ws := assigned P idx) in s'. set (ps := new_p_sigma P (s_p_sigma s) (displacement P topk zs ws)) in s'.
  set (sg := new_sigma P (s_sigma s) ps) in s'. set (h := h_sig P ps (s_steps s)) in s'. set (pc := new_p_c P _ _ h) in s'.
  set (U := update_C P (s_C s) pc zs ys ws h) in s'. set (C' := limit_C P sg U) in s'.
  assert (SG : 0 < sg) by (apply new_sigma_pos, (i_sigma s I)).
  assert (CN : forall x, 0 <= quad d (s_C s) x).
  { intros x. pose proof (inv_quad s x I). pose proof (quad_nonneg_of_gram d (s_A s) x). fold (QA s x) in H0. lra. }
  destruct (update_bound P RO (s_C s) (s_A s) pc zs idx h LZ HP NZ (h_sig_01 P ps (s_steps s)) CN (i_diag s I)) as (e & E0 & EA & EB).
  change (map (mv d (s_A s)) zs) with ys in EB. fold ws in EB. fold U in EB.
  assert (Usym : symmetric d U) by (apply update_symmetric, (i_sym s I)).
  assert (Udiag : p_separable P = true -> diagonal_matrix d U). { intros Sp. unfold U, update_C. rewrite Sp. apply diagonal_diag. }
  assert (Csym : symmetric d C') by (apply limit_symmetric; auto).
  assert (Cdiag : p_separable P = true -> diagonal_matrix d C') by (intros; apply limit_diagonal; auto).
  set (q := 1 - INR (S (s_steps s mod p_freq P)) * rho).
  assert (B : ((2 <= p_freq P)%nat -> forall x, q * QA s x <= quad d U x) /\ (p_freq P = 1%nat -> positive_definite d U)).
  { split.
    - intros G x. pose proof (EB x) as X. fold (QA s x) in X. pose proof (i_low s I x) as L. pose proof (quad_nonneg_of_gram d (s_A s) x) as A0. fold (QA s x) in A0.
      pose proof (rho_small (s_steps s mod p_freq P) ltac:(apply Nat.lt_le_incl, Nat.mod_upper_bound; lia) G) as RS.
      unfold q. rewrite S_INR. set (j := INR (s_steps s mod p_freq P)) in *. set (r := p_c_1 P + p_c_mu P) in *.
      assert (1 <= INR d) by (apply (le_INR 1); lia).
      assert (Q1 : (1 - r) * ((1 - j * rho) * QA s x) <= (1 - r) * quad d (s_C s) x) by (apply Rmult_le_compat_l; lra).
      assert (Q2 : INR d * (p_c_mu P * neg_mass P) * QA s x <= INR d * r * QA s x) by (apply Rmult_le_compat_r; auto; apply Rmult_le_compat_l; lra).
      assert (Q3 : 0 <= e * quad d (s_C s) x) by (apply Rmult_le_pos; auto).
      assert (Q4 : (1 - (j + 1) * rho) * QA s x <= ((1 - r) * (1 - j * rho) - INR d * r) * QA s x).
      { apply Rmult_le_compat_r; auto. unfold rho at 1. fold r. replace (2 * INR d * r) with rho by reflexivity.
        assert (R0 : 0 < r) by (unfold r; lra). assert (rho = INR d * r + INR d * r) by (unfold rho; fold r; ring).
        assert (r <= INR d * r) by (pose proof (Rmult_le_compat_r r 1 (INR d) ltac:(lra) H); lra).
        assert (0 <= r * (j * rho)) by (apply Rmult_le_pos; lra). lra. }
      unfold r in *. lra.
    - intros K1 x Nx. pose proof (EB x) as X. fold (QA s x) in X. pose proof (i_pd s I x Nx) as A0. fold (QA s x) in A0.
      assert (F : quad d (s_C s) x = QA s x).
      { unfold QA. symmetry. apply quad_ext. apply (i_fresh s I). rewrite K1. apply Nat.mod_1_r. }
      rewrite F in X. eapply Rlt_le_trans; [|exact X].
      assert (0 < 1 - p_c_1 P - p_c_mu P + e - INR d * p_c_mu P * neg_mass P).
      { destruct (p_active P) eqn:Act; [specialize (EA eq_refl); lra|]. assert (neg_mass P = 0) by (unfold neg_mass; rewrite Act; auto). rewrite H. lra. }
      replace ((1 - p_c_1 P - p_c_mu P + e) * QA s x - INR d * p_c_mu P * neg_mass P * QA s x)
        with ((1 - p_c_1 P - p_c_mu P + e - INR d * p_c_mu P * neg_mass P) * QA s x) by ring.
      apply Rmult_lt_0_compat; auto. }
  assert (BC : ((2 <= p_freq P)%nat -> forall x, q * QA s x <= quad d C' x) /\ positive_definite d C').
  { destruct B as [B2 B1]. destruct LIM as [NM|(Sp & K1 & MP)].
    - assert (GE : forall x, quad d U x <= quad d C' x) by (intros; apply quad_limit_ge; auto). split.
      + intros G x. eapply Rle_trans; [apply B2; auto|auto].
      + destruct (le_lt_dec 2 (p_freq P)) as [G|G].
        * intros x Nx. eapply Rlt_le_trans; [|apply GE]. eapply Rlt_le_trans; [|apply B2; auto]. apply Rmult_lt_0_compat; [|apply (i_pd s I); auto].
          pose proof (rho_small (S (s_steps s mod p_freq P)) ltac:(apply Nat.mod_upper_bound; lia) G). unfold q. lra.
        * intros x Nx. eapply Rlt_le_trans; [|apply GE]. apply B1; auto. destruct FK. lia.
    - split; [lia|]. apply limit_separable_pd; auto. }
  destruct BC as [BG BP]. destruct (decompose_ok C' Csym BP Cdiag) as [DM DD].
  assert (KP : (0 < p_freq P)%nat) by (destruct FK; lia).
  assert (MOD : (S (s_steps s) mod p_freq P = if Nat.eqb (S (s_steps s) mod p_freq P) 0 then 0 else S (s_steps s mod p_freq P))%nat).
  { destruct (Nat.eqb_spec (S (s_steps s) mod p_freq P) 0) as [E|E]; auto.
    rewrite (Nat.div_mod_eq (s_steps s) (p_freq P)) in E |- *. pose proof (Nat.mod_upper_bound (s_steps s) (p_freq P) ltac:(lia)) as UB.
    set (m := (s_steps s mod p_freq P)%nat) in *. replace (S (p_freq P * (s_steps s / p_freq P) + m))%nat with (S m + (s_steps s / p_freq P) * p_freq P)%nat in * by lia.
    rewrite Nat.mod_add in E |- * by lia. replace ((p_freq P * (s_steps s / p_freq P) + m) mod p_freq P)%nat with m.
    - apply Nat.mod_small. destruct (Nat.eq_dec (S m) (p_freq P)) as [Q|]; [|lia]. rewrite Q, Nat.mod_same in E by lia. lia.
    - replace (p_freq P * (s_steps s / p_freq P) + m)%nat with (m + (s_steps s / p_freq P) * p_freq P)%nat by lia. rewrite Nat.mod_add, Nat.mod_small by lia. auto. }
  assert (ST : s' = mkCma (s_m s') sg C' (if Nat.eqb (S (s_steps s) mod p_freq P) 0 then decompose P cholesky C' else s_A s) (s_p_sigma s') (s_p_c s') (S (s_steps s))).
  { unfold s'. cbn [s_m s_p_sigma s_p_c]. rewrite Nat.add_1_r. auto. }
  rewrite ST. clear ST. destruct (Nat.eqb_spec (S (s_steps s) mod p_freq P) 0) as [EZ|EZ].
  - constructor; cbn [s_sigma s_C s_A s_steps]; auto.
    + apply (pd_meq C'); [apply meq_sym; auto|auto].
    + intros x. rewrite EZ. cbn [INR]. rewrite Rmult_0_l, Rminus_0_r, Rmult_1_l. unfold QA. cbn [s_A]. right. apply quad_ext. auto.
  - assert (G : (2 <= p_freq P)%nat). { destruct (Nat.eq_dec (p_freq P) 1) as [K1|]; [|lia]. rewrite K1, Nat.mod_1_r in EZ. lia. }
    constructor; cbn [s_sigma s_C s_A s_steps]; auto.
    + intros Sp. split; auto. apply (i_diag s I Sp).
    + apply (i_pd s I).
    + intros x. rewrite MOD. apply BG. auto.
    + intros; contradiction.
Qed.
Lemma run_inv hist : forall s, inv s -> Forall (generation_ok P) hist -> inv (cma_run P cholesky topk s hist).
Proof.
  induction hist as [|(zs, idx) hist IH]; intros s I H; cbn [cma_run]; auto. inversion H as [|? ? H1 H2]; subst. apply IH; auto. apply step_inv; auto.
Qed.
Lemma init_inv center sigma : 0 < sigma -> inv (init_state center sigma).
Proof.
  intros HS. assert (D : diagonal_matrix d mid). { intros i j _ _ N. unfold mid. destruct (Nat.eqb_spec i j); [contradiction|auto]. }
  assert (E : meq d (mmul d mid (mtr mid)) mid). { eapply meq_trans; [apply mmul_id_l|]. apply meq_sym, mid_symmetric. }
  constructor; cbn [init_state s_sigma s_C s_A s_steps]; auto.
  - apply mid_symmetric.
  - apply (pd_meq mid); [apply meq_sym; auto|]. apply pd_of_diagonal; auto. intros i Hi. unfold mid. rewrite Nat.eqb_refl. lra.
  - intros x. rewrite Nat.mod_0_l by (destruct FK; lia). cbn [INR]. rewrite Rmult_0_l, Rminus_0_r, Rmult_1_l. right. apply quad_ext. auto.
Qed.
End Hist.

(* C216: what the gradients of PGPE are on average. *)
From Coq Require Import Reals String Lra.
From Verif Require Import Prelude MatLib RankModel CemModel DistModel ClipUpModel FuncModel SafModel.
Open Scope R_scope.

(* ---- spec: finite probability distributions of draws, independent draws, averages ---- *)
Definition dist := list (R * vect).
Definition total (D : dist) : R := rsum (map fst D).
Definition avg (D : dist) (g : vect -> R) : R := rsum (map (fun pz => fst pz * g (snd pz)) D).
(* n independent draws *)
Fixpoint avg_n (D : dist) (n : nat) (g : list vect -> R) : R := match n with O => g [] | S k => avg D (fun z => avg_n D k (fun zs => g (z :: zs))) end.
Definition cov (D : dist) (F G : vect -> R) : R := avg D (fun z => F z * G z) - avg D F * avg D G.
(* the solution made of a draw, and its reflection at the center *)
Definition plus_ (mu sigma z : vect) : vect := fun j => mu j + sigma j * z j.
Definition minus_ (mu sigma z : vect) : vect := fun j => mu j - sigma j * z j.
(* the average fitness of solutions *)
Definition expected (D : dist) (f : vect -> R) (mu sigma : vect) : R := avg D (fun z => f (plus_ mu sigma z)).
Definition with_ (v : vect) (j : nat) (x : R) : vect := fun k => if Nat.eqb j k then x else v k.
Definition delta (i j : nat) : R := if Nat.eqb i j then 1 else 0.
(* draws with the moments, up to the fourth, of independent standard normal numbers *)
Definition normal_moments (d : nat) (D : dist) : Prop :=
  total D = 1 /\ (forall i, (i < d)%nat -> avg D (fun z => z i) = 0) /\
  (forall i j, (i < d)%nat -> (j < d)%nat -> avg D (fun z => z i * z j) = delta i j) /\
  (forall i j k, (i < d)%nat -> (j < d)%nat -> (k < d)%nat -> avg D (fun z => z i * z j * z k) = 0) /\
  (forall i j k, (i < d)%nat -> (j < d)%nat -> (k < d)%nat -> avg D (fun z => z i * z j * (z k * z k)) = delta i j * (1 + 2 * delta i k)).
(* any quadratic function of d variables *)
Definition quadratic (d : nat) (c : R) (a : vect) (B : mat) (x : vect) : R := c + sumn d (fun i => a i * x i) + sumn d (fun i => sumn d (fun j => B i j * (x i * x j))).

(* ---- averages ---- *)
Lemma rsum_cons x l : rsum (x :: l) = x + rsum l. Proof. reflexivity. Qed.
Lemma avg_ext D g h : (forall z, g z = h z) -> avg D g = avg D h.
Proof. intros H. unfold avg. f_equal. apply map_ext. intros. rewrite H. reflexivity. Qed.
Lemma avg_plus D g h : avg D (fun z => g z + h z) = avg D g + avg D h.
Proof. unfold avg. induction D as [|p D IH]; cbn [map]; rewrite ?rsum_cons; [unfold rsum; cbn; ring|]. rewrite IH. ring. Qed.
Lemma avg_scale D c g : avg D (fun z => c * g z) = c * avg D g.
Proof. unfold avg. induction D as [|p D IH]; cbn [map]; rewrite ?rsum_cons; [unfold rsum; cbn; ring|]. rewrite IH. ring. Qed.
Lemma avg_const D c : avg D (fun _ => c) = c * total D.
Proof. unfold avg, total. induction D as [|p D IH]; cbn [map]; rewrite ?rsum_cons; [unfold rsum; cbn; ring|]. rewrite IH. ring. Qed.
Lemma avg_minus D g h : avg D (fun z => g z - h z) = avg D g - avg D h.
Proof. rewrite (avg_ext D _ (fun z => g z + (-1) * h z)) by (intros; ring). rewrite avg_plus, avg_scale. ring. Qed.
Lemma avg_sumn D n (g : nat -> vect -> R) : avg D (fun z => sumn n (fun i => g i z)) = sumn n (fun i => avg D (g i)).
Proof. induction n as [|n IH]; cbn [sumn]; [rewrite avg_const; ring|]. rewrite avg_plus, IH. reflexivity. Qed.
Lemma avg_n_ext D n : forall g h, (forall zs, length zs = n -> g zs = h zs) -> avg_n D n g = avg_n D n h.
Proof. induction n as [|n IH]; intros g h H; cbn; [apply H; auto|]. apply avg_ext. intros z. apply IH. intros zs L. apply H. cbn. lia. Qed.
Lemma avg_n_plus D n : forall g h, avg_n D n (fun zs => g zs + h zs) = avg_n D n g + avg_n D n h.
Proof. induction n as [|n IH]; intros g h; cbn; [auto|]. rewrite <- avg_plus. apply avg_ext. intros z. apply IH. Qed.
Lemma avg_n_scale D n c : forall g, avg_n D n (fun zs => c * g zs) = c * avg_n D n g.
Proof. induction n as [|n IH]; intros g; cbn; [auto|]. rewrite <- avg_scale. apply avg_ext. intros z. apply IH. Qed.
Lemma avg_n_const D n c : total D = 1 -> avg_n D n (fun _ => c) = c.
Proof. intros T. induction n as [|n IH]; cbn; [auto|]. rewrite (avg_ext D _ (fun _ => c)) by auto. rewrite avg_const, T. ring. Qed.
Definition sum_of (G : vect -> R) (zs : list vect) : R := rsum (map G zs).
Lemma avg_n_sum D n G : total D = 1 -> avg_n D n (sum_of G) = INR n * avg D G.
Proof.
  intros T. induction n as [|n IH]; [cbn [avg_n]; change (INR 0) with 0; unfold sum_of; cbn [map]; change (rsum []) with 0; ring|]. cbn [avg_n]. rewrite (avg_ext D _ (fun z => G z + INR n * avg D G)).
  - rewrite avg_plus, avg_const, T, S_INR. ring.
  - intros z. rewrite (avg_n_ext D n _ (fun zs => G z + sum_of G zs)) by reflexivity. rewrite avg_n_plus, avg_n_const, IH by auto. reflexivity.
Qed.
Lemma avg_n_prod D n F G : total D = 1 -> avg_n D n (fun zs => sum_of F zs * sum_of G zs) = INR n * avg D (fun z => F z * G z) + INR n * (INR n - 1) * (avg D F * avg D G).
Proof.
  intros T. induction n as [|n IH]; [cbn [avg_n]; change (INR 0) with 0; unfold sum_of; cbn [map]; change (rsum []) with 0; ring|]. cbn [avg_n].
  rewrite (avg_ext D _ (fun z => F z * G z + (INR n * avg D G * F z + INR n * avg D F * G z) + (INR n * avg D (fun z => F z * G z) + INR n * (INR n - 1) * (avg D F * avg D G)))).
  - transitivity (avg D (fun z => F z * G z) + (INR n * avg D G * avg D F + INR n * avg D F * avg D G) + (INR n * avg D (fun z => F z * G z) + INR n * (INR n - 1) * (avg D F * avg D G))); [|rewrite S_INR; ring].
    generalize (INR n * avg D (fun z => F z * G z) + INR n * (INR n - 1) * (avg D F * avg D G)). generalize (INR n * avg D G) (INR n * avg D F). intros u v w. rewrite !avg_plus, !avg_scale, avg_const, T. ring.
  - intros z. rewrite (avg_n_ext D n _ (fun zs => F z * G z + (F z * sum_of G zs + G z * sum_of F zs) + sum_of F zs * sum_of G zs)).
    2:{ intros zs _. unfold sum_of. cbn [map]. rewrite !rsum_cons. ring. }
    rewrite !avg_n_plus, !avg_n_scale, !avg_n_sum, avg_n_const, IH by auto. ring.
Qed.
(* centered weights against any function of the draws *)
Definition centered_sum (F G : vect -> R) (zs : list vect) : R := wsum (map (fun x => x - rmean (map F zs)) (map F zs)) (map G zs).
Lemma wsum_minus c F G zs : wsum (map (fun x => x - c) (map F zs)) (map G zs) = sum_of (fun z => F z * G z) zs - c * sum_of G zs.
Proof. unfold wsum, sum_of. induction zs as [|z zs IH]; cbn [map map2]; rewrite ?rsum_cons; [unfold rsum; cbn; ring|]. rewrite IH. ring. Qed.
Lemma avg_n_centered D n F G : total D = 1 -> (0 < n)%nat -> avg_n D n (centered_sum F G) = (INR n - 1) * cov D F G.
Proof.
  intros T N. assert (NZ : INR n <> 0) by (apply not_0_INR; lia).
  rewrite (avg_n_ext D n _ (fun zs => sum_of (fun z => F z * G z) zs + (- / INR n) * (sum_of F zs * sum_of G zs))).
  - rewrite avg_n_plus, avg_n_scale, avg_n_sum, avg_n_prod by auto. unfold cov. field. auto.
  - intros zs L. unfold centered_sum. rewrite wsum_minus. unfold rmean. rewrite map_length, L. fold (sum_of F zs). field. auto.
Qed.

(* mirrored populations *)
Lemma evens_pairs {A B} (a b : A -> B) zs : evens (flat_map (fun z => [a z; b z]) zs) = map a zs.
Proof. induction zs as [|z zs IH]; cbn; [auto|]. rewrite IH. reflexivity. Qed.
Lemma odds_pairs {A B} (a b : A -> B) zs : odds (flat_map (fun z => [a z; b z]) zs) = map b zs.
Proof. induction zs as [|z zs IH]; cbn; [auto|]. rewrite IH. reflexivity. Qed.
Lemma map_pairs {A B C} (g : B -> C) (a b : A -> B) zs : map g (flat_map (fun z => [a z; b z]) zs) = flat_map (fun z => [g (a z); g (b z)]) zs.
Proof. induction zs as [|z zs IH]; cbn; [auto|]. rewrite IH. reflexivity. Qed.
Lemma length_pairs {A B} (a b : A -> B) zs : length (flat_map (fun z => [a z; b z]) zs) = (2 * length zs)%nat.
Proof. induction zs as [|z zs IH]; cbn; [auto|]. rewrite IH. lia. Qed.
Lemma rmean_pairs {A} (a b : A -> R) zs : zs <> [] -> rmean (flat_map (fun z => [a z; b z]) zs) = rmean (map (fun z => (a z + b z) / 2) zs).
Proof.
  intros N. unfold rmean. rewrite length_pairs, map_length, mult_INR. change (INR 2) with (1 + 1). assert (NZ : INR (length zs) <> 0) by (apply not_0_INR; destruct zs; [congruence|cbn; lia]).
  replace (rsum (flat_map (fun z => [a z; b z]) zs)) with (2 * rsum (map (fun z => (a z + b z) / 2) zs)); [field; lra|]. clear N NZ. induction zs as [|z zs IH]; cbn [flat_map map app]; rewrite ?rsum_cons; [unfold rsum; cbn; ring|]. rewrite <- IH. field.
Qed.
Lemma wsum_diff {A} (a b g : A -> R) m zs : wsum (map2 (fun p q => (p - q) / 2) (map (fun z => a z - m) zs) (map (fun z => b z - m) zs)) (map g zs) = rsum (map (fun z => (a z - b z) / 2 * g z) zs).
Proof. unfold wsum. induction zs as [|z zs IH]; cbn [map map2]; rewrite ?rsum_cons; [reflexivity|]. rewrite IH. field. Qed.
Lemma wsum_both {A} (a b g : A -> R) m zs : wsum (map2 (fun p q => (p + q) / 2) (map (fun z => a z - m) zs) (map (fun z => b z - m) zs)) (map g zs) = wsum (map (fun x => x - m) (map (fun z => (a z + b z) / 2) zs)) (map g zs).
Proof. unfold wsum. induction zs as [|z zs IH]; cbn [map map2]; rewrite ?rsum_cons; [reflexivity|]. rewrite IH. field. Qed.

(* ---- the gradients of the model ---- *)
Section Grads.
Variables (elite : list R -> list nat) (Opt : Type) (o : Opt) (f : vect -> R) (hib : bool) (mu sigma : vect).
Definition sgn : R := if hib then 1 else -1.
Definition fit (x : vect) : R := sgn * f x.
Definition weigh_raw (l : list R) : list R := raw l hib.
Lemma raw_map zs (X : vect -> vect) : weigh_raw (map f (map X zs)) = map (fun z => fit (X z)) zs.
Proof. unfold weigh_raw, raw, fit, sgn. destruct hib; rewrite ?map_map; apply map_ext; intros; ring. Qed.
Lemma coord_map zs (X : vect -> vect) j : coord (map X zs) j = map (fun z => X z j) zs.
Proof. unfold coord. rewrite map_map. reflexivity. Qed.
Definition plain_opts := {| divide_mu := Some "num_solutions"%string; divide_sigma := Some "num_solutions"%string |}.
Lemma plain_mu_grad zs j : zs <> [] -> mu_grad "raw" weigh_raw elite Opt (Plain plain_opts) (fill Opt (Plain plain_opts) f mu sigma o zs) j =
  Some (centered_sum (fun z => fit (plus_ mu sigma z)) (fun z => sigma j * z j) zs / INR (length zs)).
Proof.
  intros N. unfold mu_grad. cbn [s_pop s_fits s_mu fill draw plain_opts divide_mu]. unfold centered_weights. cbn [is_centering String.eqb Ascii.eqb Bool.eqb orb].
  change (map (fun (z : vect) (i : nat) => mu i + sigma i * z i) zs) with (map (plus_ mu sigma) zs). rewrite raw_map, coord_map.
  cbn [divide_grad String.eqb Ascii.eqb Bool.eqb]. unfold finite_result, rdivo. rewrite !map_length. destruct (Req_EM_T (INR (length zs)) 0) as [E|E]; [exfalso; apply INR_eq with (m := 0%nat) in E; destruct zs; [congruence|discriminate]|].
  f_equal. f_equal. unfold plain_mu, centered_sum. f_equal. rewrite map_map. apply map_ext. intros z. unfold plus_. ring.
Qed.
Lemma plain_sigma_grad zs j : zs <> [] -> sigma j <> 0 -> sigma_grad "raw" weigh_raw elite Opt (Plain plain_opts) (fill Opt (Plain plain_opts) f mu sigma o zs) j =
  Some (centered_sum (fun z => fit (plus_ mu sigma z)) (fun z => sigma j * (z j * z j - 1)) zs / INR (length zs)).
Proof.
  intros N SN. unfold sigma_grad. cbn [s_pop s_fits s_mu s_sigma fill draw plain_opts divide_sigma]. unfold centered_weights. cbn [is_centering String.eqb Ascii.eqb Bool.eqb orb].
  change (map (fun (z : vect) (i : nat) => mu i + sigma i * z i) zs) with (map (plus_ mu sigma) zs). rewrite raw_map, coord_map. unfold nonzero. destruct (Req_EM_T (sigma j) 0); [contradiction|].
  cbn [divide_grad String.eqb Ascii.eqb Bool.eqb]. unfold finite_result, rdivo. rewrite !map_length. destruct (Req_EM_T (INR (length zs)) 0) as [E|E]; [exfalso; apply INR_eq with (m := 0%nat) in E; destruct zs; [congruence|discriminate]|].
  f_equal. f_equal. unfold plain_sigma, centered_sum. f_equal. rewrite map_map. apply map_ext. intros z. unfold plus_. field. auto.
Qed.
Definition mirrored_opts := {| divide_mu := Some "num_directions"%string; divide_sigma := Some "num_directions"%string |}.
Lemma raw_pairs zs : weigh_raw (map f (flat_map (fun z => [plus_ mu sigma z; minus_ mu sigma z]) zs)) = flat_map (fun z => [fit (plus_ mu sigma z); fit (minus_ mu sigma z)]) zs.
Proof. unfold weigh_raw, raw. destruct hib eqn:H; rewrite ?map_pairs; apply flat_map_ext; intros z; unfold fit, sgn; rewrite H; repeat f_equal; ring. Qed.
Lemma mirrored_mu_grad zs j : zs <> [] -> mu_grad "raw" weigh_raw elite Opt (Mirrored mirrored_opts) (fill Opt (Mirrored mirrored_opts) f mu sigma o zs) j =
  Some (sum_of (fun z => (fit (plus_ mu sigma z) - fit (minus_ mu sigma z)) / 2 * (sigma j * z j)) zs / INR (length zs)).
Proof.
  intros N. unfold mu_grad. cbn [s_pop s_fits s_mu fill draw mirrored_opts divide_mu]. unfold centered_weights. cbn [is_centering String.eqb Ascii.eqb Bool.eqb orb].
  change (flat_map (fun z : vect => [(fun i : nat => mu i + sigma i * z i); (fun i : nat => mu i - sigma i * z i)]) zs) with (flat_map (fun z => [plus_ mu sigma z; minus_ mu sigma z]) zs).
  rewrite raw_pairs. cbn [divide_grad String.eqb Ascii.eqb Bool.eqb]. unfold finite_result, rdivo. rewrite map_length, length_pairs. replace (2 * length zs / 2)%nat with (length zs) by (rewrite Nat.mul_comm, Nat.div_mul; lia).
  destruct (Req_EM_T (INR (length zs)) 0) as [E|E]; [exfalso; apply INR_eq with (m := 0%nat) in E; destruct zs; [congruence|discriminate]|].
  f_equal. f_equal. unfold symmetric_mu. set (m := rmean _). clearbody m. unfold coord. rewrite !map_pairs, !evens_pairs, !odds_pairs, map_map, wsum_diff. unfold sum_of. f_equal. apply map_ext. intros z. cbv beta. replace (mu j + sigma j * z j - mu j) with (sigma j * z j) by ring. reflexivity.
Qed.
Lemma mirrored_sigma_grad zs j : zs <> [] -> sigma j <> 0 -> sigma_grad "raw" weigh_raw elite Opt (Mirrored mirrored_opts) (fill Opt (Mirrored mirrored_opts) f mu sigma o zs) j =
  Some (centered_sum (fun z => (fit (plus_ mu sigma z) + fit (minus_ mu sigma z)) / 2) (fun z => sigma j * (z j * z j - 1)) zs / INR (length zs)).
Proof.
  intros N SN. unfold sigma_grad. cbn [s_pop s_fits s_mu s_sigma fill draw mirrored_opts divide_sigma]. unfold centered_weights. cbn [is_centering String.eqb Ascii.eqb Bool.eqb orb].
  change (flat_map (fun z : vect => [(fun i : nat => mu i + sigma i * z i); (fun i : nat => mu i - sigma i * z i)]) zs) with (flat_map (fun z => [plus_ mu sigma z; minus_ mu sigma z]) zs).
  rewrite raw_pairs. unfold nonzero. destruct (Req_EM_T (sigma j) 0); [contradiction|]. cbn [divide_grad String.eqb Ascii.eqb Bool.eqb]. unfold finite_result, rdivo. rewrite map_length, length_pairs. replace (2 * length zs / 2)%nat with (length zs) by (rewrite Nat.mul_comm, Nat.div_mul; lia).
  destruct (Req_EM_T (INR (length zs)) 0) as [E|E]; [exfalso; apply INR_eq with (m := 0%nat) in E; destruct zs; [congruence|discriminate]|].
  f_equal. f_equal. unfold symmetric_sigma, coord. rewrite !map_pairs, !evens_pairs, !odds_pairs, map_map, wsum_both, rmean_pairs by auto. unfold centered_sum. f_equal. apply map_ext. intros z. unfold plus_ . field. auto.
Qed.
End Grads.

(* the value of a gradient, which is a number whenever the population is not empty *)
Definition number (x : option R) : R := match x with Some v => v | None => 0 end.
Definition is_number (x : option R) : Prop := x <> None.
(* One coordinate of the gradients of PGPE with the raw fitnesses, averaged over n independent draws: the covariance of the fitness with the position
   (with the squared distance), shrunk by the factor 1 - 1/n, since the mean of the same n fitnesses is subtracted. *)
Theorem C216_plain : forall elite Opt o f hib mu sigma D n j, total D = 1 -> (0 < n)%nat -> sigma j <> 0 ->
  let st := fill Opt (Plain plain_opts) f mu sigma o in
  let gm := fun zs => mu_grad "raw" (weigh_raw hib) elite Opt (Plain plain_opts) (st zs) j in
  let gs := fun zs => sigma_grad "raw" (weigh_raw hib) elite Opt (Plain plain_opts) (st zs) j in
  (forall zs, length zs = n -> is_number (gm zs) /\ is_number (gs zs)) /\
  avg_n D n (fun zs => number (gm zs)) = (1 - / INR n) * cov D (fun z => (if hib then 1 else -1) * f (plus_ mu sigma z)) (fun z => sigma j * z j) /\
  avg_n D n (fun zs => number (gs zs)) = (1 - / INR n) * cov D (fun z => (if hib then 1 else -1) * f (plus_ mu sigma z)) (fun z => sigma j * (z j * z j - 1)).
Proof.
  intros elite Opt o f hib mu sigma D n j T N SN st gm gs. assert (NZ : INR n <> 0) by (apply not_0_INR; lia).
  assert (NE : forall zs : list vect, length zs = n -> zs <> []) by (intros [|z zs] L; [cbn in L; lia|discriminate]).
  split; [|split].
  - intros zs L. unfold gm, gs, st. rewrite plain_mu_grad, plain_sigma_grad by auto. split; discriminate.
  - rewrite (avg_n_ext D n _ (fun zs => / INR n * centered_sum (fun z => fit f hib (plus_ mu sigma z)) (fun z => sigma j * z j) zs)).
    + rewrite avg_n_scale, avg_n_centered by auto. unfold fit, sgn. field. auto.
    + intros zs L. unfold gm, st. rewrite plain_mu_grad by auto. cbn [number]. rewrite L. field. auto.
  - rewrite (avg_n_ext D n _ (fun zs => / INR n * centered_sum (fun z => fit f hib (plus_ mu sigma z)) (fun z => sigma j * (z j * z j - 1)) zs)).
    + rewrite avg_n_scale, avg_n_centered by auto. unfold fit, sgn. field. auto.
    + intros zs L. unfold gs, st. rewrite plain_sigma_grad by auto. cbn [number]. rewrite L. field. auto.
Qed.
(* With mirrored samples (the default) the gradient for the center is not shrunk: it is the average over both solutions of a direction. *)
Theorem C216_mirrored : forall elite Opt o f hib mu sigma D n j, total D = 1 -> (0 < n)%nat -> sigma j <> 0 ->
  let st := fill Opt (Mirrored mirrored_opts) f mu sigma o in
  let gm := fun zs => mu_grad "raw" (weigh_raw hib) elite Opt (Mirrored mirrored_opts) (st zs) j in
  let gs := fun zs => sigma_grad "raw" (weigh_raw hib) elite Opt (Mirrored mirrored_opts) (st zs) j in
  let F := fun x => (if hib then 1 else -1) * f x in
  (forall zs, length zs = n -> is_number (gm zs) /\ is_number (gs zs)) /\
  avg_n D n (fun zs => number (gm zs)) = avg D (fun z => (F (plus_ mu sigma z) * (plus_ mu sigma z j - mu j) + F (minus_ mu sigma z) * (minus_ mu sigma z j - mu j)) / 2) /\
  avg_n D n (fun zs => number (gs zs)) = (1 - / INR n) * cov D (fun z => (F (plus_ mu sigma z) + F (minus_ mu sigma z)) / 2) (fun z => sigma j * (z j * z j - 1)).
Proof.
  intros elite Opt o f hib mu sigma D n j T N SN st gm gs F. assert (NZ : INR n <> 0) by (apply not_0_INR; lia).
  assert (NE : forall zs : list vect, length zs = n -> zs <> []) by (intros [|z zs] L; [cbn in L; lia|discriminate]).
  split; [|split].
  - intros zs L. unfold gm, gs, st. rewrite mirrored_mu_grad, mirrored_sigma_grad by auto. split; discriminate.
  - rewrite (avg_n_ext D n _ (fun zs => / INR n * sum_of (fun z => (fit f hib (plus_ mu sigma z) - fit f hib (minus_ mu sigma z)) / 2 * (sigma j * z j)) zs)).
    + rewrite avg_n_scale, avg_n_sum by auto. rewrite <- Rmult_assoc, Rinv_l, Rmult_1_l by auto. apply avg_ext. intros z. unfold F, fit, sgn. replace (plus_ mu sigma z j - mu j) with (sigma j * z j) by (unfold plus_; ring).
      replace (minus_ mu sigma z j - mu j) with (- (sigma j * z j)) by (unfold minus_; ring). field.
    + intros zs L. unfold gm, st. rewrite mirrored_mu_grad by auto. cbn [number]. rewrite L. field. auto.
  - rewrite (avg_n_ext D n _ (fun zs => / INR n * centered_sum (fun z => (fit f hib (plus_ mu sigma z) + fit f hib (minus_ mu sigma z)) / 2) (fun z => sigma j * (z j * z j - 1)) zs)).
    + rewrite avg_n_scale, avg_n_centered by auto. unfold F, fit, sgn. field. auto.
    + intros zs L. unfold gs, st. rewrite mirrored_sigma_grad by auto. cbn [number]. rewrite L. field. auto.
Qed.

(* ---- quadratic fitness functions ---- *)
Section Quadratic.
Variables (d : nat) (c : R) (a : vect) (B : mat).
Definition slope (mu : vect) (i : nat) : R := a i + sumn d (fun k => (B i k + B k i) * mu k).
Definition lin (mu y : vect) : R := sumn d (fun i => slope mu i * y i).
Definition qua (y : vect) : R := sumn d (fun i => sumn d (fun k => B i k * (y i * y k))).
Lemma expand s mu y x : (forall i, (i < d)%nat -> x i = mu i + s * y i) -> quadratic d c a B x = quadratic d c a B mu + s * lin mu y + s * s * qua y.
Proof.
  intros H. unfold quadratic, lin, slope, qua.
  rewrite (sumn_ext d (fun i => a i * x i) (fun i => a i * mu i + s * (a i * y i))) by (intros i Hi; rewrite H by auto; ring).
  rewrite (sumn_ext d (fun i => sumn d (fun j => B i j * (x i * x j))) (fun i => sumn d (fun j => B i j * (mu i * mu j)) + s * (sumn d (fun j => B i j * mu j) * y i) + s * sumn d (fun j => B i j * (mu i * y j)) + s * s * sumn d (fun j => B i j * (y i * y j)))).
  2:{ intros i Hi. rewrite <- (sumn_mul_r d (y i)), <- !sumn_mul_l, <- !sumn_plus. apply sumn_ext. intros j Hj. rewrite !H by auto. ring. }
  rewrite !sumn_plus, !sumn_mul_l. rewrite (sumn_swap d d (fun i j => B i j * (mu i * y j))).
  rewrite (sumn_ext d (fun i => (a i + sumn d (fun k => (B i k + B k i) * mu k)) * y i) (fun i => a i * y i + sumn d (fun k => B i k * mu k) * y i + sumn d (fun k => B k i * (mu k * y i)))).
  2:{ intros i Hi. rewrite (sumn_ext d (fun k => (B i k + B k i) * mu k) (fun k => B i k * mu k + B k i * mu k)) by (intros; ring). rewrite sumn_plus. rewrite !Rmult_plus_distr_r, <- Rplus_assoc. f_equal. rewrite <- sumn_mul_r. apply sumn_ext. intros; ring. }
  rewrite !sumn_plus. ring.
Qed.
Lemma sumn_pick j g : (j < d)%nat -> sumn d (fun i => g i * delta j i) = g j.
Proof. intros H. rewrite (sumn_ext d _ (fun i => (if Nat.eqb j i then 1 else 0) * g i)) by (intros; unfold delta; ring). apply sumn_delta. auto. Qed.
Variable D : dist.
Hypothesis M : normal_moments d D.
Let T : total D = 1. Proof. apply M. Qed.
Variables (mu sigma : vect) (j : nat).
Hypothesis J : (j < d)%nat.
Notation y z := (fun i => sigma i * z i).
Lemma lin_avg : avg D (fun z => lin mu (y z)) = 0.
Proof.
  destruct M as (_ & M1 & _). unfold lin. rewrite avg_sumn. apply sumn_zero. intros i Hi. rewrite (avg_ext D _ (fun z => slope mu i * sigma i * z i)) by (intros; ring). rewrite avg_scale, M1 by auto. ring.
Qed.
Lemma lin_first : avg D (fun z => lin mu (y z) * (sigma j * z j)) = sigma j * sigma j * slope mu j.
Proof.
  destruct M as (_ & _ & M2 & _). rewrite (avg_ext D _ (fun z => sumn d (fun i => slope mu i * sigma i * sigma j * (z i * z j)))).
  - rewrite avg_sumn. rewrite (sumn_ext d _ (fun i => (slope mu i * sigma i * sigma j) * delta j i)).
    + rewrite sumn_pick by auto. ring.
    + intros i Hi. rewrite avg_scale, M2 by auto. unfold delta. rewrite Nat.eqb_sym. ring.
  - intros z. unfold lin. rewrite <- sumn_mul_r. apply sumn_ext. intros; ring.
Qed.
Lemma lin_second : avg D (fun z => lin mu (y z) * (sigma j * (z j * z j - 1))) = 0.
Proof.
  destruct M as (_ & M1 & _ & M3 & _). rewrite (avg_ext D _ (fun z => sumn d (fun i => slope mu i * sigma i * sigma j * (z j * z j * z i - z i)))).
  - rewrite avg_sumn. apply sumn_zero. intros i Hi. rewrite avg_scale, avg_minus, M3, M1 by auto. ring.
  - intros z. unfold lin. rewrite <- sumn_mul_r. apply sumn_ext. intros; ring.
Qed.
Lemma qua_avg : avg D (fun z => qua (y z)) = sumn d (fun i => B i i * (sigma i * sigma i)).
Proof.
  destruct M as (_ & _ & M2 & _). unfold qua. rewrite avg_sumn. apply sumn_ext. intros i Hi. rewrite avg_sumn. rewrite (sumn_ext d _ (fun k => (B i k * (sigma i * sigma k)) * delta i k)).
  - apply sumn_pick. auto.
  - intros k Hk. rewrite (avg_ext D _ (fun z => B i k * (sigma i * sigma k) * (z i * z k))) by (intros; ring). rewrite avg_scale, M2 by auto. reflexivity.
Qed.
Lemma qua_first : avg D (fun z => qua (y z) * (sigma j * z j)) = 0.
Proof.
  destruct M as (_ & _ & _ & M3 & _). rewrite (avg_ext D _ (fun z => sumn d (fun i => sumn d (fun k => B i k * (sigma i * sigma k * sigma j) * (z i * z k * z j))))).
  - rewrite avg_sumn. apply sumn_zero. intros i Hi. rewrite avg_sumn. apply sumn_zero. intros k Hk. rewrite avg_scale, M3 by auto. ring.
  - intros z. unfold qua. rewrite <- sumn_mul_r. apply sumn_ext. intros i Hi. rewrite <- sumn_mul_r. apply sumn_ext. intros; ring.
Qed.
Lemma qua_second : avg D (fun z => qua (y z) * (sigma j * (z j * z j - 1))) = sigma j * sigma j * (2 * B j j * sigma j).
Proof.
  destruct M as (_ & _ & M2 & _ & M4). rewrite (avg_ext D _ (fun z => sumn d (fun i => sumn d (fun k => B i k * (sigma i * sigma k * sigma j) * (z i * z k * (z j * z j) - z i * z k))))).
  - rewrite avg_sumn. rewrite (sumn_ext d _ (fun i => (B i i * (sigma i * sigma i * sigma j) * 2) * delta j i)).
    + rewrite sumn_pick by auto. ring.
    + intros i Hi. rewrite avg_sumn. rewrite (sumn_ext d _ (fun k => (B i k * (sigma i * sigma k * sigma j) * (2 * delta i j)) * delta i k)).
      * rewrite sumn_pick by auto. unfold delta. rewrite (Nat.eqb_sym i j). ring.
      * intros k Hk. rewrite avg_scale, avg_minus, M4, M2 by auto. ring.
  - intros z. unfold qua. rewrite <- sumn_mul_r. apply sumn_ext. intros i Hi. rewrite <- sumn_mul_r. apply sumn_ext. intros; ring.
Qed.
Lemma fit_plus z : quadratic d c a B (plus_ mu sigma z) = quadratic d c a B mu + lin mu (y z) + qua (y z).
Proof. rewrite (expand 1 mu (y z)); [ring|]. intros. unfold plus_. ring. Qed.
Lemma fit_minus z : quadratic d c a B (minus_ mu sigma z) = quadratic d c a B mu - lin mu (y z) + qua (y z).
Proof. rewrite (expand (-1) mu (y z)); [ring|]. intros. unfold minus_. ring. Qed.
Lemma first_moment : avg D (fun z => sigma j * z j) = 0.
Proof. destruct M as (_ & M1 & _). rewrite avg_scale, M1 by auto. ring. Qed.
Lemma second_moment : avg D (fun z => sigma j * (z j * z j - 1)) = 0.
Proof. destruct M as (_ & _ & M2 & _). rewrite avg_scale, avg_minus, M2, avg_const, T by auto. unfold delta. rewrite Nat.eqb_refl. ring. Qed.
Lemma avg_three k (G : vect -> R) e q : avg D (fun z => (k + e z + q z) * G z) = k * avg D G + avg D (fun z => e z * G z) + avg D (fun z => q z * G z).
Proof. rewrite <- avg_scale, <- !avg_plus. apply avg_ext. intros. ring. Qed.
Lemma cov_mu s : cov D (fun z => s * quadratic d c a B (plus_ mu sigma z)) (fun z => sigma j * z j) = s * (sigma j * sigma j * slope mu j).
Proof.
  unfold cov. rewrite first_moment, Rmult_0_r, Rminus_0_r. rewrite (avg_ext D _ (fun z => s * ((quadratic d c a B mu + lin mu (y z) + qua (y z)) * (sigma j * z j)))) by (intros; rewrite fit_plus; ring).
  rewrite avg_scale, avg_three, first_moment, lin_first, qua_first. ring.
Qed.
Lemma cov_sigma s : cov D (fun z => s * quadratic d c a B (plus_ mu sigma z)) (fun z => sigma j * (z j * z j - 1)) = s * (sigma j * sigma j * (2 * B j j * sigma j)).
Proof.
  unfold cov. rewrite second_moment, Rmult_0_r, Rminus_0_r. rewrite (avg_ext D _ (fun z => s * ((quadratic d c a B mu + lin mu (y z) + qua (y z)) * (sigma j * (z j * z j - 1))))) by (intros; rewrite fit_plus; ring).
  rewrite avg_scale, avg_three, second_moment, lin_second, qua_second. ring.
Qed.
Lemma mirrored_mu s : avg D (fun z => (s * quadratic d c a B (plus_ mu sigma z) * (plus_ mu sigma z j - mu j) + s * quadratic d c a B (minus_ mu sigma z) * (minus_ mu sigma z j - mu j)) / 2) = s * (sigma j * sigma j * slope mu j).
Proof.
  rewrite (avg_ext D _ (fun z => s * (lin mu (y z) * (sigma j * z j)))); [rewrite avg_scale, lin_first; ring|]. intros z. rewrite fit_plus, fit_minus. replace (plus_ mu sigma z j - mu j) with (sigma j * z j) by (unfold plus_; ring).
  replace (minus_ mu sigma z j - mu j) with (- (sigma j * z j)) by (unfold minus_; ring). field.
Qed.
Lemma mirrored_sigma s : cov D (fun z => (s * quadratic d c a B (plus_ mu sigma z) + s * quadratic d c a B (minus_ mu sigma z)) / 2) (fun z => sigma j * (z j * z j - 1)) = s * (sigma j * sigma j * (2 * B j j * sigma j)).
Proof.
  unfold cov. rewrite second_moment, Rmult_0_r, Rminus_0_r. rewrite (avg_ext D _ (fun z => s * ((quadratic d c a B mu + 0 + qua (y z)) * (sigma j * (z j * z j - 1))))) by (intros; rewrite fit_plus, fit_minus; field).
  rewrite avg_scale, (avg_three _ _ (fun _ => 0)), second_moment, qua_second. rewrite (avg_ext D _ (fun _ => 0)) by (intros; ring). rewrite avg_const. ring.
Qed.
End Quadratic.
Lemma expected_quadratic d c a B D mu sigma : normal_moments d D -> expected D (quadratic d c a B) mu sigma = quadratic d c a B mu + sumn d (fun i => B i i * (sigma i * sigma i)).
Proof.
  intros M. unfold expected. rewrite (avg_ext D _ (fun z => quadratic d c a B mu + lin d a B mu (fun i => sigma i * z i) + qua d B (fun i => sigma i * z i))) by (intros; apply fit_plus).
  rewrite !avg_plus, avg_const. rewrite (lin_avg d a B D M), (qua_avg d B D M). destruct M as (-> & _). ring.
Qed.
Lemma poly_derivative k0 k1 k2 m : derivable_pt_lim (fun x => k0 + (x - m) * k1 + (x - m) * (x - m) * k2) m k1.
Proof.
  intros eps He. destruct (Req_dec k2 0) as [->|K2].
  - exists (mkposreal 1 Rlt_0_1). intros h Hh _. replace ((k0 + (m + h - m) * k1 + (m + h - m) * (m + h - m) * 0 - (k0 + (m - m) * k1 + (m - m) * (m - m) * 0)) / h - k1) with 0 by (field; auto). rewrite Rabs_R0. auto.
  - assert (P : 0 < eps / Rabs k2) by (apply Rdiv_lt_0_compat; [auto|apply Rabs_pos_lt; auto]). exists (mkposreal _ P). intros h Hh Hd. cbn in Hd.
    replace ((k0 + (m + h - m) * k1 + (m + h - m) * (m + h - m) * k2 - (k0 + (m - m) * k1 + (m - m) * (m - m) * k2)) / h - k1) with (h * k2) by (field; auto). rewrite Rabs_mult.
    apply Rmult_lt_compat_r with (r := Rabs k2) in Hd; [|apply Rabs_pos_lt; auto]. unfold Rdiv in Hd. rewrite Rmult_assoc, Rinv_l, Rmult_1_r in Hd by (apply Rabs_no_R0; auto). auto.
Qed.
Lemma derivable_ext g h x l : (forall t, g t = h t) -> derivable_pt_lim h x l -> derivable_pt_lim g x l.
Proof. intros E H eps He. destruct (H eps He) as [dl Hd]. exists dl. intros t T1 T2. rewrite !E. auto. Qed.
Lemma slope_mu d c a B D mu sigma j : normal_moments d D -> (j < d)%nat -> derivable_pt_lim (fun m => expected D (quadratic d c a B) (with_ mu j m) sigma) (mu j) (slope d a B mu j).
Proof.
  intros M J. apply (derivable_ext _ (fun x => (quadratic d c a B mu + sumn d (fun i => B i i * (sigma i * sigma i))) + (x - mu j) * slope d a B mu j + (x - mu j) * (x - mu j) * B j j)); [|apply poly_derivative].
  intros m. rewrite expected_quadratic by auto. rewrite (expand d c a B (m - mu j) mu (delta j)).
  - unfold lin, qua. rewrite (sumn_pick d j (slope d a B mu)) by auto. rewrite (sumn_ext d _ (fun i => B i j * delta j i)).
    + rewrite (sumn_pick d j (fun i => B i j)) by auto. ring.
    + intros i Hi. rewrite (sumn_ext d _ (fun k => (B i k * delta j i) * delta j k)) by (intros; ring). apply (sumn_pick d j (fun k => B i k * delta j i)). auto.
  - intros i _. unfold with_, delta. destruct (Nat.eqb_spec j i); [subst; ring|ring].
Qed.
Lemma slope_sigma d c a B D mu sigma j : normal_moments d D -> (j < d)%nat -> derivable_pt_lim (fun s => expected D (quadratic d c a B) mu (with_ sigma j s)) (sigma j) (2 * B j j * sigma j).
Proof.
  intros M J. apply (derivable_ext _ (fun x => (quadratic d c a B mu + sumn d (fun i => B i i * (sigma i * sigma i))) + (x - sigma j) * (2 * B j j * sigma j) + (x - sigma j) * (x - sigma j) * B j j)); [|apply poly_derivative].
  intros s. rewrite expected_quadratic by auto. rewrite (sumn_ext d _ (fun i => B i i * (sigma i * sigma i) + (B i i * (s * s - sigma j * sigma j)) * delta j i)).
  - rewrite sumn_plus, (sumn_pick d j (fun i => B i i * (s * s - sigma j * sigma j))) by auto. ring.
  - intros i _. unfold with_, delta. destruct (Nat.eqb_spec j i); [subst; ring|ring].
Qed.
(* On a quadratic fitness function, PGPE with raw fitnesses follows on average the gradient of the expected fitness: dm and ds are its derivatives by
   the coordinate of the center and by the standard deviation. *)
Theorem C216_quadratic : forall elite Opt o d c a B (hib : bool) mu sigma D n j, normal_moments d D -> (j < d)%nat -> (0 < n)%nat -> sigma j <> 0 ->
  let f := quadratic d c a B in
  let s := if hib then 1 else -1 in
  let mean_mu := fun K => avg_n D n (fun zs => number (mu_grad "raw" (weigh_raw hib) elite Opt K (fill Opt K f mu sigma o zs) j)) in
  let mean_sigma := fun K => avg_n D n (fun zs => number (sigma_grad "raw" (weigh_raw hib) elite Opt K (fill Opt K f mu sigma o zs) j)) in
  exists dm ds, derivable_pt_lim (fun m => expected D f (with_ mu j m) sigma) (mu j) dm /\ derivable_pt_lim (fun t => expected D f mu (with_ sigma j t)) (sigma j) ds /\
    mean_mu (Mirrored mirrored_opts) = s * (sigma j * sigma j * dm) /\ mean_sigma (Mirrored mirrored_opts) = (1 - / INR n) * (s * (sigma j * sigma j * ds)) /\
    mean_mu (Plain plain_opts) = (1 - / INR n) * (s * (sigma j * sigma j * dm)) /\ mean_sigma (Plain plain_opts) = (1 - / INR n) * (s * (sigma j * sigma j * ds)).
Proof.
  intros elite Opt o d c a B hib mu sigma D n j M J N SN f s mm ms. exists (slope d a B mu j), (2 * B j j * sigma j). assert (T : total D = 1) by apply M.
  destruct (C216_plain elite Opt o f hib mu sigma D n j T N SN) as (_ & P1 & P2). destruct (C216_mirrored elite Opt o f hib mu sigma D n j T N SN) as (_ & Q1 & Q2). cbv zeta in *.
  split; [apply slope_mu; auto|]. split; [apply slope_sigma; auto|]. unfold mm, ms. rewrite P1, P2, Q1, Q2. unfold f, s.
  rewrite (cov_mu d c a B D M mu sigma j J), (cov_sigma d c a B D M mu sigma j J), (mirrored_mu d c a B D M mu sigma j J), (mirrored_sigma d c a B D M mu sigma j J). auto.
Qed.
Print Assumptions C216_plain.
Print Assumptions C216_mirrored.
Print Assumptions C216_quadratic.
(* three points with the moments of a normal number *)
Example C216_example : normal_moments 1 [(1 / 6, fun _ => sqrt 3); (2 / 3, fun _ => 0); (1 / 6, fun _ => - sqrt 3)] /\
  (forall mu, quadratic 1 5 (fun _ => 2) (fun _ _ => -1) mu = 5 + 2 * mu 0%nat - mu 0%nat * mu 0%nat).
Proof.
  assert (S : sqrt 3 * sqrt 3 = 3) by (apply sqrt_sqrt; lra). split; [|intros; unfold quadratic; cbn; ring].
  unfold normal_moments. split; [unfold total, rsum; cbn; lra|]. split; [|split; [|split]]; intros; repeat match goal with H : (?x < 1)%nat |- _ => assert (x = 0%nat) by lia; clear H; subst x end; unfold avg, rsum, delta; cbn.
  - lra.
  - replace (- sqrt 3 * - sqrt 3) with (sqrt 3 * sqrt 3) by ring. rewrite S. lra.
  - replace (- sqrt 3 * - sqrt 3) with (sqrt 3 * sqrt 3) by ring. rewrite S. lra.
  - replace (- sqrt 3 * - sqrt 3) with (sqrt 3 * sqrt 3) by ring. rewrite S. lra.
Qed.

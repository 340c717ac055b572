(* C205: whole runs of PGPE, SNES and CEM on a fitness function whose comparisons are decided by one coordinate. *)
From Coq Require Import Reals Lra String.
From Verif Require Import Prelude MatLib RankModel CemModel DistModel ClipUpModel ClipUpProofs FuncModel SafModel CmaProofs2.
Open Scope R_scope.

(* ---- spec ---- *)
(* `up a b`: fitness b is better than fitness a; going into the direction dir (1 or -1) along coordinate j makes a solution better *)
Definition slope (dir : R) (j : nat) (up : R -> R -> Prop) (f : vect -> R) : Prop :=
  (dir = 1 \/ dir = -1) /\ forall x y, dir * x j < dir * y j -> up (f x) (f y).
(* what all of the ranking methods do (C21, C70): better solutions do not get smaller weights *)
Definition respects (up : R -> R -> Prop) (weigh : list R -> list R) : Prop :=
  forall l, length (weigh l) = length l /\
    forall i k, (i < length l)%nat -> (k < length l)%nat -> up (nth i l 0) (nth k l 0) -> nth i (weigh l) 0 <= nth k (weigh l) 0.
(* "centered", "linear", "normalized" and "raw" give better solutions larger weights *)
Definition separates (up : R -> R -> Prop) (weigh : list R -> list R) : Prop :=
  forall l i k, (i < length l)%nat -> (k < length l)%nat -> up (nth i l 0) (nth k l 0) -> nth i (weigh l) 0 < nth k (weigh l) 0.
(* the weights add up to 0: "centered", "normalized" and "nes" *)
Definition balanced (weigh : list R -> list R) : Prop := forall l, rsum (weigh l) = 0.
(* PGPE balances the weights itself; SNES does not *)
Definition suitable (K : kind) (ranking : string) (weigh : list R -> list R) : Prop :=
  match K with
  | Plain _ | Mirrored _ => is_centering ranking = true -> balanced weigh
  | Exponential => balanced weigh
  | Elites => False
  end.
(* an optimizer which, as long as its state is Good, never steps against a gradient which keeps pointing forwards; strictly: it follows it *)
Definition forward {O} (n : nat) (dir : R) (j : nat) (strictly : Prop) (Good : O -> Prop) (follow : O -> vect -> option (O * vect)) : Prop :=
  forall o g o' d, Good o -> 0 <= dir * g j -> follow o g = Some (o', d) -> Good o' /\ 0 <= dir * d j /\ (strictly -> 0 < dir * g j -> 0 < dir * d j).
(* two solutions differ in coordinate j *)
Definition differ (j : nat) (pop : list vect) : Prop := exists x y, In x pop /\ In y pop /\ x j <> y j.
Definition consecutive {X} (l : list X) (a b : X) : Prop := exists i, nth_error l i = Some a /\ nth_error l (S i) = Some b.

(* ---- proofs: Chebyshev's inequality ---- *)
Lemma sumn_const n c : sumn n (fun _ => c) = INR n * c.
Proof. induction n as [|n IH]; [cbn; ring|]. cbn [sumn]. rewrite IH, S_INR. ring. Qed.
Lemma chebyshev_id n (w y : nat -> R) : sumn n w = 0 ->
  sumn n (fun i => sumn n (fun k => (w i - w k) * (y i - y k))) = 2 * (INR n * sumn n (fun i => w i * y i)).
Proof.
  intros Z. rewrite (sumn_ext n _ (fun i => INR n * (w i * y i) + (sumn n (fun k => w k * y k) - (w i * sumn n y + y i * sumn n w)))).
  - rewrite sumn_plus, sumn_mul_l, sumn_minus, sumn_const, sumn_plus, !sumn_mul_r, Z. ring.
  - intros i _. rewrite (sumn_ext n _ (fun k => w i * y i + (w k * y k - (w i * y k + y i * w k)))) by (intros; ring).
    rewrite sumn_plus, sumn_const, sumn_minus, sumn_plus, !sumn_mul_l. ring.
Qed.
Lemma chebyshev n (w y : nat -> R) : sumn n w = 0 -> (forall i k, (i < n)%nat -> (k < n)%nat -> 0 <= (w i - w k) * (y i - y k)) ->
  0 <= sumn n (fun i => w i * y i).
Proof.
  intros Z H. destruct n as [|n]; [cbn; lra|]. pose proof (chebyshev_id (S n) w y Z) as E. assert (0 <= sumn (S n) (fun i => sumn (S n) (fun k => (w i - w k) * (y i - y k)))).
  { apply sumn_nonneg. intros i Hi. apply sumn_nonneg. intros k Hk. apply H; auto. }
  assert (0 < INR (S n)) by (apply lt_0_INR; lia). nra.
Qed.
Lemma chebyshev_strict n (w y : nat -> R) : sumn n w = 0 -> (forall i k, (i < n)%nat -> (k < n)%nat -> 0 <= (w i - w k) * (y i - y k)) ->
  (exists i k, (i < n)%nat /\ (k < n)%nat /\ 0 < (w i - w k) * (y i - y k)) -> 0 < sumn n (fun i => w i * y i).
Proof.
  intros Z H (i0 & k0 & Hi0 & Hk0 & P). pose proof (chebyshev_id n w y Z) as E.
  assert (0 < sumn n (fun i => sumn n (fun k => (w i - w k) * (y i - y k)))).
  { apply sumn_pos; [intros i Hi; apply sumn_nonneg; intros k Hk; apply H; auto|]. exists i0. split; auto. apply sumn_pos; [intros k Hk; apply H; auto|]. exists k0. auto. }
  assert (0 < INR n) by (apply lt_0_INR; lia). nra.
Qed.
Lemma rsum_sumn l : rsum l = sumn (length l) (fun i => nth i l 0).
Proof.
  induction l as [|a l IH] using rev_ind; [reflexivity|]. rewrite app_length. cbn [length]. rewrite Nat.add_1_r. cbn [sumn].
  assert (E : rsum (l ++ [a]) = rsum l + a). { clear. induction l as [|b l IH]; cbn; [ring|]. change (rsum (l ++ [a])) with (fold_right Rplus 0 (l ++ [a])) in IH. unfold rsum in *. rewrite IH. ring. }
  rewrite E, IH, nth_middle. f_equal. apply sumn_ext. intros i Hi. rewrite app_nth1; auto.
Qed.
Lemma nth_map2_R (f : R -> R -> R) : forall a b i, (i < length a)%nat -> (i < length b)%nat -> nth i (map2 f a b) 0 = f (nth i a 0) (nth i b 0).
Proof. induction a as [|x a IH]; intros [|y b] [|i] A B; cbn in *; try lia; auto. apply IH; lia. Qed.
Lemma map2_len {X Y Z} (f : X -> Y -> Z) a b : length (map2 f a b) = Nat.min (length a) (length b).
Proof. revert b. induction a; intros [|y b]; cbn; auto. Qed.
Lemma wsum_sumn w c : length w = length c -> wsum w c = sumn (length w) (fun i => nth i w 0 * nth i c 0).
Proof.
  intros L. unfold wsum. rewrite rsum_sumn, map2_len, <- L, Nat.min_id. apply sumn_ext. intros i Hi. apply nth_map2_R; lia.
Qed.
Lemma wsum_dir d w c : d * wsum w c = wsum w (map (Rmult d) c).
Proof. unfold wsum. revert c. induction w as [|a w IH]; intros [|b c]; cbn; try ring. unfold rsum in *. cbn. rewrite <- IH. ring. Qed.

(* ---- proofs: one gradient ---- *)
Section GRAD.
Variable weigh : list R -> list R.
Variables (dir : R) (j : nat) (up : R -> R -> Prop) (f : vect -> R).
Hypothesis Sl : slope dir j up f.
Hypothesis Re : respects up weigh.

Lemma nth_coord (ps : list vect) i : nth i (map f ps) 0 = f (nth i ps (fun _ => 0)) \/ (length ps <= i)%nat.
Proof. destruct (Nat.lt_ge_cases i (length ps)) as [H|H]; [left|right; auto]. rewrite (nth_indep _ 0 (f (fun _ => 0))) by (rewrite map_length; auto). apply map_nth. Qed.
Lemma nth_coord_j (ps : list vect) i : nth i (coord ps j) 0 = nth i ps (fun _ => 0) j.
Proof. unfold coord. apply (map_nth (fun x : vect => x j) ps (fun _ => 0)). Qed.
Lemma comonotone ps i k : (i < length ps)%nat -> (k < length ps)%nat ->
  0 <= (nth i (weigh (map f ps)) 0 - nth k (weigh (map f ps)) 0) * (dir * nth i (coord ps j) 0 - dir * nth k (coord ps j) 0) /\
  (separates up weigh -> nth i (coord ps j) 0 <> nth k (coord ps j) 0 ->
   0 < (nth i (weigh (map f ps)) 0 - nth k (weigh (map f ps)) 0) * (dir * nth i (coord ps j) 0 - dir * nth k (coord ps j) 0)).
Proof.
  intros Hi Hk. destruct Sl as [D S]. destruct (Re (map f ps)) as [_ RR]. rewrite map_length in RR. rewrite !nth_coord_j.
  assert (U : forall a b, (a < length ps)%nat -> (b < length ps)%nat -> dir * nth a ps (fun _ => 0) j < dir * nth b ps (fun _ => 0) j -> up (nth a (map f ps) 0) (nth b (map f ps) 0)).
  { intros a b Ha Hb L. destruct (nth_coord ps a) as [->|]; [|lia]. destruct (nth_coord ps b) as [->|]; [|lia]. auto. }
  set (xi := nth i ps (fun _ => 0) j) in *. set (xk := nth k ps (fun _ => 0) j) in *.
  destruct (Rtotal_order (dir * xi) (dir * xk)) as [L|[L|L]].
  - pose proof (RR i k Hi Hk (U i k Hi Hk L)). split; [nra|]. intros Se _. specialize (Se (map f ps) i k). rewrite map_length in Se. specialize (Se Hi Hk (U i k Hi Hk L)). nra.
  - rewrite L. split; [lra|]. intros _ Ne. exfalso. apply Ne. destruct D as [-> | ->]; lra.
  - pose proof (RR k i Hk Hi (U k i Hk Hi L)). split; [nra|]. intros Se _. specialize (Se (map f ps) k i). rewrite map_length in Se. specialize (Se Hk Hi (U k i Hk Hi L)). nra.
Qed.
(* weights shifted by their mean *)
Lemma shifted_diff c (w : list R) i k : (i < length w)%nat -> (k < length w)%nat ->
  nth i (map (fun x => x - c) w) 0 - nth k (map (fun x => x - c) w) 0 = nth i w 0 - nth k w 0.
Proof.
  intros Hi Hk. rewrite !(nth_indep (map (fun x => x - c) w) 0 (0 - c)) by (rewrite map_length; auto).
  rewrite !(map_nth (fun x => x - c)). ring.
Qed.
Lemma centered_diff ranking w i k : (i < length w)%nat -> (k < length w)%nat ->
  nth i (centered_weights ranking w) 0 - nth k (centered_weights ranking w) 0 = nth i w 0 - nth k w 0.
Proof. intros Hi Hk. unfold centered_weights. destruct (is_centering ranking); auto using shifted_diff. Qed.
Lemma centered_length ranking w : length (centered_weights ranking w) = length w.
Proof. unfold centered_weights. destruct (is_centering ranking); rewrite ?map_length; auto. Qed.
Lemma centered_zero ranking w : (is_centering ranking = true -> rsum w = 0) -> rsum (centered_weights ranking w) = 0.
Proof.
  unfold centered_weights. destruct (is_centering ranking); auto. intros _. unfold rmean.
  assert (E : forall c l, rsum (map (fun x => x - c) l) = rsum l - INR (length l) * c).
  { intros c l. induction l as [|a l IH]; [cbn; ring|]. cbn [map]. change (rsum ((a - c) :: map (fun x => x - c) l)) with (a - c + rsum (map (fun x => x - c) l)).
    rewrite IH. change (rsum (a :: l)) with (a + rsum l). cbn [length]. rewrite S_INR. ring. }
  rewrite E. destruct w as [|a w]; [cbn; ring|]. field. cbn [length]. rewrite S_INR. pose proof (pos_INR (length w)). lra.
Qed.
(* the balanced weighted sum of the deviations points upwards *)
Lemma upwards ps w m : length w = length ps -> rsum w = 0 ->
  (forall i k, (i < length ps)%nat -> (k < length ps)%nat -> nth i w 0 - nth k w 0 = nth i (weigh (map f ps)) 0 - nth k (weigh (map f ps)) 0) ->
  0 <= dir * wsum w (map (fun x => x - m) (coord ps j)) /\
  (separates up weigh -> (exists i k, (i < length ps)%nat /\ (k < length ps)%nat /\ nth i (coord ps j) 0 <> nth k (coord ps j) 0) ->
   0 < dir * wsum w (map (fun x => x - m) (coord ps j))).
Proof.
  intros L Z Dw. rewrite wsum_dir, map_map. assert (LC : length (coord ps j) = length ps) by (unfold coord; rewrite map_length; auto).
  rewrite wsum_sumn by (rewrite map_length; lia). rewrite rsum_sumn in Z. set (y := fun i => nth i (map (fun x => dir * (x - m)) (coord ps j)) 0).
  assert (Y : forall i k, (i < length ps)%nat -> (k < length ps)%nat -> y i - y k = dir * nth i (coord ps j) 0 - dir * nth k (coord ps j) 0).
  { intros i k Hi Hk. unfold y. rewrite !(nth_indep (map (fun x => dir * (x - m)) (coord ps j)) 0 (dir * (0 - m))) by (rewrite map_length; lia).
    rewrite !(map_nth (fun x => dir * (x - m))). ring. }
  assert (C : forall i k, (i < length w)%nat -> (k < length w)%nat -> 0 <= (nth i w 0 - nth k w 0) * (y i - y k)).
  { intros i k Hi Hk. rewrite L in Hi, Hk. rewrite Dw, Y by auto. apply comonotone; auto. }
  split; [exact (chebyshev _ (fun i => nth i w 0) y Z C)|]. intros Se (i & k & Hi & Hk & Ne).
  apply (chebyshev_strict _ (fun i => nth i w 0) y Z C). exists i, k. rewrite L. split; auto. split; auto. rewrite Dw, Y by auto. apply comonotone; auto.
Qed.
(* mirrored pairs *)
Lemma evens_nth {A} (d : A) : forall l i, nth i (evens l) d = nth (2 * i) l d.
Proof.
  intros l. assert (H : forall n l i, (length l <= n)%nat -> nth i (evens l) d = nth (2 * i) l d); [|intro i; apply (H (length l)); lia].
  clear l. induction n as [|n IH]; intros l i Hl; [destruct l; [destruct i; auto|cbn in Hl; lia]|].
  destruct l as [|x [|y l]]; [destruct i; auto|destruct i as [|i]; [auto|]|].
  - cbn [evens nth]. replace (2 * S i)%nat with (S (S (2 * i))) by lia. cbn [nth]. destruct i; reflexivity.
  - destruct i as [|i]; [auto|]. replace (2 * S i)%nat with (S (S (2 * i))) by lia. cbn [evens nth]. apply IH. cbn in Hl. lia.
Qed.
Lemma odds_nth {A} (d : A) : forall l i, nth i (odds l) d = nth (2 * i + 1) l d.
Proof.
  intros l. assert (H : forall n l i, (length l <= n)%nat -> nth i (odds l) d = nth (2 * i + 1) l d); [|intro i; apply (H (length l)); lia].
  clear l. induction n as [|n IH]; intros l i Hl; [destruct l; [destruct i; auto|cbn in Hl; lia]|].
  destruct l as [|x [|y l]]; [destruct i; auto| |].
  - cbn [odds]. replace (2 * i + 1)%nat with (S (2 * i)) by lia. cbn [nth]. destruct (2 * i)%nat; destruct i; reflexivity.
  - destruct i as [|i]; [auto|]. replace (2 * S i + 1)%nat with (S (S (2 * i + 1))) by lia. cbn [odds nth]. apply IH. cbn in Hl. lia.
Qed.
Lemma halves {A} : forall m (l : list A), length l = (2 * m)%nat -> length (evens l) = m /\ length (odds l) = m.
Proof.
  induction m as [|m IH]; intros l L; [destruct l; [auto|discriminate]|]. destruct l as [|x [|y l]]; try (cbn in L; lia). cbn [evens odds length] in *.
  destruct (IH l) as [A1 A2]; [lia|]. lia.
Qed.
Lemma drawn_length o mu sigma zs : length (draw (Mirrored o) mu sigma zs) = (2 * length zs)%nat.
Proof. cbn [draw]. induction zs as [|z zs IH]; [auto|]. cbn [flat_map app length]. rewrite IH. lia. Qed.
Lemma drawn_nth o mu sigma zs i : (i < length zs)%nat ->
  nth (2 * i) (draw (Mirrored o) mu sigma zs) (fun _ => 0) j - mu j = - (nth (2 * i + 1) (draw (Mirrored o) mu sigma zs) (fun _ => 0) j - mu j).
Proof.
  revert i. cbn [draw]. induction zs as [|z zs IH]; intros i Hi; [cbn in Hi; lia|]. destruct i as [|i]; [cbn; ring|].
  replace (2 * S i)%nat with (S (S (2 * i))) by lia. replace (S (S (2 * i)) + 1)%nat with (S (S (2 * i + 1))) by lia. cbn [flat_map app nth]. apply IH. cbn in Hi. lia.
Qed.
Lemma upwards_mirrored o mu sigma zs w : let ps := draw (Mirrored o) mu sigma zs in length w = length ps ->
  (forall i k, (i < length ps)%nat -> (k < length ps)%nat -> nth i w 0 - nth k w 0 = nth i (weigh (map f ps)) 0 - nth k (weigh (map f ps)) 0) ->
  0 <= dir * symmetric_mu w (coord ps j) (mu j) /\
  (separates up weigh -> (exists i k, (i < length ps)%nat /\ (k < length ps)%nat /\ nth i (coord ps j) 0 <> nth k (coord ps j) 0) ->
   0 < dir * symmetric_mu w (coord ps j) (mu j)).
Proof.
  intros ps L Dw. pose proof (drawn_length o mu sigma zs) as LP. fold ps in LP. set (m := length zs) in *.
  assert (LC : length (coord ps j) = length ps) by (unfold coord; rewrite map_length; auto).
  destruct (halves m w ltac:(lia)) as [E1 E2]. destruct (halves m (coord ps j) ltac:(lia)) as [E3 E4].
  unfold symmetric_mu. rewrite wsum_dir, map_map. rewrite wsum_sumn by (rewrite map_length, map2_len; lia). rewrite map2_len, E1, E2, Nat.min_id.
  assert (T : forall i, (i < m)%nat -> nth i (map2 (fun p q => (p - q) / 2) (evens w) (odds w)) 0 * nth i (map (fun x => dir * (x - mu j)) (evens (coord ps j))) 0 =
    (nth (2 * i) w 0 - nth (2 * i + 1) w 0) * (dir * nth (2 * i) (coord ps j) 0 - dir * nth (2 * i + 1) (coord ps j) 0) / 4).
  { intros i Hi. rewrite nth_map2_R by lia. rewrite (nth_indep (map (fun x => dir * (x - mu j)) (evens (coord ps j))) 0 (dir * (0 - mu j))) by (rewrite map_length; lia).
    rewrite (map_nth (fun x => dir * (x - mu j))), !evens_nth, odds_nth. rewrite !nth_coord_j.
    pose proof (drawn_nth o mu sigma zs i Hi) as Mi. fold ps in Mi. set (a := nth (2 * i) ps (fun _ => 0) j) in *. set (b := nth (2 * i + 1) ps (fun _ => 0) j) in *.
    replace b with (2 * mu j - a) by lra. field. }
  assert (P : forall i, (i < m)%nat -> 0 <= nth i (map2 (fun p q => (p - q) / 2) (evens w) (odds w)) 0 * nth i (map (fun x => dir * (x - mu j)) (evens (coord ps j))) 0).
  { intros i Hi. rewrite T by auto. rewrite Dw by lia. pose proof (proj1 (comonotone ps (2 * i) (2 * i + 1) ltac:(lia) ltac:(lia))). lra. }
  split; [apply sumn_nonneg; exact P|]. intros Se (i & k & Hi & Hk & Ne). apply sumn_pos; [exact P|].
  (* one of the two is not at the center, and its pair counts *)
  assert (Q : forall i, (i < length ps)%nat -> nth i (coord ps j) 0 <> mu j -> exists i0, (i0 < m)%nat /\ nth (2 * i0) (coord ps j) 0 <> nth (2 * i0 + 1) (coord ps j) 0).
  { clear i k Hi Hk Ne. intros i Hi Ne. exists (i / 2)%nat. split; [lia|]. pose proof (drawn_nth o mu sigma zs (i / 2) ltac:(fold m; lia)) as Mi. fold ps in Mi.
    rewrite <- !nth_coord_j in Mi. intro Eq. apply Ne. assert (I : i = (2 * (i / 2))%nat \/ i = (2 * (i / 2) + 1)%nat) by lia. destruct I as [-> | ->]; lra. }
  assert (Z : exists i0, (i0 < m)%nat /\ nth (2 * i0) (coord ps j) 0 <> nth (2 * i0 + 1) (coord ps j) 0).
  { destruct (Req_dec (nth i (coord ps j) 0) (mu j)) as [Ei|Ei]; [|apply (Q i); auto]. apply (Q k); auto. congruence. }
  destruct Z as (i0 & Hi0 & N0). exists i0. split; auto. rewrite T by auto. rewrite Dw by lia. pose proof (proj2 (comonotone ps (2 * i0) (2 * i0 + 1) ltac:(lia) ltac:(lia)) Se N0). lra.
Qed.
End GRAD.

(* ---- proofs: one generation ---- *)
Lemma divided o g w h : finite_result (divide_grad o g w) = Some h -> exists k, 0 < k /\ h = g / k.
Proof.
  assert (D : forall b, 0 <= b -> rdivo g b = Some h -> exists k, 0 < k /\ h = g / k).
  { intros b B. unfold rdivo. destruct (Req_EM_T b 0); [discriminate|]. intros E. injection E as <-. exists b. split; auto. lra. }
  unfold divide_grad. destruct o as [o|]; [|intros E; injection E as <-; exists 1; split; [lra|field]].
  destruct (String.eqb o "num_solutions"); [apply D, pos_INR|]. destruct (String.eqb o "num_directions"); [apply D, pos_INR|].
  destruct (String.eqb o "total_weight").
  { apply D. induction w as [|a w IH]; [cbn; lra|]. change (rsum (map Rabs (a :: w))) with (Rabs a + rsum (map Rabs w)). pose proof (Rabs_pos a). lra. }
  destruct (String.eqb o "weight_stdev"); [|discriminate]. destruct w as [|a [|b w]]; try discriminate. cbn [cstd finite_result]. apply D. unfold rstd. apply sqrt_pos.
Qed.
Lemma finite_at n v a j : (j < n)%nat -> finite n v = Some a -> v j = Some (a j).
Proof.
  intros Hj. unfold finite. destruct (forallb _ _) eqn:F; [|discriminate]. intros E. injection E as <-. rewrite forallb_forall in F. specialize (F j ltac:(apply in_seq; lia)). destruct (v j); [auto|discriminate].
Qed.
Lemma quotient_sign a k : 0 < k -> (0 <= a -> 0 <= a / k) /\ (0 < a -> 0 < a / k).
Proof. intros K. pose proof (Rinv_0_lt_compat k K). unfold Rdiv. split; intros; nra. Qed.
Lemma differ_at j (pop : list vect) : differ j pop -> exists i k, (i < length pop)%nat /\ (k < length pop)%nat /\ nth i (coord pop j) 0 <> nth k (coord pop j) 0.
Proof.
  intros (x & y & Ix & Iy & N). destruct (In_nth pop x (fun _ => 0) Ix) as (i & Hi & Ei). destruct (In_nth pop y (fun _ => 0) Iy) as (k & Hk & Ek).
  exists i, k. rewrite !nth_coord_j, Ei, Ek. auto.
Qed.
Section RUN.
Variables (n : nat) (ranking : string) (weigh : list R -> list R) (elite : list R -> list nat) (O : Type) (follow : O -> vect -> option (O * vect)).
Variables (K : kind) (stdev_lr : R) (L : limits) (dir : R) (j : nat) (up : R -> R -> Prop) (f : vect -> R) (Good : O -> Prop) (strictly : Prop).
Hypothesis Sl : slope dir j up f.
Hypothesis Re : respects up weigh.
Hypothesis Su : suitable K ranking weigh.
Hypothesis Hj : (j < n)%nat.
Hypothesis Fo : forward n dir j strictly Good follow.
Lemma gradient_up mu sigma o zs g : let s := fill O K f mu sigma o zs in mu_grad ranking weigh elite O K s j = Some g ->
  0 <= dir * g /\ (separates up weigh -> differ j (s_pop _ s) -> 0 < dir * g).
Proof.
  intros s. set (ps := draw K mu sigma zs). assert (LW : length (weigh (map f ps)) = length ps) by (rewrite (proj1 (Re _)), map_length; auto).
  unfold mu_grad, s, fill. cbn [s_pop s_fits s_mu]. fold ps. destruct K as [op|op| |]; cbn [suitable] in Su.
  - intros E. destruct (divided _ _ _ _ E) as (k & Kp & ->). clear E.
    destruct (upwards weigh dir j up f Sl Re ps (centered_weights ranking (weigh (map f ps))) (mu j)) as [U1 U2].
    { rewrite centered_length. auto. } { apply centered_zero. intros C. apply Su. auto. } { intros. apply centered_diff; lia. }
    destruct (quotient_sign (dir * plain_mu (centered_weights ranking (weigh (map f ps))) (coord ps j) (mu j)) k Kp) as [Q1 Q2].
    unfold Rdiv in *. rewrite <- Rmult_assoc. split; [apply Q1, U1|]. intros Se Df. apply Q2, U2; auto using differ_at.
  - intros E. destruct (divided _ _ _ _ E) as (k & Kp & ->). clear E.
    destruct (upwards_mirrored weigh dir j up f Sl Re op mu sigma zs (centered_weights ranking (weigh (map f ps)))) as [U1 U2].
    { rewrite centered_length. auto. } { intros i0 k0 Hi Hk. apply centered_diff; [exact (eq_ind_r (fun m => (i0 < m)%nat) Hi LW)|exact (eq_ind_r (fun m => (k0 < m)%nat) Hk LW)]. } fold ps in U1, U2.
    destruct (quotient_sign (dir * symmetric_mu (centered_weights ranking (weigh (map f ps))) (coord ps j) (mu j)) k Kp) as [Q1 Q2].
    unfold Rdiv in *. rewrite <- Rmult_assoc. split; [apply Q1, U1|]. intros Se Df. apply Q2, U2; auto using differ_at.
  - destruct (upwards weigh dir j up f Sl Re ps (weigh (map f ps)) (mu j) LW (Su _)) as [U1 U2]; [auto|]. unfold exp_weights. destruct (String.eqb ranking "nes").
    { cbn [option_map]. intros E. injection E as <-. unfold exp_mu. split; [apply U1|]. intros Se Df. apply U2; auto using differ_at. }
    destruct (Req_EM_T _ 0) as [|N]; [discriminate|]. cbn [option_map]. intros E. injection E as <-. set (T := rsum (map Rabs (weigh (map f ps)))) in *.
    assert (Tp : 0 < T). { assert (0 <= T); [|lra]. unfold T. clear. induction (weigh (map f ps)) as [|a w IH]; [cbn; lra|]. change (rsum (map Rabs (a :: w))) with (Rabs a + rsum (map Rabs w)). pose proof (Rabs_pos a). lra. }
    assert (EE : forall w xs, exp_mu (map (fun x => x / T) w) xs (mu j) = wsum w (map (fun x => x - mu j) xs) / T).
    { intros w xs. unfold exp_mu, wsum. revert xs. induction w as [|a w IH]; intros [|x xs]; try (cbn; unfold Rdiv; ring). cbn [map map2].
      change (rsum (?a :: ?l)) with (a + rsum l). unfold rsum in *. cbn [fold_right]. rewrite IH. field. lra. }
    rewrite EE. destruct (quotient_sign (dir * wsum (weigh (map f ps)) (map (fun x => x - mu j) (coord ps j))) T Tp) as [Q1 Q2].
    unfold Rdiv in *. rewrite <- Rmult_assoc. split; [apply Q1, U1|]. intros Se Df. apply Q2, U2; auto using differ_at.
  - contradiction.
Qed.
Lemma step_up mu sigma o zs zs1 s' : let s := fill O K f mu sigma o zs in Good o -> step n ranking weigh elite O follow K stdev_lr L f s zs1 = Some s' ->
  Good (s_opt _ s') /\ (exists mu' sigma' o', s' = fill O K f mu' sigma' o' zs1) /\
  dir * s_mu _ s j <= dir * s_mu _ s' j /\ (strictly -> separates up weigh -> differ j (s_pop _ s) -> dir * s_mu _ s j < dir * s_mu _ s' j).
Proof.
  intros s Go. unfold step. destruct (finite n (mu_grad ranking weigh elite O K s)) as [gm|] eqn:E1; [|discriminate].
  destruct (finite n (sigma_grad ranking weigh elite O K s)) as [gs|]; [|discriminate]. destruct (gradient_up mu sigma o zs (gm j) (finite_at _ _ _ _ Hj E1)) as [U1 U2].
  destruct (follow (s_opt O s) gm) as [[o1 d]|] eqn:E3; [|discriminate]. intros E. injection E as <-. destruct (Fo _ _ _ _ Go U1 E3) as (F1 & F2 & F3).
  split; [exact F1|]. split; [eauto|]. subst s; cbn [fill s_mu]. split; [lra|]. intros St Se Df. specialize (F3 St (U2 Se Df)). lra.
Qed.
Lemma run_up : forall draws mu sigma o zs, Good o -> forall s s', consecutive (search n ranking weigh elite O follow K stdev_lr L f mu sigma o zs draws) s s' ->
  dir * s_mu _ s j <= dir * s_mu _ s' j /\ (strictly -> separates up weigh -> differ j (s_pop _ s) -> dir * s_mu _ s j < dir * s_mu _ s' j).
Proof.
  unfold search. induction draws as [|zs1 draws IH]; intros mu sigma o zs Go s s' (i & A & B); cbn [steps] in A, B; [destruct i; discriminate|].
  destruct (step n ranking weigh elite O follow K stdev_lr L f (fill O K f mu sigma o zs) zs1) as [s1|] eqn:E; [|destruct i; discriminate].
  destruct (step_up mu sigma o zs zs1 s1 Go E) as (G1 & (mu' & sigma' & o' & ->) & S). destruct i as [|i].
  - cbn [nth_error] in A, B. injection A as <-. destruct draws; cbn [steps nth_error] in B; injection B as <-; exact S.
  - apply (IH mu' sigma' o' zs1 G1). exists i. auto.
Qed.
End RUN.

(* ---- proofs: optimizers ---- *)
Lemma rate_forward n dir j : forward n dir j True (fun lr => 0 < lr) follow_rate.
Proof. intros lr g lr' d P G E. injection E as <- <-. split; auto. split; [|intros _ G']; replace (dir * (lr * g j)) with (lr * (dir * g j)) by ring; nra. Qed.
Lemma nth_add a b i : length a = length b -> nth i (add a b) 0 = nth i a 0 + nth i b 0.
Proof.
  intros E. destruct (Nat.lt_ge_cases i (length a)) as [H|H]; [apply nth_map2_R; lia|]. rewrite !nth_overflow; try lia; [ring|]. unfold add. rewrite map2_len. lia.
Qed.
Lemma nth_mult (h : R -> R) a i : h 0 = 0 -> nth i (map h a) 0 = h (nth i a 0).
Proof. intros Z. rewrite <- Z at 1. apply map_nth. Qed.
Definition good_clipup n dir j (c : clipup) : Prop :=
  0 < stepsize c /\ 0 <= momentum c /\ 0 < max_speed c /\ solution_length c = n /\ match velocity c with Some v => length v = n /\ 0 <= dir * nth j v 0 | None => True end.
Lemma clipup_forward n dir j : (j < n)%nat -> forward n dir j True (good_clipup n dir j) (follow_clipup n).
Proof.
  intros Hj c g c' d (H1 & H2 & H3 & H4 & H5) G. unfold follow_clipup, ascent. rewrite map_length, seq_length, H4, Nat.eqb_refl. cbv zeta. unfold unit_of.
  set (l := map g (seq 0 n)). assert (Ll : length l = n) by (subst l; rewrite map_length, seq_length; auto).
  assert (Gl : nth j l 0 = g j) by (subst l; rewrite (nth_indep _ 0 (g 0%nat)) by lia; rewrite map_nth, seq_nth by auto; auto).
  destruct (velocity c) as [v|] eqn:V; [|destruct (Req_EM_T (norm l) 0); discriminate]. destruct H5 as [Lv Pv].
  destruct (Req_EM_T (norm l) 0) as [|N]; [discriminate|]. pose proof (norm_nonneg l) as Np.
  cbn [vscale vadd clip]. set (r := add _ _). assert (Lr : length r = n) by (subst r; unfold add; rewrite map2_len; unfold scale; rewrite !map_length; lia).
  assert (Er : nth j r 0 = momentum c * nth j v 0 + g j / norm l * stepsize c).
  { subst r. rewrite nth_add by (unfold scale; rewrite !map_length; lia). unfold scale. rewrite !nth_mult by (unfold Rdiv; ring). rewrite Gl. reflexivity. }
  assert (Q : 0 < / norm l) by (apply Rinv_0_lt_compat; lra).
  assert (Pr : 0 <= dir * nth j r 0 /\ (0 < dir * g j -> 0 < dir * nth j r 0)).
  { rewrite Er. replace (dir * (momentum c * nth j v 0 + g j / norm l * stepsize c)) with (momentum c * (dir * nth j v 0) + (dir * g j) * (/ norm l * stepsize c)) by (unfold Rdiv; ring).
    assert (0 < / norm l * stepsize c) by (apply Rmult_lt_0_compat; auto). assert (0 <= momentum c * (dir * nth j v 0)) by (apply Rmult_le_pos; auto). split; [|intros]; nra. }
  destruct Pr as [P1 P2]. destruct (Rlt_dec (max_speed c) (norm r)) as [Cl|Cl]; intros E; injection E as <- <-.
  - assert (0 < max_speed c / norm r) by (apply Rdiv_lt_0_compat; lra). rewrite nth_mult by ring.
    replace (dir * (nth j r 0 * (max_speed c / norm r))) with ((dir * nth j r 0) * (max_speed c / norm r)) by ring. split; [|split; [nra|intros _ Gp; specialize (P2 Gp); nra]].
    repeat (split; [solve [auto]|]). cbn [velocity]. rewrite map_length. split; auto. rewrite nth_mult by ring. replace (dir * (nth j r 0 * (max_speed c / norm r))) with ((dir * nth j r 0) * (max_speed c / norm r)) by ring. nra.
  - split; [|split; [exact P1|auto]]. repeat (split; [solve [auto]|]). cbn [velocity]. auto.
Qed.
(* Adam and SGD *)
Definition good_num (dir : R) (x : option R) : Prop := match x with Some a => 0 <= dir * a | None => True end.
Definition good_torch n dir j (damped : Prop) (w : wrapped) : Prop :=
  match w with
  | WAdam a => length (ta_cells a) = n /\ 0 < ta_lr a /\ (0 <= ta_beta1 a < 1) /\ 0 <= ta_eps a /\ forall c, nth_error (ta_cells a) j = Some c -> good_num dir (c_m c)
  | WSgd s => ts_n s = n /\ 0 < ts_lr s /\ 0 <= ts_momentum s /\ ts_dampening s <= 1 /\ (damped -> ts_dampening s < 1) /\
      match ts_buf s with None => True | Some b => length b = n /\ good_num dir (nth j b None) end
  end.
Lemma adam_cell_forward dir a c g t x : (1 <= t)%nat -> 0 < ta_lr a -> 0 <= ta_beta1 a < 1 -> 0 <= ta_eps a -> good_num dir (c_m c) -> 0 <= dir * g ->
  nmul (Some (-1)) (snd (tadam_cell a t c (Some g) (Some 0))) = Some x ->
  good_num dir (c_m (fst (tadam_cell a t c (Some g) (Some 0)))) /\ 0 <= dir * x /\ (0 < dir * g -> 0 < dir * x).
Proof.
  intros Ht Lr [B1 B2] Ep Gc Gg. unfold tadam_cell. cbv zeta. cbn [fst snd c_m]. set (v := if ta_amsgrad a then _ else _). clearbody v.
  destruct (c_m c) as [m|]; [|destruct (ndiv (Some (ta_lr a)) _); discriminate]. cbn [nlift nadd nsub nmul good_num] in *.
  set (m' := m + (1 - ta_beta1 a) * (g - m)). assert (Em : dir * m' = ta_beta1 a * (dir * m) + (1 - ta_beta1 a) * (dir * g)) by (subst m'; ring).
  assert (Pm : 0 <= dir * m') by (rewrite Em; assert (0 <= ta_beta1 a * (dir * m)) by (apply Rmult_le_pos; auto); nra).
  assert (Pm' : 0 < dir * g -> 0 < dir * m') by (intros; rewrite Em; assert (0 <= ta_beta1 a * (dir * m)) by (apply Rmult_le_pos; auto); nra).
  clearbody m'. cbn [ndiv]. destruct (Req_EM_T (1 - ta_beta1 a ^ t) 0) as [|N1]; [discriminate|].
  assert (Bt : ta_beta1 a ^ t <= 1). { apply Rle_trans with (1 ^ t); [apply pow_incr; lra|rewrite pow1; lra]. }
  assert (Q1 : 0 < ta_lr a / (1 - ta_beta1 a ^ t)) by (apply Rdiv_lt_0_compat; lra).
  destruct (nadd _ _) as [dn|] eqn:D; [|discriminate]. assert (Dp : 0 <= dn).
  { unfold nadd, nlift in D. destruct (nsqrt v) as [sv|] eqn:V; [|discriminate]. destruct (nsqrt (Some _)) as [sb|] eqn:Bb; [|discriminate]. cbn [ndiv] in D. destruct (Req_EM_T sb 0) as [|Nb]; [discriminate|]. injection D as <-.
    assert (0 <= sv). { unfold nsqrt in V. destruct v as [v|]; [|discriminate]. destruct (Rlt_dec v 0); [discriminate|]. injection V as <-. apply sqrt_pos. }
    assert (0 <= sb). { unfold nsqrt in Bb. destruct (Rlt_dec _ 0); [discriminate|]. injection Bb as <-. apply sqrt_pos. }
    assert (0 < / sb) by (apply Rinv_0_lt_compat; lra). assert (0 <= sv / sb) by (unfold Rdiv; nra). lra. }
  cbn [ndiv]. destruct (Req_EM_T dn 0) as [|Nd]; [discriminate|]. cbn [nlift nsub nmul]. intros E. injection E as <-. split; [exact Pm|].
  assert (Q2 : 0 < / dn) by (apply Rinv_0_lt_compat; lra). set (q := ta_lr a / (1 - ta_beta1 a ^ t)) in *.
  replace (dir * (-1 * (0 - q * (m' / dn)))) with ((dir * m') * (q * / dn)) by (unfold Rdiv; ring). assert (0 < q * / dn) by (apply Rmult_lt_0_compat; auto). split; [nra|]. intros Gp. specialize (Pm' Gp). nra.
Qed.
Lemma nth_error_map3 {A B C D} (h : A -> B -> C -> D) : forall a b c i, nth_error (map3 h a b c) i = match nth_error a i, nth_error b i, nth_error c i with Some x, Some y, Some z => Some (h x y z) | _, _, _ => None end.
Proof. induction a as [|x a IH]; intros [|y b] [|z c] [|i]; cbn; auto; repeat (destruct (nth_error _ i); auto). Qed.
Lemma nth_of_error {A} (d : A) l i : nth i l d = match nth_error l i with Some x => x | None => d end.
Proof. revert i. induction l as [|a l IH]; intros [|i]; cbn; auto. Qed.
Lemma gradient_at n (g : vect) j : (j < n)%nat -> nth_error (map (fun j => Some (g j)) (seq 0 n)) j = Some (Some (g j)).
Proof. intros H. rewrite nth_error_map. rewrite (nth_error_nth' _ 0%nat) by (rewrite seq_length; auto). rewrite seq_nth by auto. reflexivity. Qed.
Lemma zero_at n j : (j < n)%nat -> nth_error (repeat (Some 0) n) j = Some (Some 0).
Proof. intros H. rewrite (nth_error_nth' _ (Some 0)) by (rewrite repeat_length; auto). rewrite nth_repeat. reflexivity. Qed.
Lemma map3_length {A B C D} (h : A -> B -> C -> D) : forall a b c n, length a = n -> length b = n -> length c = n -> length (map3 h a b c) = n.
Proof. induction a as [|x a IH]; intros [|y b] [|z c] n H1 H2 H3; cbn in *; subst; try discriminate; auto. Qed.
Lemma nth_map2_num (h : option R -> option R -> option R) a b i : (i < length a)%nat -> (i < length b)%nat -> nth i (map2 h a b) None = h (nth i a None) (nth i b None).
Proof. revert b i. induction a as [|x a IH]; intros [|y b] [|i] H1 H2; cbn in *; try lia; auto. apply IH; lia. Qed.
Lemma torch_forward n dir j damped : (j < n)%nat -> forward n dir j damped (good_torch n dir j damped) (follow_torch n).
Proof.
  intros Hj w g w' d Gw G. unfold follow_torch, torch_ascent. rewrite map_length, seq_length. destruct w as [a|s]; cbn [good_torch wrapped_length wrapped_step] in *.
  - destruct Gw as (H1 & H2 & H3 & H4 & H5). rewrite H1, Nat.eqb_refl. cbn [negb]. unfold tadam_step. cbv zeta. cbn [fst snd].
    set (r := map3 _ _ _ _). destruct (finite n _) as [v|] eqn:F; cbn [option_map]; [|discriminate]. intros E. injection E as <- <-.
    pose proof (finite_at _ _ _ _ Hj F) as Fj. cbv beta in Fj. rewrite nth_of_error, !nth_error_map in Fj.
    assert (Er : nth_error r j = match nth_error (ta_cells a) j with Some c => Some (tadam_cell a (S (ta_t a)) c (Some (g j)) (Some 0)) | None => None end).
    { subst r. rewrite nth_error_map3, gradient_at, zero_at by auto. reflexivity. }
    destruct (nth_error (ta_cells a) j) as [c|] eqn:Ec; rewrite Er in Fj; cbn [option_map] in Fj; [|discriminate].
    destruct (adam_cell_forward dir a c (g j) (S (ta_t a)) (v j) ltac:(lia) H2 H3 H4 (H5 c eq_refl) G Fj) as (A1 & A2 & A3).
    split; [|auto]. cbn [good_torch ta_cells ta_lr ta_beta1 ta_eps]. split.
    { rewrite map_length. subst r. apply map3_length; auto; [rewrite map_length, seq_length; auto|apply repeat_length]. }
    repeat (split; [assumption|]). intros c' Ec'. rewrite nth_error_map, Er in Ec'. cbn [option_map] in Ec'. injection Ec' as <-. exact A1.
  - destruct Gw as (H1 & H2 & H3 & H4 & H5 & H6). rewrite H1, Nat.eqb_refl. cbn [negb]. set (gl := map (fun j => Some (g j)) (seq 0 n)).
    assert (Lg : length gl = n) by (subst gl; rewrite map_length, seq_length; auto).
    assert (Eg : nth j gl None = Some (g j)) by (subst gl; rewrite nth_of_error, gradient_at by auto; auto).
    assert (Mv : forall b x, length b = n -> nth j (map (fun x => nmul (Some (-1)) x) (map2 (fun p d => nsub p (nmul (Some (ts_lr s)) d)) (repeat (Some 0) n) b)) None = Some x ->
      exists y, nth j b None = Some y /\ x = ts_lr s * y).
    { intros b x Lb. change None with (nmul (Some (-1)) None) at 1. rewrite (map_nth (fun x => nmul (Some (-1)) x)), nth_map2_num by (rewrite ?repeat_length; lia).
      rewrite (nth_of_error None (repeat _ _)), zero_at by auto. destruct (nth j b None) as [y|]; cbn; [|discriminate]. intros E. injection E as <-. exists y. split; auto. ring. }
    assert (Fin : forall y, 0 <= dir * y -> 0 <= dir * (ts_lr s * y)) by (intros y P; replace (dir * (ts_lr s * y)) with (ts_lr s * (dir * y)) by ring; nra).
    assert (Fin' : forall y, 0 < dir * y -> 0 < dir * (ts_lr s * y)) by (intros y P; replace (dir * (ts_lr s * y)) with (ts_lr s * (dir * y)) by ring; nra).
    unfold tsgd_step. cbv zeta. destruct (Req_EM_T (ts_momentum s) 0) as [M0|M0]; cbn [fst snd].
    { destruct (finite n _) as [v|] eqn:F; cbn [option_map]; [|discriminate]. intros E. injection E as <- <-. pose proof (finite_at _ _ _ _ Hj F) as Fj. cbv beta in Fj.
      destruct (Mv gl (v j) Lg Fj) as (y & Ey & ->). rewrite Eg in Ey. injection Ey as <-. split; [cbn [good_torch]; auto 10|]. split; auto. }
    set (B := match ts_buf s with None => gl | Some b => _ end).
    assert (BB : length B = n /\ good_num dir (nth j B None) /\ (damped -> 0 < dir * g j -> forall y, nth j B None = Some y -> 0 < dir * y)).
    { subst B. destruct (ts_buf s) as [b|].
      - destruct H6 as [Lb Gb]. split; [rewrite map2_len; lia|]. rewrite nth_map2_num by lia. rewrite Eg. destruct (nth j b None) as [y|]; cbn; [|split; auto; discriminate]. cbn in Gb.
        assert (0 <= ts_momentum s * (dir * y)) by (apply Rmult_le_pos; auto). assert (0 <= (1 - ts_dampening s) * (dir * g j)) by (apply Rmult_le_pos; auto; lra).
        split; [lra|]. intros Dd Gp z E. injection E as <-. specialize (H5 Dd). assert (0 < (1 - ts_dampening s) * (dir * g j)) by (apply Rmult_lt_0_compat; auto; lra). lra.
      - split; auto. rewrite Eg. split; [exact G|]. intros _ Gp y E. injection E as <-. auto. }
    destruct BB as (LB & GB & SB).
    assert (Gn : good_torch n dir j damped (WSgd (mkTSgd (ts_lr s) (ts_momentum s) (ts_dampening s) (ts_nesterov s) (ts_n s) (Some B)))) by (cbn; auto 10).
    destruct (finite n _) as [v|] eqn:F; cbn [option_map]; [|discriminate]. intros E. injection E as <- <-. pose proof (finite_at _ _ _ _ Hj F) as Fj. cbv beta in Fj. split; [exact Gn|].
    destruct (ts_nesterov s).
    + destruct (Mv (map2 (fun g b => nadd g (nmul (Some (ts_momentum s)) b)) gl B) (v j) ltac:(rewrite map2_len; lia) Fj) as (y & Ey & ->). rewrite nth_map2_num, Eg in Ey by lia. destruct (nth j B None) as [z|]; cbn in Ey; [|discriminate]. injection Ey as <-. cbn in GB.
      assert (P0 : 0 <= ts_momentum s * (dir * z)) by (apply Rmult_le_pos; auto). split; [apply Fin|intros _ Gp; apply Fin']; replace (dir * (g j + ts_momentum s * z)) with (dir * g j + ts_momentum s * (dir * z)) by ring; lra.
    + destruct (Mv B (v j) LB Fj) as (y & Ey & ->). rewrite Ey in GB, SB. cbn in GB. split; [apply Fin; auto|]. intros Dd Gp. apply Fin'. apply SB; auto.
Qed.

(* ---- proofs: what may go wrong ---- *)
Lemma rsum_same {X} (l : list X) c : rsum (map (fun _ => c) l) = INR (length l) * c.
Proof. induction l as [|a l IH]; [cbn; ring|]. cbn [map length]. rewrite S_INR. unfold rsum in *. cbn [fold_right]. rewrite IH. ring. Qed.
Lemma finite_some n v a : (forall j, (j < n)%nat -> v j = Some (a j)) -> exists a', finite n v = Some a' /\ forall j, (j < n)%nat -> a' j = a j.
Proof.
  intros H. unfold finite. assert (F : forallb (fun j => match v j with Some _ => true | None => false end) (seq 0 n) = true).
  { apply forallb_forall. intros j I. apply in_seq in I. rewrite H by lia. reflexivity. }
  rewrite F. eexists. split; [reflexivity|]. intros j Hj. cbv beta. rewrite H by auto. reflexivity.
Qed.
Lemma step_down n ranking weigh elite K stdev_lr L dir j f mu sigma lr zs zs1 : let s := fill R K f mu sigma lr zs in (j < n)%nat -> 0 < lr -> 0 < sigma j -> dir = 1 \/ dir = -1 ->
  (forall i, (i < n)%nat -> mu_grad ranking weigh elite R K s i = Some (- dir * sigma i)) -> (exists gs, finite n (sigma_grad ranking weigh elite R K s) = Some gs) ->
  exists s', search n ranking weigh elite R follow_rate K stdev_lr L f mu sigma lr zs [zs1] = [s; s'] /\ dir * s_mu _ s' j < dir * s_mu _ s j.
Proof.
  intros s Hj P Sg D G (gs & Gs). destruct (finite_some n _ _ G) as (gm & Gm & Em). unfold search. cbn [steps]. fold s. unfold step. rewrite Gm, Gs. cbn [follow_rate s_opt]. 
  eexists. split; [reflexivity|]. subst s. cbn [fill s_mu s_opt]. rewrite Em by auto. destruct D as [-> | ->]; nra.
Qed.
Lemma cmean_same {X} (l : list X) c : l <> [] -> cmean (map (fun _ => c) l) = Some c.
Proof. intros N. destruct l as [|a l]; [congruence|]. cbn [map cmean]. f_equal. change (c :: map (fun _ => c) l) with (map (fun _ => c) (a :: l)). unfold rmean. rewrite map_length, rsum_same. field. apply not_0_INR. discriminate. Qed.

(* ---- theorems ---- *)
(* with a learning rate instead of an optimizer: no generation moves the center against the slope, and one in which the slope was seen moves it up *)
Theorem C205_rate_partial n ranking weigh elite K stdev_lr L dir j up f mu sigma lr zs draws : slope dir j up f -> respects up weigh -> suitable K ranking weigh -> (j < n)%nat -> 0 < lr ->
  forall s s', consecutive (search n ranking weigh elite R follow_rate K stdev_lr L f mu sigma lr zs draws) s s' ->
  dir * s_mu _ s j <= dir * s_mu _ s' j /\ (separates up weigh -> differ j (s_pop _ s) -> dir * s_mu _ s j < dir * s_mu _ s' j).
Proof.
  intros Sl Re Su Hj P s s' C. destruct (run_up n ranking weigh elite R follow_rate K stdev_lr L dir j up f (fun lr => 0 < lr) True Sl Re Su Hj (rate_forward n dir j) draws mu sigma lr zs P s s' C). auto.
Qed.
(* with ClipUp, whatever its momentum and its maximum speed *)
Theorem C205_clipup_partial n ranking weigh elite K stdev_lr L dir j up f mu sigma step mom speed c zs draws : slope dir j up f -> respects up weigh -> suitable K ranking weigh -> (j < n)%nat ->
  clipup_init n step mom speed = Ok c -> 0 < step -> (forall v, speed = Some v -> 0 < v) ->
  forall s s', consecutive (search n ranking weigh elite clipup (follow_clipup n) K stdev_lr L f mu sigma c zs draws) s s' ->
  dir * s_mu _ s j <= dir * s_mu _ s' j /\ (separates up weigh -> differ j (s_pop _ s) -> dir * s_mu _ s j < dir * s_mu _ s' j).
Proof.
  intros Sl Re Su Hj I P Q s s' C. assert (Go : good_clipup n dir j c).
  { unfold clipup_init in I. destruct (Rlt_dec step 0); [discriminate|]. destruct (Rlt_dec mom 0); [discriminate|]. destruct (Rlt_dec 1 mom); [discriminate|]. destruct (Rlt_dec _ 0); [discriminate|]. injection I as <-.
    unfold good_clipup. cbn. split; auto. split; [lra|]. split; [destruct speed as [v|]; [apply Q; auto|lra]|]. split; auto. rewrite repeat_length. split; auto. rewrite nth_repeat. lra. }
  destruct (run_up n ranking weigh elite clipup (follow_clipup n) K stdev_lr L dir j up f _ True Sl Re Su Hj (clipup_forward n dir j Hj) draws mu sigma c zs Go s s' C). auto.
Qed.
(* with Adam *)
Theorem C205_adam_partial n ranking weigh elite K stdev_lr L dir j up f mu sigma step beta1 beta2 eps amsgrad w zs draws : slope dir j up f -> respects up weigh -> suitable K ranking weigh -> (j < n)%nat ->
  adam_class n step beta1 beta2 eps amsgrad = Ok w -> (forall v, step = Some v -> 0 < v) ->
  forall s s', consecutive (search n ranking weigh elite wrapped (follow_torch n) K stdev_lr L f mu sigma w zs draws) s s' ->
  dir * s_mu _ s j <= dir * s_mu _ s' j /\ (separates up weigh -> differ j (s_pop _ s) -> dir * s_mu _ s j < dir * s_mu _ s' j).
Proof.
  intros Sl Re Su Hj I P s s' C. assert (Go : good_torch n dir j True w).
  { unfold adam_class in I. destruct (match beta1, beta2 with None, None => _ | _, _ => _ end) as [betas|]; [|discriminate]. cbn [bind] in I. unfold tadam_init in I.
    set (lr := match step with None => 1 / 1000 | Some x => x end) in *. assert (0 < lr) by (subst lr; destruct step; [apply P; auto|lra]). clearbody lr.
    destruct (Rlt_dec lr 0); [discriminate|]. destruct (Rlt_dec _ 0) as [|Ep]; [discriminate|]. destruct (in_unit (fst _)) eqn:B1; [|discriminate]. destruct (in_unit (snd _)); [|discriminate]. cbn in I. injection I as <-.
    cbn [good_torch ta_cells ta_lr ta_beta1 ta_eps]. rewrite repeat_length. split; auto. split; auto. split.
    { unfold in_unit in B1. destruct (Rlt_dec _ 0); [discriminate|]. destruct (Rlt_dec _ 1); [|discriminate]. lra. }
    split; [lra|]. intros c E. apply nth_error_In, repeat_spec in E. subst c. cbn. lra. }
  destruct (run_up n ranking weigh elite wrapped (follow_torch n) K stdev_lr L dir j up f _ True Sl Re Su Hj (torch_forward n dir j True Hj) draws mu sigma w zs Go s s' C). auto.
Qed.
(* with SGD: with full dampening the buffer of the momentum forgets the gradients, and only the first claim remains *)
Theorem C205_sgd_partial n ranking weigh elite K stdev_lr L dir j up f mu sigma step mom damp nesterov w zs draws : slope dir j up f -> respects up weigh -> suitable K ranking weigh -> (j < n)%nat ->
  sgd_class n step mom damp nesterov = Ok w -> 0 < step -> (forall v, damp = Some v -> v <= 1) ->
  forall s s', consecutive (search n ranking weigh elite wrapped (follow_torch n) K stdev_lr L f mu sigma w zs draws) s s' ->
  dir * s_mu _ s j <= dir * s_mu _ s' j /\ ((forall v, damp = Some v -> v < 1) -> separates up weigh -> differ j (s_pop _ s) -> dir * s_mu _ s j < dir * s_mu _ s' j).
Proof.
  intros Sl Re Su Hj I P Q s s' C. assert (Go : good_torch n dir j (forall v, damp = Some v -> v < 1) w).
  { unfold sgd_class, tsgd_init in I. destruct (Rlt_dec step 0); [discriminate|]. destruct (Rlt_dec _ 0) as [|M]; [discriminate|]. destruct (_ && _)%bool; [discriminate|]. cbn in I. injection I as <-.
    cbn. split; auto. split; auto. split; [lra|]. split; [destruct damp; [apply Q; auto|lra]|]. split; [|auto]. intros D. destruct damp; [apply D; auto|lra]. }
  exact (run_up n ranking weigh elite wrapped (follow_torch n) K stdev_lr L dir j up f _ _ Sl Re Su Hj (torch_forward n dir j _ Hj) draws mu sigma w zs Go s s' C).
Qed.
(* CEM, and SNES with a ranking whose weights do not add up to 0, move the center to where the solutions are: whatever the fitness function is, with unlucky
   draws the center gets worse *)
Theorem C205_cem_refuted n ranking weigh elite stdev_lr L dir j f mu sigma lr popsize zs1 : dir = 1 \/ dir = -1 -> (j < n)%nat -> 0 < lr -> 0 < sigma j ->
  (forall l, length l = popsize -> (2 <= length (elite l))%nat /\ forall i, In i (elite l) -> (i < popsize)%nat) ->
  exists zs s s', length zs = popsize /\ search n ranking weigh elite R follow_rate Elites stdev_lr L f mu sigma lr zs [zs1] = [s; s'] /\ dir * s_mu _ s' j < dir * s_mu _ s j.
Proof.
  intros D Hj P Sg El. exists (repeat (fun _ => - dir) popsize). set (zs := repeat _ _). set (s := fill R Elites f mu sigma lr zs). exists s.
  assert (Lz : length zs = popsize) by (apply repeat_length).
  assert (Lf : length (s_fits R s) = popsize) by (subst s; cbn; rewrite !map_length; auto). destruct (El _ Lf) as [E1 E2].
  assert (Ch : forall i, coord (chosen elite R s) i = map (fun _ => mu i + sigma i * - dir) (elite (s_fits R s))).
  { intros i. unfold coord, chosen. rewrite map_map. apply map_ext_in. intros e Ie. apply E2 in Ie. subst s. cbn [fill s_pop draw].
    rewrite (nth_indep _ _ ((fun (z : vect) (j : nat) => mu j + sigma j * z j) (fun _ => - dir))) by (rewrite map_length; lia).
    rewrite (map_nth (fun (z : vect) (j : nat) => mu j + sigma j * z j)). subst zs. rewrite nth_repeat. reflexivity. }
  destruct (step_down n ranking weigh elite Elites stdev_lr L dir j f mu sigma lr zs zs1 Hj P Sg D) as (s' & A & B).
  - intros i Hi. unfold mu_grad. fold s. rewrite Ch, cmean_same by (intro Z; rewrite Z in E1; cbn in E1; lia). cbn [option_map]. subst s. cbn [fill s_mu]. f_equal. ring.
  - assert (H : forall i, (i < n)%nat -> exists x, sigma_grad ranking weigh elite R Elites s i = Some x).
    { intros i Hi. unfold sigma_grad. rewrite Ch. destruct (elite (s_fits R s)) as [|a [|b l]]; cbn in E1; try lia. cbn [map cstd option_map]. eauto. }
    destruct (finite_some n (sigma_grad ranking weigh elite R Elites s) (fun i => match sigma_grad ranking weigh elite R Elites s i with Some x => x | None => 0 end)) as (gs & Gs & _); [|eauto].
    intros i Hi. destruct (H i Hi) as [x ->]. reflexivity.
  - exists s'. auto.
Qed.
Theorem C205_snes_refuted n ranking weigh elite stdev_lr L dir j f mu sigma lr popsize zs1 : dir = 1 \/ dir = -1 -> (j < n)%nat -> 0 < lr -> (forall i, (i < n)%nat -> 0 < sigma i) ->
  ranking <> "nes"%string -> (forall l, length l = popsize -> length (weigh l) = popsize /\ Forall (fun w => 0 <= w) (weigh l) /\ 0 < rsum (weigh l)) ->
  exists zs s s', length zs = popsize /\ search n ranking weigh elite R follow_rate Exponential stdev_lr L f mu sigma lr zs [zs1] = [s; s'] /\ dir * s_mu _ s' j < dir * s_mu _ s j.
Proof.
  intros D Hj P Sg Nn We. exists (repeat (fun _ => - dir) popsize). set (zs := repeat _ _). set (s := fill R Exponential f mu sigma lr zs). exists s.
  assert (Lz : length zs = popsize) by (apply repeat_length).
  assert (Lf : length (s_fits R s) = popsize) by (subst s; cbn; rewrite !map_length; auto). destruct (We _ Lf) as (W1 & W2 & W3).
  assert (Ew : exp_weights ranking (weigh (s_fits R s)) = Some (map (fun x => x / rsum (weigh (s_fits R s))) (weigh (s_fits R s)))).
  { unfold exp_weights. rewrite (proj2 (String.eqb_neq _ _) Nn). assert (Ab : map Rabs (weigh (s_fits R s)) = weigh (s_fits R s)).
    { clear - W2. induction W2 as [|a l H _ IH]; [reflexivity|]. cbn. rewrite IH, Rabs_right by lra. reflexivity. }
    rewrite Ab. destruct (Req_EM_T _ 0); [lra|reflexivity]. }
  destruct (step_down n ranking weigh elite Exponential stdev_lr L dir j f mu sigma lr zs zs1 Hj P (Sg j Hj) D) as (s' & A & B).
  - intros i Hi. unfold mu_grad. fold s. rewrite Ew. cbn [option_map]. f_equal.
    assert (Co : coord (s_pop R s) i = repeat (mu i + sigma i * - dir) popsize).
    { subst s zs. cbn [fill s_pop draw]. unfold coord. rewrite map_map. clear. induction popsize as [|m IH]; [reflexivity|]. cbn [repeat map]. rewrite IH. reflexivity. }
    rewrite Co. set (T := rsum (weigh (s_fits R s))) in *. unfold exp_mu. change (s_mu R s i) with (mu i).
    assert (Q : forall w m, length w = m -> wsum (map (fun x => x / T) w) (map (fun x => x - mu i) (repeat (mu i + sigma i * - dir) m)) = rsum w / T * (- dir * sigma i)).
    { induction w as [|a w IH]; intros [|m] Em; try discriminate; [unfold wsum, rsum; cbn; unfold Rdiv; ring|]. cbn [map repeat]. unfold wsum in *. cbn [map2]. unfold rsum in *. cbn [fold_right]. rewrite IH by (injection Em; auto). unfold Rdiv. ring. }
    rewrite (Q _ _ W1). fold T; field; lra.
  - destruct (finite_some n (sigma_grad ranking weigh elite R Exponential s) (fun i => match sigma_grad ranking weigh elite R Exponential s i with Some x => x | None => 0 end)) as (gs & Gs & _); [|eauto].
    intros i Hi. unfold sigma_grad. rewrite Ew. cbn [option_map nonzero]. unfold nonzero. subst s. cbn [fill s_sigma]. specialize (Sg i Hi). destruct (Req_EM_T (sigma i) 0); [lra|reflexivity].
  - exists s'. auto.
Qed.
Print Assumptions C205_rate_partial.
Print Assumptions C205_clipup_partial.
Print Assumptions C205_adam_partial.
Print Assumptions C205_sgd_partial.
Print Assumptions C205_cem_refuted.
Print Assumptions C205_snes_refuted.

(* weights by the sign of the difference with the mean fitness: an instance of the hypotheses; "raw" does the same up to a factor *)
Example raw_suits : let weigh := fun l => map (fun x => x - rmean l) l in
  slope 1 0 Rlt (fun x => x 0%nat) /\ respects Rlt weigh /\ separates Rlt weigh /\ balanced weigh /\ suitable (Mirrored (Build_options None None)) "raw" weigh.
Proof.
  cbv zeta. assert (B : balanced (fun l => map (fun x => x - rmean l) l)) by (intros l; apply (centered_zero "raw" l); discriminate).
  assert (Q : forall l i k, (i < length l)%nat -> (k < length l)%nat -> nth i l 0 < nth k l 0 -> nth i (map (fun x => x - rmean l) l) 0 < nth k (map (fun x => x - rmean l) l) 0).
  { intros l i k Hi Hk H. pose proof (shifted_diff (rmean l) l i k Hi Hk). lra. }
  split; [split; [auto|intros; lra]|]. split; [intros l; split; [apply map_length|intros; left; apply Q; auto]|]. split; [exact Q|]. split; [exact B|]. intros _. exact B.
Qed.
(* one generation of PGPE in one dimension: draw 1 and its mirror image *)
Example one_generation : let weigh := fun l => map (fun x => x - rmean l) l in
  exists s s', consecutive (search 1 "raw" weigh (fun _ => []) R follow_rate (Mirrored (Build_options None None)) 0 (Limits None None None) (fun x => x 0%nat) (fun _ => 0) (fun _ => 1) 1
    [fun _ => 1] [[fun _ => 1]]) s s' /\ s_mu _ s 0%nat = 0 /\ 0 < s_mu _ s' 0%nat.
Proof.
  cbv zeta. unfold search. cbn [steps]. unfold step, finite. cbn [seq forallb]. unfold mu_grad, sigma_grad, nonzero. cbn -[Rplus Rminus Rmult Rdiv centered_weights rmean].
  destruct (Req_EM_T 1 0) as [|_]; [lra|]. cbn -[Rplus Rminus Rmult Rdiv centered_weights rmean].
  eexists. eexists. split; [exists 0%nat; split; reflexivity|]. cbn -[Rplus Rminus Rmult Rdiv centered_weights rmean]. split; [reflexivity|].
  unfold centered_weights, is_centering, symmetric_mu, wsum, rmean, rsum. cbn. lra.
Qed.
(* "linear" weights of two solutions meet the hypotheses of the refutation for SNES, and two elites those of the one for CEM *)
Example linear_suits : forall l : list R, length l = 2%nat -> let w := (fun _ => [0; 1]) l in length w = 2%nat /\ Forall (fun w => 0 <= w) w /\ 0 < rsum w.
Proof. intros l _. cbn. repeat split; [|unfold rsum; cbn; lra]. repeat constructor; lra. Qed.
Example elites_suit : forall l : list R, length l = 2%nat -> let e := (fun _ => [0%nat; 1%nat]) l in (2 <= length e)%nat /\ forall i, In i e -> (i < 2)%nat.
Proof. intros l _. cbn. split; [lia|]. intros i [<-|[<-|[]]]; lia. Qed.

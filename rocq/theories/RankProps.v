(* Fitness rankings: properties C21, C69, C70. *)
From Coq Require Import QArith Reals Lra.
From Verif Require Import Prelude FloatLib BatchSpec BatchProofs RankModel RankSpec RankProofs.
Close Scope Q_scope.
Open Scope nat_scope.

(* C21: bounds, sums and monotonicity.  `sorter` is any function which orders like torch.argsort. *)
Theorem C21_linear : forall sorter x higher_is_better, argsort_ok sorter -> 2 <= length x -> no_nan x ->
  let u := linear sorter x higher_is_better in
  length u = length x /\ (forall a, In a u -> exists q, a = Some q /\ (0 <= q <= 1)%Q) /\
  (forall i j a b, i < length x -> j < length x -> better higher_is_better (at_ x j) (at_ x i) ->
     nth_error u i = Some a -> nth_error u j = Some b -> olt a b).
Proof. intros s x h Hs. exact (linear_ok s Hs x h). Qed.
Print Assumptions C21_linear.
Theorem C21_centered : forall sorter x higher_is_better, argsort_ok sorter -> 2 <= length x -> no_nan x ->
  let u := centered sorter x higher_is_better in
  length u = length x /\ (forall a, In a u -> exists q, a = Some q /\ (-(1#2) <= q <= (1#2))%Q) /\ (osum u == 0)%Q /\
  (forall i j a b, i < length x -> j < length x -> better higher_is_better (at_ x j) (at_ x i) ->
     nth_error u i = Some a -> nth_error u j = Some b -> olt a b).
Proof. intros s x h Hs. exact (centered_ok s Hs x h). Qed.
Print Assumptions C21_centered.
Theorem C21_nes : forall sorter x higher_is_better, argsort_ok sorter -> 1 <= length x -> no_nan x ->
  let u := nes sorter x higher_is_better in
  length u = length x /\ rsum u = 0%R /\
  (forall a, In a u -> (- (1 / INR (length x)) <= a <= 1 - 1 / INR (length x))%R) /\
  (forall i j a b, i < length x -> j < length x -> better higher_is_better (at_ x j) (at_ x i) ->
     nth_error u i = Some a -> nth_error u j = Some b -> (a <= b)%R) /\
  (exists a, In a u /\ (- (1 / INR (length x)) < a)%R).
Proof. intros s x h Hs. exact (nes_ok s Hs x h). Qed.
Print Assumptions C21_nes.
(* C21: only the order of the fitnesses matters *)
Theorem C21_order_only : forall s1 s2 x y higher_is_better, argsort_ok s1 -> argsort_ok s2 ->
  no_nan x -> no_nan y -> tie_free x -> same_order x y ->
  centered s1 x higher_is_better = centered s2 y higher_is_better /\
  linear s1 x higher_is_better = linear s2 y higher_is_better /\
  nes s1 x higher_is_better = nes s2 y higher_is_better.
Proof. intros s1 s2 x y h H1 H2 Nx Ny T [L O]. apply order_only; auto. Qed.
Print Assumptions C21_order_only.
Theorem C21_monotone_transformation : forall sorter x g higher_is_better, argsort_ok sorter ->
  no_nan x -> no_nan (map g x) -> tie_free x -> increasing g ->
  centered sorter (map g x) higher_is_better = centered sorter x higher_is_better /\
  linear sorter (map g x) higher_is_better = linear sorter x higher_is_better /\
  nes sorter (map g x) higher_is_better = nes sorter x higher_is_better.
Proof.
  intros s x g h Hs Nx Ng T M.
  assert (E : forall i, i < length x -> at_ (map g x) i = g (at_ x i)).
  { intros i Hi. unfold at_. rewrite (nth_indep _ NaN (g NaN)) by (rewrite map_length; auto). apply map_nth. }
  destruct (order_only s s x (map g x) h) as (A & B & C); auto.
  - rewrite map_length; auto.
  - intros i j Hi Hj. rewrite !E by auto. apply M.
Qed.
Print Assumptions C21_monotone_transformation.
(* C21: minimizing ranks like maximizing the opposite order *)
Theorem C21_sense : forall s1 s2 x y higher_is_better, argsort_ok s1 -> argsort_ok s2 ->
  no_nan x -> no_nan y -> tie_free x -> opposite_order x y ->
  centered s1 x higher_is_better = centered s2 y (negb higher_is_better) /\
  linear s1 x higher_is_better = linear s2 y (negb higher_is_better) /\
  nes s1 x higher_is_better = nes s2 y (negb higher_is_better).
Proof. intros s1 s2 x y h H1 H2 Nx Ny T [L O]. apply order_only_flip; auto. Qed.
Print Assumptions C21_sense.

Definition exr : list fl := [Fin 5; NInf; Fin 9; Fin (-2)].
Definition exr3 : list fl := map (fun a => match a with Fin z => Fin (3 * z + 1) | a => a end) exr.
Example C21_example :
  argsort_ok stable_argsort /\ 2 <= length exr /\ no_nan exr /\ tie_free exr /\
  increasing (fun a => match a with Fin z => Fin (3 * z + 1) | a => a end) /\ same_order exr exr3 /\
  opposite_order exr (map fneg exr) /\
  linear stable_argsort exr true = [Some (2 # 3); Some (0 # 3); Some (3 # 3); Some (1 # 3)]%Q /\
  linear stable_argsort exr false = [Some (1 # 3); Some (3 # 3); Some (0 # 3); Some (2 # 3)]%Q /\
  nth_error (nes stable_argsort exr true) 2 = nth_error (nes stable_argsort (map fneg exr) false) 2.
Proof.
  assert (A : argsort_ok stable_argsort) by apply stable_argsort_ok.
  assert (N : no_nan exr) by (unfold no_nan, exr; repeat constructor).
  assert (N' : no_nan (map fneg exr)) by (unfold no_nan, exr; cbn; repeat constructor).
  assert (T : tie_free exr).
  { unfold tie_free, exr, at_. cbn [length]. intros i j Hi Hj Hne. rewrite <- !flt_lt.
    destruct i as [|[|[|[|i]]]]; try lia; destruct j as [|[|[|[|j]]]]; try lia; cbn; auto. }
  assert (O : opposite_order exr (map fneg exr)).
  { split; [reflexivity|]. unfold exr, at_. cbn [length]. intros i j Hi Hj. rewrite <- !flt_lt.
    destruct i as [|[|[|[|i]]]]; try lia; destruct j as [|[|[|[|j]]]]; try lia; cbn; tauto. }
  split; [exact A|]. split; [cbn; lia|]. split; [exact N|]. split; [exact T|]. split.
  { intros a b. rewrite <- !flt_lt. destruct a, b; cbn [flt]; try tauto. rewrite !Z.ltb_lt. lia. }
  split. { split; [reflexivity|]. unfold exr3, exr, at_. cbn [length]. intros i j Hi Hj. rewrite <- !flt_lt.
    destruct i as [|[|[|[|i]]]]; try lia; destruct j as [|[|[|[|j]]]]; try lia; cbn; tauto. }
  split; [exact O|]. split; [reflexivity|]. split; [reflexivity|]. f_equal.
Qed.

(* C69 (false of the code): every ranking gives numbers, not NaN, for every population *)
Theorem C69_single_fitness_refuted : forall sorter v higher_is_better, argsort_ok sorter ->
  ~ finite (centered sorter [v] higher_is_better) /\ ~ finite (linear sorter [v] higher_is_better).
Proof.
  intros s v h Hs. destruct (singleton_rank s v h Hs) as [E1 E2]. rewrite E1, E2.
  split; intros F; apply (F None); [left| |left|]; reflexivity.
Qed.
Print Assumptions C69_single_fitness_refuted.
Theorem C69_constant_fitness_refuted : forall x higher_is_better, 2 <= length x -> (exists c, forall v, In v x -> v = c) ->
  forall a, In a (normalized x higher_is_better) -> a = None.
Proof.
  intros x h Hn HC a Ha. rewrite normalized_constant in Ha by auto. apply in_map_iff in Ha. destruct Ha as (v & <- & _). reflexivity.
Qed.
Print Assumptions C69_constant_fitness_refuted.
Theorem C69_finite_partial : forall sorter x y higher_is_better, argsort_ok sorter -> 2 <= length x -> no_nan x ->
  2 <= length y -> (exists v w, In v y /\ In w y /\ v <> w) ->
  finite (centered sorter x higher_is_better) /\ finite (linear sorter x higher_is_better) /\ finite (normalized y higher_is_better).
Proof.
  intros s x y h Hs Hx Nx Hy (v & w & Iv & Iw & D). split; [|split].
  - intros a Ha. destruct (centered_ok s Hs x h Hx Nx) as (_ & R & _). destruct (R a Ha) as (q & -> & _). discriminate.
  - intros a Ha. destruct (linear_ok s Hs x h Hx Nx) as (_ & R & _). destruct (R a Ha) as (q & -> & _). discriminate.
  - destruct (normalized_ok y h Hy) as (u & E & _).
    + intros Z. apply rstd_zero_iff in Z; auto. destruct Z as (c & C). apply D. rewrite (C v Iv), (C w Iw). reflexivity.
    + intros a Ha. rewrite E in Ha. apply in_map_iff in Ha. destruct Ha as (z & <- & _). discriminate.
Qed.
Print Assumptions C69_finite_partial.
Example C69_example :
  argsort_ok stable_argsort /\ 2 <= length exr /\ no_nan exr /\ 2 <= length [1; 2; 4]%R /\ (exists v w, In v [1; 2; 4]%R /\ In w [1; 2; 4]%R /\ v <> w) /\
  2 <= length [7; 7]%R /\ (exists c, forall v, In v [7; 7]%R -> v = c) /\
  centered stable_argsort [Fin 3] true = [None] /\ normalized [7; 7]%R false = [None; None].
Proof.
  split; [apply stable_argsort_ok|]. split; [cbn; lia|]. split; [unfold no_nan, exr; repeat constructor|]. split; [cbn; lia|].
  split. { exists 1%R, 2%R. split; [left; auto|]. split; [right; left; auto|lra]. }
  assert (C : exists c, forall v, In v [7; 7]%R -> v = c). { exists 7%R. intros v [<-|[<-|[]]]; reflexivity. }
  split; [cbn; lia|]. split; [exact C|]. split; [reflexivity|]. apply normalized_constant; [cbn; lia|exact C].
Qed.

(* C70: the normalized ranking *)
Theorem C70_normalized : forall x higher_is_better, 2 <= length x -> (exists v w, In v x /\ In w x /\ v <> w) ->
  exists u, normalized x higher_is_better = map Some u /\ length u = length x /\
    rsum u = 0%R /\ rstd u = 1%R /\
    normalized x (negb higher_is_better) = map Some (map Ropp u) /\
    (forall i j a b p q, nth_error x i = Some a -> nth_error x j = Some b -> nth_error u i = Some p -> nth_error u j = Some q ->
       ((if higher_is_better then (a < b)%R else (b < a)%R) <-> (p < q)%R)).
Proof.
  intros x h Hn (v & w & Iv & Iw & D). apply normalized_ok; auto.
  intros Z. apply rstd_zero_iff in Z; auto. destruct Z as (c & C). apply D. rewrite (C v Iv), (C w Iw). reflexivity.
Qed.
Print Assumptions C70_normalized.
Theorem C70_affine_invariance : forall x higher_is_better a b, 2 <= length x -> (0 < a)%R ->
  normalized (map (fun v => a * v + b)%R x) higher_is_better = normalized x higher_is_better.
Proof. exact normalized_affine. Qed.
Print Assumptions C70_affine_invariance.
Example C70_example : (exists v w, In v [1; 2; 3]%R /\ In w [1; 2; 3]%R /\ v <> w) /\ normalized [1; 2; 3]%R true = map Some [-1; 0; 1]%R.
Proof.
  split. { exists 1%R, 2%R. split; [left; auto|]. split; [right; left; auto|lra]. }
  assert (M : rmean [1; 2; 3]%R = 2%R) by (unfold rmean, rsum; cbn; lra).
  assert (T : rstd [1; 2; 3]%R = 1%R).
  { unfold rstd. rewrite M. unfold rsum. cbn [map fold_right length Nat.sub INR].
    replace (((1 - 2) * (1 - 2) + ((2 - 2) * (2 - 2) + ((3 - 2) * (3 - 2) + 0))) / (1 + 1))%R with 1%R by field. apply sqrt_1. }
  unfold normalized. cbv zeta. cbn [length Nat.eqb]. rewrite M, T. cbn [map]. unfold rdiv. destruct (Req_EM_T 1 0); [lra|].
  repeat f_equal; lra.
Qed.

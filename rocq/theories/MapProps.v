(* MAPElites: properties C38, C39, C95, C96. *)
From Coq Require Import Sorted.
From Verif Require Import Prelude FloatLib BatchModel BatchSpec BatchProofs ParetoModel ParetoProofs2 GaModel GaSpec GaProofs GaProofs2 ScoreProofs MapModel MapSpec MapProofs MapProofs2.

Lemma Forall2_len {A B} (R : A -> B -> Prop) l l' : Forall2 R l l' -> length l = length l'.
Proof. induction 1; cbn; auto. Qed.
(* ------------------------------------------------------------------------------------ C38 *)
(* after any number of generations: a cell is filled exactly if a candidate of some generation fits,
   and it then holds a fitting candidate which is the best of all generations *)
Theorem C38_archive : forall (V : Type) pick ev d (f : V -> list fl) cf ops grid like values n s' seen,
  pick_ok pick -> Forall legal ops -> deterministic f ev -> acceptable d f ->
  b_desc like = [d] -> (forall v, length (f v) = 1 + b_ndata like) -> Forall (fun c : cell => length c = b_ndata like) grid ->
  length values = length grid ->
  map_run pick ev cf ops grid n (map_init like values) = Ok (s', seen) ->
  b_len (s_pop (m_st s')) = length grid /\ length (m_filled s') = length grid /\ (0 < n -> evaluated f (s_pop (m_st s'))) /\
  forall i c b v, nth_error grid i = Some c -> nth_error (m_filled s') i = Some b -> nth_error (b_vals (s_pop (m_st s'))) i = Some v ->
    (b = true <-> exists x, In x seen /\ fits c (f x)) /\ (b = true -> represents d f c seen v).
Proof.
  intros V pick ev d f cf ops grid like values n s' seen Hp HL HD HF Hd Hw Hg Hl H.
  assert (Hw' : forall v, length (f v) = eval_width (s_pop (m_st (map_init like values)))) by (intros v; unfold eval_width, num_objs; cbn; rewrite Hd; apply Hw).
  destruct (map_run_ok pick ev Hp d f cf ops grid n (map_init like values) s' [] seen HL (proj1 (fresh_kind like values)) HD HF Hw' Hg Hd) as (K & (A1 & A2 & A3) & R & E); auto.
  - right; left; auto.
  - apply init_archive; auto.
Qed.
Print Assumptions C38_archive.
(* cells never become empty, and the fitness of their occupants never gets worse *)
Theorem C38_never_worse : forall (V : Type) pick ev d (f : V -> list fl) cf ops grid like values m n s1 seen1 s2 seen2,
  pick_ok pick -> Forall legal ops -> deterministic f ev -> acceptable d f ->
  b_desc like = [d] -> (forall v, length (f v) = 1 + b_ndata like) -> Forall (fun c : cell => length c = b_ndata like) grid ->
  length values = length grid ->
  map_run pick ev cf ops grid m (map_init like values) = Ok (s1, seen1) -> map_run pick ev cf ops grid n s1 = Ok (s2, seen2) ->
  forall i v1 v2, nth_error (m_filled s1) i = Some true -> nth_error (b_vals (s_pop (m_st s1))) i = Some v1 -> nth_error (b_vals (s_pop (m_st s2))) i = Some v2 ->
    nth_error (m_filled s2) i = Some true /\ ~ better d (fitness f v1) (fitness f v2).
Proof.
  intros V pick ev d f cf ops grid like values m n s1 seen1 s2 seen2 Hp HL HD HF Hd Hw Hg Hl H1 H2 i v1 v2 Hf Hv1 Hv2.
  assert (Hw' : forall v, length (f v) = eval_width (s_pop (m_st (map_init like values)))) by (intros v; unfold eval_width, num_objs; cbn; rewrite Hd; apply Hw).
  destruct (map_run_ok pick ev Hp d f cf ops grid m (map_init like values) s1 [] seen1 HL (proj1 (fresh_kind like values)) HD HF Hw' Hg Hd) as (K & A & R & _); auto.
  { right; left; auto. } { apply init_archive; auto. }
  assert (Hw1 : forall v, length (f v) = eval_width (s_pop (m_st s1))) by (rewrite (kind_width _ _ K); auto).
  assert (Hd1 : b_desc (s_pop (m_st s1)) = [d]) by (destruct K as (_ & K & _); rewrite K; auto).
  assert (Hg1 : Forall (fun c : cell => length c = b_ndata (s_pop (m_st s1))) grid) by (destruct K as (_ & _ & K); rewrite K; auto).
  destruct (map_run_ok pick ev Hp d f cf ops grid n s1 s2 _ seen2 HL (proj1 K) HD HF Hw1 Hg1 Hd1 R A H2) as (K2 & (B1 & B2 & B3) & _ & _).
  destruct A as (A1 & A2 & A3).
  assert (Li : i < length grid) by (rewrite <- A2; apply nth_error_Some; congruence).
  destruct (nth_error grid i) as [c|] eqn:Ec; [|apply nth_error_None in Ec; lia].
  destruct (nth_error (m_filled s2) i) as [b|] eqn:Eb; [|apply nth_error_None in Eb; lia].
  destruct (A3 i c true v1 Ec Hf Hv1) as [_ Q]. destruct (Q eq_refl) as (I1 & F1 & _).
  destruct (B3 i c b v2 Ec Eb Hv2) as [P1 P2].
  assert (Hb : b = true) by (apply P1; exists v1; split; [apply in_or_app; auto|auto]). subst b. split; [auto|].
  destruct (P2 eq_refl) as (_ & _ & P3). apply P3; auto. apply in_or_app; auto.
Qed.
Print Assumptions C38_never_worse.
(* no generation fails *)
Theorem C38_progress : forall (V : Type) pick ev d (f : V -> list fl) cf ops grid like values n,
  pick_ok pick -> Forall legal ops -> Forall productive ops -> deterministic f ev -> acceptable d f ->
  b_desc like = [d] -> (forall v, length (f v) = 1 + b_ndata like) -> Forall (fun c : cell => length c = b_ndata like) grid ->
  length values = length grid -> grid <> [] -> exists s' seen, map_run pick ev cf ops grid n (map_init like values) = Ok (s', seen).
Proof.
  intros V pick ev d f cf ops grid like values n Hp HL HP HD HF Hd Hw Hg Hl NG.
  assert (Hw' : forall v, length (f v) = eval_width (s_pop (m_st (map_init like values)))) by (intros v; unfold eval_width, num_objs; cbn; rewrite Hd; apply Hw).
  apply (map_run_total pick ev Hp d f cf ops grid n (map_init like values) [] HL HP (proj1 (fresh_kind like values)) HD HF Hw' Hg Hd); auto.
  - right; left; auto.
  - apply init_archive; auto.
Qed.
Print Assumptions C38_progress.

(* torch's documented choice: the first extreme element *)
Definition first_pick (d : bool) (c : list fl) : nat := match argext d c with Ok i => i | Err _ => 0 end.
Lemma beats_irrefl d x : beats d x x = false.
Proof. unfold beats. rewrite !flt_irrefl. destruct (is_nan x), d; auto. Qed.
Lemma beats_trans d x y z : beats d x y = true -> beats d y z = true -> beats d x z = true.
Proof. unfold beats. destruct d, x, y, z; cbn; intros; try discriminate; auto; lia. Qed.
Lemma beats_ntrans d x y z : beats d x y = false -> beats d y z = false -> beats d x z = false.
Proof. unfold beats. destruct d, x, y, z; cbn; intros; try discriminate; auto; lia. Qed.
Lemma first_pick_ok : pick_ok first_pick.
Proof.
  intros d [|x t] N; [congruence|]. unfold first_pick, argext.
  assert (G : forall t0 pre best bv i, i = length pre -> best < i -> nth best pre NaN = bv -> (forall j, j < i -> beats d (nth j pre NaN) bv = false) ->
    let r := argext_from d best bv i t0 in r < length (pre ++ t0) /\ forall j, j < length (pre ++ t0) -> beats d (nth j (pre ++ t0) NaN) (nth r (pre ++ t0) NaN) = false).
  { clear. induction t0 as [|y t0 IH]; intros pre best bv i Hi Hb Hv HB; cbn zeta.
    - cbn [argext_from]. rewrite app_nil_r. split; [lia|]. intros j Hj. rewrite Hv. apply HB. lia.
    - cbn [argext_from]. replace (pre ++ y :: t0) with ((pre ++ [y]) ++ t0) by (rewrite <- app_assoc; auto).
      assert (Ly : nth i (pre ++ [y]) NaN = y) by (rewrite app_nth2 by lia; replace (i - length pre) with 0 by lia; auto).
      destruct (beats d y bv) eqn:E.
      + apply IH; [rewrite app_length; cbn; lia|lia|auto|]. intros j Hj. destruct (Nat.eq_dec j i) as [->|NE]; [rewrite Ly; apply beats_irrefl|].
        rewrite app_nth1 by lia. destruct (beats d (nth j pre NaN) y) eqn:E2; [|auto]. rewrite <- (HB j) by lia. symmetry. eapply beats_trans; eauto.
      + apply IH; [rewrite app_length; cbn; lia|lia|rewrite app_nth1 by lia; auto|]. intros j Hj. destruct (Nat.eq_dec j i) as [->|NE]; [rewrite Ly; auto|].
        rewrite app_nth1 by lia. apply HB. lia. }
  destruct (G t [x] 0 x 1) as [G1 G2]; auto. intros j Hj. replace j with 0 by lia. apply beats_irrefl.
Qed.

(* fitness = value modulo 10, one feature = the value; the operator adds 3 *)
Definition mf (v : Z) : list fl := [Fin (v mod 10); Fin v].
Definition mgrid : list cell := [[(NInf, Fin 10)]; [(Fin 10, Fin 20)]; [(Fin 20, PInf)]]%Z.
Definition mops : list (operator Z) := [Func (fun k vs => Ok (map (Z.add 3) vs))].
Example C38_example : pick_ok first_pick /\ acceptable true mf /\ Forall legal mops /\ Forall productive mops /\
  (exists s seen, map_run first_pick (fun _ vs => map mf vs) (mkConf 3 true true true) mops mgrid 2 (map_init (mkBatch [] [] [true] 1) [9; 3; 7]%Z) = Ok (s, seen) /\
     m_filled s = [true; true; false] /\ b_vals (s_pop (m_st s)) = [9; 15; 9]%Z /\ b_ev (s_pop (m_st s)) = [[Fin 9; Fin 9]; [Fin 5; Fin 15]; [Fin 9; Fin 9]] /\
     seen = [9; 3; 7; 12; 6; 10; 9; 12; 9; 12; 15; 12]%Z).
Proof.
  split; [exact first_pick_ok|]. split; [intros v; cbn; split; discriminate|]. split; [repeat constructor|].
  split. { constructor; [|constructor]. intros k vs H. eexists. split; [reflexivity|]. destruct vs; [congruence|discriminate]. }
  eexists _, _. vm_compute. repeat (split; [reflexivity|]). reflexivity.
Qed.

(* ------------------------------------------------------------------------------------ C95 *)
(* Full claim: whatever the fitness values, a cell is reported as filled when a candidate fits it, and a
   fitting solution is only displaced by a better one.  C38_archive proves it when no fitness is NaN or
   the worst infinity; both exceptions are real. *)
Theorem C95_ordinary_partial : forall (V : Type) pick d (f : V -> list fl) values c,
  pick_ok pick -> acceptable d f -> values <> [] -> (forall v, In v values -> length (f v) = 1 + length c) ->
  exists v b, best_for_cell pick d values (map f values) c = Ok (v, f v, b) /\ In v values /\
    (b = true <-> exists x, In x values /\ fits c (f x)) /\ (b = true -> represents d f c values v).
Proof.
  intros V pick d f values c Hp HF N HW.
  assert (HW' : forall v, In v values -> length c = length (tl (f v))) by (intros v Hv; specialize (HW v Hv); destruct (f v); cbn in *; lia).
  destruct (best_for_cell_ok pick (fun (_ : nat) (_ : list V) => @nil (list fl)) Hp d f values c N HW') as (i & v & E & Hi & B).
  exists v, (fitsb c (f v)). split; [auto|]. assert (Hv : In v values) by (eapply nth_error_In; eauto). split; [auto|].
  apply (cell_ok d f values c v HF Hv HW' B).
Qed.
Print Assumptions C95_ordinary_partial.
(* the candidates are one which fits, with the worst possible fitness, and one which does not: in one of
   the two orders the cell is reported as not filled and the fitting solution is lost *)
Theorem C95_infinite_fitness_refuted : forall (V : Type) pick (d : bool) (f : V -> list fl) x u c,
  pick_ok pick -> length (f x) = 1 + length c -> length (f u) = 1 + length c ->
  fits c (f x) -> ~ fits c (f u) -> fitness f x = (if d then NInf else PInf) ->
  best_for_cell pick d [x; u] (map f [x; u]) c = Ok (u, f u, false) \/ best_for_cell pick d [u; x] (map f [u; x]) c = Ok (u, f u, false).
Proof.
  intros V pick d f x u c Hp Lx Lu Fx Fu Hx.
  assert (Ex : length c = length (tl (f x))) by (destruct (f x); cbn in *; lia). assert (Eu : length c = length (tl (f u))) by (destruct (f u); cbn in *; lia).
  assert (Bx : fitsb c (f x) = true) by (apply fitsb_fits; auto). assert (Bu : fitsb c (f u) = false) by (apply Bool.not_true_is_false; rewrite fitsb_fits; auto).
  unfold best_for_cell. cbn [map sequence]. rewrite !(suitable_ok c _ Ex), !(suitable_ok c _ Eu), Bx, Bu. cbn [bind map2]. fold (fitness f x). rewrite Hx.
  set (w := if d then NInf else PInf). destruct (Hp d [w; w]) as [L _]; [discriminate|]. cbn in L.
  destruct (pick d [w; w]) as [|[|k]]; [right|left|lia]; reflexivity.
Qed.
Print Assumptions C95_infinite_fitness_refuted.
(* a fitting candidate whose fitness is NaN takes the cell, however good the others are *)
Theorem C95_nan_fitness_refuted : forall (V : Type) pick d (f : V -> list fl) values x c,
  pick_ok pick -> In x values -> (forall v, In v values -> length (f v) = 1 + length c) -> fits c (f x) -> fitness f x = NaN ->
  exists v, best_for_cell pick d values (map f values) c = Ok (v, f v, true) /\ fitness f v = NaN.
Proof.
  intros V pick d f values x c Hp Hx HW Fx Nx.
  assert (HW' : forall v, In v values -> length c = length (tl (f v))) by (intros v Hv; specialize (HW v Hv); destruct (f v); cbn in *; lia).
  destruct (best_for_cell_ok pick (fun (_ : nat) (_ : list V) => @nil (list fl)) Hp d f values c) as (i & v & E & Hi & B); [intros ->; destruct Hx|auto|].
  specialize (B x Hx). apply fitsb_fits in Fx; auto. rewrite Fx, Nx in B. exists v. rewrite E.
  destruct (fitsb c (f v)).
  - split; auto. unfold beats in B. cbn in B. apply Bool.orb_false_iff in B. destruct B as [B _]. destruct (fitness f v); auto; discriminate.
  - exfalso. unfold beats in B. destruct d; cbn in B; discriminate.
Qed.
Print Assumptions C95_nan_fitness_refuted.
Definition ninf_f (v : Z) : list fl := [if (v =? 5)%Z then NInf else if (v =? 6)%Z then NaN else Fin v; Fin v].
Example C95_example : fits [(Fin 0, Fin 10)]%Z (ninf_f 5) /\ ~ fits [(Fin 0, Fin 10)]%Z (ninf_f 50) /\
  best_for_cell first_pick true [50; 5]%Z (map ninf_f [50; 5]%Z) [(Fin 0, Fin 10)] = Ok (50%Z, [Fin 50; Fin 50], false) /\
  best_for_cell first_pick true [9; 6]%Z (map ninf_f [9; 6]%Z) [(Fin 0, Fin 10)] = Ok (6%Z, [NaN; Fin 6], true).
Proof.
  split. { constructor; [|constructor]. split; left; constructor; lia. }
  split. { inversion 1; subst. destruct H3 as [_ H3]. cbn in H3. destruct H3 as [H3|[H3 _]]; [inversion H3; lia|discriminate]. }
  split; reflexivity.
Qed.

(* ------------------------------------------------------------------------------------ C39 *)
Lemma mfg_ok : forall linspace lower upper bins nb, linspace_ok linspace -> lower <> [] ->
  length upper = length lower -> length bins = length lower ->
  match nb with inl n => repeat n (length lower) | inr l => l end = bins ->
  Forall (fun x => is_fin x = true) lower -> Forall (fun x => is_fin x = true) upper -> Forall (fun n => (1 <= n)%Z) bins ->
  exists gs, make_feature_grid linspace lower upper nb = Ok (product gs) /\ 
    length gs = length lower /\ map (@length (fl * fl)) gs = map Z.to_nat bins /\
    Forall (fun g => forall x, x <> NaN -> exists p, In p g /\ in_range p x) gs /\
    (Forall2 (fun l u => flt u l = false) lower upper -> Forall (ForallOrdPairs (fun p q => le_fl (snd p) (fst q))) gs).
Proof.
  intros lin lower upper bins nb Hlin N L1 L2 E F1 F2 F3. unfold make_feature_grid. rewrite L1, Nat.eqb_refl. cbn [negb]. rewrite E.
  destruct (grids_ok lin Hlin lower upper bins L1 L2 F1 F2 F3) as (gs & Eg & A & B). rewrite Eg. cbn [bind].
  destruct gs as [|g gs]; [destruct lower; [congruence|discriminate]|]. exists (g :: gs). auto.
Qed.
(* Full claim: for all bounds.  Covering needs no order of the bounds; for lower bounds above the upper
   bounds, which are not refused, cells overlap. *)
Theorem C39_cover : forall linspace lower upper nb x,
  linspace_ok linspace -> lower <> [] -> length upper = length lower ->
  Forall (fun x => is_fin x = true) lower -> Forall (fun x => is_fin x = true) upper ->
  match nb with inl n => (1 <= n)%Z | inr l => length l = length lower /\ Forall (fun n => (1 <= n)%Z) l end ->
  length x = length lower -> Forall (fun y => y <> NaN) x ->
  exists grid, make_feature_grid linspace lower upper nb = Ok grid /\
    length grid = fold_right Nat.mul 1 (match nb with inl n => repeat (Z.to_nat n) (length lower) | inr l => map Z.to_nat l end) /\
    Forall (fun c : cell => length c = length lower) grid /\
    exists c, In c grid /\ Forall2 in_range c x.
Proof.
  intros lin lower upper nb x Hlin N L F1 F2 Hb Lx Nx.
  destruct (mfg_ok lin lower upper (match nb with inl n => repeat n (length lower) | inr l => l end) nb Hlin N L) as (gs & E & A & B & C & D); auto.
  { destruct nb; [apply repeat_length|apply Hb]. } { destruct nb; [|apply Hb]. apply Forall_forall. intros y Hy. apply repeat_spec in Hy. subst; auto. }
  exists (product gs). split; [auto|]. split.
  { unfold cell. rewrite product_len, B. f_equal. destruct nb; auto. clear. induction (length lower); cbn; congruence. }
  split. { apply Forall_forall. intros c Hc. apply product_in in Hc. apply Forall2_len in Hc. lia. }
  apply cover_product; auto. lia.
Qed.
Print Assumptions C39_cover.
Theorem C39_boundaries_partial : forall linspace lower upper nb grid i j c c' x,
  linspace_ok linspace -> lower <> [] -> length upper = length lower ->
  Forall (fun x => is_fin x = true) lower -> Forall (fun x => is_fin x = true) upper -> Forall2 (fun l u => flt u l = false) lower upper ->
  match nb with inl n => (1 <= n)%Z | inr l => length l = length lower /\ Forall (fun n => (1 <= n)%Z) l end ->
  make_feature_grid linspace lower upper nb = Ok grid -> i < j -> nth_error grid i = Some c -> nth_error grid j = Some c' ->
  Forall2 in_range c x -> Forall2 in_range c' x ->
  exists k p p' y, nth_error c k = Some p /\ nth_error c' k = Some p' /\ nth_error x k = Some y /\ y = snd p /\ y = fst p'.
Proof.
  intros lin lower upper nb grid i j c c' x Hlin N L F1 F2 HO Hb HG Hij Hi Hj Hx Hx'.
  destruct (mfg_ok lin lower upper (match nb with inl n => repeat n (length lower) | inr l => l end) nb Hlin N L) as (gs & E & A & B & C & D); auto.
  { destruct nb; [apply repeat_length|apply Hb]. } { destruct nb; [|apply Hb]. apply Forall_forall. intros y Hy. apply repeat_spec in Hy. subst; auto. }
  rewrite E in HG. injection HG as <-. exact (FOP_nth _ _ i j c c' (product_touching _ (D HO)) Hij Hi Hj x Hx Hx').
Qed.
Print Assumptions C39_boundaries_partial.
(* with the bounds the wrong way round every point between them is strictly inside two cells *)
Theorem C39_reversed_bounds_refuted : forall linspace lb ub n x,
  linspace_ok linspace -> (forall lb ub m, nth_error (linspace lb ub (S (S m))) 0 = Some lb /\ nth_error (linspace lb ub (S (S m))) (S m) = Some ub) ->
  is_fin lb = true -> is_fin ub = true -> (3 <= n)%Z -> lt_fl ub x -> lt_fl x lb ->
  exists grid c c', make_feature_grid linspace [lb] [ub] (inl n) = Ok grid /\ nth_error grid 0 = Some c /\ nth_error grid (Z.to_nat n - 1) = Some c' /\
    Forall2 strictly_in c [x] /\ Forall2 strictly_in c' [x].
Proof.
  intros lin lb ub n x Hlin He F1 F2 Hn H1 H2. unfold make_feature_grid. cbn [length Nat.eqb negb zip3 repeat map sequence fst snd].
  unfold feature_bins. destruct (Z.ltb_spec (n - 1) 0); [lia|]. cbn [bind].
  set (m := Z.to_nat n - 3). replace (Z.to_nat (n - 1)) with (S (S m)) by (unfold m; lia).
  destruct (He lb ub m) as [E0 E1]. destruct (Hlin lb ub (S (S m)) F1 F2) as (L & _). set (sp := lin lb ub (S (S m))) in *.
  assert (P : forall l, product [l] = map (fun p : fl * fl => [p]) l) by (intros l; cbn; induction l; cbn; congruence).
  assert (U : forall l i a b, nth_error l i = Some a -> nth_error l (S i) = Some b -> nth_error (unfold2 l) i = Some (a, b)).
  { clear. induction l as [|y l IH]; intros i a b Ha Hb; [destruct i; discriminate|]. destruct l as [|z l]; [destruct i as [|[|]]; discriminate|].
    change (unfold2 (y :: z :: l)) with ((y, z) :: unfold2 (z :: l)). destruct i as [|i]; cbn in Ha, Hb |- *; [congruence|]. apply IH; auto. }
  eexists _, [(NInf, lb)], [(ub, PInf)]. split; [reflexivity|]. rewrite P, !nth_error_map.
  split. { rewrite (U _ 0 NInf lb); auto. change (nth_error (sp ++ [PInf]) 0 = Some lb). rewrite nth_error_app1 by lia. auto. }
  split.
  { replace (Z.to_nat n - 1) with (S (S m)) by (unfold m; lia). rewrite (U _ _ ub PInf); auto.
    - change (nth_error (sp ++ [PInf]) (S m) = Some ub). rewrite nth_error_app1 by lia. auto.
    - change (nth_error (sp ++ [PInf]) (S (S m)) = Some PInf). rewrite nth_error_app2 by lia. rewrite L. replace (S (S m) - S (S m)) with 0 by lia. auto. }
  split; constructor; auto; split; cbn; auto; inversion H1; subst; inversion H2; subst; constructor.
Qed.
Print Assumptions C39_reversed_bounds_refuted.

(* ------------------------------------------------------------------------------------ C96 *)
(* Full claim: every cell of the grid has a range for every feature.  C39_cover proves it for one number
   of bins and for one per feature; too short a sequence is not refused: the last features are dropped. *)
Theorem C96_shape_partial : forall linspace lower upper nb grid,
  linspace_ok linspace -> length upper = length lower ->
  match nb with inl _ => True | inr l => length l = length lower end ->
  make_feature_grid linspace lower upper nb = Ok grid -> Forall (fun c : cell => length c = length lower) grid /\ length lower = length upper /\ lower <> [] /\
    match nb with inl n => (1 <= n)%Z | inr l => Forall (fun n => (1 <= n)%Z) l end.
Proof.
  intros lin lower upper nb grid Hlin L Hb H. unfold make_feature_grid in H. rewrite L, Nat.eqb_refl in H. cbn [negb] in H.
  set (bins := match nb with inl n => repeat n (length lower) | inr l => l end) in *.
  assert (Lb : length bins = length lower) by (unfold bins; destruct nb; [apply repeat_length|auto]).
  assert (Q : forall lo up bi gs, length up = length lo -> length bi = length lo ->
     sequence (map (fun t => feature_bins lin (fst (fst t)) (snd (fst t)) (snd t)) (zip3 lo up bi)) = Ok gs -> length gs = length lo /\ Forall (fun n => (1 <= n)%Z) bi).
  { clear. induction lo as [|l lo IH]; intros [|u up] [|n bi] gs L1 L2 E; try discriminate; [injection E as <-; auto|].
    cbn in E. unfold feature_bins at 1 in E. destruct (Z.ltb_spec (n - 1) 0); [discriminate|]. cbn [bind] in E.
    destruct (sequence _) as [r|] eqn:E2; [|discriminate]. injection E as <-. destruct (IH up bi r) as [A B]; auto. cbn. split; [congruence|constructor; auto; lia]. }
  destruct (sequence _) as [gs|] eqn:E; [|discriminate]. cbn [bind] in H. destruct (Q _ _ _ _ L Lb E) as [A B].
  destruct gs as [|g gs]; [discriminate|]. injection H as <-. split.
  { apply Forall_forall. intros c Hc. apply (product_in (g :: gs)) in Hc. apply Forall2_len in Hc. congruence. }
  split; [auto|]. split; [intros ->; discriminate|]. subst bins. destruct nb as [n|l]; [|auto].
  destruct (length lower) as [|m] eqn:El; [discriminate|]. cbn in B. inversion B; auto.
Qed.
Print Assumptions C96_shape_partial.
Theorem C96_short_bins_refuted : forall linspace lower upper bins,
  linspace_ok linspace -> length upper = length lower -> Forall (fun x => is_fin x = true) lower -> Forall (fun x => is_fin x = true) upper ->
  0 < length bins < length lower -> Forall (fun n => (1 <= n)%Z) bins ->
  exists grid, make_feature_grid linspace lower upper (inr bins) = Ok grid /\ grid <> [] /\ Forall (fun c : cell => length c < length lower) grid.
Proof.
  intros lin lower upper bins Hlin L F1 F2 Hb F3.
  assert (Z3 : zip3 lower upper bins = zip3 (firstn (length bins) lower) (firstn (length bins) upper) bins).
  { clear. revert lower upper. induction bins as [|b bins IH]; intros [|l lower] [|u upper]; cbn; auto. f_equal. auto. }
  assert (FA : forall (P : fl -> Prop) l n, Forall P l -> Forall P (firstn n l)).
  { clear. intros P l n H. revert n. induction H; intros [|n]; cbn; constructor; auto. }
  destruct (grids_ok lin Hlin (firstn (length bins) lower) (firstn (length bins) upper) bins) as (gs & E & A & B & _); auto.
  { rewrite !firstn_length. lia. } { rewrite firstn_length. lia. }
  unfold make_feature_grid. rewrite L, Nat.eqb_refl. cbn [negb]. rewrite Z3, E. cbn [bind]. rewrite firstn_length in A.
  assert (PG : product gs <> []).
  { intros X. apply (f_equal (@length _)) in X. unfold cell in X. rewrite product_len, B in X. cbn in X. clear - X F3. induction F3; cbn in X; [discriminate|].
    apply Nat.eq_mul_0 in X. destruct X as [X|X]; [lia|auto]. }
  destruct gs as [|g gs]; [cbn in A; lia|]. exists (product (g :: gs)). split; [auto|]. split; [auto|].
  apply Forall_forall. intros c Hc. apply (product_in (g :: gs)) in Hc. apply Forall2_len in Hc. lia.
Qed.
Print Assumptions C96_short_bins_refuted.
(* evenly spaced points, rounded down *)
Definition zlin (lb ub : fl) (n : nat) : list fl :=
  match lb, ub with
  | Fin a, Fin b => map (fun i => if Nat.eqb (n - 1) 0 then Fin a else Fin (a + Z.of_nat i * (b - a) / Z.of_nat (n - 1))) (seq 0 n)
  | _, _ => []
  end.
Example C39_example : linspace_ok zlin /\ (forall a b m, nth_error (zlin (Fin a) (Fin b) (S (S m))) 0 = Some (Fin a) /\ nth_error (zlin (Fin a) (Fin b) (S (S m))) (S m) = Some (Fin b)) /\
  make_feature_grid zlin [Fin 0; Fin 100]%Z [Fin 10; Fin 200]%Z (inr [4; 2]%Z) = Ok
   [[(NInf, Fin 0); (NInf, Fin 100)]; [(NInf, Fin 0); (Fin 100, PInf)]; [(Fin 0, Fin 5); (NInf, Fin 100)]; [(Fin 0, Fin 5); (Fin 100, PInf)];
    [(Fin 5, Fin 10); (NInf, Fin 100)]; [(Fin 5, Fin 10); (Fin 100, PInf)]; [(Fin 10, PInf); (NInf, Fin 100)]; [(Fin 10, PInf); (Fin 100, PInf)]]%Z /\
  make_feature_grid zlin [Fin 10]%Z [Fin 0]%Z (inl 3%Z) = Ok [[(NInf, Fin 10)]; [(Fin 10, Fin 0)]; [(Fin 0, PInf)]]%Z /\
  make_feature_grid zlin [Fin 0; Fin 0]%Z [Fin 9; Fin 9]%Z (inr [2%Z]) = Ok [[(NInf, Fin 0)]; [(Fin 0, PInf)]]%Z.
Proof.
  split.
  { intros [| |a|] [| |b|] n H1 H2; try discriminate. cbn [zlin]. rewrite map_length, seq_length. split; [auto|]. split.
    - apply Forall_map, Forall_forall. intros i _. destruct (Nat.eqb (n - 1) 0); auto.
    - intros HO. cbn in HO. assert (HAB : (a <= b)%Z) by lia. set (F := fun i => if Nat.eqb (n - 1) 0 then Fin a else Fin (a + Z.of_nat i * (b - a) / Z.of_nat (n - 1))).
      enough (G : forall m i, StronglySorted le_fl (map F (seq i m))) by apply G.
      induction m as [|m IH]; intros i; cbn [seq map]; constructor; auto. apply Forall_map, Forall_forall. intros j Hj. apply in_seq in Hj.
      apply fle_le. unfold fle, F. destruct (Nat.eqb_spec (n - 1) 0); cbn; [lia|].
      assert (Z.of_nat i * (b - a) / Z.of_nat (n - 1) <= Z.of_nat j * (b - a) / Z.of_nat (n - 1))%Z by (apply Z.div_le_mono; [lia|nia]). lia. }
  split. { intros a b m. cbn [zlin]. rewrite !nth_error_map_seq by lia. replace (S (S m) - 1) with (S m) by lia. cbn [Nat.eqb].
    split; do 2 f_equal; [cbn; lia|]. rewrite Z.mul_comm, Z.div_mul by lia. lia. }
  repeat split; vm_compute; reflexivity.
Qed.

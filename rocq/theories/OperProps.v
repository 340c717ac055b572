(* Evolutionary operators: properties C32, C33, C34, C35, C36, C88, C89, C90. *)
From Coq Require Import QArith Reals Lqa Sorted Lra.
From Verif Require Import Prelude FloatLib BatchModel BatchSpec BatchProofs ParetoModel ParetoSpec RankModel RankSpec OperModel OperSpec
  OperProofs OperProofs2 OperProofs3 OperProofs4.
Close Scope Q_scope.
Close Scope R_scope.
Open Scope nat_scope.

(* ------------------------------------------------------------------------------------ C36 *)
Theorem C36_single_objective : forall (V : Type) sorter co cx (b : batch V) noise draw j d n,
  argsort_ok sorter -> compares cx b j -> nth_error (b_desc b) j = Some d -> wf b -> no_nan_col b j ->
  1 <= b_len b -> 1 <= cx_size cx -> num_tournaments cx (b_len b) = Ok n -> (0 <= n)%Z -> uniform_ints draw ->
  exists parents p1 p2, do_tournament sorter co cx b noise draw = Ok (p1, p2) /\ are_values b parents p1 p2 /\
    length parents = Z.to_nat n /\ won_all b j d (draw (Z.to_nat n) (cx_size cx) (b_len b)) parents.
Proof. intros V s co cx b noise draw j d n Hs. exact (single_tournament s co Hs cx b noise draw j d n). Qed.
Print Assumptions C36_single_objective.
(* several objectives and no objective chosen: no drawn candidate is in an earlier front *)
Theorem C36_multi_objective : forall (V : Type) sorter co cx (b : batch V) noise draw n,
  cx_obj cx = None -> 2 <= num_objs b -> wf b -> all_no_nan b -> reordering co -> 1 <= b_len b -> 1 <= cx_size cx ->
  length noise = b_len b -> Forall (fun u => 0 <= u < 1)%Q noise ->
  num_tournaments cx (b_len b) = Ok n -> (0 <= n)%Z -> uniform_ints draw ->
  exists ranks parents p1 p2, do_tournament sorter co cx b noise draw = Ok (p1, p2) /\ are_values b parents p1 p2 /\
    length parents = Z.to_nat n /\ front_numbers (b_desc b) (rows b) ranks /\
    forall k row w, nth_error (draw (Z.to_nat n) (cx_size cx) (b_len b)) k = Some row -> nth_error parents k = Some w ->
      In w row /\ forall c rc rw, In c row -> nth_error ranks c = Some rc -> nth_error ranks w = Some rw -> rw <= rc.
Proof. intros V s co. exact (multi_tournament s co). Qed.
Print Assumptions C36_multi_objective.
Theorem C36_number_of_children : forall num_senses oi size children rate cx len,
  make_crossover num_senses oi size children rate = Ok cx ->
  (forall c, children = Some c -> Z.Odd c -> num_tournaments cx len = Err ValueError) /\
  (forall c, children = Some c -> Z.Even c -> num_tournaments cx len = Ok c) /\
  (forall r, rate = Some r -> exists n, num_tournaments cx len = Ok n /\ Z.Even n /\
     (inject_Z n - 1 <= inject_Z (Z.of_nat len) * r <= inject_Z n + 1)%Q) /\
  (children = None -> rate = None -> exists n, num_tournaments cx len = Ok n /\ Z.Even n /\ (Z.of_nat len <= n <= Z.of_nat len + 1)%Z).
Proof.
  intros ns oi size ch rate cx len. unfold make_crossover.
  destruct (match oi with None => Ok None | Some i => rmap Some (problem_normalize_obj_index ns (Some i)) end) as [o|]; [|discriminate].
  cbn [bind]. intros H.
  assert (E : cx = mkCx o size ch rate /\ ~ (ch <> None /\ rate <> None)).
  { destruct ch, rate; try discriminate; injection H as <-; split; auto; intros [A B]; congruence. }
  destruct E as [-> HB]. split; [|split; [|split]].
  - intros c -> [k Hk]. unfold num_tournaments; cbn. destruct (c mod 2 =? 0)%Z eqn:E; [lia|auto].
  - intros c -> Hc. unfold num_tournaments; cbn. rewrite (proj2 (even_mod c) Hc). auto.
  - intros r ->. assert (ch = None) by (destruct ch; auto; exfalso; apply HB; split; discriminate). subst ch.
    assert (X : exists n, num_tournaments (mkCx o size None (Some r)) len = Ok n) by (unfold num_tournaments; cbn [cx_children cx_rate]; eauto).
    destruct X as [n Hn]. exists n. split; [auto|]. split; [eapply num_even; eauto|].
    eapply num_rate; [| |exact Hn]; reflexivity.
  - intros -> ->. unfold num_tournaments; cbn [cx_children cx_rate]. eexists. split; [reflexivity|]. apply next_even_ok.
Qed.
Print Assumptions C36_number_of_children.
(* giving both arguments is refused *)
Theorem C36_both_refused : forall num_senses oi size c r cx, make_crossover num_senses oi size (Some c) (Some r) <> Ok cx.
Proof.
  intros. unfold make_crossover. destruct (match oi with None => _ | Some _ => _ end); cbn; discriminate.
Qed.
Print Assumptions C36_both_refused.

Definition exd (r c n : nat) : list (list nat) := repeat (map (fun i => i mod (Nat.max n 1)) (seq 0 c)) r.
Lemma exd_ok : uniform_ints exd.
Proof.
  intros r c n H. unfold exd. split; [apply repeat_length|]. apply Forall_forall. intros row Hr.
  assert (0 < r) by (destruct r; [destruct Hr|lia]). apply repeat_spec in Hr. subst row.
  rewrite map_length, seq_length. split; auto. apply Forall_map, Forall_forall. intros i Hi. apply in_seq in Hi.
  assert (n <> 0) by (destruct H as [H|H]; auto; intros ->; apply Nat.eq_mul_0 in H; lia).
  assert (i mod Nat.max n 1 < Nat.max n 1) by (apply Nat.mod_upper_bound; lia). lia.
Qed.
Definition exb : batch (list nat) := mkBatch [[1; 2; 3]; [4; 5; 6]; [7; 8; 9]] [[Fin 3]; [Fin 9]; [Fin 5]] [true] 0.
Definition excx : crossover := mkCx None 2 None None.
Example C36_example : compares excx exb 0 /\ wf exb /\ no_nan_col exb 0 /\ num_tournaments excx (b_len exb) = Ok 4%Z /\
  do_tournament stable_argsort (fun l => seq 0 (length l)) excx exb [] exd = Ok ([[4; 5; 6]; [4; 5; 6]], [[4; 5; 6]; [4; 5; 6]]).
Proof.
  split; [right; auto|]. split; [split; [auto|repeat constructor]|]. split; [repeat constructor|]. split; [reflexivity|].
  vm_compute. reflexivity.
Qed.

(* ------------------------------------------------------------------------------------ C32 *)
Theorem C32_multi_point : forall (A : Type) num_points draw (p1 p2 : list (list A)) n l,
  1 <= num_points -> (num_points = 1 -> 2 <= l) -> 1 <= n -> shaped n l p1 -> shaped n l p2 -> uniform_ints draw ->
  exists cuts children,
    cuts = (if Nat.eqb num_points 1 then map (map S) (draw n 1 (l - 1)) else draw n num_points (l + 1)) /\
    multi_point num_points draw p1 p2 = Ok children /\ length children = n + n /\ length cuts = n /\
    Forall (fun c => length c = num_points /\ Forall (fun x => if Nat.eqb num_points 1 then 1 <= x < l else x <= l) c) cuts /\
    forall k a b, nth_error p1 k = Some a -> nth_error p2 k = Some b ->
      exists cu c1 c2, nth_error cuts k = Some cu /\ nth_error children k = Some c1 /\ nth_error children (n + k) = Some c2 /\
        crossed cu a b c1 c2.
Proof. exact @multi_point_ok. Qed.
Print Assumptions C32_multi_point.
(* one cut: the children are prefix of one parent plus suffix of the other, both non-empty *)
Theorem C32_one_point : forall (A : Type) draw (p1 p2 : list (list A)) n l,
  2 <= l -> 1 <= n -> shaped n l p1 -> shaped n l p2 -> uniform_ints draw ->
  exists children, multi_point 1 draw p1 p2 = Ok children /\ length children = n + n /\
    forall k a b, nth_error p1 k = Some a -> nth_error p2 k = Some b ->
      exists c, 1 <= c < l /\ nth_error children k = Some (firstn c b ++ skipn c a) /\
        nth_error children (n + k) = Some (firstn c a ++ skipn c b).
Proof.
  intros A draw p1 p2 n l Hl Hn S1 S2 HU.
  destruct (multi_point_ok 1 draw p1 p2 n l (le_n 1) (fun _ => Hl) Hn S1 S2 HU) as (cuts & ch & _ & E & L & _ & CF & H).
  exists ch. split; [auto|]. split; [auto|]. intros k a b Ha Hb. destruct (H k a b Ha Hb) as (cu & c1 & c2 & H1 & H2 & H3 & HC).
  apply nth_error_In in H1. apply (proj1 (Forall_forall _ _) CF) in H1. cbn in H1. destruct H1 as [L1 F1].
  destruct cu as [|c [|? ?]]; try discriminate. inversion F1; subst. exists c. split; [auto|].
  assert (La : length a = l) by (destruct S1 as [_ F]; apply nth_error_In in Ha; apply (proj1 (Forall_forall _ _) F) in Ha; auto).
  assert (Lb : length b = l) by (destruct S2 as [_ F]; apply nth_error_In in Hb; apply (proj1 (Forall_forall _ _) F) in Hb; auto).
  destruct HC as (Lc1 & Lc2 & f & HG & H0 & HS).
  assert (FF : forall i, f i = (c <=? i)).
  { induction i as [|i IH].
    - rewrite H0. cbn [count_occ]. destruct (Nat.eq_dec c 0), (Nat.leb_spec c 0); try lia; auto.
    - rewrite HS, IH. cbn [count_occ]. destruct (Nat.eq_dec c (S i)), (Nat.leb_spec c i), (Nat.leb_spec c (S i)); try lia; auto. }
  assert (G : forall (x y z : list A), length x = l -> length y = l -> length z = l ->
     (forall i, i < l -> nth_error z i = if f i then nth_error x i else nth_error y i) -> z = firstn c y ++ skipn c x).
  { intros x y z Lx Ly Lz HZ. apply nth_error_ext. intros i. destruct (le_lt_dec l i) as [Hi|Hi].
    - transitivity (@None A); [|symmetry]; apply nth_error_None; auto; [lia|]. rewrite app_length, firstn_length, skipn_length. lia.
    - rewrite HZ by auto. rewrite FF. assert (LF : length (firstn c y) = c) by (rewrite firstn_length; lia).
      destruct (Nat.leb_spec c i).
      + rewrite nth_error_app2 by lia. rewrite LF. rewrite <- (firstn_skipn c x) at 1.
        rewrite nth_error_app2 by (rewrite firstn_length; lia). rewrite firstn_length. replace (Nat.min c (length x)) with c by lia. auto.
      + rewrite nth_error_app1 by lia. rewrite <- (firstn_skipn c y) at 1. rewrite nth_error_app1 by lia. auto. }
  split.
  - rewrite H2. f_equal. apply G; auto; [lia|]. intros i Hi. apply HG. lia.
  - rewrite H3. f_equal. apply (G b a); auto; [lia|]. intros i Hi. destruct (HG i) as [_ X]; [lia|]. auto.
Qed.
Print Assumptions C32_one_point.
Theorem C32_constructor : forall z,
  ((1 <= z)%Z -> exists n, make_num_points z = Ok n /\ Z.of_nat n = z /\ 1 <= n) /\ ((z < 1)%Z -> make_num_points z = Err ValueError).
Proof.
  intros z. unfold make_num_points. destruct (Z.ltb_spec z 1) as [H|H]; split; intros X; try lia; auto.
  exists (Z.to_nat z). split; [auto|lia].
Qed.
Print Assumptions C32_constructor.
Example C32_example : shaped 2 3 [[1; 2; 3]; [4; 5; 6]] /\ shaped 2 3 [[7; 8; 9]; [10; 11; 12]] /\ uniform_ints exd /\
  multi_point 2 (fun _ _ _ => [[1; 2]; [0; 0]]) [[1; 2; 3]; [4; 5; 6]] [[7; 8; 9]; [10; 11; 12]] =
    Ok [[7; 2; 9]; [10; 11; 12]; [1; 8; 3]; [4; 5; 6]] /\
  multi_point 1 (fun _ _ _ => [[1]; [0]]) [[1; 2; 3]; [4; 5; 6]] [[7; 8; 9]; [10; 11; 12]] =
    Ok [[7; 8; 3]; [10; 5; 6]; [1; 2; 9]; [4; 11; 12]].
Proof. split; [split; [auto|repeat constructor]|]. split; [split; [auto|repeat constructor]|]. split; [apply exd_ok|]. split; reflexivity. Qed.

(* ------------------------------------------------------------------------------------ C33 *)
Theorem C33_cut_and_splice : forall (A : Type) draw (p1 p2 : list (list A)) n, uniform_int draw -> length p1 = n -> length p2 = n ->
  Forall (fun p => p <> []) p1 -> Forall (fun p => p <> []) p2 ->
  exists children, cut_and_splice_all draw p1 p2 = Ok children /\ length children = n + n /\
    forall k x y, nth_error p1 k = Some x -> nth_error p2 k = Some y ->
      exists a b c d, x = a ++ b /\ y = c ++ d /\ b <> [] /\ d <> [] /\
        length a = draw (2 * k) (length x) /\ length c = draw (2 * k + 1) (length y) /\
        nth_error children k = Some (a ++ d) /\ nth_error children (n + k) = Some (c ++ b).
Proof. exact @splice_all_ok. Qed.
Print Assumptions C33_cut_and_splice.
Theorem C33_material_conserved : forall (A : Type) draw (p1 p2 : list (list A)) n, uniform_int draw -> length p1 = n -> length p2 = n ->
  Forall (fun p => p <> []) p1 -> Forall (fun p => p <> []) p2 ->
  exists children, cut_and_splice_all draw p1 p2 = Ok children /\
    (forall k x y, nth_error p1 k = Some x -> nth_error p2 k = Some y ->
       exists c1 c2, nth_error children k = Some c1 /\ nth_error children (n + k) = Some c2 /\ c1 <> [] /\ c2 <> [] /\
         Permutation (c1 ++ c2) (x ++ y) /\ length c1 + length c2 = length x + length y).
Proof.
  intros A draw p1 p2 n HU L1 L2 F1 F2. destruct (splice_all_ok draw p1 p2 n HU L1 L2 F1 F2) as (ch & E & _ & H).
  exists ch. split; [auto|]. intros k x y Hx Hy. destruct (H k x y Hx Hy) as (a & b & c & d & -> & -> & Nb & Nd & _ & _ & H1 & H2).
  exists (a ++ d), (c ++ b). split; [auto|]. split; [auto|].
  split; [intros X; apply app_eq_nil in X; tauto|]. split; [intros X; apply app_eq_nil in X; tauto|].
  assert (P : Permutation ((a ++ d) ++ c ++ b) ((a ++ b) ++ c ++ d)).
  { rewrite <- !app_assoc. apply Permutation_app_head. rewrite !app_assoc.
    apply Permutation_trans with (b ++ d ++ c); [apply Permutation_app_comm|]. rewrite <- app_assoc.
    apply Permutation_app_head, Permutation_app_comm. }
  split; [auto|]. apply Permutation_length in P. rewrite !app_length in *. lia.
Qed.
Print Assumptions C33_material_conserved.
Example C33_example : uniform_int (fun k n => (k + 1) mod n) /\
  cut_and_splice_all (fun k n => (k + 1) mod n) [[1; 2; 3]; [4]] [[5; 6; 7; 8]; [9; 10]] =
    Ok [[1; 7; 8]; [9; 10]; [5; 6; 2; 3]; [4]].
Proof. split; [intros k n H; apply Nat.mod_upper_bound; auto|reflexivity]. Qed.

(* ------------------------------------------------------------------------------------ C34 *)
Theorem C34_columns_permuted : forall (A : Type) (d : A) qsorter n l (rows : list (list A)) mask keys, qargsort_ok qsorter ->
  shaped n l rows -> shaped n l mask -> shaped n l keys -> all_genes (fun u => u < 1)%Q keys ->
  let new := permute_rows d qsorter l rows mask keys in
  shaped n l new /\
  forall j, j < l ->
    Permutation (col new j) (col rows j) /\
    (forall i, gene mask i j = Some false -> gene new i j = gene rows i j) /\
    exists targets, Permutation targets (selected_rows mask j) /\
      StronglySorted (fun a b => (key_at keys a j <= key_at keys b j)%Q) targets /\
      forall k i t, nth_error (selected_rows mask j) k = Some i -> nth_error targets k = Some t -> gene new i j = gene rows t j.
Proof. exact @permute_rows_ok. Qed.
Print Assumptions C34_columns_permuted.
(* which genes take part: all with permute_all; otherwise the worst solution always, the best one
   practically never, and the better the solution the fewer *)
Theorem C34_permute_all : forall n ranks draws, all_genes unit_draw draws -> length ranks = length draws ->
  perm_mask true n ranks draws = map (map (fun _ => true)) draws.
Proof.
  intros n ranks draws HD L. unfold perm_mask.
  assert (K : forall us, Forall unit_draw us -> map (chosen (Some 1%R)) us = map (fun _ => true) us).
  { intros us Hu. apply map_ext_in. intros u Hin. apply (proj1 (Forall_forall _ _) Hu) in Hin. apply chosen_iff. unfold unit_draw in Hin. lra. }
  revert ranks L. induction HD as [|us draws Hu HD IH]; intros [|r ranks] L; try discriminate L; [reflexivity|].
  cbn [map2 map]. rewrite K by auto. f_equal. apply IH. injection L; auto.
Qed.
Print Assumptions C34_permute_all.
Theorem C34_selection : forall n u, 1 <= n -> unit_draw u ->
  chosen (permute_prob n (Some (- (1 # 2))%Q)) u = true /\
  (chosen (permute_prob n (Some (1 # 2)%Q)) u = true <-> u = 0%R) /\
  (forall p q, (- (1 # 2) <= p <= q)%Q -> chosen (permute_prob n (Some q)) u = true -> chosen (permute_prob n (Some p)) u = true).
Proof.
  intros n u Hn [H0 H1].
  assert (PN : (0 < 1 / INR n)%R) by (apply Rdiv_lt_0_compat; [lra|apply lt_0_INR; lia]).
  split; [|split].
  - rewrite prob_some by (auto; apply Qle_refl). apply chosen_iff. rewrite q2r_mhalf.
    replace (-0.5 + 0.5)%R with 0%R by lra. unfold pv. destruct (Rlt_dec 0 0); lra.
  - rewrite prob_some by (auto; unfold Qle; cbn; lia). rewrite chosen_iff, q2r_half. replace (0.5 + 0.5)%R with 1%R by lra. rewrite pv_one.
    split; intros; lra.
  - intros p q [Hp Hq]. rewrite !prob_some; auto; [|eapply Qle_trans; eauto]. rewrite !chosen_iff. intros H.
    apply q2r_le in Hq as Hq'. apply q2r_le in Hp as Hp'. rewrite q2r_mhalf in Hp'.
    assert (pv (q2r p + 0.5) (1 / INR n) <= pv (q2r q + 0.5) (1 / INR n))%R by (apply pv_mono; lra). lra.
Qed.
Print Assumptions C34_selection.
Example C34_example : 
  let mask := [[true; false]; [false; true]; [true; true]] in
  let keys := [[(1#2); (1#4)]; [(0#1); (3#4)]; [(1#3); (1#8)]]%Q in
  shaped 3 2 [[1; 2]; [3; 4]; [5; 6]] /\ shaped 3 2 mask /\ shaped 3 2 keys /\ all_genes (fun u => u < 1)%Q keys /\
  permute_rows 0 qstable 2 [[1; 2]; [3; 4]; [5; 6]] mask keys = [[5; 2]; [3; 6]; [1; 4]].
Proof.
  cbn zeta. split; [split; [auto|repeat constructor]|]. split; [split; [auto|repeat constructor]|]. split; [split; [auto|repeat constructor]|].
  split; [repeat constructor; unfold Qlt; cbn; lia|]. vm_compute. reflexivity.
Qed.

(* ------------------------------------------------------------------------------------ C35 *)
Theorem C35_mean_preserved : forall eta p1 p2 us n l, (-1 < eta)%R -> shaped n l p1 -> shaped n l p2 -> shaped n l us -> all_genes unit_draw us ->
  length (sbx_raw eta p1 p2 us) = n + n /\
  forall k j x y u, k < n -> gene p1 k j = Some x -> gene p2 k j = Some y -> gene us k j = Some u ->
    exists c1 c2, gene (sbx_raw eta p1 p2 us) k j = Some (Some c1) /\ gene (sbx_raw eta p1 p2 us) (n + k) j = Some (Some c2) /\
      (c1 + c2 = x + y)%R /\
      (u <= 0.5 -> Rabs (c1 - c2) <= Rabs (x - y))%R /\ (0.5 <= u -> Rabs (x - y) <= Rabs (c1 - c2))%R.
Proof. exact sbx_raw_ok. Qed.
Print Assumptions C35_mean_preserved.
Theorem C35_bounds : forall lb ub eta p1 p2 us n l, (-1 < eta)%R -> shaped n l p1 -> shaped n l p2 -> shaped n l us -> all_genes unit_draw us ->
  consistent_bounds lb ub ->
  length (sbx lb ub eta p1 p2 us) = n + n /\
  forall k j c, gene (sbx_raw eta p1 p2 us) k j = Some (Some c) ->
    exists y, gene (sbx lb ub eta p1 p2 us) k j = Some (Some y) /\ inside (bound_at lb j) (bound_at ub j) y /\
      (inside (bound_at lb j) (bound_at ub j) c -> y = c).
Proof.
  intros lb ub eta p1 p2 us n l He S1 S2 S3 HU HB. split.
  - unfold sbx. rewrite map_length. apply (sbx_raw_ok eta p1 p2 us n l He S1 S2 S3 HU).
  - intros k j c Hc. unfold sbx. rewrite respect_row_gene, Hc. cbn.
    destruct (respect_ok (bound_at lb j) (bound_at ub j) c (HB j)) as (y & -> & HI & HE). exists y. auto.
Qed.
Print Assumptions C35_bounds.
Example C35_example : shaped 1 2 [[0; 4]]%R /\ shaped 1 2 [[2; 0]]%R /\ shaped 1 2 [[0.5; 0.5]]%R /\ all_genes unit_draw [[0.5; 0.5]]%R /\
  consistent_bounds (Some [0; 0]%R) (Some [1; 1]%R) /\
  sbx (Some [0; 0]%R) (Some [1; 1]%R) 1 [[0; 4]]%R [[2; 0]]%R [[0.5; 0.5]]%R = [[Some 0; Some 1]; [Some 1; Some 0]]%R.
Proof.
  split; [split; [auto|repeat constructor]|]. split; [split; [auto|repeat constructor]|]. split; [split; [auto|repeat constructor]|].
  split; [repeat constructor; unfold unit_draw; lra|].
  split. { intros [|[|j]] l u; cbn; intros A B; try (injection A as <-; injection B as <-; lra). destruct j; discriminate. }
  assert (B : sbx_beta 1 0.5 = Some 1%R).
  { unfold sbx_beta. destruct (Rlt_dec 0.5 0.5); [lra|]. replace (2 * 0.5)%R with 1%R by lra. rewrite tpow_pv by lra. rewrite pv_one. auto. }
  unfold sbx, sbx_raw, respect_row. cbn. rewrite B. cbn.
  replace (0.5 * ((1 + 1) * 0 + (1 - 1) * 2))%R with 0%R by lra. replace (0.5 * ((1 + 1) * 4 + (1 - 1) * 0))%R with 4%R by lra.
  replace (0.5 * ((1 + 1) * 2 + (1 - 1) * 0))%R with 2%R by lra. replace (0.5 * ((1 + 1) * 0 + (1 - 1) * 4))%R with 0%R by lra.
  rewrite !(Rmax_right 0) by lra. rewrite (Rmin_right 1 0) by lra. rewrite (Rmin_left 1 4), (Rmin_left 1 2) by lra. auto.
Qed.

(* ------------------------------------------------------------------------------------ C88 *)
(* Full claim: for all bounds accepted by the constructor every mutated gene is a number inside its
   bounds.  It fails for lower bound = upper bound. *)
Theorem C88_inside_partial : forall prob eta lb ub rows us rs n l k j x u r,
  match eta with Some e => (-1 < e)%R | None => True end ->
  shaped n l rows -> shaped n l us -> shaped n l rs -> all_genes unit_draw rs ->
  gene rows k j = Some x -> gene us k j = Some u -> gene rs k j = Some r ->
  (nth j lb 0 < nth j ub 0)%R -> (nth j lb 0 <= x <= nth j ub 0)%R ->
  exists y, gene (poly_mutation prob eta lb ub rows us rs) k j = Some (Some y) /\ (nth j lb 0 <= y <= nth j ub 0)%R /\
    (forall p, prob = Some p -> (p <= u)%R -> y = x) /\ (r < 0.5 -> y <= x)%R /\
    ((0.5 <= r)%R -> (x <= y)%R).
Proof.
  intros prob eta lb ub rows us rs n l k j x u r He S1 S2 S3 HD Hx Hu Hr Hlu Hin.
  unfold poly_mutation. set (e := match eta with Some e => e | None => 20%R end).
  assert (He' : (-1 < e)%R) by (unfold e; destruct eta; [auto|lra]).
  rewrite (gene_rowmap (fun j x u r => poly_gene prob (nth j lb 0%R) (nth j ub 0%R) e x u r) 0%R 0%R 0%R rows us rs n l k j x u r S1 S2 S3 Hx Hu Hr).
  unfold poly_gene. set (L := nth j lb 0%R) in *. set (U := nth j ub 0%R) in *.
  assert (K : forall z, (L <= z <= U)%R -> respect (Some L) (Some U) (Some z) = Some z).
  { intros z Hz. destruct (respect_ok (Some L) (Some U) z) as (y & Ey & _ & HE).
    - intros l0 u0 A B; injection A as <-; injection B as <-; lra.
    - rewrite Ey, HE; auto. split; intros ? E; injection E as <-; lra. }
  destruct (poly_ok L U e x r He' Hlu Hin (gene_all _ _ _ _ _ HD Hr)) as (y & Ey & Hy & M1 & M2).
  destruct prob as [p|].
  - destruct (Rlt_dec u p) as [Hp|Hp].
    + exists y. rewrite Ey, K by auto. split; [auto|]. split; [auto|]. split; [intros q E; injection E as <-; lra|]. auto.
    + exists x. rewrite K by auto. split; [auto|]. split; [auto|]. split; [auto|]. split; intros; lra.
  - exists y. rewrite Ey, K by auto. split; [auto|]. split; [auto|]. split; [discriminate|]. auto.
Qed.
Print Assumptions C88_inside_partial.
(* a fixed variable (lower bound = upper bound) is accepted but becomes NaN whenever it is mutated *)
Theorem C88_fixed_variable_refuted : forall lb ub prob eta rows us rs n l k j x u r,
  shaped n l rows -> shaped n l us -> shaped n l rs ->
  gene rows k j = Some x -> gene us k j = Some u -> gene rs k j = Some r ->
  Forall2 Rle lb ub -> nth j lb 0%R = nth j ub 0%R -> (forall p, prob = Some p -> (u < p)%R) ->
  poly_init (Some lb) (Some ub) = Ok (lb, ub) /\ gene (poly_mutation prob eta lb ub rows us rs) k j = Some None.
Proof.
  intros lb ub prob eta rows us rs n l k j x u r S1 S2 S3 Hx Hu Hr HF Heq Hp. split.
  - cbn. assert (E : existsb (fun b => b) (map2 (fun a b => if Rlt_dec b a then true else false) lb ub) = false); [|rewrite E; auto].
    clear -HF. induction HF as [|a b lb ub H HF IH]; cbn; auto. destruct (Rlt_dec b a); [lra|auto].
  - unfold poly_mutation. set (e := match eta with Some e => e | None => 20%R end).
    rewrite (gene_rowmap (fun j x u r => poly_gene prob (nth j lb 0%R) (nth j ub 0%R) e x u r) 0%R 0%R 0%R rows us rs n l k j x u r S1 S2 S3 Hx Hu Hr).
    rewrite <- Heq. unfold poly_gene. destruct prob as [p|].
    + destruct (Rlt_dec u p) as [_|N]; [rewrite poly_fixed; auto|]. exfalso. apply N. auto.
    + rewrite poly_fixed. auto.
Qed.
Print Assumptions C88_fixed_variable_refuted.
Example C88_example : shaped 1 2 [[3; 1]]%R /\ all_genes unit_draw [[0.5; 0.5]]%R /\ Forall2 Rle [3; 0]%R [3; 2]%R /\
  gene [[3; 1]]%R 0 0 = Some 3%R /\ gene [[3; 1]]%R 0 1 = Some 1%R /\ (nth 1 [3; 0] 0 < nth 1 [3; 2] 0)%R /\
  (nth 1 [3; 0] 0 <= 1 <= nth 1 [3; 2] 0)%R /\ nth 0 [3; 0]%R 0%R = nth 0 [3; 2]%R 0%R.
Proof.
  split; [split; [auto|repeat constructor]|]. split; [repeat constructor; unfold unit_draw; lra|].
  split; [repeat constructor; lra|]. cbn. repeat split; lra.
Qed.

(* ------------------------------------------------------------------------------------ C89 *)
Theorem C89_gaussian_mutation : forall lb ub stdev probability rows us gs n l k j x u g,
  shaped n l rows -> shaped n l us -> shaped n l gs -> consistent_bounds lb ub ->
  gene rows k j = Some x -> gene us k j = Some u -> gene gs k j = Some g -> unit_draw u ->
  exists y, gene (gaussian_mutation lb ub stdev probability rows us gs) k j = Some (Some y) /\ inside (bound_at lb j) (bound_at ub j) y /\
    (* genes which are not chosen keep their value *)
    (forall p, probability = Some p -> (p < u)%R -> inside (bound_at lb j) (bound_at ub j) x -> y = x) /\
    (* chosen genes (all of them without a probability) are moved by the scaled noise *)
    ((probability = None \/ exists p, probability = Some p /\ (u <= p)%R) ->
       inside (bound_at lb j) (bound_at ub j) (x + stdev * g)%R -> y = (x + stdev * g)%R).
Proof.
  intros lb ub s pr rows us gs n l k j x u g S1 S2 S3 HB Hx Hu Hg [HU0 HU1].
  unfold gaussian_mutation. set (p := match pr with Some p => p | None => 1%R end).
  rewrite (gene_rowmap (fun j x u g => gaussian_gene (bound_at lb j) (bound_at ub j) s p x u g) 0%R 0%R 0%R rows us gs n l k j x u g S1 S2 S3 Hx Hu Hg).
  unfold gaussian_gene. destruct (Rle_dec u p) as [H|H].
  - destruct (respect_ok (bound_at lb j) (bound_at ub j) (x + s * g)%R (HB j)) as (y & -> & HI & HE). exists y.
    split; [auto|]. split; [auto|]. split; [|auto]. intros q E. unfold p in H. rewrite E in H. lra.
  - destruct (respect_ok (bound_at lb j) (bound_at ub j) x (HB j)) as (y & -> & HI & HE). exists y.
    split; [auto|]. split; [auto|]. split; [auto|]. intros [E|(q & E & Hq)]; unfold p in H; rewrite E in H; exfalso; lra.
Qed.
Print Assumptions C89_gaussian_mutation.
Example C89_example : shaped 1 1 [[1]]%R /\ consistent_bounds None (Some [2]%R) /\ gene [[1]]%R 0 0 = Some 1%R /\ unit_draw 0.5 /\
  gaussian_mutation None (Some [2]%R) 3 (Some 0.25%R) [[1]]%R [[0.5]]%R [[1]]%R = [[Some 1%R]].
Proof.
  split; [split; [auto|repeat constructor]|]. split; [intros j l u; cbn; discriminate|]. split; [auto|]. split; [unfold unit_draw; lra|].
  unfold gaussian_mutation, gaussian_gene. cbn. destruct (Rle_dec 0.5 0.25); [lra|]. unfold respect; cbn. rewrite Rmin_right by lra. auto.
Qed.

(* ------------------------------------------------------------------------------------ C90 *)
(* Full claim: a cross-over with a positive number of requested children (or positive rate) works for
   every population and solution length.  It holds if at least one pairing is made and, for
   one-point cross-over, if solutions have at least two genes. *)
Theorem C90_children_partial : forall (A : Type) sorter co cx (b : batch (list A)) noise draw draw2 num_points l d n,
  argsort_ok sorter -> compares cx b 0 -> nth_error (b_desc b) 0 = Some d -> wf b -> no_nan_col b 0 ->
  1 <= b_len b -> 1 <= cx_size cx -> num_tournaments cx (b_len b) = Ok n -> (2 <= n)%Z -> uniform_ints draw -> uniform_ints draw2 ->
  Forall (fun v => length v = l) (b_vals b) -> 1 <= num_points -> (num_points = 1 -> 2 <= l) ->
  exists b', crossover_do sorter co (multi_point num_points draw2) cx b noise draw = Ok b' /\ b_len b' = Z.to_nat n /\ wf b' /\
    Forall (Forall (fun e => e = NaN)) (b_ev b') /\ b_desc b' = b_desc b /\ Forall (fun v => length v = l) (b_vals b').
Proof.
  intros A s co cx b noise draw draw2 np l d n Hs HC Hd Hwf HN Hb Hz En Hn HU HU2 HL Hnp Hl.
  destruct (single_tournament s co Hs cx b noise draw 0 d n HC Hd Hwf HN Hb Hz En ltac:(lia) HU) as (ps & p1 & p2 & E & [LL FV] & LP & _).
  assert (Hall : Forall (fun v => length v = l) (p1 ++ p2)).
  { clear -FV HL. induction FV as [|i v ps vs H F IH]; constructor; auto. apply nth_error_In in H. apply (proj1 (Forall_forall _ _) HL) in H. auto. }
  apply Forall_app in Hall. destruct Hall as [A1 A2].
  pose proof (forall2_len _ _ _ FV) as LF. rewrite app_length in LF.
  assert (S1 : shaped (length p1) l p1) by (split; auto). assert (S2 : shaped (length p1) l p2) by (split; auto).
  destruct (multi_point_ok np draw2 p1 p2 (length p1) l Hnp Hl ltac:(lia) S1 S2 HU2) as (cuts & ch & _ & Em & Lc & _ & _ & HCr).
  unfold crossover_do. rewrite E. cbn [bind fst snd]. rewrite LL, Nat.eqb_refl. cbn [negb]. rewrite Em. cbn [rmap].
  exists (children_batch b ch). split; [auto|]. split; [unfold b_len, children_batch; cbn; lia|]. split; [|split; [|split]].
  - split; cbn; [rewrite map_length; auto|]. apply Forall_map, Forall_forall. intros v _. rewrite repeat_length. auto.
  - cbn. apply Forall_map, Forall_forall. intros v _. apply Forall_forall. intros x Hx. apply repeat_spec in Hx. auto.
  - auto.
  - cbn. apply Forall_forall. intros v Hv. apply In_nth_error in Hv. destruct Hv as [k Hk].
    assert (Hkl : k < length ch) by (apply nth_error_Some; congruence).
    destruct (le_lt_dec (length p1) k) as [Hge|Hlt].
    + assert (Hk' : k - length p1 < length p1) by lia.
      destruct (nth_error p1 (k - length p1)) as [a|] eqn:Ea; [|apply nth_error_None in Ea; lia].
      destruct (nth_error p2 (k - length p1)) as [c|] eqn:Ec; [|apply nth_error_None in Ec; lia].
      destruct (HCr _ _ _ Ea Ec) as (cu & c1 & c2 & _ & _ & H2 & (_ & L2 & _)). replace (length p1 + (k - length p1)) with k in H2 by lia.
      rewrite Hk in H2. injection H2 as ->. rewrite L2. apply nth_error_In in Ea. apply (proj1 (Forall_forall _ _) A1) in Ea. auto.
    + destruct (nth_error p1 k) as [a|] eqn:Ea; [|apply nth_error_None in Ea; lia].
      destruct (nth_error p2 k) as [c|] eqn:Ec; [|apply nth_error_None in Ec; lia].
      destruct (HCr _ _ _ Ea Ec) as (cu & c1 & c2 & _ & H1 & _ & (L1 & _ & _)).
      rewrite Hk in H1. injection H1 as ->. rewrite L1. apply nth_error_In in Ea. apply (proj1 (Forall_forall _ _) A1) in Ea. auto.
Qed.
Print Assumptions C90_children_partial.
(* a positive rate which asks for less than one child makes the cross-over fail *)
Theorem C90_small_rate_refuted : forall (A : Type) sorter co (b : batch (list A)) noise draw draw2 num_points size rate d,
  argsort_ok sorter -> b_desc b = [d] -> wf b -> no_nan_col b 0 -> 1 <= b_len b -> 1 <= size -> uniform_ints draw ->
  (0 < inject_Z (Z.of_nat (b_len b)) * rate < 1)%Q ->
  crossover_do sorter co (multi_point num_points draw2) (mkCx None size None (Some rate)) b noise draw = Err IndexError.
Proof.
  intros A s co b noise draw draw2 np size rate d Hs Hd Hwf HN Hb Hz HU Hr.
  set (cx := mkCx None size None (Some rate)).
  assert (En : num_tournaments cx (b_len b) = Ok 0%Z).
  { unfold num_tournaments, cx. cbn [cx_children cx_rate]. set (f := (inject_Z (Z.of_nat (b_len b)) * rate)%Q) in *.
    assert (F0 : Qround.Qfloor f = 0%Z).
    { pose proof (Qround.Qfloor_le f) as Q1. pose proof (Qround.Qlt_floor f) as Q2.
      assert (inject_Z (Qround.Qfloor f) < inject_Z 1)%Q by (change (inject_Z 1) with 1%Q; Lqa.lra).
      assert (inject_Z 0 < inject_Z (Qround.Qfloor f + 1))%Q by (change (inject_Z 0) with 0%Q; Lqa.lra).
      rewrite <- Zlt_Qlt in *. lia. }
    assert (C1 : Qround.Qceiling f = 1%Z).
    { pose proof (Qround.Qle_ceiling f) as Q1. pose proof (Qround.Qceiling_lt f) as Q2.
      assert (inject_Z (Qround.Qceiling f - 1) < inject_Z 1)%Q by (change (inject_Z 1) with 1%Q; Lqa.lra).
      assert (inject_Z 0 < inject_Z (Qround.Qceiling f))%Q by (change (inject_Z 0) with 0%Q; Lqa.lra).
      rewrite <- Zlt_Qlt in *. lia. }
    rewrite F0, C1. reflexivity. }
  destruct (single_tournament s co Hs cx b noise draw 0 d 0 (or_intror (conj eq_refl (conj (f_equal (@length bool) Hd) eq_refl))) ltac:(rewrite Hd; auto) Hwf HN Hb Hz En ltac:(lia) HU) as (ps & p1 & p2 & E & [LL FV] & LP & _).
  unfold crossover_do. rewrite E. cbn [bind fst snd]. rewrite LL, Nat.eqb_refl. cbn [negb].
  pose proof (forall2_len _ _ _ FV) as LF. rewrite app_length in LF. cbn in LP. destruct p1; [|cbn in LF; lia]. reflexivity.
Qed.
Print Assumptions C90_small_rate_refuted.
(* one-point cross-over of solutions with a single gene always fails *)
Theorem C90_single_gene_refuted : forall (A : Type) sorter co cx (b : batch (list A)) noise draw draw2 d n,
  argsort_ok sorter -> compares cx b 0 -> nth_error (b_desc b) 0 = Some d -> wf b -> no_nan_col b 0 ->
  1 <= b_len b -> 1 <= cx_size cx -> num_tournaments cx (b_len b) = Ok n -> (2 <= n)%Z -> uniform_ints draw ->
  Forall (fun v => length v = 1) (b_vals b) ->
  crossover_do sorter co (multi_point 1 draw2) cx b noise draw = Err ZeroDivisionError.
Proof.
  intros A s co cx b noise draw draw2 d n Hs HC Hd Hwf HN Hb Hz En Hn HU HL.
  destruct (single_tournament s co Hs cx b noise draw 0 d n HC Hd Hwf HN Hb Hz En ltac:(lia) HU) as (ps & p1 & p2 & E & [LL FV] & LP & _).
  pose proof (forall2_len _ _ _ FV) as LF. rewrite app_length in LF.
  unfold crossover_do. rewrite E. cbn [bind fst snd]. rewrite LL, Nat.eqb_refl. cbn [negb].
  destruct p1 as [|v p1]; [cbn in LF, LL; lia|].
  assert (L1 : length v = 1).
  { inversion FV as [|i w ps' vs Hi HF E1 E2]; subst. apply nth_error_In in Hi. apply (proj1 (Forall_forall _ _) HL) in Hi. auto. }
  unfold multi_point, randint. rewrite L1. cbn [Nat.eqb Nat.sub]. destruct (Z.of_nat (length (v :: p1)) <? 0)%Z eqn:EZ; [lia|].
  rewrite Nat2Z.id. cbn [length Nat.mul Nat.eqb Nat.add andb negb]. reflexivity.
Qed.
Print Assumptions C90_single_gene_refuted.
Example C90_example : argsort_ok stable_argsort /\ compares excx exb 0 /\ wf exb /\ uniform_ints exd /\ Forall (fun v => length v = 3) (b_vals exb) /\
  num_tournaments (mkCx None 1 (Some 2%Z) None) (b_len exb) = Ok 2%Z /\
  rmap (@b_vals _) (crossover_do stable_argsort (fun l => seq 0 (length l)) (multi_point 2 exd) (mkCx None 1 (Some 2%Z) None) exb [] exd) =
    Ok [[1; 2; 3]; [1; 2; 3]] /\
  (0 < inject_Z (Z.of_nat (b_len exb)) * (1 # 4) < 1)%Q.
Proof.
  split; [exact stable_argsort_ok|]. split; [right; auto|]. split; [split; [auto|repeat constructor]|]. split; [exact exd_ok|].
  split; [repeat constructor|]. split; [reflexivity|]. split; [vm_compute; reflexivity|]. split; reflexivity.
Qed.

(* Properties of parameter vectors and of flat (functional) modules: C43, C105, C106. *)
From Coq Require Import String.
From Verif Require Import Prelude ParamModel ParamSpec ParamProofs.
Open Scope nat_scope.

(* an example network over numbers: two layers, the second one ties its weight to the first *)
Definition demo_net : pmod :=
  PMod [("scale"%string, 2)] [("a"%string, PMod [("weight"%string, 0); ("bias"%string, 1)] []); ("b"%string, PMod [("weight"%string, 0); ("bias"%string, 3)] [])].
Definition demo_heap : pheap nat :=
  [ {| p_shape := [2; 2]; p_contig := true; p_data := [1; 2; 3; 4] |}; {| p_shape := [2]; p_contig := true; p_data := [5; 6] |};
    {| p_shape := []; p_contig := true; p_data := [7] |}; {| p_shape := [2]; p_contig := true; p_data := [8; 9] |} ].
Lemma demo_ok : net_ok demo_net demo_heap.
Proof.
  split.
  - repeat constructor.
  - cbn. repeat constructor; cbn; intuition discriminate.
Qed.

(* ---- C43: parameter vectors round-trip ---- *)
(* the parameters of a network: those found anywhere in the module tree, each once; their number counts all elements *)
Theorem C43_parameters {V} m (h : pheap V) : NoDup (parameters m) /\ (forall i, In i (parameters m) <-> exists p, at_path m p i) /\
  count_parameters m h = list_sum (map (fun i => fold_right Nat.mul 1 (p_shape (hget h i))) (parameters m)).
Proof.
  split; [apply parameters_nodup|]. split.
  - intros i. rewrite parameters_in, in_map_iff. split.
    + intros ([q j] & <- & H). apply (slots_path m []) in H. destruct H as (p & _ & A). eauto.
    + intros (p & A). exists (p, i). split; auto. apply (slots_path m []). exists p. auto.
  - unfold count_parameters.
    assert (K : forall l a, fold_left (fun count i => count + numel (hget h i)) l a = a + list_sum (map (fun i => fold_right Nat.mul 1 (p_shape (hget h i))) l)).
    { induction l as [|i l IH]; intros a; [cbn; lia|]. cbn [fold_left map]. rewrite IH. unfold list_sum. cbn [fold_right].
      assert (E : numel (hget h i) = fold_right Nat.mul 1 (p_shape (hget h i))).
      { unfold numel. induction (p_shape (hget h i)) as [|k s IHs]; [reflexivity|]. cbn [fold_right]. rewrite <- IHs. unfold shape_length. cbn [fold_left].
        rewrite shape_length_fold. unfold shape_length. lia. }
      rewrite E. lia. }
    apply K.
Qed.
Print Assumptions C43_parameters.
(* accepted exactly when the length is the number of parameters *)
Theorem C43_accepted_iff {V} m (h : pheap V) v : net_ok m h ->
  (snd (fill_parameters m v h) = Ok tt <-> length v = count_parameters m h).
Proof.
  intros W. split; intros H.
  - destruct (fill_parameters m v h) as [h' r] eqn:E. cbn in H. subst r. eapply fill_accept; eauto.
  - destruct (fill_ok V m h v W H) as (h' & -> & _). reflexivity.
Qed.
Print Assumptions C43_accepted_iff.
(* writing and reading back; nothing else changes; what the modules see are the consecutive pieces of the vector *)
Theorem C43_write_read {V} m (h : pheap V) v h' : net_ok m h -> fill_parameters m v h = (h', Ok tt) -> parameters m <> [] ->
  parameter_vector m h' = Ok v /\ net_ok m h' /\
  contents m h' = pieces (map (fun i => numel (hget h i)) (parameters m)) v /\
  (forall i, p_shape (hget h' i) = p_shape (hget h i)) /\
  (forall i, ~ In i (map snd (slots [] m)) -> hget h' i = hget h i).
Proof.
  intros W E N. pose proof (fill_accept V m h v h' W E) as L. destruct (fill_ok V m h v W L) as (h2 & E2 & P).
  assert (h2 = h') by congruence. subst h2. destruct (fill_frame V m h v h' _ W E) as [F K].
  assert (W' := form_ok V m h h' W F). split; [|split; [auto|split; [|split]]].
  - rewrite (vector_contents V m h' W' N), P. rewrite concat_pieces; [auto|]. rewrite L. symmetry. apply count_total. auto.
  - rewrite P. f_equal. apply map_ext_in. intros i Hi. exact (proj1 (proj2 (proj1 (Forall_forall _ _) (net_ok_params V m h W) i Hi))).
  - intros i. apply (proj2 F i).
  - intros i Hi. apply K. intros C. apply Hi. apply parameters_in. auto.
Qed.
Print Assumptions C43_write_read.
Theorem C43_read_write {V} m (h : pheap V) v : net_ok m h -> parameter_vector m h = Ok v ->
  length v = count_parameters m h /\ fill_parameters m v h = (h, Ok tt).
Proof.
  intros W E. assert (N : parameters m <> []) by (intros N; unfold parameter_vector in E; rewrite N in E; discriminate).
  rewrite (vector_contents V m h W N) in E. injection E as <-.
  assert (L : length (concat (contents m h)) = count_parameters m h).
  { rewrite (count_total V m h W). unfold contents, total. clear. induction (parameters m) as [|i l IH]; cbn; auto. rewrite app_length. unfold list_sum in IH. lia. }
  split; auto. destruct (fill_ok V m h _ W L) as (h' & E & P). destruct (fill_frame V m h _ h' _ W E) as [F K]. rewrite E. f_equal.
  apply hget_ext; [apply F|]. intros i. destruct (in_dec Nat.eq_dec i (parameters m)) as [Hi|Hi]; [|apply K; auto].
  assert (P2 : contents m h' = contents m h).
  { rewrite P. rewrite <- (pieces_concat V (contents m h)) at 2. f_equal. unfold contents. rewrite map_map. auto. }
  assert (P3 : p_data (hget h' i) = p_data (hget h i)).
  { unfold contents in P2. clear - P2 Hi. induction (parameters m) as [|a l IH]; [contradiction|]. cbn in P2. injection P2 as A B. destruct Hi as [<-|Hi]; auto. }
  destruct (proj2 F i) as (F1 & F2 & _). destruct (hget h' i), (hget h i); cbn in *; subst; auto.
Qed.
Print Assumptions C43_read_write.
(* the slices of the flat functional module tile the positions 0 .. length-1: every position is in exactly one slice *)
Theorem C43_slices_partition {V} m (h : pheap V) k : net_ok m h ->
  f_length (make_flat m h) = count_parameters m h /\
  (k < count_parameters m h <-> exists j s e, nth_error (f_slices (make_flat m h)) j = Some (s, e) /\ s <= k < e) /\
  (forall i j s e s' e', nth_error (f_slices (make_flat m h)) i = Some (s, e) -> nth_error (f_slices (make_flat m h)) j = Some (s', e') ->
     s <= k < e -> s' <= k < e' -> i = j).
Proof.
  intros W. split; [apply flat_length; auto|].
  assert (S : f_slices (make_flat m h) = map snd (rows V h (named_parameters m) 0)) by (unfold make_flat; rewrite flat_loop_rows; reflexivity).
  rewrite S, <- (numel_sum V m h W). split; [split|].
  - intros K. apply rows_slices. cbn [Nat.add]. lia.
  - intros (j & s & e & E & K). apply rows_bounds in E. lia.
  - intros i j s e s' e' A B K1 K2. destruct (Nat.lt_trichotomy i j) as [L|[L|L]]; auto.
    + pose proof (rows_disjoint V h _ _ _ _ _ _ _ _ L A B). lia.
    + pose proof (rows_disjoint V h _ _ _ _ _ _ _ _ L B A). lia.
Qed.
Print Assumptions C43_slices_partition.
Example C43_example : net_ok demo_net demo_heap /\ parameters demo_net = [2; 0; 1; 3] /\ count_parameters demo_net demo_heap = 9 /\
  parameter_vector demo_net demo_heap = Ok [7; 1; 2; 3; 4; 5; 6; 8; 9] /\
  snd (fill_parameters demo_net [10; 11; 12; 13; 14; 15; 16; 17; 18] demo_heap) = Ok tt.
Proof. split; [apply demo_ok|]. repeat split. Qed.

(* ---- C106: a flat functional module computes what the network with these parameters computes ---- *)
Theorem C106_flat_module {V X Y} (fwd : list (path * pvalue V) -> X -> result Y) m (h : pheap V) v x : net_ok m h ->
  (length v = count_parameters m h ->
     exists h', fill_parameters m v h = (h', Ok tt) /\ flat_call fwd (make_flat m h) v x = module_call fwd m h' x) /\
  (length v <> count_parameters m h -> flat_call fwd (make_flat m h) v x = Err ValueError).
Proof.
  intros W. split; intros L.
  - destruct (fill_ok V m h v W L) as (h' & E & _). exists h'. split; auto. apply flat_call_filled; auto.
  - unfold flat_call. rewrite (flat_length V m h W). destruct (Nat.eqb_spec (length v) (count_parameters m h)); [contradiction|reflexivity].
Qed.
Print Assumptions C106_flat_module.
(* in particular: with the parameter vector of the network itself, the same result as the network *)
Theorem C106_same_parameters {V X Y} (fwd : list (path * pvalue V) -> X -> result Y) m (h : pheap V) v x : net_ok m h ->
  parameter_vector m h = Ok v -> flat_call fwd (make_flat m h) v x = module_call fwd m h x.
Proof. intros W E. apply flat_call_filled; auto. apply C43_read_write; auto. Qed.
Print Assumptions C106_same_parameters.
(* the tied slot sees the value of the parameter it is tied to *)
Example C106_example : flat_call (fun env (_ : unit) => Ok (map (fun e => snd (snd e)) env)) (make_flat demo_net demo_heap)
    [10; 11; 12; 13; 14; 15; 16; 17; 18] tt = Ok [[10]; [11; 12; 13; 14]; [15; 16]; [11; 12; 13; 14]; [17; 18]].
Proof. reflexivity. Qed.

(* ---- C105: a rejected parameter vector leaves the network as it was ---- *)
(* False: the parameters are overwritten before the length is found to be wrong. *)
Theorem C105_rejected_vector_refuted {V} m (h : pheap V) v i rest : net_ok m h -> parameters m = i :: rest ->
  length v <> count_parameters m h -> numel (hget h i) <= length v -> firstn (numel (hget h i)) v <> p_data (hget h i) ->
  exists h' e, fill_parameters m v h = (h', Err e) /\ h' <> h /\ p_data (hget h' i) = firstn (numel (hget h i)) v.
Proof.
  intros W EP LN LE D. pose proof (net_ok_params V m h W) as NP. pose proof (parameters_nodup m) as ND. pose proof (net_ok_valid V m h W) as NV.
  rewrite EP in NP, ND, NV. inversion NP as [|? ? [L [T1 T2]] NP']; subst. inversion ND as [|? ? NI ND']; subst. inversion NV as [|? ? L' NV']; subst.
  destruct (fill_parameters m v h) as [h' r] eqn:E.
  assert (R : p_data (hget h' i) = firstn (numel (hget h i)) v).
  { unfold fill_parameters in E. rewrite EP in E. cbn [fill_loop] in E. unfold view_flat at 1 in E. rewrite T2 in E. rewrite T1 in E.
    unfold take_slice in E. cbn [Nat.add skipn] in E. rewrite Nat.sub_0_r in E. unfold assign_all at 1 in E.
    rewrite firstn_length in E. replace (Nat.min _ _ =? _) with true in E by (symmetry; apply Nat.eqb_eq; lia).
    destruct (fill_loop rest v _ _) as [h1 r1] eqn:E1.
    apply fill_loop_frame in E1; [|eapply Forall_impl; [|exact NV']; intros k Hk; rewrite upd_length; auto].
    assert (h1 = h') by (destruct r1; congruence). subst h1. rewrite (proj2 E1) by auto. rewrite hget_upd by auto. rewrite Nat.eqb_refl. reflexivity. }
  destruct r as [[]|e].
  - exfalso. apply LN. eapply fill_accept; eauto.
  - exists h', e. split; auto. split; auto. intros ->. rewrite R in D. auto.
Qed.
Print Assumptions C105_rejected_vector_refuted.
(* What holds: whatever the vector, no shape and no tensor outside the network changes; a vector too short for the first
   parameter (and not a single number) changes nothing at all. *)
Theorem C105_rejected_vector_partial {V} m (h : pheap V) v h' r : net_ok m h -> fill_parameters m v h = (h', r) ->
  net_ok m h' /\ length h' = length h /\ (forall i, p_shape (hget h' i) = p_shape (hget h i)) /\
  (forall i, ~ In i (map snd (slots [] m)) -> hget h' i = hget h i) /\
  (forall i rest, parameters m = i :: rest -> length v < numel (hget h i) -> length v <> 1 -> r = Err RuntimeError /\ h' = h).
Proof.
  intros W E. destruct (fill_frame V m h v h' r W E) as [F K]. split; [eapply form_ok; eauto|]. split; [apply F|]. split; [intros i; apply (proj2 F i)|]. split.
  - intros i Hi. apply K. intros C. apply Hi. apply parameters_in. auto.
  - intros i rest EP L N1. pose proof (net_ok_params V m h W) as NP. rewrite EP in NP. inversion NP as [|? ? [L' [T1 T2]] NP']; subst.
    unfold fill_parameters in E. rewrite EP in E. cbn [fill_loop] in E. unfold view_flat in E. rewrite T2 in E. rewrite T1 in E.
    unfold take_slice in E. cbn [Nat.add skipn] in E. rewrite Nat.sub_0_r in E. rewrite firstn_all2 in E by lia. unfold assign_all in E.
    replace (length v =? _) with false in E by (symmetry; apply Nat.eqb_neq; lia).
    destruct v as [|x [|y v]]; [|exfalso; apply N1; reflexivity|]; injection E as <- <-; auto.
Qed.
Print Assumptions C105_rejected_vector_partial.
Example C105_example : exists h', fill_parameters demo_net [10; 11; 12; 13; 14; 15; 16] demo_heap = (h', Err RuntimeError) /\
  parameter_vector demo_net h' = Ok [10; 11; 12; 13; 14; 15; 16; 8; 9] /\ fill_parameters demo_net [] demo_heap = (demo_heap, Err RuntimeError).
Proof. eexists. repeat split. Qed.

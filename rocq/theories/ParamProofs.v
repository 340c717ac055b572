(* Proofs about parameter vectors and flat modules. *)
From Verif Require Import Prelude ParamModel ParamSpec.
Open Scope nat_scope.

Lemma skipn_plus {A} a b (l : list A) : skipn b (skipn a l) = skipn (a + b) l.
Proof. revert l; induction a as [|a IH]; intros [|x l]; cbn; auto. rewrite skipn_nil. reflexivity. Qed.

(* slots lists exactly the paths of the module *)
Lemma pmod_ind2 (P : pmod -> Prop) : (forall own kids, Forall (fun k => P (snd k)) kids -> P (PMod own kids)) -> forall m, P m.
Proof.
  intros H. fix IH 1. intros [own kids]. apply H. induction kids as [|k kids IHk]; constructor; auto.
Qed.
Lemma slots_eq prefix own kids : slots prefix (PMod own kids) =
  map (fun s => (prefix ++ [fst s], snd s)) own ++ flat_map (fun s => slots (prefix ++ [fst s]) (snd s)) kids.
Proof. cbn. f_equal. Qed.
Lemma slots_path m : forall prefix q i, In (q, i) (slots prefix m) <-> exists p, q = prefix ++ p /\ at_path m p i.
Proof.
  induction m as [own kids IH] using pmod_ind2. intros prefix q i. rewrite slots_eq, in_app_iff, in_map_iff, in_flat_map. split.
  - intros [([n j] & E & H)|([k m] & H & K)].
    + cbn in E. injection E as <- <-. exists [n]. split; auto. constructor. auto.
    + pose proof (proj1 (Forall_forall _ _) IH (k, m) H) as IHm. cbn in *. apply IHm in K. destruct K as (p & -> & A). exists (k :: p).
      split; [rewrite <- app_assoc; auto|]. econstructor; eauto.
  - intros (p & -> & A). inversion A as [? ? n j H E1 E2 E3|? ? k m p' j H A' E1 E2 E3]; subst.
    + left. exists (n, i). auto.
    + right. exists (k, m). split; auto. pose proof (proj1 (Forall_forall _ _) IH (k, m) H) as IHm. apply IHm. exists p'. cbn. rewrite <- app_assoc. auto.
Qed.

Section P.
Variable V : Type.
Implicit Types (h : pheap V) (v : list V).

Lemma shape_length_fold s : forall a, fold_left (fun acc k => acc * k) s a = a * shape_length s.
Proof.
  unfold shape_length. induction s as [|k s IH]; intros a; cbn [fold_left]; [lia|].
  rewrite IH. rewrite (IH (1 * k)). lia.
Qed.
Lemma pieces_length (lens : list nat) : forall v, length (pieces lens v) = length lens.
Proof. induction lens; intros; cbn; auto. Qed.
Lemma concat_pieces (lens : list nat) : forall v, list_sum lens = length v -> concat (pieces lens v) = v.
Proof.
  induction lens as [|n lens IH]; intros v H; cbn in *.
  - destruct v; [auto|discriminate].
  - rewrite IH; [apply firstn_skipn|]. rewrite skipn_length. unfold list_sum in *. lia.
Qed.
Lemma pieces_concat (l : list (list V)) : pieces (map (@length V) l) (concat l) = l.
Proof.
  induction l as [|a l IH]; cbn; auto.
  rewrite firstn_app, Nat.sub_diag, firstn_O, app_nil_r, firstn_all. f_equal.
  rewrite skipn_app, Nat.sub_diag, skipn_all. exact IH.
Qed.
Lemma pieces_lens (lens : list nat) : forall v, list_sum lens <= length v -> map (@length V) (pieces lens v) = lens.
Proof.
  induction lens as [|n lens IH]; intros v H; cbn in *; auto. f_equal.
  - rewrite firstn_length. unfold list_sum in *. lia.
  - apply IH. rewrite skipn_length. unfold list_sum in *. lia.
Qed.

(* ---- named_parameters ---- *)
Lemma first_names_in : forall (l : list (path * nat)) seen s, In s (first_names seen l) -> In s l /\ ~ In (snd s) seen.
Proof.
  induction l as [|[n i] l IH]; intros seen s H; cbn in H; [contradiction|].
  destruct (existsb (Nat.eqb i) seen) eqn:E.
  - apply IH in H. destruct H. split; [right|]; auto.
  - destruct H as [<-|H].
    + split; [left; auto|]. cbn. intros C. assert (existsb (Nat.eqb i) seen = true) by (apply existsb_exists; exists i; rewrite Nat.eqb_refl; auto). congruence.
    + apply IH in H. destruct H as [A B]. split; [right; auto|]. intros C. apply B. right; auto.
Qed.
Lemma first_names_nodup : forall (l : list (path * nat)) seen, NoDup (map snd (first_names seen l)).
Proof.
  induction l as [|[n i] l IH]; intros seen; cbn; [constructor|].
  destruct (existsb (Nat.eqb i) seen); auto. cbn. constructor; auto.
  intros C. apply in_map_iff in C. destruct C as (s & E & C). apply first_names_in in C. apply (proj2 C). left. auto.
Qed.
Lemma first_names_cover : forall (l : list (path * nat)) seen s, In s l -> ~ In (snd s) seen -> exists n, In (n, snd s) (first_names seen l).
Proof.
  induction l as [|[n i] l IH]; intros seen s H HN; [contradiction|]. cbn.
  destruct (existsb (Nat.eqb i) seen) eqn:E.
  - destruct H as [<-|H]; [|auto]. exfalso. apply HN. cbn. apply existsb_exists in E. destruct E as (j & A & B). apply Nat.eqb_eq in B. subst. auto.
  - destruct H as [<-|H]; [exists n; left; auto|].
    destruct (Nat.eq_dec i (snd s)) as [->|N]; [exists n; left; auto|].
    destruct (IH (i :: seen) s H) as (k & K); [intros [C|C]; auto|]. exists k. right. auto.
Qed.
Lemma parameters_nodup m : NoDup (parameters m).
Proof. apply first_names_nodup. Qed.
Lemma parameters_in m i : In i (parameters m) <-> In i (map snd (slots [] m)).
Proof.
  unfold parameters, named_parameters. split; intros H.
  - apply in_map_iff in H. destruct H as (s & <- & H). apply first_names_in in H. apply in_map. tauto.
  - apply in_map_iff in H. destruct H as (s & <- & H). destruct (first_names_cover _ [] s H (fun x => x)) as (n & K).
    apply in_map_iff. exists (n, snd s). auto.
Qed.
Lemma named_in m s : In s (named_parameters m) -> In s (slots [] m).
Proof. intros H. apply first_names_in in H. tauto. Qed.
Lemma net_ok_params m h : net_ok m h -> Forall (fun i => i < length h /\ tensor_ok (hget h i)) (parameters m).
Proof.
  intros [H _]. apply Forall_forall. intros i Hi. apply parameters_in in Hi. apply in_map_iff in Hi. destruct Hi as (s & <- & Hs).
  exact (proj1 (Forall_forall _ _) H s Hs).
Qed.

(* ---- the heap ---- *)
Lemma hget_upd h i j p : i < length h -> hget (upd h i p) j = if j =? i then p else hget h j.
Proof.
  intros L. unfold hget. destruct (Nat.eqb_spec j i) as [->|N].
  - apply nth_error_nth. apply upd_same. auto.
  - pose proof (upd_other h i j p (fun E => N (eq_sym E))) as E.
    destruct (Nat.lt_ge_cases j (length h)) as [K|K].
    + destruct (nth_error h j) as [x|] eqn:Ex; [|apply nth_error_None in Ex; lia]. rewrite (nth_error_nth _ _ _ E), (nth_error_nth _ _ _ Ex). auto.
    + rewrite !nth_overflow; auto. rewrite upd_length. auto.
Qed.
Lemma hget_ext h h' : length h = length h' -> (forall i, hget h i = hget h' i) -> h = h'.
Proof. intros L H. apply (nth_ext h h' dummy dummy L). intros n _. apply H. Qed.

Lemma assign_all_length n (src d : list V) : assign_all n src = Ok d -> length d = n.
Proof.
  unfold assign_all. destruct (Nat.eqb_spec (length src) n).
  - intros E; injection E as <-; auto.
  - destruct src as [|x [|]]; try discriminate. intros E; injection E as <-. apply repeat_length.
Qed.

(* whatever happens, only elements of the listed parameters change, never their number or shape *)
Definition same_form h h' := length h' = length h /\ forall j, p_shape (hget h' j) = p_shape (hget h j) /\
  p_contig (hget h' j) = p_contig (hget h j) /\ length (p_data (hget h' j)) = length (p_data (hget h j)).
Lemma same_form_refl h : same_form h h.
Proof. split; auto. Qed.
Lemma same_form_trans a b c : same_form a b -> same_form b c -> same_form a c.
Proof.
  intros [A B] [C D]. split; [lia|]. intros j. destruct (B j) as (B1 & B2 & B3), (D j) as (D1 & D2 & D3).
  rewrite D1, D2, D3. auto.
Qed.
Lemma upd_form h i d : i < length h -> length d = length (p_data (hget h i)) -> same_form h (upd h i (with_pdata (hget h i) d)).
Proof.
  intros L E. split; [apply upd_length|]. intros j. rewrite hget_upd; auto. destruct (Nat.eqb_spec j i) as [->|N]; auto.
Qed.
Lemma fill_loop_frame v : forall ids a h h' r, Forall (fun i => i < length h) ids -> fill_loop ids v a h = (h', r) ->
  same_form h h' /\ (forall j, ~ In j ids -> hget h' j = hget h j).
Proof.
  induction ids as [|i ids IH]; intros a h h' r HF E; cbn in E.
  - injection E as <- <-. split; [apply same_form_refl|auto].
  - inversion HF as [|? ? L HF']; subst. destruct (view_flat (hget h i)) as [d|e] eqn:Ev.
    2:{ injection E as <- <-. split; [apply same_form_refl|auto]. }
    destruct (assign_all (length d) _) as [d'|e] eqn:Ea.
    2:{ injection E as <- <-. split; [apply same_form_refl|auto]. }
    apply assign_all_length in Ea.
    assert (Ed : d = p_data (hget h i)) by (unfold view_flat in Ev; destruct (p_contig _); congruence). subst d.
    assert (F : same_form h (upd h i (with_pdata (hget h i) d'))) by (apply upd_form; auto).
    apply IH in E.
    + destruct E as [A B]. split; [eapply same_form_trans; eauto|]. intros j N. rewrite B; [|intros C; apply N; right; auto].
      rewrite hget_upd; auto. destruct (Nat.eqb_spec j i) as [->|K]; auto. exfalso. apply N. left; auto.
    + eapply Forall_impl; [|exact HF']. intros k Hk. rewrite upd_length. auto.
Qed.

Definition total h (ids : list nat) := list_sum (map (fun i => length (p_data (hget h i))) ids).
Lemma total_same h h' ids : (forall j, In j ids -> length (p_data (hget h' j)) = length (p_data (hget h j))) -> total h' ids = total h ids.
Proof. intros H. unfold total. f_equal. apply map_ext_in. auto. Qed.

Lemma fill_loop_address v : forall ids a h h' a', Forall (fun i => i < length h) ids -> fill_loop ids v a h = (h', Ok a') -> a' = a + total h ids.
Proof.
  induction ids as [|i ids IH]; intros a h h' a' HF E; cbn in E.
  - injection E as <- <-. cbn. lia.
  - inversion HF as [|? ? L HF']; subst. destruct (view_flat (hget h i)) as [d|e] eqn:Ev; [|discriminate].
    destruct (assign_all (length d) _) as [d'|e] eqn:Ea; [|discriminate].
    apply assign_all_length in Ea.
    assert (Ed : d = p_data (hget h i)) by (unfold view_flat in Ev; destruct (p_contig _); congruence). subst d.
    apply IH in E; [|eapply Forall_impl; [|exact HF']; intros k Hk; rewrite upd_length; auto].
    rewrite E. rewrite (total_same h); [unfold total; cbn; unfold list_sum; lia|]. intros j _. apply (upd_form h i d' L Ea).
Qed.

Lemma fill_loop_ok v : forall ids a h, NoDup ids -> Forall (fun i => i < length h /\ p_contig (hget h i) = true) ids ->
  a + total h ids <= length v ->
  exists h', fill_loop ids v a h = (h', Ok (a + total h ids)) /\
    map (fun i => p_data (hget h' i)) ids = pieces (map (fun i => length (p_data (hget h i))) ids) (skipn a v).
Proof.
  induction ids as [|i ids IH]; intros a h ND HF HL.
  - exists h. cbn. rewrite Nat.add_0_r. auto.
  - inversion ND as [|? ? NI ND']; subst. inversion HF as [|? ? [L C] HF']; subst.
    cbn [fill_loop]. unfold view_flat at 1. rewrite C. set (n := length (p_data (hget h i))) in *.
    assert (T : total h (i :: ids) = n + total h ids) by reflexivity. rewrite T in *.
    assert (Es : take_slice v a (a + n) = firstn n (skipn a v)) by (unfold take_slice; f_equal; lia).
    rewrite Es. unfold assign_all. rewrite firstn_length, skipn_length.
    replace (Nat.min n (length v - a) =? n) with true by (symmetry; apply Nat.eqb_eq; lia).
    set (h1 := upd h i (with_pdata (hget h i) (firstn n (skipn a v)))).
    assert (F : same_form h h1) by (apply upd_form; auto; rewrite firstn_length, skipn_length; fold n; lia).
    assert (K : forall j, In j ids -> hget h1 j = hget h j).
    { intros j Hj. unfold h1. rewrite hget_upd; auto. destruct (Nat.eqb_spec j i) as [->|]; [contradiction|auto]. }
    assert (T1 : total h1 ids = total h ids) by (apply total_same; intros j Hj; rewrite K; auto).
    destruct (IH (a + n) h1 ND') as (h' & E & P).
    + apply Forall_forall. intros j Hj. rewrite K by auto. rewrite (proj1 F). exact (proj1 (Forall_forall _ _) HF' j Hj).
    + lia.
    + exists h'. rewrite E, T1. split; [f_equal; f_equal; lia|]. cbn [map pieces]. f_equal.
      * apply fill_loop_frame in E; [|apply Forall_forall; intros j Hj; rewrite (proj1 F); exact (proj1 (proj1 (Forall_forall _ _) HF' j Hj))].
        rewrite (proj2 E) by auto. unfold h1. rewrite hget_upd by auto. rewrite Nat.eqb_refl. reflexivity.
      * rewrite P. fold n. rewrite skipn_plus. f_equal. apply map_ext_in. intros j Hj. rewrite K by auto. reflexivity.
Qed.

Lemma count_total m h : net_ok m h -> count_parameters m h = total h (parameters m).
Proof.
  intros W. apply net_ok_params in W. unfold count_parameters. cut (forall a, fold_left (fun c i => c + numel (hget h i)) (parameters m) a = a + total h (parameters m)).
  - intros K. rewrite K. lia.
  - induction W as [|i l [L T] W IH]; intros a; cbn [fold_left]; [cbn; lia|]. rewrite IH. cbn. rewrite (proj1 T). unfold total, list_sum. lia.
Qed.
Lemma net_ok_valid m h : net_ok m h -> Forall (fun i => i < length h) (parameters m).
Proof. intros W. eapply Forall_impl; [|apply net_ok_params; eauto]. cbn. tauto. Qed.
Lemma net_ok_contig m h : net_ok m h -> Forall (fun i => i < length h /\ p_contig (hget h i) = true) (parameters m).
Proof. intros W. eapply Forall_impl; [|apply net_ok_params; eauto]. intros i (A & B & C). auto. Qed.

Lemma fill_ok m h v : net_ok m h -> length v = count_parameters m h ->
  exists h', fill_parameters m v h = (h', Ok tt) /\ contents m h' = pieces (map (fun i => length (p_data (hget h i))) (parameters m)) v.
Proof.
  intros W L. rewrite (count_total m h W) in L.
  destruct (fill_loop_ok v (parameters m) 0 h (parameters_nodup m) (net_ok_contig m h W)) as (h' & E & P); [lia|].
  exists h'. unfold fill_parameters. rewrite E. cbn [Nat.add]. rewrite <- L, Nat.eqb_refl. split; auto.
Qed.
Lemma fill_accept m h v h' : net_ok m h -> fill_parameters m v h = (h', Ok tt) -> length v = count_parameters m h.
Proof.
  intros W E. rewrite (count_total m h W). unfold fill_parameters in E.
  destruct (fill_loop (parameters m) v 0 h) as [h1 [a|e]] eqn:El; [|discriminate].
  apply fill_loop_address in El; [|apply net_ok_valid; auto].
  destruct (Nat.eqb_spec a (length v)); [lia|discriminate].
Qed.
Lemma fill_frame m h v h' r : net_ok m h -> fill_parameters m v h = (h', r) ->
  same_form h h' /\ (forall j, ~ In j (parameters m) -> hget h' j = hget h j).
Proof.
  intros W E. unfold fill_parameters in E. destruct (fill_loop (parameters m) v 0 h) as [h1 [a|e]] eqn:El.
  - apply fill_loop_frame in El; [|apply net_ok_valid; auto]. destruct (negb _); injection E as <- <-; auto.
  - injection E as <- <-. apply fill_loop_frame in El; [auto|apply net_ok_valid; auto].
Qed.
Lemma form_ok m h h' : net_ok m h -> same_form h h' -> net_ok m h'.
Proof.
  intros [A B] [L F]. split; auto. eapply Forall_impl; [|exact A]. intros s (K1 & K2 & K3). destruct (F (snd s)) as (F1 & F2 & F3).
  split; [lia|]. split; [|congruence]. unfold numel in *. rewrite F1, F3. auto.
Qed.
Lemma lens_form m h h' : same_form h h' -> map (fun i => length (p_data (hget h' i))) (parameters m) = map (fun i => length (p_data (hget h i))) (parameters m).
Proof. intros [_ F]. apply map_ext. intros i. apply F. Qed.

Lemma vector_contents m h : net_ok m h -> parameters m <> [] -> parameter_vector m h = Ok (concat (contents m h)).
Proof.
  intros W N. unfold parameter_vector.
  assert (E : sequence (map (fun i => view_flat (hget h i)) (parameters m)) = Ok (contents m h)).
  { unfold contents. pose proof (net_ok_contig m h W) as K. clear N. induction K as [|i l [A B] K IH]; cbn; auto.
    unfold view_flat at 1. rewrite B, IH. reflexivity. }
  rewrite E. cbn [bind]. unfold contents. destruct (parameters m); [contradiction|]. reflexivity.
Qed.

(* ---- the flat module ---- *)
Fixpoint rows h (l : list (path * nat)) (i : nat) : list (path * list nat * (nat * nat)) :=
  match l with
  | [] => []
  | (n, p) :: t => (n, p_shape (hget h p), (i, i + numel (hget h p))) :: rows h t (i + numel (hget h p))
  end.
Lemma flat_loop_rows h : forall l i len acc,
  flat_loop h l i len acc = (len + list_sum (map (fun s => numel (hget h (snd s))) l), acc ++ rows h l i).
Proof.
  induction l as [|[n p] l IH]; intros i len acc; cbn [flat_loop].
  - cbn. rewrite app_nil_r, Nat.add_0_r. auto.
  - rewrite IH. cbn [rows map list_sum fold_right snd]. rewrite <- app_assoc. cbn [app]. unfold numel at 2 4 5.
    f_equal. unfold list_sum. unfold numel. lia.
Qed.
Lemma numel_sum m h : net_ok m h -> list_sum (map (fun s => numel (hget h (snd s))) (named_parameters m)) = count_parameters m h.
Proof.
  intros W. rewrite (count_total m h W). unfold total, parameters. rewrite map_map. f_equal. apply map_ext_in. intros s Hs.
  symmetry. apply named_in in Hs. exact (proj1 (proj2 (proj1 (Forall_forall _ _) (proj1 W) s Hs))).
Qed.
Lemma flat_length m h : net_ok m h -> f_length (make_flat m h) = count_parameters m h.
Proof.
  intros W. rewrite <- (numel_sum m h W). unfold make_flat. rewrite flat_loop_rows. cbn [f_length]. reflexivity.
Qed.

Lemma flat_params_rows h h' v : forall (l : list (path * nat)) a,
  Forall (fun s => p_shape (hget h' (snd s)) = p_shape (hget h (snd s)) /\ length (p_data (hget h' (snd s))) = numel (hget h (snd s))) l ->
  map (fun s => p_data (hget h' (snd s))) l = pieces (map (fun s => numel (hget h (snd s))) l) (skipn a v) ->
  sequence (map3 (fun (name : path) slice shape => rmap (fun t => (name, t)) (reshape (take_slice v (fst slice) (snd slice)) shape))
     (map (fun r => fst (fst r)) (rows h l a)) (map snd (rows h l a)) (map (fun r => snd (fst r)) (rows h l a)))
  = Ok (map (fun s => (fst s, value_of (hget h' (snd s)))) l).
Proof.
  induction l as [|[n p] l IH]; intros a HF E; cbn [rows map map3 sequence]; auto.
  inversion HF as [|? ? [K1 K2] HF']; subst. cbn [snd fst map pieces] in *. injection E as E1 E2.
  rewrite skipn_plus in E2. rewrite (IH _ HF' E2).
  unfold take_slice. replace (a + numel (hget h p) - a) with (numel (hget h p)) by lia. rewrite <- E1.
  unfold reshape. change (shape_length (p_shape (hget h p))) with (numel (hget h p)). rewrite K2, Nat.eqb_refl. cbn [rmap].
  unfold value_of at 2. cbn [snd fst]. rewrite K1. reflexivity.
Qed.
Lemma flat_params_filled m h v h' : net_ok m h -> fill_parameters m v h = (h', Ok tt) ->
  flat_params (make_flat m h) v = Ok (map (fun s => (fst s, value_of (hget h' (snd s)))) (named_parameters m)).
Proof.
  intros W E. pose proof (fill_accept m h v h' W E) as L. destruct (fill_ok m h v W L) as (h2 & E2 & P).
  assert (h2 = h') by congruence. subst h2. destruct (fill_frame m h v h' _ W E) as [F _].
  unfold flat_params, make_flat. rewrite flat_loop_rows. cbn [f_names f_slices f_shapes app].
  apply flat_params_rows.
  - apply Forall_forall. intros s Hs. destruct (proj2 F (snd s)) as (F1 & F2 & F3). split; auto. rewrite F3.
    apply named_in in Hs. exact (proj1 (proj2 (proj1 (Forall_forall _ _) (proj1 W) s Hs))).
  - cbn [skipn]. unfold contents, parameters in P. rewrite !map_map in P. rewrite P. f_equal. apply map_ext_in. intros s Hs.
    apply named_in in Hs. exact (proj1 (proj2 (proj1 (Forall_forall _ _) (proj1 W) s Hs))).
Qed.

Lemma path_eqb_eq p q : path_eqb p q = true <-> p = q.
Proof. unfold path_eqb. destruct (list_eq_dec _ p q); split; auto; discriminate. Qed.
Lemma dict_get_map (f : nat -> pvalue V) (l : list (path * nat)) n i : NoDup (map fst l) -> In (n, i) l ->
  dict_get (map (fun s => (fst s, f (snd s))) l) n = Some (f i).
Proof.
  unfold dict_get. induction l as [|[k j] l IH]; intros ND HI; [contradiction|]. cbn [map find fst snd].
  inversion ND as [|? ? NI ND']; subst. destruct HI as [HI|HI].
  - injection HI as -> ->. replace (path_eqb n n) with true by (symmetry; apply path_eqb_eq; auto). reflexivity.
  - destruct (path_eqb k n) eqn:E; [|auto]. apply path_eqb_eq in E. subst. exfalso. apply NI. cbn. apply in_map_iff. exists (n, i). auto.
Qed.
Lemma dict_get_some (f : nat -> pvalue V) (l : list (path * nat)) n t :
  dict_get (map (fun s => (fst s, f (snd s))) l) n = Some t -> exists i, In (n, i) l /\ t = f i.
Proof.
  unfold dict_get. destruct (find _ _) as [e|] eqn:E; [|discriminate]. cbn. intros H. injection H as <-.
  apply find_some in E. destruct E as [A B]. apply path_eqb_eq in B. apply in_map_iff in A. destruct A as (s & <- & A). cbn in *. subst n.
  exists (snd s). destruct s; auto.
Qed.
Lemma nodup_fst_in (l : list (path * nat)) n i j : NoDup (map fst l) -> In (n, i) l -> In (n, j) l -> i = j.
Proof.
  induction l as [|[k a] l IH]; intros ND A B; [contradiction|]. inversion ND as [|? ? NI ND']; subst.
  destruct A as [A|A], B as [B|B]; try congruence; auto.
  - injection A as -> ->. exfalso. apply NI. cbn. apply in_map_iff. exists (n, j). auto.
  - injection B as -> ->. exfalso. apply NI. cbn. apply in_map_iff. exists (n, i). auto.
Qed.
Lemma first_names_fst_nodup : forall (l : list (path * nat)) seen, NoDup (map fst l) -> NoDup (map fst (first_names seen l)).
Proof.
  induction l as [|[n i] l IH]; intros seen H; cbn; [constructor|]. inversion H as [|? ? NI ND]; subst.
  destruct (existsb _ _); auto. cbn. constructor; auto. intros C. apply NI. apply in_map_iff in C. destruct C as (s & E & C).
  apply first_names_in in C. apply in_map_iff. exists s. tauto.
Qed.
Lemma slot_value_ok m h (f : nat -> pvalue V) s : net_ok m h -> In s (slots [] m) ->
  slot_value (slots [] m) (map (fun s => (fst s, f (snd s))) (named_parameters m)) (snd s) = Ok (f (snd s)).
Proof.
  intros [_ ND] HI. unfold slot_value.
  assert (ND2 : NoDup (map fst (named_parameters m))) by (apply first_names_fst_nodup; auto).
  set (d := map (fun s => (fst s, f (snd s))) (named_parameters m)).
  destruct (find _ (slots [] m)) as [s'|] eqn:E.
  - apply find_some in E. destruct E as [A B]. apply andb_prop in B. destruct B as [B C]. apply Nat.eqb_eq in B.
    destruct (dict_get d (fst s')) as [t|] eqn:Ed; [|discriminate]. f_equal.
    unfold d in Ed. apply dict_get_some in Ed. destruct Ed as (i & K & ->). apply named_in in K.
    destruct s' as [n' j]. cbn in *. rewrite (nodup_fst_in _ _ _ _ ND K A). f_equal. auto.
  - exfalso. destruct (first_names_cover (slots [] m) [] s HI (fun x => x)) as (n & K).
    assert (K2 := named_in m _ K). pose proof (find_none _ _ E _ K2) as C. cbn in C. rewrite Nat.eqb_refl in C.
    unfold d in C. rewrite (dict_get_map f _ n (snd s) ND2 K) in C. discriminate.
Qed.
Lemma sequence_map_Ok {A B} (f : A -> result B) g l : (forall a, In a l -> f a = Ok (g a)) -> sequence (map f l) = Ok (map g l).
Proof. induction l as [|a l IH]; intros H; cbn; auto. rewrite (H a (or_introl eq_refl)), IH; auto. intros b Hb. apply H. right; auto. Qed.

Lemma flat_call_filled {X Y} (fwd : list (path * pvalue V) -> X -> result Y) m h v h' x : net_ok m h ->
  fill_parameters m v h = (h', Ok tt) -> flat_call fwd (make_flat m h) v x = module_call fwd m h' x.
Proof.
  intros W E. pose proof (fill_accept m h v h' W E) as L. unfold flat_call. rewrite (flat_length m h W), L, Nat.eqb_refl. cbn [negb].
  rewrite (flat_params_filled m h v h' W E). cbn [bind].
  assert (N : f_net (make_flat m h) = m) by (unfold make_flat; rewrite flat_loop_rows; reflexivity). rewrite N.
  rewrite (sequence_map_Ok _ (fun s => (fst s, value_of (hget h' (snd s))))); [reflexivity|].
  intros s Hs. rewrite (slot_value_ok m h (fun i => value_of (hget h' i)) s W Hs). reflexivity.
Qed.

(* the slices of the flat module tile the vector *)
Lemma rows_slices h : forall (l : list (path * nat)) a k, a <= k < a + list_sum (map (fun s => numel (hget h (snd s))) l) ->
  exists j s e, nth_error (map snd (rows h l a)) j = Some (s, e) /\ s <= k < e.
Proof.
  induction l as [|[n p] l IH]; intros a k HK; cbn in HK; [lia|]. cbn [rows map snd].
  destruct (Nat.lt_ge_cases k (a + numel (hget h p))) as [L|L].
  - exists 0. eexists _, _. split; [reflexivity|]. lia.
  - destruct (IH (a + numel (hget h p)) k) as (j & s & e & A & B); [unfold list_sum in *; lia|]. exists (S j), s, e. auto.
Qed.
Lemma rows_bounds h : forall (l : list (path * nat)) a j s e, nth_error (map snd (rows h l a)) j = Some (s, e) ->
  a <= s <= e /\ e <= a + list_sum (map (fun s => numel (hget h (snd s))) l).
Proof.
  induction l as [|[n p] l IH]; intros a j s e E; [destruct j; discriminate|]. cbn [rows map snd] in E.
  destruct j as [|j]; cbn in E.
  - injection E as <- <-. cbn. lia.
  - apply IH in E. cbn. unfold list_sum in *. lia.
Qed.
Lemma rows_disjoint h : forall (l : list (path * nat)) a i j s e s' e', i < j -> nth_error (map snd (rows h l a)) i = Some (s, e) ->
  nth_error (map snd (rows h l a)) j = Some (s', e') -> e <= s'.
Proof.
  induction l as [|[n p] l IH]; intros a i j s e s' e' L A B; [destruct i; discriminate|]. cbn [rows map snd] in *.
  destruct j as [|j]; [lia|]. cbn in B. destruct i as [|i]; cbn in A.
  - injection A as <- <-. apply rows_bounds in B. lia.
  - eapply (IH _ i j); eauto. lia.
Qed.
End P.

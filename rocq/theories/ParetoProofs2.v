From Coq Require Import QArith Sorted Lqa.
From Verif Require Import Prelude FloatLib SortLib BatchModel BatchSpec BatchProofs ParetoModel ParetoSpec ParetoProofs WorkProofs CMemProofs.
Close Scope Q_scope.
Open Scope nat_scope.

Section B.
Context {V : Type}.
Implicit Types b : batch V.


Lemma rows_nth b i r : nth_error (rows b) i = Some r -> nth_error (b_ev b) i = Some (snd r).
Proof.
  unfold rows, rows_of. rewrite combine_nth_error. destruct (nth_error (b_vals b) i); [|discriminate].
  destruct (nth_error (b_ev b) i); [|discriminate]. intros H. injection H as <-. reflexivity.
Qed.
Lemma rows_nth_ev b i e : wf b -> nth_error (b_ev b) i = Some e -> exists r, nth_error (rows b) i = Some r /\ snd r = e.
Proof.
  intros Hwf He. assert (H : i < length (rows b)).
  { rewrite rows_length by auto. destruct Hwf as [<- _]. apply nth_error_Some. congruence. }
  destruct (nth_error (rows b) i) as [r|] eqn:E. - exists r. split; auto. apply rows_nth in E. congruence.
  - apply nth_error_None in E. lia.
Qed.

Lemma utils_ok b : wf b -> all_no_nan b -> utils b = Ok (map (uvec b) (b_ev b)).
Proof.
  intros Hwf HN. unfold utils. destruct (existsb _ (b_ev b)) eqn:E; auto. exfalso.
  apply existsb_exists in E. destruct E as (r & Hr & E). apply existsb_exists in E. destruct E as (x & Hx & E).
  apply In_nth_error in Hx. destruct Hx as (k & Hk).
  assert (Kn : k < num_objs b).
  { assert (k < length (firstn (num_objs b) r)) by (apply nth_error_Some; congruence). rewrite firstn_length in *. lia. }
  rewrite nth_error_firstn' in Hk. destruct (Nat.ltb_spec k (num_objs b)); [|lia].
  apply In_nth_error in Hr. destruct Hr as (i & Hi). destruct (rows_nth_ev b i r Hwf Hi) as (row & Hrow & Hs).
  specialize (HN k Kn). unfold no_nan in HN. rewrite Forall_forall in HN. specialize (HN row (nth_error_In _ _ Hrow)).
  unfold score in HN. rewrite Hs, (nth_error_nth _ _ _ Hk) in HN. congruence.
Qed.
Lemma uvec_nth b e k : length e = eval_width b ->
  nth_error (uvec b e) k = match nth_error (b_desc b) k with Some d => Some (if d : bool then nth k e NaN else fneg (nth k e NaN)) | None => None end.
Proof.
  intros L. unfold uvec. rewrite map2_nth_error. destruct (nth_error (b_desc b) k) as [d|] eqn:Ed; auto.
  assert (k < num_objs b) by (apply nth_error_Some; congruence).
  rewrite nth_error_firstn'. destruct (Nat.ltb_spec k (num_objs b)); [|lia]. rewrite (nth_error_nth' e NaN) by (rewrite L; unfold eval_width; lia). reflexivity.
Qed.
Lemma uvec_length b e : length e = eval_width b -> length (uvec b e) = num_objs b.
Proof.
  intros L. unfold uvec. rewrite map2_length, firstn_length, L. unfold eval_width, num_objs. lia.
Qed.
Lemma fneg_flt x y : flt (fneg x) (fneg y) = flt y x.
Proof. destruct x, y; cbn; auto. lia. Qed.
Lemma fneg_nan x : is_nan (fneg x) = is_nan x.
Proof. destruct x; auto. Qed.

Lemma dominated_spec b i j ri rj : wf b -> all_no_nan b -> nth_error (rows b) i = Some ri -> nth_error (rows b) j = Some rj ->
  (dominated_by (uvec b (snd ri)) (uvec b (snd rj)) = true <-> dominates (b_desc b) rj ri).
Proof.
  intros Hwf HN Hi Hj. rewrite dom_iff. unfold dominates.
  assert (Li : length (snd ri) = eval_width b). { destruct Hwf as [_ HF]. rewrite Forall_forall in HF. apply HF. eapply nth_error_In, rows_nth; eauto. }
  assert (Lj : length (snd rj) = eval_width b). { destruct Hwf as [_ HF]. rewrite Forall_forall in HF. apply HF. eapply nth_error_In, rows_nth; eauto. }
  assert (N : forall k d, nth_error (b_desc b) k = Some d -> is_nan (score k ri) = false /\ is_nan (score k rj) = false).
  { intros k d Hd. assert (k < num_objs b) by (apply nth_error_Some; congruence). specialize (HN k H). unfold no_nan in HN.
    rewrite Forall_forall in HN. split; apply HN; eapply nth_error_In; eauto. }
  assert (B : forall k d, nth_error (b_desc b) k = Some d ->
    (better d (score k rj) (score k ri) <-> flt (if d then score k ri else fneg (score k ri)) (if d then score k rj else fneg (score k rj)) = true)).
  { intros k d Hd. destruct d; cbn [better]; rewrite <- flt_lt; [reflexivity|]. rewrite fneg_flt. reflexivity. }
  assert (B' : forall k d, nth_error (b_desc b) k = Some d ->
    (~ better d (score k ri) (score k rj) <-> fge (if d then score k rj else fneg (score k rj)) (if d then score k ri else fneg (score k ri)) = true)).
  { intros k d Hd. destruct (N k d Hd) as [N1 N2]. rewrite fge_spec. destruct d; cbn [better]; rewrite <- flt_nlt.
    - tauto. - rewrite fneg_flt, !fneg_nan. tauto. }
  split.
  - intros [H1 (k & x & y & Hx & Hy & Hlt)]. split.
    + intros k0 d Hd. apply B'; auto. apply (H1 k0); rewrite uvec_nth by auto; rewrite Hd; reflexivity.
    + rewrite uvec_nth in Hx, Hy by auto. destruct (nth_error (b_desc b) k) as [d|] eqn:Ed; [|discriminate].
      exists k, d. split; auto. apply B; auto. injection Hx as <-. injection Hy as <-. exact Hlt.
  - intros [H1 (k & d & Hd & Hb)]. split.
    + intros k0 x y Hx Hy. rewrite uvec_nth in Hx, Hy by auto. destruct (nth_error (b_desc b) k0) as [d0|] eqn:Ed; [|discriminate].
      injection Hx as <-. injection Hy as <-. apply B'; auto.
    + exists k. rewrite !uvec_nth by auto. rewrite Hd. do 2 eexists. split; [reflexivity|]. split; [reflexivity|]. apply B; auto.
Qed.

Lemma shaped_us b : wf b -> Forall (fun u => length u = num_objs b) (map (uvec b) (b_ev b)).
Proof.
  intros [_ HF]. apply Forall_forall. intros u Hu. apply in_map_iff in Hu. destruct Hu as (e & <- & He).
  apply uvec_length. rewrite Forall_forall in HF. auto.
Qed.

Lemma ranks_front_numbers crowd_order b crowdsort : wf b -> all_no_nan b -> (forall l, length (crowd_order l) = length l) ->
  exists ranks cs, batch_pareto_ranks crowd_order b crowdsort = Ok (ranks, cs) /\ length cs = b_len b /\
    front_numbers (b_desc b) (rows b) ranks /\
    (crowdsort = true -> forall k, (exists i, nth_error ranks i = Some k) ->
      map (fun i => nth i cs 0) (front_of ranks k) = crowd_order (map (fun i => uvec b (nth i (b_ev b) [])) (front_of ranks k))).
Proof.
  intros Hwf HN HL. unfold batch_pareto_ranks. rewrite utils_ok by auto. cbn [bind].
  destruct (ranks_ok crowd_order (map (uvec b) (b_ev b)) (num_objs b) (shaped_us b Hwf) crowdsort HL) as (ranks & cs & E & L1 & L2 & D & C & SC).
  exists ranks, cs. split; [exact E|]. rewrite map_length in L1, L2, D, C, SC. pose proof Hwf as [Hlen _]. rewrite Hlen in L1, L2, D, C, SC.
  split; [auto|]. pose proof (rows_length b Hwf) as RL.
  assert (DD : forall i j ri rj, nth_error (rows b) i = Some ri -> nth_error (rows b) j = Some rj ->
            (dom (map (uvec b) (b_ev b)) i j = true <-> dominates (b_desc b) rj ri)).
  { intros i j ri rj Hi Hj. unfold dom. pose proof (rows_nth b i ri Hi) as Ei. pose proof (rows_nth b j rj Hj) as Ej.
    rewrite (nth_error_nth (map (uvec b) (b_ev b)) i [] (x := uvec b (snd ri))) by (rewrite nth_error_map, Ei; reflexivity).
    rewrite (nth_error_nth (map (uvec b) (b_ev b)) j [] (x := uvec b (snd rj))) by (rewrite nth_error_map, Ej; reflexivity).
    eapply dominated_spec; eauto. }
  assert (LT : forall i ri, nth_error (rows b) i = Some ri -> i < b_len b).
  { intros i ri Hi. rewrite <- RL. apply nth_error_Some. congruence. }
  assert (RK : forall i k, i < b_len b -> nth i ranks 0 = k -> nth_error ranks i = Some k).
  { intros i k Hi <-. apply nth_error_nth'. lia. }
  assert (LOW : forall i j ri rj, nth_error (rows b) i = Some ri -> nth_error (rows b) j = Some rj -> dominates (b_desc b) rj ri ->
             nth j ranks 0 < nth i ranks 0).
  { intros i j ri rj Hi Hj Hd. apply D; eauto. apply (DD i j ri rj); auto. }
  assert (PRE : forall i k ri, nth_error (rows b) i = Some ri -> nth_error ranks i = Some (S k) ->
     exists j rj, nth_error (rows b) j = Some rj /\ nth_error ranks j = Some k /\ dominates (b_desc b) rj ri).
  { intros i k ri Hi Hk. apply nth_error_nth with (d := 0) in Hk. destruct (C i k) as (j & Hj & Rj & Dj); eauto.
    destruct (nth_error (rows b) j) as [rj|] eqn:Ej. 2:{ apply nth_error_None in Ej. lia. }
    exists j, rj. split; auto. split; [apply RK; auto|]. apply (DD i j ri rj); auto. }
  split.
  - unfold front_numbers. split; [lia|]. split; [|split; [|split]]; auto.
    + intros i j ri rj Hi Hj Heq Hd. specialize (LOW j i rj ri Hj Hi Hd).
      rewrite !(nth_error_nth' ranks 0) in Heq by (rewrite L1; eauto). injection Heq as Heq. lia.
    + intros i ri Hi. split.
      * intros H0 rj Hj Hd. apply In_nth_error in Hj. destruct Hj as (j & Hj). specialize (LOW i j ri rj Hi Hj Hd).
        apply nth_error_nth with (d := 0) in H0. lia.
      * intros H. destruct (nth_error ranks i) as [[|k]|] eqn:Ek; auto.
        -- destruct (PRE i k ri Hi Ek) as (j & rj & Hj & _ & Hd). exfalso. apply (H rj); auto. eapply nth_error_In; eauto.
        -- apply nth_error_None in Ek. specialize (LT i ri Hi). lia.
    + intros i j ri rj a c Hi Hj Hd Ha Hc. specialize (LOW i j ri rj Hi Hj Hd).
      apply nth_error_nth with (d := 0) in Ha, Hc. lia.
  - intros Hc k (i & Hk). assert (Hi : i < b_len b) by (rewrite <- L1; apply nth_error_Some; congruence).
    apply nth_error_nth with (d := 0) in Hk. 
    assert (Kb : k < b_len b + 1).
    { (* ranks are bounded: a chain of dominators of distinct ranks *)
      clear -D C Hi Hk L1. revert i Hi Hk.
      assert (G : forall t i, i < b_len b -> nth i ranks 0 = t -> exists l, length l = S t /\ NoDup l /\ Forall (fun x => x < b_len b /\ nth x ranks 0 <= t) l).
      { induction t as [|t IH]; intros i Hi Hk.
        - exists [i]. split; auto. split; [constructor; [intros []|constructor]|]. constructor; [split; [auto|lia]|constructor].
        - destruct (C i t Hi Hk) as (j & Hj & Rj & _). destruct (IH j Hj Rj) as (l & Ll & Nl & Fl).
          exists (i :: l). split; [cbn; lia|]. rewrite Forall_forall in Fl. split.
          + constructor; auto. intros Hin. apply Fl in Hin. lia.
          + constructor; [split; [auto|lia]|]. apply Forall_forall. intros x Hx. apply Fl in Hx. lia. }
      intros i Hi Hk. destruct (G k i Hi Hk) as (l & Ll & Nl & Fl).
      assert (length l <= length (seq 0 (b_len b))).
      { apply NoDup_incl_length; auto. intros x Hx. rewrite Forall_forall in Fl. apply in_seq. apply Fl in Hx. lia. }
      rewrite seq_length in H. lia. }
    rewrite (SC Hc k Kb) by eauto. f_equal. apply map_ext_in. intros x Hx. unfold front_of in Hx. apply filter_In in Hx.
    destruct Hx as [Hx _]. apply in_seq in Hx. rewrite (nth_indep _ [] (uvec b [])) by (rewrite map_length; lia).
    apply map_nth.
Qed.

(* ------------------------------------------------------------------ arg_pareto_sort *)
Lemma front_in ranks k i : In i (front_of ranks k) <-> nth_error ranks i = Some k.
Proof.
  unfold front_of. rewrite filter_In, in_seq, Nat.eqb_eq. split.
  - intros [H1 <-]. apply nth_error_nth'. lia.
  - intros H. split; [|apply nth_error_nth; auto]. assert (i < length ranks) by (apply nth_error_Some; congruence). lia.
Qed.
Lemma front_nodup ranks k : NoDup (front_of ranks k).
Proof. apply NoDup_filter, seq_NoDup. Qed.

Lemma sequence_map_all {A B} (f : A -> result B) (g : A -> B) l : (forall x, In x l -> f x = Ok (g x)) -> sequence (map f l) = Ok (map g l).
Proof.
  induction l as [|x l IH]; intros H; cbn; auto. rewrite (H x) by (left; auto). rewrite IH by (intros; apply H; right; auto). reflexivity.
Qed.
Lemma nodup_app {A} (l l' : list A) : NoDup l -> NoDup l' -> (forall x, In x l -> ~ In x l') -> NoDup (l ++ l').
Proof.
  induction 1 as [|x l Hx Hl IH]; cbn; auto. intros H' HD. constructor.
  - rewrite in_app_iff. intros [H|H]; [auto|]. apply (HD x); [left; auto|auto].
  - apply IH; [auto|]. intros y Hy. apply HD. right; exact Hy.
Qed.
Definition sorted_front (cs : list nat) (front : list nat) : list nat := map (fun p => nth p front 0) (map (fun i => nth i cs 0) front).

Lemma pareto_sort_ok crowd_order b crowdsort : wf b -> all_no_nan b -> b_len b <> 0 -> reordering crowd_order ->
  exists fronts ranks, arg_pareto_sort crowd_order b crowdsort = Ok (fronts, ranks) /\
    front_numbers (b_desc b) (rows b) ranks /\
    Permutation (concat fronts) (seq 0 (b_len b)) /\
    (forall k front, nth_error fronts k = Some front -> front <> [] /\ (forall i, In i front <-> nth_error ranks i = Some k)) /\
    (crowdsort = true -> forall k front, nth_error fronts k = Some front ->
       let base := front_of ranks k in
       length front = length base /\
       forall m p, nth_error (crowd_order (map (fun i => uvec b (nth i (b_ev b) [])) base)) m = Some p -> nth_error front m = nth_error base p) /\
    (crowdsort = false -> forall k front, nth_error fronts k = Some front -> front = front_of ranks k).
Proof.
  intros Hwf HN Hne HR.
  assert (HL : forall l, length (crowd_order l) = length l) by (intros l; specialize (HR l); apply Permutation_length in HR; rewrite seq_length in HR; auto).
  destruct (ranks_front_numbers crowd_order b crowdsort Hwf HN HL) as (ranks & cs & E & Lc & FN & CS).
  unfold batch_pareto_ranks in E. unfold arg_pareto_sort. destruct (utils b) as [us|e] eqn:Eu; [|discriminate]. cbn [bind] in *.
  unfold pareto_sort. rewrite E. cbn [bind fst snd].
  assert (Lr : length ranks = b_len b) by (destruct FN as [-> _]; apply rows_length; auto).
  set (g := fun k => if crowdsort then sorted_front cs (front_of ranks k) else front_of ranks k).
  assert (Kocc : forall k, k <= list_max ranks -> exists i, nth_error ranks i = Some k).
  { destruct ranks as [|r0 ranks0] eqn:Er; [cbn in Lr; lia|]. rewrite <- Er in *.
    assert (Hm : In (list_max ranks) ranks).
    { clear - Er. assert (G : forall l, l <> [] -> In (list_max l) l).
      { induction l as [|x l IH]; [congruence|]. intros _. destruct l as [|y l]; [cbn; lia|].
        change (list_max (x :: y :: l)) with (Nat.max x (list_max (y :: l))).
        destruct (Nat.max_spec x (list_max (y :: l))) as [[_ ->]|[_ ->]]; [right; apply IH; discriminate|left; auto]. }
      apply G. rewrite Er. discriminate. }
    apply In_nth_error in Hm. destruct FN as (_ & _ & _ & PRE & _).
    intros k Hk. remember (list_max ranks - k) as d eqn:Hd. revert k Hk Hd. induction d as [|d IHd]; intros k Hk Hd.
    - replace k with (list_max ranks) by lia. auto.
    - destruct (IHd (S k)) as (i & Hi); [lia|lia|]. destruct (nth_error (rows b) i) as [ri|] eqn:Eri.
      + destruct (PRE i k ri Eri Hi) as (j & _ & _ & Hj & _). eauto.
      + apply nth_error_None in Eri. rewrite rows_length in Eri by auto. assert (i < length ranks) by (apply nth_error_Some; congruence). lia. }
  assert (CSk : crowdsort = true -> forall k, k <= list_max ranks ->
             Permutation (map (fun i => nth i cs 0) (front_of ranks k)) (seq 0 (length (front_of ranks k)))).
  { intros Hc k Hk. rewrite (CS Hc k (Kocc k Hk)). rewrite <- (map_length (fun i => uvec b (nth i (b_ev b) [])) (front_of ranks k)). apply HR. }
  assert (SEQ : sequence (map (fun k => let front := front_of ranks k in
       if crowdsort then bind (gather cs front) (fun fcs => gather front fcs) else Ok front) (seq 0 (list_max ranks + 1))) =
       Ok (map g (seq 0 (list_max ranks + 1)))).
  { apply sequence_map_all. intros k Hk. apply in_seq in Hk. unfold g. cbv zeta. destruct crowdsort; auto.
    assert (G : forall A (l : list A) d idx, Forall (fun i => i < length l) idx -> gather l idx = Ok (map (fun i => nth i l d) idx)).
    { intros A l d idx HF. unfold gather. apply sequence_map_all. intros i Hi. rewrite Forall_forall in HF. rewrite (nth_error_nth' l d); auto. }
    rewrite (G nat cs 0).
    - cbn [bind]. apply (G nat). apply Forall_forall. intros p Hp. apply (Permutation_in _ (CSk eq_refl k ltac:(lia))) in Hp. apply in_seq in Hp. lia.
    - apply Forall_forall. intros i Hi. apply front_in in Hi. assert (i < length ranks) by (apply nth_error_Some; congruence). lia. }
  exists (map g (seq 0 (list_max ranks + 1))), ranks.
  split. { clear - Lr Hne SEQ. destruct ranks as [|r0 ranks0]; [cbn in Lr; lia|]. cbv beta iota. cbv zeta in SEQ. rewrite SEQ. reflexivity. }
  assert (GP : forall k, k <= list_max ranks -> Permutation (g k) (front_of ranks k)).
  { intros k Hk. unfold g. destruct crowdsort eqn:Ec; auto. unfold sorted_front.
    transitivity (map (fun p => nth p (front_of ranks k) 0) (seq 0 (length (front_of ranks k)))).
    - apply Permutation_map. apply CSk; auto.
    - pose proof (list_tab (front_of ranks k) 0) as LT. unfold tab in LT. rewrite <- LT. reflexivity. }
  assert (NTH : forall k front, nth_error (map g (seq 0 (list_max ranks + 1))) k = Some front -> k <= list_max ranks /\ front = g k).
  { intros k front H. change (map g (seq 0 (list_max ranks + 1))) with (tab (list_max ranks + 1) g) in H. rewrite tab_nth_error in H.
    destruct (Nat.ltb_spec k (list_max ranks + 1)); [|discriminate]. injection H as <-. split; [lia|auto]. }
  split; [exact FN|]. split; [|split; [|split]].
  - transitivity (concat (map (front_of ranks) (seq 0 (list_max ranks + 1)))).
    + assert (P2 : forall l, (forall k, In k l -> k <= list_max ranks) -> Permutation (concat (map g l)) (concat (map (front_of ranks) l))).
      { induction l as [|k l IH]; intros Hl; cbn; auto. apply Permutation_app; [apply GP, Hl; left; auto|apply IH; intros; apply Hl; right; auto]. }
      apply P2. intros k Hk. apply in_seq in Hk. lia.
    + apply NoDup_Permutation; [|apply seq_NoDup|].
      * assert (G : forall l, NoDup l -> NoDup (concat (map (front_of ranks) l))).
        { induction 1 as [|k l Hk Hl IH]; cbn; [constructor|]. apply nodup_app.
          { apply front_nodup. } { exact IH. }
          intros i H1 H2. apply in_concat in H2. destruct H2 as (f & Hf & Hi). apply in_map_iff in Hf. destruct Hf as (k' & <- & Hk').
          apply front_in in H1, Hi. congruence. }
        apply G, seq_NoDup.
      * intros i. rewrite in_concat. split.
        -- intros (f & Hf & Hi). apply in_map_iff in Hf. destruct Hf as (k & <- & _). apply front_in in Hi. apply in_seq.
           assert (i < length ranks) by (apply nth_error_Some; congruence). lia.
        -- intros Hi. apply in_seq in Hi. destruct (nth_error ranks i) as [k|] eqn:Ek. 2:{ apply nth_error_None in Ek. lia. }
           exists (front_of ranks k). split; [|apply front_in; auto]. apply in_map. apply in_seq.
           assert (k <= list_max ranks); [|lia]. pose proof (proj1 (list_max_le ranks (list_max ranks)) (le_n _)) as HM.
           rewrite Forall_forall in HM. apply HM. eapply nth_error_In; eauto.
  - intros k front H. apply NTH in H. destruct H as [Hk ->].
    assert (IN : forall i, In i (g k) <-> nth_error ranks i = Some k).
    { intros i. rewrite <- front_in. split; apply Permutation_in; [|symmetry]; auto. }
    split; auto. destruct (Kocc k Hk) as (i & Hi). apply IN in Hi. intros C. rewrite C in Hi. destruct Hi.
  - intros Hc k front H. apply NTH in H. destruct H as [Hk ->]. cbv zeta. split; [apply Permutation_length, GP; auto|].
    intros m p Hp. rewrite <- (CS Hc k (Kocc k Hk)) in Hp. unfold g. rewrite Hc. unfold sorted_front.
    rewrite nth_error_map, Hp. cbn. symmetry. apply nth_error_nth'.
    apply nth_error_In in Hp. apply (Permutation_in _ (CSk Hc k Hk)) in Hp. apply in_seq in Hp. lia.
  - intros Hc k front H. apply NTH in H. destruct H as [Hk ->]. unfold g. rewrite Hc. reflexivity.
Qed.

(* ------------------------------------------------------------------ take_best *)
Lemma qadd_split n r c r' c' : c < n -> c' < n -> (combined n r c <= combined n r' c')%Q -> r <= r' /\ (r = r' -> c <= c').
Proof.
  intros Hc Hc' H. unfold combined in H.
  assert (Pn : (0 < inject_Z (Z.of_nat n))%Q) by (change 0%Q with (inject_Z 0); rewrite <- Zlt_Qlt; lia).
  assert (M : (inject_Z (Z.of_nat r) * inject_Z (Z.of_nat n) * 10 + inject_Z (Z.of_nat c) <= inject_Z (Z.of_nat r') * inject_Z (Z.of_nat n) * 10 + inject_Z (Z.of_nat c'))%Q).
  { apply (Qmult_le_compat_r _ _ (inject_Z (Z.of_nat n) * 10)) in H; [|nra].
    assert (E : forall a c0 : Z, ((inject_Z a + (1 # 10) * inject_Z c0 / inject_Z (Z.of_nat n)) * (inject_Z (Z.of_nat n) * 10) ==
                inject_Z a * inject_Z (Z.of_nat n) * 10 + inject_Z c0)%Q).
    { intros a c0. field. lra. }
    rewrite !E in H. exact H. }
  change 10%Q with (inject_Z 10) in M. rewrite <- !inject_Z_mult, <- !inject_Z_plus, <- Zle_Qle in M. nia.
Qed.

Lemma take_best_multi_ok crowd_order qsorter b n : wf b -> all_no_nan b -> reordering crowd_order -> qargsort_ok qsorter ->
  exists b' ranks kept dropped, take_best_multi crowd_order qsorter b n = Ok b' /\
    front_numbers (b_desc b) (rows b) ranks /\
    Permutation (kept ++ dropped) (seq 0 (b_len b)) /\ length kept = Nat.min n (b_len b) /\
    length (rows b') = length kept /\
    (forall k i, nth_error kept k = Some i -> nth_error (rows b') k = nth_error (rows b) i) /\
    (forall i j, In i kept -> In j dropped -> nth i ranks 0 <= nth j ranks 0) /\
    (exists cs, batch_pareto_ranks crowd_order b true = Ok (ranks, cs) /\
       forall i j, In i kept -> In j dropped -> nth i ranks 0 = nth j ranks 0 -> nth i cs 0 <= nth j cs 0).
Proof.
  intros Hwf HN HR HQ.
  assert (HL : forall l, length (crowd_order l) = length l) by (intros l; specialize (HR l); apply Permutation_length in HR; rewrite seq_length in HR; auto).
  destruct (ranks_front_numbers crowd_order b true Hwf HN HL) as (ranks & cs & E & Lc & FN & CS).
  unfold take_best_multi. rewrite E. cbn [bind fst snd].
  assert (Lr : length ranks = b_len b) by (destruct FN as [-> _]; apply rows_length; auto).
  set (q := map2 (combined (b_len b)) ranks cs).
  assert (Lq : length q = b_len b) by (unfold q; rewrite map2_length; lia).
  destruct (HQ q) as [HP HS]. rewrite Lq in HP.
  assert (CB : forall i, i < b_len b -> nth i cs 0 < b_len b).
  { intros i Hi. destruct (nth_error ranks i) as [k|] eqn:Ek. 2:{ apply nth_error_None in Ek. lia. }
    specialize (CS eq_refl k (ex_intro _ i Ek)). assert (Hin : In i (front_of ranks k)) by (apply front_in; auto).
    assert (Hc : In (nth i cs 0) (map (fun i => nth i cs 0) (front_of ranks k))) by (apply (in_map (fun i => nth i cs 0)); auto).
    rewrite CS in Hc. apply (Permutation_in _ (HR _)) in Hc. rewrite map_length in Hc. apply in_seq in Hc.
    assert (length (front_of ranks k) <= length ranks); [|lia].
    unfold front_of. rewrite <- (seq_length (length ranks) 0) at 2. generalize (seq 0 (length ranks)).
    induction l as [|x l IH]; cbn; auto. destruct (nth x ranks 0 =? k); cbn; lia. }
  assert (NQ : forall i, i < b_len b -> nth i q 0%Q = combined (b_len b) (nth i ranks 0) (nth i cs 0)).
  { intros i Hi. apply nth_error_nth. unfold q. rewrite map2_nth_error. rewrite (nth_error_nth' ranks 0) by lia. rewrite (nth_error_nth' cs 0) by lia. reflexivity. }
  assert (Lp : length (qsorter q) = b_len b) by (apply Permutation_length in HP; rewrite seq_length in HP; auto).
  destruct (take_rows b (firstn n (qsorter q)) Hwf) as (b' & Hb & Wb & _ & Lb & Nb).
  { apply Forall_forall. intros i Hi. assert (In i (qsorter q)) by (rewrite <- (firstn_skipn n (qsorter q)); apply in_or_app; auto).
    apply (Permutation_in _ HP) in H. apply in_seq in H. lia. }
  assert (ORD : forall i j, In i (firstn n (qsorter q)) -> In j (skipn n (qsorter q)) ->
      nth i ranks 0 <= nth j ranks 0 /\ (nth i ranks 0 = nth j ranks 0 -> nth i cs 0 <= nth j cs 0)).
  { intros i j Hi Hj.
    assert (Hi' : i < b_len b). { assert (In i (qsorter q)) by (rewrite <- (firstn_skipn n (qsorter q)); apply in_or_app; auto). apply (Permutation_in _ HP) in H. apply in_seq in H. lia. }
    assert (Hj' : j < b_len b). { assert (In j (qsorter q)) by (rewrite <- (firstn_skipn n (qsorter q)); apply in_or_app; auto). apply (Permutation_in _ HP) in H. apply in_seq in H. lia. }
    assert (Hle : (nth i q 0 <= nth j q 0)%Q).
    { rewrite <- (firstn_skipn n (qsorter q)) in HS. clear -HS Hi Hj. induction (firstn n (qsorter q)) as [|x l IH]; [destruct Hi|].
      cbn in HS. inversion HS as [|? ? HS' HF]; subst. destruct Hi as [->|Hi]; auto. rewrite Forall_forall in HF. apply HF. apply in_or_app. auto. }
    rewrite !NQ in Hle by auto. apply qadd_split in Hle; auto. }
  exists b', ranks, (firstn n (qsorter q)), (skipn n (qsorter q)).
  split; [exact Hb|]. split; [exact FN|]. split; [rewrite firstn_skipn; exact HP|].
  split; [rewrite firstn_length; lia|]. split; [exact Lb|]. split; [exact Nb|]. split.
  - intros i j Hi Hj. apply ORD; auto.
  - exists cs. split; auto. intros i j Hi Hj. apply ORD; auto.
Qed.
End B.

(* C28 hooks, C29 lazy status, C30 the main loop, C31 loggers, C58 restarting, C87 status of IPOP *)
From Coq Require Import String QArith Qround.
From Verif Require Import Prelude LoopModel LoopSpec LoopProofs LoopProofs2.
Close Scope Q_scope.
Open Scope nat_scope.

(* ---------------------------------------------------------------- C28 *)
(* only None: the result is None; every function has been called once, in order *)
Theorem C28_only_none : forall {S X V} (h : hook S X V) args kwargs s s' os,
  call_all (h_funcs h) (h_args h ++ args, dupdate (dupdate [] (h_kwargs h)) kwargs) s = (s', os) -> Forall (fun o => o = RNone) os ->
  hook_call h args kwargs s = (s', Ok None).
Proof.
  intros S X V h args kwargs s s' os C F. unfold hook_call.
  destruct (hook_maps _ _ _ _ _ None C (Forall_none_maps _ _ F) (or_introl eq_refl)) as (r' & E & _ & H). rewrite E.
  destruct r' as [a|]; auto. exfalso.
  destruct (hook_seqs _ _ _ _ _ None C (Forall_none_maps _ _ F) (or_introl eq_refl)) as (r2 & E2 & _ & H2). rewrite E in E2. inversion E2; subst.
  destruct (H ltac:(discriminate)) as (d & D & _). specialize (H2 ltac:(discriminate)). congruence.
Qed.
Print Assumptions C28_only_none.
(* mappings: merged, the last mapping which has a key deciding its value *)
Theorem C28_mappings_merged : forall {S X V} (h : hook S X V) args kwargs s s' os,
  call_all (h_funcs h) (h_args h ++ args, dupdate (dupdate [] (h_kwargs h)) kwargs) s = (s', os) ->
  Forall (none_or is_map) os -> (exists o, In o os /\ is_map o) ->
  exists d, hook_call h args kwargs s = (s', Ok (Some (ADict d))) /\ forall k, dget k d = last_wins k os.
Proof.
  intros S X V h args kwargs s s' os C F (o & I & M). unfold hook_call.
  destruct (hook_maps _ _ _ _ _ None C F (or_introl eq_refl)) as (r' & E & H0 & H). rewrite E.
  destruct r' as [a|].
  - destruct (H ltac:(discriminate)) as (d & D & Q). inversion D; subst. exists d. split; auto. intros k. rewrite Q. destruct (last_wins k os); auto.
  - destruct (H0 eq_refl) as [_ N]. rewrite (seq_none_contra _ _ N I) in M. destruct M as (? & ? & _). discriminate.
Qed.
Print Assumptions C28_mappings_merged.
(* other iterables: concatenated in order *)
Theorem C28_sequences_joined : forall {S X V} (h : hook S X V) args kwargs s s' os,
  call_all (h_funcs h) (h_args h ++ args, dupdate (dupdate [] (h_kwargs h)) kwargs) s = (s', os) ->
  Forall (none_or is_seq) os -> (exists o, In o os /\ is_seq o) ->
  hook_call h args kwargs s = (s', Ok (Some (ASeq (joined os)))).
Proof.
  intros S X V h args kwargs s s' os C F (o & I & M). unfold hook_call.
  destruct (hook_seqs _ _ _ _ _ None C F (or_introl eq_refl)) as (r' & E & H0 & H). rewrite E.
  destruct r' as [a|].
  - rewrite (H ltac:(discriminate)). auto.
  - destruct (H0 eq_refl) as [_ N]. rewrite (seq_none_contra _ _ N I) in M. destruct M as (? & ?). discriminate.
Qed.
Print Assumptions C28_sequences_joined.
(* the first result which does not fit raises TypeError, and no later function is called *)
Theorem C28_mixture_raises : forall {S X V} (h : hook S X V) args kwargs s pre f post s1 os s2 o,
  let a := (h_args h ++ args, dupdate (dupdate [] (h_kwargs h)) kwargs) in
  h_funcs h = pre ++ f :: post -> call_all pre a s = (s1, os) -> harmonious os -> f a s1 = (s2, o) -> conflict os o ->
  hook_call h args kwargs s = (s2, Err TypeError).
Proof.
  intros S X V h args kwargs s pre f post s1 os s2 o a E C H F K. unfold hook_call. rewrite E. eapply hook_conflict; eauto.
Qed.
Print Assumptions C28_mixture_raises.
(* accumulate_dict and accumulate_sequence: as a call, with an empty mapping or sequence in place of None, and TypeError for the other kind *)
Theorem C28_accumulate : forall {S X V} (h : hook S X V) args kwargs s s' r,
  let a := (h_args h ++ args, dupdate (dupdate [] (h_kwargs h)) kwargs) in
  hook_call h args kwargs s = (s', r) ->
  accumulate_dict (h_funcs h) a s = (s', match r with Err e => Err e | Ok None => Ok [] | Ok (Some (ADict d)) => Ok d | Ok (Some (ASeq _)) => Err TypeError end) /\
  accumulate_sequence (h_funcs h) a s = (s', match r with Err e => Err e | Ok None => Ok [] | Ok (Some (ASeq l)) => Ok l | Ok (Some (ADict _)) => Err TypeError end).
Proof.
  intros S X V h args kwargs s s' r a E. unfold hook_call in E. unfold accumulate_dict, accumulate_sequence. fold a in E. rewrite E.
  destruct r as [[[d|l]|]|e]; split; reflexivity.
Qed.
Print Assumptions C28_accumulate.
(* an exception of a function is passed on, and no later function is called *)
Theorem C28_exception_propagates : forall {S X V} (h : hook S X V) args kwargs s pre f post s1 os s2 e,
  let a := (h_args h ++ args, dupdate (dupdate [] (h_kwargs h)) kwargs) in
  h_funcs h = pre ++ f :: post -> call_all pre a s = (s1, os) -> harmonious os -> f a s1 = (s2, RRaise e) ->
  hook_call h args kwargs s = (s2, Err e).
Proof. intros S X V h args kwargs s pre f post s1 os s2 e a E C H F. unfold hook_call. rewrite E. eapply hook_raise; eauto. Qed.
Print Assumptions C28_exception_propagates.
(* what the functions receive: stored positional arguments first; keyword arguments of the call override stored ones *)
Theorem C28_arguments : forall {S X V} (h : hook S X V) args kwargs, NoDup (map fst (h_kwargs h)) -> NoDup (map fst kwargs) ->
  exists kws, (forall k, dget k kws = match dget k kwargs with Some v => Some v | None => dget k (h_kwargs h) end) /\
    forall s, hook_call h args kwargs s = hook_call (mkHook (h_funcs h) [] []) (h_args h ++ args) kws s.
Proof.
  intros S X V h args kwargs N1 N2. exists (dupdate (dupdate [] (h_kwargs h)) kwargs). split.
  - intros k. rewrite !dget_dupdate by auto. destruct (dget k kwargs); auto. cbn. destruct (dget k (h_kwargs h)); auto.
  - intros s. unfold hook_call. cbn [h_funcs h_args h_kwargs app].
    assert (Nd : forall (d : dict X), NoDup (map fst d) -> dupdate [] d = d).
    { intros d Nd. unfold dupdate.
      assert (G : forall (e : dict X), NoDup (map fst (e ++ d)) -> fold_left (fun d kv => dset (fst kv) (snd kv) d) d e = e ++ d).
      { clear Nd. induction d as [|[k v] d IH]; intros e Nd; cbn; [rewrite app_nil_r; auto|].
        assert (Z : dset k v e = e ++ [(k, v)]).
        { assert (Ni : ~ In k (map fst e)).
          { rewrite map_app in Nd. cbn in Nd. apply NoDup_remove_2 in Nd. intros I. apply Nd. apply in_app_iff. auto. }
          clear -Ni. induction e as [|[k' v'] e IH]; cbn in *; auto. destruct (String.eqb_spec k' k); [exfalso; auto|].
          rewrite IH; auto. }
        rewrite Z. rewrite IH; rewrite <- app_assoc; auto. }
      apply (G []). auto. }
    rewrite (Nd (dupdate _ _)); auto. apply dupdate_nodup, dupdate_nodup. constructor.
Qed.
Print Assumptions C28_arguments.
Section C28_example.
Let rec (x : nat) (o : ret nat) : list nat * dict nat -> list nat -> list nat * ret nat := fun _ s => (s ++ [x], o).
Let a : string := "a". Let b : string := "b".
Example C28_example :
  hook_call (mkHook [rec 1 (RMap [(a, 1); (b, 2)]); rec 2 RNone; rec 3 (RMap [(a, 7)])] [] []) [] [] [] =
    ([1; 2; 3], Ok (Some (ADict [(a, 7); (b, 2)]))) /\
  hook_call (mkHook [rec 1 (RSeq [1; 2]); rec 2 RNone; rec 3 (RSeq [3])] [] []) [] [] [] = ([1; 2; 3], Ok (Some (ASeq [1; 2; 3]))) /\
  hook_call (mkHook [rec 1 RNone; rec 2 (RMap [(a, 1)]); rec 3 (RSeq [3]); rec 4 RNone] [] []) [] [] [] = ([1; 2; 3], Err TypeError) /\
  conflict [RNone; RMap [(a, 1)]] (RSeq [3]) /\ harmonious [RNone; RMap [(a, 1)]] /\
  last_wins a [RMap [(a, 1); (b, 2)]; RNone; RMap [(a, 7)]] = Some 7.
Proof.
  repeat split; try reflexivity.
  - right. right. split; [exists [3]; auto|]. exists (RMap [(a, 1)]). split; [right; left; auto|]. exists [(a, 1)]. split; auto.
    repeat constructor; auto.
  - left. constructor; [left; auto|constructor; [|constructor]]. right. exists [(a, 1)]. split; auto. repeat constructor; auto.
Qed.
Print Assumptions C28_example.
End C28_example.

(* ---------------------------------------------------------------- C29 *)
Section C29.
Context {E V : Type}.
Variable vnone : V.
(* each item is computed at most once between two clearings (i.e. between two steps) *)
Theorem C29_at_most_once : forall (e : E) (s : lazy E V) os k, ~ In Clear os ->
  key_count k (l_calls (snd (lazy_run vnone (e, s) os))) <= key_count k (l_calls s) + 1.
Proof. intros. apply run_calls. auto. Qed.
(* repeated reads give the same value, whatever else happens, until the next clearing or an explicit storing of the item *)
Theorem C29_reads_agree : forall (e : E) (s : lazy E V) os k v, ~ In Clear os -> (forall o, In o os -> ~ stores k o) ->
  snd (lazy_step vnone (e, s) (Get k)) = Ok (Some v) ->
  snd (lazy_step vnone (lazy_run vnone (e, s) (Get k :: os)) (Get k)) = Ok (Some v).
Proof.
  intros e s os k v N H G. rewrite run_cons.
  assert (X : exists e1 s1, fst (lazy_step vnone (e, s) (Get k)) = (e1, s1) /\ dget k (l_computed s1) = Some v).
  { cbn in *. unfold get_status_value in *. destruct (dget k (l_computed s)) eqn:C; cbn in *.
    - inversion G; subst. eauto.
    - destruct (dget k (l_getters s)); cbn in *; [|discriminate]. inversion G; subst. eexists _, _. split; [reflexivity|]. cbn. apply dget_dset. }
  destruct X as (e1 & s1 & -> & C). pose proof (run_keeps vnone os k v e1 s1 C N H) as R.
  destruct (lazy_run vnone (e1, s1) os) as [e2 s2]. cbn in *. unfold get_status_value. rewrite R. auto.
Qed.
(* a stored value is what is read *)
Theorem C29_stored_value : forall (e : E) (s : lazy E V) d os k v, NoDup (map fst d) -> dget k d = Some v ->
  ~ In Clear os -> (forall o, In o os -> ~ stores k o) ->
  snd (lazy_step vnone (lazy_run vnone (e, s) (Update d :: os)) (Get k)) = Ok (Some v).
Proof.
  intros e s d os k v Nd D N H. rewrite run_cons. cbn [lazy_step fst].
  assert (C : dget k (l_computed (update_status vnone s d)) = Some v) by (rewrite update_computed, dget_dupdate, D; auto).
  pose proof (run_keeps vnone os k v e _ C N H) as R.
  destruct (lazy_run vnone (e, update_status vnone s d) os) as [e2 s2]. cbn in *. unfold get_status_value. rewrite R. auto.
Qed.
(* the first read after a clearing is computed by the item's getter from the state at the moment of reading *)
Theorem C29_fresh_after_clear : forall (e : E) (s : lazy E V) os k e' s', ~ In (Get k) os -> (forall o, In o os -> ~ stores k o) ->
  lazy_run vnone (e, s) (Clear :: os) = (e', s') ->
  snd (lazy_step vnone (e', s') (Get k)) =
    match dget k (l_getters s') with Some g => Ok (Some (g e')) | None => Err KeyError end.
Proof.
  intros e s os k e' s' N H R. rewrite run_cons in R. cbn [lazy_step fst] in R.
  pose proof (run_uncomputed vnone os k e (clear_status s) eq_refl N H) as C. rewrite R in C. cbn in *.
  unfold get_status_value. rewrite C. destruct (dget k (l_getters s')); auto.
Qed.
(* which getter that is: the one registered last; items known only because they were stored are read as None *)
Theorem C29_getters : forall (e : E) (s : lazy E V) o k, 
  dget k (l_getters (snd (fst (lazy_step vnone (e, s) o)))) =
    match o with
    | AddGetters gs => dget k (dupdate (l_getters s) gs)
    | Update d => match dget k (l_getters s) with Some g => Some g | None => if in_dec string_dec k (map fst d) then Some (fun _ => vnone) else None end
    | _ => dget k (l_getters s)
    end.
Proof.
  intros e s o k. destruct o as [k0| |d|d|e']; cbn; auto.
  - unfold get_status_value. destruct (dget k0 (l_computed s)); auto. destruct (dget k0 (l_getters s)); auto.
  - apply update_getters.
Qed.
(* keys never disappear; reading succeeds exactly for known keys, and otherwise raises KeyError and changes nothing *)
Theorem C29_keys : forall (e0 : E) gs os k, let es := lazy_run vnone (e0, mkLazy gs [] []) os in
  (forall os', has_status_key k (snd es) = true -> has_status_key k (snd (lazy_run vnone es os')) = true) /\
  ((exists v, snd (lazy_step vnone es (Get k)) = Ok (Some v)) <-> has_status_key k (snd es) = true) /\
  (has_status_key k (snd es) = false -> lazy_step vnone es (Get k) = (es, Err KeyError)).
Proof.
  intros e0 gs os k es. assert (W : wf (snd es)) by (apply run_wf; intros k' []). destruct es as [e s]. cbn [snd] in *.
  split; [intros os' H; apply run_has; auto|]. split.
  - rewrite <- (get_ok_iff e s k W). cbn. destruct (get_status_value k e s) as [s' [v|x]]; cbn; split; intros [v0 H]; try discriminate; eauto.
  - intros H. cbn. rewrite (get_unknown e s k W H). auto.
Qed.
End C29.
Print Assumptions C29_at_most_once.
Print Assumptions C29_reads_agree.
Print Assumptions C29_stored_value.
Print Assumptions C29_fresh_after_clear.
Print Assumptions C29_getters.
Print Assumptions C29_keys.
Example C29_example :
  let gs := [("best"%string, fun e : nat => Some e)] in
  let run := lazy_run (E := nat) (V := option nat) None (5, mkLazy gs [] []) in
  let read os k := snd (lazy_step None (run os) (Get k)) in
  read [] "best"%string = Ok (Some (Some 5)) /\
  read [Get "best"; Change 6] "best"%string = Ok (Some (Some 5)) /\
  read [Get "best"; Change 6; Clear] "best"%string = Ok (Some (Some 6)) /\
  read [Update [("mean"%string, Some 3)]; Clear] "mean"%string = Ok (Some None) /\
  read [] "mean"%string = Err KeyError /\
  l_calls (snd (run [Get "best"; Get "best"; Change 7; Get "best"]%string)) = ["best"%string].
Proof. repeat split. Qed.
Print Assumptions C29_example.

(* ---------------------------------------------------------------- C30 *)
(* A run which does not raise consists of exactly n generations, each in the documented order and with the documented status,
   followed by the end-of-run functions, each called once with the status of the last generation. *)
Theorem C30_run : forall {U V} (vnone : V) vnat (c : config U V) n s s',
  proper c -> search_run vnone vnat c n s = (s', Ok tt) ->
  exists t d od u, generations vnat c (l_getters (s_status s)) (s_steps s) n (w_user (s_world s)) u t od /\
    w_trace (s_world s') = w_trace (s_world s) ++ t ++ map (fun i => EEnd i d) (seq 0 (length (end_of_run c))) /\
    s_steps s' = s_steps s + n /\
    (exists r, hook_loop (end_of_run c) d u None = (w_user (s_world s'), Ok r)) /\
    (end_of_run c <> [] -> 0 < n -> exists d', od = Some d' /\ forall k v, dget k d' = Some v -> dget k d = Some v).
Proof.
  intros U V vnone vnat c n s s' P E. unfold search_run in E.
  destruct (search_steps vnone vnat c n s) as [s1 [[]|e]] eqn:H; [|discriminate].
  destruct (steps_success vnone vnat c (l_getters (s_status s)) n s s1 P (fun _ _ X => X) H) as (t & od & G & T & N & K & Z & Vd).
  unfold notify in E. destruct (end_of_run c) as [|f fs] eqn:F.
  - inversion E; subst. exists t, [], od, (w_user (s_world s')). cbn. rewrite app_nil_r. split; auto. split; auto. split; auto.
    split; [eexists; reflexivity|congruence].
  - rewrite <- F in *. destruct (status_dict_value (w_user (s_world s1)) (s_status s1)) as (l & d & Sd & _ & _ & Hd). rewrite Sd in E.
    destruct (hook_loop (run_listeners EEnd (end_of_run c)) d (s_world s1) None) as [w r] eqn:L.
    destruct r as [r|]; [|discriminate]. inversion E; subst; clear E.
    destruct (traced_loop EEnd (end_of_run c) d 0 _ _ _ _ L) as (m & _ & M & B & T2).
    specialize (M eq_refl). subst m.
    exists t, d, od, (w_user (s_world s1)). cbn. rewrite T2, T, <- app_assoc. split; auto. split; auto. split; auto.
    split; [eexists; apply B|]. intros _ Hn. destruct od as [d'|]; [|exfalso; rewrite (proj1 Z eq_refl) in Hn; lia].
    exists d'. split; auto. intros k v X. destruct (Vd d' k v eq_refl X) as [I Y]. rewrite (proj1 (Hd k I)). auto.
Qed.
Print Assumptions C30_run.
(* When anything raises, the run stops there: the algorithm has made at most n steps, all of which but possibly the last are
   counted, and the end-of-run functions are called only if all n generations were finished. *)
Theorem C30_interrupted_run : forall {U V} (vnone : V) vnat (c : config U V) n s s' x,
  search_run vnone vnat c n s = (s', x) ->
  exists t t', w_trace (s_world s') = w_trace (s_world s) ++ t ++ t' /\
    s_steps s' - s_steps s <= steps_in t <= n /\ steps_in t <= s_steps s' - s_steps s + 1 /\
    forallb (fun e => negb (is_end e)) t = true /\ forallb is_end t' = true /\
    (t' <> [] -> s_steps s' = s_steps s + n /\ steps_in t = n).
Proof.
  intros U V vnone vnat c n s s' x E. unfold search_run in E.
  destruct (search_steps vnone vnat c n s) as [s1 x1] eqn:H.
  destruct (steps_events vnone vnat c n s s1 x1 H) as (t & T & En & N1 & N2 & N3 & N4 & O).
  destruct x1 as [[]|e].
  - destruct (O eq_refl) as [O1 O2]. unfold notify in E. destruct (end_of_run c) as [|f fs] eqn:F.
    + inversion E; subst. exists t, []. rewrite app_nil_r. repeat split; auto; try lia; congruence.
    + rewrite <- F in *. destruct (status_dict (w_user (s_world s1)) (s_status s1)) as [l [d|e]].
      2:{ inversion E; subst. exists t, []. rewrite app_nil_r. cbn. repeat split; auto; try lia; congruence. }
      destruct (hook_loop (run_listeners EEnd (end_of_run c)) d (s_world s1) None) as [w r] eqn:L. inversion E; subst; clear E.
      destruct (traced_loop EEnd (end_of_run c) d 0 _ _ _ _ L) as (m & _ & M & B & T2).
      exists t, (map (fun j => EEnd j d) (seq 0 m)). cbn. rewrite T2, T, <- app_assoc. repeat split; auto; try lia.
      apply forallb_forall. intros e I. apply in_map_iff in I. destruct I as (j & <- & _). auto.
  - inversion E; subst. exists t, []. rewrite app_nil_r. repeat split; auto; try lia; congruence.
Qed.
Print Assumptions C30_interrupted_run.
Section C30_example.
Let a : string := "a". Let best : string := "best". Let iter : string := "iter".
(* the algorithm counts in its state; a hook reports it; the problem's status overrides nothing *)
Let c : config nat nat := {|
  before_step := [fun u => (u, RNone)]; after_step := [fun u => (u + 1, RMap [(a, u)])];
  log_hook := [fun d u => (u, RNone)]; end_of_run := [fun d u => (u, RNone)];
  alg_step := fun u => (u + 10, None); problem_status := fun u => [(a, 99); (best, u)] |}.
Example C30_example :
  proper c /\
  w_trace (s_world (fst (search_run 0 (fun n => n) c 2 (mkSearch (mkWorld 0 []) (mkLazy [(iter, fun _ => 0); ("gen"%string, fun u => u)] [] []) 0)))) =
    [EBefore 0; EStep; EAfter 0; ELog 0 [(iter, 1); ("gen"%string, 11); (a, 10); (best, 10)];
     EBefore 0; EStep; EAfter 0; ELog 0 [(iter, 2); ("gen"%string, 22); (a, 21); (best, 21)];
     EEnd 0 [(iter, 2); ("gen"%string, 22); (a, 21); (best, 21)]].
Proof.
  split; [|reflexivity]. unfold proper; cbn. split; [|split; [|split]].
  - intros f u d [<-|[]]; discriminate.
  - intros f u d [<-|[]] X. inversion X; subst. repeat constructor; auto.
  - intros f x u d [<-|[]]; discriminate.
  - intros u. repeat constructor; cbn; [intros [X|[]]; discriminate|auto].
Qed.
Print Assumptions C30_example.
End C30_example.

(* ---------------------------------------------------------------- C31 *)
(* a logger logs exactly the generations k, 2k, 3k, ... (or 1, k+1, 2k+1, ...) *)
Theorem C31_interval : forall k after_first n, (k <> 0)%Z ->
  exists bs, logger_calls k after_first 0 n = (Z.of_nat n, Ok bs) /\ length bs = n /\
    forall g, 1 <= g <= n -> exists b, nth_error bs (g - 1) = Some b /\ (b = true <-> due k after_first (Z.of_nat g)).
Proof.
  intros k af n K. destruct (logger_calls_spec k af n K 0) as (bs & E & L & H). exists bs. split; [rewrite E; f_equal; lia|]. split; auto.
  intros g G. destruct (H (g - 1) ltac:(lia)) as (b & Nb & D). exists b. split; auto. rewrite D.
  replace (0 + Z.of_nat (g - 1) + 1)%Z with (Z.of_nat g) by lia. tauto.
Qed.
Print Assumptions C31_interval.
(* the pickling logger, over any sequence of run calls: the saved generations are exactly those due and the last ones of the runs;
   nothing is saved twice, and after each run the newest file is that of the current generation *)
Theorem C31_pickling : forall k after_first ns, (k <> 0)%Z ->
  exists p, pk_runs k after_first 0 ns (mkPickler 0 None []) = Ok p /\ increasing (pk_saved p) /\
    (forall g, In g (pk_saved p) <-> In g (ends 0 ns) \/ (1 <= g <= fold_right Nat.add 0 ns /\ due k after_first (Z.of_nat g))) /\
    (ns <> [] -> pk_last p = Some (fold_right Nat.add 0 ns) /\ last (pk_saved p) 0 = fold_right Nat.add 0 ns).
Proof.
  intros k af ns K.
  assert (Tot : forall n g p, exists p', pk_gens k af g n p = Ok p').
  { induction n as [|n IH]; intros g p; cbn; [eauto|]. unfold pk_log. destruct (logger_call_spec k af (pk_count p) K) as (b & -> & _). cbn. apply IH. }
  assert (G : forall ns g (fin : nat -> Prop) p, (forall x, fin x -> x <= g) -> pk_inv k af g fin p ->
     exists p', pk_runs k af g ns p = Ok p' /\ pk_inv k af (g + fold_right Nat.add 0 ns) (fun x => fin x \/ In x (ends g ns)) p' /\
       (ns <> [] -> pk_last p' = Some (g + fold_right Nat.add 0 ns))).
  { clear ns. induction ns as [|n ns IH]; intros g fin p F I; cbn [pk_runs fold_right ends].
    - exists p. split; auto. split; [|congruence]. rewrite Nat.add_0_r. destruct I as (A1 & A2 & A3 & A4 & A5 & A6).
      split; [auto|split; [auto|split; [auto|split; [auto|split; [auto|]]]]]. intros x. rewrite A6. cbn. tauto.
    - unfold pk_run. destruct (Tot n g p) as [p1 E1]. rewrite E1. cbn [rmap bind].
      pose proof (pk_gens_inv k af fin n K g p p1 F I E1) as I1.
      assert (F1 : forall x, fin x -> x <= g + n) by (intros x X; specialize (F x X); lia).
      destruct (pk_final_inv k af (g + n) fin p1 F1 I1) as [I2 L2].
      destruct (IH (g + n) (fun x => fin x \/ x = g + n) (pk_final (g + n) p1)) as (p' & E & I3 & L3); auto.
      { intros x [X|X]; [auto|lia]. }
      exists p'. split; auto. rewrite <- Nat.add_assoc in I3, L3. split.
      + destruct I3 as (A1 & A2 & A3 & A4 & A5 & A6).
        split; [auto|split; [auto|split; [auto|split; [auto|split; [auto|]]]]]. intros x. rewrite A6. cbn.
        assert (x = g + n <-> g + n = x) by (split; auto). tauto.
      + intros _. destruct ns as [|m ns]; [|apply L3; discriminate]. cbn in *. inversion E; subst.
        rewrite Nat.add_0_r. auto. }
  destruct (G ns 0 (fun _ => False) (mkPickler 0 None [])) as (p & E & I & L).
  - intros x [].
  - split; [auto|]. cbn. split; [intros i j x y _ X; destruct i; discriminate|]. split; [intros x []|]. split; [discriminate|]. split; auto.
    intros x. split; [intros []|]. intros [X [[]|[Y _]]]. lia.
  - cbn [Nat.add] in *. exists p. split; auto. destruct I as (A1 & A2 & A3 & A4 & A5 & A6). split; auto.
    assert (Ends : forall ns g x, In x (ends g ns) -> g <= x <= g + fold_right Nat.add 0 ns).
    { clear. induction ns as [|n ns IH]; intros g x; cbn; [tauto|]. intros [H|H]; [lia|]. apply IH in H. lia. }
    split.
    + intros g. rewrite A6. split; [intros [X [[[]|Y]|[Y Z]]]; auto; right; split; auto|].
      intros [X|[X Y]]; [apply Ends in X as X2; split; [lia|auto]|split; [lia|right; split; [lia|auto]]].
    + intros N. specialize (L N). split; auto. destruct (A4 _ L) as [B1 B2]. set (m := fold_right Nat.add 0 ns) in *.
      destruct (exists_last (l := pk_saved p)) as (l' & y & El); [intros X; rewrite X in B1; contradiction|].
      rewrite El in *. rewrite last_last. apply in_app_iff in B1. destruct B1 as [B1|[B1|[]]]; auto. exfalso.
      apply In_nth_error in B1. destruct B1 as [i Hi]. assert (i < length l') by (apply nth_error_Some; congruence).
      pose proof (A2 i (length l') m y H) as Q. rewrite nth_error_app1 in Q by auto.
      rewrite nth_error_app2, Nat.sub_diag in Q by auto. specialize (Q Hi eq_refl).
      specialize (B2 y ltac:(apply in_app_iff; right; left; auto)). lia.
Qed.
Print Assumptions C31_pickling.
Example C31_example :
  logger_calls 3 false 0 7 = (7%Z, Ok [false; false; true; false; false; true; false]) /\
  logger_calls 3 true 0 7 = (7%Z, Ok [true; false; false; true; false; false; true]) /\
  rmap pk_saved (pk_runs 3 false 0 [4; 2; 0; 1] (mkPickler 0 None [])) = Ok [3; 4; 6; 7].
Proof. repeat split. Qed.
Print Assumptions C31_example.

(* ---------------------------------------------------------------- C58 *)
(* IPOP: a new algorithm is started after a step exactly when that step left the old one terminated; after r restarts the population
   size is the initial one enlarged r times *)
Theorem C58_ipop : forall {I} construct istep population stops multiplier (p n : nat),
  fixed_size (I := I) construct istep population ->
  exists s, ipop_steps construct istep population stops multiplier n (restart_init construct p) = Ok s /\
    1 <= r_num s <= n + 1 /\ r_popsize s = grown multiplier p (r_num s - 1) /\
    exists s', ipop_step construct istep population stops multiplier s = Ok s' /\
      (stops (istep (r_alg s)) = true -> r_num s' = r_num s + 1 /\ r_alg s' = construct (grown multiplier p (r_num s))) /\
      (stops (istep (r_alg s)) = false -> r_num s' = r_num s /\ r_alg s' = istep (r_alg s)).
Proof.
  intros I construct istep population stops multiplier p n F.
  destruct (ipop_steps_ok construct istep population stops multiplier p n (restart_init construct p) F) as (s & E & O & B).
  { exists 0. cbn. auto. }
  exists s. split; auto. cbn in B. split; [lia|]. destruct O as (k & A & N & P). split; auto.
  destruct (ipop_step_ok construct istep population stops multiplier p s F) as (s' & E' & (k' & A' & N' & P') & I1 & I2 & I3 & I4).
  { exists k. auto. }
  exists s'. split; auto. split.
  - intros X. apply I1 in X as Y. split; auto. rewrite I3 by auto. rewrite P', Y. f_equal. f_equal. lia.
  - intros X. split; auto. destruct I2 as [?|Y]; auto. apply I1 in Y. congruence.
Qed.
Print Assumptions C58_ipop.
(* with an integer multiplier m, r restarts give m^r times the initial size *)
Theorem C58_integer_multiplier : forall {I} construct istep population stops (m p n : nat),
  fixed_size (I := I) construct istep population ->
  exists s, ipop_steps construct istep population stops (inject_Z (Z.of_nat m)) n (restart_init construct p) = Ok s /\
    r_popsize s = m ^ (r_num s - 1) * p.
Proof.
  intros I construct istep population stops m p n F.
  destruct (C58_ipop construct istep population stops (inject_Z (Z.of_nat m)) p n F) as (s & E & _ & P & _).
  exists s. split; auto. rewrite P. apply grown_int.
Qed.
Print Assumptions C58_integer_multiplier.
(* the plain restarter: always the same size; one start plus one per step which left the algorithm terminated *)
Theorem C58_plain : forall {I} construct istep stops (p n : nat),
  let state k := Nat.iter k (plain_step (I := I) construct istep stops) (restart_init construct p) in
  r_popsize (state n) = p /\
  r_num (state n) = 1 + length (filter (fun k => stops (istep (r_alg (state k)))) (seq 0 n)) /\
  r_alg (state (S n)) = (if stops (istep (r_alg (state n))) then construct p else istep (r_alg (state n))).
Proof.
  intros I construct istep stops p n. cbv zeta.
  enough (K : let state k := Nat.iter k (plain_step (I := I) construct istep stops) (restart_init construct p) in r_popsize (state n) = p /\
    r_num (state n) = 1 + length (filter (fun k => stops (istep (r_alg (state k)))) (seq 0 n))).
  { cbv zeta in K. destruct K as [K1 K2]. split; [exact K1|]. split; [exact K2|].
    change (Nat.iter (S n) (plain_step construct istep stops) (restart_init construct p)) with
      (plain_step construct istep stops (Nat.iter n (plain_step construct istep stops) (restart_init construct p))).
    unfold plain_step at 1. rewrite K1. destruct (stops _); reflexivity. }
  cbv zeta. induction n as [|n [IH1 IH2]]; [auto|].
  change (Nat.iter (S n) (plain_step construct istep stops) (restart_init construct p)) with
    (plain_step construct istep stops (Nat.iter n (plain_step construct istep stops) (restart_init construct p))).
  rewrite seq_S, filter_app, app_length. cbn [filter Nat.add].
  assert (H : forall s, r_popsize (plain_step construct istep stops s) = r_popsize s /\
     r_num (plain_step construct istep stops s) = r_num s + if stops (istep (r_alg s)) then 1 else 0).
  { intros s. unfold plain_step. destruct (stops (istep (r_alg s))); cbn; split; auto; lia. }
  destruct (H (Nat.iter n (plain_step construct istep stops) (restart_init construct p))) as [H1 H2].
  rewrite H1, H2, IH2. split; auto. destruct (stops (istep (r_alg (Nat.iter n _ _)))); cbn; lia.
Qed.
Print Assumptions C58_plain.
Example C58_example :
  (* an algorithm of size p whose fitness spread vanishes after two steps *)
  let construct p := (p, 0) in let istep i := (fst i, S (snd i)) in let population i := Some (fst i) in let stops i := Nat.leb 2 (snd i) in
  fixed_size construct istep population /\
  rmap (fun s => (r_num s, r_popsize s)) (ipop_steps construct istep population stops (3 # 2) 6 (restart_init construct 10)) = Ok (4, 33).
Proof.
  cbv zeta. split; [|vm_compute; reflexivity]. intros p k. f_equal.
  set (f := fun i : nat * nat => (fst i, S (snd i))). change (fst (Nat.iter (S k) f (p, 0)) = p).
  generalize (S k). intros m. induction m; auto.
Qed.
Print Assumptions C58_example.

(* ---------------------------------------------------------------- C87 *)
(* With a wrapped algorithm whose population is None until its first step (SNES, PGPE, XNES, CEM), reading the termination
   status right after a restart raises AttributeError: "None has no attribute evals". *)
Theorem C87_status_after_restart_refuted : forall {I} construct istep population stops multiplier (s s' : restart (I := I)),
  (forall p, population (construct p) = None) ->
  ipop_step construct istep population stops multiplier s = Ok s' -> r_num s' = r_num s + 1 ->
  ipop_status population stops s' = Err AttributeError.
Proof.
  intros I construct istep population stops multiplier s s' H E N. unfold ipop_step, ipop_terminated in E. cbn [r_alg] in E.
  destruct (population (istep (r_alg s))) as [q|]; [|discriminate]. cbn [bind] in E.
  destruct (stops (istep (r_alg s))).
  - unfold ipop_restart in E. cbn in E.
    match type of E with context [bind ?x _] => destruct x as [p|]; [|discriminate] end. cbn in E. inversion E; subst.
    unfold ipop_status, ipop_terminated. cbn. rewrite H. auto.
  - inversion E; subst. cbn in N. lia.
Qed.
Print Assumptions C87_status_after_restart_refuted.
(* With an algorithm which has its population from the start, the status can be read at any time. *)
Theorem C87_status_partial : forall {I} construct istep population stops multiplier p n s,
  fixed_size (I := I) construct istep population -> (forall p, population (construct p) <> None) ->
  ipop_steps construct istep population stops multiplier n (restart_init construct p) = Ok s ->
  ipop_status population stops s = Ok (stops (r_alg s)).
Proof.
  intros I construct istep population stops multiplier p n s F H E.
  destruct (ipop_steps_ok construct istep population stops multiplier p n (restart_init construct p) F) as (s1 & E1 & (k & A & _) & _).
  { exists 0. cbn. auto. }
  rewrite E in E1. inversion E1; subst s1. unfold ipop_status, ipop_terminated.
  assert (Q : population (r_alg s) <> None).
  { rewrite A. destruct k as [|k]; [apply H|]. rewrite (F _ k). discriminate. }
  destruct (population (r_alg s)); [auto|congruence].
Qed.
Print Assumptions C87_status_partial.
Example C87_example :
  let construct (p : nat) := (p, 0) in let istep i := (fst i, S (snd i)) in
  let population i := match snd i with O => None | _ => Some (fst i) end in let stops i := Nat.leb 2 (snd i) in
  exists s s', ipop_steps construct istep population stops (2 # 1) 1 (restart_init construct 10) = Ok s /\
    ipop_step construct istep population stops (2 # 1) s = Ok s' /\ r_num s' = r_num s + 1 /\
    ipop_status population stops s = Ok false /\ ipop_status population stops s' = Err AttributeError.
Proof. cbv zeta. eexists _, _. split; [reflexivity|]. split; [reflexivity|]. repeat split. Qed.
Print Assumptions C87_example.

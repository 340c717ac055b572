(* Properties of the configuration of VecGymNE and GymNE and of remote calls. *)
From Coq Require Import QArith Qround String Lqa.
From Verif Require Import Prelude WorkModel WorkSpec WorkProofs VgModel VgSpec.
Close Scope Q_scope.
Open Scope nat_scope.

(* ------------------------------------------------------------------------------- C171 *)
Section Remote.
Context {X St R : Type}.
Variable method : string -> St -> list X -> list (string * X) -> St * result R.
Lemma calls_ok name args kw (l : list St) :
  sequence (map (remote_call method name [PSeq args; PDict kw]) l) = Ok (map (fun s => method name s args kw) l).
Proof. induction l as [|s l IH]; [reflexivity|]. cbn [map sequence remote_call bind]. rewrite IH. reflexivity. Qed.
Lemma sequence_Forall2 (l : list (result R)) rs : sequence l = Ok rs <-> Forall2 (fun a b => a = Ok b) l rs.
Proof.
  revert rs. induction l as [|x l IH]; intros rs; cbn [sequence].
  - split; intros H; [injection H as <-; constructor|inversion H; reflexivity].
  - split.
    + destruct x as [x|]; cbn [bind]; [|discriminate]. destruct (sequence l) as [r|] eqn:E; cbn; [|discriminate]. intros H. injection H as <-.
      constructor; [reflexivity|]. apply IH. reflexivity.
    + intros H. inversion H as [|? y ? ys -> F]; subst. cbn [bind]. apply IH in F. rewrite F. reflexivity.
Qed.
Theorem C171_results : forall name args kw l,
  exists l' r, invoke_all method name args kw (Some l) = (Some l', r) /\
    Forall2 (fun s s' => s' = fst (method name s args kw)) l l' /\
    (forall rs, r = Ok rs <-> Forall2 (fun s x => snd (method name s args kw) = Ok x) l rs) /\
    (forall e, r = Err e <-> exists l1 s l2, l = l1 ++ s :: l2 /\ snd (method name s args kw) = Err e /\
                              Forall (fun s' => exists x, snd (method name s' args kw) = Ok x) l1).
Proof.
  intros name args kw l. unfold invoke_all. rewrite calls_ok. eexists. eexists. split; [reflexivity|]. rewrite !map_map. split; [|split].
  - induction l; constructor; auto.
  - intros rs. unfold ray_get. rewrite sequence_Forall2. split; intros H.
    + remember (map _ l) as k eqn:E. revert l E. induction H as [|a b k' rs' H F IH]; intros [|s l] E; try discriminate; constructor; injection E as -> E; auto.
    + induction H; constructor; auto.
  - intros e. unfold ray_get. split.
    + induction l as [|s l IH]; cbn [map sequence]; [discriminate|]. destruct (snd (method name s args kw)) as [x|e'] eqn:E; cbn [bind].
      * destruct (sequence _) as [r|e'] eqn:Q; cbn; [discriminate|]. intros H. injection H as ->. destruct (IH eq_refl) as (l1 & s1 & l2 & -> & B & C).
        exists (s :: l1), s1, l2. split; [reflexivity|]. split; [exact B|]. constructor; eauto.
      * intros H. injection H as ->. exists [], s, l. split; [reflexivity|]. split; [exact E|constructor].
    + intros (l1 & s & l2 & -> & B & C). induction C as [|s1 l1 (x & Hx) C IH]; cbn [app map sequence].
      * rewrite B. reflexivity.
      * rewrite Hx. cbn [bind]. rewrite IH. reflexivity.
Qed.
Theorem C171_main_only : forall (actors : option (list St)) name args kw,
  all_remote true actors = Err RuntimeError /\ all_remote false actors = Ok actors /\
  invoke_all method name args kw None = (None, Err TypeError).
Proof. intros. repeat split. Qed.
End Remote.
Print Assumptions C171_results.
Print Assumptions C171_main_only.
Definition ex_method (name : string) (s : nat) (args : list nat) (kw : list (string * nat)) : nat * result nat :=
  match args with [n] => (s + n, if Nat.eqb s 7 then Err ValueError else Ok (s * n)) | _ => (s, Err TypeError) end.
Example C171_example : invoke_all ex_method "f" [3] [] (Some [1; 2; 5]) = (Some [4; 5; 8], Ok [3; 6; 15]) /\
  invoke_all ex_method "f" [3] [] (Some [1; 7; 5]) = (Some [4; 10; 8], Err ValueError).
Proof. split; reflexivity. Qed.

(* ------------------------------------------------------------------------------- C172 *)
Theorem C172_target_partial : forall device a g,
  (forall s, a <> ActorsNamed s) -> (forall s, g <> GpusNamed s) ->
  exists t, simulator_target device a g = Ok t /\
    (forall d, t = Device d <-> other_than_cpu device d) /\
    (t = AuxDevice <-> (forall d, ~ other_than_cpu device d) /\ gpu_actors a g).
Proof.
  intros device a g Na Ng. unfold simulator_target.
  assert (U : exists u, (match a with
        | NoActors => Ok false | ActorsNamed _ => Err TypeError
        | Actors n => if (1 <? n)%Z then match g with NoGpus => Ok false | GpusNamed _ => Err TypeError | Gpus q => Ok (negb (Qle_bool q 0)) end else Ok false
        end) = Ok u /\ (u = true <-> gpu_actors a g)).
  { destruct a as [|n|s]; [| |exfalso; apply (Na s); reflexivity].
    - exists false. split; [reflexivity|]. split; [discriminate|]. intros (n & q & H & _). discriminate.
    - destruct (1 <? n)%Z eqn:E.
      + destruct g as [|q|s]; [| |exfalso; apply (Ng s); reflexivity].
        * exists false. split; [reflexivity|]. split; [discriminate|]. intros (m & q & _ & _ & H & _). discriminate.
        * eexists. split; [reflexivity|]. split.
          { intros H. exists n, q. split; [reflexivity|]. split; [lia|]. split; [reflexivity|].
            apply Qnot_le_lt. intros L. apply Qle_bool_iff in L. rewrite L in H. discriminate. }
          { intros (m & p & H1 & _ & H2 & L). injection H2 as <-. destruct (Qle_bool q 0) eqn:Q; [|reflexivity].
            apply Qle_bool_iff in Q. exfalso. apply (Qlt_not_le _ _ L). exact Q. }
      + exists false. split; [reflexivity|]. split; [discriminate|]. intros (m & q & H & L & _). injection H as <-. lia. }
  destruct U as (u & -> & Hu). cbn [bind]. eexists. split; [reflexivity|]. unfold other_than_cpu.
  destruct device as [d|]; [destruct (String.eqb_spec d "cpu") as [->|N]|].
  - split.
    + intros d. split; [destruct u; discriminate|]. intros [Q1 Q2]. injection Q1 as <-. congruence.
    + rewrite <- Hu. destruct u; split; try discriminate; auto; [intros _; split; [intros d [Q1 Q2]; injection Q1 as <-; congruence|reflexivity]|].
      intros [_ Q]. discriminate.
  - split.
    + intros d'. split; [intros H; injection H as <-; auto|intros [Q _]; injection Q as <-; reflexivity].
    + split; [discriminate|]. intros [H _]. exfalso. apply (H d). auto.
  - split.
    + intros d. split; [destruct u; discriminate|intros [Q _]; discriminate].
    + rewrite <- Hu. destruct u; split; try discriminate; auto; [intros _; split; [intros d [Q _]; discriminate|reflexivity]|].
      intros [_ Q]. discriminate.
Qed.
(* none of the names in the documentation is accepted *)
Theorem C172_named_refuted : forall device g name, In name documented_names -> simulator_target device (ActorsNamed name) g = Err TypeError.
Proof. reflexivity. Qed.
Print Assumptions C172_target_partial.
Print Assumptions C172_named_refuted.
Example C172_example : simulator_target (Some "cuda:1"%string) (Actors 4) (Gpus (1 # 2)%Q) = Ok (Device "cuda:1"%string) /\
  simulator_target (Some "cpu"%string) (Actors 4) (Gpus (1 # 2)%Q) = Ok AuxDevice /\ gpu_actors (Actors 4) (Gpus (1 # 2)%Q) /\
  simulator_target None (Actors 4) NoGpus = Ok NoTarget /\ In "num_gpus"%string documented_names.
Proof.
  repeat split; try reflexivity; [|right; right; left; reflexivity].
  exists 4%Z, (1 # 2)%Q. repeat split; reflexivity.
Qed.

(* ------------------------------------------------------------------------------- C173 *)
Lemma py_int_Z z : py_int (inject_Z z) = z.
Proof. unfold py_int. rewrite Qfloor_Z, Qceiling_Z. destruct (Qle_bool 0 (inject_Z z)); reflexivity. Qed.
Theorem C173_schedule_partial : forall l s, schedule l s ->
  vec_schedule (Some l) = Ok (Some s) /\ gym_schedule (Some l) = Ok (Some s) /\ vec_schedule None = Ok None /\ gym_schedule None = Ok None.
Proof. intros l s [t b|t0 t1 b]; cbn; rewrite !py_int_Z; auto. Qed.
(* other lengths: GymNE reports a ValueError, VecGymNE fails with AttributeError *)
Theorem C173_lengths_refuted : forall l, length l <> 2 -> length l <> 3 ->
  gym_schedule (Some l) = Err ValueError /\ vec_schedule (Some l) = Err AttributeError.
Proof. intros [|a [|b [|c [|d l]]]] H2 H3; cbn in *; try lia; auto. Qed.
Print Assumptions C173_schedule_partial.
Print Assumptions C173_lengths_refuted.
Example C173_example : schedule [10#1; 20#1; 1#2]%Q (10, 20, (1 # 2)%Q)%Z /\ vec_schedule (Some [10#1; 1#2]%Q) = Ok (Some (10, 10, (1 # 2)%Q)%Z).
Proof. split; [apply (sch3 10 20)|reflexivity]. Qed.

(* ------------------------------------------------------------------------------- C174 *)
Lemma get_env_facts k i m : 1 <= k <= m -> size (i_env i) <= m -> size (i_env (get_env k i)) <= m /\ i_max (get_env k i) = i_max i /\ i_ready (get_env k i) = i_ready i.
Proof.
  intros K H. unfold get_env. destruct (i_env i) as [e|] eqn:E; [destruct (i_num i) as [n|]|]; cbn [size i_env i_max i_ready];
    try (split; [lia|auto]). destruct (Nat.ltb n k); cbn [i_env size i_max i_ready]; [split; [lia|auto]|]. rewrite E. auto.
Qed.
Lemma fold_get_env sizes m : Forall (fun k => 1 <= k <= m) sizes -> forall i, size (i_env i) <= m ->
  let i' := fold_left (fun i k => get_env k i) sizes i in size (i_env i') <= m /\ i_max i' = i_max i /\ i_ready i' = i_ready i.
Proof.
  intros F. induction F as [|k l K F IH]; intros i H; cbn [fold_left]; [auto|].
  destruct (get_env_facts k i m K H) as (A & B & C). destruct (IH _ A) as (A' & B' & C'). rewrite B', C'. auto.
Qed.

Definition main_ok (m : nat) (g : vg) : Prop :=
  v_max g = Some m /\ v_nactors g = 0 /\ v_actors g = None /\ size (i_env (v_main g)) <= m /\ (i_ready (v_main g) = true -> i_max (v_main g) = Some m).
Lemma main_step m g o : 1 <= m -> main_ok m g -> sensible_op 0 o -> main_ok m (fst (step g o)) /\ snd (step g o) = Ok tt.
Proof.
  intros Hm (Mx & Na & Ac & En & Rd) So. destruct o as [n pieces| |]; cbn [step].
  - unfold parallelize. rewrite Na. cbn [Nat.eqb]. rewrite Ac.
    assert (P : exists i, (if i_ready (v_main g) then (g, Ok tt) else (mkV (v_max g) (v_nactors g) (mkI (v_max g) true (i_env (v_main g)) (i_num (v_main g))) None, Ok tt))
                = (mkV (Some m) 0 i None, @Ok unit tt) /\ size (i_env i) <= m /\ i_ready i = true /\ i_max i = Some m).
    { destruct (i_ready (v_main g)) eqn:E.
      - exists (v_main g). rewrite E. split; [|auto]. destruct g as [mx na mn ac]; cbn in *. subst. reflexivity.
      - eexists. rewrite Mx, Na. split; [reflexivity|]. cbn [i_env i_ready i_max]. auto. }
    destruct P as (i & -> & E1 & E2 & E3). cbn [v_actors v_main]. unfold evaluate_batch. rewrite E3. cbn [piece_sizes].
    destruct (sizes_by_max_ok n m Hm) as (l & -> & _ & _ & F & _). cbn [bind fst snd v_max v_nactors v_actors v_main].
    destruct (fold_get_env l m F i E1) as (A & B & C). split; [|reflexivity]. unfold main_ok. cbn [v_max v_nactors v_actors v_main].
    rewrite B, C. auto.
  - cbn [fst snd]. split; [|reflexivity]. destruct (get_env_facts 1 (v_main g) m (conj (le_n 1) Hm) En) as (A & B & C).
    unfold main_ok. cbn [v_max v_nactors v_actors v_main]. rewrite B, C. auto.
  - cbn [fst snd]. split; [|reflexivity]. unfold main_ok. cbn. repeat split; auto. lia.
Qed.
(* without actors the limit holds in every history, and nothing fails *)
Theorem C174_limit_partial : forall m ops, 1 <= m -> Forall (sensible_op 0) ops ->
  forall o g e, In (o, g, e) (history (new_vg (Some m) 0) ops) -> e = Ok tt /\ environments g <= m.
Proof.
  intros m ops Hm So. assert (K : main_ok m (new_vg (Some m) 0)) by (unfold main_ok; cbn; repeat split; auto; try lia; discriminate).
  revert K. generalize (new_vg (Some m) 0). induction So as [|o ops Ho So IH]; intros g0 K o' g e I; [destruct I|].
  cbn [history] in I. destruct (main_step m g0 o Hm K Ho) as (K' & E'). destruct (step g0 o) as [g1 e1]. cbn [fst snd] in *. subst e1.
  destruct I as [I|I]; [|eapply IH; eauto]. injection I as <- <- <-. split; [reflexivity|].
  destruct K' as (_ & _ & Ac & En & _). unfold environments. rewrite Ac. cbn. lia.
Qed.
(* all solutions are evaluated, in pieces which are as large as the limit allows *)
Theorem C174_all_evaluated : forall n i,
  (i_max i = None -> exists i', evaluate_batch n i = Ok (i', [n]) /\ (i_env i = None \/ i_num i = i_env i -> n <= size (i_env i'))) /\
  (forall m, i_max i = Some m -> 1 <= m -> exists i' sizes, evaluate_batch n i = Ok (i', sizes) /\ list_sum sizes = n /\
     Forall (fun k => 1 <= k <= m) sizes /\ (forall j k, nth_error sizes j = Some k -> j + 1 < length sizes -> k = m)) /\
  (i_max i = Some 0 -> evaluate_batch n i = Err ZeroDivisionError).
Proof.
  intros n i. unfold evaluate_batch. repeat split.
  - intros ->. eexists. split; [reflexivity|]. unfold get_env. intros [E|E].
    + rewrite E. cbn. lia.
    + rewrite E. destruct (i_env i) as [e|] eqn:E2; [|cbn; lia]. destruct (Nat.ltb_spec e n); cbn; [lia|]. rewrite E2. cbn. lia.
  - intros m -> Hm. cbn [piece_sizes]. destruct (sizes_by_max_ok n m Hm) as (l & -> & A & B & C & D). cbn [bind].
    eexists. eexists. split; [reflexivity|]. auto.
  - intros ->. reflexivity.
Qed.
Definition free (k : nat) (g : vg) : Prop :=
  v_max g = None /\ v_nactors g = k /\ i_max (v_main g) = None /\ match v_actors g with None => True | Some l => length l = k /\ Forall (fun i => i_max i = None) l end.
Lemma get_env_max n i : i_max (get_env n i) = i_max i.
Proof. unfold get_env. destruct (i_env i), (i_num i); try reflexivity. destruct (Nat.ltb _ n); reflexivity. Qed.
Lemma pieces_ok k pieces : Forall (fun p : nat * nat => fst p < k) pieces -> forall l, length l = k -> Forall (fun i => i_max i = None) l ->
  exists l', evaluate_pieces pieces l = Ok l' /\ length l' = k /\ Forall (fun i => i_max i = None) l'.
Proof.
  intros F. induction F as [|[a n] r A F IH]; intros l L M; cbn [evaluate_pieces]; [eauto|]. cbn [fst] in A.
  destruct (nth_error l a) as [i|] eqn:E; [|apply nth_error_None in E; lia].
  assert (Mi : i_max i = None) by (rewrite Forall_forall in M; apply M; eapply nth_error_In; eauto).
  unfold evaluate_batch. rewrite Mi. cbn [bind fst]. apply IH; [rewrite upd_length; auto|].
  apply Forall_forall. intros x Ix. apply In_nth_error in Ix. destruct Ix as [j J]. destruct (Nat.eq_dec a j) as [<-|N].
  - rewrite upd_same in J by lia. injection J as <-. rewrite get_env_max. exact Mi.
  - rewrite upd_other in J by auto. rewrite Forall_forall in M. apply M. eapply nth_error_In; eauto.
Qed.
Lemma free_step k g o : free k g -> sensible_op k o -> free k (fst (step g o)) /\ snd (step g o) = Ok tt.
Proof.
  intros (Mx & Na & Mm & Ac) So. destruct o as [n pieces| |]; cbn [step].
  - assert (P : exists mn ac, parallelize g = (mkV None k mn ac, Ok tt) /\ i_max mn = None /\
             match ac with None => k = 0 | Some l => length l = k /\ Forall (fun i => i_max i = None) l end).
    { unfold parallelize. destruct g as [mx na mn ac]; cbn in Mx, Na, Mm, Ac; subst. cbn [v_nactors v_max v_main v_actors].
      destruct (Nat.eqb_spec k 0) as [->|Nk]; cbn [v_nactors v_max v_main v_actors].
      - destruct (i_ready mn); [eexists; eexists; split; [reflexivity|]; split; [auto|destruct ac; auto]|].
        destruct ac; cbn [v_max v_nactors v_main]; eexists; eexists; (split; [reflexivity|]); auto.
      - destruct ac as [l|]; cbn [v_nactors v_max v_main v_actors].
        + destruct (i_ready mn); eexists; eexists; (split; [reflexivity|]); auto.
        + destruct (i_ready mn); eexists; eexists; (split; [reflexivity|]); (split; [auto|]); rewrite repeat_length; (split; [reflexivity|]);
            apply Forall_forall; intros x Hx; apply repeat_spec in Hx; subst; cbn; auto. }
    destruct P as (mn & ac & -> & A & B). cbn [v_actors v_main v_max v_nactors]. destruct ac as [l|].
    + destruct B as [B C]. destruct So as [_ So]. destruct (pieces_ok k pieces So l B C) as (l' & -> & L' & M'). cbn [fst snd].
      split; [|reflexivity]. repeat split; auto.
    + unfold evaluate_batch. rewrite A. cbn [fst snd]. split; [|reflexivity]. repeat split; cbn; auto. rewrite get_env_max. auto.
  - cbn [fst snd]. split; [|reflexivity]. repeat split; cbn; auto. rewrite get_env_max. auto.
  - cbn [fst snd]. split; [|reflexivity]. repeat split; cbn; auto.
Qed.
(* without a limit nothing fails, whatever the number of actors *)
Theorem C174_unlimited : forall k ops, Forall (sensible_op k) ops -> forall o g e, In (o, g, e) (history (new_vg None k) ops) -> e = Ok tt.
Proof.
  intros k ops So. assert (K : free k (new_vg None k)) by (repeat split).
  revert K. generalize (new_vg None k). induction So as [|o ops Ho So IH]; intros g0 K o' g e I; [destruct I|].
  cbn [history] in I. destruct (free_step k g0 o K Ho) as (K' & E'). destruct (step g0 o) as [g1 e1]. cbn [fst snd] in *. subst e1.
  destruct I as [I|I]; [|eapply IH; eauto]. injection I as <- <- <-. reflexivity.
Qed.
Definition stuck (m k : nat) (g : vg) : Prop :=
  v_max g = Some m /\ v_nactors g = k /\ i_ready (v_main g) = false /\ match v_actors g with None => True | Some l => length l = k end.
Lemma stuck_step m k g o : 1 <= k -> stuck m k g -> stuck m k (fst (step g o)) /\ (forall n pieces, o = Evaluate n pieces -> snd (step g o) = Err TypeError).
Proof.
  intros Hk (Mx & Na & Rd & Ac). destruct o as [n pieces| |]; cbn [step].
  - assert (P : exists l, parallelize g = (mkV (Some m) k (v_main g) (Some l), Err TypeError) /\ length l = k).
    { unfold parallelize. destruct g as [mx na mn ac]; cbn in Mx, Na, Rd, Ac; subst. cbn [v_nactors v_max v_main v_actors].
      destruct (Nat.eqb_spec k 0); [lia|].
      assert (Q : exists l, (match ac with Some _ => mkV (Some m) k mn ac | None => mkV (Some m) k mn (Some (repeat (pickled mn) k)) end) = mkV (Some m) k mn (Some l) /\ length l = k).
      { destruct ac as [l|]; [eauto|]. eexists. split; [reflexivity|]. apply repeat_length. }
      destruct Q as (l & -> & L). cbn [v_nactors v_max v_main v_actors]. rewrite Rd, L. destruct (split_workload_ok m k Hk) as (s & Es & Hs). rewrite Es.
      assert (Ls : length s = k) by (destruct Hs as [Hs _]; exact Hs).
      destruct s as [|q0 s]; [cbn in Ls; lia|]. destruct l as [|a l]; [cbn in L; lia|]. cbn [send_limits remote_call]. eauto. }
    destruct P as (l & -> & L). cbn [fst snd]. split; [repeat split; auto|]. auto.
  - cbn [fst snd]. split; [|discriminate]. repeat split; cbn; auto. unfold get_env.
    destruct (i_env (v_main g)), (i_num (v_main g)) as [x|]; cbn [i_ready]; auto. destruct (Nat.ltb x 1); cbn [i_ready]; auto.
  - cbn [fst snd]. split; [|discriminate]. repeat split; cbn; auto.
Qed.
(* with a limit and actors no evaluation works, in any history *)
Theorem C174_actors_refuted : forall m k ops, 1 <= k ->
  forall n pieces g e, In (Evaluate n pieces, g, e) (history (new_vg (Some m) k) ops) -> e = Err TypeError.
Proof.
  intros m k ops Hk. assert (K : stuck m k (new_vg (Some m) k)) by (repeat split).
  revert K. generalize (new_vg (Some m) k). induction ops as [|o ops IH]; intros g0 K n pieces g e I; [destruct I|].
  cbn [history] in I. destruct (stuck_step m k g0 o Hk K) as (K' & E'). destruct (step g0 o) as [g1 e1]. cbn [fst snd] in *.
  destruct I as [I|I]; [|eapply IH; eauto]. injection I as -> <- <-. eapply E'. reflexivity.
Qed.
Print Assumptions C174_limit_partial.
Print Assumptions C174_all_evaluated.
Print Assumptions C174_unlimited.
Print Assumptions C174_actors_refuted.
Example C174_example :
  let ops := [Evaluate 10 []; ToPolicy; Clone; Evaluate 3 []] in
  Forall (sensible_op 0) ops /\ map (fun x => (environments (snd (fst x)), snd x)) (history (new_vg (Some 4) 0) ops) = [(4, Ok tt); (4, Ok tt); (0, Ok tt); (3, Ok tt)] /\
  Forall (sensible_op 2) [Evaluate 6 [(0, 3); (1, 3)]] /\
  map (fun x => (environments (snd (fst x)), snd x)) (history (new_vg None 2) [Evaluate 6 [(0, 3); (1, 3)]]) = [(6, Ok tt)] /\
  map snd (history (new_vg (Some 4) 2) [Evaluate 6 [(0, 3); (1, 3)]; ToPolicy]) = [Err TypeError; Ok tt].
Proof. repeat split; repeat constructor. Qed.

(* ------------------------------------------------------------------------------- C175 *)
Lemma count_pieces {Row} (batch : list Row) k : 1 <= k -> exists ps, rmap snd (split_batch batch (Some k) None) = Ok ps /\ length ps = k /\ concat ps = batch.
Proof.
  intros K. destruct (split_count batch k K) as (sl & ps & E & L & P & _ & C & _). rewrite E. cbn [rmap snd]. exists ps. split; [reflexivity|].
  split; [|exact C]. subst ps. rewrite map_length. exact L.
Qed.
(* the whole batch is divided into as many pieces as there are actors, unless something else is demanded *)
Theorem C175_pieces_partial : forall (Row : Type) (batch : list Row) actors, 1 <= actors ->
  (exists ps, pieces_for (gym_subbatches None None) actors batch = Ok ps /\ length ps = actors /\ concat ps = batch) /\
  (forall m, 1 <= m -> exists ps, pieces_for (gym_subbatches None (Some m)) actors batch = Ok ps /\ Forall (fun p => length p <= m) ps /\ concat ps = batch) /\
  (forall m, pieces_for (vec_subbatches None m) actors batch = pieces_for (gym_subbatches None m) actors batch) /\
  (forall k, 1 <= k -> exists ps, pieces_for (vec_subbatches (Some k) None) actors batch = Ok ps /\ length ps = k /\ concat ps = batch) /\
  (forall k m, pieces_for (vec_subbatches (Some k) (Some m)) actors batch = Err ValueError).
Proof.
  intros Row batch actors A. repeat split.
  - exact (count_pieces batch actors A).
  - intros m M. unfold pieces_for, gym_subbatches, problem_subbatches. cbn [bind fst snd choose_pieces].
    destruct (split_max batch m M) as (sl & ps & E & L & P & _ & C & F & _). rewrite E. cbn [rmap snd]. exists ps. split; [reflexivity|]. split; [|exact C].
    subst ps. apply Forall_forall. intros p Hp. apply in_map_iff in Hp. destruct Hp as (ab & <- & Iab). rewrite Forall_forall in F. apply F in Iab.
    unfold slice. rewrite firstn_length. lia.
  - intros k K. exact (count_pieces batch k K).
Qed.
(* num_subbatches has no effect in GymNE: there are as many pieces as actors, and giving both arguments is accepted *)
Theorem C175_ignored_refuted : forall (Row : Type) (batch : list Row) actors k, 1 <= actors ->
  (exists ps, pieces_for (gym_subbatches (Some k) None) actors batch = Ok ps /\ length ps = actors) /\
  (forall m, 1 <= m -> exists ps, pieces_for (gym_subbatches (Some k) (Some m)) actors batch = Ok ps).
Proof.
  intros Row batch actors k A. split.
  - destruct (count_pieces batch actors A) as (ps & E & L & _). exists ps. split; [exact E|exact L].
  - intros m M. unfold pieces_for, gym_subbatches, problem_subbatches. cbn [bind fst snd choose_pieces].
    destruct (split_max batch m M) as (sl & ps & E & _). rewrite E. eexists. reflexivity.
Qed.
Print Assumptions C175_pieces_partial.
Print Assumptions C175_ignored_refuted.
Example C175_example : pieces_for (vec_subbatches (Some 3) None) 2 [1; 2; 3; 4] = Ok [[1; 2]; [3]; [4]] /\
  pieces_for (gym_subbatches (Some 3) None) 2 [1; 2; 3; 4] = Ok [[1; 2]; [3; 4]] /\
  pieces_for (gym_subbatches (Some 3) (Some 1)) 2 [1; 2] = Ok [[1]; [2]].
Proof. repeat split; reflexivity. Qed.

(* ------------------------------------------------------------------------------- C176 *)
Theorem C176_spaces_partial : forall observation action o a,
  gym_lengths observation action = Ok (o, a) <-> supported observation action o a.
Proof.
  intros ob ac o a. unfold gym_lengths, supported. split.
  - destruct ob as [[|n s]|n|]; try discriminate. destruct ac as [[|k t]|k|]; try discriminate; cbn; intros H; injection H as <- <-; eauto 6.
  - intros [(s & ->) [(t & ->)| ->]]; reflexivity.
Qed.
(* the documented TypeError is only seen for boxes without dimensions; other unsupported spaces give AttributeError *)
Theorem C176_error_refuted : forall observation action,
  (is_box observation = false -> gym_lengths observation action = Err AttributeError) /\
  (forall o s, observation = Box (o :: s) -> is_box action = false -> is_discrete action = false -> gym_lengths observation action = Err AttributeError) /\
  ensure_space_types (Box [1]) action = Ok tt.
Proof.
  intros ob ac. repeat split.
  - destruct ob; [discriminate| |]; reflexivity.
  - intros o s -> B D. destruct ac; try discriminate. reflexivity.
Qed.
(* the environment is given under exactly one of its two names, and together with a network *)
Theorem C176_environment : forall env env_name network e,
  (gym_env_maker env env_name network = Ok e <-> network = true /\ ((env = Some e /\ env_name = None) \/ (env = None /\ env_name = Some e))) /\
  (forall x, gym_env_maker env env_name network = Err x -> x = ValueError).
Proof.
  intros env name net e. unfold gym_env_maker. split.
  - split.
    + destruct env as [x|], name as [y|]; cbn; try discriminate; destruct net; try discriminate; intros H; injection H as <-; auto.
    + intros [-> [[-> ->] | [-> ->]]]; reflexivity.
  - destruct env as [x|], name as [y|], net; cbn; congruence.
Qed.
Print Assumptions C176_environment.
Print Assumptions C176_spaces_partial.
Print Assumptions C176_error_refuted.
Example C176_example : supported (Box [17]) (Discrete 6) 17 6 /\ gym_lengths (Box [17]) (Discrete 6) = Ok (17, 6) /\
  gym_lengths (Discrete 4) (Box [2]) = Err AttributeError /\ gym_lengths (Box [4]) OtherSpace = Err AttributeError.
Proof. repeat split; eauto. Qed.

(* ------------------------------------------------------------------------------- C177 *)
Theorem C177_gym_partial : forall s z action, length z = length action ->
  length (gym_noise (Some s) z action) = length action /\
  (forall i a zi, nth_error action i = Some a -> nth_error z i = Some zi ->
     exists b, nth_error (gym_noise (Some s) z action) i = Some b /\ (b - a == s * zi)%Q) /\
  gym_noise None z action = action /\ vec_noise None z action = action.
Proof.
  intros s z action L. unfold gym_noise. repeat split.
  - rewrite map2_length. lia.
  - intros i a zi Ha Hz. eexists. split; [rewrite map2_nth_error, Ha, Hz; reflexivity|]. ring.
Qed.
(* the noise of VecGymNE is uniform: it never decreases an action, and stays below the standard deviation *)
Theorem C177_vec_refuted : forall s u action, (0 < s)%Q -> length u = length action -> Forall (fun x => (0 <= x /\ x < 1)%Q) u ->
  forall i a b, nth_error action i = Some a -> nth_error (vec_noise (Some s) u action) i = Some b -> (0 <= b - a /\ b - a < s)%Q.
Proof.
  intros s u action S L F i a b Ha Hb. unfold vec_noise in Hb. rewrite map2_nth_error, Ha in Hb.
  destruct (nth_error u i) as [x|] eqn:E; [|discriminate]. injection Hb as <-. rewrite Forall_forall in F.
  destruct (F x (nth_error_In _ _ E)) as [X0 X1]. split; nra.
Qed.
Print Assumptions C177_gym_partial.
Print Assumptions C177_vec_refuted.
Example C177_example : gym_noise (Some 2%Q) [(-3)%Q; 1%Q] [5%Q; 5%Q] = [(5 + (0 + 2 * (-3)))%Q; (5 + (0 + 2 * 1))%Q] /\
  Forall (fun x => (0 <= x /\ x < 1)%Q) [(1 # 2)%Q; (3 # 4)%Q] /\ vec_noise (Some 2%Q) [(1 # 2)%Q; (3 # 4)%Q] [5%Q; 5%Q] = [(5 + (1 # 2) * 2)%Q; (5 + (3 # 4) * 2)%Q].
Proof. repeat split; repeat constructor; lra. Qed.

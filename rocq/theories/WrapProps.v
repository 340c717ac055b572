(* Properties of the ways environments are used: C152 (one behaviour for both APIs), C153 (the actions sent). *)
From Coq Require Import QArith Qabs Lqa.
From Verif Require Import Prelude WrapModel WrapSpec.
Close Scope Q_scope.
Open Scope nat_scope.

(* an array of flags says which of the sub-environments are meant *)
Definition says (f : flags) (l : list bool) : Prop :=
  match f with
  | FBool bs => bs = l
  | FInt zs => Forall2 (fun z (b : bool) => b = true <-> z <> 0%Z) zs l
  | FFloat qs => Forall2 (fun q (b : bool) => b = true <-> (1 # 10000 < Qabs q)%Q) qs l
  end.
Lemma says_bools f l : says f l -> to_bools f = l.
Proof.
  destruct f as [bs | zs | qs]; cbn; [auto | |].
  - induction 1 as [| z b zs l Q F IH]; cbn; [reflexivity |]. rewrite IH. f_equal. destruct b, (Z.eqb_spec z 0); cbn; intuition congruence.
  - induction 1 as [| q b qs l Q F IH]; cbn; [reflexivity |]. rewrite IH. f_equal.
    destruct (Qlt_le_dec (1 # 10000) (Qabs q)) as [G | G]; [symmetry; apply Q; exact G |].
    destruct b; [| reflexivity]. exfalso. apply (Qlt_not_le _ _ (proj1 Q eq_refl)). exact G.
Qed.
Lemma either_map2 a b : map2 orb a b = either a b.
Proof. revert b. induction a as [| x a IH]; intros [| y b]; cbn; try reflexivity. rewrite IH. reflexivity. Qed.

Section P.
Context {S O Rw I : Type}.
Variable argmax : list Q -> nat.
Notation core := (core S O Rw I action).
Notation env := (env S O Rw I).

(* the environment e reports what c does: after each call in the classic or in the new way, with flags of any kind *)
Definition reports (c : core) (e : env) : Prop :=
  (forall s, let '(s', (o, i)) := start c s in env_reset e s = (s', RPlain o) \/ env_reset e s = (s', RPair o i)) /\
  (forall s a, let '(s', (o, r, t, u, i)) := move c s a in
     (exists d, env_step e s a = (s', S4 o r d i) /\ says d (either t u)) \/
     (exists d d2, env_step e s a = (s', S5 o r d d2 i) /\ says d t /\ says d2 u)).
Definition balanced (c : core) : Prop := forall s a, let '(_, (_, _, t, u, _)) := move c s a in length t = length u.

(* the classic view of an environment: before the first reset, steps raise and do nothing *)
Fixpoint classic (c : core) (send : list (list Q) -> action) (ready : bool) (s : S) (ops : list op) : list (result (outcome O Rw I)) :=
  match ops with
  | [] => []
  | Reset :: ops => let '(s', (o, _)) := start c s in Ok (OObs o) :: classic c send true s' ops
  | Step rows :: ops =>
      if ready then
        let '(s', (o, r, t, u, i)) := move c s (send rows) in Ok (O4 o r (either t u) i) :: classic c send true s' ops
      else Err ValueError :: classic c send false s ops
  end.

(* C152: with force_classic_api, an environment of either API, with flags of any kind, is seen through the wrapper as its classic view:
   in every reset the observation alone, in every step the observation, the reward, for each sub-environment whether it has terminated
   or was truncated, and the info. *)
Theorem C152_classic : forall c e cfg s ops, reports c e -> balanced c -> c_classic cfg = true ->
  snd (wrun argmax e cfg (new_wrapper s) ops) = classic c (prepare argmax cfg) false s ops.
Proof.
  intros c e cfg s ops [RR RS] BA CL. unfold new_wrapper. generalize false as k. revert s.
  induction ops as [| [| rows] ops IH]; intros s k; cbn [wrun classic wdo]; [reflexivity | |].
  - unfold wreset. cbn [w_env w_known]. specialize (RR s). destruct (start c s) as [s' [o i]].
    destruct RR as [-> | ->]; rewrite ?CL; (destruct (wrun _ _ _ _ ops) as [w rs] eqn:E; cbn [snd]; f_equal; specialize (IH s' true); rewrite E in IH; exact IH).
  - unfold wstep. cbn [w_env w_known]. destruct k.
    + specialize (RS s (prepare argmax cfg rows)). specialize (BA s (prepare argmax cfg rows)).
      destruct (move c s (prepare argmax cfg rows)) as [s' [[[[o r] t] u] i]]. destruct RS as [(d & -> & SD) | (d & d2 & -> & SD & SD2)].
      * destruct (wrun _ _ _ _ ops) as [w rs] eqn:E. cbn [snd]. rewrite (says_bools _ _ SD). f_equal.
        specialize (IH s' true). rewrite E in IH. exact IH.
      * rewrite CL, (says_bools _ _ SD), (says_bools _ _ SD2). unfold combine_flags. rewrite BA, Nat.eqb_refl. cbn [rmap].
        destruct (wrun _ _ _ _ ops) as [w rs] eqn:E. cbn [snd]. rewrite either_map2. f_equal.
        specialize (IH s' true). rewrite E in IH. exact IH.
    + destruct (wrun _ _ _ _ ops) as [w rs] eqn:E. cbn [snd]. f_equal. specialize (IH s false). rewrite E in IH. exact IH.
Qed.

(* So a user of the wrapper cannot tell which API the environment has. *)
Theorem C152_same : forall c e1 e2 cfg s ops, reports c e1 -> reports c e2 -> balanced c -> c_classic cfg = true ->
  snd (wrun argmax e1 cfg (new_wrapper s) ops) = snd (wrun argmax e2 cfg (new_wrapper s) ops).
Proof.
  intros c e1 e2 cfg s ops R1 R2 BA CL. rewrite (C152_classic c e1 cfg s ops R1 BA CL), (C152_classic c e2 cfg s ops R2 BA CL). reflexivity.
Qed.

(* Without it, the results have the form in which the environment gives them: info behind the observation of a reset, and five
   elements in a step, exactly if the environment is of the new API. *)
Theorem C152_passthrough : forall (e : env) cfg w, c_classic cfg = false ->
  (forall s' o, env_reset e (w_env w) = (s', RPlain o) -> snd (wreset e cfg w) = Ok (OObs o)) /\
  (forall s' o i, env_reset e (w_env w) = (s', RPair o i) -> snd (wreset e cfg w) = Ok (OObsInfo o i)) /\
  forall rows s', w_known w = true ->
  (forall o r d i l, env_step e (w_env w) (prepare argmax cfg rows) = (s', S4 o r d i) -> says d l -> snd (wstep argmax e cfg w rows) = Ok (O4 o r l i)) /\
  (forall o r d d2 i l l2, env_step e (w_env w) (prepare argmax cfg rows) = (s', S5 o r d d2 i) -> says d l -> says d2 l2 ->
     snd (wstep argmax e cfg w rows) = Ok (O5 o r l l2 i)).
Proof.
  intros e cfg w CL. split; [| split].
  - intros s0 o E. unfold wreset. rewrite E. reflexivity.
  - intros s' o i E. unfold wreset. rewrite E, CL. reflexivity.
  - intros rows s' K. split.
    + intros o r d i l E SD. unfold wstep. rewrite K, E, (says_bools _ _ SD). reflexivity.
    + intros o r d d2 i l l2 E SD SD2. unfold wstep. rewrite K, E, CL, (says_bools _ _ SD), (says_bools _ _ SD2). reflexivity.
Qed.

(* The functions for environments that are not vectorized do the same: the observation alone, and one flag, whose truth value tells whether
   the episode has terminated or was truncated. *)
Definition true_means (f : scalar_flag) (b : bool) : Prop :=
  match f with VBool x => x = b | VInt z => b = true <-> z <> 0%Z | VFloat q => b = true <-> ~ (q == 0)%Q end.
Lemma truthy_means f b : true_means f b -> truthy f = b.
Proof.
  destruct f as [x | z | q]; cbn; auto; intro Q.
  - destruct b, (Z.eqb_spec z 0); cbn; intuition congruence.
  - destruct b, (Qeq_dec q 0); cbn; intuition congruence.
Qed.
Theorem C152_scalar : forall (o : O) (r : Rw) (i : I) f g b t u,
  reset_env (RPlain o : raw_reset O I) = Some o /\ reset_env (RPair o i) = Some o /\
  (true_means f b -> exists d, take_step (T4 o r f i) = Ok (o, r, d, i) /\ truthy d = b) /\
  (true_means f t -> true_means g u -> exists d, take_step (T5 o r f g i) = Ok (o, r, d, i) /\ truthy d = (t || u)%bool).
Proof.
  intros o r i f g b t u. split; [reflexivity |]. split; [reflexivity |]. split.
  - intro M. exists f. split; [reflexivity | apply truthy_means; exact M].
  - intros M1 M2. apply truthy_means in M1, M2. cbn. destruct (truthy f) eqn:E.
    + exists f. rewrite E, <- M1. auto.
    + exists g. rewrite <- M1, <- M2. auto.
Qed.

(* C153: the action an environment gets. With clipping, every number lies within the bounds of the environment, and a number that did so
   before is left alone; scores are turned into the index of a largest one. *)
Hypothesis argmax_ok : forall l, l <> [] -> maximal l (argmax l).
Lemma clip1_ok b x : sensible b -> within b (clip1 b x) /\ (within b x -> (clip1 b x == x)%Q).
Proof.
  destruct b as [[l |] [u |]]; unfold within, clip1, qmax, qmin; cbn; intro SE;
    repeat match goal with |- context [Qlt_le_dec ?a ?b] => is_var a; destruct (Qlt_le_dec a b) end; repeat split; try lra; intros [? ?]; lra.
Qed.
Theorem C153_clipped : forall cfg bs rows, c_scores cfg = false -> c_bounds cfg = Some bs -> Forall sensible bs ->
  Forall (fun row => length row = length bs) rows ->
  exists rows', prepare argmax cfg rows = ACont rows' /\
    Forall (fun row => Forall2 within bs row) rows' /\
    Forall2 (fun row row' => length row' = length row /\ forall k b x x', nth_error bs k = Some b -> nth_error row k = Some x ->
      nth_error row' k = Some x' -> within b x -> (x' == x)%Q) rows rows'.
Proof.
  intros cfg bs rows SC BS SE F. unfold prepare. rewrite SC, BS. eexists. split; [reflexivity |]. split.
  - apply Forall_map. eapply Forall_impl; [| exact F]. cbn. intros row L. clear F BS. revert row L.
    induction SE as [| b bs HB SE IH]; intros [| x row] L; cbn in L; try discriminate; cbn [map2]; constructor.
    + apply clip1_ok. exact HB.
    + apply IH. lia.
  - clear BS. induction F as [| row rows L F IH]; cbn [map]; constructor; [| exact IH]. clear IH F.
    split; [rewrite map2_length; lia |]. revert row L.
    induction SE as [| b bs HB SE IH]; intros [| x row] L; cbn in L; try discriminate; intros [| k] b' x1 x2; cbn [nth_error map2]; try discriminate.
    + intros A B C W. injection A as <-. injection B as <-. injection C as <-. apply clip1_ok; assumption.
    + intros A B C W. eapply (IH row); eauto.
Qed.
Theorem C153_scores : forall cfg rows, c_scores cfg = true -> Forall (fun row => row <> []) rows ->
  exists l, prepare argmax cfg rows = ADisc l /\ Forall2 maximal rows l /\ Forall2 (fun row a => a < length row) rows l.
Proof.
  intros cfg rows SC F. unfold prepare. rewrite SC. eexists. split; [reflexivity |]. split.
  - induction F; cbn; constructor; auto.
  - induction F as [| row rows N F IH]; cbn; constructor; auto. destruct (argmax_ok row N) as (x & E & _). apply nth_error_Some. congruence.
Qed.

(* What else may happen in a step: before the first reset, it is refused, and the environment is not touched; a result that is not a
   tuple gives TypeError, a tuple of another length gives ValueError. *)
Theorem C152_malformed : forall (e : env) cfg w rows,
  (w_known w = false -> wstep argmax e cfg w rows = (w, Err ValueError)) /\
  (w_known w = true ->
     (snd (env_step e (w_env w) (prepare argmax cfg rows)) = SOther -> snd (wstep argmax e cfg w rows) = Err TypeError) /\
     (snd (env_step e (w_env w) (prepare argmax cfg rows)) = STuple -> snd (wstep argmax e cfg w rows) = Err ValueError)).
Proof.
  intros e cfg w rows. split; intro K; unfold wstep; rewrite K; [reflexivity |].
  destruct (env_step e (w_env w) (prepare argmax cfg rows)) as [s raw]. cbn [snd]. split; intros ->; reflexivity.
Qed.

(* The environment which does what e does and writes down the actions it gets; the actions which are in order *)
Definition recorder (e : env) : WrapModel.env (S * list action) O Rw I :=
  {| env_reset := fun s => let '(s', r) := env_reset e (fst s) in ((s', snd s), r);
     env_step := fun s a => let '(s', r) := env_step e (fst s) a in ((s', snd s ++ [a]), r) |}.
Definition in_order (cfg : config) (rows : list (list Q)) (a : action) : Prop :=
  match a with
  | ADisc l => c_scores cfg = true /\ Forall2 maximal rows l
  | ACont rows' => c_scores cfg = false /\ match c_bounds cfg with None => rows' = rows | Some bs => Forall (fun row => Forall2 within bs row) rows' end
  end.
(* C153, over any sequence of calls: writing down the actions changes nothing that can be seen, and every action written down belongs to a
   step asked for and is in order. *)
Theorem C153_sent : forall e cfg s ops, 
  match c_bounds cfg with Some bs => Forall sensible bs | None => True end ->
  Forall (fun o => match o with Reset => True | Step rows => Forall (fun row => row <> []) rows /\
     match c_bounds cfg with Some bs => Forall (fun row => length row = length bs) rows | None => True end end) ops ->
  let r := wrun argmax (recorder e) cfg (new_wrapper (s, [])) ops in
  snd r = snd (wrun argmax e cfg (new_wrapper s) ops) /\
  Forall (fun a => exists rows, In (Step rows) ops /\ in_order cfg rows a) (snd (w_env (fst r))).
Proof.
  intros e cfg s ops HB HO. cbv zeta. unfold new_wrapper. generalize false as k.
  assert (G : forall ops' s k acts, Forall (fun o => match o with Reset => True | Step rows => Forall (fun row => row <> []) rows /\
     match c_bounds cfg with Some bs => Forall (fun row => length row = length bs) rows | None => True end end) ops' ->
     (forall o, In o ops' -> In o ops) -> Forall (fun a => exists rows, In (Step rows) ops /\ in_order cfg rows a) acts ->
     let r := wrun argmax (recorder e) cfg {| w_env := (s, acts); w_known := k |} ops' in
     snd r = snd (wrun argmax e cfg {| w_env := s; w_known := k |} ops') /\
     Forall (fun a => exists rows, In (Step rows) ops /\ in_order cfg rows a) (snd (w_env (fst r)))).
  2:{ intro k. apply G; auto. }
  clear s HO. cbv zeta. induction ops' as [| o ops' IH]; intros s k acts HO HI HA; [split; auto |].
  inversion HO as [| ? ? H1 H2]; subst. assert (HI' : forall o, In o ops' -> In o ops) by (intros; apply HI; right; auto).
  destruct o as [| rows]; cbn [wrun wdo].
  - unfold wreset. cbn [w_env w_known recorder env_reset]. destruct (env_reset e s) as [s' raw] eqn:E. cbn [fst snd]. rewrite E.
    destruct raw as [o | o i |];
      match goal with |- context [wrun argmax (recorder e) cfg {| w_env := (s', acts); w_known := ?k2 |} ops'] => specialize (IH s' k2 acts H2 HI' HA) end;
      destruct (wrun argmax (recorder e) _ _ ops') as [w1 r1]; destruct (wrun argmax e _ _ ops') as [w2 r2]; cbn [fst snd] in *; destruct IH as [-> IH]; auto.
  - unfold wstep. cbn [w_known w_env]. destruct k.
    + assert (HA' : Forall (fun a => exists rows, In (Step rows) ops /\ in_order cfg rows a) (acts ++ [prepare argmax cfg rows])).
      { apply Forall_app. split; auto. constructor; auto. exists rows. split; [apply HI; left; auto |]. destruct H1 as [N1 N2].
        destruct (c_scores cfg) eqn:ES.
        - destruct (C153_scores cfg rows ES N1) as (l & -> & M & _). cbn. auto.
        - destruct (c_bounds cfg) as [bs |] eqn:EB.
          + destruct (C153_clipped cfg bs rows ES EB HB N2) as (rows' & -> & M & _). cbn. rewrite EB. auto.
          + unfold prepare. rewrite ES, EB. cbn. rewrite EB. auto. }
      cbn [recorder env_step fst snd]. destruct (env_step e s (prepare argmax cfg rows)) as [s' raw] eqn:E. cbn [fst snd].
      specialize (IH s' true _ H2 HI' HA').
      destruct (wrun argmax (recorder e) _ _ ops') as [w1 r1]; destruct (wrun argmax e _ _ ops') as [w2 r2]; cbn [fst snd] in *; destruct IH as [-> IH]; auto.
    + specialize (IH s false acts H2 HI' HA).
      destruct (wrun argmax (recorder e) _ _ ops') as [w1 r1]; destruct (wrun argmax e _ _ ops') as [w2 r2]; cbn [fst snd] in *; destruct IH as [-> IH]; auto.
Qed.
End P.
Print Assumptions C152_malformed.
Print Assumptions C153_sent.
Print Assumptions C152_classic.
Print Assumptions C152_same.
Print Assumptions C152_passthrough.
Print Assumptions C152_scalar.
Print Assumptions C153_clipped.
Print Assumptions C153_scores.

(* an environment of two sub-environments that counts its steps: the first one terminates at step 2, the second is truncated at step 1 *)
Definition ex_core : core nat nat Q unit action :=
  {| start := fun _ => (0, (0, tt));
     move := fun s a => (S s, (S s, match a with ACont ((x :: _) :: _) => x | _ => 0%Q end, [Nat.eqb s 1; false], [false; Nat.eqb s 0], tt)) |}.
Definition ex_new : env nat nat Q unit :=
  {| env_reset := fun _ => (0, RPair 0 tt);
     env_step := fun s a => let '(s', (o, r, t, u, i)) := move ex_core s a in
                            (s', S5 o r (FInt (map (fun b : bool => if b then 1%Z else 0%Z) t)) (FBool u) i) |}.
Definition ex_old : env nat nat Q unit :=
  {| env_reset := fun _ => (0, RPlain 0);
     env_step := fun s a => let '(s', (o, r, t, u, i)) := move ex_core s a in
                            (s', S4 o r (FFloat (map (fun b : bool => if b then 1%Q else 0%Q) (either t u))) i) |}.
Definition ex_cfg : config := {| c_classic := true; c_scores := false; c_bounds := Some [(Some (-1), Some 1)]%Q |}.
Example C152_example : reports ex_core ex_new /\ reports ex_core ex_old /\ balanced ex_core /\
  snd (wrun (fun _ => 0) ex_new ex_cfg (new_wrapper 0) [Step [[3]]; Reset; Step [[3]; [0]]; Step [[-5]; [0]]]%Q)
  = [Err ValueError; Ok (OObs 0); Ok (O4 1 1%Q [false; true] tt); Ok (O4 2 (-1)%Q [true; false] tt)].
Proof.
  split; [| split; [| split]].
  - split; [intro s; right; reflexivity |]. intros s a. right. do 2 eexists. split; [reflexivity |]. split; [| reflexivity].
    cbn. repeat constructor; destruct (Nat.eqb s 1); intuition congruence.
  - split; [intro s; left; reflexivity |]. intros s a. left. eexists. split; [reflexivity |].
    cbn [says map either combine fst snd]. constructor; [| constructor; [| constructor]].
    + destruct (Nat.eqb s 1); cbn; split; intro G; try reflexivity; try discriminate G; try (exfalso; revert G; apply Qle_not_lt); cbn; lra.
    + destruct (Nat.eqb s 0); cbn; split; intro G; try reflexivity; try discriminate G; try (exfalso; revert G; apply Qle_not_lt); cbn; lra.
  - intros s a. reflexivity.
  - reflexivity.
Qed.
Example C153_example : (forall l : list Q, l <> [] -> maximal [1; 3; 2]%Q 1) /\
  prepare (fun _ => 1) {| c_classic := true; c_scores := true; c_bounds := None |} [[1; 3; 2]]%Q = ADisc [1] /\
  prepare (fun _ => 1) ex_cfg [[3]; [1 # 2]]%Q = ACont [[1]; [1 # 2]]%Q.
Proof.
  split; [| split; reflexivity]. intros _ _. exists 3%Q. split; [reflexivity |].
  intros [| [| [| i]]] y; cbn; intro E; try (injection E as <-; lra). destruct i; discriminate.
Qed.
Example C153_sent_example :
  snd (w_env (fst (wrun (fun _ => 0) (recorder ex_old) ex_cfg (new_wrapper (0, [])) [Step [[3]]; Reset; Step [[3]; [0]]; Step [[-5]; [0]]]%Q)))
  = [ACont [[1]; [0]]; ACont [[-1]; [0]]]%Q.
Proof. reflexivity. Qed.

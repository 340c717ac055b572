(* Properties of functional samplers, functional gradient estimators and of the parameters of separable Gaussians. *)
From Coq Require Import QArith String Permutation.
From Verif Require Import Prelude RandModel RandSpec RandProofs EstModel EstSpec EstProofs.
Open Scope nat_scope.

Section Calls.
  Context {V D noise : Type}.
  Variable none : V.
  Variable rows count : V -> nat.
  Variable construct : dict V -> result D.
  Variable sample : D -> V -> noise -> result V.
  Variable compute_gradients : D -> V -> V -> V -> V -> result V.
  Variable static : option (V -> dict V -> noise -> result V).
  Notation sampler := (sampler_call none construct sample static).
  Notation estimate := (estimator_call none rows count construct sample compute_gradients).
  (* what the wrapped class itself answers for given parameters *)
  Definition class_sample (parameters : dict V) (n : V) (z : noise) : result V :=
    match static with
    | Some f => f n parameters z
    | None => match construct parameters with Ok d => sample d n z | Err e => Err e end
    end.
  (* what a result contains *)
  Definition contents (o : outcome V) : V * option V * option V :=
    match o with
    | Grads g => (g, None, None)
    | GradsSamples g s => (g, Some s, None)
    | GradsFitnesses g f => (g, None, Some f)
    | GradsSamplesFitnesses g s f => (g, Some s, Some f)
    end.
  Definition if_asked (asked : bool) (v : V) : option V := if asked then Some v else None.
  Definition reports (e : estimator V) (g s f : V) (o : outcome V) : Prop :=
    contents o = (g, if_asked (e_return_samples e) s, if_asked (e_return_fitnesses e) f).
  Lemma give_reports e g s f o : give e g s f = o <-> reports e g s f o.
  Proof.
    unfold give, reports, if_asked. destruct (e_return_samples e), (e_return_fitnesses e); cbn;
      (split; [intros <-; reflexivity|]); destruct o; cbn; intros H; try discriminate; congruence.
  Qed.

(* C129: the parameters of an accepted call are exactly what the caller gave, by position or by name, and the fixed ones *)
Theorem C129_sampler : forall required fixed args kwargs,
  required <> [] -> NoDup required -> wf fixed -> wf kwargs -> accepted required args kwargs ->
  exists parameters, means required args kwargs fixed parameters /\
    forall n z, sampler required fixed n args kwargs z = class_sample parameters n z.
Proof.
  intros required fixed args kwargs NE N WF W A.
  destruct (bind_accepted none required args kwargs N W NE A) as (l & E & AS).
  exists (merge (zip_dict required l) fixed). split; [apply assigned_means; auto|].
  intros n z. unfold sampler_call, sampler_sample, class_sample. rewrite E. cbn [bind].
  destruct static; [reflexivity|]. destruct (construct _); reflexivity.
Qed.
(* every other combination of arguments is refused *)
Theorem C129_sampler_rejected : forall required fixed args kwargs,
  NoDup required -> wf kwargs -> ~ accepted required args kwargs ->
  forall n z, sampler required fixed n args kwargs z =
    Err (if Nat.eqb (length args) 0 && Nat.eqb (length kwargs) (length required) then KeyError else TypeError).
Proof. intros required fixed args kwargs N W R n z. unfold sampler_call. rewrite (bind_rejected none required args kwargs N W R). reflexivity. Qed.
(* the order of the keywords does not matter: the same parameters by name, in any order, or by position, give the same samples *)
Theorem C129_sampler_order : forall required fixed args kwargs,
  required <> [] -> NoDup required -> length args = length required -> Permutation kwargs (combine required args) ->
  forall n z, sampler required fixed n [] kwargs z = sampler required fixed n args [] z.
Proof.
  intros required fixed args kwargs NE N L P n z. unfold sampler_call.
  destruct (bind_named none required args kwargs N NE L P) as [-> ->]. reflexivity.
Qed.

(* C130: gradient estimators *)
  Lemma settings_in_force (kw settings params : dict V) name default v : splits kw settings params -> special name ->
    in_force settings name default v -> match lookup name kw with Some s => Some s | None => default end = Some v.
  Proof.
    intros SP S1 F. rewrite (splits_lookup _ _ _ _ SP S1). destruct (splits_wf _ _ _ SP) as [WS _].
    destruct F as [F | [F1 F2]].
    - apply (lookup_some _ _ _ WS) in F. rewrite F; reflexivity.
    - apply lookup_none in F1. rewrite F1; exact F2.
  Qed.
  Lemma estimate_eq e pre args (kw settings params : dict V) sense ranking z : splits kw settings params ->
    in_force settings "objective_sense" (e_sense e) sense -> in_force settings "ranking_method" (Some (e_ranking e)) ranking ->
    e_required e <> [] -> NoDup (e_required e) ->
    (pre = match e_function e with None => 2 | Some _ => 1 end) -> pre <= length args ->
    estimate e args kw z =
      match e_function e, args with
      | None, s :: f :: args => bind (bind_parameters none (e_required e) args params) (fun l => grad_unbound rows count construct compute_gradients e sense ranking s f l)
      | Some h, n :: args => bind (bind_parameters none (e_required e) args params) (fun l => grad_bound construct sample compute_gradients e h sense ranking n l z)
      | _, _ => Err IndexError
      end.
  Proof.
    intros SP FS FR NE N _ _. unfold estimator_call.
    pose proof (settings_in_force _ _ _ _ _ _ SP (or_introl eq_refl) FS) as HS.
    pose proof (settings_in_force _ _ _ _ _ _ SP (or_intror eq_refl) FR) as HR.
    pose proof (filtered kw) as FL.
    destruct (lookup "objective_sense" kw) as [s0|] eqn:E1.
    - injection HS as ->. cbn [bind]. destruct (lookup "ranking_method" kw) as [r0|] eqn:E2; injection HR as ->;
        (unfold param in FL; rewrite FL);
        destruct (splits_wf _ _ _ SP) as [_ WP]; pose proof (splits_filter _ _ _ SP) as PP;
        destruct (e_function e), args as [| a1 [| a2 args]]; try reflexivity;
        (rewrite (bind_perm none (e_required e) _ _ params N NE); [reflexivity| |exact PP]);
        (eapply Permutation_NoDup; [apply Permutation_map; apply Permutation_sym; exact PP|exact WP]).
    - rewrite HS. cbn [bind]. destruct (lookup "ranking_method" kw) as [r0|] eqn:E2; injection HR as ->;
        (unfold param in FL; rewrite FL);
        destruct (splits_wf _ _ _ SP) as [_ WP]; pose proof (splits_filter _ _ _ SP) as PP;
        destruct (e_function e), args as [| a1 [| a2 args]]; try reflexivity;
        (rewrite (bind_perm none (e_required e) _ _ params N NE); [reflexivity| |exact PP]);
        (eapply Permutation_NoDup; [apply Permutation_map; apply Permutation_sym; exact PP|exact WP]).
  Qed.
(* without a function: samples and fitnesses first, then the parameters *)
Theorem C130_unbound : forall e args kwargs settings params sense ranking,
  e_function e = None -> e_required e <> [] -> NoDup (e_required e) -> wf (e_fixed e) ->
  splits kwargs settings params -> accepted (e_required e) args params ->
  in_force settings "objective_sense" (e_sense e) sense -> in_force settings "ranking_method" (Some (e_ranking e)) ranking ->
  exists parameters, means (e_required e) args params (e_fixed e) parameters /\
    forall samples fitnesses z o, estimate e (samples :: fitnesses :: args) kwargs z = Ok o <->
      rows samples = count fitnesses /\
      exists d g, construct parameters = Ok d /\ compute_gradients d samples fitnesses sense ranking = Ok g /\
        reports e g samples fitnesses o.
Proof.
  intros e args kwargs settings params sense ranking EF NE N WF SP A FS FR.
  destruct (splits_wf _ _ _ SP) as [_ WP].
  destruct (bind_accepted none _ _ _ N WP NE A) as (l & E & AS).
  exists (merge (zip_dict (e_required e) l) (e_fixed e)). split; [apply assigned_means; auto|].
  intros samples fitnesses z o.
  rewrite (estimate_eq e 2 _ _ _ _ sense ranking z SP FS FR NE N) by (rewrite ?EF; cbn; auto; lia).
  rewrite EF, E. cbn [bind]. unfold grad_unbound.
  destruct (Nat.eqb_spec (rows samples) (count fitnesses)) as [R|R]; cbn [negb].
  - destruct (construct _) as [d|x] eqn:C; cbn [bind].
    + destruct (compute_gradients d samples fitnesses sense ranking) as [g|x] eqn:G; cbn [bind].
      * split.
        -- intros H; injection H as H. split; auto. exists d, g. repeat split; auto. apply give_reports; auto.
        -- intros (_ & d' & g' & H1 & H2 & H3). injection H1 as <-. rewrite G in H2; injection H2 as <-.
           f_equal. apply give_reports; auto.
      * split; [discriminate|]. intros (_ & d' & g' & H1 & H2 & H3). injection H1 as <-. congruence.
    + split; [discriminate|]. intros (_ & d' & g' & H1 & H2 & H3). congruence.
  - split; [discriminate|]. intros (H & _). congruence.
Qed.
(* with a function: the number of samples first; they are drawn from the distribution and evaluated *)
Theorem C130_bound : forall e h args kwargs settings params sense ranking,
  e_function e = Some h -> e_required e <> [] -> NoDup (e_required e) -> wf (e_fixed e) ->
  splits kwargs settings params -> accepted (e_required e) args params ->
  in_force settings "objective_sense" (e_sense e) sense -> in_force settings "ranking_method" (Some (e_ranking e)) ranking ->
  exists parameters, means (e_required e) args params (e_fixed e) parameters /\
    forall n z o, estimate e (n :: args) kwargs z = Ok o <->
      exists d samples g, construct parameters = Ok d /\ sample d n z = Ok samples /\
        compute_gradients d samples (h samples) sense ranking = Ok g /\ reports e g samples (h samples) o.
Proof.
  intros e h args kwargs settings params sense ranking EF NE N WF SP A FS FR.
  destruct (splits_wf _ _ _ SP) as [_ WP].
  destruct (bind_accepted none _ _ _ N WP NE A) as (l & E & AS).
  exists (merge (zip_dict (e_required e) l) (e_fixed e)). split; [apply assigned_means; auto|].
  intros n z o.
  rewrite (estimate_eq e 1 _ _ _ _ sense ranking z SP FS FR NE N) by (rewrite ?EF; cbn; auto; lia).
  rewrite EF, E. cbn [bind]. unfold grad_bound.
  destruct (construct _) as [d|x] eqn:C; cbn [bind].
  - destruct (sample d n z) as [s|x] eqn:SA; cbn [bind].
    + destruct (compute_gradients d s (h s) sense ranking) as [g|x] eqn:G; cbn [bind].
      * split.
        -- intros H; injection H as H. exists d, s, g. repeat split; auto. apply give_reports; auto.
        -- intros (d' & s' & g' & H1 & H2 & H3 & H4). injection H1 as <-. rewrite SA in H2; injection H2 as <-.
           rewrite G in H3; injection H3 as <-. f_equal. apply give_reports; auto.
      * split; [discriminate|]. intros (d' & s' & g' & H1 & H2 & H3 & H4). injection H1 as <-.
        rewrite SA in H2; injection H2 as <-. congruence.
    + split; [discriminate|]. intros (d' & s' & g' & H1 & H2 & H3 & H4). injection H1 as <-. congruence.
  - split; [discriminate|]. intros (d' & s' & g' & H1 & _). congruence.
Qed.
(* drawing the samples, evaluating them and calling the estimator without a function is calling the one with the function *)
Theorem C130_compose : forall e h args kwargs settings params sense ranking,
  e_function e = Some h -> e_required e <> [] -> NoDup (e_required e) -> wf (e_fixed e) ->
  splits kwargs settings params -> accepted (e_required e) args params ->
  in_force settings "objective_sense" (e_sense e) sense -> in_force settings "ranking_method" (Some (e_ranking e)) ranking ->
  (forall d n z s, sample d n z = Ok s -> count (h s) = rows s) ->
  exists parameters, means (e_required e) args params (e_fixed e) parameters /\
    forall d n z samples z', construct parameters = Ok d -> sample d n z = Ok samples ->
      estimate e (n :: args) kwargs z =
      estimate (mkEst None (e_sense e) (e_required e) (e_fixed e) (e_ranking e) (e_return_samples e) (e_return_fitnesses e))
        (samples :: h samples :: args) kwargs z'.
Proof.
  intros e h args kwargs settings params sense ranking EF NE N WF SP A FS FR HL.
  destruct (splits_wf _ _ _ SP) as [_ WP].
  destruct (bind_accepted none _ _ _ N WP NE A) as (l & E & AS).
  exists (merge (zip_dict (e_required e) l) (e_fixed e)). split; [apply assigned_means; auto|].
  intros d n z samples z' C SA.
  rewrite (estimate_eq e 1 _ _ _ _ sense ranking z SP FS FR NE N) by (rewrite ?EF; cbn; auto; lia).
  match goal with |- _ = estimate ?e' _ _ _ =>
    rewrite (estimate_eq e' 2 _ _ _ _ sense ranking z' SP FS FR NE N) by (cbn; auto; lia) end.
  rewrite EF. cbn [e_function e_required]. rewrite E. cbn [bind]. unfold grad_bound, grad_unbound.
  rewrite (HL _ _ _ _ SA), Nat.eqb_refl. cbn [negb e_required e_fixed]. rewrite C. cbn [bind]. rewrite SA. cbn [bind].
  reflexivity.
Qed.
(* the order of the keywords does not matter, parameters by name are parameters by position *)
Theorem C130_order : forall e first args kwargs settings z sense,
  e_required e <> [] -> NoDup (e_required e) -> (forall k, In k (e_required e) -> ~ special k) -> wf settings ->
  (forall kv, In kv settings -> special (fst kv)) -> in_force settings "objective_sense" (e_sense e) sense ->
  length first = match e_function e with None => 2 | Some _ => 1 end ->
  length args = length (e_required e) -> Permutation kwargs (settings ++ combine (e_required e) args) ->
  estimate e first kwargs z = estimate e (first ++ args) settings z.
Proof.
  intros e first args kwargs settings z sense NE N NS WS SS FS LF LA P.
  assert (W : wf (settings ++ combine (e_required e) args)).
  { unfold wf. rewrite map_app, combine_keys by auto. clear P FS.
    induction settings as [| [k v] settings IH]; cbn; [exact N|]. inversion WS; subst. constructor.
    - intros H; apply in_app_or in H. destruct H as [H | H]; [auto|]. apply (NS k H). apply (SS (k, v)); left; auto.
    - apply IH; auto. intros kv H; apply SS; right; auto. }
  assert (NP : forall kv, In kv (combine (e_required e) args) -> ~ special (fst kv)).
  { intros [k v] H. apply in_combine_l in H. apply NS; auto. }
  assert (SP : splits kwargs settings (combine (e_required e) args)).
  { split; [unfold wf in *; eapply Permutation_NoDup; [apply Permutation_map, Permutation_sym; exact P|exact W]|]. auto. }
  assert (SP' : splits settings settings []).
  { split; auto. rewrite app_nil_r. split; [apply Permutation_refl|]. split; auto. }
  assert (FR : exists r, in_force settings "ranking_method" (Some (e_ranking e)) r).
  { destruct (lookup "ranking_method" settings) as [r|] eqn:L.
    - exists r. left. apply lookup_some; auto.
    - exists (e_ranking e). right. split; auto. apply lookup_none; auto. }
  destruct FR as [r FR].
  rewrite (estimate_eq e _ _ _ _ _ sense r z SP FS FR NE N eq_refl) by lia.
  rewrite (estimate_eq e _ _ _ _ _ sense r z SP' FS FR NE N eq_refl) by (rewrite app_length; lia).
  destruct (bind_named none (e_required e) args _ N NE LA (Permutation_refl _)) as [B1 B2].
  destruct (e_function e).
  - destruct first as [| n [|]]; try discriminate. cbn [app]. rewrite B1, B2; reflexivity.
  - destruct first as [| s [| f [|]]]; try discriminate. cbn [app]. rewrite B1, B2; reflexivity.
Qed.
(* refused: no objective sense anywhere, or parameters given in any other way *)
Theorem C130_rejected : forall e args kwargs settings params,
  e_required e <> [] -> NoDup (e_required e) -> splits kwargs settings params ->
  (~ In "objective_sense"%string (map fst settings) -> e_sense e = None -> forall z, estimate e args kwargs z = Err ValueError) /\
  (forall first sense ranking z, in_force settings "objective_sense" (e_sense e) sense ->
     in_force settings "ranking_method" (Some (e_ranking e)) ranking ->
     length first = match e_function e with None => 2 | Some _ => 1 end ->
     ~ accepted (e_required e) args params ->
     estimate e (first ++ args) kwargs z =
       Err (if Nat.eqb (length args) 0 && Nat.eqb (length params) (length (e_required e)) then KeyError else TypeError)).
Proof.
  intros e args kwargs settings params NE N SP. split.
  - intros H1 H2 z. unfold estimator_call. rewrite (splits_lookup _ _ _ _ SP (or_introl eq_refl)).
    apply lookup_none in H1. rewrite H1, H2. reflexivity.
  - intros first sense ranking z FS FR LF R. destruct (splits_wf _ _ _ SP) as [_ WP].
    rewrite (estimate_eq e _ _ _ _ _ sense ranking z SP FS FR NE N eq_refl) by (rewrite app_length; lia).
    pose proof (bind_rejected none _ _ _ N WP R) as B.
    destruct (e_function e).
    + destruct first as [| n [|]]; try discriminate. cbn [app]. rewrite B; reflexivity.
    + destruct first as [| s [| f [|]]]; try discriminate. cbn [app]. rewrite B; reflexivity.
Qed.
(* an empty list of required parameters is refused at construction; otherwise the settings are kept *)
Theorem C130_construction : forall function sense required fixed ranking rs rf,
  (required = [] -> make_sampler required = Err TypeError /\
     make_estimator (V := V) function sense required fixed ranking rs rf = Err TypeError) /\
  (required <> [] -> make_sampler required = Ok tt /\
     exists e, make_estimator function sense required fixed ranking rs rf = Ok e /\ e_function e = function /\ e_sense e = sense /\
       e_required e = required /\ e_fixed e = fixed /\ e_ranking e = ranking /\ e_return_samples e = rs /\ e_return_fitnesses e = rf).
Proof.
  intros. unfold make_sampler, make_estimator. destruct required as [| x l]; cbn [length Nat.eqb].
  - split; [auto|congruence].
  - split; [discriminate|]. intros _. split; auto. eexists; split; [reflexivity|]. repeat split.
Qed.
End Calls.
Print Assumptions C129_sampler.
Print Assumptions C129_sampler_rejected.
Print Assumptions C129_sampler_order.
Print Assumptions C130_unbound.
Print Assumptions C130_bound.
Print Assumptions C130_compose.
Print Assumptions C130_order.
Print Assumptions C130_rejected.
Print Assumptions C130_construction.
(* concrete calls: V = Z; the "distribution" is its dictionary, sampling and gradients combine the parameters *)
Definition toy_get (k : string) (d : dict Z) : Z := match lookup k d with Some v => v | None => 0%Z end.
Definition toy_sample (d : dict Z) (n : Z) (z : Z) : result Z := Ok (toy_get "mu" d * 100 + toy_get "sigma" d * 10 + n + z)%Z.
Definition toy_call (fixed : dict Z) (args : list Z) (kwargs : dict Z) : result Z :=
  sampler_call 0%Z (fun d => Ok d) toy_sample None ["mu"; "sigma"]%string fixed 4%Z args kwargs 0%Z.
Example C129_example : toy_call [] [7; 2]%Z [] = Ok 724%Z /\ toy_call [] [] [("sigma", 2); ("mu", 7)]%string%Z = Ok 724%Z /\
  toy_call [] [7]%Z [("sigma", 2)]%string%Z = Err TypeError /\ toy_call [] [] [("sigma", 2); ("nu", 7)]%string%Z = Err KeyError /\
  toy_call [("sigma", 5)]%string%Z [7; 2]%Z [] = Ok 754%Z.
Proof. repeat split. Qed.
Definition toy_gradients (d : dict Z) (s f sense ranking : Z) : result Z := Ok (toy_get "mu" d + s * f * sense + ranking)%Z.
Definition toy_estimate (function : option (Z -> Z)) (args : list Z) (kwargs : dict Z) : result (outcome Z) :=
  estimator_call 0%Z (fun _ => 3) (fun _ => 3) (fun d => Ok d) toy_sample toy_gradients
    (mkEst function (Some 1%Z) ["mu"; "sigma"]%string [] 0%Z true false) args kwargs 0%Z.
Example C130_example :
  toy_estimate (Some (fun s => s + 1)%Z) [4]%Z [("ranking_method", 9); ("sigma", 2); ("objective_sense", -1); ("mu", 7)]%string%Z =
    Ok (GradsSamples (7 - 724 * 725 + 9)%Z 724%Z) /\
  toy_estimate None [724; 725]%Z [("ranking_method", 9); ("sigma", 2); ("objective_sense", -1); ("mu", 7)]%string%Z =
    Ok (GradsSamples (7 - 724 * 725 + 9)%Z 724%Z).
Proof. split; reflexivity. Qed.

(* C131: what describes a separable Gaussian *)
Definition described (mandatory optional : list string) (parameters : dict value) (mu sigma : row) : Prop :=
  In ("mu"%string, PVec mu) parameters /\ In ("sigma"%string, PVec sigma) parameters /\ length mu = length sigma /\
  forall k, In k (map fst parameters) -> In k mandatory \/ In k optional.
Lemma known_forallb mandatory optional (parameters : dict value) :
  forallb (fun kv => existsb (String.eqb (fst kv)) mandatory || existsb (String.eqb (fst kv)) optional) parameters = true <->
  (forall k, In k (map fst parameters) -> In k mandatory \/ In k optional).
Proof.
  assert (X : forall k l, existsb (String.eqb k) l = true <-> In k l).
  { intros k l. rewrite existsb_exists. split; [intros (y & H & E); apply String.eqb_eq in E; subst; auto|].
    intros H; exists k; split; auto; apply String.eqb_refl. }
  rewrite forallb_forall. split.
  - intros H k I1. apply in_map_iff in I1. destruct I1 as (kv & <- & I1). specialize (H kv I1).
    apply orb_true_iff in H. rewrite !X in H. auto.
  - intros H kv I1. apply orb_true_iff. rewrite !X. apply H. apply in_map; auto.
Qed.
Lemma vector_ok k (parameters : dict value) v : wf parameters -> vector k parameters = Ok v <-> In (k, PVec v) parameters.
Proof.
  intros W. rewrite <- (lookup_some _ _ _ W). unfold vector. destruct (lookup k parameters) as [[]|]; split; intros H; try discriminate; congruence.
Qed.
(* the mandatory parameters are mu and sigma *)
Lemma mandatory_count (parameters : dict value) (mandatory : list string) : NoDup mandatory -> wf parameters ->
  (forall k, In k mandatory -> In k (map fst parameters)) ->
  length mandatory <= length (filter (fun kv => existsb (String.eqb (fst kv)) mandatory) parameters).
Proof.
  intros N W H. rewrite <- (map_length fst). apply NoDup_incl_length; auto. intros k I1.
  specialize (H k I1). apply in_map_iff in H. destruct H as (kv & E & I2). apply in_map_iff. exists kv. split; auto.
  apply filter_In. split; auto. apply existsb_exists. exists k. split; auto. apply String.eqb_eq; auto.
Qed.
Theorem C131_class : forall optional parameters mu sigma, wf parameters ->
  (separable_init ["mu"; "sigma"]%string optional parameters = Ok (mu, sigma) <->
   described ["mu"; "sigma"]%string optional parameters mu sigma).
Proof.
  intros optional parameters mu sigma W. unfold separable_init, described. split.
  - intros H. destruct (vector "mu" parameters) as [m|] eqn:E1; [|discriminate].
    destruct (vector "sigma" parameters) as [s|] eqn:E2; [|discriminate]. cbn [bind] in H.
    destruct (Nat.eqb_spec (length m) (length s)) as [L|]; [|discriminate]. cbn [negb] in H.
    unfold check_correctness in H. destruct (forallb _ parameters) eqn:F; [|discriminate].
    destruct (Nat.ltb _ _); [discriminate|]. cbn [bind] in H. injection H as <- <-.
    apply (vector_ok _ _ _ W) in E1. apply (vector_ok _ _ _ W) in E2. pose proof (proj1 (known_forallb _ _ _) F). auto.
  - intros (A & B & L & K). apply (vector_ok _ _ _ W) in A as A'. apply (vector_ok _ _ _ W) in B as B'.
    rewrite A', B'. cbn [bind]. rewrite L, Nat.eqb_refl. cbn [negb]. unfold check_correctness.
    apply known_forallb in K. rewrite K.
    assert (C : length ["mu"; "sigma"]%string <= length (filter (fun kv => existsb (String.eqb (fst kv)) ["mu"; "sigma"]%string) parameters)).
    { apply mandatory_count; auto.
      - repeat constructor; cbn; intuition discriminate.
      - intros k [<- | [<- | []]]; [apply (in_map fst) in A | apply (in_map fst) in B]; auto. }
    apply Nat.ltb_ge in C. rewrite C. reflexivity.
Qed.
Print Assumptions C131_class.
(* the static sampler of the class answers for exactly the same parameters, except that a symmetric one needs an even number,
   and gives the rows that an instance gives *)
Definition same_rows (a b : list row) : Prop := Forall2 (Forall2 Qeq) a b.
Lemma row_refl (r : row) : Forall2 Qeq r r.
Proof. induction r; constructor; auto. reflexivity. Qed.
Lemma rows_refl (l : list row) : same_rows l l.
Proof. induction l; constructor; auto. apply row_refl. Qed.
Lemma vneg_scale (z s c : row) : Forall2 Qeq (vadd (vneg (vmul z s)) c) (vadd (vmul (vneg z) s) c).
Proof.
  unfold vadd, vneg, vmul. revert s c; induction z as [| a z IH]; intros [| b s] [| d c]; cbn; try constructor; auto. ring.
Qed.
Theorem C131_static : forall symmetric optional parameters n noise, wf parameters ->
  (forall mu sigma, described ["mu"; "sigma"]%string optional parameters mu sigma -> symmetric = true -> Nat.even n = false ->
     static_sample symmetric ["mu"; "sigma"]%string optional n parameters noise = Err ValueError /\
     sample_rows symmetric (mu, sigma) n noise = Err ValueError) /\
  (forall mu sigma, described ["mu"; "sigma"]%string optional parameters mu sigma -> symmetric = false \/ Nat.even n = true ->
     exists a b, static_sample symmetric ["mu"; "sigma"]%string optional n parameters noise = Ok a /\
       sample_rows symmetric (mu, sigma) n noise = Ok b /\ length a = n /\ same_rows a b) /\
  ((forall mu sigma, ~ described ["mu"; "sigma"]%string optional parameters mu sigma) ->
     (exists e, separable_init ["mu"; "sigma"]%string optional parameters = Err e) /\
     (exists e, static_sample symmetric ["mu"; "sigma"]%string optional n parameters noise = Err e)).
Proof.
  intros symmetric optional parameters n noise W. split; [|split].
  - intros mu sigma (A & B & L & K) -> EV. apply known_forallb in K. unfold static_sample. rewrite K.
    apply (vector_ok _ _ _ W) in A. apply (vector_ok _ _ _ W) in B. rewrite A, B. cbn [bind].
    unfold sample_rows, make_gaussian, Nat.odd. rewrite EV. auto.
  - intros mu sigma (A & B & L & K) EV. apply known_forallb in K. unfold static_sample. rewrite K.
    apply (vector_ok _ _ _ W) in A. apply (vector_ok _ _ _ W) in B. rewrite A, B. cbn [bind].
    rewrite L, Nat.eqb_refl. cbn [negb]. destruct symmetric.
    + destruct EV as [EV | EV]; [discriminate|]. unfold Nat.odd. rewrite EV. cbn [negb].
      unfold RandModel.functional_sample, Nat.odd. rewrite EV. cbn [negb].
      change (sample_rows true (mu, sigma) n noise) with (symmetric_fill n mu sigma noise).
      rewrite (symmetric_fill_eq n mu sigma noise EV). eexists; eexists. split; [reflexivity|]. split; [reflexivity|].
      rewrite map_map. rewrite !map_map.
      assert (G : forall l : list nat, same_rows (interleave (map (fun x => vadd (vmul (noise x) sigma) mu) l) (map (fun x => vadd (vneg (vmul (noise x) sigma)) mu) l))
                  (flat_map (fun z => [up mu sigma z; down mu sigma z]) (map noise l)) /\
                  length (interleave (map (fun x => vadd (vmul (noise x) sigma) mu) l) (map (fun x => vadd (vneg (vmul (noise x) sigma)) mu) l)) = 2 * length l).
      { induction l as [| x l [IH1 IH2]]; cbn; split; auto; try constructor.
        - apply row_refl.
        - constructor; [|exact IH1]. apply vneg_scale.
        - rewrite IH2. lia. }
      destruct (G (seq 0 (n / 2))) as [G1 G2]. split; [|exact G1].
      etransitivity; [exact G2|]. rewrite seq_length. apply Nat.even_spec in EV. destruct EV as [m ->].
      replace (2 * m) with (m * 2) by lia. rewrite Nat.div_mul by lia. lia.
    + eexists; eexists. split; [reflexivity|]. split; [reflexivity|]. rewrite map_map. split; [rewrite map_length, seq_length; auto|apply rows_refl].
  - intros H. split.
    + destruct (separable_init _ _ _) as [[mu sigma]|e] eqn:E; [|eauto]. apply C131_class in E; auto. exfalso; eapply H; eauto.
    + unfold static_sample. destruct (forallb _ parameters) eqn:K; [|eauto].
      destruct (vector "mu" parameters) as [mu|] eqn:E1; [|cbn; eauto]. destruct (vector "sigma" parameters) as [sigma|] eqn:E2; [|cbn; eauto].
      cbn [bind]. destruct (Nat.eqb_spec (length mu) (length sigma)) as [L|L].
      * exfalso. apply (H mu sigma). apply (vector_ok _ _ _ W) in E1. apply (vector_ok _ _ _ W) in E2. pose proof (proj1 (known_forallb _ _ _) K).
        repeat split; auto.
      * cbn [negb]. destruct symmetric; [|eauto]. destruct (Nat.odd n); eauto.
Qed.
Print Assumptions C131_static.
Definition C131_parameters : dict value := [("sigma", PVec [2; 1]%Q); ("mu", PVec [5; 7]%Q); ("parenthood_ratio", PNum (1 # 2))]%string.
Example C131_example : described ["mu"; "sigma"]%string ["parenthood_ratio"]%string C131_parameters [5; 7]%Q [2; 1]%Q /\
  static_sample true ["mu"; "sigma"]%string ["parenthood_ratio"]%string 2 C131_parameters (fun _ => [1; 3]%Q) = Ok [[7; 10]; [3; 4]]%Q.
Proof.
  split; [|reflexivity]. unfold described, C131_parameters. cbn. repeat split; auto 6.
  intros k [<- | [<- | [<- | []]]]; auto.
Qed.

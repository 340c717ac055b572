(* Properties of making vectorized environments, of brax environments, and of info dictionaries on a device. *)
From Coq Require Import String Ascii QArith Lqa.
From Verif Require Import Prelude SpaceModel SpaceSpec SpaceProps VecModel VecSpec.
Close Scope Q_scope.
Open Scope nat_scope.

(* ---- strings ---- *)
Lemma starts_with_iff p s r : starts_with p s = Some r <-> s = (p ++ r)%string.
Proof.
  revert s. induction p as [|a p IH]; intros s; cbn [starts_with append].
  - split; congruence.
  - destruct s as [|b s]; [split; discriminate|]. destruct (Ascii.eqb_spec a b) as [->|N].
    + rewrite IH. split; congruence.
    + split; [discriminate|congruence].
Qed.
Lemma starts_with_none p s : starts_with p s = None <-> forall r, s <> (p ++ r)%string.
Proof.
  split.
  - intros H r E. apply starts_with_iff in E. congruence.
  - intros H. destruct (starts_with p s) as [r|] eqn:E; [|reflexivity]. apply starts_with_iff in E. exfalso. eapply H; eauto.
Qed.
Lemma split_name_none s : split_name s = None <-> no_sep s.
Proof.
  unfold no_sep. induction s as [|c s IH]; cbn [split_name].
  - split; [intros _ [|a x] y; discriminate|reflexivity].
  - destruct (starts_with "::" (String c s)) as [r|] eqn:E.
    + apply starts_with_iff in E. split; [discriminate|]. intros H. exfalso. exact (H EmptyString r E).
    + assert (N := E). rewrite starts_with_none in N. destruct (split_name s) as [[x y]|] eqn:Q.
      * split; [discriminate|]. intros H. assert (K : Some (x, y) = None); [|discriminate]. apply IH. intros a b Hab. apply (H (String c a) b). cbn. rewrite Hab. reflexivity.
      * split; [|reflexivity]. intros _ [|a x] b Hab; [apply (N b); exact Hab|]. cbn [append] in Hab. injection Hab as _ Hab. exact (proj1 IH eq_refl _ _ Hab).
Qed.
Lemma split_name_some s a b : split_name s = Some (a, b) <-> first_sep s a b.
Proof.
  unfold first_sep. revert a b. induction s as [|c s IH]; intros a b; cbn [split_name].
  - split; [discriminate|]. intros [H _]. destruct a; discriminate.
  - destruct (starts_with "::" (String c s)) as [r|] eqn:E.
    + apply starts_with_iff in E. split.
      * intros H. injection H as <- <-. split; [exact E|]. intros; cbn; lia.
      * intros [H M]. pose proof (M EmptyString r E) as L. destruct a as [|x a]; [|cbn in L; lia]. cbn [append] in H. rewrite H in E. cbn in E. injection E as <-. reflexivity.
    + assert (N := E). rewrite starts_with_none in N. destruct (split_name s) as [[x y]|] eqn:Q.
      * destruct (proj1 (IH x y) eq_refl) as [H1 H2]. split.
        { intros H. injection H as <- <-. split; [cbn [append] in *; rewrite H1; reflexivity|]. intros [|a' u] b' Hb; [exfalso; apply (N b'); exact Hb|].
          cbn [append] in Hb. injection Hb as _ Hb. cbn. apply H2 in Hb. lia. }
        { intros [H M]. destruct a as [|z a]; [exfalso; apply (N b); exact H|]. cbn [append] in H. injection H as <- H.
          assert (K : Some (x, y) = Some (a, b)); [|injection K as -> ->; reflexivity]. apply IH. split; [exact H|].
          intros a' b' Hb. specialize (M (String c a') b'). cbn in M. rewrite Hb in M. specialize (M eq_refl). lia. }
      * split; [discriminate|]. intros [H M]. destruct a as [|z a]; [exfalso; apply (N b); exact H|]. cbn [append] in H. injection H as <- H.
        assert (K : no_sep s) by (apply split_name_none; exact Q). exfalso. apply (K a b H).
Qed.

(* ---- dictionaries ---- *)
Lemma kget_kset d k v k' : kget (kset d k v) k' = if String.eqb k' k then Some v else kget d k'.
Proof.
  induction d as [|[a x] d IH]; cbn [kset kget].
  - reflexivity.
  - destruct (String.eqb_spec k a) as [->|N]; cbn [kget].
    + destruct (String.eqb_spec k' a); reflexivity.
    + rewrite IH. destruct (String.eqb_spec k' a) as [->|]; [|reflexivity]. destruct (String.eqb_spec a k) as [->|]; [congruence|reflexivity].
Qed.
Lemma kget_none d k : kget d k = None <-> ~ In k (map fst d).
Proof.
  induction d as [|[a x] d IH]; cbn [kget map In fst].
  - tauto.
  - destruct (String.eqb_spec k a) as [->|N]; [split; [discriminate|tauto]|]. rewrite IH. split; intros H; [intros [E|E]; [congruence|auto]|tauto].
Qed.
Lemma kget_in d k v : dict_of d -> kget d k = Some v <-> In (k, v) d.
Proof.
  unfold dict_of. induction d as [|[a x] d IH]; cbn [kget map In fst]; intros ND; [split; [discriminate|tauto]|].
  apply NoDup_cons_iff in ND. destruct ND as [Na ND]. destruct (String.eqb_spec k a) as [->|N].
  - split; [intros H; injection H as <-; auto|]. intros [H|H]; [congruence|]. exfalso. apply Na. apply in_map_iff. exists (a, v). auto.
  - rewrite (IH ND). split; [auto|intros [H|H]; [congruence|auto]].
Qed.
Lemma keys_kset d k v : dict_of d -> dict_of (kset d k v).
Proof.
  unfold dict_of. induction d as [|[a x] d IH]; cbn [kset map fst]; intros ND; [repeat constructor; auto|].
  apply NoDup_cons_iff in ND. destruct ND as [Na ND]. destruct (String.eqb_spec k a) as [->|N]; cbn [map fst]; constructor; auto.
  intros H. apply kget_none in H; auto. rewrite kget_kset. destruct (String.eqb_spec a k); [congruence|]. apply kget_none. exact Na.
Qed.
Lemma kget_kupdate e : forall d k, dict_of e -> kget (kupdate d e) k = value d e k.
Proof.
  unfold kupdate, value, dict_of. induction e as [|[a x] e IH]; cbn [fold_left map fst snd kget]; intros d k ND; [reflexivity|].
  apply NoDup_cons_iff in ND. destruct ND as [Na ND]. rewrite IH by auto. rewrite kget_kset. destruct (String.eqb_spec k a) as [->|N].
  - apply kget_none in Na. rewrite Na. reflexivity.
  - reflexivity.
Qed.
Lemma keys_kupdate e : forall d, dict_of d -> dict_of (kupdate d e).
Proof. unfold kupdate. induction e as [|[a x] e IH]; cbn [fold_left]; intros d D; auto. apply IH. apply keys_kset. exact D. Qed.
Lemma among_In l k : among l k = true <-> In k l.
Proof. unfold among. rewrite existsb_exists. split; [intros (x & H & E); apply String.eqb_eq in E; subst; auto|]. intros H. exists k. split; auto. apply String.eqb_refl. Qed.
Lemma among_false l k : among l k = false <-> ~ In k l.
Proof. rewrite <- among_In. destruct (among l k); split; congruence. Qed.
Lemma kget_without names d k : kget (without names d) k = if among names k then None else kget d k.
Proof.
  unfold without. induction d as [|[a x] d IH]; cbn [filter kget fst].
  - destruct (among names k); reflexivity.
  - destruct (among names a) eqn:E; cbn [negb kget]; rewrite IH; destruct (String.eqb_spec k a) as [->|]; try rewrite E; try reflexivity.
Qed.
Lemma common_check d : existsb (fun kv : string * val => among common_names (fst kv)) d = false <-> common_free d.
Proof.
  unfold common_free. split.
  - intros H key Hk. apply kget_none. intros I. apply in_map_iff in I. destruct I as ((a & x) & <- & I).
    assert (K : existsb (fun kv : string * val => among common_names (fst kv)) d = true) by (apply existsb_exists; exists (a, x); split; [auto|apply among_In; auto]).
    congruence.
  - intros H. destruct (existsb _ d) eqn:E; [|reflexivity]. apply existsb_exists in E. destruct E as ((a & x) & I & A). apply among_In in A. cbn [fst] in A.
    apply H in A. apply kget_none in A. exfalso. apply A. apply in_map_iff. exists (a, x). auto.
Qed.
Lemma absent_given v : given v = false <-> absent v.
Proof. unfold absent. destruct v as [[]|]; cbn; split; intros H; auto; try discriminate; destruct H; discriminate. Qed.

(* ------------------------------------------------------------------------------- C178 *)
Lemma gym_split name rest : gym_name name rest -> split_name name = None /\ rest = name \/ split_name name = Some ("gym"%string, rest).
Proof. intros [[H ->]|H]; [left; split; auto; apply split_name_none; auto|right; apply split_name_some; auto]. Qed.
Lemma gym_call name rest m c g b k : gym_name name rest ->
  make_vector_env name m c g b k = call make_gym_env rest m c (kupdate k (match g with Some d => d | None => [] end)).
Proof. intros H. apply gym_split in H. unfold make_vector_env. destruct H as [[-> ->]| ->]; reflexivity. Qed.
Lemma gym_prefix n : first_sep ("gym::" ++ n) "gym" n.
Proof. apply split_name_some. reflexivity. Qed.
(* the name alone means the same as the name with the prefix gym:: *)
Theorem C178_default_registry : forall name num_envs c g b k, no_sep name ->
  make_vector_env ("gym::" ++ name) num_envs c g b k = make_vector_env name num_envs c g b k.
Proof. intros. rewrite !(gym_call _ name); auto; [left; auto|right; apply gym_prefix]. Qed.
Theorem C178_unknown_registry : forall name registry rest num_envs c g b k, first_sep name registry rest ->
  registry <> "gym"%string -> registry <> "brax"%string -> make_vector_env name num_envs c g b k = Err ValueError.
Proof.
  intros name r rest m c g b k H N1 N2. apply split_name_some in H. unfold make_vector_env. rewrite H.
  destruct (String.eqb_spec r "gym"); [congruence|]. destruct (String.eqb_spec r "brax"); [congruence|]. reflexivity.
Qed.
(* keyword arguments for the other kind of environment do not matter *)
Theorem C178_other_kwargs : forall name rest num_envs c g b b' k,
  (gym_name name rest -> make_vector_env name num_envs c g b k = make_vector_env name num_envs c g b' k) /\
  (first_sep name "brax" rest -> make_vector_env name num_envs c b g k = make_vector_env name num_envs c b' g k).
Proof.
  intros. split; intros H.
  - rewrite !(gym_call _ rest) by auto. reflexivity.
  - apply split_name_some in H. unfold make_vector_env. rewrite H. reflexivity.
Qed.
Lemma make_gym_ok rest m c d e c' : make_gym_env rest m c d = Ok (e, c') -> c' = c /\ gym_made rest (kget d) m e.
Proof.
  unfold make_gym_env. set (args := without own_names d).
  assert (P : passed (kget d) args) by (intros key; unfold args; rewrite kget_without; split; intros K; [apply among_In in K|apply among_false in K]; rewrite K; reflexivity).
  destruct m as [m|].
  - unfold sync_vec. destruct (repeat (rest, args) m) as [|x l] eqn:R; [discriminate|].
    assert (M : 1 <= m) by (destruct m; [discriminate|lia]). rewrite <- R.
    assert (E : forall n, (if given (kget d "num_episodes") then match kget d "num_episodes" with Some v => bind (VecModel.py_int v) (fun n => if (n <=? 0)%Z then Err ValueError else Ok (Some n)) | None => Ok None end else Ok None) = Ok n -> episodes (kget d "num_episodes") n).
    { intros n. destruct (given (kget d "num_episodes")) eqn:G.
      - destruct (kget d "num_episodes") as [v|]; [|discriminate]. destruct (VecModel.py_int v) as [z|] eqn:Z0; [|discriminate]. cbn [bind].
        destruct (Z.leb_spec z 0); [discriminate|]. intros Q. injection Q as <-. right. exists v, z. repeat split; auto; try lia. intros ->. discriminate.
      - intros Q. injection Q as <-. left. split; [apply absent_given; auto|reflexivity]. }
    destruct (if given (kget d "num_episodes") then _ else _) as [n|]; [|discriminate]. cbn [bind]. intros H. injection H as <- <-. split; [reflexivity|].
    apply made_vector; auto; [reflexivity|]. destruct (given (kget d "device")) eqn:G.
    + right. split; [|reflexivity]. rewrite <- absent_given. congruence.
    + left. split; [apply absent_given; auto|reflexivity].
  - destruct (match kget d "empty_info" with Some v => truth v | None => false end) eqn:F; [discriminate|].
    destruct (given (kget d "num_episodes")) eqn:G; [discriminate|]. destruct (given (kget d "device")) eqn:G2; [discriminate|].
    cbn [bind]. intros H. injection H as <- <-. split; [reflexivity|]. apply made_single; auto; try (apply absent_given; auto). unfold flag. auto.
Qed.
Lemma make_gym_accepts rest m c d e : gym_made rest (kget d) m e -> exists e', make_gym_env rest m c d = Ok (e', c).
Proof.
  unfold make_gym_env. intros H. destruct H as [args P F A B|m args b n dv M P F E D].
  - unfold flag in F. rewrite <- F. apply absent_given in A. apply absent_given in B. rewrite A, B. cbn. eauto.
  - unfold sync_vec. destruct m as [|m]; [lia|]. cbn [repeat]. destruct E as [[A ->]|(x & z & E1 & E2 & E3 & E4 & ->)].
    + apply absent_given in A. rewrite A. cbn. eauto.
    + rewrite E1, E3. destruct (given (Some x)); cbn [bind]; eauto. destruct (Z.leb_spec z 0); [lia|]. cbn. eauto.
Qed.
Lemma gym_made_ext rest v w m e : (forall key, v key = w key) -> gym_made rest v m e -> gym_made rest w m e.
Proof.
  intros V H. destruct H as [args P F A B|m args b n dv M P F E D].
  - apply made_single; try (rewrite <- V; auto). intros key. destruct (P key). split; auto. intros K. rewrite <- V. auto.
  - apply made_vector; auto; try (rewrite <- V; auto). intros key. destruct (P key). split; auto. intros K. rewrite <- V. auto.
Qed.
Lemma common_value k g : dict_of g -> common_free (kupdate k g) <-> common_free k /\ common_free g.
Proof.
  unfold common_free. intros D. split.
  - intros H. split; intros key Hk; specialize (H key Hk); rewrite kget_kupdate in H by auto; unfold value in H; destruct (kget g key); auto; discriminate.
  - intros [H1 H2] key Hk. rewrite kget_kupdate by auto. unfold value. rewrite (H2 key Hk). auto.
Qed.
(* what is made of an environment of gymnasium, and when *)
Theorem C178_gym : forall name rest num_envs c g b k, gym_name name rest -> dict_of g ->
  (forall e c', make_vector_env name num_envs c (Some g) b k = Ok (e, c') ->
     c' = c /\ common_free k /\ common_free g /\ gym_made rest (value k g) num_envs e) /\
  (forall e, common_free k -> common_free g -> gym_made rest (value k g) num_envs e ->
     exists e', make_vector_env name num_envs c (Some g) b k = Ok (e', c)) /\
  make_vector_env name num_envs c None b k = make_vector_env name num_envs c (Some []) b k.
Proof.
  intros name rest m c g b k H D. rewrite !(gym_call _ rest) by auto. unfold call. split; [|split].
  - intros e c'. destruct (existsb _ (kupdate k g)) eqn:E; [discriminate|]. intros M.
    apply common_check in E. apply common_value in E; auto. destruct E as [E1 E2]. apply make_gym_ok in M. destruct M as [-> M].
    repeat split; auto. eapply gym_made_ext; [|exact M]. intros key. apply kget_kupdate. exact D.
  - intros e E1 E2 M.
    assert (E : common_free (kupdate k g)) by (apply common_value; auto). apply common_check in E. rewrite E.
    eapply make_gym_accepts. eapply gym_made_ext; [|exact M]. intros key. symmetry. apply kget_kupdate. exact D.
  - reflexivity.
Qed.
Print Assumptions C178_default_registry.
Print Assumptions C178_unknown_registry.
Print Assumptions C178_other_kwargs.
Print Assumptions C178_gym.
Example C178_example :
  let c := mkC false true false in
  gym_name "Humanoid-v4" "Humanoid-v4" /\
  make_vector_env "gym::Humanoid-v4" (Some 2) c (Some [("a", VInt 3); ("device", VObj 0)]%string) (Some [("z", VInt 9)]%string) [("a", VInt 1); ("b", VNone)]%string
  = Ok (SyncVec (repeat ("Humanoid-v4"%string, [("a", VInt 3); ("b", VNone)]%string) 2) false None (Some (VObj 0)), c) /\
  make_vector_env "Humanoid-v4" None c None None [("num_episodes", VInt 5)]%string = Err ValueError /\
  make_vector_env "zoo::x" None c None None [] = Err ValueError.
Proof. repeat split. left. split; [|reflexivity]. apply split_name_none. reflexivity. Qed.

(* ------------------------------------------------------------------------------- C179 *)
Definition num_names := ["batch_size"; "num_envs"]%string.
Definition reset_names := ["autoreset"; "auto_reset"]%string.
Definition sub (names : list string) (k : kwargs) : kwargs := filter (fun kv => among names (fst kv)) k.
Definition scanned (k : kwargs) (n0 : option Z) (a0 : option bool) (n : option Z) (a : option bool) : Prop :=
  (match sub num_names k with
   | [] => n = n0
   | [(_, v)] => n0 = None /\ exists z, VecModel.py_int v = Ok z /\ n = Some z
   | _ => False
   end) /\
  (match sub reset_names k with
   | [] => a = a0
   | [(_, v)] => a0 = None /\ a = Some (truth v)
   | _ => False
   end).
Lemma disjoint_names key : among num_names key = true -> among reset_names key = false.
Proof. intros H. apply among_In in H. cbn in H. destruct H as [<-|[<-|[]]]; reflexivity. Qed.
Lemma scan_iff k : forall n0 a0 n a, scan_kwargs k n0 a0 = Ok (n, a) <-> scanned k n0 a0 n a.
Proof.
  unfold scanned. induction k as [|[key v] k IH]; intros n0 a0 n a; cbn [scan_kwargs sub filter fst].
  - split; [intros H; injection H as <- <-; auto|intros [-> ->]; reflexivity].
  - fold num_names. fold reset_names. destruct (among num_names key) eqn:E1.
    + rewrite (disjoint_names _ E1). fold (sub num_names k). fold (sub reset_names k). destruct n0 as [z0|].
      * split; [discriminate|]. intros [H _]. destruct (sub num_names k); [|contradiction]. destruct H; discriminate.
      * destruct (VecModel.py_int v) as [z|] eqn:Z0; cbn [bind].
        { rewrite IH. destruct (sub num_names k) as [|[k1 v1] [|]] eqn:Q.
          - split; intros [H1 H2]; (split; [|exact H2]); [split; [reflexivity|]; exists z; auto|]. destruct H1 as (_ & z' & Q1 & ->). congruence.
          - split; [intros [[H1 _] _]; discriminate|intros [[] _]].
          - split; intros [[] _]. }
        { split; [discriminate|]. intros [H _]. destruct (sub num_names k) as [|]; [|contradiction]. destruct H as (_ & z & Q & _). congruence. }
    + destruct (among reset_names key) eqn:E2; fold (sub num_names k); fold (sub reset_names k).
      * destruct a0 as [b0|].
        { split; [discriminate|]. intros [_ H]. destruct (sub reset_names k); [|contradiction]. destruct H; discriminate. }
        { rewrite IH. destruct (sub reset_names k) as [|[k1 v1] [|]] eqn:Q.
          - split; intros [H1 H2]; (split; [exact H1|]); [auto|]. destruct H2 as [_ ->]. reflexivity.
          - split; [intros [_ [H _]]; discriminate|intros [_ []]].
          - split; intros [_ []]. }
      * rewrite IH. reflexivity.
Qed.
(* the part of a dictionary with two given keys *)
Lemma sub_two x y d : dict_of d -> x <> y ->
  match sub [x; y] d with
  | [] => kget d x = None /\ kget d y = None
  | [(key, v)] => (key = x /\ kget d x = Some v /\ kget d y = None) \/ (key = y /\ kget d y = Some v /\ kget d x = None)
  | _ => kget d x <> None /\ kget d y <> None
  end.
Proof.
  unfold dict_of. intros ND N. induction d as [|[a v] d IH]; [cbn; auto|]. cbn [map fst] in ND. apply NoDup_cons_iff in ND. destruct ND as [Na ND].
  specialize (IH ND). apply kget_none in Na. unfold sub in *. cbn [filter fst kget]. cbn [among existsb].
  destruct (String.eqb_spec a x) as [->|N1]; cbn [orb].
  - rewrite String.eqb_refl. destruct (String.eqb_spec y x); [congruence|]. destruct (filter _ d) as [|[k1 v1] [|]].
    + left. split; [reflexivity|]. split; [reflexivity|]. tauto.
    + split; [discriminate|]. destruct IH as [(_ & H & _)|(_ & H & _)]; congruence.
    + split; [discriminate|]. tauto.
  - destruct (String.eqb_spec a y) as [->|N2]; cbn [orb].
    + destruct (String.eqb_spec x y); [congruence|]. rewrite String.eqb_refl. destruct (filter _ d) as [|[k1 v1] [|]].
      * right. split; [reflexivity|]. split; [reflexivity|]. tauto.
      * split; [|discriminate]. destruct IH as [(_ & H & _)|(_ & H & _)]; congruence.
      * split; [|discriminate]. tauto.
    + destruct (String.eqb_spec x a); [congruence|]. destruct (String.eqb_spec y a); [congruence|]. exact IH.
Qed.
Lemma brax_call name rest m c g b k : first_sep name "brax" rest ->
  make_vector_env name m c g b k = call make_brax_env rest m c (kupdate k (match b with Some d => d | None => [] end)).
Proof. intros H. apply split_name_some in H. unfold make_vector_env. rewrite H. reflexivity. Qed.
Lemma brax_made name d e : vector_env_from_brax name d = Ok e <->
  exists old nm n a, e = BraxEnv old nm n [] /\ brax_name name nm old /\ scanned d None None (Some n) a /\ a <> Some false.
Proof.
  unfold vector_env_from_brax, brax_name. split.
  - destruct (starts_with "old::" name) as [r|] eqn:S0.
    + apply starts_with_iff in S0. destruct (scan_kwargs d None None) as [[n a]|] eqn:S1; [|discriminate]. cbn [bind fst snd].
      apply scan_iff in S1. destruct n as [n|]; [|discriminate]. destruct a as [[|]|]; cbn; try discriminate; intros H; injection H as <-.
      * exists true, r, n, (Some true). split; [reflexivity|]. split; [auto|]. split; [exact S1|discriminate].
      * exists true, r, n, None. split; [reflexivity|]. split; [auto|]. split; [exact S1|discriminate].
    + rewrite starts_with_none in S0. destruct (scan_kwargs d None None) as [[n a]|] eqn:S1; [|discriminate]. cbn [bind fst snd].
      apply scan_iff in S1. destruct n as [n|]; [|discriminate]. destruct a as [[|]|]; cbn; try discriminate; intros H; injection H as <-.
      * exists false, name, n, (Some true). split; [reflexivity|]. split; [auto|]. split; [exact S1|discriminate].
      * exists false, name, n, None. split; [reflexivity|]. split; [auto|]. split; [exact S1|discriminate].
  - intros (old & nm & n & a & -> & B & S1 & A). apply scan_iff in S1. rewrite S1. cbn [bind fst snd].
    assert (Ha : match a with None => true | Some x => x end = true) by (destruct a as [[|]|]; congruence). rewrite Ha. destruct old.
    + assert (S0 : starts_with "old::" name = Some nm) by (apply starts_with_iff; exact B). rewrite S0. reflexivity.
    + destruct B as [<- B]. apply starts_with_none in B. rewrite B. reflexivity.
Qed.
Lemma resets_iff d : dict_of d ->
  (exists a, match sub reset_names d with [] => a = None | [(_, v)] => None = @None bool /\ a = Some (truth v) | _ => False end /\ a <> Some false) <-> resets (kget d).
Proof.
  intros D. assert (NE : "autoreset"%string <> "auto_reset"%string) by discriminate. pose proof (sub_two "autoreset" "auto_reset" d D NE) as T.
  fold reset_names in T. unfold resets. destruct (sub reset_names d) as [|[key v] [|]].
  - split; [|intros _; exists None; split; [reflexivity|discriminate]]. intros _. split; [tauto|]. intros key x I Hx. cbn in I.
    destruct I as [<-|[<-|[]]]; destruct T; congruence.
  - split.
    + intros (a & [_ ->] & N). split; [tauto|]. intros key' x I Hx. cbn in I. destruct (truth v) eqn:Tv; [|congruence].
      destruct T as [(_ & H1 & H2)|(_ & H1 & H2)]; destruct I as [<-|[<-|[]]]; congruence.
    + intros [_ H]. exists (Some (truth v)). split; [auto|]. intros Q. injection Q as Q.
      assert (K : truth v = true); [|congruence]. destruct T as [(_ & H1 & H2)|(_ & H1 & H2)]; eapply H; eauto; cbn; auto.
  - split; [intros (a & [] & _)|]. intros [[H|H] _]; tauto.
Qed.
Lemma resets_ext v w : (forall key, In key reset_names -> v key = w key) -> resets v -> resets w.
Proof.
  intros E [H1 H2]. split.
  - rewrite <- !E by (cbn; auto). exact H1.
  - intros key x I Hx. apply (H2 key x I). rewrite E; auto.
Qed.
(* brax environments: the number of environments is given once, and automatic resets are not refused *)
Theorem C179_brax_partial : forall name rest num_envs c g b k e c', first_sep name "brax" rest -> dict_of k -> dict_of b ->
  (make_vector_env name num_envs c g (Some b) k = Ok (e, c') <->
   exists old nm n, e = BraxEnv old nm n [] /\ c' = c /\ brax_name rest nm old /\
     common_free k /\ common_free b /\ one_number (value k b) num_envs n /\ resets (value k b)).
Proof.
  intros name rest m c g b k e c' F Dk Db. rewrite (brax_call _ rest) by auto. unfold call.
  set (d := kupdate k b). assert (Dd : dict_of d) by (apply keys_kupdate; auto).
  assert (V : forall key, kget d key = value k b key) by (intros; apply kget_kupdate; auto).
  destruct (existsb _ d) eqn:E.
  - split; [discriminate|]. intros (old & nm & n & _ & _ & _ & C1 & C2 & _).
    assert (C : common_free d) by (apply common_value; auto). apply common_check in C. congruence.
  - apply common_check in E. assert (E' := E). apply common_value in E'; auto.
    assert (Nn : kget d "num_envs" = None) by (apply E; cbn; auto).
    unfold make_brax_env. set (cfg := match m with Some n => kset d "num_envs" (VInt (Z.of_nat n)) | None => d end).
    assert (Dc : dict_of cfg) by (unfold cfg; destruct m; auto; apply keys_kset; auto).
    assert (Vr : forall key, In key reset_names -> kget cfg key = value k b key).
    { intros key I. rewrite <- V. unfold cfg. destruct m; auto. rewrite kget_kset. cbn in I. destruct I as [<-|[<-|[]]]; reflexivity. }
    assert (Num : forall n, match sub num_names cfg with [] => Some n = None | [(_, v)] => @None Z = None /\ exists z, VecModel.py_int v = Ok z /\ Some n = Some z | _ => False end <-> one_number (value k b) m n).
    { intros n. assert (NE : "batch_size"%string <> "num_envs"%string) by discriminate. pose proof (sub_two "batch_size" "num_envs" cfg Dc NE) as T. fold num_names in T. unfold one_number. rewrite <- V.
      assert (Tb : kget cfg "batch_size" = kget d "batch_size") by (unfold cfg; destruct m; auto; rewrite kget_kset; reflexivity). rewrite Tb in T.
      assert (Tn : kget cfg "num_envs" = match m with Some x => Some (VInt (Z.of_nat x)) | None => None end) by (unfold cfg; destruct m; auto; rewrite kget_kset; reflexivity). rewrite Tn in T.
      destruct (sub num_names cfg) as [|[key v] [|]]; destruct m as [m|].
      - destruct T; discriminate.
      - split; [discriminate|]. intros (x & H & _). destruct T; congruence.
      - destruct T as [(_ & _ & H)|(_ & H & H2)]; [discriminate|]. injection H as <-. rewrite H2. cbn [VecModel.py_int].
        split; [intros [_ (z & Q1 & Q2)]; split; congruence|]. intros [_ ->]. split; [reflexivity|]. eauto.
      - destruct T as [(_ & H & _)|(_ & H & _)]; [|discriminate]. rewrite H. split.
        + intros [_ (z & Q1 & Q2)]. exists v. split; congruence.
        + intros (x & Q1 & Q2). split; [reflexivity|]. exists n. split; congruence.
      - split; [intros []|]. intros [H _]. tauto.
      - destruct T as [_ T]. congruence. }
    split.
    + destruct (vector_env_from_brax rest cfg) as [e0|] eqn:M; [|discriminate]. cbn [bind]. intros H. injection H as <- <-.
      apply brax_made in M. destruct M as (old & nm & n & a & -> & B & [S1 S2] & A). exists old, nm, n.
      repeat split; auto; try tauto; try (apply Num; exact S1); eapply resets_ext; eauto; apply resets_iff; auto; exists a; auto.
    + intros (old & nm & n & -> & -> & B & _ & _ & O & R).
      assert (M : vector_env_from_brax rest cfg = Ok (BraxEnv old nm n [])).
      { apply brax_made. assert (R' : resets (kget cfg)) by (eapply resets_ext; [|exact R]; intros; symmetry; auto).
        apply resets_iff in R'; auto. destruct R' as (a & R1 & R2). exists old, nm, n, a. repeat split; auto. apply Num. exact O. }
      rewrite M. reflexivity.
Qed.
(* no keyword argument ever reaches brax *)
Theorem C179_dropped_refuted : forall name num_envs c g b k old nm n args c' key,
  make_vector_env name num_envs c g b k = Ok (BraxEnv old nm n args, c') -> kget args key = None.
Proof.
  intros name m c g b k old nm n args c' key H. unfold make_vector_env in H. 
  assert (G : forall r d, call make_gym_env r m c d <> Ok (BraxEnv old nm n args, c')).
  { intros r d Q. unfold call in Q. destruct (existsb _ d); [discriminate|]. apply make_gym_ok in Q. destruct Q as [_ Q]. inversion Q. }
  destruct (split_name name) as [[r rest]|]; [|exfalso; eapply G; eauto]. destruct (String.eqb r "gym"); [exfalso; eapply G; eauto|].
  destruct (String.eqb r "brax"); [|discriminate]. unfold call in H. destruct (existsb _ _); [discriminate|]. unfold make_brax_env in H.
  destruct (vector_env_from_brax rest _) as [e|] eqn:M; [|discriminate]. cbn [bind] in H. injection H as -> _.
  apply brax_made in M. destruct M as (o & x & y & a & Q & _). injection Q as _ _ _ ->. reflexivity.
Qed.
Print Assumptions C179_brax_partial.
Print Assumptions C179_dropped_refuted.
Example C179_example :
  let c := mkC false false true in
  first_sep "brax::old::ant" "brax" "old::ant" /\ dict_of [("backend", VObj 1); ("autoreset", VInt 1)]%string /\
  make_vector_env "brax::old::ant" (Some 8) c None None [("backend", VObj 1); ("autoreset", VInt 1)]%string = Ok (BraxEnv true "ant" 8 [], c) /\
  make_vector_env "brax::ant" None c None (Some [("batch_size", VInt 4)]%string) [] = Ok (BraxEnv false "ant" 4 [], c) /\
  make_vector_env "brax::ant" None c None None [] = Err ValueError.
Proof.
  repeat split; [|repeat constructor; cbn; intuition discriminate].
  assert (H : first_sep "brax::old::ant" "brax" "old::ant") by (apply split_name_some; reflexivity). apply H.
Qed.

(* ------------------------------------------------------------------------------- C180 *)
Section BraxProps.
Variables (State Action : Type).
Variable brax_reset : Z -> State.
Variable brax_step : State -> Action -> State.
Variable state_done : State -> list Q.
Variable state_truncation : State -> option (list Q).
Notation step := (brax_env_step brax_step state_done state_truncation).
Definition over (x : Q) : Prop := (x < - (1 # 10000) \/ (1 # 10000) < x)%Q.
Lemma convert_spec x : convert_to_bool x = true <-> over x.
Proof.
  unfold convert_to_bool, over. destruct (Qle_bool 0 x) eqn:E.
  - apply Qle_bool_iff in E. destruct (Qle_bool x (1 # 10000)) eqn:L; cbn [negb].
    + apply Qle_bool_iff in L. split; [discriminate|]. intros [H|H]; exfalso; lra.
    + split; [|reflexivity]. intros _. right. apply Qnot_le_lt. intros K. apply Qle_bool_iff in K. congruence.
  - assert (N : (x < 0)%Q) by (apply Qnot_le_lt; intros K; apply Qle_bool_iff in K; congruence).
    destruct (Qle_bool (- x) (1 # 10000)) eqn:L; cbn [negb].
    + apply Qle_bool_iff in L. split; [discriminate|]. intros [H|H]; exfalso; lra.
    + split; [|reflexivity]. intros _. left. assert (K : ((1 # 10000) < - x)%Q) by (apply Qnot_le_lt; intros K; apply Qle_bool_iff in K; congruence). lra.
Qed.
(* episodes end where brax says done *)
Theorem C180_done_partial : forall a b b' terminated truncated, step a b = Ok (b', (terminated, truncated)) ->
  exists s, last_state b' = Some s /\ (exists s0, last_state b = Some s0 /\ s = brax_step s0 a) /\
    length terminated = length (state_done s) /\ length truncated = length (state_done s) /\
    forall i x, nth_error (state_done s) i = Some x ->
      exists t u, nth_error terminated i = Some t /\ nth_error truncated i = Some u /\ (t || u = true <-> over x).
Proof.
  intros a b b' te tr H. unfold brax_env_step in H. destruct (last_state b) as [s0|] eqn:L; [|discriminate]. injection H as <- H.
  exists (brax_step s0 a). split; [reflexivity|]. split; [eauto|].
  assert (E : te = map convert_to_bool (state_done (brax_step s0 a)) /\ tr = map (fun _ => false) te).
  { destruct (state_truncation (brax_step s0 a)) as [t|]; cbn in H; apply pair_equal_spec in H; destruct H as [<- <-].
    - assert (K : forall l, map2 (fun d t0 : bool => d && negb t0) l (map (fun _ => false) l) = l) by (induction l as [|y l IH]; cbn; [auto|rewrite IH, andb_true_r; auto]).
      rewrite K. auto.
    - auto. }
  destruct E as [-> ->]. rewrite !map_length. split; [reflexivity|]. split; [reflexivity|]. intros i x Hx. exists (convert_to_bool x), false.
  rewrite !nth_error_map, Hx. cbn. rewrite orb_false_r. split; [reflexivity|]. split; [reflexivity|]. apply convert_spec.
Qed.
(* truncation is never reported, whatever brax says *)
Theorem C180_truncated_refuted : forall a b b' terminated truncated, step a b = Ok (b', (terminated, truncated)) -> Forall (eq false) truncated.
Proof.
  intros a b b' te tr H. unfold brax_env_step in H. destruct (last_state b) as [s0|]; [|discriminate]. injection H as <- H.
  destruct (state_truncation _); cbn in H; apply pair_equal_spec in H; destruct H as [_ <-]; apply Forall_forall; intros x I; apply in_map_iff in I; destruct I as (y & <- & _); reflexivity.
Qed.
(* a seed is used by the next reset, and only by it *)
Theorem C180_seed : forall s r r' seed b,
  reset brax_reset None r (brax_seed (Some s) b) = reset brax_reset (Some s) r' b /\
  last_state (reset brax_reset (Some s) r b) = Some (brax_reset s) /\
  last_state (reset brax_reset None r' (reset brax_reset seed r b)) = Some (brax_reset r') /\
  last_state (reset brax_reset None r (brax_seed None b)) = Some (brax_reset r) /\
  last_state (brax_seed seed b) = last_state b.
Proof. intros. repeat split. Qed.
End BraxProps.
Print Assumptions C180_done_partial.
Print Assumptions C180_truncated_refuted.
Print Assumptions C180_seed.
Example C180_example : brax_env_step (fun s a => s + a) (fun _ => [1; 0]%Q) (fun _ => Some [1; 0]%Q) 3 (mkB nat None (Some 2))
  = Ok (mkB nat None (Some 5), ([true; false], [false; false])).
Proof. reflexivity. Qed.

(* ------------------------------------------------------------------------------- C181 *)
(* every value under a key can be converted to a tensor *)
Definition convertible_key (convertible : nat -> bool) (infos : list dict) (k : nat) : Prop :=
  forall d sh id, In d infos -> lookup k d = Some (Num sh id) -> convertible id = true.
Lemma reported_in convertible on l r : sequence (map (fun ke : nat * entry => rmap (pair (fst ke)) (move convertible on (snd ke))) l) = Ok r ->
  forall k m, In (k, m) r -> exists e, In (k, e) l /\ move convertible on e = Ok m.
Proof.
  revert r. induction l as [|[k0 e0] l IH]; intros r; cbn [map sequence fst snd].
  - intros H. injection H as <-. intros k m [].
  - destruct (move convertible on e0) as [m0|] eqn:M; cbn [rmap bind]; [|discriminate]. destruct (sequence _) as [r0|]; cbn; [|discriminate].
    intros H. injection H as <-. intros k m [H|H].
    + injection H as <- <-. exists e0. auto.
    + destruct (IH r0 eq_refl k m H) as (e & I & E). exists e. auto.
Qed.
Lemma reported_ok convertible on l : (forall k e, In (k, e) l -> exists m, move convertible on e = Ok m) ->
  exists r, sequence (map (fun ke : nat * entry => rmap (pair (fst ke)) (move convertible on (snd ke))) l) = Ok r /\ map fst r = map fst l.
Proof.
  induction l as [|[k0 e0] l IH]; intros H; cbn [map sequence fst snd]; [eauto|].
  destruct (H k0 e0 (or_introl eq_refl)) as (m & ->). cbn [rmap bind]. destruct IH as (r & -> & E); [intros; apply (H k); right; auto|].
  cbn [bind]. exists ((k0, m) :: r). split; [reflexivity|]. cbn. rewrite E. reflexivity.
Qed.
Lemma uniform_convertible convertible infos k : uniform k infos -> (convertible_key convertible infos k <-> forallb (entry_ok convertible) (column k infos) = true).
Proof.
  intros (sh & U). rewrite Forall_forall in U. rewrite forallb_forall. unfold convertible_key, column. split.
  - intros H x Hx. apply in_map_iff in Hx. destruct Hx as (d & <- & I). destruct (U d I) as (id & E). rewrite E. cbn. eapply H; eauto.
  - intros H d sh' id I E. specialize (H (lookup k d)). rewrite E in H. apply H. apply in_map_iff. eauto.
Qed.
Theorem C181_on_device_partial : forall convertible infos, Forall (fun d : dict => NoDup (map fst d)) infos ->
  (forall k, uniform k infos -> occurs k infos -> convertible_key convertible infos k) ->
  exists r, reported_info convertible true infos = Ok r /\ NoDup (map fst r) /\ (forall k, In k (map fst r) <-> occurs k infos) /\
    forall k m, In (k, m) r -> (uniform k infos /\ m = Tensor (column k infos)) \/ (~ uniform k infos /\ m = Same (Listed (column k infos))).
Proof.
  intros cv infos F C. destruct (C121_combined infos F) as (ND & Ks & En). unfold reported_info.
  destruct (reported_ok cv true (batch_info_dicts infos)) as (r & Er & Kr).
  { intros k e I. assert (O : occurs k infos) by (apply Ks; apply in_map_iff; exists (k, e); auto). destruct (En k e I) as [[-> U]|[-> U]]; cbn [move].
    - pose proof (C k U O) as Q. apply (uniform_convertible cv infos k U) in Q. rewrite Q. eauto.
    - eauto. }
  exists r. rewrite Kr. repeat split; auto; try apply Ks. intros k m I. destruct (reported_in _ _ _ _ Er k m I) as (e & Ie & Em).
  destruct (En k e Ie) as [[-> U]|[-> U]]; cbn [move] in Em.
  - left. destruct (forallb _ _); [|discriminate]. injection Em as <-. auto.
  - right. injection Em as <-. auto.
Qed.
Theorem C181_no_device : forall convertible infos, reported_info convertible false infos = Ok (map (fun ke => (fst ke, Same (snd ke))) (batch_info_dicts infos)).
Proof. intros cv infos. unfold reported_info. generalize (batch_info_dicts infos). induction l as [|[k e] l IH]; [reflexivity|]. cbn [map sequence fst snd]. rewrite IH. reflexivity. Qed.
(* one array which torch does not know, such as an array of strings, makes reset and step fail *)
Theorem C181_strings_refuted : forall convertible infos k, Forall (fun d : dict => NoDup (map fst d)) infos ->
  occurs k infos -> uniform k infos -> ~ convertible_key convertible infos k -> reported_info convertible true infos = Err TypeError.
Proof.
  intros cv infos k F O U N. destruct (C121_combined infos F) as (ND & Ks & En). unfold reported_info.
  apply Ks in O. apply in_map_iff in O. destruct O as ((k' & e) & <- & I). cbn [fst] in *.
  assert (Fe : move cv true e = Err TypeError).
  { destruct (En k' e I) as [[-> _]|[_ U']]; [|contradiction]. cbn [move]. destruct (forallb _ _) eqn:Q; [|reflexivity].
    exfalso. apply N. apply (uniform_convertible cv infos k' U). exact Q. }
  clear - I Fe. induction (batch_info_dicts infos) as [|[k0 e0] l IH]; [destruct I|]. cbn [map sequence fst snd]. destruct I as [I|I].
  - injection I as -> ->. rewrite Fe. reflexivity.
  - destruct (move cv true e0) as [m|x] eqn:M; cbn [rmap bind].
    + rewrite (IH I). reflexivity.
    + cbn [move] in M. destruct e0; [|discriminate]. destruct (forallb _ _); [discriminate|]. injection M as <-. reflexivity.
Qed.
Print Assumptions C181_on_device_partial.
Print Assumptions C181_no_device.
Print Assumptions C181_strings_refuted.
Example C181_example :
  let infos := [[(1, Num [] 10); (2, Obj 20)]; [(2, Obj 21); (1, Num [] 11)]] in
  reported_info (fun id => id =? 10) true [[(1, Num [] 10)]] = Ok [(1, Tensor [Some (Num [] 10)])] /\
  reported_info (fun _ => true) true infos = Ok [(2, Same (Listed [Some (Obj 20); Some (Obj 21)])); (1, Tensor [Some (Num [] 10); Some (Num [] 11)])] /\
  reported_info (fun id => id =? 10) true infos = Err TypeError.
Proof. repeat split; reflexivity. Qed.

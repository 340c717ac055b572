(* C196: a batched functional search is a family of independent searches, one at each place of the batch. *)
From Verif Require Import Prelude NdimModel NdimSpec BatModel BatSpec BatProofs.
From Coq Require Import ZArith.

Section THEOREMS.
Context {A Sc Obj : Type}.
Variable cast : nat -> Sc -> A.
Variable is_bool : Sc -> bool.
Variable bool_dtype : nat.
Notation arg := (arg A Sc Obj).
Notation func := (func A Sc Obj).
Notation search := (search cast is_bool bool_dtype).

(* the algorithm al, with state fields of the numbers of dimensions ds and inputs of the numbers of dimensions di, treats every batch as independent searches *)
Definition independent (ds di : list (option nat)) (al : algorithm A Sc Obj) : Prop :=
  forall B st ins, Forall (fun b => 0 < b) B -> Forall2 (in_batch B) ds st -> Forall (Forall2 (in_batch B) di) ins ->
    (forall bi, inside bi B -> search al (map2 (lane bi) ds st) (map (map2 (lane bi) di) ins) = rmap (map2 (lane bi) ds) (search al st ins)) /\
    (forall st', search al st ins = Ok st' -> Forall2 (in_batch B) ds st').
Lemma well_formed_independent ds di al : well_formed ds di al -> independent ds di al.
Proof.
  intros W B st ins Pos Fs Fi. pose proof (search_ok cast is_bool bool_dtype B Pos ds di al W ins st Fs Fi) as H.
  destruct (search al st ins) as [st'|e]; cbn [rmap].
  - destruct H as (H1 & H2). split; auto. intros s Q. injection Q as <-. exact H1.
  - split; auto. discriminate.
Qed.
Ltac positions := repeat (apply Forall2_cons; [reflexivity|]); apply Forall2_nil.
Ltac calls := repeat match goal with |- typed _ (_ :: _) (_ :: _) => split; [positions|split; [assumption|]] end; exact I.

(* stdev_min, stdev_max, stdev_max_change, parenthood_ratio, maximize, center, stdev *)
Definition cem_state : list (option nat) := [Some 1; Some 1; Some 1; None; None; Some 1; Some 1].
(* popsize, what is drawn *)
Definition drawn : list (option nat) := [None; Some 2].
Theorem C196_cem (sample fitness tell_center tell_stdev : func) :
  regular 2 sample -> regular 1 fitness -> regular 1 tell_center -> regular 1 tell_stdev ->
  independent cem_state drawn (cem sample fitness tell_center tell_stdev).
Proof.
  intros. apply well_formed_independent. exists [2; 1; 1; 1]. split; [|positions]. cbn [cem a_calls cem_state drawn app]. calls.
Qed.

(* objective sense, ranking_method, stdev, stdev_learning_rate, stdev_min, stdev_max, stdev_max_change, center *)
Definition pgpe_state : list (option nat) := [None; None; Some 1; Some 0; Some 1; Some 1; Some 1; Some 1].
(* velocity, center_learning_rate, momentum *)
Definition sgd_state : list (option nat) := [Some 1; Some 0; Some 0].
Theorem C196_pgpe_sgd (sample fitness mu_grad sigma_grad follow change bounds step_velocity step_center : func) :
  regular 2 sample -> regular 1 fitness -> regular 1 mu_grad -> regular 1 sigma_grad -> regular 1 follow -> regular 1 change -> regular 1 bounds ->
  regular 1 step_velocity -> regular 1 step_center ->
  independent (pgpe_state ++ sgd_state) drawn (pgpe_sgd sample fitness mu_grad sigma_grad follow change bounds step_velocity step_center).
Proof.
  intros. apply well_formed_independent. exists [2; 1; 1; 1; 1; 1; 1; 1; 1]. split; [|positions]. cbn [pgpe_sgd pgpe_front a_calls pgpe_state sgd_state drawn app Nat.add]. calls.
Qed.
(* velocity, center_learning_rate, momentum, max_speed *)
Definition clipup_state : list (option nat) := [Some 1; Some 0; Some 0; Some 0].
Theorem C196_pgpe_clipup (sample fitness mu_grad sigma_grad follow change bounds step_velocity step_center : func) :
  regular 2 sample -> regular 1 fitness -> regular 1 mu_grad -> regular 1 sigma_grad -> regular 1 follow -> regular 1 change -> regular 1 bounds ->
  regular 1 step_velocity -> regular 1 step_center ->
  independent (pgpe_state ++ clipup_state) drawn (pgpe_clipup sample fitness mu_grad sigma_grad follow change bounds step_velocity step_center).
Proof.
  intros. apply well_formed_independent. exists [2; 1; 1; 1; 1; 1; 1; 1; 1]. split; [|positions]. cbn [pgpe_clipup pgpe_front a_calls pgpe_state clipup_state drawn app Nat.add]. calls.
Qed.
(* center_learning_rate, beta1, beta2, epsilon, m, v, t *)
Definition adam_state : list (option nat) := [Some 0; Some 0; Some 0; Some 0; Some 1; Some 1; Some 0].
Theorem C196_pgpe_adam (sample fitness mu_grad sigma_grad follow change bounds step_center step_m step_v step_t : func) :
  regular 2 sample -> regular 1 fitness -> regular 1 mu_grad -> regular 1 sigma_grad -> regular 1 follow -> regular 1 change -> regular 1 bounds ->
  regular 1 step_center -> regular 1 step_m -> regular 1 step_v -> regular 0 step_t ->
  independent (pgpe_state ++ adam_state) drawn (pgpe_adam sample fitness mu_grad sigma_grad follow change bounds step_center step_m step_v step_t).
Proof.
  intros. apply well_formed_independent. exists [2; 1; 1; 1; 1; 1; 1; 1; 1; 1; 0]. split; [|positions]. cbn [pgpe_adam pgpe_front a_calls pgpe_state adam_state drawn app map Nat.add]. calls.
Qed.
(* so what happens at one place of a batch does not depend on the rest of the batch, nor on the shape of the batch *)
Theorem C196_no_leak ds di al : independent ds di al -> forall B B' bi bi' st st' ins ins',
  Forall (fun b => 0 < b) B -> Forall2 (in_batch B) ds st -> Forall (Forall2 (in_batch B) di) ins -> inside bi B ->
  Forall (fun b => 0 < b) B' -> Forall2 (in_batch B') ds st' -> Forall (Forall2 (in_batch B') di) ins' -> inside bi' B' ->
  map2 (lane bi) ds st = map2 (lane bi') ds st' -> map (map2 (lane bi) di) ins = map (map2 (lane bi') di) ins' ->
  rmap (map2 (lane bi) ds) (search al st ins) = rmap (map2 (lane bi') ds) (search al st' ins').
Proof.
  intros In B B' bi bi' st st' ins ins' P Fs Fi I P' Fs' Fi' I' Es Ei. rewrite <- (proj1 (In B st ins P Fs Fi) bi I), <- (proj1 (In B' st' ins' P' Fs' Fi') bi' I'). rewrite Es, Ei. reflexivity.
Qed.

(* C196: generations change the center, the standard deviation and the memory of the optimizer, and no setting.  `kept` are the
   places of the settings in the state. *)
Definition keeps_settings (size : nat) (kept : list nat) (al : algorithm A Sc Obj) : Prop :=
  forall st ins st', length st = size -> search al st ins = Ok st' ->
    length st' = size /\ forall k, In k kept -> nth_error st' k = nth_error st k.
Lemma perform_prefix (cs : list (call A Sc Obj)) : forall env env', perform_all cast is_bool bool_dtype env cs = Ok env' -> exists more, env' = env ++ more.
Proof.
  induction cs as [|c cs IH]; intros env env' E; cbn in E; [injection E as <-; exists []; symmetry; apply app_nil_r|].
  destruct (perform cast is_bool bool_dtype env c) as [e1|] eqn:P; [|discriminate]. cbn in E. destruct (IH _ _ E) as [more ->].
  unfold perform in P. destruct (fetch env (c_args c)); [|discriminate]. cbn in P. destruct (expects_ndim _ _ _ _ _ _ _) as [r|]; [|discriminate].
  injection P as <-. exists ([ATensor r] ++ more). rewrite <- app_assoc. reflexivity.
Qed.
Lemma fetch_nth (env : list arg) : forall ps l, fetch env ps = Ok l -> length l = length ps /\ forall k p, nth_error ps k = Some p -> nth_error l k = nth_error env p.
Proof.
  unfold fetch. induction ps as [|p ps IH]; intros l E; cbn in E; [injection E as <-; split; [reflexivity|intros [|k] p Q; discriminate]|].
  destruct (nth_error env p) eqn:Np; [|discriminate]. cbn in E. destruct (sequence (map _ ps)) as [r|] eqn:Q; [|discriminate]. cbn in E. injection E as <-.
  destruct (IH r eq_refl) as [L H]. split; [cbn; congruence|]. intros [|k] q Hq; cbn in *; [injection Hq as <-; auto|auto].
Qed.
Lemma settings_kept size kept al : length (a_next al) = size -> (forall k, In k kept -> nth_error (a_next al) k = Some k /\ k < size) -> keeps_settings size kept al.
Proof.
  intros L K st ins. revert st. induction ins as [|i ins IH]; intros st st' Ls E; cbn in E; [injection E as <-; auto|].
  destruct (generation cast is_bool bool_dtype al st i) as [s1|] eqn:G; [|discriminate]. cbn in E. unfold generation in G.
  destruct (perform_all cast is_bool bool_dtype (st ++ i) (a_calls al)) as [env|] eqn:P; [|discriminate]. cbn in G.
  destruct (perform_prefix _ _ _ P) as [more ->]. destruct (fetch_nth _ _ _ G) as [L1 N1]. destruct (IH s1 st') as [L2 N2]; [congruence|exact E|].
  split; [exact L2|]. intros k Hk. rewrite (N2 k Hk). destruct (K k Hk) as [Kk Ks]. rewrite (N1 k k Kk), <- app_assoc. apply nth_error_app1. lia.
Qed.
Theorem C196_settings (sample fitness tell_center tell_stdev mu_grad sigma_grad follow change bounds step_velocity step_center step_m step_v step_t : func) :
  keeps_settings 7 [0; 1; 2; 3; 4] (cem sample fitness tell_center tell_stdev) /\
  keeps_settings 11 [0; 1; 3; 4; 5; 6; 9; 10] (pgpe_sgd sample fitness mu_grad sigma_grad follow change bounds step_velocity step_center) /\
  keeps_settings 12 [0; 1; 3; 4; 5; 6; 9; 10; 11] (pgpe_clipup sample fitness mu_grad sigma_grad follow change bounds step_velocity step_center) /\
  keeps_settings 15 [0; 1; 3; 4; 5; 6; 8; 9; 10; 11] (pgpe_adam sample fitness mu_grad sigma_grad follow change bounds step_center step_m step_v step_t).
Proof.
  repeat (match goal with |- _ /\ _ => split end); (apply settings_kept; [reflexivity|]); intros k Hk; cbn in Hk;
    repeat (destruct Hk as [<-|Hk]; [split; [reflexivity|lia]|]); destruct Hk.
Qed.
End THEOREMS.
Print Assumptions C196_cem.
Print Assumptions C196_pgpe_sgd.
Print Assumptions C196_settings.
Print Assumptions C196_pgpe_clipup.
Print Assumptions C196_pgpe_adam.
Print Assumptions C196_no_leak.

(* ---- a small cross entropy method on integers: two solutions, the better one becomes the center ---- *)
Module Toy.
Definition targ := arg Z unit unit.
Definition tens (p : nat) (args : list targ) : option (tensor Z) := match nth_error args p with Some (ATensor t) => Some t | _ => None end.
Lemma tens_alike p : forall xs ys, Forall2 alike xs ys ->
  match tens p xs, tens p ys with Some s, Some t => shape s = shape t /\ dtype s = dtype t /\ device s = device t | None, None => True | _, _ => False end.
Proof.
  unfold tens. induction p as [|p IH]; intros xs ys F; destruct F as [|x y xs ys H F]; cbn; auto; [destruct x, y; cbn in H; auto; discriminate|apply IH; auto].
Qed.
Definition len (k : nat) (t : tensor Z) : nat := nth k (shape t) 0.
Definition vector (k n : nat) (t : tensor Z) (g : nat -> Z) : tensor Z := T [len k t] (fun ix => g (nth n ix 0)) (dtype t) (device t).
Definition sample (args : list targ) : result (tensor Z) :=
  match tens 0 args, tens 1 args, tens 4 args with
  | Some c, Some s, Some z => Ok (T [len 0 z; len 1 z] (fun ix => let j := nth 1 ix 0 in (at_ c [j] + at_ s [j] * at_ z ix)%Z) (dtype c) (device c))
  | _, _, _ => Err TypeError
  end.
Definition fitness (args : list targ) : result (tensor Z) :=
  match tens 0 args with Some v => Ok (vector 0 0 v (fun i => Z.add (at_ v [i; 0]) (at_ v [i; 1]))) | None => Err TypeError end.
Definition center (args : list targ) : result (tensor Z) :=
  match tens 7 args, tens 8 args with
  | Some v, Some e => Ok (vector 1 0 v (fun j => if Z.ltb (at_ e [0]) (at_ e [1]) then at_ v [1; j] else at_ v [0; j]))
  | _, _ => Err TypeError
  end.
Definition stdev (args : list targ) : result (tensor Z) :=
  match tens 0 args, tens 6 args with
  | Some lo, Some s => Ok (vector 0 0 s (fun j => Z.max (at_ lo [j]) (at_ s [j] - 1)))
  | _, _ => Err TypeError
  end.
Ltac use p F := let H := fresh in pose proof (tens_alike p _ _ F) as H; destruct (tens p _), (tens p _); try tauto.
Lemma sample_regular : regular 2 sample.
Proof. intros xs ys F. unfold sample. use 0 F; use 1 F; use 4 F. unfold len. cbn. intuition congruence. Qed.
Lemma fitness_regular : regular 1 fitness.
Proof. intros xs ys F. unfold fitness. use 0 F. unfold vector, len. cbn. intuition congruence. Qed.
Lemma center_regular : regular 1 center.
Proof. intros xs ys F. unfold center. use 7 F; use 8 F. unfold vector, len. cbn. intuition congruence. Qed.
Lemma stdev_regular : regular 1 stdev.
Proof. intros xs ys F. unfold stdev. use 0 F; use 6 F. unfold vector, len. cbn. intuition congruence. Qed.

Definition vec (l : list Z) : targ := ATensor (T [length l] (fun ix => nth (nth 0 ix 0) l 0%Z) 0 0).
Definition mat (l : list (list Z)) : targ := ATensor (T [length l; length (nth 0 l [])] (fun ix => nth (nth 1 ix 0) (nth (nth 0 ix 0) l []) 0%Z) 0 0).
Definition cube (l : list (list (list Z))) : targ :=
  ATensor (T [length l; length (nth 0 l []); length (nth 0 (nth 0 l []) [])] (fun ix => nth (nth 2 ix 0) (nth (nth 1 ix 0) (nth (nth 0 ix 0) l []) []) 0%Z) 0 0).
(* two searches from different centers, with the same other settings; each draws for itself *)
Definition start : list targ := [vec [1; 1]%Z; vec [9; 9]%Z; vec [5; 5]%Z; AObject tt; AObject tt; mat [[0; 0]; [10; 20]]%Z; vec [4; 3]%Z].
Definition draws : list (list targ) :=
  [[AObject tt; cube [[[1; 2]; [-1; -2]]; [[0; -1]; [1; 1]]]%Z]; [AObject tt; cube [[[0; 1]; [1; 1]]; [[2; 0]; [0; 0]]]%Z]].
Definition al := cem sample fitness center stdev.
Definition run := search (fun _ (_ : unit) => 0%Z) (fun _ => false) 0 al.
(* what is in a vector of length 2 *)
Definition read (a : targ) : list Z := match a with ATensor t => match shape t with [n] => map (fun j => at_ t [j]) (seq 0 n) | _ => [] end | _ => [] end.
Definition final (r : result (list targ)) : list (list Z) := match r with Ok st => map read st | Err _ => [] end.
End Toy.
Import Toy.
Example C196_hypotheses : Forall2 (in_batch [2]) cem_state start /\ Forall (Forall2 (in_batch [2]) drawn) draws /\ Forall (fun b => 0 < b) [2].
Proof. split; [|split]; repeat constructor; cbn; lia. Qed.
Example C196_two_searches :
  final (run (map2 (lane [0]) cem_state start) (map (map2 (lane [0]) drawn) draws)) = [[1; 1]; [9; 9]; [5; 5]; []; []; [7; 8]; [2; 1]]%Z /\
  final (run (map2 (lane [1]) cem_state start) (map (map2 (lane [1]) drawn) draws)) = [[1; 1]; [9; 9]; [5; 5]; []; []; [20; 23]; [2; 1]]%Z /\
  final (rmap (map2 (lane [0]) cem_state) (run start draws)) = final (run (map2 (lane [0]) cem_state start) (map (map2 (lane [0]) drawn) draws)) /\
  final (rmap (map2 (lane [1]) cem_state) (run start draws)) = final (run (map2 (lane [1]) cem_state start) (map (map2 (lane [1]) drawn) draws)).
Proof. repeat split; vm_compute; reflexivity. Qed.
Example C196_toy_independent : independent (fun _ (_ : unit) => 0%Z) (fun _ => false) 0 cem_state drawn al.
Proof. exact (C196_cem _ _ _ sample fitness center stdev sample_regular fitness_regular center_regular stdev_regular). Qed.

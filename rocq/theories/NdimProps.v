(* C52, C116, C117: expects_ndim and rowwise. *)
From Verif Require Import Prelude NdimModel NdimSpec NdimProofs.

Section THEOREMS.
Context {A Sc Obj : Type}.
Variable cast : nat -> Sc -> A.
Variable is_bool : Sc -> bool.
Variable bool_dtype : nat.
Notation arg := (arg A Sc Obj).
Notation func := (func A Sc Obj).
Notation expects_ndim := (expects_ndim cast is_bool bool_dtype).
Notation rowwise := (rowwise cast is_bool bool_dtype).
(* what the function gets of the given arguments *)
Definition all_taken (expected : list (option nat)) (args args' : list arg) : Prop :=
  length expected = length args /\ Forall2 (fun p a => taken (fst p) (snd p) a) (combine expected args) args'.

Lemma taken_lengths : forall es args args', all_taken es args args' -> length es = length args'.
Proof.
  intros es args args' [L F]. assert (H : length (combine es args) = length args') by (clear L; induction F; cbn; auto). rewrite combine_length in H. lia.
Qed.
Lemma taken_convert allow ts : forall es args args', all_taken es args args' -> allow = true \/ Forall2 enough es args' ->
  sequence (map2 (convert cast is_bool bool_dtype allow ts) es args) = Ok args'.
Proof.
  induction es as [|e es IH]; intros [|a args] args' [L F] G; try discriminate; cbn in *; [inversion F; reflexivity|].
  destruct args' as [|a' args']; [inversion F|]. apply f2_inv in F. destruct F as [T F]. cbn in T.
  assert (Hc : convert cast is_bool bool_dtype allow ts e a = Ok a').
  { assert (En : allow = true \/ enough e a') by (destruct G as [G|G]; [auto|apply f2_inv in G; tauto]). clear - T En.
    destruct T as [a|n t|n t]; unfold convert; cbn [bind]; auto; (destruct (Nat.ltb_spec (length (shape t)) n); cbn [andb]; [|reflexivity]; destruct En as [-> | En]; [reflexivity|cbn in En; lia]). }
  rewrite Hc, (IH args args'); auto; [split; auto|]. destruct G as [G|G]; [auto|apply f2_inv in G; tauto].
Qed.
Lemma extra_fits : forall es (args' : list arg) B, length es = length args' -> batch_shape (map2 extra es args') args' B ->
  Forall2 (fits (list_max (map2 extra es args')) B) (map2 extra es args') args'.
Proof.
  intros es args' B L [LB F]. assert (Hle : Forall (fun x => x <= list_max (map2 extra es args')) (map2 extra es args')) by (apply list_max_le; auto).
  revert Hle F. generalize (list_max (map2 extra es args')) as m. revert args' L LB. intros args' L _ m. revert args' L. induction es as [|e es IH]; intros [|a args'] L H F; try discriminate; cbn [map2] in *; constructor; apply f2_inv in F; destruct F as [F1 F]; inversion H as [|? ? H1 H2]; subst.
  - destruct a as [t| | |]; cbn [fits]; [|destruct e; reflexivity..]. rewrite Nat.min_l by auto. exact F1.
  - apply IH; auto.
Qed.
Lemma extra_deep m : forall es (args' : list arg), length es = length args' -> Forall2 (deep m) (map2 extra es args') args'.
Proof.
  induction es as [|e es IH]; intros [|a args'] L; try discriminate; cbn [map2]; constructor; auto.
  destruct e, a; cbn; auto; lia.
Qed.
Lemma min_max : forall l m, list_max l <= m -> map (fun x => Nat.min x m) l = l.
Proof.
  induction l as [|x l IH]; intros m H; cbn [map]; auto. cbn in H. change (fold_right Init.Nat.max 0 l) with (list_max l) in H. rewrite IH by lia. f_equal. lia.
Qed.
Lemma fits_batch es (args' : list arg) B : length B = list_max (map2 extra es args') -> Forall2 (fits (list_max (map2 extra es args')) B) (map2 extra es args') args' -> batch_shape (map2 extra es args') args' B.
Proof.
  intros LB F. split; auto. rewrite <- LB in F. assert (Hle : Forall (fun x => x <= length B) (map2 extra es args')) by (rewrite LB; apply list_max_le; auto). clear LB.
  induction F as [|x a xs args F1 F IH]; constructor; inversion Hle as [|? ? H1 H2]; subst; auto. destruct a; cbn [fits] in F1; auto. rewrite Nat.min_l in F1 by auto. exact F1.
Qed.
Lemma called expected allow f args args' : all_taken expected args args' -> allow = true \/ Forall2 enough expected args' ->
  expects_ndim expected allow f args = levels (list_max (map2 extra expected args')) f (map2 extra expected args') args'.
Proof. intros Ht He. unfold NdimModel.expects_ndim. rewrite (taken_convert allow _ _ _ _ Ht He). cbn [bind]. rewrite wrap_ok. reflexivity. Qed.

(* C52: the decorated function gives, at each place of the batch, what the function gives on the items at that place *)
Theorem C52_batched expected allow f args args' B os :
  all_taken expected args args' -> allow = true \/ Forall2 enough expected args' ->
  batch_shape (map2 extra expected args') args' B ->
  (forall bi, length bi = length B -> inside bi B \/ In 0 B -> exists r, f (map2 (item bi) (map2 extra expected args') args') = Ok r /\ shape r = os) ->
  exists r, expects_ndim expected allow f args = Ok r /\ shape r = B ++ os /\
    forall bi ix, inside bi B -> exists r', f (map2 (item bi) (map2 extra expected args') args') = Ok r' /\ at_ r (bi ++ ix) = at_ r' ix.
Proof.
  intros Ht He HB U. rewrite (called _ _ _ _ _ Ht He). pose proof (taken_lengths _ _ _ Ht) as L. pose proof (proj1 HB) as LB.
  destruct (levels_ok f (map2 extra expected args') os (list_max (map2 extra expected args')) B args') as (r & Hr & Hs & Hv); auto.
  - apply extra_fits; auto.
  - apply extra_deep; auto.
  - rewrite min_max by auto. rewrite <- LB. exact U.
  - rewrite min_max in Hv by auto. exists r. split; auto. split; auto. intros bi ix I. destruct (U bi) as (r' & Hr' & _); auto; [clear - I; induction I; cbn; auto|]. exists r'. split; auto.
Qed.
(* ... raises what the function raises on all items *)
Theorem C52_raises expected allow f args args' B e :
  all_taken expected args args' -> allow = true \/ Forall2 enough expected args' ->
  batch_shape (map2 extra expected args') args' B ->
  (forall bi, length bi = length B -> inside bi B \/ In 0 B -> f (map2 (item bi) (map2 extra expected args') args') = Err e) ->
  expects_ndim expected allow f args = Err e.
Proof.
  intros Ht He HB U. rewrite (called _ _ _ _ _ Ht He). pose proof (taken_lengths _ _ _ Ht) as L. pose proof (proj1 HB) as LB.
  apply (levels_raise f _ e _ B); auto.
  - apply extra_fits; auto.
  - apply extra_deep; auto.
  - rewrite min_max by auto. rewrite <- LB. exact U.
Qed.
(* ... fails if the batch dimensions of the arguments do not agree; there is no broadcasting of dimensions of size 1 *)
Theorem C52_mismatch expected allow f args args' :
  all_taken expected args args' -> allow = true \/ Forall2 enough expected args' ->
  (forall B, ~ batch_shape (map2 extra expected args') args' B) -> expects_ndim expected allow f args = Err ValueError.
Proof.
  intros Ht He HN. rewrite (called _ _ _ _ _ Ht He). pose proof (taken_lengths _ _ _ Ht) as L. apply levels_mismatch; auto.
  - rewrite map2_length. lia.
  - apply extra_deep; auto.
  - intros B LB F. apply (HN B). apply fits_batch; auto.
Qed.
(* ... fails if an argument has too few dimensions, unless this is allowed *)
Theorem C52_too_few_dimensions expected f args args' :
  all_taken expected args args' -> ~ Forall2 enough expected args' -> expects_ndim expected false f args = Err ValueError.
Proof.
  intros Ht Hn. unfold NdimModel.expects_ndim. generalize (seen expected args) as ts. intros ts.
  enough (H : sequence (map2 (convert cast is_bool bool_dtype false ts) expected args) = Err ValueError) by (rewrite H; reflexivity).
  revert args args' Ht Hn. induction expected as [|e es IH]; intros [|a args] args' [L F] Hn; try discriminate; cbn in *; [exfalso; apply Hn; inversion F; constructor|].
  destruct args' as [|a' args']; [inversion F|]. apply f2_inv in F. destruct F as [T F]. cbn in T.
  assert (Hc : (enough e a' /\ convert cast is_bool bool_dtype false ts e a = Ok a') \/ convert cast is_bool bool_dtype false ts e a = Err ValueError).
  { clear - T. destruct T as [a|n t|n t]; unfold convert; cbn [bind]; try (left; split; [exact I|reflexivity]); (destruct (Nat.ltb_spec (length (shape t)) n); cbn [andb negb enough]; auto). }
  destruct Hc as [[En ->] | ->]; [|reflexivity]. rewrite (IH args args'); [reflexivity|split; auto|]. intros G. apply Hn. constructor; auto.
Qed.
(* a rowwise function works on the rows of its argument *)
Theorem C52_rowwise (f : func) t B n os : shape t = B ++ [n] ->
  (forall bi, length bi = length B -> inside bi B \/ In 0 B -> exists r, f [ATensor (T [n] (fun ix => at_ t (bi ++ ix)) (dtype t) (device t))] = Ok r /\ shape r = os) ->
  exists r, rowwise f [ATensor t] = Ok r /\ shape r = B ++ os /\
    forall bi ix, inside bi B -> exists r', f [ATensor (T [n] (fun ix => at_ t (bi ++ ix)) (dtype t) (device t))] = Ok r' /\ at_ r (bi ++ ix) = at_ r' ix.
Proof.
  intros Hs U. assert (Lx : length (shape t) - 1 = length B) by (rewrite Hs, app_length; cbn; lia).
  assert (Hi : forall bi, length bi = length B -> map2 (item bi) (map2 extra [Some 1] [ATensor t : arg]) [ATensor t] = [ATensor (T [n] (fun ix => at_ t (bi ++ ix)) (dtype t) (device t)) : arg]).
  { intros bi Lb. cbn [map2 extra item]. rewrite Lx, lastn_full, Hs, skipn_app, skipn_all, Nat.sub_diag by auto. reflexivity. }
  destruct (C52_batched [Some 1] false f [ATensor t] [ATensor t] B os) as (r & Hr & Hsh & Hv).
  - split; [reflexivity|]. repeat constructor.
  - right. repeat constructor. cbn. rewrite Hs, app_length. cbn. lia.
  - split; [cbn [map2 extra list_max fold_right]; lia|]. cbn [map2 extra]. repeat constructor. rewrite Lx, lastn_all, Hs, firstn_app, firstn_all, Nat.sub_diag, app_nil_r. reflexivity.
  - intros bi Lb I. rewrite Hi by auto. auto.
  - exists r. split; auto. split; auto. intros bi ix I. destruct (Hv bi ix I) as (r' & Hr' & Hat). exists r'. split; auto. rewrite <- (Hi bi); auto. clear - I. induction I; cbn; auto.
Qed.

(* C116: a number becomes a tensor with the dtype and the device of the tensors among the arguments *)
Definition with_tensor (dt dv : nat) (e : option nat) (a : arg) : arg :=
  match e, a with
  | Some _, AScalar s => if is_bool s then ATensor (T [] (fun _ => cast bool_dtype s) bool_dtype dv) else ATensor (T [] (fun _ => cast dt s) dt dv)
  | _, _ => a
  end.
Lemma seen_all : forall es (args : list arg) (P : tensor A -> Prop), (forall t, In (ATensor t) args -> P t) -> Forall P (seen es args).
Proof.
  induction es as [|e es IH]; intros [|a args] P H; try constructor. unfold seen. cbn. apply Forall_app. split; [|apply (IH args P); intros t Ht; apply H; right; auto].
  destruct a; repeat constructor. apply H. left. reflexivity.
Qed.
Lemma unique_all x : forall l, Forall (eq x) l -> l <> [] -> unique l = Ok x.
Proof.
  intros [|y l] F Hn; [congruence|]. apply Forall_inv in F as F1. subst y. apply Forall_inv_tail in F. cbn. rewrite (proj2 (forallb_eq x l) F). reflexivity.
Qed.
Theorem C116_scalars_partial expected allow f args dt dv k n t :
  nth_error expected k = Some n -> nth_error args k = Some (ATensor t) ->
  (forall t, In (ATensor t) args -> dtype t = dt /\ device t = dv) ->
  expects_ndim expected allow f args = expects_ndim expected allow f (map2 (with_tensor dt dv) expected args).
Proof.
  intros He Ha Hall. unfold NdimModel.expects_ndim. set (ts' := seen expected (map2 _ expected args)).
  assert (Hs : seen expected args <> []).
  { clear - He Ha. revert expected args He Ha. induction k as [|k IH]; intros [|e es] [|a args] He Ha; try discriminate; cbn in *; [injection Ha as ->; discriminate|].
    unfold seen in *. cbn. intros Q. apply app_eq_nil in Q. destruct Q as [_ Q]. revert Q. apply IH; auto. }
  pose proof (seen_all expected args (fun t => dtype t = dt /\ device t = dv) Hall) as F. set (ts := seen expected args) in *. clearbody ts ts'.
  assert (Ed : unique (map dtype ts) = Ok dt) by (apply unique_all; [clear - F; induction F as [|? ? [<- <-] F IH]; constructor; auto|destruct ts; [congruence|discriminate]]).
  assert (Ev : unique (map device ts) = Ok dv) by (apply unique_all; [clear - F; induction F as [|? ? [<- <-] F IH]; constructor; auto|destruct ts; [congruence|discriminate]]).
  assert (Hc : map2 (convert cast is_bool bool_dtype allow ts) expected args = map2 (convert cast is_bool bool_dtype allow ts') expected (map2 (with_tensor dt dv) expected args)).
  { clear - Ed Ev. revert args. induction expected as [|e es IH]; intros [|a args]; cbn [map2]; auto. f_equal; [|apply IH].
    destruct e as [m|], a as [t|s|t|o]; cbn [with_tensor]; auto. unfold convert at 1. unfold convert_scalar. rewrite Ev. cbn [bind]. destruct (is_bool s); cbn; [reflexivity|]. rewrite Ed. reflexivity. }
  rewrite Hc. reflexivity.
Qed.
(* ... and without tensors among the arguments numbers are refused *)
Theorem C116_no_tensor expected allow (f : func) args k n s :
  length expected = length args -> nth_error expected k = Some (Some n) -> nth_error args k = Some (AScalar s) -> (forall t, ~ In (ATensor t) args) ->
  (forall i e a, i < k -> nth_error expected i = Some e -> nth_error args i = Some a -> e = None) ->
  expects_ndim expected allow f args = Err TypeError.
Proof.
  intros L He Ha Hno Hfirst. unfold NdimModel.expects_ndim. assert (Es : seen expected args = []).
  { pose proof (seen_all expected args (fun _ => False) (fun t Ht => Hno t Ht)) as F. destruct (seen expected args); auto. inversion F. contradiction. }
  rewrite Es. enough (H : sequence (map2 (convert cast is_bool bool_dtype allow []) expected args) = Err TypeError) by (rewrite H; reflexivity).
  clear - He Ha Hfirst. revert expected args He Ha Hfirst. induction k as [|k IH]; intros [|e es] [|a args] He Ha Hf; try discriminate; cbn in *.
  - injection He as ->. injection Ha as ->. reflexivity.
  - rewrite (Hf 0 e a) by (auto; lia). cbn. rewrite (IH es args); auto. intros i e' a' Hi A1 A2. apply (Hf (S i) e' a'); auto. lia.
Qed.
(* C116 is false with respect to arguments for which no number of dimensions is declared: a tensor among these, of another dtype, makes it fail *)
Theorem C116_undeclared_refuted n m allow (f : func) (s : Sc) t t' :
  is_bool s = false -> dtype t <> dtype t' -> expects_ndim [Some n; Some m; None] allow f [AScalar s; ATensor t; ATensor t'] = Err TypeError.
Proof.
  intros Hb Hd. unfold NdimModel.expects_ndim. cbn. unfold convert at 1. cbn. unfold convert_scalar. cbn. destruct (device t =? device t'); cbn; [|reflexivity].
  rewrite Hb. destruct (Nat.eqb_spec (dtype t) (dtype t')); [contradiction|reflexivity].
Qed.

(* C117: the function gets all arguments if there are not more than declared *)
Theorem C117_arguments_partial expected allow args args' :
  all_taken expected args args' -> (forall e a, In (e, a) (combine expected args') -> extra e a = 0) -> allow = true \/ Forall2 enough expected args' ->
  forall f, expects_ndim expected allow f args = f args'.
Proof.
  intros Ht Hx He f. rewrite (called _ _ _ _ _ Ht He). pose proof (taken_lengths _ _ _ Ht) as L.
  assert (H0 : list_max (map2 extra expected args') = 0).
  { clear - Hx. revert args' Hx. induction expected as [|e es IH]; intros [|a args'] Hx; cbn [map2]; auto. cbn. change (fold_right Init.Nat.max 0 (map2 extra es args')) with (list_max (map2 extra es args')).
    rewrite IH, (Hx e a); auto; [left; auto|]. intros e' a' Hin. apply Hx. right. auto. }
  rewrite H0. reflexivity.
Qed.
(* ... and is false otherwise: the arguments after the declared ones are dropped without an error *)
Theorem C117_dropped_refuted expected allow (f : func) args more : length args = length expected ->
  expects_ndim expected allow f (args ++ more) = expects_ndim expected allow f args.
Proof.
  intros L. unfold NdimModel.expects_ndim.
  assert (H : combine expected (args ++ more) = combine expected args).
  { revert args L. induction expected as [|e es IH]; intros [|a args] L; try discriminate; cbn; [reflexivity|]. rewrite IH; auto. }
  assert (Hm : forall g : option nat -> arg -> result arg, map2 g expected (args ++ more) = map2 g expected args).
  { intros g. clear H. revert args L. induction expected as [|e es IH]; intros [|a args] L; try discriminate; cbn; [reflexivity|]. rewrite IH; auto. }
  unfold seen. rewrite H, Hm. reflexivity.
Qed.
End THEOREMS.
Print Assumptions C52_batched.
Print Assumptions C52_raises.
Print Assumptions C52_mismatch.
Print Assumptions C52_too_few_dimensions.
Print Assumptions C52_rowwise.
Print Assumptions C116_scalars_partial.
Print Assumptions C116_no_tensor.
Print Assumptions C116_undeclared_refuted.
Print Assumptions C117_arguments_partial.
Print Assumptions C117_dropped_refuted.

(* ---- examples: a scaled vector; one scale per row of each matrix in a batch of matrices ---- *)
Definition val (n : nat) (s : nat) := s.
Definition nob (s : nat) := false.
Definition fscale : func nat nat unit := fun args =>
  match args with
  | [ATensor x; ATensor s] => Ok (T (shape x) (fun ix => at_ x ix * at_ s []) (dtype x) (device x))
  | _ => Err TypeError
  end.
Definition xs3 : tensor nat := T [2; 2; 3] (fun ix => match ix with [i; j; k] => 100 * i + 10 * j + k | _ => 0 end) 1 0.
Definition ss : tensor nat := T [2] (fun ix => match ix with [j] => 1 + j | _ => 0 end) 1 0.
Example C52_example : exists r, expects_ndim val nob 9 [Some 1; Some 0] false fscale [ATensor xs3; ATensor ss] = Ok r /\ shape r = [2; 2; 3] /\ at_ r [1; 1; 2] = 224 /\ at_ r [1; 0; 2] = 102.
Proof.
  destruct (C52_batched val nob 9 [Some 1; Some 0] false fscale [ATensor xs3; ATensor ss] [ATensor xs3; ATensor ss] [2; 2] [3]) as (r & Hr & Hs & Hv).
  - split; [reflexivity|]. repeat constructor.
  - right. repeat constructor.
  - split; [reflexivity|]. repeat constructor.
  - intros bi Lb _. eexists. split; reflexivity.
  - exists r. split; auto. split; auto. split.
    + destruct (Hv [1; 1] [2]) as (r' & Hr' & H); [repeat constructor|]. injection Hr' as <-. exact H.
    + destruct (Hv [1; 0] [2]) as (r' & Hr' & H); [repeat constructor|]. injection Hr' as <-. exact H.
Qed.
Example C52_mismatch_example : expects_ndim val nob 9 [Some 1; Some 0] false fscale [ATensor (T [3; 4] (fun _ => 0) 1 0); ATensor ss] = Err ValueError.
Proof.
  apply (C52_mismatch val nob 9 _ _ _ _ [ATensor (T [3; 4] (fun _ => 0) 1 0); ATensor ss]); [split; [reflexivity|repeat constructor]|right; repeat constructor|].
  intros B [LB F]. destruct B as [|b [|]]; try discriminate. apply f2_inv in F. destruct F as [F1 F]. apply f2_inv in F. destruct F as [F2 _]. cbn in F1, F2. congruence.
Qed.
Example C52_too_few_example : expects_ndim val nob 9 [Some 1; Some 0] false fscale [ATensor (T [] (fun _ => 0) 1 0); ATensor ss] = Err ValueError.
Proof.
  apply (C52_too_few_dimensions val nob 9 _ _ _ [ATensor (T [] (fun _ => 0) 1 0); ATensor ss]); [split; [reflexivity|repeat constructor]|].
  intros F. apply f2_inv in F. destruct F as [F1 _]. cbn in F1. lia.
Qed.
Example C52_raises_example : expects_ndim val nob 9 [Some 1] false fscale [ATensor xs3] = Err TypeError.
Proof.
  apply (C52_raises val nob 9 _ _ _ _ [ATensor xs3] [2; 2]); [split; [reflexivity|repeat constructor]|right; repeat constructor|split; [reflexivity|repeat constructor]|].
  reflexivity.
Qed.
Definition fsum : func nat nat unit := fun args =>
  match args with
  | [ATensor x] => Ok (T [] (fun _ => fold_right Nat.add 0 (map (fun i => at_ x [i]) (seq 0 (hd 0 (shape x))))) (dtype x) (device x))
  | _ => Err TypeError
  end.
Example C52_rowwise_example : exists r, rowwise val nob 9 fsum [ATensor xs3] = Ok r /\ shape r = [2; 2] /\ at_ r [1; 1] = 333.
Proof.
  destruct (C52_rowwise val nob 9 fsum xs3 [2; 2] 3 [] eq_refl) as (r & Hr & Hs & Hv).
  - intros bi _ _. eexists. split; reflexivity.
  - exists r. split; auto. split; auto. destruct (Hv [1; 1] []) as (r' & Hr' & H); [repeat constructor|]. injection Hr' as <-. exact H.
Qed.
Example C116_example : expects_ndim val nob 9 [Some 1; Some 0] false fscale [ATensor xs3; AScalar 5] = expects_ndim val nob 9 [Some 1; Some 0] false fscale [ATensor xs3; ATensor (T [] (fun _ => 5) 1 0)].
Proof.
  apply (C116_scalars_partial val nob 9 [Some 1; Some 0] false fscale [ATensor xs3; AScalar 5] 1 0 0 (Some 1) xs3); auto.
  intros t [H|[H|[]]]; [injection H as <-; auto|discriminate].
Qed.
Example C116_no_tensor_example : expects_ndim val nob 9 [Some 1; Some 0] false fscale [AScalar 4; AScalar 5] = Err TypeError.
Proof.
  apply (C116_no_tensor val nob 9 _ _ _ _ 0 1 4); auto; [|intros; lia]. intros t [H|[H|[]]]; discriminate.
Qed.
Example C116_refuted_example : expects_ndim val nob 9 [Some 0; Some 1; None] false fscale [AScalar 4; ATensor xs3; ATensor (T [] (fun _ => 0) 2 0)] = Err TypeError.
Proof. apply C116_undeclared_refuted; [reflexivity|discriminate]. Qed.
Example C117_example : expects_ndim val nob 9 [None; Some 3] false fscale [AObject tt; ANumpy xs3] = fscale [AObject tt; ATensor xs3].
Proof.
  apply (C117_arguments_partial val nob 9 [None; Some 3] false [AObject tt; ANumpy xs3] [AObject tt; ATensor xs3]); [split; [reflexivity|repeat constructor]| |right; repeat constructor].
  intros e a [H|[H|[]]]; injection H as <- <-; reflexivity.
Qed.

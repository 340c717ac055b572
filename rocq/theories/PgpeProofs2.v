(* Optimizers of both interfaces move the center in the same way; the searches simulate each other. *)
From Coq Require Import Reals Lra Lia String.
From Verif Require Import Prelude RollProofs ExtR ClipUpModel ClipUpProofs FuncModel FuncSpec FuncProofs FuncProofs2 PgpeModel PgpeSpec PgpeProofs.
Open Scope R_scope.

(* ------------------------------------------------------------ configurations *)
Lemma get_allowed k allowed c : keys_among allowed c = true -> existsb (String.eqb k) allowed = false -> get k c = None.
Proof.
  unfold keys_among, get. intros A N. induction c as [|[k' v] c IH]; cbn in *; auto.
  apply andb_true_iff in A as [A1 A2]. cbn in *. destruct (String.eqb_spec k' k) as [->|]; auto. congruence.
Qed.

(* ------------------------------------------------------------ centers *)
Definition full (n : nat) (v : vec) : Prop := match v with None => True | Some l => length l = n end.
Lemma numbers_length n v : full n v -> length (numbers n v) = n.
Proof. destruct v; cbn; intros; [rewrite map_length; auto|apply repeat_length]. Qed.
Lemma map2_none_l n (l : list num) : length l = n -> map2 nadd (repeat None n) l = repeat None n.
Proof. intros <-. induction l; cbn; [auto|f_equal; auto]. Qed.
Lemma map2_none_r n (l : list num) : length l = n -> map2 nadd l (repeat None n) = repeat None n.
Proof. intros <-. induction l as [|a l IH]; cbn; [auto|f_equal; auto]. destruct a; auto. Qed.
Lemma numbers_add n x v : full n x -> full n v -> map2 nadd (numbers n x) (numbers n v) = numbers n (vadd x v) /\ full n (vadd x v).
Proof.
  intros X V. destruct x as [x|]; [destruct v as [v|]|].
  - cbn [numbers vadd full] in *. split; [|rewrite add_length; congruence]. subst n. revert v V. induction x as [|a x IH]; intros [|b v] V; try discriminate; cbn; auto.
    f_equal. apply IH. auto.
  - cbn [numbers vadd]. split; [|exact I]. apply map2_none_r. rewrite map_length. auto.
  - cbn [vadd numbers]. split; [|exact I]. apply map2_none_l. apply numbers_length. auto.
Qed.
Lemma velocity_agree c s g : matching c s -> length g = solution_length c ->
  exists c', ascent c g = Ok (c', fvelocity (fclipup_tell s g)) /\ matching c' (fclipup_tell s g) /\ solution_length c' = solution_length c.
Proof.
  intros (A & B & C & D) L. unfold ascent. rewrite L, Nat.eqb_refl. cbv zeta.
  set (w0 := clip _ _). assert (E : w0 = fvelocity (fclipup_tell s g)).
  { unfold w0, fclipup_tell. cbv zeta. cbn [fvelocity]. rewrite <- A, <- B, <- C, <- D.
    destruct (unit_of g) as [u|]; [|destruct (velocity c); reflexivity]. cbn [vscale].
    replace (map (fun a => a * stepsize c) u) with (scale (stepsize c) u) by (apply map_ext; intros; ring).
    destruct (velocity c) as [w|]; [|reflexivity]. cbn [vscale vadd]. rewrite clip_some. unfold clipped.
    destruct (Rlt_dec _ _); [|reflexivity]. rewrite scale_div. reflexivity. }
  rewrite E. eexists. split; [reflexivity|]. split; [|reflexivity]. unfold matching. cbn. auto.
Qed.
Lemma velocity_full n s g : full n (fvelocity s) -> length g = n -> full n (fvelocity (fclipup_tell s g)).
Proof.
  intros V L. unfold fclipup_tell. cbv zeta. cbn [fvelocity]. unfold unit_of. destruct (fvelocity s) as [v|], (Req_EM_T (norm g) 0); cbn; auto.
  assert (X : length (add (scale (fmomentum s) v) (scale (flr s) (map (fun a => a / norm g) g))) = n).
  { rewrite add_length; unfold scale; rewrite !map_length; auto. cbn in V. congruence. }
  destruct (Rlt_dec _ _); cbn; auto. unfold scale at 1. rewrite !map_length. auto.
Qed.

(* the optimizers have been told the same gradients, and the class has arrived where the functional center is *)
Definition osim (n : nat) (c : coptimizer) (f : foptimizer) : Prop :=
  match c, f with
  | CClip c, FClip s => matching c s /\ solution_length c = n /\ full n (fcenter s) /\ full n (fvelocity s)
  | CTorch (WAdam a), FAdam s => exists past, adam_inv n past a /\ fadam_inv n past s /\
      ta_lr a = fa_lr s /\ ta_beta1 a = fa_beta1 s /\ ta_beta2 a = fa_beta2 s /\ ta_eps a = fa_eps s
  | CTorch (WSgd a), FSgd s => exists past, sgd_inv n past a /\ fsgd_inv n past s /\
      (forall l, sgd_rule a l = Some (sgd_move (fs_lr s) (fs_momentum s) l))
  | _, _ => False
  end.
Lemma osim_length n c f : osim n c f -> length (opt_ask n f) = n.
Proof.
  destruct c as [|c|[a|a]], f as [s|s|s]; cbn [osim]; try contradiction.
  - intros (_ & _ & F & _). apply numbers_length. auto.
  - intros (past & _ & I & _). apply I.
  - intros (past & _ & I & _). apply I.
Qed.
Lemma added n (x y z : list num) rule : length x = n -> length y = n -> length z = n ->
  (forall j, (j < n)%nat -> nth_error y j = Some (rule j)) ->
  (forall j c, (j < n)%nat -> nth_error x j = Some c -> nth_error z j = Some (nadd c (rule j))) -> z = map2 nadd x y.
Proof.
  intros X Y Z HY HZ. apply nth_error_ext. intros j. destruct (Nat.lt_ge_cases j n) as [L|L].
  - destruct (nth_error x j) as [c|] eqn:E; [|apply nth_error_None in E; lia].
    rewrite (HZ j c L E). symmetry. apply map2_nth2; auto.
  - rewrite !(proj2 (nth_error_None _ _)); auto; rewrite ?map2_length; lia.
Qed.
Lemma osim_step n c f lr g : osim n c f -> length g = n ->
  exists c' d, follow_mu lr c g = Ok (c', d) /\ osim n c' (opt_tell f g) /\ opt_ask n (opt_tell f g) = map2 nadd (opt_ask n f) d.
Proof.
  intros S L. pose proof (osim_length _ _ _ S) as LA. destruct c as [|c|[a|a]], f as [s|s|s]; cbn [osim] in S; try contradiction.
  - destruct S as (M & N & FC & FV). rewrite <- N in L. destruct (velocity_agree c s g M L) as (c' & E & M' & N'). rewrite N in L.
    pose proof (velocity_full n s g FV L) as FV'. destruct (numbers_add n (fcenter s) (fvelocity (fclipup_tell s g)) FC FV') as [HA HF].
    cbn [follow_mu]. rewrite E. cbn [bind fst snd]. eexists _, _. split; [reflexivity|]. cbn [opt_tell osim opt_ask]. unfold fclipup_ask.
    change (fcenter (fclipup_tell s g)) with (vadd (fcenter s) (fvelocity (fclipup_tell s g))). rewrite N.
    split; [|congruence]. split; auto. split; [congruence|]. split; auto.
  - destruct S as (past & IA & IF & E1 & E2 & E3 & E4).
    destruct (adam_ascent n past a g IA L) as (a' & step & E & IA' & F1 & F2 & F3 & F4 & LS & HS).
    destruct (fadam_ok n past s g IF L) as (IF' & G1 & G2 & G3 & G4 & HC).
    cbn [follow_mu]. rewrite E. cbn [bind fst snd]. eexists _, _. split; [reflexivity|]. cbn [opt_tell osim opt_ask].
    split; [exists (past ++ [g]); repeat (split; auto); congruence|]. unfold fadam_ask.
    apply (added n _ _ _ (fun j => adam_move (ta_lr a) (ta_beta1 a) (ta_beta2 a) (ta_eps a) (coordinate j (past ++ [g])))); auto.
    + apply IF'.
    + intros j c J X. rewrite E1, E2, E3, E4. auto.
  - destruct S as (past & IA & IF & R).
    destruct (sgd_ascent n past a g IA L) as (a' & step & E & IA' & F1 & LS & HS).
    destruct (fsgd_ok n past s g IF L) as (IF' & G1 & G2 & HC).
    cbn [follow_mu]. rewrite E. cbn [bind fst snd]. eexists _, _. split; [reflexivity|]. cbn [opt_tell osim opt_ask].
    split; [exists (past ++ [g]); repeat (split; auto); intros; rewrite F1, G1, G2; auto|]. unfold fsgd_ask.
    apply (added n _ _ _ (fun j => sgd_rule a (coordinate j (past ++ [g])))); auto.
    + apply IF'.
    + intros j c J X. rewrite R. auto.
Qed.
Lemma coordinate_nil j : coordinate j [] = []. Proof. reflexivity. Qed.
Lemma avg_nil b : avg b [] = 0. Proof. unfold avg. rewrite discounted_nil. ring. Qed.
Lemma osim_init center lr optimizer oconf c f :
  class_optimizer (length center) lr optimizer oconf = Ok c -> functional_optimizer center lr optimizer oconf = Ok f ->
  osim (length center) c f /\ opt_ask (length center) f = map Some center.
Proof.
  intros HC HF. destruct optimizer as [s|]; [|discriminate]. unfold class_optimizer, functional_optimizer in *. cbv zeta in *.
  set (cf := match oconf with None => [] | Some c => c end) in *.
  destruct (String.eqb_spec s "adam") as [->|NA].
  - cbn [existsb String.eqb Ascii.eqb Bool.eqb orb] in HC. destruct (keys_among _ cf) eqn:K1 in HF; [|discriminate]. inversion HF; subst f; clear HF.
    destruct (keys_among _ cf) eqn:K2 in HC; [|discriminate]. rewrite (get_allowed "amsgrad" _ _ K1 eq_refl) in HC. cbn [flag option_map] in HC.
    unfold adam_class, tadam_init in HC.
    assert (HB : exists betas, (match get "beta1" cf, get "beta2" cf with None, None => Ok None | Some b1, Some b2 => Ok (Some (b1, b2)) | _, _ => Err ValueError end) = Ok betas /\
       match betas with None => (9 / 10, 999 / 1000) | Some x => x end
       = (match get "beta1" cf with None => 9 / 10 | Some x => x end, match get "beta2" cf with None => 999 / 1000 | Some x => x end)).
    { destruct (get "beta1" cf), (get "beta2" cf); try discriminate; eexists; split; reflexivity. }
    destruct HB as (betas & HB & EB). rewrite HB in HC. cbn [bind] in HC. cbv zeta in HC. rewrite EB in HC. cbn [fst snd] in HC.
    set (b1 := match get "beta1" cf with None => 9 / 10 | Some x => x end) in *. set (b2 := match get "beta2" cf with None => 999 / 1000 | Some x => x end) in *.
    destruct (Rlt_dec lr 0); [discriminate|]. destruct (Rlt_dec _ 0); [discriminate|].
    destruct (in_unit b1) eqn:I1; [|discriminate]. destruct (in_unit b2) eqn:I2; [|discriminate]. cbn [negb rmap bind] in HC. inversion HC; subst c; clear HC.
    assert (PB : forall b, in_unit b = true -> proper_beta b).
    { intros b. unfold in_unit, proper_beta. destruct (Rlt_dec b 0); [discriminate|]. destruct (Rlt_dec b 1); [|discriminate]. intros _. lra. }
    split; [|reflexivity]. cbn [osim]. exists []. split.
    + unfold adam_inv. cbn [ta_t ta_cells ta_amsgrad ta_beta1 ta_beta2]. rewrite repeat_length. repeat split; auto; try apply PB; auto.
      intros j J. exists (Some 0). rewrite repeat_nth by auto. rewrite coordinate_nil. change (sq []) with (@nil R). rewrite !avg_nil. auto.
    + split; [|cbn; auto]. unfold fadam_inv, fadam_init. cbn [fa_t fa_m fa_v fa_center fa_beta1 fa_beta2]. fold b1 b2.
      rewrite !repeat_length, map_length. repeat split; auto; try apply PB; auto;
        rewrite repeat_nth by auto; rewrite coordinate_nil; try change (sq []) with (@nil R); rewrite avg_nil; auto.
  - destruct (String.eqb_spec s "clipup") as [->|NC].
    + cbn [existsb String.eqb Ascii.eqb Bool.eqb orb] in HC. destruct (keys_among _ cf) eqn:K1 in HF; [|discriminate]. destruct (keys_among _ cf) eqn:K2 in HC; [|discriminate].
      set (mom := match get "momentum" cf with None => 9 / 10 | Some x => x end) in *.
      unfold fclipup_init in HF. unfold clipup_init in HC. cbv zeta in HC.
      destruct (Rlt_dec lr 0); [discriminate|]. destruct (Rlt_dec mom 0); [discriminate|]. destruct (Rlt_dec 1 mom); [discriminate|].
      destruct (Rlt_dec _ 0); [discriminate|]. cbn [rmap bind] in HC. inversion HC; subst c; clear HC.
      destruct (get "max_speed" cf); cbn [rmap bind] in HF; inversion HF; subst f; clear HF;
        (split; [|reflexivity]); cbn; unfold matching; cbn; repeat split; auto; apply repeat_length.
    + destruct (existsb (String.eqb s) ["sgd"; "sga"; "momentum"]%string) eqn:ES; [|discriminate].
      destruct (keys_among _ cf) eqn:K1 in HF; [|discriminate]. inversion HF; subst f; clear HF.
      assert (E : s = "sgd"%string \/ s = "sga"%string).
      { cbn [existsb] in ES. destruct (String.eqb_spec s "sgd"); auto. destruct (String.eqb_spec s "sga"); auto.
        destruct (String.eqb_spec s "momentum") as [->|]; [|discriminate]. cbn in HC. discriminate. }
      assert (HC' : (if keys_among (["stepsize"; "dtype"; "solution_length"; "device"]%string ++ ["momentum"; "dampening"; "nesterov"]%string) cf
                     then rmap CTorch (sgd_class (length center) lr (get "momentum" cf) (get "dampening" cf) (flag (get "nesterov" cf))) else Err TypeError) = Ok c).
      { destruct E as [-> | ->]; exact HC. }
      clear HC. destruct (keys_among _ cf) eqn:K2 in HC'; [|discriminate].
      rewrite (get_allowed "dampening" _ _ K1 eq_refl), (get_allowed "nesterov" _ _ K1 eq_refl) in HC'. cbn [flag option_map] in HC'.
      unfold sgd_class, tsgd_init in HC'. cbv zeta in HC'. cbn [andb] in HC'. unfold fsgd_init.
      set (mom := match get "momentum" cf with None => 0 | Some x => x end) in *.
      destruct (Rlt_dec lr 0); [discriminate|]. destruct (Rlt_dec mom 0); [discriminate|]. cbn [rmap bind] in HC'. inversion HC'; subst c; clear HC'.
      split; [|reflexivity]. cbn [osim]. exists []. split; [|split].
      * unfold sgd_inv. cbn. auto.
      * unfold fsgd_inv. cbn [fs_velocity fs_center fs_lr fs_momentum]. rewrite repeat_length, map_length. repeat split; auto.
        intros j J. rewrite repeat_nth by auto. unfold sgd_move. rewrite coordinate_nil, discounted_nil. f_equal. f_equal. ring.
      * intros l. unfold sgd_rule. cbn [ts_momentum ts_nesterov ts_dampening ts_lr fs_lr fs_momentum]. unfold sgd_move.
        destruct (Req_EM_T mom 0) as [Z|Z]; [rewrite Z, discounted_0; auto|]. rewrite buffer_no_dampening. auto.
Qed.

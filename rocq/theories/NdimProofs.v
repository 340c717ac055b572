From Verif Require Import Prelude NdimModel NdimSpec.

Lemma lastn_all {X} (l : list X) : lastn (length l) l = l.
Proof. unfold lastn. rewrite Nat.sub_diag. reflexivity. Qed.
Lemma lastn_0 {X} (l : list X) : lastn 0 l = [].
Proof. unfold lastn. rewrite Nat.sub_0_r. apply skipn_all. Qed.
Lemma lastn_cons {X} k (x : X) l : k <= length l -> lastn k (x :: l) = lastn k l.
Proof. intros H. unfold lastn. cbn [length]. replace (S (length l) - k) with (S (length l - k)) by lia. reflexivity. Qed.
Lemma lastn_full {X} k (l : list X) : k = length l -> lastn k l = l.
Proof. intros ->. apply lastn_all. Qed.
Lemma lastn_length {X} k (l : list X) : k <= length l -> length (lastn k l) = k.
Proof. intros H. unfold lastn. rewrite skipn_length. lia. Qed.

Lemma f2_inv {X Y} (R : X -> Y -> Prop) x xs y ys : Forall2 R (x :: xs) (y :: ys) -> R x y /\ Forall2 R xs ys.
Proof. intros H. inversion H; auto. Qed.

Section PROOFS.
Context {A Sc Obj : Type}.
Notation arg := (arg A Sc Obj).
Notation func := (func A Sc Obj).

Fixpoint levels (t : nat) (f : func) (xs : list nat) : func :=
  match t with 0 => f | S k => vmap (levels k f xs) (map (fun x => S k <=? x) xs) end.
Definition stage (k : nat) (e : option nat) (a : arg) : option nat :=
  match e, a with Some n, ATensor t => Some (length (shape t) - Nat.min k (extra e a)) | _, _ => None end.
Lemma stage_0 : forall es args, wrapped_ndims es args = map2 (stage 0) es args.
Proof.
  induction es as [|e es IH]; intros [|a args]; cbn; auto. f_equal; [|apply IH]. destruct e, a; cbn; auto; rewrite Nat.sub_0_r; auto.
Qed.
Lemma stage_dims k : forall es (args : list arg), map2 has_extra es (map2 (stage k) es args) = map (fun x => S k <=? x) (map2 extra es args).
Proof.
  induction es as [|e es IH]; intros [|a args]; cbn [map2 map]; auto. f_equal; [|apply IH].
  destruct e as [n|], a as [t|s|t|o]; cbn [has_extra stage extra]; auto. destruct (Nat.ltb_spec n (length (shape t) - Nat.min k (length (shape t) - n))), (Nat.leb_spec (S k) (length (shape t) - n)); lia.
Qed.
Lemma stage_next k : forall es (args : list arg), map2 (fun (b : bool) w => if b then option_map pred w else w) (map (fun x => S k <=? x) (map2 extra es args)) (map2 (stage k) es args) = map2 (stage (S k)) es args.
Proof.
  induction es as [|e es IH]; intros [|a args]; cbn [map2 map]; auto. f_equal; [|apply IH].
  destruct e as [n|], a as [t|s|t|o]; cbn [stage extra]; auto; try (destruct (S k <=? 0); reflexivity).
  destruct (Nat.leb_spec (S k) (length (shape t) - n)); cbn [option_map]; f_equal; lia.
Qed.
Lemma some_deeper k : forall xs, existsb (fun b => b) (map (fun x => S k <=? x) xs) = (k <? list_max xs).
Proof.
  induction xs as [|x xs IH]; cbn [map existsb list_max fold_right]; [reflexivity|]. rewrite IH. change (fold_right Init.Nat.max 0 xs) with (list_max xs).
  destruct (Nat.leb_spec (S k) x), (Nat.ltb_spec k (list_max xs)), (Nat.ltb_spec k (Nat.max x (list_max xs))); cbn; auto; lia.
Qed.
Lemma wrap_levels f es (args : list arg) : forall d k fuel, k + d = list_max (map2 extra es args) -> d < fuel ->
  wrap fuel es (map2 (stage k) es args) (levels k f (map2 extra es args)) = Ok (levels (list_max (map2 extra es args)) f (map2 extra es args)).
Proof.
  induction d as [|d IH]; intros k fuel Hk Hf; (destruct fuel as [|fuel]; [lia|]); cbn [wrap]; rewrite stage_dims, some_deeper.
  - replace k with (list_max (map2 extra es args)) by lia. rewrite (proj2 (Nat.ltb_ge _ _)) by lia. reflexivity.
  - rewrite (proj2 (Nat.ltb_lt _ _)) by lia. rewrite stage_next. apply (IH (S k) fuel); lia.
Qed.
Lemma extra_le_ndim : forall es args, list_max (map2 (@extra A Sc Obj) es args) <= ndim_max (wrapped_ndims es args).
Proof.
  induction es as [|e es IH]; intros [|a args]; cbn [map2 wrapped_ndims ndim_max fold_right list_max]; auto. specialize (IH args). unfold ndim_max, wrapped_ndims, list_max in *. destruct e, a; cbn [extra]; lia.
Qed.
Lemma wrap_ok f es (args : list arg) : wrap (S (ndim_max (wrapped_ndims es args))) es (wrapped_ndims es args) f = Ok (levels (list_max (map2 extra es args)) f (map2 extra es args)).
Proof.
  rewrite stage_0 at 2. apply (wrap_levels f es args (list_max (map2 extra es args)) 0); auto. pose proof (extra_le_ndim es args). lia.
Qed.

(* ---- one level ---- *)
Definition fits (k : nat) (B : list nat) (x : nat) (a : arg) : Prop :=
  match a with ATensor t => firstn (Nat.min x k) (shape t) = lastn (Nat.min x k) B | _ => x = 0 end.
Definition deep (k : nat) (x : nat) (a : arg) : Prop := match a with ATensor t => Nat.min x k <= length (shape t) | _ => x = 0 end.

Lemma sizes_cons d ds (a : arg) args : sizes (d :: ds) (a :: args) = if d : bool then size0 a :: sizes ds args else sizes ds args.
Proof. destruct d; reflexivity. Qed.
Lemma sizes_all k b B : length B = k -> forall xs args, Forall2 (fits (S k) (b :: B)) xs args -> Forall (eq b) (sizes (map (fun x => S k <=? x) xs) args).
Proof.
  intros Hl xs args F. induction F as [|x a xs args H F IH]; [constructor|]. cbn [map]. rewrite sizes_cons. destruct (Nat.leb_spec (S k) x); auto. constructor; auto.
  destruct a as [t| | |]; cbn [fits size0] in *; try lia. rewrite Nat.min_r in H by lia. rewrite lastn_full in H by (cbn; lia). destruct (shape t); cbn in H; [discriminate|congruence].
Qed.
Lemma sizes_none : forall dims args, length dims = length args -> sizes (Sc:=Sc) (Obj:=Obj) (A:=A) dims args = [] -> existsb (fun b => b) dims = false.
Proof.
  induction dims as [|d dims IH]; intros [|a args] Hl H; try discriminate; auto. cbn in *. destruct d; [discriminate|]. apply (IH args); auto.
Qed.
Lemma forallb_eq b : forall l, forallb (Nat.eqb b) l = true <-> Forall (eq b) l.
Proof.
  intros l. rewrite forallb_forall, Forall_forall. split; intros H x Hx; specialize (H x Hx); [apply Nat.eqb_eq in H|apply Nat.eqb_eq]; auto.
Qed.
Lemma fits_slice i k b B : length B = k -> forall xs args, Forall2 (fits (S k) (b :: B)) xs args -> Forall2 (fits k B) xs (map2 (slice i) (map (fun x => S k <=? x) xs) args).
Proof.
  intros Hl xs args F. induction F as [|x a xs args H F IH]; cbn [map map2]; constructor; auto. destruct a as [t| | |]; cbn [fits slice] in *; try (destruct (_ <=? _); exact H).
  destruct (Nat.leb_spec (S k) x); cbn [slice shape fits].
  - rewrite Nat.min_r in H by lia. rewrite Nat.min_r by lia. rewrite lastn_full in H by (cbn; lia). rewrite (lastn_full k) by auto. destruct (shape t); [discriminate|]. cbn in *. congruence.
  - rewrite Nat.min_l in H by lia. rewrite Nat.min_l by lia. rewrite H. apply lastn_cons. lia.
Qed.
Lemma fits_unslice i k b B : length B = k -> forall xs args, Forall2 (deep (S k)) xs args -> Forall (eq b) (sizes (map (fun x => S k <=? x) xs) args) ->
  Forall2 (fits k B) xs (map2 (slice i) (map (fun x => S k <=? x) xs) args) -> Forall2 (fits (S k) (b :: B)) xs args.
Proof.
  intros Hl xs args D. induction D as [|x a xs args H D IH]; intros Sz F; cbn [map map2] in *; constructor; apply f2_inv in F; destruct F as [H1 F1]; rewrite sizes_cons in Sz.
  - destruct a as [t| | |]; cbn [fits slice deep] in *; try exact H.
    destruct (Nat.leb_spec (S k) x); cbn [slice shape fits] in *.
    + apply Forall_inv in Sz. cbn [size0] in Sz. rewrite Nat.min_r in H, H1 by lia. rewrite Nat.min_r by lia. rewrite (lastn_full (S k)) by (cbn; auto). rewrite lastn_full in H1 by auto. destruct (shape t) as [|n l]; cbn in *; [lia|]. congruence.
    + rewrite Nat.min_l in H1 by lia. rewrite Nat.min_l by lia. rewrite lastn_cons by lia. auto.
  - apply IH; auto. destruct (_ <=? _); [apply Forall_inv_tail in Sz|]; exact Sz.
Qed.
Lemma deep_slice i k : forall xs args, Forall2 (deep (S k)) xs args -> Forall2 (deep k) xs (map2 (slice i) (map (fun x => S k <=? x) xs) args).
Proof.
  intros xs args F. induction F as [|x a xs args H F IH]; cbn [map map2]; constructor; auto. destruct a as [t| | |]; cbn [deep slice] in *; try (destruct (_ <=? _); exact H).
  destruct (Nat.leb_spec (S k) x); cbn [slice shape deep]; [|lia]. destruct (shape t); cbn in *; lia.
Qed.
Lemma item_slice i bi k : length bi = k -> forall xs args, Forall2 (deep (S k)) xs args ->
  map2 (item bi) (map (fun x => Nat.min x k) xs) (map2 (slice i) (map (fun x => S k <=? x) xs) args) = map2 (item (i :: bi)) (map (fun x => Nat.min x (S k)) xs) args.
Proof.
  intros Hl xs args F. induction F as [|x a xs args H F IH]; cbn [map map2]; auto. f_equal; auto.
  destruct a as [t| | |]; cbn [slice]; try (destruct (_ <=? _); reflexivity). destruct (Nat.leb_spec (S k) x); cbn [slice item shape at_ dtype device].
  - rewrite !Nat.min_r by lia. rewrite (lastn_full k bi), (lastn_full (S k) (i :: bi)) by (cbn; auto). cbn in H. destruct (shape t); cbn in *; [lia|]. reflexivity.
  - rewrite !Nat.min_l by lia. rewrite lastn_cons by lia. reflexivity.
Qed.
Lemma item_none : forall xs (args : list arg), length xs = length args -> map2 (item []) (map (fun x => Nat.min x 0) xs) args = args.
Proof.
  induction xs as [|x xs IH]; intros [|a args] Hl; try discriminate; cbn [map map2]; auto. f_equal; [|apply IH; auto].
  rewrite Nat.min_0_r. destruct a as [[sh at0 dt dv]| | |]; cbn; reflexivity.
Qed.
Lemma fits_length k B : forall xs args, Forall2 (fits k B) xs args -> length xs = length args.
Proof. intros xs args F. induction F; cbn; auto. Qed.

Lemma levels_ok f xs os : forall k B args, length B = k -> k <= list_max xs -> Forall2 (fits k B) xs args -> Forall2 (deep k) xs args ->
  (forall bi, length bi = k -> inside bi B \/ In 0 B -> exists r, f (map2 (item bi) (map (fun x => Nat.min x k) xs) args) = Ok r /\ shape r = os) ->
  exists r, levels k f xs args = Ok r /\ shape r = B ++ os /\
    forall bi ix r', inside bi B -> f (map2 (item bi) (map (fun x => Nat.min x k) xs) args) = Ok r' -> at_ r (bi ++ ix) = at_ r' ix.
Proof.
  induction k as [|k IH]; intros B args Hl Hk F D U.
  - destruct B; [|discriminate]. destruct (U [] eq_refl) as (r & Hr & Hs); [left; constructor|]. exists r. cbn [levels]. rewrite item_none in Hr by (eapply fits_length; eauto). split; auto. split; auto.
    intros bi ix r' I Hr'. inversion I; subst. rewrite item_none in Hr' by (eapply fits_length; eauto). cbn. congruence.
  - destruct B as [|b B]; [discriminate|]. cbn in Hl. assert (Hl' : length B = k) by lia. cbn [levels]. unfold vmap.
    pose proof (sizes_all k b B Hl' xs args F) as Sz. pose proof (fits_length _ _ _ _ F) as Lx.
    destruct (sizes _ args) as [|b1 t] eqn:Es. { apply sizes_none in Es; [|rewrite map_length; auto]. rewrite some_deeper in Es. apply Nat.ltb_ge in Es. lia. }
    inversion Sz as [|? ? S1 S2]; subst. rewrite (proj2 (forallb_eq b1 t) S2).
    assert (Hi : forall i, i < b1 \/ b1 = 0 \/ In 0 B -> exists r, levels (length B) f xs (map2 (slice i) (map (fun x => S (length B) <=? x) xs) args) = Ok r /\ shape r = B ++ os /\
       forall bi ix r', inside bi B -> f (map2 (item (i :: bi)) (map (fun x => Nat.min x (S (length B))) xs) args) = Ok r' -> at_ r (bi ++ ix) = at_ r' ix).
    { intros i Hi. destruct (IH B (map2 (slice i) (map (fun x => S (length B) <=? x) xs) args)) as (r & Hr & Hs & Hv); auto; [lia|eapply fits_slice; eauto|apply deep_slice; auto| |].
      - intros bi Lb Hb. rewrite item_slice by auto. apply U; [cbn; auto|]. destruct Hb as [Hb|Hb]; [|right; right; auto]. destruct Hi as [Hi|[Hi|Hi]]; [left; constructor; auto|right; left; auto|right; right; auto].
      - exists r. split; auto. split; auto. intros bi ix r' I Hr'. apply Hv; auto. rewrite item_slice; auto. clear - I. induction I; cbn; auto. }
    destruct (Hi 0) as (r0 & Hr0 & Hs0 & _); [lia|]. rewrite Hr0. cbn [bind]. eexists. split; [reflexivity|]. cbn [shape at_]. split; [rewrite Hs0; reflexivity|].
    intros bi ix r' I Hr'. inversion I as [|i n bi' B' Hin I']; subst. cbn [app]. destruct (Hi i) as (r & Hr & _ & Hv); [auto|]. rewrite Hr. apply Hv; auto.
Qed.
Lemma levels_raise f xs e : forall k B args, length B = k -> k <= list_max xs -> Forall2 (fits k B) xs args -> Forall2 (deep k) xs args ->
  (forall bi, length bi = k -> inside bi B \/ In 0 B -> f (map2 (item bi) (map (fun x => Nat.min x k) xs) args) = Err e) -> levels k f xs args = Err e.
Proof.
  induction k as [|k IH]; intros B args Hl Hk F D U.
  - destruct B; [|discriminate]. cbn [levels]. rewrite <- (U []); [|reflexivity|left; constructor]. rewrite item_none by (eapply fits_length; eauto). reflexivity.
  - destruct B as [|b B]; [discriminate|]. cbn in Hl. assert (Hl' : length B = k) by lia. cbn [levels]. unfold vmap.
    pose proof (sizes_all k b B Hl' xs args F) as Sz. pose proof (fits_length _ _ _ _ F) as Lx.
    destruct (sizes _ args) as [|b1 t] eqn:Es. { apply sizes_none in Es; [|rewrite map_length; auto]. rewrite some_deeper in Es. apply Nat.ltb_ge in Es. lia. }
    inversion Sz as [|? ? S1 S2]; subst. rewrite (proj2 (forallb_eq b1 t) S2).
    rewrite (IH B); auto; [lia|eapply fits_slice; eauto|apply deep_slice; auto|].
    intros bi Lb Hb. rewrite item_slice by auto. apply U; [cbn; auto|]. destruct Hb as [Hb|Hb]; [|right; right; auto]. destruct b1; [right; left; auto|left; constructor; auto; lia].
Qed.
Lemma levels_mismatch f xs : forall k args, length xs = length args -> k <= list_max xs -> Forall2 (deep k) xs args -> (forall B, length B = k -> ~ Forall2 (fits k B) xs args) -> levels k f xs args = Err ValueError.
Proof.
  induction k as [|k IH]; intros args Lx Hk D N.
  - exfalso. apply (N []); auto. clear - D. induction D as [|x a xs args H D IH]; constructor; auto. destruct a as [t| | |]; cbn in *; auto. rewrite Nat.min_0_r. reflexivity.
  - cbn [levels]. unfold vmap. destruct (sizes _ args) as [|b t] eqn:Es; [reflexivity|]. destruct (forallb (Nat.eqb b) t) eqn:Q; [|reflexivity].
    apply forallb_eq in Q. assert (Sz : Forall (eq b) (sizes (map (fun x => S k <=? x) xs) args)) by (rewrite Es; constructor; auto).
    rewrite IH; auto; [rewrite map2_length, map_length; lia|lia|apply deep_slice; auto|].
    intros B Hl F. apply (N (b :: B)); [cbn; auto|]. eapply fits_unslice; eauto.
Qed.
End PROOFS.

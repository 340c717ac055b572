(* Vocabulary for the properties of search distributions. *)
From Coq Require Import Reals String.
From Verif Require Import Prelude DistModel.
Open Scope R_scope.

(* The same gradient up to a factor *)
Definition times (k : R) (g : grads) : grads := (map (option_map (Rmult k)) (fst g), map (option_map (Rmult k)) (snd g)).
Definition translate (d : list R) (x : list R) : list R := map2 Rplus x d.
Definition dilate (k : R) (x : list R) : list R := map (Rmult k) x.
(* all rows have as many entries as the center *)
Definition rows_of (n : nat) (samples : list (list R)) : Prop := Forall (fun r => length r = n) samples.
(* rows 2k and 2k+1 are mirrored around the center *)
Definition mirrored_samples (mu : list R) (samples : list (list R)) : Prop :=
  Nat.even (length samples) = true /\
  forall k a b, nth_error samples (2 * k) = Some a -> nth_error samples (2 * k + 1) = Some b ->
    forall j, (j < length mu)%nat -> nth j a 0 - nth j mu 0 = - (nth j b 0 - nth j mu 0).
Definition zero_gradient (n : nat) (g : grads) : Prop := g = (repeat (Some 0) n, repeat (Some 0) n).
(* division options which depend on the number of solutions only, and do not divide by zero *)
Definition count_option (o : option string) (n : nat) : Prop :=
  o = None \/ (o = Some "num_solutions"%string /\ (1 <= n)%nat) \/ (o = Some "num_directions"%string /\ (2 <= n)%nat).

(* Logarithm of the density of N(mu, s^2), and its weighted sum over the values of one coordinate *)
Definition log_density (mu s x : R) : R := - ln s - (x - mu) * (x - mu) / (2 * (s * s)) - ln (2 * PI) / 2.
Definition weighted_log_density (w xs : list R) (mu s : R) : R :=
  fold_right Rplus 0 (map2 (fun a x => a * log_density mu s x) w xs).
(* weights are centered at zero, unless the ranking has done so *)
Definition mean_of (w : list R) : R := fold_right Rplus 0 w / INR (length w).
Definition used_weights (ranking : string) (w : list R) : list R :=
  if in_dec string_dec ranking ["centered"; "normalized"]%string then w else map (fun x => x - mean_of w) w.
Definition coordinate (samples : list (list R)) (j : nat) : list R := map (fun r => nth j r 0) samples.
(* what the option "divide by" refers to *)
Definition std_of (w : list R) : R :=
  sqrt (fold_right Rplus 0 (map (fun x => (x - mean_of w) * (x - mean_of w)) w) / INR (length w - 1)).
Inductive divisor : option string -> list R -> R -> Prop :=
| by_nothing : forall w, divisor None w 1
| by_solutions : forall w, divisor (Some "num_solutions"%string) w (INR (length w))
| by_directions : forall w, divisor (Some "num_directions"%string) w (INR (length w / 2))
| by_total_weight : forall w, divisor (Some "total_weight"%string) w (fold_right Rplus 0 (map Rabs w))
| by_stdev : forall w, (2 <= length w)%nat -> divisor (Some "weight_stdev"%string) w (std_of w).

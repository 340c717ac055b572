(* What the modules of net/layers.py compute, written with functions of indices instead of lists. *)
From Coq Require Import Reals String.
From Verif Require Import Prelude.
Open Scope R_scope.

(* k is the integer nearest to x, the even one if there are two *)
Definition nearest (x : R) (k : Z) : Prop :=
  Rabs (IZR k - x) <= / 2 /\ (Rabs (IZR k - x) = / 2 -> Z.even k = true).

Fixpoint sum_below (n : nat) (f : nat -> R) : R := match n with O => 0 | S n => sum_below n f + f n end.

(* the j-th output of a linear layer whose parameters begin at position [off] of theta *)
Definition affine (theta : nat -> R) (off nin nout : nat) (bias : bool) (x : nat -> R) (j : nat) : R :=
  sum_below nin (fun i => theta (off + j * nin + i)%nat * x i) + (if bias then theta (off + nout * nin + j)%nat else 0).
Definition affine_size (nin nout : nat) (bias : bool) : nat := (nin + (if bias then 1 else 0)) * nout.

(* the layers of a multilayer perceptron: size, whether there is a bias, activation *)
Record dense := { d_size : nat; d_bias : bool; d_act : R -> R }.
Fixpoint mlp (theta : nat -> R) (off nin : nat) (l : list dense) (x : nat -> R) : nat -> R :=
  match l with
  | nil => x
  | d :: t => mlp theta (off + affine_size nin (d_size d) (d_bias d)) (d_size d) t
                (fun j => d_act d (affine theta off nin (d_size d) (d_bias d) x j))
  end.
Fixpoint mlp_size (nin : nat) (l : list dense) : nat :=
  match l with nil => 0%nat | d :: t => (affine_size nin (d_size d) (d_bias d) + mlp_size (d_size d) t)%nat end.
Fixpoint mlp_out (nin : nat) (l : list dense) : nat := match l with nil => nin | d :: t => mlp_out (d_size d) t end.

(* a list holds the first n values of a function *)
Definition holds (l : list R) (n : nat) (f : nat -> R) : Prop := length l = n /\ forall j, (j < n)%nat -> nth j l 0 = f j.

(* the named activation functions *)
Inductive act_named : string -> (R -> R) -> Prop :=
| act_relu g : (forall x, g x = (x + Rabs x) / 2) -> act_named "relu" g
| act_elu g : (forall x, g x = Rmax 0 x + Rmin 0 (exp x - 1)) -> act_named "elu" g
| act_selu g : (forall x, g x = 1.0507009873554804934193349852946 *
                                (Rmax 0 x + Rmin 0 (1.6732632423543772848170429916717 * (exp x - 1)))) -> act_named "selu" g
| act_tanh g : (forall x, g x = (exp (2 * x) - 1) / (exp (2 * x) + 1)) -> act_named "tanh" g
| act_hardtanh g : (forall x, g x = (Rabs (x + 1) - Rabs (x - 1)) / 2) -> act_named "hardtanh" g
| act_sigmoid g : (forall x, g x = exp x / (exp x + 1)) -> act_named "sigmoid" g
| act_round g : (forall x, exists k, g x = IZR k /\ nearest x k) -> act_named "round" g.

(* the sum of the waves of a LocomotorNet at time t: n amplitudes, n frequencies, n phases, each a vector of length out *)
Definition oscillation (theta : nat -> R) (off n out t j : nat) : R :=
  sum_below n (fun s => theta (off + s * out + j)%nat
                        * sin (theta (off + (n + s) * out + j)%nat * INR t + theta (off + (2 * n + s) * out + j)%nat)).

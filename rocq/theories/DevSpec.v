(* Spec for device declarations and for fields of remote problems. *)
From Coq Require Import Ascii String.
From Verif Require Import Prelude DevModel.

(* the function declares the device d, for a problem whose auxiliary device is aux *)
Inductive declares (aux : device) (f : fn) : device -> Prop :=
| declares_aux : f_aux f = true -> declares aux f aux
| declares_device d : f_aux f = false -> f_device f = Some d -> declares aux f d.
Definition silent (f : fn) : Prop := f_aux f = false /\ f_device f = None.
Definition code (a : attribute) : fn := match a with Method f => f | Stored _ f => f end.

(* the attributes (of which objects) which are read on the way along the names *)
Inductive reads (h : heap) : nat -> list string -> list (nat * string) -> nat -> Prop :=
| reads_none o : reads h o [] [] o
| reads_step o a o' l c o'' : h o a = Some (Ref o') -> reads h o' l c o'' -> reads h o (a :: l) ((o, a) :: c) o''.
(* a name without dots *)
Fixpoint undotted (s : string) : Prop := match s with EmptyString => True | String c r => c <> "."%char /\ undotted r end.

(** Specification: calls that do not set a filter up. *)
From Verif Require Import Num History.

Definition no_setup {N : num} (o : op N) : Prop := match o with OpFilter _ | OpReset | OpAssign _ => True | _ => False end.

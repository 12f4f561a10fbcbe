(** Specification: response () of the RBJ filters designed in binary64. *)
From Coq Require Import ZArith List Bool Reals.
From Verif Require Import Num RBJ Float64 DblSpec RbjShSpec RespDblSpec.
Local Open Scope R_scope.

Definition rbj_is_shelf (k : rkind) : bool := match k with R_LowShelf | R_HighShelf | R_BandShelf => true | _ => false end.
(** the cookbook's coefficients of all ten filters, the arguments for which C61 and C70 bound the error of the stored ones, and that bound *)
Definition rbj_ideal (k : rkind) (f g q : R) : ideal := if rbj_is_shelf k then cookbook_shelf k f g q else cookbook k f q.
Definition rbj_args (k : rkind) (f g q : R) : Prop := if rbj_is_shelf k then shelf_args k f g q else 0 < f < 1 / 2 /\ 1 / 64 <= q <= 1024.
Definition rbj_coef_error (k : rkind) (q : R) : R := if rbj_is_shelf k then / 2 ^ 33 else design_error q.
Definition rbj_libm (k : rkind) (m : libm) : Prop := if rbj_is_shelf k then libm_shelf m else libm_close m.
(** relative to the size of the numerator, which is small for low passes with low cutoffs *)
Definition rbj_rel_error (k : rkind) (f g q : R) : R := rbj_coef_error k q * (1 + / num_abs (rbj_ideal k f g q)).

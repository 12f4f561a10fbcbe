(** Proofs: the double constants of the library and the numbers they stand for. *)
From Coq Require Import ZArith Reals Lra Lia Machin Ratan.
Local Open Scope R_scope.

Lemma pi_bounds : 7074237752028440 / 2251799813685248 <= PI <= 7074237752028440 / 2251799813685248 + / 2 ^ 52.
Proof.
  pose proof (PI_2_3_7_ineq 8) as H. unfold PI_2_3_7_tg, Ratan_seq, tg_alt in H.
  cbn [sum_f_R0 Nat.mul Nat.add] in H. rewrite !INR_IZR_INZ in H. cbn [Z.of_nat Pos.of_succ_nat Pos.succ] in H.
  split; lra.
Qed.

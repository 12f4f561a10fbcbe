(** Concrete runs of the public base-class interface in binary64. *)
From Coq Require Import ZArith List Bool.
From Verif Require Import Num Outcome Types Biquad State Cascade PoleFilter Float64 RefLibm History Public Examples.
Import ListNotations.

Lemma base_setup_ub : base_setup (N := D) (Bw, LP) 4 ex_params (pf_init (Bw, LP) 2) = UB.
Proof.
  destruct (base_setup (N := D) (Bw, LP) 4 ex_params (pf_init (Bw, LP) 2)) as [f u|e f|] eqn:E; [exfalso|exfalso|reflexivity].
  all: assert (H : match base_setup (N := D) (Bw, LP) 4 ex_params (pf_init (Bw, LP) 2) with UB => true | _ => false end = true)
    by (vm_compute; reflexivity); rewrite E in H; discriminate H.
Qed.

(** a layout with the poles 1/2 +- i/4, -1/2 +- i/8 and the zeros of a low pass, in a Layout<4> *)
Definition ex_layout : layout D :=
  let z := Cx (d (-1) 1) (d 0 1) in
  match (lay_addConj (Cx (d 1 2) (d 1 4)) z ;; lay_addConj (Cx (d (-1) 2) (d 1 8)) z)
        (layout_of_storage 4 (layout_storage 4)) with
  | Ok l _ => l | _ => layout_of_storage 4 (layout_storage 4) end.

(** setup, a sample, a scaling, a caller's layout, another sample, scipy coefficients, an emptied
    cascade, setup again *)
Definition ex_pops : list (pop D) :=
  [PCall (OpSetupN None ex_params); PCall (OpFilter (d 1 1)); PScale (d 3 1); PLayout ex_layout;
   PCall (OpFilter (d 1 2)); PSos ex_sos; PStorage; PScale (d 2 1); PCall (OpSetupN (Some 3%Z) ex_params);
   PScale (d 1 2); PCall (OpFilter (d 1 2))].
Definition ex_pops_filt : filt D :=
  match psteps (Bw, LP) 4 ex_pops (filt_init DF2 (Bw, LP) 4) with
  | Some f => f | None => filt_init DF2 (Bw, LP) 4 end.

Lemma ex_layout_valid : l_numPoles ex_layout = 4%Z /\ length (l_pairs ex_layout) = 2%nat.
Proof. vm_compute. auto. Qed.
Lemma ex_pops_ok : Forall (pop_ok (maxStagesOf LP 4)) ex_pops.
Proof.
  destruct ex_layout_valid as [A B].
  repeat constructor; try (rewrite ?A, ?B; vm_compute; congruence).
Qed.
(** the last design (order 3, cutoff 0.1) with half the gain *)
Lemma ex_pops_coeffs : filt_numStages ex_pops_filt = 2%Z /\ map bq6 (fl_stages ex_pops_filt) =
  [[Some 1000000; Some (-1250516); Some 545723; Some 9049; Some 18098; Some 9049];
   [Some 1000000; Some (-509525); Some 0; Some 1000000; Some 1000000; Some 0]]%Z.
Proof. vm_compute. auto. Qed.

(** a filter with one stage and the layout with two *)
Definition ex_small : filt D :=
  match after (filt_setupN (Bw, LP) 2 None ex_params (filt_init DF2 (Bw, LP) 2)) with
  | Some f => f | None => filt_init DF2 (Bw, LP) 2 end.
Lemma ex_small_fits : c_maxStages (pf_cas (fl_pf ex_small)) = Z.of_nat (length (fl_stages ex_small)) /\
  map bq6 (fl_stages ex_small) =
  [[Some 1000000; Some (-1142980); Some 412801; Some 67455; Some 134910; Some 67455]]%Z.
Proof. vm_compute. auto. Qed.

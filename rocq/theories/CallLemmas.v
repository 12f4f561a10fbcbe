(** Proofs: setup does not depend on the history (C24), and where it does. *)
From Coq Require Import ZArith List Bool Lia Reals.
From Flocq Require Import IEEE754.BinarySingleNaN.
From Verif Require Import Num Outcome Types Biquad State Cascade PoleFilter History Hoare Safe CallSpec HistRel Exact Float64 RefLibm Examples.
Import ListNotations.
Local Open Scope Z_scope.

Lemma exact_X strict (x : T (X strict)) : exact_param (N := X strict) x.
Proof.
  intros y H. destruct y as [a|s|], x as [b|s'|]; cbn in H; try discriminate.
  - destruct (Req_EM_T a b); [congruence|discriminate].
  - apply eqb_prop in H. congruence.
Qed.
(** a number other than the two zeros *)
Lemma exact_F64 m (x : T (F64 m)) : (forall s, x <> B754_zero s) -> exact_param (N := F64 m) x.
Proof.
  intros Z y H. cbn in H, x, y. destruct x as [sx|sx| |sx mx ex bx]; [elim (Z sx); reflexivity| | |].
  - destruct y as [sy|sy| |sy my ey by']; unfold Beqb in H; cbn in H; destruct sx; try destruct sy; try discriminate; reflexivity.
  - destruct y as [sy|[]| |[] my ey by']; discriminate.
  - assert (FY : is_finite y = true) by (destruct y as [sy|[]| |sy my ey by']; destruct sx; try discriminate; reflexivity).
    apply B2R_Bsign_inj; [exact FY|reflexivity| |].
    + rewrite Beqb_correct in H by (exact FY || reflexivity). destruct (Raux.Req_bool_spec (B2R y) (B2R (B754_finite sx mx ex bx))); [assumption|discriminate].
    + rewrite Beqb_correct in H by (exact FY || reflexivity). destruct (Raux.Req_bool_spec (B2R y) (B2R (B754_finite sx mx ex bx))) as [E|]; [|discriminate].
      destruct y as [sy|sy| |sy my ey by']; try discriminate FY.
      * exfalso. cbn in E. symmetry in E. apply Float_prop.eq_0_F2R in E. destruct sx; discriminate.
      * cbn. pose proof (f_equal (fun r => Raux.Rlt_bool r 0) E) as S. cbn in S. destruct sx, sy; try reflexivity; exfalso.
        -- assert (P : (0 < Defs.F2R (beta := Zaux.radix2) {| Defs.Fnum := Z.pos my; Defs.Fexp := ey |})%R) by (apply Float_prop.F2R_gt_0; reflexivity).
           assert (Q : (Defs.F2R (beta := Zaux.radix2) {| Defs.Fnum := Z.neg mx; Defs.Fexp := ex |} < 0)%R) by (apply Float_prop.F2R_lt_0; reflexivity).
           cbn in E. rewrite E in P. exact (Rlt_irrefl 0 (Rlt_trans _ _ _ P Q)).
        -- assert (P : (Defs.F2R (beta := Zaux.radix2) {| Defs.Fnum := Z.neg my; Defs.Fexp := ey |} < 0)%R) by (apply Float_prop.F2R_lt_0; reflexivity).
           assert (Q : (0 < Defs.F2R (beta := Zaux.radix2) {| Defs.Fnum := Z.pos mx; Defs.Fexp := ex |})%R) by (apply Float_prop.F2R_gt_0; reflexivity).
           cbn in E. rewrite E in P. exact (Rlt_irrefl 0 (Rlt_trans _ _ _ Q P)).
Qed.

Lemma c24 (N : num) : (forall r th, npolar N r th <> None) -> forall t t' k FO os (f : filt N) r q,
  1 <= FO -> in_int (2 * FO) = true -> Forall op_ok os -> order_ok r -> 1 <= order_of FO r ->
  (is_shelf (snd k) = true -> exact_param (q_gain q)) -> (fst k <> Bw -> exact_param (q_db q)) ->
  steps k FO os (filt_init t k FO) = Some f -> calm k FO r q os (filt_init t k FO) ->
  same_outcome (filt_setupN k FO r q f) (filt_setupN k FO r q (filt_init t' k FO)) /\
  forall sr q', norm_params (snd k) sr q' = q -> same_outcome (filt_setup k FO r sr q' f) (filt_setup k FO r sr q' (filt_init t' k FO)).
Proof.
  intros HP t t' k FO os f r q HF HI HO HR H1 PG PD E HC.
  pose proof (setup_same k FO r q H1 PG PD HP t t' os f HF HI HO HR E HC) as S. split; [exact S|]. intros sr q' <-. exact S.
Qed.

(** ** the second call of a rejected setup *)
Definition neg_ripple : params D := pz (d 1 10) (d 1 20) (d 6 1) (d (-1) 1).
Definition first_call := filt_setupN (Ch1, LP) 4 None neg_ripple (filt_init DF2 (Ch1, LP) 4).
Lemma twice : exists f1 f2, filt_setupN (Ch1, LP) 4 None neg_ripple (filt_init DF2 (Ch1, LP) 4) = Throw E_pole_nan f1 /\
  filt_setupN (Ch1, LP) 4 None neg_ripple f1 = Ok f2 tt /\ filt_numStages f2 = 0.
Proof.
  assert (H : match first_call with
    | Throw E_pole_nan f1 => match filt_setupN (Ch1, LP) 4 None neg_ripple f1 with Ok f2 _ => filt_numStages f2 =? 0 | _ => false end
    | _ => false end = true) by (vm_compute; reflexivity).
  unfold first_call in H. destruct (filt_setupN (Ch1, LP) 4 None neg_ripple (filt_init DF2 (Ch1, LP) 4)) as [f u|e f1|]; try discriminate.
  destruct e; try discriminate. destruct (filt_setupN (Ch1, LP) 4 None neg_ripple f1) as [f2 []|e f2|] eqn:E2; try discriminate.
  exists f1, f2. split; [reflexivity|]. split; [exact E2|apply Z.eqb_eq, H].
Qed.
(** an order below one *)
Lemma order_minus1 : exists f1 f2 f0, filt_setupN (Bw, LP) 4 None ex_params (filt_init DF2 (Bw, LP) 4) = Ok f1 tt /\
  filt_setupN (Bw, LP) 4 (Some (-1)) ex_params f1 = Ok f2 tt /\ filt_numStages f2 = 1 /\
  filt_setupN (Bw, LP) 4 (Some (-1)) ex_params (filt_init DF2 (Bw, LP) 4) = Ok f0 tt /\ filt_numStages f0 = 0.
Proof.
  assert (H : match filt_setupN (Bw, LP) 4 None ex_params (filt_init DF2 (Bw, LP) 4) with
    | Ok f1 _ => match filt_setupN (Bw, LP) 4 (Some (-1)) ex_params f1, filt_setupN (Bw, LP) 4 (Some (-1)) ex_params (filt_init DF2 (Bw, LP) 4) with
       | Ok f2 _, Ok f0 _ => (filt_numStages f2 =? 1) && (filt_numStages f0 =? 0) | _, _ => false end
    | _ => false end = true) by (vm_compute; reflexivity).
  destruct (filt_setupN (Bw, LP) 4 None ex_params (filt_init DF2 (Bw, LP) 4)) as [f1 []|e f1|]; try discriminate.
  destruct (filt_setupN (Bw, LP) 4 (Some (-1)) ex_params f1) as [f2 []|e f2|] eqn:E2; try discriminate.
  destruct (filt_setupN (Bw, LP) 4 (Some (-1)) ex_params (filt_init DF2 (Bw, LP) 4)) as [f0 []|e f0|]; try discriminate.
  apply andb_true_iff in H. destruct H as [A B]. apply Z.eqb_eq in A, B. exists f1, f2, f0. auto.
Qed.

(** ** a concrete history: a thrown design (negative ripple), a rejected cutoff, a good design and samples *)
Definition ex_calls : list (op D) :=
  [OpSetupN (Some 3) neg_ripple; OpSetupN None ex_bad; OpSetup (Some 2) (d 2 1) ex_params2; OpFilter (d 1 1); OpSetupN (Some 9) ex_params].
Definition calls_threw : list (option err) :=
  [Some E_pole_nan; Some E_cutoff_high; None; None; Some E_order].
Fixpoint trace (k : kind) (FO : Z) (os : list (op D)) (f : filt D) : list (option err) :=
  match os with [] => [] | o :: os' => op_threw k FO o f :: match step k FO o f with Some f' => trace k FO os' f' | None => [] end end.
Definition ex_called : filt D := match steps (Ch1, LP) 4 ex_calls (filt_init DF2 (Ch1, LP) 4) with Some f => f | None => filt_init DF2 (Ch1, LP) 4 end.
Lemma calm_of_trace k FO r q os : forall f, Forall2 (fun o e => match e with Some e => design_error e = true -> op_other_proto k FO o r q | None => True end) os (trace k FO os f) ->
  calm k FO r q os f \/ steps k FO os f = None.
Proof.
  induction os as [|o os IH]; intros f H; [left; exact I|]. cbn [trace] in H. inversion H as [|? ? ? ? H1 H2]; subst.
  cbn [calm steps]. destruct (step k FO o f) as [f'|]; [|right; reflexivity]. destruct (IH f' H2) as [C|C]; [left; split; assumption|right; exact C].
Qed.
Lemma ex_called_steps : steps (Ch1, LP) 4 ex_calls (filt_init DF2 (Ch1, LP) 4) = Some ex_called.
Proof.
  unfold ex_called. destruct (steps (Ch1, LP) 4 ex_calls (filt_init DF2 (Ch1, LP) 4)) eqn:E; [reflexivity|].
  exfalso. assert (H : match steps (Ch1, LP) 4 ex_calls (filt_init DF2 (Ch1, LP) 4) with Some _ => true | None => false end = true) by (vm_compute; reflexivity).
  rewrite E in H. discriminate.
Qed.
Lemma ex_called_trace : trace (Ch1, LP) 4 ex_calls (filt_init DF2 (Ch1, LP) 4) = calls_threw.
Proof. vm_compute. reflexivity. Qed.
Lemma ex_called_calm : calm (Ch1, LP) 4 None ex_params ex_calls (filt_init DF2 (Ch1, LP) 4).
Proof.
  destruct (calm_of_trace (Ch1, LP) 4 None ex_params ex_calls (filt_init DF2 (Ch1, LP) 4)) as [C|C]; [|exact C|rewrite ex_called_steps in C; discriminate].
  rewrite ex_called_trace. repeat constructor; try discriminate; intros _; left; cbn; lia.
Qed.
Lemma ex_called_exact : exact_param (N := D) (q_db ex_params).
Proof.
  apply exact_F64. intros s E. assert (H : is_finite_strict (q_db ex_params) = true) by (vm_compute; reflexivity).
  assert (H' : is_finite_strict (B754_zero s : T D) = true) by (rewrite <- E; exact H). discriminate H'.
Qed.
Lemma ex_calls_ok : Forall op_ok ex_calls.
Proof. repeat constructor. Qed.
Lemma ex_called_again : exists g, filt_setupN (Ch1, LP) 4 None ex_params ex_called = Ok g tt.
Proof.
  assert (H : match filt_setupN (Ch1, LP) 4 None ex_params ex_called with Ok _ _ => true | _ => false end = true) by (vm_compute; reflexivity).
  destruct (filt_setupN (Ch1, LP) 4 None ex_params ex_called) as [g []|e g|]; try discriminate. exists g. reflexivity.
Qed.

(** Proofs: query calls on objects among others, frame conditions of the public base-class calls,
    the sample type double. *)
From Coq Require Import ZArith List Bool Lia.
From Flocq Require Import IEEE754.BinarySingleNaN.
From Verif Require Import Num Outcome Types Biquad State Cascade PoleFilter RBJ History Public World WorldHistory WorldProofs Float64 Samples Custom Spec AnyLemmas.
Import ListNotations.

Section Q.
  Context {N : num}.
  Lemma queries (h : list (wop N)) w i o : forallb no_copy h = true -> wsteps h [] = Some w -> live w i = Some o ->
    (forall x, w_response i x w = filt_response (filt_of o) x) /\
    (forall j, w_index i j w = filt_index (filt_of o) j) /\
    w_getPoleZeros i w = filt_getPoleZeros (filt_of o).
  Proof.
    intros H1 H2 H3. destruct (tracked_all h w H1 H2) as [[_ T] _].
    destruct (T i o H3) as (t & k & FO & f & A & B & C). assert (O : own w i o) by (subst o; apply own_obj_of; exact H3).
    destruct O as (L & P1 & P2 & P3).
    unfold w_response, w_index, w_getPoleZeros, load_cas, load_dig. rewrite L, P1, P2, L. repeat split; reflexivity.
  Qed.

  Lemma scale_num (s : T N) (c : cascade N) :
    match cas_applyScale s c with Ok c' _ | Throw _ c' => c_numStages c' = c_numStages c | UB => True end.
  Proof.
    unfold cas_applyScale, on_stage, bind, get, put, ret. destruct (c_numStages c <? 1)%Z; [reflexivity|].
    destruct (c_stages c) as [|b l]; [exact I|reflexivity].
  Qed.
  (** applyScale, setLayout, setCascadeStorage and CascadeStages::setup change only the sections and their number *)
  Lemma frame k FO (o : pop N) (f f' : filt N) : match o with PCall _ => False | _ => True end -> pstep k FO o f = Some f' ->
    fl_states f' = fl_states f /\ filt_getPoleZeros f' = filt_getPoleZeros f /\
    match o with
    | PScale _ | PSos _ => filt_numStages f' = filt_numStages f
    | PStorage => filt_numStages f' = 0%Z /\ fl_stages f' = fl_stages f
    | _ => True
    end.
  Proof.
    destruct o as [o|s|l| |rows]; intros H E; [destruct H| | | |]; cbn [pstep] in E.
    - pose proof (scale_num s (pf_cas (fl_pf f))) as Q. unfold filt_applyScale, on_pf, on_cas, zoom, after in E.
      destruct (cas_applyScale s (pf_cas (fl_pf f))) eqn:?; try discriminate; inversion E; subst; repeat split; exact Q.
    - unfold filt_setLayout, on_pf, on_cas, zoom, after in E. destruct (setLayout l (pf_cas (fl_pf f))) eqn:?; try discriminate; inversion E; subst; repeat split; reflexivity.
    - unfold filt_setStorage, on_pf, on_cas, zoom, after, modify in E. inversion E; subst. repeat split; reflexivity.
    - unfold filt_setupSos, on_pf, on_cas, zoom, after in E. destruct (sos_loop rows (c_stages (pf_cas (fl_pf f)))) eqn:?; try discriminate; inversion E; subst; repeat split; reflexivity.
  Qed.
  Lemma scale_effect k FO s (f f' : filt N) : pstep k FO (PScale s) f = Some f' ->
    ((filt_numStages f < 1)%Z -> fl_stages f' = fl_stages f) /\
    (forall b bs, (1 <= filt_numStages f)%Z -> fl_stages f = b :: bs ->
       fl_stages f' = MkBiquad (m_a0 b) (m_a1 b) (m_a2 b) (nmul N (m_b0 b) s) (nmul N (m_b1 b) s) (nmul N (m_b2 b) s) :: bs).
  Proof.
    cbn [pstep]. unfold filt_applyScale, on_pf, on_cas, zoom, after, fl_stages, filt_numStages.
    set (c := pf_cas (fl_pf f)). unfold cas_applyScale, on_stage, bind, get, put, ret. intros E. split.
    - intros H. apply Z.ltb_lt in H. rewrite H in E. inversion E; subst. reflexivity.
    - intros b bs H Hb. assert (Q : (c_numStages c <? 1)%Z = false) by (apply Z.ltb_ge; exact H). rewrite Q, Hb in E. cbn in E.
      inversion E; subst. reflexivity.
  Qed.
  Lemma sos_effect k FO rows (f f' : filt N) : length rows = length (fl_stages f) -> Forall (fun r => row_nan r = false) rows ->
    pstep k FO (PSos rows) f = Some f' -> fl_stages f' = map row_bq rows.
  Proof.
    intros H1 H2. pose proof (proj1 (sos_ok DF1 rows (fl_cs f) H1 H2)) as Q.
    unfold sos_setup, cs_setup, zoom in Q. cbn [fl_cs cs_stages cs_states] in Q.
    cbn [pstep]. unfold filt_setupSos, on_pf, on_cas, zoom, after. fold (fl_stages f).
    destruct (sos_loop rows (fl_stages f)); try discriminate. inversion Q; subst. intros E. inversion E; subst. reflexivity.
  Qed.

  (** the roots are checked, so what is reported for a section with two poles or two zeros is a number *)
  Lemma pz_no_nan (b : biquad N) p : bq_getPoleZeros b = Val [p] ->
    neqb N (getA2 b) (n0 (N := N)) = false \/ neqb N (getB2 b) (n0 (N := N)) = false ->
    Forall (fun z => neqb N (re z) (re z) = true /\ neqb N (im z) (im z) = true)
      [cfst (poles p); csnd (poles p); cfst (zeros p); csnd (zeros p)].
  Proof.
    unfold bq_getPoleZeros, bps_of. intros E H.
    assert (Q : neqb N (getA2 b) (n0 (N := N)) && neqb N (getB2 b) (n0 (N := N)) = false) by (apply andb_false_iff; exact H).
    change (nofZ N 0) with (n0 (N := N)) in E. rewrite Q in E.
    assert (R : forall k0 k1 k2 e (c : cpair N), bps_roots k0 k1 k2 e = Val c -> cp_is_nan c = false).
    { intros k0 k1 k2 e c. unfold bps_roots. destruct (cp_is_nan _) eqn:X; cbn; [discriminate|]. intros Y. inversion Y; subst. exact X. }
    destruct (bps_roots (getA0 b) (getA1 b) (getA2 b) E_bps_poles_nan) as [ps| |] eqn:X1; try discriminate.
    destruct (bps_roots (getB0 b) (getB1 b) (getB2 b) E_bps_zeros_nan) as [zs| |] eqn:X2; try discriminate.
    cbn in E. inversion E; subst. cbn [poles zeros]. apply R in X1. apply R in X2.
    assert (S : forall c : cpair N, cp_is_nan c = false -> Forall (fun z => neqb N (re z) (re z) = true /\ neqb N (im z) (im z) = true) [cfst c; csnd c]).
    { intros c. unfold cp_is_nan, c_is_nan, is_nan. rewrite !orb_false_iff, !negb_false_iff. intros [[A1 A2] [A3 A4]]. repeat constructor; assumption. }
    apply S in X1. apply S in X2. inversion X1 as [|? ? Y1 Y2]; subst. inversion Y2; subst. constructor; [exact Y1|]. constructor; [assumption|exact X2].
  Qed.
End Q.

Section Dbl.
  Variable m : libm.
  Local Notation FN := (F64 m).
  Lemma double_run xs : forall c : cstages FN, run_as (cs_filter_as (smp_double m)) xs c = Ok (fst (cs_run c xs)) (snd (cs_run c xs)).
  Proof.
    induction xs as [|x xs IH]; intros c; [reflexivity|]. cbn [run_as cs_run]. unfold bind at 1. unfold cs_filter_as at 1. cbn [smp_in smp_out smp_double].
    destruct (cs_filter c x) as [c' y]. unfold bind. rewrite IH. destruct (cs_run c' xs) as [c'' ys]. reflexivity.
  Qed.
  Lemma double_run_rbj xs : forall r : rbj FN, run_as (rbj_filter_as (smp_double m)) xs r = Ok (fst (rbj_run r xs)) (snd (rbj_run r xs)).
  Proof.
    induction xs as [|x xs IH]; intros c; [reflexivity|]. cbn [run_as rbj_run]. unfold bind at 1. unfold rbj_filter_as at 1. cbn [smp_in smp_out smp_double].
    destruct (rbj_filter c x) as [c' y]. unfold bind. rewrite IH. destruct (rbj_run c' xs) as [c'' ys]. reflexivity.
  Qed.
End Dbl.

(** Proofs: unused sections under contraction, and Butterworth filters. *)
From Coq Require Import ZArith List Bool Reals Lra Lia.
From Coquelicot Require Import Coquelicot.
From Flocq Require Import Core.Raux Core.Generic_fmt IEEE754.BinarySingleNaN.
From Verif Require Import Num Outcome Types Biquad State Cascade PoleFilter History Float64 FloatSpec FloatProofs Stream
  SigSpec RoundSpec RoundProofs RoundRun RoundLemmas DblSpec DblProofs DblLemmas LayoutProofs BuildAny BwDblSpec BwDblLemmas BwDblFinal BwScaleLemmas ChainSpec ChainLemmas BwOut Contract ContractProofs ContractLemmas.
Import ListNotations.
Local Open Scope R_scope.

(** all values of e are finite and equal to r; no operation rounds *)
Definition evr (e : fexp) (r : R) : Prop :=
  (forall v, cev e v -> is_finite v = true /\ B2R v = r) /\
  (forall a b, e = EM a b -> is_finite a = true /\ is_finite b = true /\ B2R a * B2R b = r).
Lemma rnd_same (w : f64) : rnd64 (B2R w) = B2R w.
Proof. apply round_generic; [apply (valid_rnd_round_mode mode_NE)|apply generic_format_B2R]. Qed.
Lemma fits (w : f64) : Rlt_bool (Rabs (B2R w)) (bpow Zaux.radix2 1024) = true.
Proof. apply Rlt_bool_true, abs_B2R_lt_emax. Qed.
Lemma evr_v x : is_finite x = true -> evr (EV x) (B2R x).
Proof. intros F. split; [|discriminate]. intros v E. inversion E; subst. auto. Qed.
Lemma evr_m a b (w : f64) : is_finite a = true -> is_finite b = true -> B2R a * B2R b = B2R w -> evr (EM a b) (B2R w).
Proof.
  intros Fa Fb E. split.
  - intros v H. inversion H; subst. pose proof (@Bmult_correct 53 1024 Hprec64 Hemax64 mode_NE a b) as A. rewrite E, rnd_same, fits in A. destruct A as (A1 & A2 & _).
    unfold fmul. rewrite A1, A2, Fa, Fb. auto.
  - intros a' b' H. injection H as -> ->. auto.
Qed.
Lemma fma_same a b c (w : f64) : is_finite a = true -> is_finite b = true -> is_finite c = true -> B2R a * B2R b + B2R c = B2R w -> is_finite (ffma a b c) = true /\ B2R (ffma a b c) = B2R w.
Proof.
  intros Fa Fb Fc E. pose proof (@Bfma_correct 53 1024 Hprec64 Hemax64 mode_NE a b c Fa Fb Fc) as A. cbv zeta in A. rewrite E, rnd_same, fits in A. destruct A as (A1 & A2 & _). unfold ffma. auto.
Qed.
Lemma evr_a e1 e2 r q (w : f64) : evr e1 r -> evr e2 q -> r + q = B2R w -> evr (EA e1 e2) (B2R w).
Proof.
  intros (A1 & M1) (A2 & M2) E. split; [|discriminate]. intros v H. inversion H; subst.
  - destruct (A1 _ ltac:(eassumption)) as [F1 E1]. destruct (A2 _ ltac:(eassumption)) as [F2 E2].
    pose proof (@Bplus_correct 53 1024 Hprec64 Hemax64 mode_NE v1 v2 F1 F2) as A. rewrite E1, E2, E, rnd_same, fits in A. destruct A as (B1 & B2 & _). unfold fadd. auto.
  - destruct (M1 a b eq_refl) as (Fa & Fb & Ep). destruct (A2 _ ltac:(eassumption)) as [F2 E2]. apply fma_same; try assumption. rewrite Ep, E2. exact E.
  - destruct (M2 a b eq_refl) as (Fa & Fb & Ep). destruct (A1 _ ltac:(eassumption)) as [F2 E2]. apply fma_same; try assumption. rewrite Ep, E2, Rplus_comm. exact E.
Qed.
Lemma evr_s e1 e2 r q (w : f64) : evr e1 r -> evr e2 q -> r - q = B2R w -> evr (ES e1 e2) (B2R w).
Proof.
  intros (A1 & M1) (A2 & M2) E. split; [|discriminate]. intros v H. inversion H; subst.
  - destruct (A1 _ ltac:(eassumption)) as [F1 E1]. destruct (A2 _ ltac:(eassumption)) as [F2 E2].
    pose proof (@Bminus_correct 53 1024 Hprec64 Hemax64 mode_NE v1 v2 F1 F2) as A. rewrite E1, E2, E, rnd_same, fits in A. destruct A as (B1 & B2 & _). unfold fsub. auto.
  - destruct (M1 a b eq_refl) as (Fa & Fb & Ep). destruct (A2 _ ltac:(eassumption)) as [F2 E2]. apply fma_same; try assumption; [rewrite fin_opp; exact F2|]. rewrite B2R_Bopp, Ep, E2. lra.
  - destruct (M2 a b eq_refl) as (Fa & Fb & Ep). destruct (A1 _ ltac:(eassumption)) as [F2 E2]. apply fma_same; try assumption; [rewrite fin_opp; exact Fa|]. rewrite B2R_Bopp, E2. lra.
Qed.

Section I.
  Context {m : libm}.
  Notation FN := (F64 m).
  (** states of an identity section: finite, and zero in the transposed form *)
  Definition id_state (s : st FN) : Prop :=
    match s with
    | S1 x1 x2 y1 y2 => is_finite (x1 : f64) = true /\ is_finite (x2 : f64) = true /\ is_finite (y1 : f64) = true /\ is_finite (y2 : f64) = true
    | S2 v1 v2 => is_finite (v1 : f64) = true /\ is_finite (v2 : f64) = true
    | S3 _ s1 _ s2 => is_finite (s1 : f64) = true /\ is_finite (s2 : f64) = true /\ B2R (s1 : f64) = 0 /\ B2R (s2 : f64) = 0
    end.
  Lemma init_id t : id_state (st_init t).
  Proof. destruct t; repeat split; reflexivity. Qed.
  Definition id_coefs (b : biquad FN) : Prop := fin_coeffs b /\ B2R (m_b0 b : f64) = 1 /\ B2R (m_b1 b : f64) = 0 /\ B2R (m_b2 b : f64) = 0 /\ B2R (m_a1 b : f64) = 0 /\ B2R (m_a2 b : f64) = 0.
  Lemma id_step (b : biquad FN) s (x : f64) s' y : id_coefs b -> id_state s -> is_finite x = true -> c_filter b s x s' y ->
    is_finite y = true /\ B2R y = B2R x /\ id_state s'.
  Proof.
    intros ((Fa1 & Fa2 & Fb0 & Fb1 & Fb2) & E0 & E1 & E2 & D1 & D2) Hs Fx H.
    assert (Z : B2R f0 = 0) by reflexivity.
    assert (KX : forall u : f64, is_finite u = true -> evr (EM (m_b0 b : f64) u) (B2R u)) by (intros u Fu; apply evr_m; [exact Fb0|exact Fu|]; rewrite E0; ring).
    assert (K1 : forall u : f64, is_finite u = true -> evr (EM (m_b1 b : f64) u) 0) by (intros u Fu; rewrite <- Z; apply evr_m; [exact Fb1|exact Fu|]; rewrite E1, Z; ring).
    assert (K2 : forall u : f64, is_finite u = true -> evr (EM (m_b2 b : f64) u) 0) by (intros u Fu; rewrite <- Z; apply evr_m; [exact Fb2|exact Fu|]; rewrite E2, Z; ring).
    assert (K3 : forall u : f64, is_finite u = true -> evr (EM (m_a1 b : f64) u) 0) by (intros u Fu; rewrite <- Z; apply evr_m; [exact Fa1|exact Fu|]; rewrite D1, Z; ring).
    assert (K4 : forall u : f64, is_finite u = true -> evr (EM (m_a2 b : f64) u) 0) by (intros u Fu; rewrite <- Z; apply evr_m; [exact Fa2|exact Fu|]; rewrite D2, Z; ring).
    destruct s as [x1 x2 y1 y2|v1 v2|s1 s1_1 s2 s2_1].
    - apply c_inv1 in H as [-> C]. destruct Hs as (H1 & H2 & H3 & H4).
      assert (K : evr (ES (ES (EA (EA (EM (m_b0 b : f64) x) (EM (m_b1 b : f64) x1)) (EM (m_b2 b : f64) x2)) (EM (m_a1 b : f64) y1)) (EM (m_a2 b : f64) y2)) (B2R x)).
      { apply (evr_s _ _ (B2R x) 0); [apply (evr_s _ _ (B2R x) 0); [apply (evr_a _ _ (B2R x) 0); [apply (evr_a _ _ (B2R x) 0); [apply KX, Fx|apply K1, H1|]|apply K2, H2|]|apply K3, H3|]|apply K4, H4|]; ring. }
      destruct (proj1 K _ C) as [F E]. repeat split; assumption.
    - apply c_inv2 in H as (w & -> & CW & C). destruct Hs as (H1 & H2).
      assert (K : evr (ES (ES (EV x) (EM (m_a1 b : f64) v1)) (EM (m_a2 b : f64) v2)) (B2R x)).
      { apply (evr_s _ _ (B2R x) 0); [apply (evr_s _ _ (B2R x) 0); [apply evr_v, Fx|apply K3, H1|]|apply K4, H2|]; ring. }
      destruct (proj1 K _ CW) as [F E].
      assert (K' : evr (EA (EA (EM (m_b0 b : f64) w) (EM (m_b1 b : f64) v1)) (EM (m_b2 b : f64) v2)) (B2R w)).
      { apply (evr_a _ _ (B2R w) 0); [apply (evr_a _ _ (B2R w) 0); [apply KX, F|apply K1, H1|]|apply K2, H2|]; ring. }
      destruct (proj1 K' _ C) as [F' E']. split; [exact F'|]. split; [congruence|]. split; assumption.
    - apply c_inv3 in H as (s1' & s2' & -> & C & CP & CQ). destruct Hs as (H1 & H2 & H3 & H4).
      assert (K : evr (EA (EV s1_1) (EM (m_b0 b : f64) x)) (B2R x)).
      { eapply evr_a; [apply evr_v, H1|apply KX, Fx|]. rewrite H3. ring. }
      destruct (proj1 K _ C) as [F E].
      assert (KP : evr (ES (EA (EV s2_1) (EM (m_b1 b : f64) x)) (EM (m_a1 b : f64) y)) (B2R f0)).
      { eapply evr_s; [eapply (evr_a _ _ _ _ f0); [apply evr_v, H2|apply K1, Fx|]|apply K3, F|]; rewrite ?H4, ?Z; ring. }
      assert (KQ : evr (ES (EM (m_b2 b : f64) x) (EM (m_a2 b : f64) y)) (B2R f0)).
      { eapply evr_s; [apply K2, Fx|apply K4, F|]. rewrite Z. ring. }
      destruct (proj1 KP _ CP) as [FP EP]. destruct (proj1 KQ _ CQ) as [FQ EQ]. repeat split; assumption.
  Qed.
  Definition same_f (y x : f64) : Prop := is_finite y = true /\ B2R y = B2R x.
  Lemma id_brun (b : biquad FN) s xs ys : c_brun b s xs ys -> id_coefs b -> id_state s -> List.Forall (fun x : f64 => is_finite x = true) xs -> List.Forall2 same_f ys xs.
  Proof.
    induction 1 as [|s x xs s' y ys F R IH]; intros Hb Hs Hx; [constructor|]. inversion Hx; subst.
    destruct (id_step b s x s' y Hb Hs ltac:(assumption) F) as (A & B & C). constructor; [split; assumption|]. apply IH; assumption.
  Qed.
  Lemma same_trans (l1 l2 l3 : list f64) : List.Forall2 same_f l1 l2 -> List.Forall2 same_f l2 l3 -> List.Forall2 same_f l1 l3.
  Proof.
    intros H. revert l3. induction H as [|x y l l' [A B] H IH]; intros l3 H3; inversion H3; subst; constructor.
    - match goal with K : same_f y _ |- _ => destruct K as [P Q] end. split; [exact A|congruence].
    - apply IH. assumption.
  Qed.
  Lemma same_refl (l : list f64) : List.Forall (fun x : f64 => is_finite x = true) l -> List.Forall2 same_f l l.
  Proof. induction 1; constructor; [split; auto|assumption]. Qed.
  Lemma same_fin (l l' : list f64) : List.Forall2 same_f l l' -> List.Forall (fun x : f64 => is_finite x = true) l.
  Proof. induction 1 as [|? ? ? ? [A B]]; constructor; assumption. Qed.
  Lemma id_run (bs : list (biquad FN)) : forall ss xs ys, c_run bs ss xs ys -> length ss = length bs -> List.Forall id_coefs bs -> List.Forall id_state ss ->
    List.Forall (fun x : f64 => is_finite x = true) xs -> List.Forall2 same_f ys xs.
  Proof.
    induction bs as [|b bs IH]; intros [|s ss] xs ys H L Hb Hs Hx; try discriminate.
    - apply c_none in H. subst. apply same_refl, Hx.
    - inversion Hb; inversion Hs; subst. apply c_split in H as (us & RB & RR). pose proof (id_brun b s xs us RB ltac:(assumption) ltac:(assumption) Hx) as S1.
      eapply same_trans; [|exact S1]. eapply IH; try eassumption; [cbn in L; lia|]. eapply same_fin; eassumption.
  Qed.
  Lemma c_join (b : biquad FN) s xs us : c_brun b s xs us -> forall bs ss ys, c_run bs ss us ys -> c_run (b :: bs) (s :: ss) xs ys.
  Proof.
    induction 1 as [|s x xs s' y us F R IH]; intros bs ss ys H; inversion H; subst; [constructor|]. econstructor; [econstructor; eassumption|]. apply IH. assumption.
  Qed.
  Lemma c_run0 xs : c_run (m := m) [] [] xs xs.
  Proof. induction xs; [constructor|econstructor; [constructor|assumption]]. Qed.
  Lemma c_app (bs cs : list (biquad FN)) : forall ss ts xs ys, length ss = length bs -> c_run (bs ++ cs) (ss ++ ts) xs ys ->
    exists us, c_run bs ss xs us /\ c_run cs ts us ys.
  Proof.
    induction bs as [|b bs IH]; intros [|s ss] ts xs ys L H; try discriminate.
    - exists xs. split; [apply c_run0|exact H].
    - cbn in H. apply c_split in H as (ws & RB & RR). apply IH in RR as (us & A & B); [|cbn in L; lia]. exists us. split; [|exact B]. eapply c_join; eassumption.
  Qed.
End I.

Lemma id_idb m : id_coefs (idb (N := F64 m)).
Proof.
  pose proof (idb_ident m) as (A & [s1 B] & [s2 C] & [s3 D] & [s4 E]).
  assert (F : is_finite (m_b0 (idb (N := F64 m)) : f64) = true) by reflexivity.
  unfold id_coefs, fin_coeffs, FloatSpec.is_fin. rewrite B, C, D, E. repeat split; try reflexivity; assumption.
Qed.

(** ** Butterworth filters *)
Lemma c68_bw m (hp : bool) (q : params (F64 m)) n FO t : libm_design m -> libm_response m -> FloatSpec.is_fin (q_fc q : f64) ->
  / 2 ^ 14 <= B2R (q_fc q : f64) <= 1 / 2 - / 2 ^ 14 -> (1 <= n <= 24)%nat -> (Z.of_nat n <= FO)%Z ->
  let k := (Bw, if hp then HP else LP) in let f := B2R (q_fc q : f64) in
  bw_scale_error hp f n <= / 8 ->
  exists fl, filt_setupN (N := F64 m) k FO (Some (Z.of_nat n)) q (filt_init t k FO) = Ok fl tt /\
    forall X (xs ys : list f64) zs, 0 <= X -> chain_ok (bw_chain hp f n) X -> List.Forall (fun x => FloatSpec.is_fin x /\ Rabs (B2R x) <= X) xs ->
    ideal_out (bw_cascade hp f n) (map B2R xs) zs ->
    c_run (fl_stages fl) (fl_states fl) xs ys ->
    length ys = length xs /\ List.Forall (fun y => FloatSpec.is_fin y /\ Rabs (B2R y) <= chain_bound (bw_chain hp f n) X) ys /\
    List.Forall2 (fun y z => Rabs (B2R y - z) <= chain_error (bw_chain hp f n) X 0) ys zs.
Proof.
  intros HM HR Ff Hf HN HFO k f HE. destruct (c66_parts m hp q n FO t HM HR Ff Hf HN HFO HE) as (fl & bs' & d & E & ST & SS & FC & SN & _ & _). exists fl. split; [exact E|].
  intros X xs ys zs HX OK Hxs Hz R. rewrite ST, SS, repeat_app in R.
  apply c_app in R as (us & R1 & R2); [|apply repeat_length].
  assert (MI : map d_id (bw_chain hp f n) = bw_cascade hp f n) by (unfold bw_chain, bw_cascade; rewrite map_map; apply map_ext; reflexivity).
  destruct (c68_ideal bs' (bw_chain hp f n) t xs us X zs FC SN OK HX Hxs ltac:(rewrite MI; exact Hz) R1) as (L1 & L2 & O & Er).
  assert (Q : List.Forall2 same_f ys us).
  { eapply id_run; [exact R2|rewrite !repeat_length; reflexivity| | |].
    - apply List.Forall_forall. intros x Hx. apply repeat_spec in Hx. subst x. apply id_idb.
    - apply List.Forall_forall. intros x Hx. apply repeat_spec in Hx. subst x. apply init_id.
    - eapply List.Forall_impl; [|exact O]. intros y [Y _]. exact Y. }
  clear -Q L1 O Er.
  split; [rewrite <- L1; clear -Q; induction Q; simpl; congruence|]. clear L1. revert zs O Er. induction Q as [|y w ys ws H Q IH]; intros zs O Er.
  - inversion Er; subst. split; constructor.
  - inversion Er as [|? z ? zs' H1 H2]; subst. inversion O as [|? ? [O1 O2] O3]; subst. destruct H as [Y1 Y2]. destruct (IH zs' O3 H2) as [I1 I2].
    split; constructor; try assumption; [split; [exact Y1|]|]; rewrite Y2; assumption.
Qed.

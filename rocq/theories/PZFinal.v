(** Proofs: the poles and zeros that designed filters report. *)
From Coq Require Import ZArith List Bool Reals Lra Lia.
From Coquelicot Require Import Coquelicot.
From Verif Require Import Num Outcome Types Biquad State Cascade Transforms Butterworth Chebyshev PoleFilter Exact RealNum SigSpec PZSpec ChebSpec BandSpec ShelfSpec
  ChShelfSpec DesignSpec DesignProofs DesignLemmas DesignFinal BandSetup BandLemmas ShelfLemmas BandFinal ChShelfLemmas ChShelfSetup ChShelfFinal.
Import ListNotations.
Local Open Scope R_scope.

Section PZ.
  Context {strict : bool}.
  Notation XS := (X strict).
  Lemma c50 fam s t n FO req fc fw db (q : params XS) : is_shelf s = false -> (1 <= n)%nat -> (Z.of_nat n <= FO)%Z -> in_int (2 * Z.of_nat n) = true ->
    requested FO req n -> q_fc q = XR fc -> q_fw q = XR fw -> in_range s fc fw -> db_ok fam db -> (fam <> Bw -> q_db q = XR db) ->
    match filt_setupN (N := XS) (fam, s) FO req q (filt_init t (fam, s) FO) with
    | Ok fl _ => reports fl on_circle
    | Throw _ _ => s = BP \/ s = BS
    | UB => False
    end.
  Proof.
    intros Hs Hn HF HI HR EF EW Hr Hd Hq. pose proof (to_pmdb fam db q Hq) as Hp. destruct s; try discriminate Hs; cbn [in_range] in Hr.
    - destruct (f_lp fam t n FO req fc db q Hn HF HI HR EF Hr Hd Hp) as (fl & E & [_ S] & _). rewrite E. exact S.
    - destruct (f_hp fam t n FO req fc db q Hn HF HI HR EF Hr Hd Hp) as (fl & E & [_ S] & _). rewrite E. exact S.
    - destruct Hr as [Hf He].
      destruct (Req_dec (1 / tan ((edge_hi fc fw - edge_lo fc fw) / 2)) (real_pole fam n db)) as [Z|Z].
      + destruct (Nat.odd n) eqn:O.
        * destruct (f_bp_throws fam t n FO req fc fw db q Hn HF HI HR EF EW Hf Hd Hp He O Z) as (e & fl & E). rewrite E. auto.
        * destruct (f_bp fam t n FO req fc fw db q Hn HF HI HR EF EW Hf Hd Hp He ltac:(intros [Q _]; congruence)) as (fl & E & [_ S] & _). rewrite E. exact S.
      + destruct (f_bp fam t n FO req fc fw db q Hn HF HI HR EF EW Hf Hd Hp He ltac:(intros [_ Q]; contradiction)) as (fl & E & [_ S] & _). rewrite E. exact S.
    - destruct Hr as [Hf He].
      destruct (Req_dec (tan ((edge_hi fc fw - edge_lo fc fw) / 2)) (real_pole fam n db)) as [Z|Z].
      + destruct (Nat.odd n) eqn:O.
        * destruct (f_bs_throws fam t n FO req fc fw db q Hn HF HI HR EF EW Hf Hd Hp He O Z) as (e & fl & E). rewrite E. auto.
        * destruct (f_bs fam t n FO req fc fw db q Hn HF HI HR EF EW Hf Hd Hp He ltac:(intros [Q _]; congruence)) as (fl & E & [_ S] & _). rewrite E. exact S.
      + destruct (f_bs fam t n FO req fc fw db q Hn HF HI HR EF EW Hf Hd Hp He ltac:(intros [_ Q]; contradiction)) as (fl & E & [_ S] & _). rewrite E. exact S.
  Qed.
  Lemma c50_ch fam s t n FO req fc fw G db (q : params XS) : fam = Ch1 \/ fam = Ch2 -> is_shelf s = true -> (1 <= n)%nat -> (Z.of_nat n <= FO)%Z ->
    in_int (2 * Z.of_nat n) = true -> requested FO req n -> q_fc q = XR fc -> q_fw q = XR fw -> in_range s fc fw ->
    0 < db < Rabs G -> q_gain q = XR G -> q_db q = XR db ->
    let td := 1 / tan ((edge_hi fc fw - edge_lo fc fw) / 2) in
    ~ (s = BSh /\ Nat.odd n = true /\ (td = cs_real_pole n G db \/ td = cs_real_zero n G db)) ->
    exists fl, filt_setupN (N := XS) (fam, s) FO req q (filt_init t (fam, s) FO) = Ok fl tt /\ reports fl in_circle.
  Proof.
    intros Hfam Hs Hn HF HI HR EF EW Hr HO EG ED td HB. destruct s; try discriminate Hs; cbn [in_range] in Hr.
    - destruct (cs_low fam t n FO req fc G db q Hfam Hn HF HI HR EF Hr HO EG ED) as (fl & E & [_ S] & _). eauto.
    - destruct (cs_high fam t n FO req fc G db q Hfam Hn HF HI HR EF Hr HO EG ED) as (fl & E & [_ S] & _). eauto.
    - destruct Hr as [Hf He].
      destruct (cs_band fam t n FO req fc fw G db q Hfam Hn HF HI HR EF EW Hf HO EG ED He ltac:(rewrite <- real_pole_eq, <- real_zero_eq by exact HO; unfold td in HB; tauto)) as (fl & E & [_ S] & _). eauto.
  Qed.
End PZ.
Lemma c50_bw s t n FO req fc fw G (q : params (X false)) : is_shelf s = true -> (1 <= n)%nat -> (Z.of_nat n <= FO)%Z ->
  in_int (2 * Z.of_nat n) = true -> requested FO req n -> q_fc q = XR fc -> q_fw q = XR fw -> in_range s fc fw ->
  q_gain q = XR G ->
  let td := tan ((edge_hi fc fw - edge_lo fc fw) / 2) in
  ~ (s = BSh /\ Nat.odd n = true /\ (td ^ (2 * n) = Rpower 10 (G / 20) \/ td ^ (2 * n) = Rpower 10 (- G / 20))) ->
  exists fl, filt_setupN (N := X false) (Bw, s) FO req q (filt_init t (Bw, s) FO) = Ok fl tt /\ reports fl in_circle.
Proof.
  intros Hs Hn HF HI HR EF EW Hr EG td HB. destruct s; try discriminate Hs; cbn [in_range] in Hr.
  - destruct (sh_low t n FO req fc G q Hn HF HI HR EF Hr EG) as (fl & E & [_ S] & _). eauto.
  - destruct (sh_high t n FO req fc G q Hn HF HI HR EF Hr EG) as (fl & E & [_ S] & _). eauto.
  - destruct Hr as [Hf He].
    destruct (sh_band t n FO req fc fw G q Hn HF HI HR EF EW Hf EG He ltac:(unfold td in HB; tauto)) as (fl & E & [_ S] & _). eauto.
Qed.

(** Proofs: the gains of designed filters at frequency 0 and at the Nyquist frequency, and where constant and
    alternating inputs settle. *)
From Coq Require Import ZArith List Bool Reals Lra Lia.
From Coquelicot Require Import Coquelicot.
From Verif Require Import Num Outcome Types Biquad State Cascade Transforms Butterworth Chebyshev PoleFilter Exact RealNum History Stream SigSpec SigLemmas
  FiltSig PZSpec ChebSpec BandSpec ShelfSpec ChShelfSpec DesignSpec DesignProofs DesignLemmas DesignFinal BandSetup BandLemmas ShelfLemmas BandFinal
  ChShelfLemmas ChShelfSetup ChShelfFinal PZFinal RBJProofs EndSpec.
Import ListNotations.
Local Open Scope R_scope.

Lemma real_fac (s : R) (c d : C) : s * s = 1 -> conj_or_real c d -> Cmod c <= 1 -> Cmod d <= 1 ->
  exists r, ((1 - c * RtoC s) * (1 - d * RtoC s))%C = RtoC r /\ 0 <= r.
Proof.
  intros Hs [[H1 H2]| ->] Hc Hd.
  - destruct c as [c c'], d as [d d']. cbn [snd] in *. subst.
    change (c, 0) with (RtoC c) in *. change (d, 0) with (RtoC d) in *. rewrite Cmod_R in Hc, Hd.
    exists ((1 - c * s) * (1 - d * s)). split.
    + rewrite <- !RtoC_mult, <- !RtoC_minus, <- RtoC_mult. reflexivity.
    + assert (L : forall x, Rabs x <= 1 -> 0 <= 1 - x * s).
      { intros x Hx. apply Rabs_le_between in Hx. assert (s = 1 \/ s = -1) as [-> | ->]; [|lra|lra].
        assert (E : (s - 1) * (s + 1) = 0) by (ring_simplify; lra). apply Rmult_integral in E. lra. }
      apply Rmult_le_pos; apply L; assumption.
  - exists (Cmod (1 - c * RtoC s)%C ^ 2). split; [|apply pow2_ge_0].
    destruct c as [c c']. unfold Cmod. rewrite pow2_sqrt by (apply Rplus_le_le_0_compat; apply pow2_ge_0).
    unfold Cconj, Cminus, Cplus, Copp, Cmult, RtoC. cbn [fst snd]. f_equal; ring.
Qed.
Lemma fac_pos (s : R) (c d : C) : s * s = 1 -> conj_or_real c d -> Cmod c < 1 -> Cmod d < 1 ->
  exists r, ((1 - c * RtoC s) * (1 - d * RtoC s))%C = RtoC r /\ 0 < r.
Proof.
  intros Hs H Hc Hd. destruct (real_fac s c d Hs H ltac:(lra) ltac:(lra)) as (r & E & [R|R]); [eauto|].
  exfalso. rewrite <- R in E.
  assert (NZ : forall x : C, Cmod x < 1 -> (1 - x * RtoC s)%C <> 0%C).
  { intros x Hx Q. assert (E1 : (x * RtoC s)%C = RtoC 1) by (replace (x * RtoC s)%C with (1 - (1 - x * RtoC s))%C by ring; rewrite Q; ring).
    apply (f_equal Cmod) in E1. rewrite Cmod_mult, !Cmod_R, (Rabs_right 1) in E1 by lra.
    assert (Rabs s = 1) by (assert (s = 1 \/ s = -1) as [-> | ->];
      [assert (E2 : (s - 1) * (s + 1) = 0) by (ring_simplify; lra); apply Rmult_integral in E2; lra|apply Rabs_right; lra|rewrite Rabs_left by lra; lra]).
    nra. }
  apply (Cmult_neq_0 _ _ (NZ c Hc) (NZ d Hd)). exact E.
Qed.
Lemma num_real (Z : pzc -> Prop) s ps : (forall p, Z p -> Cmod (zz1 p) <= 1 /\ Cmod (zz2 p) <= 1) -> s * s = 1 -> List.Forall pz_ok ps ->
  List.Forall Z ps ->
  exists r, cprod (map (fun p => pz_num p (RtoC s)) ps) = RtoC r /\ 0 <= r.
Proof.
  intros HZ Hs OK H. induction ps as [|p ps IH].
  - exists 1. split; [reflexivity|lra].
  - inversion OK as [|? ? [_ O2] O3]; subst. inversion H as [|? ? ZZ Z3]; subst. destruct (HZ _ ZZ) as [Z1 Z2]. destruct (IH O3 Z3) as (r & E & R).
    destruct (real_fac s (zz1 p) (zz2 p) Hs O2 Z1 Z2) as (r' & E' & R'). exists (r' * r). split.
    + cbn [map]. unfold cprod. cbn [fold_right]. fold (cprod (map (fun p => pz_num p (RtoC s)) ps)). rewrite E. unfold pz_num. rewrite E'. rewrite RtoC_mult. reflexivity.
    + apply Rmult_le_pos; assumption.
Qed.
Lemma den_real s ps : s * s = 1 -> List.Forall pz_ok ps ->
  List.Forall (fun p => Cmod (zp1 p) < 1 /\ Cmod (zp2 p) < 1) ps ->
  exists r, cprod (map (fun p => pz_den p (RtoC s)) ps) = RtoC r /\ 0 < r.
Proof.
  intros Hs OK H. induction ps as [|p ps IH].
  - exists 1. split; [reflexivity|lra].
  - inversion OK as [|? ? [O2 _] O3]; subst. inversion H as [|? ? [Z1 Z2] Z3]; subst. destruct (IH O3 Z3) as (r & E & R).
    destruct (fac_pos s (zp1 p) (zp2 p) Hs O2 Z1 Z2) as (r' & E' & R'). exists (r' * r). split.
    + cbn [map]. unfold cprod. cbn [fold_right]. fold (cprod (map (fun p => pz_den p (RtoC s)) ps)). rewrite E. unfold pz_den. rewrite E'. rewrite RtoC_mult. reflexivity.
    + apply Rmult_lt_0_compat; assumption.
Qed.

Section Ends.
  Context {strict : bool}.
  Notation XS := (X strict).
  Definition end_freq (f : R) : Prop := f = 0 \/ f = 1 / 2.
  Lemma end_upt f : end_freq f -> exists s, cis (- (2 * PI * f)) = RtoC s /\ s * s = 1.
  Proof.
    intros [-> | ->]; [exists 1|exists (-1)]; (split; [|ring]).
    - exact upt_0.
    - exact upt_half.
  Qed.
  (** the response at the two ends is the non-negative root *)
  Lemma end_value (Z : pzc -> Prop) (fl : filt XS) f g : (forall p, Z p -> Cmod (zz1 p) <= 1 /\ Cmod (zz2 p) <= 1) -> end_freq f -> 0 <= g ->
    reports fl Z -> responds fl f (g ^ 2) -> filt_response fl (XR f) = Val (xc (RtoC g)).
  Proof.
    intros HZ Hf Hg (ps & K & _ & _ & OK & PL & ZS & KP & _ & HR) (h & E & M).
    assert (F2 : 0 <= f <= 1 / 2) by (destruct Hf; subst; lra). specialize (HR f F2).
    destruct (end_upt f Hf) as (s & U & Hs). rewrite U in HR. destruct (num_real Z s ps HZ Hs OK ZS) as (a & A & A0).
    destruct (den_real s ps Hs OK PL) as (b & B & B0). rewrite A, B in HR.
    assert (E1 : (RtoC K * RtoC a / RtoC b)%C = RtoC (K * a / b)) by (rewrite RtoC_div, RtoC_mult by lra; reflexivity).
    rewrite E1 in HR. rewrite HR in E.
    assert (EH : h = RtoC (K * a / b)). { destruct h as [h1 h2]. unfold xc, RtoC in E. cbn [fst snd] in E. inversion E. reflexivity. }
    subst h. rewrite Cmod_R, pow2_abs in M. rewrite HR. f_equal. f_equal. f_equal.
    assert (P : 0 <= K * a / b) by (apply Rmult_le_pos; [apply Rmult_le_pos; lra|left; apply Rinv_0_lt_compat; exact B0]).
    apply Rsqr_inj; try assumption. unfold Rsqr. nra.
  Qed.
  Lemma on_in p : on_circle p -> Cmod (zz1 p) <= 1 /\ Cmod (zz2 p) <= 1.
  Proof. intros [H1 [H2 | H2]]; rewrite ?H1, ?H2, ?Cmod_0; lra. Qed.
  Lemma in_in p : in_circle p -> Cmod (zz1 p) <= 1 /\ Cmod (zz2 p) <= 1.
  Proof. unfold in_circle. lra. Qed.
End Ends.
Lemma rpow_sq a : Rpower 10 (a / 20) ^ 2 = Rpower 10 (a / 10).
Proof. simpl. rewrite Rmult_1_r, <- Rpower_plus. f_equal. lra. Qed.
Lemma rpow_ge a : 0 <= Rpower 10 a.
Proof. left. apply exp_pos. Qed.
Lemma pass_sq fam n db : pass_level fam n db ^ 2 = peak_gain fam n db.
Proof. destruct fam; cbn [pass_level peak_gain]; try ring. destruct (Nat.odd n); [ring|apply rpow_sq]. Qed.
Lemma stop_sq fam n db : stop_level fam n db ^ 2 = null_gain fam n db.
Proof. destruct fam; cbn [stop_level null_gain]; try ring. destruct (Nat.odd n); [ring|apply rpow_sq]. Qed.
Lemma pass_ge fam n db : 0 <= pass_level fam n db.
Proof. destruct fam; cbn; try lra. destruct (Nat.odd n); [lra|apply rpow_ge]. Qed.
Lemma stop_ge fam n db : 0 <= stop_level fam n db.
Proof. destruct fam; cbn; try lra. destruct (Nat.odd n); [lra|apply rpow_ge]. Qed.
Lemma shelf_ge fam n G db : 0 <= shelf_level fam n G db.
Proof. destruct fam; cbn; try (destruct (Nat.odd n)); apply rpow_ge. Qed.
Lemma cs_sq fam n G db : fam <> Bw -> shelf_level fam n G db ^ 2 = cs_dc2 n G db.
Proof. intros H. destruct fam; [congruence| |]; cbn; unfold cs_dc2, top2, edge2; (destruct (Nat.odd n); [apply (rpow_sq G)|apply rpow_sq]). Qed.
Lemma bw_sq n G db : (1 <= n)%nat -> shelf_level Bw n G db ^ 2 = shelf2 n G (Some 0).
Proof.
  intros Hn. cbn [shelf_level shelf2]. rewrite (pow_i (2 * n)) by lia. pose proof (exp_pos (G / 20 * ln 10)) as P. change (0 < Rpower 10 (G / 20)) in P. field. lra.
Qed.

(** the squared gains at both ends, one design after the other *)
Lemma end_responds fam s t n FO req fc fw G db (q : params X0) :
  (1 <= n)%nat -> (Z.of_nat n <= FO)%Z -> in_int (2 * Z.of_nat n) = true -> requested FO req n ->
  q_fc q = XR fc -> q_fw q = XR fw -> q_gain q = XR G -> (fam <> Bw -> q_db q = XR db) ->
  in_range s fc fw -> levels_ok fam s G db -> no_clash fam s n fc fw G db ->
  exists fl, filt_setupN (N := X0) (fam, s) FO req q (filt_init t (fam, s) FO) = Ok fl tt /\ stable_filter fl /\
    (reports fl on_circle \/ reports fl in_circle) /\ responds fl 0 (dc_level fam s n G db ^ 2) /\ responds fl (1 / 2) (nyquist_level fam s n G db ^ 2).
Proof.
  intros Hn HF HI HR EF EW EG ED Hr HL NC. pose proof (to_pmdb fam db q ED) as Hp. pose proof PI_RGT_0 as HPI.
  assert (HD : is_shelf s = false -> db_ok fam db).
  { intros Hs. unfold levels_ok in HL. rewrite Hs in HL. destruct fam; exact HL || exact I. }
  assert (FAM : fam <> Bw -> fam = Ch1 \/ fam = Ch2) by (destruct fam; [congruence|auto|auto]).
  assert (CO : fam <> Bw -> is_shelf s = true -> 0 < db < Rabs G).
  { intros Hb Hs. unfold levels_ok in HL. rewrite Hs in HL. destruct fam; [congruence|exact HL|exact HL]. }
  assert (S0 : sin (2 * PI * 0) = 0) by (rewrite Rmult_0_r; apply sin_0).
  assert (S1 : sin (2 * PI * (1 / 2)) = 0) by (replace (2 * PI * (1 / 2)) with PI by field; apply sin_PI).
  assert (DEC : fam = Bw \/ fam <> Bw) by (destruct fam; auto; right; discriminate).
  destruct s; cbn [in_range dc_level nyquist_level is_shelf] in *; rewrite ?pass_sq, ?stop_sq, ?pow1.
  - destruct (f_lp fam t n FO req fc db q Hn HF HI HR EF Hr (HD eq_refl) Hp) as (fl & E & [S P] & _).
    destruct (lowpass fam t n FO req fc db q Hn HF HI HR EF Hr (HD eq_refl) Hp) as (fl' & E' & _ & R1 & R2).
    rewrite E in E'. inversion E'; subst fl'. exists fl. split; [exact E|]. split; [exact S|]. split; [auto|].
    rewrite <- (gain2_null fam n db (HD eq_refl)), <- (gain2_peak fam n db Hn (HD eq_refl)). split; [|exact R2].
    specialize (R1 0 ltac:(lra)). rewrite Rmult_0_r, tan_0 in R1. unfold Rdiv in R1. rewrite Rmult_0_l in R1. exact R1.
  - destruct (f_hp fam t n FO req fc db q Hn HF HI HR EF Hr (HD eq_refl) Hp) as (fl & E & [S P] & _).
    destruct (highpass fam t n FO req fc db q Hn HF HI HR EF Hr (HD eq_refl) Hp) as (fl' & E' & _ & _ & R1 & R2).
    rewrite E in E'. inversion E'; subst fl'. exists fl. split; [exact E|]. split; [exact S|]. split; [auto|].
    rewrite <- (gain2_null fam n db (HD eq_refl)), <- (gain2_peak fam n db Hn (HD eq_refl)). split; assumption.
  - destruct Hr as [Hf He]. destruct (f_bp fam t n FO req fc fw db q Hn HF HI HR EF EW Hf (HD eq_refl) Hp He) as (fl & E & [S P] & R).
    { intros [O Q]. exact (NC O Q). }
    exists fl. split; [exact E|]. split; [exact S|]. split; [auto|]. rewrite <- (gain2_null fam n db (HD eq_refl)).
    split; [rewrite <- (bp_W_end (edge_hi fc fw) (edge_lo fc fw) _ S0)|rewrite <- (bp_W_end (edge_hi fc fw) (edge_lo fc fw) _ S1)]; apply R; lra.
  - destruct Hr as [Hf He]. destruct (f_bs fam t n FO req fc fw db q Hn HF HI HR EF EW Hf (HD eq_refl) Hp He) as (fl & E & [S P] & R).
    { intros [O Q]. exact (NC O Q). }
    destruct (edges_in fc fw) as [E1 E2].
    exists fl. split; [exact E|]. split; [exact S|]. split; [auto|]. rewrite <- (gain2_peak fam n db Hn (HD eq_refl)).
    split; [rewrite <- (bs_W_end (edge_hi fc fw) (edge_lo fc fw) (conj E1 He) E2 _ S0)|rewrite <- (bs_W_end (edge_hi fc fw) (edge_lo fc fw) (conj E1 He) E2 _ S1)]; apply R; lra.
  - destruct DEC as [->|NB].
    + destruct (sh_low t n FO req fc G q Hn HF HI HR EF Hr EG) as (fl & E & [S P] & R1 & R2). exists fl. split; [exact E|]. split; [exact S|]. split; [auto|].
      rewrite bw_sq by exact Hn. split; [|exact R2]. specialize (R1 0 ltac:(lra)). rewrite Rmult_0_r, tan_0 in R1. unfold Rdiv in R1. rewrite Rmult_0_l in R1. exact R1.
    + destruct (cs_low fam t n FO req fc G db q (FAM NB) Hn HF HI HR EF Hr (CO NB eq_refl) EG (ED NB)) as (fl & E & [S P] & R1 & R2).
      exists fl. split; [exact E|]. split; [exact S|]. split; [auto|].
      rewrite cs_sq, <- (cs_dc n G db (CO NB eq_refl)) by exact NB. split; [|exact R2]. specialize (R1 0 ltac:(lra)). rewrite Rmult_0_r, tan_0 in R1. unfold Rdiv in R1. rewrite Rmult_0_l in R1. exact R1.
  - destruct DEC as [->|NB].
    + destruct (sh_high t n FO req fc G q Hn HF HI HR EF Hr EG) as (fl & E & [S P] & _ & R1 & R2). exists fl. split; [exact E|]. split; [exact S|]. split; [auto|].
      rewrite bw_sq by exact Hn. split; assumption.
    + destruct (cs_high fam t n FO req fc G db q (FAM NB) Hn HF HI HR EF Hr (CO NB eq_refl) EG (ED NB)) as (fl & E & [S P] & _ & R1 & R2).
      exists fl. split; [exact E|]. split; [exact S|]. split; [auto|].
      rewrite cs_sq, <- (cs_dc n G db (CO NB eq_refl)) by exact NB. split; assumption.
  - destruct Hr as [Hf He]. unfold no_clash in NC. cbv zeta in NC. destruct DEC as [->|NB].
    + destruct (sh_band t n FO req fc fw G q Hn HF HI HR EF EW Hf EG He) as (fl & E & [S P] & R).
      { intros [O [Q|Q]]; destruct (NC O); contradiction. }
      exists fl. split; [exact E|]. split; [exact S|]. split; [auto|].
      split; [change 1 with (shelf2 n G None); rewrite <- (bp_W_end (edge_hi fc fw) (edge_lo fc fw) _ S0)|
              change (responds fl (1 / 2) (shelf2 n G None)); rewrite <- (bp_W_end (edge_hi fc fw) (edge_lo fc fw) _ S1)]; apply R; lra.
    + destruct (cs_band fam t n FO req fc fw G db q (FAM NB) Hn HF HI HR EF EW Hf (CO NB eq_refl) EG (ED NB) He) as (fl & E & [S P] & R).
      { rewrite <- real_pole_eq, <- real_zero_eq by exact (CO NB eq_refl). intros [O Q]. specialize (NC O). destruct fam; [congruence| |]; destruct NC, Q; contradiction. }
      exists fl. split; [exact E|]. split; [exact S|]. split; [auto|].
      split; [change (responds fl 0 (cshelf2 n G db None)); rewrite <- (bp_W_end (edge_hi fc fw) (edge_lo fc fw) _ S0)|
              change (responds fl (1 / 2) (cshelf2 n G db None)); rewrite <- (bp_W_end (edge_hi fc fw) (edge_lo fc fw) _ S1)]; apply R; lra.
Qed.
Lemma dc_ge fam s n G db : 0 <= dc_level fam s n G db.
Proof. destruct s; cbn; auto using pass_ge, stop_ge, shelf_ge; lra. Qed.
Lemma nyq_ge fam s n G db : 0 <= nyquist_level fam s n G db.
Proof. destruct s; cbn; auto using pass_ge, stop_ge, shelf_ge; lra. Qed.

Lemma c59 fam s t n FO req fc fw G db (q : params X0) :
  (1 <= n)%nat -> (Z.of_nat n <= FO)%Z -> in_int (2 * Z.of_nat n) = true -> requested FO req n ->
  q_fc q = XR fc -> q_fw q = XR fw -> q_gain q = XR G -> (fam <> Bw -> q_db q = XR db) ->
  in_range s fc fw -> levels_ok fam s G db -> no_clash fam s n fc fw G db ->
  exists fl, filt_setupN (N := X0) (fam, s) FO req q (filt_init t (fam, s) FO) = Ok fl tt /\
    filt_response fl (XR 0) = Val (Cx (XR (dc_level fam s n G db)) (XR 0)) /\
    filt_response fl (XR (1 / 2)) = Val (Cx (XR (nyquist_level fam s n G db)) (XR 0)).
Proof.
  intros. destruct (end_responds fam s t n FO req fc fw G db q) as (fl & E & _ & RP & R0 & R1); try assumption.
  exists fl. split; [exact E|]. split.
  - destruct RP as [RP|RP]; refine (end_value _ fl 0 _ _ (or_introl eq_refl) (dc_ge fam s n G db) RP R0); [exact on_in|exact in_in].
  - destruct RP as [RP|RP]; refine (end_value _ fl (1 / 2) _ _ (or_intror eq_refl) (nyq_ge fam s n G db) RP R1); [exact on_in|exact in_in].
Qed.

(** ** where inputs settle *)
Lemma cis_end (s f : R) i : (f = 0 /\ s = 1) \/ (f = 1 / 2 /\ s = -1) -> cis (2 * PI * f * INR i) = RtoC (s ^ i).
Proof.
  intros [[-> ->]|[-> ->]].
  - rewrite Rmult_0_r, Rmult_0_l, pow1. unfold cis. rewrite cos_0, sin_0. reflexivity.
  - replace (2 * PI * (1 / 2)) with PI by field. induction i as [|i IH].
    + rewrite Rmult_0_r. unfold cis. rewrite cos_0, sin_0. reflexivity.
    + rewrite S_INR, Rmult_plus_distr_l, Rmult_1_r. unfold cis in *. rewrite neg_cos, neg_sin.
      inversion IH as [[E1 E2]]. rewrite E1, E2. unfold RtoC. f_equal; simpl; ring.
Qed.
Lemma pow_pm s i : s = 1 \/ s = -1 -> s ^ i * s ^ i = 1.
Proof. intros H. rewrite <- Rpow_mult_distr. replace (s * s) with 1 by (destruct H; subst; ring). apply pow1. Qed.
(** one of the two ends: [s] is 1 at frequency 0 and -1 at the Nyquist frequency *)
Lemma settle t k FO (fl : filt X0) sts f s g : (1 <= FO)%Z -> in_int (2 * FO) = true -> reachable_ok t k FO fl -> stable_filter fl ->
  List.Forall fin_st sts -> length sts = length (fl_stages fl) -> (f = 0 /\ s = 1) \/ (f = 1 / 2 /\ s = -1) ->
  filt_response fl (XR f) = Val (Cx (XR g) (XR 0)) ->
  forall x c, is_lim_seq (fun i => s ^ i * x i) (Finite c) ->
  exists y, (forall m, snd (filt_run (MkFilt (fl_pf fl) sts) (xr (prefix m x))) = xr (prefix m y)) /\
    is_lim_seq (fun i => s ^ i * y i) (Finite (g * c)).
Proof.
  intros HF HI RO [F1 F2] FS LS Hf HG x c HX. assert (F : 0 <= f <= 1 / 2) by (destruct Hf as [[-> _]|[-> _]]; lra).
  assert (PM : s = 1 \/ s = -1) by (destruct Hf as [[_ ->]|[_ ->]]; auto).
  destruct (filt_c13g t k FO fl sts f HF HI RO F1 F2 FS LS F) as (h & E & H).
  assert (EH : h = RtoC g). { rewrite HG in E. destruct h as [h1 h2]. unfold xc in E. cbn [fst snd] in E. inversion E. reflexivity. }
  subst h. destruct (H x (RtoC c)) as (y & Y1 & Y2).
  - apply is_lim_seq_abs_0. apply (is_lim_seq_ext (fun i => Rabs (s ^ i * x i - c))).
    + intros i. rewrite (cis_end s f i Hf), <- RtoC_mult. cbn [fst RtoC].
      replace (x i - c * s ^ i) with (s ^ i * (s ^ i * x i - c)).
      * rewrite Rabs_mult. replace (Rabs (s ^ i)) with 1; [ring|]. destruct PM as [-> | ->]; [rewrite pow1, Rabs_R1|rewrite pow_1_abs]; reflexivity.
      * rewrite <- (Rmult_1_l (x i)) at 2. rewrite <- (pow_pm s i PM). ring.
    + apply -> is_lim_seq_abs_0. replace (Finite 0) with (Finite (c - c)) by (f_equal; ring). apply is_lim_seq_minus'; [exact HX|apply is_lim_seq_const].
  - exists y. split; [exact Y1|].
    assert (L : is_lim_seq (fun i => s ^ i * y i - g * c) 0).
    { apply is_lim_seq_abs_0. eapply is_lim_seq_ext; [|apply -> is_lim_seq_abs_0; exact Y2]. intros i. cbv beta.
      rewrite (cis_end s f i Hf), <- !RtoC_mult. cbn [fst RtoC].
      replace (s ^ i * y i - g * c) with (s ^ i * (y i - g * c * s ^ i)).
      - rewrite Rabs_mult. replace (Rabs (s ^ i)) with 1; [ring|]. destruct PM as [-> | ->]; [rewrite pow1, Rabs_R1|rewrite pow_1_abs]; reflexivity.
      - replace (s ^ i * (y i - g * c * s ^ i)) with (s ^ i * y i - g * c * (s ^ i * s ^ i)) by ring. rewrite (pow_pm s i PM). ring. }
    apply (is_lim_seq_ext (fun i => (s ^ i * y i - g * c) + g * c)); [intros; ring|].
    replace (Finite (g * c)) with (Finite (0 + g * c)) by (f_equal; ring). apply is_lim_seq_plus'; [exact L|apply is_lim_seq_const].
Qed.
Lemma requested_reach t k FO req n q (fl : filt X0) : requested FO req n -> (Z.of_nat n <= FO)%Z -> in_int (2 * FO) = true ->
  filt_setupN (N := X0) k FO req q (filt_init t k FO) = Ok fl tt -> reachable_ok t k FO fl.
Proof.
  intros HR HF HI E. exists [OpSetupN req q]. split.
  - constructor; [|constructor]. unfold op_ok, order_ok, requested in *. destruct req as [o|]; [|exact I]. subst o. unfold in_int in *.
    unfold int_min, int_max in *. apply andb_true_iff in HI. destruct HI as [H1 H2]. apply Z.leb_le in H1, H2. apply andb_true_iff. split; apply Z.leb_le; lia.
  - cbn [steps step]. rewrite E. reflexivity.
Qed.
Lemma c59_settles fam s t n FO req fc fw G db (q : params X0) :
  (1 <= n)%nat -> (Z.of_nat n <= FO)%Z -> in_int (2 * FO) = true -> requested FO req n ->
  q_fc q = XR fc -> q_fw q = XR fw -> q_gain q = XR G -> (fam <> Bw -> q_db q = XR db) ->
  in_range s fc fw -> levels_ok fam s G db -> no_clash fam s n fc fw G db ->
  exists fl, filt_setupN (N := X0) (fam, s) FO req q (filt_init t (fam, s) FO) = Ok fl tt /\
    forall sts x c, List.Forall fin_st sts -> length sts = length (fl_stages fl) ->
    (is_lim_seq x (Finite c) ->
      exists y, (forall m, snd (filt_run (MkFilt (fl_pf fl) sts) (xr (prefix m x))) = xr (prefix m y)) /\
        is_lim_seq y (Finite (dc_level fam s n G db * c))) /\
    (is_lim_seq (fun i => (-1) ^ i * x i) (Finite c) ->
      exists y, (forall m, snd (filt_run (MkFilt (fl_pf fl) sts) (xr (prefix m x))) = xr (prefix m y)) /\
        is_lim_seq (fun i => (-1) ^ i * y i) (Finite (nyquist_level fam s n G db * c))).
Proof.
  intros Hn HF HI HR EF EW EG ED Hr HL NC.
  assert (HI2 : in_int (2 * Z.of_nat n) = true).
  { unfold in_int, int_min, int_max in *. apply andb_true_iff in HI. destruct HI as [H1 H2]. apply Z.leb_le in H1, H2. apply andb_true_iff. split; apply Z.leb_le; lia. }
  destruct (end_responds fam s t n FO req fc fw G db q Hn HF HI2 HR EF EW EG ED Hr HL NC) as (fl & E & ST & _).
  destruct (c59 fam s t n FO req fc fw G db q Hn HF HI2 HR EF EW EG ED Hr HL NC) as (fl' & E' & R0 & R1).
  rewrite E in E'. inversion E'; subst fl'. exists fl. split; [exact E|]. pose proof (requested_reach _ _ _ _ _ _ _ HR HF HI E) as RO.
  assert (HF1 : (1 <= FO)%Z) by lia.
  intros sts x c FS LS. split; intros HX.
  - destruct (settle t (fam, s) FO fl sts 0 1 _ HF1 HI RO ST FS LS (or_introl (conj eq_refl eq_refl)) R0 x c) as (y & Y1 & Y2).
    + eapply is_lim_seq_ext; [|exact HX]. intros i. cbv beta. rewrite pow1. ring.
    + exists y. split; [exact Y1|]. eapply is_lim_seq_ext; [|exact Y2]. intros i. cbv beta. rewrite pow1. ring.
  - apply (settle t (fam, s) FO fl sts (1 / 2) (-1) _ HF1 HI RO ST FS LS (or_intror (conj eq_refl eq_refl)) R1 x c HX).
Qed.
(** band stop filters without a rejection floor remove their centre frequency *)
Lemma c59_centre fam t n FO req fc fw db (q : params X0) :
  (1 <= n)%nat -> (Z.of_nat n <= FO)%Z -> in_int (2 * FO) = true -> requested FO req n ->
  q_fc q = XR fc -> q_fw q = XR fw -> (fam <> Bw -> q_db q = XR db) -> in_range BS fc fw -> db_ok fam db -> no_clash fam BS n fc fw 0 db ->
  stop_level fam n db = 0 ->
  exists fl, filt_setupN (N := X0) (fam, BS) FO req q (filt_init t (fam, BS) FO) = Ok fl tt /\
    forall sts x A, List.Forall fin_st sts -> length sts = length (fl_stages fl) ->
      is_lim_seq (fun i => x i - fst (A * cis (centre (edge_hi fc fw) (edge_lo fc fw) * INR i))%C) 0 ->
      exists y, (forall m, snd (filt_run (MkFilt (fl_pf fl) sts) (xr (prefix m x))) = xr (prefix m y)) /\ is_lim_seq y 0.
Proof.
  intros Hn HF HI HR EF EW ED Hr HD NC SL. pose proof PI_RGT_0 as HPI.
  assert (HI2 : in_int (2 * Z.of_nat n) = true).
  { unfold in_int, int_min, int_max in *. apply andb_true_iff in HI. destruct HI as [H1 H2]. apply Z.leb_le in H1, H2. apply andb_true_iff. split; apply Z.leb_le; lia. }
  destruct (c35_bs_points fam t n FO req fc fw db q Hn HF HI2 HR EF EW Hr HD ED) as (fl & E & _ & _ & R & _).
  { intros [O Q]. exact (NC O Q). }
  destruct (edges_in fc fw) as [E1 E2]. destruct (centre_facts (edge_hi fc fw) (edge_lo fc fw) (conj E1 (proj2 Hr)) E2) as (K1 & _).
  set (w := centre (edge_hi fc fw) (edge_lo fc fw)) in *.
  destruct (f_bs fam t n FO req fc fw db q Hn HF HI2 HR EF EW (proj1 Hr) HD (to_pmdb fam db q ED) (proj2 Hr)) as (fl' & E' & [[F1 F2] _] & _).
  { intros [O Q]. exact (NC O Q). }
  rewrite E in E'. inversion E'; subst fl'. exists fl. split; [exact E|]. pose proof (requested_reach _ _ _ _ _ _ _ HR HF HI E) as RO.
  intros sts x A FS LS HX. assert (HF1 : (1 <= FO)%Z) by lia.
  destruct (filt_c13g t (fam, BS) FO fl sts (w / (2 * PI)) HF1 HI RO F1 F2 FS LS) as (h & EH & H).
  { apply ang_in. lra. }
  destruct R as (h' & EH' & M). rewrite EH in EH'. rewrite <- stop_sq, SL, pow_i in M by lia.
  assert (h' = h). { destruct h, h'. unfold xc in EH'. cbn in EH'. inversion EH'. reflexivity. }
  subst h'. assert (Z : h = 0%C). { apply Cmod_eq_0. apply Rsqr_eq_0. unfold Rsqr. lra. }
  subst h. assert (EW2 : 2 * PI * (w / (2 * PI)) = w) by (field; lra). rewrite EW2 in H.
  destruct (H x A HX) as (y & Y1 & Y2). exists y. split; [exact Y1|]. eapply is_lim_seq_ext; [|exact Y2]. intros i. cbv beta.
  rewrite !Cmult_0_l. cbn. ring.
Qed.

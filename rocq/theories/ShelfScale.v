(** Proofs: the scale factor of Butterworth shelves in binary64. *)
From Coq Require Import ZArith List Bool Reals Lra Lia Floats.SpecFloat.
From Coquelicot Require Import Coquelicot.
From Flocq Require Import Core.Zaux Core.Raux Core.Defs Core.Generic_fmt IEEE754.BinarySingleNaN.
From Verif Require Import Num Outcome Types Biquad Cascade Transforms Butterworth Chebyshev PoleFilter Float64 FloatSpec FloatProofs SampleLemmas SigSpec StabProofs
  RoundSpec RoundProofs DblPi DblSpec DblProofs DblLemmas RbjShProofs RelDbl LayoutProofs BuildProofs BuildAny BwDblSpec CplxDbl BwDbl BwDbl2 BwDbl3 BwDblLemmas BwExact BwScale BwDblFinal
  BwScaleLemmas SimDbl SimSetup ChainSpec ChCoefSpec ChDblSpec ChDbl ChDbl2 ChDbl3 ChDbl4 ChDblLemmas ChScaleSpec ChScale ShelfDblSpec ShelfExact ShelfSetup ShelfDbl ShelfDbl2.
Import ListNotations.
Local Open Scope R_scope.

(** a factor with roots in the closed unit disc *)
Lemma bl_pair_ok (hs : bool) t r s : 0 < t -> 0 < r -> 0 <= s <= 1 -> let c := bl_pair hs t (- (s * r)) (r ^ 2) in let u := if hs then / t else t in
  Rabs (fst c) <= 2 /\ Rabs (snd c) <= 1 /\ 0 < 1 + zz (negb hs) * fst c + snd c /\ 4 / (1 + u * r) ^ 2 <= 1 + zz (negb hs) * fst c + snd c.
Proof.
  intros Ht Hr Hs c u. assert (U : 0 < u) by (unfold u; destruct hs; [apply Rinv_0_lt_compat|]; exact Ht).
  assert (X : 0 < u * r) by (apply Rmult_lt_0_compat; assumption). assert (SX : 0 <= s * (u * r) <= u * r) by (split; [apply Rmult_le_pos; lra|]; rewrite <- (Rmult_1_l (u * r)) at 2; apply Rmult_le_compat_r; lra).
  destruct (bl_pair_peak hs t (- (s * r)) (r ^ 2) Ht ltac:(assert (0 <= s * r) by (apply Rmult_le_pos; lra); lra) (pow2_ge_0 r)) as [P1 P2]. fold u in P1, P2. fold c in P1.
  assert (ZE : zz (negb hs) = if hs then 1 else -1) by (unfold zz; destruct hs; reflexivity). rewrite ZE, P1. clear P1 ZE. unfold c, bl_pair. cbn [fst snd]. fold u.
  set (y := s * (u * r)) in *. set (w := u * r) in *. assert (D : 1 - 2 * u * - (s * r) + u ^ 2 * r ^ 2 = 1 + 2 * y + w ^ 2) by (unfold y, w; ring). rewrite D in *.
  assert (N : 1 + 2 * u * - (s * r) + u ^ 2 * r ^ 2 = 1 - 2 * y + w ^ 2) by (unfold y, w; ring). rewrite N. replace (u ^ 2 * r ^ 2) with (w ^ 2) by (unfold w; ring).
  pose proof (pow2_ge_0 (1 - w)) as K. assert (W2 : 0 < w ^ 2) by (apply pow_lt; exact X).
  split; [apply frac_abs; [exact P2|]; apply Rabs_le; destruct hs; lra|]. split; [apply frac_abs; [exact P2|]; apply Rabs_le; lra|]. split; [apply Rdiv_lt_0_compat; lra|].
  unfold Rdiv. apply Rmult_le_compat_l; [lra|]. apply Rinv_le; [exact P2|]. replace ((1 + w) ^ 2) with (1 + 2 * w + w ^ 2) by ring. lra.
Qed.
Lemma bl_one_ok (hs : bool) t r : 0 < t -> 0 < r -> let c := bl_one hs t (- r) in let u := if hs then / t else t in
  Rabs c <= 1 /\ 1 + zz (negb hs) * c = 2 / (1 + u * r) /\ 0 < 2 / (1 + u * r).
Proof.
  intros Ht Hr c u. assert (U : 0 < u) by (unfold u; destruct hs; [apply Rinv_0_lt_compat|]; exact Ht).
  assert (X : 0 < u * r) by (apply Rmult_lt_0_compat; assumption).
  destruct (bl_one_peak hs t (- r) Ht ltac:(lra)) as [P1 P2]. fold u in P1, P2. fold c in P1. replace (1 - u * - r) with (1 + u * r) in P1, P2 by ring.
  assert (ZE : zz (negb hs) = if hs then 1 else -1) by (unfold zz; destruct hs; reflexivity). rewrite ZE. split; [|split; [exact P1|apply Rdiv_lt_0_compat; lra]].
  unfold c, bl_one. fold u. replace (1 - u * - r) with (1 + u * r) by ring. replace (-1 - u * - r) with (u * r - 1) by ring. apply frac_abs; [lra|]. apply Rabs_le. destruct hs; lra.
Qed.

Section Par.
  Variable m : libm.
  Notation FN := (F64 m).
  Hypothesis HM : libm_design m.
  Hypothesis HR : libm_response m.
  Hypothesis HS : libm_bwshelf m.
  Variable q : params FN.
  Notation fc := (q_fc q : f64).
  Notation ga := (q_gain q : f64).
  Hypothesis Ff : is_finite fc = true.
  Hypothesis Fg : is_finite ga = true.
  Hypothesis Hc : sh_cut_ok (B2R fc).
  Hypothesis Hg : sh_gain_ok (B2R ga).
  Variable n : nat.
  Hypothesis Hn : (1 <= n <= 24)%nat.
  Variable FO : Z.
  Hypothesis HFO : (Z.of_nat n <= FO)%Z.
  Variable hs : bool.
  Hypothesis HE : sh_scale_error hs (B2R fc) (B2R ga) n <= / 8.
  Notation k := (Bw, if hs then HSh else LSh).
  Notation sec := (sh_ideal hs (B2R fc) (B2R ga) n).
  Notation err := (sh_error (B2R fc)).
  Notation g := (sh_g n (B2R ga)).
  Notation t := (tan (PI * B2R fc)).
  Notation cond := (sh_cond hs (B2R fc) (B2R ga) n).
  Notation zp := (zz (negb hs)).

  Lemma Hn32 : (1 <= n <= 32)%nat.
  Proof. lia. Qed.
  Lemma t_pos : 0 < t.
  Proof. pose proof (t_rng fc (Hfc m q Hc)). lra. Qed.
  Lemma cnr : 1 <= INR n <= 24.
  Proof. destruct Hn as [A B]. apply le_INR in A. apply le_INR in B. rewrite (INR_IZR_INZ 24) in B. simpl in *. lra. Qed.
  Lemma g10 : (2 <= n)%nat -> g <= 10 /\ / g <= 10.
  Proof.
    intros N2. apply le_INR in N2. simpl INR in N2. unfold sh_gain_ok in Hg. unfold sh_g. set (y := B2R ga / 20 / (2 * INR n)).
    assert (Y : -1 <= y <= 1).
    { unfold y. assert (I : 0 < / (2 * INR n) <= / 4) by (split; [apply Rinv_0_lt_compat; lra|apply Rinv_le; lra]). unfold Rdiv at 1 3. split.
      - apply Rle_trans with (- (4) * / (2 * INR n)); [lra|apply Rmult_le_compat_r; lra].
      - apply Rle_trans with (4 * / (2 * INR n)); [apply Rmult_le_compat_r; lra|lra]. }
    rewrite <- Rpower_Ropp. split; (apply Rle_trans with (Rpower 10 1); [apply Rle_Rpower; lra|rewrite Rpower_1; lra]).
  Qed.
  Lemma u_le : (if hs then / t else t) <= 2608.
  Proof. pose proof (u_S m q Hc hs) as U. destruct (serr_T m q Hc) as (_ & _ & _ & T1). unfold tau in U. lra. Qed.
  Lemma sec_tame i : (i < bw_sections n)%nat -> tame (negb hs) (sec i) /\ / 2 ^ 28 <= tpv (sec i) zp /\ / 2 ^ 28 <= btv (sec i) zp.
  Proof.
    intros Hi. pose proof t_pos as T. pose proof u_le as UL. destruct (g_rng ga Hg n Hn32) as [GR _]. pose proof (gi_rng m q Hg n Hn32) as GI.
    set (u := if hs then / t else t) in *. assert (U : 0 < u) by (unfold u; destruct hs; [apply Rinv_0_lt_compat|]; exact T).
    unfold sh_ideal. cbn zeta. destruct (Nat.ltb_spec i (n / 2)) as [L|L].
    - destruct (tr_low n Hn32 i L) as (L1 & L2 & L3). assert (S1 : 0 <= sin (ch_angle n i) <= 1) by (pose proof (pow2_ge_0 (cos (ch_angle n i))); pose proof (SIN_bound (ch_angle n i)); lra).
      destruct (g10 ltac:(pose proof (i2 n Hn32 i L); lia)) as [G1 G2].
      unfold Rdiv. replace (/ g ^ 2) with ((/ g) ^ 2) by apply pow_inv.
      destruct (bl_pair_ok hs t (/ g) (sin (ch_angle n i)) T ltac:(lra) S1) as (A1 & A2 & A3 & A4). destruct (bl_pair_ok hs t g (sin (ch_angle n i)) T ltac:(lra) S1) as (B1 & B2 & B3 & B4).
      cbn zeta in *. fold u in A4, B4.
      assert (LB : forall r, 0 < r -> r <= 10 -> / 2 ^ 28 <= 4 / (1 + u * r) ^ 2).
      { intros r R0 R1. assert (W : 0 < u * r <= 26080) by (split; [apply Rmult_lt_0_compat; lra|]; apply Rle_trans with (2608 * 10); [apply Rmult_le_compat; lra|lra]).
        assert (W2 : (1 + u * r) ^ 2 <= (2 ^ 15) ^ 2) by (apply pow_incr; lra). assert (W3 : 0 < (1 + u * r) ^ 2) by (apply pow_lt; lra). pose proof (Rinv_le _ _ W3 W2). unfold Rdiv. lra. }
      pose proof (LB g ltac:(lra) G1). pose proof (LB (/ g) ltac:(lra) G2). unfold tpv, btv. cbn [i_a1 i_a2 i_b0 i_b1 i_b2].
      split; [|split; lra]. apply tame_of; cbn [i_a1 i_a2 i_b0 i_b1 i_b2]; try assumption; reflexivity.
    - destruct (bl_one_ok hs t (/ g) T ltac:(lra)) as (A1 & A2 & A3). destruct (bl_one_ok hs t g T ltac:(lra)) as (B1 & B2 & B3). cbn zeta in *. fold u in A2, A3, B2, B3.
      assert (LB : forall r, 0 < r -> r <= 243 -> / 2 ^ 28 <= 2 / (1 + u * r)).
      { intros r R0 R1. assert (W : 0 < u * r <= 633744) by (split; [apply Rmult_lt_0_compat; lra|]; apply Rle_trans with (2608 * 243); [apply Rmult_le_compat; lra|lra]).
        pose proof (Rinv_le (1 + u * r) (2 ^ 20) ltac:(lra) ltac:(lra)). unfold Rdiv. lra. }
      pose proof (LB g ltac:(lra) ltac:(lra)). pose proof (LB (/ g) ltac:(lra) ltac:(lra)). unfold tpv, btv. cbn [i_a1 i_a2 i_b0 i_b1 i_b2].
      split; [|rewrite A2, B2; split; lra]. apply tame_of; unfold tpv, btv; cbn [i_a1 i_a2 i_b0 i_b1 i_b2]; try (rewrite Rabs_R0); try reflexivity; rewrite ?A2, ?B2; lra.
  Qed.
  Lemma cond_ge i : (i < bw_sections n)%nat -> / btv (sec i) zp + / tpv (sec i) zp <= cond.
  Proof.
    intros Hi. unfold sh_cond. refine (Rle_trans _ _ _ _ (rsum_ge (fun i => peak_cond (negb hs) (sec i)) (seq 0 (bw_sections n)) i _ _)).
    - right. reflexivity.
    - intros j Hj. apply in_seq in Hj. destruct (sec_tame j ltac:(lia)) as [(_ & _ & _ & _ & _ & [T _] & [B _]) _]. unfold peak_cond. cbn zeta.
      change (0 <= / btv (sec j) zp + / tpv (sec j) zp). pose proof (Rinv_0_lt_compat _ T). pose proof (Rinv_0_lt_compat _ B). lra.
    - apply in_seq. lia.
  Qed.
  Notation E0 := (INR n * cond * err).
  Lemma err_low : 512 * uu <= err <= / 2 ^ 36.
  Proof.
    unfold sh_error, uu. unfold sh_cut_ok in Hc. assert (I : 1 <= / (1 - 2 * B2R fc)) by (rewrite <- Rinv_1 at 1; apply Rinv_le; lra).
    assert (J : / (1 - 2 * B2R fc) <= / (/ 128)) by (apply Rinv_le; lra). unfold Rdiv. set (x := / (1 - 2 * B2R fc)) in *. lra.
  Qed.
  Lemma E0_small : E0 <= / 256 /\ / 2 <= cond /\ / 2 * err <= E0 /\ cond * err <= E0.
  Proof.
    unfold sh_scale_error in HE. pose proof err_low as EL. pose proof cnr as N. destruct (nsec n Hn) as [NS _]. assert (U0 : 0 < uu) by (unfold uu; lra).
    assert (C : / 2 <= cond). { pose proof (cond_ge 0 ltac:(lia)) as Q. destruct (sec_tame 0 ltac:(lia)) as [(_ & _ & _ & _ & _ & T & B) _].
      pose proof (Rinv_le _ _ (proj1 T) (proj2 T)). pose proof (Rinv_le _ _ (proj1 B) (proj2 B)). lra. }
    assert (P : cond * err <= INR n * cond * err). { rewrite Rmult_assoc. rewrite <- (Rmult_1_l (cond * err)) at 1. apply Rmult_le_compat_r; [apply Rmult_le_pos; lra|lra]. }
    assert (P2 : / 2 * err <= cond * err) by (apply Rmult_le_compat_r; lra). repeat split; lra.
  Qed.
  Definition sdd : R := 227 / 100 * (cond * err).
  Lemma sstage_rap z1 z2 b i : cap z1 (RtoC zp) (16 * uu) -> cap z2 (RtoC 1) (16 * uu) -> (i < bw_sections n)%nat -> hsec_ok m q n hs i b ->
    rap (stage_top (N := FN) z1 z2 b) (tpv (sec i) zp) sdd /\ rap (stage_bot (N := FN) z1 z2 b) (btv (sec i) zp) sdd /\
    / 2 ^ 28 <= tpv (sec i) zp <= 4 /\ / 2 ^ 28 <= btv (sec i) zp <= 4.
  Proof.
    intros Z1 Z2 Hi ((F1 & F2 & F3 & F4 & F5) & A0 & A1 & A2 & _ & B0 & B1 & B2). pose proof (cond_ge i Hi) as CG.
    destruct (sec_tame i Hi) as [(I1 & I2 & I3 & I4 & I5 & I6 & I7) [I8 I9]]. destruct E0_small as (E1 & E2 & E3 & E4). pose proof err_low as EL.
    set (d := sec i) in *. assert (U0 : 0 < uu) by (unfold uu; lra).
    assert (ZH : zp = 1 \/ zp = -1) by (unfold zz; destruct hs; cbn [negb]; auto).
    assert (AP : forall (x : f64) r S e, is_finite x = true -> Rabs (B2R x - r) <= e -> Rabs r <= S -> ap (fdiv (fmul x (m_a0 b : f64)) (m_a0 b : f64)) r S e).
    { intros x r S e Fx Ex Rx. destruct (coef_one x (m_a0 b) Fx A0) as [Q1 Q2]. split; [exact Q1|]. split; [rewrite Q2; exact Ex|exact Rx]. }
    assert (TOP : cap (stage_top (N := FN) z1 z2 b) (RtoC (tpv d zp)) (201 / 100 * err + 130 * uu)).
    { unfold stage_top, getB0, getB1, getB2, getA0. cbn [nmul ndiv F64]. apply poly_ap; try assumption; [lra| | |].
      - apply AP; [exact F3|rewrite B0, I3, Rminus_eq_0, Rabs_R0; lra|rewrite I3, Rabs_R1; lra].
      - apply AP; [exact F4|exact B1|exact I4].
      - apply AP; [exact F5|exact B2|exact I5]. }
    assert (BOT : cap (stage_bot (N := FN) z1 z2 b) (RtoC (btv d zp)) (201 / 100 * err + 130 * uu)).
    { unfold stage_bot, getA1, getA2, getA0. cbn [nmul ndiv F64]. apply poly_ap; try assumption; [lra| | |].
      - apply (ap_ofZ 1 1); [lia|rewrite Rabs_R1; lra].
      - apply AP; [exact F1|exact A1|exact I1].
      - apply AP; [exact F2|exact A2|exact I2]. }
    pose proof (Rinv_0_lt_compat _ (proj1 I6)) as V6. pose proof (Rinv_0_lt_compat _ (proj1 I7)) as V7.
    assert (G : forall x c, 0 < x -> / x <= cond -> cap c (RtoC x) (201 / 100 * err + 130 * uu) -> rap c x sdd).
    { intros x c Hx Hi' [Q1 Q2]. assert (CX : 1 <= cond * x). { replace 1 with (/ x * x) by (apply Rinv_l; lra). apply Rmult_le_compat_r; lra. }
      split; [exact Q1|]; eapply Rle_trans; [exact Q2|].
      unfold sdd. replace (227 / 100 * (cond * err) * x) with (227 / 100 * err * (cond * x)) by ring. assert (227 / 100 * err * 1 <= 227 / 100 * err * (cond * x)) by (apply Rmult_le_compat_l; lra). lra. }
    split; [apply G; [apply I6|lra|exact TOP]|]. split; [apply G; [apply I7|lra|exact BOT]|]. split; split; try assumption; apply I6 || apply I7.
  Qed.
  Lemma sscale_prod : let l := map (fun i => (tpv (sec i) zp, btv (sec i) zp)) (seq 0 (bw_sections n)) in
    fold_right Rmult 1 (map snd l) / fold_right Rmult 1 (map fst l) = sh_scale hs (B2R fc) (B2R ga) n /\ 0 < fold_right Rmult 1 (map snd l) /\ 0 < fold_right Rmult 1 (map fst l).
  Proof.
    intros l. unfold l. rewrite !map_map. cbn [fst snd].
    set (tp := fun i => tpv (sec i) zp). set (bt := fun i => btv (sec i) zp).
    assert (FP : List.Forall (fun i => 0 < tp i /\ 0 < bt i) (seq 0 (bw_sections n))).
    { apply List.Forall_forall. intros i Hi. apply in_seq in Hi. destruct (sec_tame i ltac:(lia)) as [(_ & _ & _ & _ & _ & [T _] & [B _]) _]. split; assumption. }
    assert (P1 : 0 < fold_right Rmult 1 (map tp (seq 0 (bw_sections n)))) by (apply rprod_pos, Forall_map; eapply List.Forall_impl; [|exact FP]; intros i [Q _]; exact Q).
    assert (P2 : 0 < fold_right Rmult 1 (map bt (seq 0 (bw_sections n)))) by (apply rprod_pos, Forall_map; eapply List.Forall_impl; [|exact FP]; intros i [_ Q]; exact Q).
    split; [|split; assumption]. pose proof (rprod_div tp bt _ FP) as Q. unfold sh_scale. transitivity (fold_right Rmult 1 (map (fun x : nat => bt x / tp x) (seq 0 (bw_sections n)))); [|reflexivity].
    rewrite <- Q. field. split; lra.
  Qed.

  Lemma c84_setup : exists p bs s, setupN (N := FN) k FO (Some (Z.of_nat n)) q (pf_init k FO) = Ok p tt /\ length bs = bw_sections n /\
    (forall i b, nth_error bs i = Some b -> hsec_ok m q n hs i b) /\
    pf_cas p = MkCascade (Z.of_nat (length bs)) (maxStagesOf (snd k) FO) (scale_head (N := FN) s (bs ++ repeat idb (Z.to_nat (maxStagesOf (snd k) FO) - length bs))) /\
    let S := sh_scale hs (B2R fc) (B2R ga) n in ap s S S (81 / 10 * E0 * S) /\ / 2 ^ 400 <= S <= 2 ^ 370.
  Proof.
    destruct (sh_setup m HM HS q Ff Fg Hc Hg n Hn32 FO HFO hs) as (p & bs & r & E & L & S & R & C). cbn zeta in R, C.
    destruct (points m (negb hs) HM) as (z1 & z2 & P1 & C1 & P2 & C2).
    set (l := map (fun i => (tpv (sec i) zp, btv (sec i) zp)) (seq 0 (bw_sections n))).
    assert (F : Forall2 (fun b tb => rap (stage_top (N := FN) z1 z2 b) (fst tb) sdd /\ rap (stage_bot (N := FN) z1 z2 b) (snd tb) sdd /\
      / 2 ^ 28 <= fst tb <= 4 /\ / 2 ^ 28 <= snd tb <= 4) bs l).
    { apply F2_nth; [unfold l; rewrite map_length, seq_length; exact L|]. intros i b tb Eb Et.
      assert (Hi : (i < bw_sections n)%nat) by (rewrite <- L; apply nth_error_Some; congruence).
      unfold l in Et. rewrite nth_error_map, (nth_error_nth' _ 0%nat), seq_nth in Et by (try rewrite seq_length; exact Hi). cbn [option_map Nat.add] in Et. inversion Et; subst tb. cbn [fst snd].
      apply sstage_rap; try assumption. apply S. exact Eb. }
    assert (U0 : 0 < uu) by (unfold uu; lra). destruct E0_small as (E1 & E2 & E3 & E4). pose proof err_low as EL. pose proof cnr as NR. destruct (nsec n Hn) as [NS NS1].
    assert (CE : 0 <= cond * err) by (apply Rmult_le_pos; lra). set (D := 9 / 8 * sdd + / 2 ^ 46).
    assert (CE2 : / 2 * err <= cond * err) by (apply Rmult_le_compat_r; lra).
    assert (D46 : / 2 ^ 46 = 128 * uu) by (unfold uu; lra).
    assert (AL : INR (length bs) * D <= 306 / 100 * E0).
    { rewrite L. apply Rle_trans with (INR n * (306 / 100 * (cond * err))); [|lra]. apply Rmult_le_compat; [apply pos_INR|unfold D, sdd; lra|apply le_INR; exact NS1|].
      unfold D, sdd. lra. }
    assert (P4 : 4 ^ length bs <= 2 ^ 24). { rewrite L. apply Rle_trans with (4 ^ 12); [apply Rle_pow; [lra|lia]|lra]. }
    assert (P28 : / 2 ^ 336 <= (/ 2 ^ 28) ^ length bs).
    { rewrite L, pow_inv, <- pow_mult. apply Rinv_le; [apply pow_lt; lra|]. apply Rle_pow; [lra|lia]. }
    destruct (loop_rap m HR z1 z2 sdd ltac:(unfold sdd; lra) bs l (repeat idb (Z.to_nat (maxStagesOf (snd k) FO) - length bs)) F (c_of (N := FN) (fofZ 1)) (c_of (N := FN) (fofZ 1)) 1 1 0 1 1) as (ch & cb & RL & R1 & R2 & R3 & R4).
    - apply one_rap.
    - apply one_rap.
    - lra.
    - fold D. lra.
    - lra.
    - lra.
    - lra.
    - assert (2 ^ 24 <= 2 ^ 300) by (apply Rle_pow; [lra|lia]). lra.
    - assert (/ 2 ^ 800 <= / 2 ^ 336) by (apply Rinv_le; [apply pow_lt; lra|apply Rle_pow; [lra|lia]]). lra.
    - fold D in R1, R2. rewrite !Rplus_0_l in *. rewrite !Rmult_1_l in *.
      destruct sscale_prod as (SP & SQ1 & SQ2). fold l in SP, SQ1, SQ2.
      set (X := fold_right Rmult 1 (map fst l)) in *. set (Y := fold_right Rmult 1 (map snd l)) in *.
      assert (Q24 : 2 ^ 24 <= 2 ^ 30) by lra. assert (Q340 : / 2 ^ 340 <= / 2 ^ 336) by (apply Rinv_le; [apply pow_lt; lra|apply Rle_pow; [lra|lia]]).
      assert (DP : 0 <= INR (length bs) * D) by (apply Rmult_le_pos; [apply pos_INR|unfold D, sdd; lra]).
      pose proof (scale_final m HR (proj2 (proj2 HM)) ch cb X Y _ R1 R2 ltac:(lra) ltac:(lra) ltac:(lra)) as SF. rewrite SP in SF.
      assert (RV : r = lm_cdiv m ch cb).
      { unfold cas_response, othrow_if, obind in R.
        replace (ngtb (N := FN) (fn (negb hs)) (nlit FN 1 2)) with false in R by (symmetry; unfold fn, wn; destruct hs; vm_compute; reflexivity).
        replace (nltb FN (fn (negb hs)) (nofZ FN 0)) with false in R by (symmetry; unfold fn, wn; destruct hs; vm_compute; reflexivity).
        cbn [nofZ nmul nopp npi npolar F64] in R. rewrite P1, P2 in R. cbn [oor_ub c_stages c_numStages] in R. rewrite Nat2Z.id, RL in R. inversion R. reflexivity. }
      exists p, bs, (fdiv (fofZ 1) (ncabs FN r)). split; [exact E|]. split; [exact L|]. split; [exact S|]. split; [exact C|]. cbn zeta.
      assert (PW : 2 ^ 340 * 2 ^ 30 = 2 ^ 370) by (rewrite <- pow_add; reflexivity).
      assert (IV : / X <= 2 ^ 340). { rewrite <- (Rinv_inv (2 ^ 340)). apply Rinv_le; [apply Rinv_0_lt_compat, pow_lt; lra|lra]. }
      assert (IV' : / 2 ^ 30 <= / X). { apply Rinv_le; lra. }
      assert (YX : / 2 ^ 370 <= Y / X <= 2 ^ 370).
      { unfold Rdiv. rewrite <- PW. split.
        - rewrite Rinv_mult. apply Rmult_le_compat; try lra; left; apply Rinv_0_lt_compat, pow_lt; lra.
        - rewrite (Rmult_comm (2 ^ 340)). apply Rmult_le_compat; lra. }
      assert (P4S : 0 < / 2 ^ 400) by (apply Rinv_0_lt_compat, pow_lt; lra). assert (P43 : / 2 ^ 400 <= / 2 ^ 370) by (apply Rinv_le; [apply pow_lt; lra|apply Rle_pow; [lra|lia]]).
      rewrite SP in YX. split; [|lra].
      rewrite RV. eapply ap_weak; [exact SF|lra|]. apply Rmult_le_compat_r; [lra|]. lra.
  Qed.
End Par.

Lemma c84 m (hs : bool) (q : params (F64 m)) n FO : libm_design m -> libm_response m -> libm_bwshelf m -> FloatSpec.is_fin (q_fc q : f64) -> FloatSpec.is_fin (q_gain q : f64) ->
  sh_cut_ok (B2R (q_fc q : f64)) -> sh_gain_ok (B2R (q_gain q : f64)) -> (1 <= n <= 24)%nat -> (Z.of_nat n <= FO)%Z ->
  let k := (Bw, if hs then HSh else LSh) in let f := B2R (q_fc q : f64) in let gain := B2R (q_gain q : f64) in
  sh_scale_error hs f gain n <= / 8 ->
  exists p b, setupN (N := F64 m) k FO (Some (Z.of_nat n)) q (pf_init k FO) = Ok p tt /\ cas_index (pf_cas p) 0 = Val b /\
    let d := sh_ideal hs f gain n 0 in let s := sh_scale hs f gain n in
    FloatSpec.is_fin (m_b0 b : f64) /\ FloatSpec.is_fin (m_b1 b : f64) /\ FloatSpec.is_fin (m_b2 b : f64) /\
    Rabs (B2R (m_b0 b : f64) - i_b0 d * s) <= sh_scale_error hs f gain n * s /\
    Rabs (B2R (m_b1 b : f64) - i_b1 d * s) <= sh_scale_error hs f gain n * s /\
    Rabs (B2R (m_b2 b : f64) - i_b2 d * s) <= sh_scale_error hs f gain n * s.
Proof.
  intros HM HR HC Ff Fd Hf Hd Hn HFO k f db HE.
  destruct (c84_setup m HM HR HC q Ff Fd Hf Hd n Hn FO HFO hs HE) as (p & bs & s & E & L & S & C & A & SR). cbn zeta in A, SR. destruct (nsec n Hn) as [NS _].
  destruct bs as [|b bs]; [cbn [length] in L; lia|].
  exists p, (bq_applyScale (N := F64 m) s b). split; [exact E|]. split; [rewrite C; apply (index_at _ _ _ 0); [cbn [length]; lia|reflexivity]|].
  destruct (S 0%nat b eq_refl) as ((_ & _ & F3 & F4 & F5) & _ & _ & _ & _ & B0 & B1 & B2). cbn [bq_applyScale m_b0 m_b1 m_b2 nmul F64].
  destruct (sec_tame m q Hf Hd n Hn hs HE 0%nat ltac:(lia)) as [(_ & _ & I3 & I4 & I5 & _) _]. fold f db in A, SR, B0, B1, B2, I3, I4, I5 |- *.
  destruct (E0_small m q Hf Hd n Hn hs HE) as (E1 & E2 & E3 & E4). fold f db in E1, E2, E3, E4. pose proof (err_low m q Hf) as EL. fold f in EL. pose proof (cnr n Hn) as NR.
  set (SS := sh_scale hs f db n) in *. set (d := sh_ideal hs f db n 0) in *.
  assert (ER : sh_scale_error hs f db n = 32 * (INR n * sh_cond hs f db n * sh_error f)) by (unfold sh_scale_error; ring). rewrite ER. set (e := INR n * sh_cond hs f db n * sh_error f) in *.
  assert (S0 : 0 < / 2 ^ 400) by (apply Rinv_0_lt_compat, pow_lt; lra). assert (S1 : 0 < SS) by lra.
  assert (TS : tiny <= / 2 ^ 60 * SS). { unfold tiny. apply Rle_trans with (/ 2 ^ 60 * / 2 ^ 400); [rewrite <- Rinv_mult, <- pow_add; apply Rinv_le; [apply pow_lt; lra|apply Rle_pow; [lra|lia]]|apply Rmult_le_compat_l; lra]. }
  assert (BG : 8 * 2 ^ 370 <= big). { replace (8 * 2 ^ 370) with (2 ^ 373) by (rewrite (pow_add 2 370 3 : 2 ^ 373 = _); ring). unfold big. apply Rle_pow; [lra|lia]. }
  assert (U0 : 0 < uu) by (unfold uu; lra).
  assert (eS : 256 * uu * SS <= e * SS <= / 256 * SS) by (split; apply Rmult_le_compat_r; lra).
  set (eb := sh_error f) in *. assert (EB : 0 <= eb <= / 2 ^ 36) by lra.
  assert (EBS : 0 <= eb * SS <= 2 * e * SS) by (split; [apply Rmult_le_pos; lra|apply Rmult_le_compat_r; lra]).
  assert (G : forall (x : f64) r, is_finite x = true -> Rabs (B2R x - r) <= eb -> Rabs r <= 2 -> is_finite (fmul x s) = true /\ Rabs (B2R (fmul x s) - r * SS) <= 32 * e * SS).
  { intros x r Fx Ex Hr. assert (AX : ap x r 2 eb) by (split; [exact Fx|split; [exact Ex|exact Hr]]).
    assert (QE : eb * (81 / 10 * e * SS) <= / 100 * (81 / 10 * e * SS)) by (apply Rmult_le_compat_r; [lra|]; lra).
    destruct (ap_mul2 _ _ _ _ _ _ _ _ AX A) as (Q1 & Q2 & _).
    - apply Rle_trans with (3 * (2 * SS)); [apply Rmult_le_compat; lra|lra].
    - split; [exact Q1|]. eapply Rle_trans; [exact Q2|].
      assert (UK : uu * ((2 + eb) * (SS + 81 / 10 * e * SS)) <= uu * (3 * (2 * SS))) by (apply Rmult_le_compat_l; [lra|apply Rmult_le_compat; lra]).
      unfold uu in *. lra. }
  assert (H3 : Rabs (i_b0 d) <= 2) by (rewrite I3, Rabs_R1; lra).
  destruct (G _ (i_b0 d) F3 ltac:(rewrite B0, I3, Rminus_eq_0, Rabs_R0; lra) H3), (G _ _ F4 B1 I4), (G _ _ F5 B2 ltac:(lra)). repeat split; assumption.
Qed.

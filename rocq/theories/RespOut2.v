(** Lemmas: response () of low and high pass filters set up in binary64, against the response of the ideal cascade. *)
From Coq Require Import ZArith List Bool Reals Lra Lia.
From Coquelicot Require Import Coquelicot.
From Flocq Require Import Core.Raux IEEE754.BinarySingleNaN.
From Verif Require Import Num Outcome Types Biquad State Cascade PoleFilter Float64 FloatSpec FloatProofs SampleLemmas Exact SigSpec StabProofs RespProofs RoundSpec RoundProofs DesignSpec
  LayoutProofs DblSpec DblProofs BwDblSpec CplxDbl BwDbl BwDbl2 BwDbl3 BwDblLemmas BwExact BwDblFinal BwScale BwScaleLemmas ChainSpec ChainLemmas BwOut ChCoefSpec ChDblSpec ChDbl ChDbl2 ChDbl3 ChDbl4 ChDblLemmas ChDblEx ChScaleSpec ChScale ChOut
  RespDblSpec RespDbl RespDblLemmas RespOutSpec RespOut.
Import ListNotations.
Local Open Scope R_scope.

(** ** the scale factor is at most 1 *)
Lemma rprod_le1 (g : nat -> R) l : (forall i, In i l -> 0 < g i <= 1) -> 0 < fold_right Rmult 1 (map g l) <= 1.
Proof.
  induction l as [|i l IH]; intros H; cbn [map fold_right]; [lra|]. destruct (IH (fun j Hj => H j (or_intror Hj))) as [I1 I2]. destruct (H i (or_introl eq_refl)) as [H1 H2].
  split; [apply Rmult_lt_0_compat; assumption|]. apply Rle_trans with (1 * 1); [apply Rmult_le_compat; lra|lra].
Qed.
Lemma div_le1 x y : 0 < x -> x <= y -> 0 < x / y <= 1.
Proof. intros H L. assert (Y : 0 < y) by lra. split; [apply Rdiv_lt_0_compat; assumption|]. apply Rmult_le_reg_r with y; [exact Y|]. unfold Rdiv. rewrite Rmult_assoc, Rinv_l by lra. lra. Qed.
Lemma bw_peak hp f n i : 0 < tan (PI * f) -> (i < bw_sections n)%nat -> 0 < peak_inv hp (bw_ideal hp f n i) <= 1.
Proof.
  intros Ht Hi. unfold bw_ideal. set (t := tan (PI * f)) in *. pose proof (pow2_ge_0 t) as T2. destruct (Nat.ltb_spec i (n / 2)) as [L|L]; unfold peak_inv; cbn [i_a1 i_a2 i_b0 i_b1 i_b2].
  - pose proof (angle_neg n i L) as C. set (c := cos (bw_angle n i)) in *. assert (TC : 0 < t * - c) by (apply Rmult_lt_0_compat; lra). set (d := 1 + t ^ 2 - 2 * t * c) in *. assert (D : 1 + t ^ 2 < d) by (unfold d; lra).
    match goal with |- 0 < ?x <= 1 => replace x with ((if hp then 1 else t ^ 2) / d) by (unfold d in *; destruct hp; field; lra) end.
    assert (0 < t ^ 2) by (apply pow_lt; exact Ht). apply div_le1; destruct hp; lra.
  - match goal with |- 0 < ?x <= 1 => replace x with ((if hp then 1 else t) / (t + 1)) by (destruct hp; field; lra) end.
    apply div_le1; destruct hp; lra.
Qed.
Lemma pair_peak hp t g mm w : 0 < t -> 0 <= g -> 0 < mm -> (match w with Some y => mm <= y ^ 2 | None => True end) -> 0 < peak_inv hp (an_pair hp t (- g) mm w) <= 1.
Proof.
  intros Ht Hg Hm Hw. unfold an_pair, peak_inv. cbn [i_a1 i_a2 i_b0 i_b1 i_b2]. set (u := if hp then / t else t). assert (U : 0 < u) by (unfold u; destruct hp; [apply Rinv_0_lt_compat|]; exact Ht).
  set (x := u ^ 2 * mm). assert (U2 : 0 < u ^ 2) by (apply pow_lt; exact U). assert (X : 0 < x) by (apply Rmult_lt_0_compat; assumption).
  assert (GU : 0 <= u * g) by (apply Rmult_le_pos; lra). set (y := u * g) in *.
  replace (1 - 2 * u * - g + x) with (1 + 2 * y + x) by (unfold y; ring). replace (1 + 2 * u * - g + x) with (1 - 2 * y + x) by (unfold y; ring).
  destruct w as [y0|].
  - set (s := u ^ 2 * y0 ^ 2). assert (XS : x <= s) by (unfold x, s; apply Rmult_le_compat_l; lra).
    match goal with |- 0 < ?z <= 1 => replace z with (x * (1 + s) / (s * (1 + 2 * y + x))) by (destruct hp; field; repeat split; lra) end.
    apply div_le1; [apply Rmult_lt_0_compat; lra|]. assert (0 <= s * (2 * y)) by (apply Rmult_le_pos; lra). lra.
  - match goal with |- 0 < ?z <= 1 => replace z with (x / (1 + 2 * y + x)) by (destruct hp; field; repeat split; lra) end. apply div_le1; lra.
Qed.
Lemma single_peak hp t x : 0 < t -> 0 < x -> 0 < peak_inv hp (an_single hp t (- x)) <= 1.
Proof.
  intros Ht Hx. unfold an_single, peak_inv. cbn [i_a1 i_a2 i_b0 i_b1 i_b2]. set (u := if hp then / t else t). assert (U : 0 < u) by (unfold u; destruct hp; [apply Rinv_0_lt_compat|]; exact Ht).
  assert (Y : 0 < u * x) by (apply Rmult_lt_0_compat; assumption). replace (u * - x) with (- (u * x)) by ring. set (y := u * x) in *.
  match goal with |- 0 < ?z <= 1 => replace z with (y / (1 + y)) by (destruct hp; field; repeat split; lra) end. apply div_le1; lra.
Qed.
Lemma angle_cos n i : (i < n / 2)%nat -> 0 < cos (ch_angle n i).
Proof.
  intros Hi. assert (H : (2 * i + 1 < n)%nat) by (pose proof (Nat.div_mod n 2 ltac:(lia)); lia). apply lt_INR in H. rewrite plus_INR, mult_INR in H. cbn [INR] in H.
  pose proof PI_RGT_0 as P. pose proof (pos_INR i) as I0. assert (N0 : 0 < INR n) by lra. unfold ch_angle.
  assert (A : 0 < (2 * INR i + 1) * PI / (2 * INR n)) by (apply Rdiv_lt_0_compat; [apply Rmult_lt_0_compat; lra|lra]).
  apply cos_gt_0; [lra|]. apply Rmult_lt_reg_r with (2 * INR n); [lra|]. unfold Rdiv. rewrite Rmult_assoc, Rinv_l by lra. nra.
Qed.
Lemma ch_peak second hp f db n i : 0 < f < 1 / 2 -> 0 < db -> (1 <= n)%nat -> (i < bw_sections n)%nat -> 0 < peak_inv hp (ch_ideal second hp f db n i) <= 1.
Proof.
  intros Hf Hd Hn Hi. unfold ch_ideal. cbn zeta. pose proof PI_RGT_0 as PP. assert (T : 0 < tan (PI * f)) by (apply tan_gt_0; nra). set (t := tan (PI * f)) in *. pose proof (width_pos second n db Hn Hd) as SP.
  destruct (Nat.ltb_spec i (n / 2)) as [L|L].
  - pose proof (angle_pos n i L) as AP. pose proof (angle_cos n i L) as AC. set (s := sinh (ch_width second n db) * sin (ch_angle n i)).
    assert (S0 : 0 < s) by (apply Rmult_lt_0_compat; assumption). pose proof (pow_lt s 2 S0) as S2.
    set (a := ch_angle n i) in *. set (v := ch_width second n db) in *.
    assert (CC : cos a ^ 2 <= (cosh v * cos a) ^ 2).
    { rewrite Rpow_mult_distr. rewrite <- (Rmult_1_l (cos a ^ 2)) at 1. apply Rmult_le_compat_r; [apply pow2_ge_0|]. pose proof (ch_sq v) as Q. pose proof (pow2_ge_0 (sinh v)). lra. }
    assert (C2 : 0 < cos a ^ 2) by (apply pow_lt; exact AC). set (mm := s ^ 2 + (cosh v * cos a) ^ 2). assert (MM : cos a ^ 2 < mm) by (unfold mm; lra). assert (M0 : 0 < mm) by lra.
    destruct second.
    + unfold Rdiv. rewrite <- Ropp_mult_distr_l. apply pair_peak; [exact T|apply Rlt_le, Rdiv_lt_0_compat; assumption|apply Rinv_0_lt_compat; exact M0|].
      rewrite pow_inv by lra. apply Rinv_le; lra.
    + apply pair_peak; [exact T|lra|exact M0|exact I].
  - replace (if second then - / sinh (ch_width second n db) else - sinh (ch_width second n db)) with (- (if second then / sinh (ch_width second n db) else sinh (ch_width second n db))) by (destruct second; reflexivity).
    apply single_peak; [exact T|]. destruct second; [apply Rinv_0_lt_compat|]; exact SP.
Qed.

(** ** from [stored_near] to [near_section] *)
Lemma near_of m (b : biquad (F64 m)) dd e : fin_coeffs b -> m_a0 b = fofZ 1 -> stored_near b dd -> d_ea dd <= e -> d_eb dd <= e * num_abs (d_id dd) ->
  num_abs (d_id dd) <= 256 -> den_abs (d_id dd) <= 256 -> near_section e b (d_id dd).
Proof.
  intros (F1 & F2 & F3 & F4 & F5) A0 (N1 & N2 & N3 & N4 & N5) EA EB NA DA. unfold near_section. rewrite A0.
  assert (V1 : B2R (fofZ 1) = 1) by (apply (proj1 (fofZ_val 1 ltac:(lia)))). rewrite V1, Rabs_R1.
  repeat split; try assumption; try reflexivity; try lra.
Qed.
Lemma scaled_abs d s : i_b0 d = 1 -> Rabs (i_b1 d) <= 2 -> Rabs (i_b2 d) <= 1 -> 0 < s <= 1 -> s <= num_abs (scaled d s) <= 4.
Proof.
  intros B0 B1 B2 S. unfold num_abs, scaled. cbn [i_b0 i_b1 i_b2]. rewrite B0, !Rabs_mult, Rabs_R1, (Rabs_pos_eq s) by lra.
  pose proof (Rabs_pos (i_b1 d)). pose proof (Rabs_pos (i_b2 d)). split; [nra|]. assert (Rabs (i_b1 d) * s <= 2 * 1) by (apply Rmult_le_compat; lra). assert (Rabs (i_b2 d) * s <= 1 * 1) by (apply Rmult_le_compat; lra). lra.
Qed.
(** response () of a filter whose first sections are near a list of ideal ones *)
Lemma resp_of m e (fl : filt (F64 m)) bs' rest ds : libm_design m -> libm_response m -> 0 <= e <= / 2 ^ 10 -> fl_stages fl = bs' ++ rest -> filt_numStages fl = Z.of_nat (length bs') ->
  List.Forall2 (near_section e) bs' ds -> (length ds <= 32)%nat -> (forall x, 0 <= x <= 1 / 2 -> cprod (map (i_den x) ds) <> 0%C) ->
  forall x : f64, is_finite x = true -> 0 <= B2R x <= 1 / 2 -> resp_rel e (length ds) * i_cond ds (B2R x) <= / 4 ->
  exists h, filt_response fl x = Val h /\ cfin h /\ Cmod (c2c h - i_resp ds (B2R x))%C <= resp_error e ds (B2R x).
Proof.
  intros (_ & HP & HD) (HM & _) He ST NS F L NZ x Fx Hx HC. assert (LE : length bs' = length ds) by (clear - F; induction F; cbn; congruence).
  unfold fl_stages, filt_numStages, filt_response in *. destruct (pf_cas (fl_pf fl)) as [n mx cs]. cbn [c_numStages c_stages] in *. subst n cs. rewrite LE.
  apply (c77_cascade m HP HD HM e bs' ds rest mx x He F L Fx Hx); [apply Cmod_gt_0; apply NZ; exact Hx|exact HC].
Qed.

Lemma forall2_map {A B C} (P : A -> C -> Prop) (g : B -> C) (l : list A) (l' : list B) : List.Forall2 (fun a b => P a (g b)) l l' -> List.Forall2 P l (map g l').
Proof. induction 1; cbn [map]; constructor; assumption. Qed.
(** the sections of a chain with small errors *)
Lemma chain_near m e (bs' : list (biquad (F64 m))) (l : list dsect) : List.Forall fin_coeffs bs' -> List.Forall (fun b : biquad (F64 m) => m_a0 b = fofZ 1) bs' -> List.Forall2 stored_near bs' l ->
  List.Forall (fun dd => d_ea dd <= e /\ d_eb dd <= e * num_abs (d_id dd) /\ num_abs (d_id dd) <= 256 /\ den_abs (d_id dd) <= 256) l -> List.Forall2 (near_section e) bs' (map d_id l).
Proof.
  intros F A N H. apply forall2_map. induction N as [|b dd bs' l Hb N IH]; [constructor|]. inversion F as [|? ? F1 F2]; inversion A as [|? ? A1 A2]; inversion H as [|? ? HH H5]; subst. destruct HH as (K1 & K2 & K3 & K4). constructor.
  - apply near_of; assumption.
  - apply IH; assumption.
Qed.

Lemma c78_bw m (hp : bool) (q : params (F64 m)) n FO t : libm_design m -> libm_response m -> FloatSpec.is_fin (q_fc q : f64) ->
  / 2 ^ 14 <= B2R (q_fc q : f64) <= 1 / 2 - / 2 ^ 14 -> (1 <= n <= 24)%nat -> (Z.of_nat n <= FO)%Z ->
  let k := (Bw, if hp then HP else LP) in let f := B2R (q_fc q : f64) in let e := bw_scale_error hp f n in let ds := bw_cascade hp f n in
  e <= / 2 ^ 10 ->
  exists fl, filt_setupN (N := F64 m) k FO (Some (Z.of_nat n)) q (filt_init t k FO) = Ok fl tt /\
    forall x : f64, FloatSpec.is_fin x -> 0 <= B2R x <= 1 / 2 -> resp_rel e (bw_sections n) * i_cond ds (B2R x) <= / 4 ->
    exists h, filt_response fl x = Val h /\ cfin h /\ Cmod (c2c h - i_resp ds (B2R x))%C <= resp_error e ds (B2R x).
Proof.
  intros HM HR Ff Hf HN HFO k f e ds HE. assert (HE8 : bw_scale_error hp (B2R (q_fc q : f64)) n <= / 8) by (fold f; fold e; lra).
  destruct (c66_parts m hp q n FO t HM HR Ff Hf HN HFO HE8) as (fl & bs' & d & E & ST & SS & FC & SN & NS & A0). exists fl. split; [exact E|].
  fold f in SN. assert (MI : map d_id (bw_chain hp f n) = ds) by (unfold bw_chain, ds, bw_cascade; rewrite map_map; apply map_ext; reflexivity).
  assert (Hf' : 0 < f < 1 / 2) by (unfold f; pose proof (Rinv_0_lt_compat (2 ^ 14) ltac:(apply pow_lt; lra)); lra).
  pose proof PI_RGT_0 as PP. assert (T : 0 < tan (PI * f)) by (apply tan_gt_0; nra).
  assert (LD : length ds = bw_sections n) by (unfold ds, bw_cascade; rewrite map_length, seq_length; reflexivity).
  pose proof (nsec n HN) as NSEC. rewrite <- LD.
  assert (B0 : 0 < bw_error f) by (unfold bw_error; apply Rdiv_lt_0_compat; [apply Rinv_0_lt_compat, pow_lt; lra|lra]).
  assert (BE : bw_error f <= e).
  { unfold e, bw_scale_error. set (u := if hp then tan (PI * f) else / tan (PI * f)). assert (U : 0 < u) by (unfold u; destruct hp; [exact T|apply Rinv_0_lt_compat; exact T]).
    rewrite <- (Rmult_1_l (bw_error f)) at 1. apply Rmult_le_compat_r; [lra|]. pose proof (proj1 (cnr n HN)) as N1. assert (1 <= (1 + u) ^ 2) by nra. nra. }
  pose proof (rprod_le1 (fun i => peak_inv hp (bw_ideal hp f n i)) (seq 0 (bw_sections n)) ltac:(intros i Hi; apply in_seq in Hi; apply bw_peak; [exact T|lia])) as SC. fold (bw_scale hp f n) in SC.
  apply (resp_of m e fl bs' (repeat idb d) ds HM HR ltac:(lra) ST NS).
  - rewrite <- MI. apply chain_near; try assumption. unfold bw_chain. apply Forall_map, List.Forall_forall. intros i Hi. apply in_seq in Hi. cbn [d_ea d_eb d_id].
    destruct (ideal_bounds hp f n i T (sections_in n i ltac:(lia))) as (A1 & A2 & I0 & I1 & I2 & _).
    pose proof (scaled_abs (bw_ideal hp f n i) (if Nat.eqb i 0 then bw_scale hp f n else 1) I0 I1 I2 ltac:(destruct (Nat.eqb i 0); lra)) as [Q1 Q2]. fold (bw_section hp f n i) in Q1, Q2.
    split; [exact BE|]. split; [|split; [lra|unfold den_abs, bw_section, scaled; cbn [i_a1 i_a2]; lra]].
    assert (E0 : 0 < e) by lra. destruct (Nat.eqb i 0); [apply Rmult_le_compat_l; lra|apply Rmult_le_pos; lra].
  - rewrite LD. lia.
  - intros x Hx. apply (proj1 (c78_gain Bw hp f 0 n ltac:(lia) ltac:(unfold in_int, int_min, int_max; apply andb_true_iff; split; apply Z.leb_le; lia) Hf' I) x Hx).
Qed.
Lemma c78_ch m (second hp : bool) (q : params (F64 m)) n FO t : libm_design m -> libm_response m -> libm_cheb m -> libm_pow10 m -> FloatSpec.is_fin (q_fc q : f64) -> FloatSpec.is_fin (q_db q : f64) ->
  ch_cut_ok (B2R (q_fc q : f64)) -> ch_db_ok second (B2R (q_db q : f64)) -> (1 <= n <= 24)%nat -> (Z.of_nat n <= FO)%Z ->
  let k := (if second then Ch2 else Ch1, if hp then HP else LP) in let f := B2R (q_fc q : f64) in let db := B2R (q_db q : f64) in
  let e := ch_scale_error second hp f db n in let ds := ch_cascade second hp f db n in
  e <= / 2 ^ 10 ->
  exists fl, filt_setupN (N := F64 m) k FO (Some (Z.of_nat n)) q (filt_init t k FO) = Ok fl tt /\
    forall x : f64, FloatSpec.is_fin x -> 0 <= B2R x <= 1 / 2 -> resp_rel e (bw_sections n) * i_cond ds (B2R x) <= / 4 ->
    exists h, filt_response fl x = Val h /\ cfin h /\ Cmod (c2c h - i_resp ds (B2R x))%C <= resp_error e ds (B2R x).
Proof.
  intros HM HR HC HP Ff Fd Hf Hd HN HFO k f db e ds HE. assert (HE8 : ch_scale_error second hp (B2R (q_fc q : f64)) (B2R (q_db q : f64)) n <= / 8) by (fold f db; unfold e in HE; lra).
  destruct (c76_parts m second hp q n FO t HM HR HC HP Ff Fd Hf Hd HN HFO HE8) as (fl & bs' & d & E & ST & SS & FC & SN & NS & A0). exists fl. split; [exact E|].
  fold f db in SN. assert (MI : map d_id (ch_chain second hp f db n) = ds) by (unfold ch_chain, ds, ch_cascade; rewrite map_map; apply map_ext; reflexivity).
  assert (Hf' : 0 < f < 1 / 2) by (unfold f; unfold ch_cut_ok in Hf; lra). assert (Hd' : 0 < db) by (unfold db; unfold ch_db_ok in Hd; destruct second; lra).
  assert (LD : length ds = bw_sections n) by (unfold ds, ch_cascade; rewrite map_length, seq_length; reflexivity).
  pose proof (nsec n HN) as NSEC. rewrite <- LD.
  destruct (err_low m q Hf) as (EL & _ & _). fold f in EL. assert (EP : 0 < ch_error f) by lra.
  destruct (E0_small m second q Hf Hd n HN hp HE8) as (_ & _ & E2 & _). fold f db in E2.
  assert (BE : 8 * ch_error f <= e) by (unfold e, ch_scale_error; lra).
  pose proof (rprod_le1 (fun i => peak_inv hp (ch_ideal second hp f db n i)) (seq 0 (bw_sections n)) ltac:(intros i Hi; apply in_seq in Hi; apply ch_peak; [exact Hf'|exact Hd'|lia|lia])) as SC.
  assert (LV : / 2 ^ 30 <= ch_level second db n <= 1) by exact (level_rng m second q Hd n hp HE8).
  assert (SCL : 0 < ch_scale second hp f db n <= 1).
  { unfold ch_scale. set (pr := fold_right Rmult 1 _) in *. set (lv := ch_level second db n) in *. clearbody pr lv. assert (0 < lv) by lra.
    split; [apply Rmult_lt_0_compat; lra|]. apply Rle_trans with (1 * 1); [apply Rmult_le_compat; lra|lra]. }
  apply (resp_of m e fl bs' (repeat idb d) ds HM HR ltac:(lra) ST NS).
  - rewrite <- MI. apply chain_near; try assumption. unfold ch_chain. apply Forall_map, List.Forall_forall. intros i Hi. apply in_seq in Hi. cbn [d_ea d_eb d_id].
    destruct (sec_tame m second q Hf Hd n HN hp HE8 i ltac:(lia)) as (A1 & A2 & I0 & I1 & I2 & _). fold f db in A1, A2, I0, I1, I2.
    pose proof (scaled_abs (ch_ideal second hp f db n i) (if Nat.eqb i 0 then ch_scale second hp f db n else 1) I0 I1 I2 ltac:(destruct (Nat.eqb i 0); lra)) as [Q1 Q2]. fold (ch_section second hp f db n i) in Q1, Q2.
    split; [lra|]. split; [|split; [lra|unfold den_abs, ch_section, scaled; cbn [i_a1 i_a2]; lra]].
    destruct (Nat.eqb i 0); [apply Rmult_le_compat_l; lra|]. destruct second; [|apply Rmult_le_pos; lra].
    apply Rle_trans with (e * 1); [lra|apply Rmult_le_compat_l; lra].
  - rewrite LD. lia.
  - intros x Hx. destruct second.
    + apply (proj1 (c78_gain Ch2 hp f db n ltac:(lia) ltac:(unfold in_int, int_min, int_max; apply andb_true_iff; split; apply Z.leb_le; lia) Hf' Hd') x Hx).
    + apply (proj1 (c78_gain Ch1 hp f db n ltac:(lia) ltac:(unfold in_int, int_min, int_max; apply andb_true_iff; split; apply Z.leb_le; lia) Hf' Hd') x Hx).
Qed.

(** response () of a cascade of stored coefficients *)
Lemma stored_near0 m (b : biquad (F64 m)) : tame_coeffs b -> near_section 0 b (stored b).
Proof.
  intros ((F1 & F2 & F3 & F4 & F5) & F0 & A0 & NA & DA). unfold near_section, stored. cbn [i_a1 i_a2 i_b0 i_b1 i_b2]. rewrite !Rminus_eq_0, Rabs_R0, Rmult_0_l.
  repeat split; try assumption; try lra; apply A0.
Qed.
Lemma c77_stored m (bs : list (biquad (F64 m))) rest mx (x : f64) : libm_design m -> libm_response m -> List.Forall tame_coeffs bs -> (length bs <= 32)%nat ->
  FloatSpec.is_fin x -> 0 <= B2R x <= 1 / 2 -> let ds := map stored bs in
  0 < Cmod (cprod (map (i_den (B2R x)) ds)) -> resp_rel 0 (length bs) * i_cond ds (B2R x) <= / 4 ->
  exists h, cas_response (N := F64 m) (MkCascade (Z.of_nat (length bs)) mx (bs ++ rest)) x = Val h /\ cfin h /\ Cmod (c2c h - i_resp ds (B2R x))%C <= resp_error 0 ds (B2R x).
Proof.
  intros (_ & HP & HD) (HM & _) F L Fx Hx ds NZ HC. assert (LD : length ds = length bs) by (unfold ds; apply map_length). rewrite <- LD in *.
  apply (c77_cascade m HP HD HM 0 bs ds rest mx x); try assumption; [split; [lra|apply Rlt_le, Rinv_0_lt_compat, pow_lt; lra]|].
  unfold ds. clear - F. induction F; cbn [map]; constructor; [apply stored_near0|]; assumption.
Qed.
(** Biquad::response *)
Lemma c77_biquad_stored m (b : biquad (F64 m)) (x : f64) : libm_design m -> libm_response m -> tame_coeffs b ->
  FloatSpec.is_fin x -> 0 <= B2R x <= 1 / 2 -> 0 < Cmod (i_den (B2R x) (stored b)) -> resp_rel 0 1 * i_cond [stored b] (B2R x) <= / 4 ->
  exists h, bq_response (N := F64 m) b x = Val h /\ cfin h /\ Cmod (c2c h - i_resp [stored b] (B2R x))%C <= resp_error 0 [stored b] (B2R x).
Proof.
  intros (_ & HP & HD) (HM & _) F Fx Hx NZ HC. apply (c77_biquad m HP HD HM 0 b (stored b) x); try assumption; [split; [lra|apply Rlt_le, Rinv_0_lt_compat, pow_lt; lra]|].
  apply stored_near0. exact F.
Qed.
Lemma c77_near m e (bs : list (biquad (F64 m))) ds rest mx (x : f64) : libm_design m -> libm_response m -> 0 <= e <= / 2 ^ 10 -> List.Forall2 (near_section e) bs ds -> (length ds <= 32)%nat ->
  FloatSpec.is_fin x -> 0 <= B2R x <= 1 / 2 ->
  0 < Cmod (cprod (map (i_den (B2R x)) ds)) -> resp_rel e (length ds) * i_cond ds (B2R x) <= / 4 ->
  exists h, cas_response (N := F64 m) (MkCascade (Z.of_nat (length ds)) mx (bs ++ rest)) x = Val h /\ cfin h /\ Cmod (c2c h - i_resp ds (B2R x))%C <= resp_error e ds (B2R x).
Proof. intros (_ & HP & HD) (HM & _). apply c77_cascade; assumption. Qed.

(** ** an example: third order low pass at a quarter of the sampling rate, its response at the cutoff *)
Lemma ex_cascade : bw_cascade false (1 / 4) 3 = [Ideal 0 (1 / 3) (1 / 6) (1 / 3) (1 / 6); Ideal 0 0 1 1 0].
Proof.
  pose proof (f_equal (map d_id) ex_chain) as E. cbn [map d_id] in E. rewrite <- E. unfold bw_chain, bw_cascade. rewrite map_map. apply map_ext. reflexivity.
Qed.
Lemma quarter_z : z_inv (1 / 4) = (0, -1).
Proof. unfold z_inv, cis. replace (- (2 * PI * (1 / 4))) with (- (PI / 2)) by field. rewrite cos_neg, sin_neg, cos_PI2, sin_PI2. reflexivity. Qed.
Lemma ex_dens : cprod (map (i_den (1 / 4)) [Ideal 0 (1 / 3) (1 / 6) (1 / 3) (1 / 6); Ideal 0 0 1 1 0]) = RtoC (2 / 3).
Proof.
  unfold cprod, i_den, poly2. cbn [map fold_right i_a1 i_a2]. rewrite quarter_z. unfold RtoC, Cplus, Cmult. cbn [fst snd]. f_equal; field.
Qed.
Lemma ex_c78 : libm_design design_libm /\ libm_response design_libm /\ B2R (fnorm 1 (-2)) = 1 / 4 /\ bw_scale_error false (1 / 4) 3 <= / 2 ^ 10 /\
  resp_rel (bw_scale_error false (1 / 4) 3) 2 * i_cond (bw_cascade false (1 / 4) 3) (1 / 4) <= / 4 /\
  resp_error (bw_scale_error false (1 / 4) 3) (bw_cascade false (1 / 4) 3) (1 / 4) <= 1 / 10 ^ 8 /\
  Cmod (i_resp (bw_cascade false (1 / 4) 3) (1 / 4)) ^ 2 = 1 / 2.
Proof.
  split; [apply design_libm_ok|]. split; [apply design_libm_ok|]. split; [apply ex_c66|].
  assert (T : tan (PI * (1 / 4)) = 1) by (replace (PI * (1 / 4)) with (PI / 4) by field; apply tan_PI4).
  assert (SE : bw_scale_error false (1 / 4) 3 = 96 / 2 ^ 43). { unfold bw_scale_error, bw_error. rewrite T, Rinv_1. replace (INR 3) with 3 by (simpl; ring). lra. }
  rewrite SE. split; [lra|].
  assert (C : i_cond (bw_cascade false (1 / 4) 3) (1 / 4) = 2).
  { unfold i_cond. rewrite ex_cascade, ex_dens, Cmod_R. unfold den_abs. cbn [map fold_right i_a1 i_a2]. rewrite Rabs_R0, !Rabs_pos_eq by lra. lra. }
  assert (L : i_level (bw_cascade false (1 / 4) 3) (1 / 4) = 2).
  { unfold i_level. rewrite ex_cascade, ex_dens, Cmod_R. unfold num_abs. cbn [map fold_right i_b0 i_b1 i_b2]. rewrite Rabs_R0, !Rabs_pos_eq by lra. lra. }
  assert (P : / 2 ^ 300 <= / 2 ^ 60) by (apply Rinv_le; [apply pow_lt; lra|apply Rle_pow; [lra|lia]]).
  split. { rewrite C. unfold resp_rel. replace (INR 3) with 3 by (simpl; ring). lra. }
  split. { unfold resp_error. rewrite C, L, ex_cascade. cbn [length]. unfold resp_rel. replace (INR 3) with 3 by (simpl; ring). set (p := / 2 ^ 300) in *. clearbody p. lra. }
  pose proof (c78_gain Bw false (1 / 4) 0 3 ltac:(lia) eq_refl ltac:(lra) I) as (_ & G & _). cbn zeta in G. specialize (G (1 / 4) ltac:(lra)).
  cbn [lh_cascade] in G. rewrite G. cbn [gain2]. unfold lh_freq. rewrite T. replace (1 / 1) with 1 by field. rewrite pow1. lra.
Qed.

Lemma ex_c77 : let b := @MkBiquad (F64 design_libm) (fofZ 1) (fnorm (-1) (-1)) (fnorm 1 (-2)) (fofZ 1) (fofZ 2) (fofZ 1) in
  libm_design design_libm /\ libm_response design_libm /\ tame_coeffs b /\ stored b = Ideal (-1 / 2) (1 / 4) 1 2 1 /\
  FloatSpec.is_fin (fnorm 1 (-2)) /\ B2R (fnorm 1 (-2)) = 1 / 4 /\ 0 < Cmod (i_den (1 / 4) (stored b)) /\ resp_rel 0 1 * i_cond [stored b] (1 / 4) <= / 4 /\
  resp_error 0 [stored b] (1 / 4) <= 1 / 10 ^ 10.
Proof.
  intros b. split; [apply design_libm_ok|]. split; [apply design_libm_ok|].
  assert (Q : B2R (fnorm 1 (-2)) = 1 / 4) by apply ex_c66.
  assert (H : B2R (fnorm (-1) (-1)) = -1 / 2). { assert (HS : B2SF (fnorm (-1) (-1)) = SpecFloat.S754_finite true 4503599627370496 (-53)) by (vm_compute; reflexivity). rewrite (sf_val _ _ HS). unfold SF2R, Defs.F2R. cbn. lra. }
  assert (S : stored b = Ideal (-1 / 2) (1 / 4) 1 2 1).
  { unfold stored, b. cbn [m_a1 m_a2 m_b0 m_b1 m_b2]. rewrite (proj1 (fofZ_val 1 ltac:(lia))), (proj1 (fofZ_val 2 ltac:(lia))), Q, H. reflexivity. }
  assert (NA : num_abs (stored b) = 4) by (rewrite S; unfold num_abs; cbn [i_b0 i_b1 i_b2]; rewrite !Rabs_pos_eq by lra; lra).
  assert (DA : den_abs (stored b) = 7 / 4) by (rewrite S; unfold den_abs; cbn [i_a1 i_a2]; rewrite (Rabs_pos_eq (1 / 4)), (Rabs_left (-1 / 2)) by lra; lra).
  assert (DM : 3 / 4 <= Cmod (i_den (1 / 4) (stored b))).
  { rewrite S. unfold i_den, poly2. cbn [i_a1 i_a2]. rewrite quarter_z. eapply Rle_trans; [|apply Rmax_Cmod]. eapply Rle_trans; [|apply Rmax_l]. unfold RtoC, Cplus, Cmult. cbn [fst snd]. rewrite Rabs_pos_eq; lra. }
  split. { split; [repeat split; vm_compute; reflexivity|]. split; [reflexivity|]. unfold b at 1 2. cbn [m_a0]. rewrite (proj1 (fofZ_val 1 ltac:(lia))), Rabs_R1, NA, DA. lra. }
  split; [exact S|]. split; [vm_compute; reflexivity|]. split; [exact Q|]. split; [lra|].
  assert (P1 : cprod (map (i_den (1 / 4)) [stored b]) = i_den (1 / 4) (stored b)) by (unfold cprod; cbn [map fold_right]; apply Cmult_1_r).
  assert (C : i_cond [stored b] (1 / 4) = 7 / 4 / Cmod (i_den (1 / 4) (stored b))) by (unfold i_cond; rewrite P1; cbn [map fold_right]; rewrite DA, Rmult_1_r; reflexivity).
  assert (L : i_level [stored b] (1 / 4) = 4 / Cmod (i_den (1 / 4) (stored b))) by (unfold i_level; rewrite P1; cbn [map fold_right]; rewrite NA, Rmult_1_r; reflexivity).
  unfold resp_error. rewrite C, L. cbn [length]. unfold resp_rel. replace (INR 2) with 2 by (simpl; ring).
  set (M := Cmod (i_den (1 / 4) (stored b))) in *. assert (IM : 0 < / M <= 4 / 3). { split; [apply Rinv_0_lt_compat; lra|]. replace (4 / 3) with (/ (3 / 4)) by field. apply Rinv_le; lra. }
  unfold Rdiv. set (j := / M) in *. clearbody j. assert (P : / 2 ^ 300 <= / 2 ^ 60) by (apply Rinv_le; [apply pow_lt; lra|apply Rle_pow; [lra|lia]]). set (p := / 2 ^ 300) in *. clearbody p.
  assert (J2 : j * j <= 4 / 3 * (4 / 3)) by (apply Rmult_le_compat; lra). split; nra.
Qed.

(** Lemmas: Chebyshev low and high pass filters designed and run in binary64, against the ideal filter. *)
From Coq Require Import ZArith List Bool Reals Lra Lia.
From Coquelicot Require Import Coquelicot.
From Flocq Require Import Core.Raux IEEE754.BinarySingleNaN.
From Verif Require Import Num Outcome Types Biquad State Cascade PoleFilter Float64 FloatSpec FloatProofs FloatLemmas Stream SigSpec StabProofs
  RoundSpec RoundProofs RoundRun RoundLemmas DblSpec DblProofs DblLemmas LayoutProofs BuildProofs BuildAny BwDblSpec CplxDbl BwDbl BwDbl2 BwDbl3 BwDblLemmas BwExact BwScale BwDblFinal BwScaleLemmas ChainSpec ChainLemmas BwOut
  RbjShProofs RelDbl ChCoefSpec ChDblSpec ChDbl ChDbl2 ChDbl3 ChDbl4 ChDblLemmas ChDblEx ChScaleSpec ChScale.
Import ListNotations.
Local Open Scope R_scope.

Lemma pair_gain2 x y z : 0 < y -> y ^ 2 <= x -> (z = 1 \/ z = -1) -> let d := 1 + 2 * y + x in
  rec_gain (2 * z * (x - 1) / d) ((1 - 2 * y + x) / d) ((1 + (1 + x) / (2 * y)) ^ 2).
Proof.
  intros Hy Hx Hz d. assert (X0 : 0 < x) by (pose proof (pow_lt y 2 Hy); lra). assert (D : 0 < d) by (unfold d; lra).
  assert (Y1 : 0 <= 1 - 2 * y + x) by (pose proof (pow2_ge_0 (1 - y)); simpl in *; lra).
  set (a1 := 2 * z * (x - 1) / d). set (a2 := (1 - 2 * y + x) / d).
  assert (A2 : 0 <= a2) by (apply Rdiv_le_0_compat; assumption).
  set (r := (1 + a2) / 2). assert (R : 1 - r = 2 * y / d) by (unfold r, a2, d in *; field; lra).
  assert (Q : 0 < 2 * y / d) by (apply Rdiv_lt_0_compat; lra).
  replace ((1 + (1 + x) / (2 * y)) ^ 2) with (/ (1 - r) ^ 2).
  2: { rewrite R. unfold d in *. field. split; lra. }
  apply gain_within; [|lra]. apply jury_within; [unfold r; lra| |].
  - rewrite Rabs_pos_eq by exact A2. unfold r. pose proof (pow2_ge_0 (1 - a2)). lra.
  - assert (S : a1 ^ 2 <= 4 * a2).
    { unfold a1, a2. apply Rmult_le_reg_r with (d ^ 2); [nra|]. replace ((2 * z * (x - 1) / d) ^ 2 * d ^ 2) with (z ^ 2 * (4 * (x - 1) ^ 2)) by (field; lra).
      replace (4 * ((1 - 2 * y + x) / d) * d ^ 2) with (4 * (1 - 2 * y + x) * d) by (field; lra). replace (z ^ 2) with 1 by (destruct Hz as [-> | ->]; ring). unfold d. lra. }
    assert (P : 0 <= r * r + a2) by (pose proof (pow2_ge_0 r); lra). apply Rsqr_incr_0_var; [|exact P]. unfold Rsqr.
    replace (Rabs a1 * r * (Rabs a1 * r)) with (Rabs a1 ^ 2 * r ^ 2) by ring. rewrite pow2_abs.
    apply Rle_trans with (4 * a2 * r ^ 2); [apply Rmult_le_compat_r; [apply pow2_ge_0|exact S]|]. pose proof (pow2_ge_0 (r * r - a2)). nra.
Qed.
Lemma single_gain2 x z : 0 < x -> (z = 1 \/ z = -1) -> rec_gain (z * (-1 - - x) / (1 - - x)) 0 ((1 + (1 + x ^ 2) / (2 * x)) ^ 2).
Proof.
  intros Hx Hz. set (r := (1 + x ^ 2) / (1 + x) ^ 2). assert (D : 0 < (1 + x) ^ 2) by nra.
  assert (R : 1 - r = 2 * x / (1 + x) ^ 2) by (unfold r; field; lra). assert (Q : 0 < 2 * x / (1 + x) ^ 2) by (apply Rdiv_lt_0_compat; lra).
  replace ((1 + (1 + x ^ 2) / (2 * x)) ^ 2) with (/ (1 - r) ^ 2) by (rewrite R; field; split; lra).
  assert (R0 : 0 < r) by (apply Rdiv_lt_0_compat; nra).
  apply gain_within; [|lra]. apply jury_within; [exact R0|rewrite Rabs_R0; nra|]. rewrite Rplus_0_r. apply Rmult_le_compat_r; [lra|].
  replace (1 - - x) with (1 + x) by ring. unfold r, Rdiv. rewrite Rabs_mult, (Rabs_pos_eq (/ _)) by (left; apply Rinv_0_lt_compat; lra).
  apply Rmult_le_reg_r with ((1 + x) ^ 2); [exact D|]. replace ((1 + x ^ 2) * / (1 + x) ^ 2 * (1 + x) ^ 2) with (1 + x ^ 2) by (field; lra).
  replace (Rabs (z * (-1 - - x)) * / (1 + x) * (1 + x) ^ 2) with (Rabs (z * (-1 - - x)) * (1 + x)) by (field; lra).
  apply Rle_trans with (Rabs (x - 1) * (1 + x)); [right; f_equal; destruct Hz as [-> | ->]; [f_equal; ring|rewrite <- Rabs_Ropp; f_equal; ring]|].
  unfold Rabs. destruct (Rcase_abs (x - 1)); nra.
Qed.
Lemma width_pos second n db : (1 <= n)%nat -> 0 < db -> 0 < sinh (ch_width second n db).
Proof.
  intros Hn Hd. assert (E : 0 < sqrt (Rpower 10 (db / 10) - 1)).
  { apply sqrt_lt_R0. pose proof ln10_rng. unfold Rpower. assert (exp 0 < exp (db / 10 * ln 10)) by (apply exp_increasing; nra). rewrite exp_0 in *. lra. }
  rewrite <- sinh_0. apply sinh_lt. unfold ch_width. cbn zeta. apply Rdiv_lt_0_compat; [|apply lt_0_INR; lia].
  rewrite <- arcsinh_0. apply arcsinh_lt. destruct second; [exact E|apply Rdiv_lt_0_compat; lra].
Qed.
Lemma angle_pos n i : (i < n / 2)%nat -> 0 < sin (ch_angle n i).
Proof.
  intros Hi. assert (H : (2 * i + 1 < n)%nat) by (pose proof (Nat.div_mod n 2 ltac:(lia)); lia). apply lt_INR in H. rewrite plus_INR, mult_INR in H. cbn [INR] in H.
  pose proof PI_RGT_0 as P. pose proof (pos_INR i) as I0. assert (N0 : 0 < INR n) by lra. unfold ch_angle.
  assert (A : 0 < (2 * INR i + 1) * PI / (2 * INR n)) by (apply Rdiv_lt_0_compat; [apply Rmult_lt_0_compat; lra|lra]).
  apply sin_gt_0; [exact A|]. apply Rmult_lt_reg_r with (2 * INR n); [lra|]. unfold Rdiv. rewrite Rmult_assoc, Rinv_l by lra. nra.
Qed.
Lemma c76_gain second hp f db n i : 0 < f < 1 / 2 -> 0 < db -> (1 <= n)%nat -> (i < bw_sections n)%nat ->
  rec_gain (i_a1 (ch_section second hp f db n i)) (i_a2 (ch_section second hp f db n i)) (ch_gain_bound second hp f db n i).
Proof.
  intros Hf Hd Hn Hi. unfold ch_section, scaled. cbn [i_a1 i_a2]. unfold ch_ideal, ch_gain_bound. cbn zeta.
  pose proof PI_RGT_0 as PP. assert (T : 0 < tan (PI * f)) by (apply tan_gt_0; nra). set (t := tan (PI * f)) in *. pose proof (width_pos second n db Hn Hd) as SP.
  assert (U : 0 < (if hp then / t else t)) by (destruct hp; [apply Rinv_0_lt_compat|]; lra).
  assert (ZP : (if hp then -1 else 1) = 1 \/ (if hp then -1 else 1) = -1) by (destruct hp; lra).
  destruct (Nat.ltb_spec i (n / 2)) as [L|L].
  - pose proof (angle_pos n i L) as AP. set (s := sinh (ch_width second n db) * sin (ch_angle n i)).
    assert (S0 : 0 < s) by (apply Rmult_lt_0_compat; assumption).
    set (mm := s ^ 2 + (cosh (ch_width second n db) * cos (ch_angle n i)) ^ 2). assert (MM : s ^ 2 <= mm) by (unfold mm; pose proof (pow2_ge_0 (cosh (ch_width second n db) * cos (ch_angle n i))); lra).
    assert (M0 : 0 < mm) by (pose proof (pow_lt s 2 S0); lra).
    assert (G : forall g M w, 0 < g -> g ^ 2 <= M -> rec_gain (i_a1 (an_pair hp t (- g) M w)) (i_a2 (an_pair hp t (- g) M w))
      ((1 + (1 + (if hp then / t else t) ^ 2 * M) / (2 * (if hp then / t else t) * g)) ^ 2)).
    { intros g M w Hg HM. unfold an_pair. cbn [i_a1 i_a2]. set (u := if hp then / t else t) in *.
      pose proof (pair_gain2 (u ^ 2 * M) (u * g) (if hp then -1 else 1) ltac:(apply Rmult_lt_0_compat; lra) ltac:(rewrite Rpow_mult_distr; apply Rmult_le_compat_l; [apply pow2_ge_0|exact HM]) ZP) as PG. cbn zeta in PG.
      replace (1 - 2 * u * - g + u ^ 2 * M) with (1 + 2 * (u * g) + u ^ 2 * M) by ring. replace (1 + 2 * u * - g + u ^ 2 * M) with (1 - 2 * (u * g) + u ^ 2 * M) by ring.
      replace (2 * u * g) with (2 * (u * g)) by ring. exact PG. }
    destruct second.
    + unfold Rdiv at 1 2. rewrite <- Ropp_mult_distr_l. apply G; [apply Rdiv_lt_0_compat; assumption|].
      apply Rle_trans with (mm * (/ mm) ^ 2); [|right; field; lra]. replace ((s / mm) ^ 2) with (s ^ 2 * (/ mm) ^ 2) by (unfold Rdiv; ring). apply Rmult_le_compat_r; [apply pow2_ge_0|exact MM].
    + apply G; assumption.
  - set (S := sinh (ch_width second n db)) in *.
    replace (if second then - / S else - S) with (- (if second then / S else S)) by (destruct second; reflexivity). set (x := if second then / S else S).
    assert (X : 0 < x) by (unfold x; destruct second; [apply Rinv_0_lt_compat|]; lra). unfold an_single. cbn [i_a1 i_a2].
    replace ((if hp then / t else t) * - x) with (- ((if hp then / t else t) * x)) by ring. apply single_gain2; [apply Rmult_lt_0_compat; assumption|exact ZP].
Qed.

Lemma c76_parts m (second hp : bool) (q : params (F64 m)) n FO t : libm_design m -> libm_response m -> libm_cheb m -> libm_pow10 m -> FloatSpec.is_fin (q_fc q : f64) -> FloatSpec.is_fin (q_db q : f64) ->
  ch_cut_ok (B2R (q_fc q : f64)) -> ch_db_ok second (B2R (q_db q : f64)) -> (1 <= n <= 24)%nat -> (Z.of_nat n <= FO)%Z ->
  let k := (if second then Ch2 else Ch1, if hp then HP else LP) in let f := B2R (q_fc q : f64) in let db := B2R (q_db q : f64) in
  ch_scale_error second hp f db n <= / 8 ->
  exists fl bs' d, filt_setupN (N := F64 m) k FO (Some (Z.of_nat n)) q (filt_init t k FO) = Ok fl tt /\
    fl_stages fl = bs' ++ repeat idb d /\ fl_states fl = repeat (st_init t) (length bs' + d) /\
    List.Forall fin_coeffs bs' /\ List.Forall2 stored_near bs' (ch_chain second hp f db n) /\ filt_numStages fl = Z.of_nat (length bs') /\ List.Forall (fun b : biquad (F64 m) => m_a0 b = fofZ 1) bs'.
Proof.
  intros HM HR HC HP Ff Fd Hf Hd HN HFO k f db HE.
  destruct (c75_setup m HM HR HC HP second q Ff Fd Hf Hd n HN FO HFO hp HE) as (p & bs & sc & E & L & S & C & _ & _).
  destruct (c75 m second hp q n FO HM HR HC HP Ff Fd Hf Hd HN HFO HE) as (p' & b & E' & I & B). cbv zeta in B. fold f db in B.
  rewrite E in E'. inversion E'; subst p'. clear E'. destruct (nsec n HN) as [NS _].
  destruct bs as [|b0 bs]; [cbn [length] in L; lia|]. cbn [app scale_head] in C.
  assert (Eb : b = bq_applyScale (N := F64 m) sc b0).
  { rewrite C in I. change 0%Z with (Z.of_nat 0) in I. rewrite (index_at _ _ _ 0 (bq_applyScale (N := F64 m) sc b0)) in I; [inversion I; reflexivity|cbn [length]; lia|reflexivity]. }
  set (bs' := bq_applyScale (N := F64 m) sc b0 :: bs).
  assert (LB : length bs' = bw_sections n) by (unfold bs'; cbn [length] in *; exact L).
  assert (ML : (bw_sections n <= Z.to_nat (maxStagesOf (snd k) FO))%nat).
  { unfold bw_sections, k. assert (MS : maxStagesOf (snd (if second then Ch2 else Ch1, if hp then PoleFilter.HP else LP)) FO = Z.quot (FO + 1) 2) by (destruct hp; reflexivity). rewrite MS, Z.quot_div_nonneg by lia.
    rewrite <- (Nat2Z.id ((n + 1) / 2)). apply Z2Nat.inj_le; try apply Z.div_pos; try lia. rewrite Nat2Z.inj_div, Nat2Z.inj_add. apply Z.div_le_mono; lia. }
  set (ch := fun i => DSect (ch_section second hp f db n i) (ch_gain_bound second hp f db n i) (ch_error f)
      (if Nat.eqb i 0 then ch_scale_error second hp f db n * ch_scale second hp f db n else if second then ch_error f / 64 else 0)).
  assert (FC : List.Forall fin_coeffs bs' /\ List.Forall2 stored_near bs' (ch_chain second hp f db n)).
  { assert (EL : 0 < ch_error f) by apply (cerr_T m q Hf).
    assert (H : forall i x, nth_error bs' i = Some x -> fin_coeffs x /\ stored_near x (ch i)).
    { intros i x Ex. destruct i as [|i].
      - inversion Ex; subst x. destruct (S 0%nat b0 eq_refl) as ((F1 & F2 & _) & _ & A1 & A2 & _ & _). rewrite Eb in B. destruct B as (B1 & B2 & B3 & B4 & B5 & B6).
        split; [repeat split; assumption|]. unfold stored_near, ch, ch_section, scaled. cbn [d_id d_ea d_eb Nat.eqb i_a1 i_a2 i_b0 i_b1 i_b2]. repeat split; assumption.
      - cbn [bs' nth_error] in Ex. destruct (S (Datatypes.S i) x Ex) as (F & _ & A1 & A2 & _ & B0 & B1 & B2). split; [exact F|].
        assert (Hi : (Datatypes.S i < bw_sections n)%nat) by (rewrite <- L; cbn [length]; assert (i < length bs)%nat by (apply nth_error_Some; congruence); lia).
        destruct (sec_tame m second q Hf Hd n HN hp HE _ Hi) as (_ & _ & I3 & _).
        unfold stored_near, ch, ch_section, scaled. cbn [d_id d_ea d_eb Nat.eqb i_a1 i_a2 i_b0 i_b1 i_b2]. rewrite !Rmult_1_r.
        split; [exact A1|]. split; [exact A2|]. fold f db in B1, B2, I3. split; [rewrite B0, I3, Rminus_eq_0, Rabs_R0; destruct second; lra|]. split; [exact B1|exact B2]. }
    split.
    - apply List.Forall_forall. intros x Hx. apply In_nth_error in Hx. destruct Hx as [i Hi]. apply (H i x Hi).
    - apply F2_nth; [unfold ch_chain; rewrite map_length, seq_length; exact LB|]. intros i x y Ex Ey.
      assert (Hi : (i < bw_sections n)%nat) by (rewrite <- LB; apply nth_error_Some; congruence).
      unfold ch_chain in Ey. rewrite nth_error_map, (nth_error_nth' _ 0%nat), seq_nth in Ey by (try rewrite seq_length; exact Hi). cbn [option_map Nat.add] in Ey. inversion Ey; subst y.
      apply H. exact Ex. }
  exists (MkFilt p (repeat (st_init t) (Z.to_nat (maxStagesOf (snd k) FO)))), bs', (Z.to_nat (maxStagesOf (snd k) FO) - length bs')%nat.
  split.
  { unfold filt_setupN, on_pf, zoom, filt_init. cbn [fl_pf fl_states]. fold k in E. rewrite E. reflexivity. }
  split; [unfold fl_stages; cbn [fl_pf]; rewrite C; cbn [c_stages]; unfold bs'; cbn [app length]; reflexivity|].
  split; [cbn [fl_states]; f_equal; lia|]. split; [apply FC|]. split; [apply FC|].
  split; [unfold filt_numStages; cbn [fl_pf]; rewrite C; reflexivity|].
  apply List.Forall_forall. intros x Hx. apply In_nth_error in Hx. destruct Hx as [[|i] Hi].
  - inversion Hi; subst x. exact (proj1 (proj2 (S 0%nat b0 eq_refl))).
  - exact (proj1 (proj2 (S (Datatypes.S i) x Hi))).
Qed.
Lemma c76 m (second hp : bool) (q : params (F64 m)) n FO t : libm_design m -> libm_response m -> libm_cheb m -> libm_pow10 m -> FloatSpec.is_fin (q_fc q : f64) -> FloatSpec.is_fin (q_db q : f64) ->
  ch_cut_ok (B2R (q_fc q : f64)) -> ch_db_ok second (B2R (q_db q : f64)) -> (1 <= n <= 24)%nat -> (Z.of_nat n <= FO)%Z ->
  let k := (if second then Ch2 else Ch1, if hp then HP else LP) in let f := B2R (q_fc q : f64) in let db := B2R (q_db q : f64) in
  ch_scale_error second hp f db n <= / 8 ->
  exists fl, filt_setupN (N := F64 m) k FO (Some (Z.of_nat n)) q (filt_init t k FO) = Ok fl tt /\
    forall X (xs : list f64) zs, 0 <= X -> chain_ok (ch_chain second hp f db n) X -> List.Forall (fun x => FloatSpec.is_fin x /\ Rabs (B2R x) <= X) xs ->
    ideal_out (ch_cascade second hp f db n) (map B2R xs) zs ->
    let ys := snd (filt_run fl xs) : list f64 in
    length ys = length xs /\ List.Forall (fun y => FloatSpec.is_fin y /\ Rabs (B2R y) <= chain_bound (ch_chain second hp f db n) X) ys /\
    List.Forall2 (fun y z => Rabs (B2R y - z) <= chain_error (ch_chain second hp f db n) X 0) ys zs.
Proof.
  intros HM HR HC HP Ff Fd Hf Hd HN HFO k f db HE. destruct (c76_parts m second hp q n FO t HM HR HC HP Ff Fd Hf Hd HN HFO HE) as (fl & bs' & d & E & ST & SS & FC & SN & _ & _). exists fl. split; [exact E|].
  intros X xs zs HX OK Hxs Hz. apply (chain_out m fl bs' d t (ch_chain second hp f db n) ST SS FC SN X xs zs HX OK Hxs).
  assert (MI : map d_id (ch_chain second hp f db n) = ch_cascade second hp f db n) by (unfold ch_chain, ch_cascade; rewrite map_map; apply map_ext; reflexivity). rewrite MI. exact Hz.
Qed.

(** ** an example: second order type II low pass at a quarter of the sampling rate, 10 dB, inputs in [-1,1] *)
Lemma pow10_ok : libm_pow10 cheb_libm.
Proof.
  unfold libm_pow10. cbn [lm_pow cheb_libm]. rewrite (proj1 (fofZ_val 10 ltac:(lia))). apply (rel_lib (Rpower 10)). intros x Hx. pose proof ln10_rng as L. unfold Rpower.
  assert (A : - (5) <= x * ln 10 <= 0) by nra. split.
  - eapply Rle_trans; [|apply exp_mono, A]. rewrite exp_Ropp. pose proof (exp_nat 5) as E5. replace (INR 5) with 5 in E5 by (simpl; lra). pose proof (exp_pos 5). apply Rle_trans with (/ 3 ^ 5); [lra|apply Rinv_le; assumption].
  - apply Rle_trans with (exp 0); [apply exp_mono, A|rewrite exp_0; lra].
Qed.
Lemma cosh_two v : cosh (2 * v) = 1 + 2 * sinh v ^ 2.
Proof. unfold cosh, sinh. replace (- (2 * v)) with (- v + - v) by ring. replace (2 * v) with (v + v) by ring. rewrite !exp_plus. assert (E : exp v * exp (- v) = 1) by (rewrite <- exp_plus, Rplus_opp_r; apply exp_0). replace (((exp v - exp (- v)) / 2) ^ 2) with ((exp v * exp v + exp (- v) * exp (- v) - 2 * (exp v * exp (- v))) / 4) by field. rewrite E. field. Qed.
Lemma ex_width : let v := ch_width true 2 10 in let s := sinh v * sin (ch_angle 2 0) in let mm := s ^ 2 + (cosh v * cos (ch_angle 2 0)) ^ 2 in
  mm = sqrt 10 / 2 /\ 46 / 100 <= s / mm <= 47 / 100 /\ 63 / 100 <= / mm <= 64 / 100 /\ / cos (ch_angle 2 0) = sqrt 2.
Proof.
  intros v s mm. pose proof (sqrt_sqrt 10 ltac:(lra)) as Q10. pose proof (sqrt_pos 10) as P10. set (r := sqrt 10) in *.
  assert (R : 3162 / 1000 <= r <= 3163 / 1000) by (split; apply Rsqr_incr_0_var; unfold Rsqr; lra).
  assert (V : 2 * v = arcsinh 3).
  { unfold v, ch_width. cbn zeta. replace (10 / 10) with 1 by field. rewrite Rpower_1 by lra. replace (10 - 1) with (3 * 3) by ring. rewrite sqrt_square by lra. replace (INR 2) with 2 by (simpl; ring). field. }
  pose proof (cosh_two v) as C2. rewrite V in C2. pose proof (ch_sq (arcsinh 3)) as CS. rewrite sinh_arcsinh in CS.
  assert (CP : 1 <= cosh (arcsinh 3)) by apply cosh_1.
  assert (CR : cosh (arcsinh 3) = r). { apply Rsqr_inj; [lra|exact P10|]. unfold Rsqr. simpl in CS. lra. } rewrite CR in C2.
  pose proof (ch_sq v) as CV. assert (A : ch_angle 2 0 = PI / 4) by (unfold ch_angle; simpl; field). subst mm. subst s. rewrite A. rewrite sin_PI4, cos_PI4.
  assert (W : (1 / sqrt 2) ^ 2 = 1 / 2). { unfold Rdiv. rewrite !Rmult_1_l, pow_inv. f_equal. simpl. rewrite Rmult_1_r. apply sqrt_sqrt. lra. }
  assert (S1 : 0 < 1 / sqrt 2) by (apply Rdiv_lt_0_compat; [lra|apply sqrt_lt_R0; lra]).
  assert (MM : (sinh v * (1 / sqrt 2)) ^ 2 + (cosh v * (1 / sqrt 2)) ^ 2 = r / 2) by (rewrite !Rpow_mult_distr, W, CV; lra).
  rewrite MM. split; [reflexivity|].
  assert (SP : 0 < sinh v) by (apply width_pos; [lia|lra]). set (g := sinh v * (1 / sqrt 2)) in *. assert (G0 : 0 < g) by (apply Rmult_lt_0_compat; assumption).
  assert (G2 : g ^ 2 = (r - 1) / 4) by (unfold g; rewrite Rpow_mult_distr, W; lra).
  assert (H : g / (r / 2) = g * r / 5) by (replace (g / (r / 2)) with (2 * g * / r) by (field; lra); replace (/ r) with (r / 10) by (apply Rmult_eq_reg_l with r; [rewrite Rinv_r by lra; unfold Rdiv; rewrite <- Rmult_assoc, Q10; field|lra]); field).
  split; [rewrite H; assert (735 / 1000 <= g <= 736 / 1000) by (split; apply Rsqr_incr_0_var; unfold Rsqr; simpl in G2; lra); nra|].
  split; [replace (/ (r / 2)) with (r / 5) by (apply Rmult_eq_reg_l with (r / 2); [rewrite Rinv_r by lra; replace (r / 2 * (r / 5)) with (r * r / 10) by field; rewrite Q10; field|lra]); lra|].
  unfold Rdiv. rewrite Rmult_1_l, Rinv_inv. reflexivity.
Qed.
Lemma ex_c76 : libm_design cheb_libm /\ libm_response cheb_libm /\ libm_cheb cheb_libm /\ libm_pow10 cheb_libm /\
  FloatSpec.is_fin (fnorm 1 (-2)) /\ B2R (fnorm 1 (-2)) = 1 / 4 /\ ch_cut_ok (1 / 4) /\ FloatSpec.is_fin (fofZ 10) /\ B2R (fofZ 10) = 10 /\ ch_db_ok true 10 /\
  ch_scale_error true false (1 / 4) 10 2 <= / 2 ^ 28 /\
  chain_ok (ch_chain true false (1 / 4) 10 2) 1 /\ chain_error (ch_chain true false (1 / 4) 10 2) 1 0 <= 1 / 10 ^ 5.
Proof.
  destruct cheb_libm_ok as (A1 & A2 & A3). split; [exact A1|]. split; [exact A2|]. split; [exact A3|]. split; [exact pow10_ok|]. split; [reflexivity|].
  split. { rewrite (sf_val (fnorm 1 (-2)) _ (ltac:(vm_compute; reflexivity) : _ = SpecFloat.S754_finite false 4503599627370496 (-54))). unfold SF2R, Defs.F2R. cbn. lra. }
  split; [unfold ch_cut_ok; lra|]. destruct (fofZ_val 10 ltac:(lia)) as [Z1 Z2]. split; [exact Z2|]. split; [exact Z1|]. split; [unfold ch_db_ok; lra|].
  assert (T : tan (PI * (1 / 4)) = 1) by (replace (PI * (1 / 4)) with (PI / 4) by field; apply tan_PI4).
  destruct ex_width as (_ & W1 & W2 & W3). cbn zeta in W1, W2, W3.
  pose proof (c76_gain true false (1 / 4) 10 2 0 ltac:(lra) ltac:(lra) ltac:(lia) ltac:(vm_compute; lia)) as G0. revert G0.
  assert (EE : ch_error (1 / 4) = / 2 ^ 34) by (unfold ch_error; lra).
  unfold ch_chain, ch_scale_error, ch_cond, ch_scale, ch_section, ch_scale. change (bw_sections 2) with 1%nat. cbn [seq map fold_right Nat.eqb].
  unfold ch_gain_bound, ch_ideal. change (Nat.ltb 0 (2 / 2)) with true. cbv iota zeta. rewrite T, EE.
  set (mm := (sinh (ch_width true 2 10) * sin (ch_angle 2 0)) ^ 2 + (cosh (ch_width true 2 10) * cos (ch_angle 2 0)) ^ 2) in *.
  set (s := sinh (ch_width true 2 10) * sin (ch_angle 2 0)) in *. rewrite W3.
  replace (- s / mm) with (- (s / mm)) by (unfold Rdiv; ring). set (g := s / mm) in *. set (M := / mm) in *. clearbody g M. clear mm s W3.
  unfold ch_level, an_pair, peak_inv, peak_cond, scaled. cbn [i_a1 i_a2 i_b0 i_b1 i_b2]. replace (sqrt 2 ^ 2) with 2 by (simpl; rewrite Rmult_1_r, sqrt_sqrt; lra).
  replace (-2 * 1 * ((1 - 1 ^ 2 * 2) / (1 + 1 ^ 2 * 2))) with (2 / 3) by field. replace (INR 2) with 2 by (simpl; ring). rewrite !Rmult_1_l, !Rmult_1_r, !pow1, !Rmult_1_l.
  set (d := 1 - 2 * - g + M). assert (D : 1 + 2 * g + M = d) by (unfold d; ring). assert (D1 : 255 / 100 <= d <= 26 / 10) by lra. assert (D0 : d <> 0) by lra.
  replace (1 + 2 * (M - 1) / d + (1 + 2 * - g + M) / d) with (4 * M / d) by (rewrite <- D; field; lra). replace (1 + 2 / 3 + 1) with (8 / 3) by field.
  assert (ID : 38 / 100 <= / d <= 40 / 100) by (split; [apply Rle_trans with (/ (26 / 10)); [lra|apply Rinv_le; lra]|apply Rle_trans with (/ (255 / 100)); [apply Rinv_le; lra|lra]]).
  assert (BV : / (4 * M / d) <= 11 / 10). { replace (/ (4 * M / d)) with (d * / (4 * M)) by (field; lra). apply Rle_trans with (26 / 10 * / (4 * (63 / 100))); [apply Rmult_le_compat; [lra|left; apply Rinv_0_lt_compat; lra|lra|apply Rinv_le; lra]|lra]. }
  assert (BV0 : 0 < / (4 * M / d)) by (apply Rinv_0_lt_compat, Rdiv_lt_0_compat; lra).
  assert (SC : 0 < 4 * M / d / (8 / 3) <= 1 / 2). { split; [apply Rdiv_lt_0_compat; [apply Rdiv_lt_0_compat|]; lra|]. unfold Rdiv. apply Rle_trans with (4 * (64 / 100) * (40 / 100) * / (8 * / 3)); [|lra]. apply Rmult_le_compat_r; [lra|]. apply Rmult_le_compat; lra. }
  set (sc := 4 * M / d / (8 / 3)) in *. set (bv := / (4 * M / d)) in *. clearbody sc bv.
  assert (AA1 : Rabs (2 * (M - 1) / d) <= 3 / 10). { unfold Rdiv. rewrite Rabs_mult, (Rabs_pos_eq (/ d)), Rabs_left by lra. apply Rle_trans with (- (2 * (M - 1)) * (40 / 100)); [apply Rmult_le_compat_l; lra|lra]. }
  assert (AA2 : Rabs ((1 + 2 * - g + M) / d) <= 3 / 10). { unfold Rdiv. rewrite Rabs_mult, (Rabs_pos_eq (/ d)), Rabs_pos_eq by lra. apply Rle_trans with ((1 + 2 * - g + M) * (40 / 100)); [apply Rmult_le_compat_l; lra|lra]. }
  set (a1 := 2 * (M - 1) / d) in *. set (a2 := (1 + 2 * - g + M) / d) in *. clearbody a1 a2. clear D d D1 D0 ID.
  assert (GG : 1 <= (1 + (1 + M) / (2 * g)) ^ 2 <= 8).
  { assert (0 < / (2 * g) <= / (2 * (46 / 100))) by (split; [apply Rinv_0_lt_compat; lra|apply Rinv_le; lra]). unfold Rdiv in *. set (y := / (2 * g)) in *.
    assert (0 <= (1 + M) * y) by (apply Rmult_le_pos; lra). assert ((1 + M) * y <= 164 / 100 * / (2 * (46 * / 100))) by (apply Rmult_le_compat; lra). split; [nra|]. apply Rle_trans with ((1 + 18 / 10) ^ 2); [apply pow_incr; lra|lra]. }
  set (G := (1 + (1 + M) / (2 * g)) ^ 2) in *. clearbody G. intros G0.
  replace (16 * 2 * (bv + / (8 / 3) + 0) * / 2 ^ 34) with (32 * (bv + 3 / 8) * / 2 ^ 34) by field.
  set (se := 32 * (bv + 3 / 8) * / 2 ^ 34). assert (SE : 0 < se <= / 2 ^ 28) by (unfold se; lra). clearbody se. split; [lra|].
  assert (SE2 : 0 < se * sc <= / 2 ^ 28) by (split; [apply Rmult_lt_0_compat; lra|]; apply Rle_trans with (/ 2 ^ 28 * 1); [apply Rmult_le_compat; lra|lra]). set (eb := se * sc) in *. clearbody eb.
  pose proof g_pos as GP. assert (GS : g_abs <= / 2 ^ 60) by (unfold g_abs; apply Rinv_le_contravar; [apply pow_lt; lra|apply Rle_pow; [lra|lia]]).
  assert (B9 : 2 ^ 60 <= 2 ^ 900) by (apply Rle_pow; [lra|lia]).
  cbn [chain_ok chain_error]. unfold d_ok, d_out, d_err, d_A, d_B, i_B. cbn [d_id d_G d_ea d_eb i_a1 i_a2 i_b0 i_b1 i_b2].
  rewrite !(Rabs_pos_eq sc), !(Rabs_pos_eq (2 / 3 * sc)) by lra. unfold g_rel.
  set (A := Rabs a1 + Rabs a2 + 2 * / 2 ^ 34). assert (AB : 0 <= A <= 1) by (unfold A; pose proof (Rabs_pos a1); pose proof (Rabs_pos a2); lra). clearbody A.
  set (B := sc + 2 / 3 * sc + sc + 3 * eb). assert (BB : 0 <= B <= 2) by (unfold B; lra). clearbody B.
  set (ga := g_abs) in *. clearbody ga. set (P := 2 ^ 900) in *. clearbody P.
  assert (K1 : G * A <= 8) by (apply Rle_trans with (8 * 1); [apply Rmult_le_compat; lra|lra]). assert (K0 : 0 <= G * A) by (apply Rmult_le_pos; lra).
  assert (K2 : G * B <= 16) by (apply Rle_trans with (8 * 2); [apply Rmult_le_compat; lra|lra]). assert (K3 : 0 <= G * B) by (apply Rmult_le_pos; lra).
  split; [split; [split; [exact G0|]|exact I]|].
  - replace (2 * G * A) with (2 * (G * A)) by ring. replace (2 * G * B * (1 + 1)) with (4 * (G * B)) by ring. lra.
  - replace (G * (sc + 2 / 3 * sc + sc) * 0) with 0 by ring. rewrite Rplus_0_l, !Rmult_1_r.
    set (w := B + (1 + B) * ga). assert (WW : 0 <= w <= 3) by (unfold w; assert ((1 + B) * ga <= 3 * / 2 ^ 60) by (apply Rmult_le_compat; lra); assert (0 <= (1 + B) * ga) by (apply Rmult_le_pos; lra); lra).
    assert (W5 : 0 <= (1 + B) * ga <= 3 * / 2 ^ 60) by (split; [apply Rmult_le_pos; lra|apply Rmult_le_compat; lra]). clearbody w. set (w5 := (1 + B) * ga) in *. clearbody w5.
    match goal with |- 6 * G * (?r * (1 + 4 * A * G) * w + w5) + _ <= _ => assert (R0 : 0 <= r <= / 2 ^ 45) by lra; set (rr := r) in * end. clearbody rr.
    replace (6 * G * (rr * (1 + 4 * A * G) * w + w5) + G * (3 * eb + 4 * / 2 ^ 34 * G * B)) with (G * (6 * (rr * ((1 + 4 * (G * A)) * w) + w5) + (3 * eb + 4 * / 2 ^ 34 * (G * B)))) by ring.
    assert (Y1 : 0 <= (1 + 4 * (G * A)) * w <= 33 * 3) by (split; [apply Rmult_le_pos; lra|apply Rmult_le_compat; lra]).
    assert (Y2 : 0 <= rr * ((1 + 4 * (G * A)) * w) <= / 2 ^ 45 * (33 * 3)) by (split; [apply Rmult_le_pos; lra|apply Rmult_le_compat; lra]).
    eapply Rle_trans; [apply Rmult_le_compat_r with (r2 := 8); lra|]. lra.
Qed.

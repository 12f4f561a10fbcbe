(** Lemmas: Butterworth low and high pass filters designed and run in binary64, against the ideal filter. *)
From Coq Require Import ZArith List Bool Reals Lra Lia.
From Coquelicot Require Import Coquelicot.
From Flocq Require Import IEEE754.BinarySingleNaN.
From Verif Require Import Num Outcome Types Biquad State Cascade PoleFilter Float64 FloatSpec FloatProofs FloatLemmas Stream SigSpec StabProofs
  RoundSpec RoundProofs RoundRun RoundLemmas DblSpec DblProofs DblLemmas LayoutProofs BuildProofs BuildAny BwDblSpec CplxDbl BwDbl BwDbl2 BwDbl3 BwDblLemmas BwExact BwScale BwDblFinal BwScaleLemmas ChainSpec ChainLemmas.
Import ListNotations.
Local Open Scope R_scope.

(** ** gains *)
Lemma pair_gain t c : 0 < t -> -1 <= c < 0 -> let d := 1 + t ^ 2 - 2 * t * c in
  rec_gain (2 * (t ^ 2 - 1) / d) ((1 + t ^ 2 + 2 * t * c) / d) ((1 + (1 + t ^ 2) / (2 * t * - c)) ^ 2).
Proof.
  intros Ht Hc d. assert (TC : 0 < 2 * t * - c) by (apply Rmult_lt_0_compat; lra). assert (D : 0 < d) by (unfold d; pose proof (pow2_ge_0 t); lra). set (a1 := 2 * (t ^ 2 - 1) / d). set (a2 := (1 + t ^ 2 + 2 * t * c) / d).
  assert (K1 : 0 <= t * (1 + c)) by (apply Rmult_le_pos; lra). pose proof (pow2_ge_0 (1 - t)) as K2.
  assert (A2 : 0 <= a2) by (apply Rdiv_le_0_compat; [lra|exact D]).
  set (r := (1 + a2) / 2). assert (R : 1 - r = 2 * t * - c / d) by (unfold r, a2, d in *; field; lra).
  assert (Q : 0 < 2 * t * - c / d) by (apply Rdiv_lt_0_compat; lra).
  replace ((1 + (1 + t ^ 2) / (2 * t * - c)) ^ 2) with (/ (1 - r) ^ 2).
  2: { rewrite R. unfold d in *. field. repeat split; nra. }
  apply gain_within; [|lra]. apply jury_within; [unfold r; lra| |].
  - rewrite Rabs_pos_eq by exact A2. unfold r. pose proof (pow2_ge_0 (1 - a2)). lra.
  - assert (S : a1 ^ 2 <= 4 * a2).
    { unfold a1, a2. apply Rmult_le_reg_r with (d ^ 2); [nra|]. replace ((2 * (t ^ 2 - 1) / d) ^ 2 * d ^ 2) with (4 * (t ^ 2 - 1) ^ 2) by (field; lra).
      replace (4 * ((1 + t ^ 2 + 2 * t * c) / d) * d ^ 2) with (4 * (1 + t ^ 2 + 2 * t * c) * d) by (field; lra). unfold d. assert (c ^ 2 <= 1) by nra. assert (t ^ 2 * c ^ 2 <= t ^ 2 * 1) by (apply Rmult_le_compat_l; [apply pow2_ge_0|assumption]). nra. }
    assert (P : 0 <= r * r + a2) by (pose proof (pow2_ge_0 r); lra). apply Rsqr_incr_0_var; [|exact P]. unfold Rsqr.
    replace (Rabs a1 * r * (Rabs a1 * r)) with (Rabs a1 ^ 2 * r ^ 2) by ring. rewrite pow2_abs.
    apply Rle_trans with (4 * a2 * r ^ 2); [apply Rmult_le_compat_r; [apply pow2_ge_0|exact S]|]. pose proof (pow2_ge_0 (r * r - a2)). nra.
Qed.
Lemma single_gain t : 0 < t -> rec_gain ((t - 1) / (t + 1)) 0 ((1 + (1 + t ^ 2) / (2 * t * - -1)) ^ 2).
Proof.
  intros Ht. set (r := (1 + t ^ 2) / (1 + t) ^ 2). assert (D : 0 < (1 + t) ^ 2) by nra.
  assert (R : 1 - r = 2 * t / (1 + t) ^ 2) by (unfold r; field; lra). assert (Q : 0 < 2 * t / (1 + t) ^ 2) by (apply Rdiv_lt_0_compat; lra).
  replace ((1 + (1 + t ^ 2) / (2 * t * - -1)) ^ 2) with (/ (1 - r) ^ 2) by (rewrite R; field; split; lra).
  assert (R0 : 0 < r) by (apply Rdiv_lt_0_compat; nra).
  apply gain_within; [|lra]. apply jury_within; [exact R0|rewrite Rabs_R0; nra|]. rewrite Rplus_0_r. apply Rmult_le_compat_r; [lra|].
  unfold r, Rdiv. rewrite Rabs_mult, (Rabs_pos_eq (/ _)) by (left; apply Rinv_0_lt_compat; lra).
  apply Rmult_le_reg_r with ((1 + t) ^ 2); [exact D|]. replace ((1 + t ^ 2) * / (1 + t) ^ 2 * (1 + t) ^ 2) with (1 + t ^ 2) by (field; lra).
  replace (Rabs (t - 1) * / (t + 1) * (1 + t) ^ 2) with (Rabs (t - 1) * (1 + t)) by (field; lra). unfold Rabs. destruct (Rcase_abs (t - 1)); nra.
Qed.
Lemma c66_gain hp f n i : 0 < f < 1 / 2 -> (i < bw_sections n)%nat -> rec_gain (i_a1 (bw_section hp f n i)) (i_a2 (bw_section hp f n i)) (bw_gain f n i).
Proof.
  intros Hf Hi. pose proof PI_RGT_0 as PP. assert (Ht : 0 < tan (PI * f)) by (apply tan_gt_0; nra). unfold bw_section, scaled. cbn [i_a1 i_a2]. unfold bw_ideal, bw_gain.
  destruct (Nat.ltb_spec i (n / 2)) as [L|L].
  - cbn [i_a1 i_a2]. apply pair_gain; [exact Ht|]. pose proof (angle_neg n i L). pose proof (COS_bound (bw_angle n i)). lra.
  - cbn [i_a1 i_a2]. apply single_gain. exact Ht.
Qed.
Lemma idb_ident m : identity_coeffs (idb (N := F64 m)).
Proof. apply spare_identity. left. reflexivity. Qed.
Lemma f_same_fin (x y : f64) : f_same x y -> FloatSpec.is_fin y -> FloatSpec.is_fin x /\ B2R x = B2R y.
Proof.
  unfold f_same, FloatSpec.is_fin. intros [E|[_ ->]] F; [|discriminate]. assert (Fx : is_finite x = true) by (destruct x as [s|s| |s mx ex Hx], y as [s'|s'| |s' my ey Hy]; try discriminate; try reflexivity; destruct s; discriminate || (destruct s'; discriminate)).
  split; [exact Fx|]. rewrite (Beqb_correct _ _ _ _ Fx F) in E. revert E. unfold Raux.Req_bool. destruct (Raux.Rcompare_spec (B2R x) (B2R y)); [discriminate|intros _; assumption|discriminate].
Qed.

Lemma c66_parts m (hp : bool) (q : params (F64 m)) n FO t : libm_design m -> libm_response m -> FloatSpec.is_fin (q_fc q : f64) ->
  / 2 ^ 14 <= B2R (q_fc q : f64) <= 1 / 2 - / 2 ^ 14 -> (1 <= n <= 24)%nat -> (Z.of_nat n <= FO)%Z ->
  let k := (Bw, if hp then HP else LP) in let f := B2R (q_fc q : f64) in
  bw_scale_error hp f n <= / 8 ->
  exists fl bs' d, filt_setupN (N := F64 m) k FO (Some (Z.of_nat n)) q (filt_init t k FO) = Ok fl tt /\
    fl_stages fl = bs' ++ repeat idb d /\ fl_states fl = repeat (st_init t) (length bs' + d) /\
    List.Forall fin_coeffs bs' /\ List.Forall2 stored_near bs' (bw_chain hp f n) /\ filt_numStages fl = Z.of_nat (length bs') /\ List.Forall (fun b : biquad (F64 m) => m_a0 b = fofZ 1) bs'.
Proof.
  intros HM HR Ff Hf HN HFO k f HE.
  destruct (bw_setup m HM q Ff Hf n ltac:(lia) ltac:(lia) FO HFO hp) as (p & bs & r & E & L & S & _ & C).
  destruct (c65 m hp q n FO HM HR Ff Hf HN HFO HE) as (p' & b & E' & I & B). cbv zeta in B. fold f in B.
  rewrite E in E'. inversion E'; subst p'. clear E'.
  set (sc := fdiv (fofZ 1) (ncabs (F64 m) r)) in *.
  assert (NSP : (1 <= bw_sections n)%nat). { unfold bw_sections. apply Nat.div_le_lower_bound; lia. }
  destruct bs as [|b0 bs]; [cbn [length] in L; lia|]. cbn [app scale_head] in C.
  assert (Eb : b = bq_applyScale (N := F64 m) sc b0).
  { rewrite C in I. change 0%Z with (Z.of_nat 0) in I. rewrite (index_at _ _ _ 0 (bq_applyScale (N := F64 m) sc b0)) in I; [inversion I; reflexivity|cbn [length]; lia|reflexivity]. }
  set (bs' := bq_applyScale (N := F64 m) sc b0 :: bs).
  assert (LB : length bs' = bw_sections n) by (unfold bs'; cbn [length] in *; exact L).
  assert (ML : (bw_sections n <= Z.to_nat (maxStagesOf (snd k) FO))%nat).
  { unfold bw_sections, k. assert (MS : maxStagesOf (snd (Bw, if hp then HP else LP)) FO = Z.quot (FO + 1) 2) by (destruct hp; reflexivity). rewrite MS, Z.quot_div_nonneg by lia.
    rewrite <- (Nat2Z.id ((n + 1) / 2)). apply Z2Nat.inj_le; try apply Z.div_pos; try lia. rewrite Nat2Z.inj_div, Nat2Z.inj_add. apply Z.div_le_mono; lia. }
  assert (FC : List.Forall fin_coeffs bs' /\ List.Forall2 stored_near bs' (bw_chain hp f n)).
  { assert (H : forall i x, nth_error bs' i = Some x -> fin_coeffs x /\
      stored_near x (DSect (bw_section hp f n i) (bw_gain f n i) (bw_error f) (if Nat.eqb i 0 then bw_scale_error hp f n * bw_scale hp f n else 0))).
    { intros i x Ex. destruct i as [|i].
      - inversion Ex; subst x. destruct (S 0%nat b0 eq_refl) as ((F1 & F2 & _) & _ & A1 & A2 & _ & _). rewrite Eb in B. destruct B as (B1 & B2 & B3 & B4 & B5 & B6).
        split; [repeat split; assumption|]. unfold stored_near, bw_section, scaled. cbn [d_id d_ea d_eb Nat.eqb i_a1 i_a2 i_b0 i_b1 i_b2]. repeat split; assumption.
      - cbn [bs' nth_error] in Ex. destruct (S (Datatypes.S i) x Ex) as (F & _ & A1 & A2 & _ & B0 & B1 & B2). split; [exact F|].
        unfold stored_near, bw_section, scaled. cbn [d_id d_ea d_eb Nat.eqb i_a1 i_a2 i_b0 i_b1 i_b2]. rewrite !Rmult_1_r.
        split; [exact A1|]. split; [exact A2|]. fold f in B0, B1, B2. rewrite B0, B1, B2. rewrite !Rminus_diag_eq, Rabs_R0 by reflexivity. lra. }
    split.
    - apply List.Forall_forall. intros x Hx. apply In_nth_error in Hx. destruct Hx as [i Hi]. apply (H i x Hi).
    - apply F2_nth; [unfold bw_chain; rewrite map_length, seq_length; exact LB|]. intros i x y Ex Ey.
      assert (Hi : (i < bw_sections n)%nat) by (rewrite <- LB; apply nth_error_Some; congruence).
      unfold bw_chain in Ey. rewrite nth_error_map, (nth_error_nth' _ 0%nat), seq_nth in Ey by (try rewrite seq_length; exact Hi). cbn [option_map Nat.add] in Ey. inversion Ey; subst y.
      apply H. exact Ex. }
  exists (MkFilt p (repeat (st_init t) (Z.to_nat (maxStagesOf (snd k) FO)))), bs', (Z.to_nat (maxStagesOf (snd k) FO) - length bs')%nat.
  split.
  { unfold filt_setupN, on_pf, zoom, filt_init. cbn [fl_pf fl_states]. fold k in E. rewrite E. reflexivity. }
  split; [unfold fl_stages; cbn [fl_pf]; rewrite C; cbn [c_stages]; unfold bs'; cbn [app length]; reflexivity|].
  split; [cbn [fl_states]; f_equal; lia|]. split; [apply FC|]. split; [apply FC|].
  split; [unfold filt_numStages; cbn [fl_pf]; rewrite C; reflexivity|].
  apply List.Forall_forall. intros x Hx. apply In_nth_error in Hx. destruct Hx as [[|i] Hi].
  - inversion Hi; subst x. exact (proj1 (proj2 (S 0%nat b0 eq_refl))).
  - exact (proj1 (proj2 (S (Datatypes.S i) x Hi))).
Qed.
(** a filter whose first stages are near a chain of ideal sections and whose other stages pass the signal through *)
Lemma chain_out m (fl : filt (F64 m)) bs' d t (l : list dsect) : fl_stages fl = bs' ++ repeat idb d -> fl_states fl = repeat (st_init t) (length bs' + d) ->
  List.Forall fin_coeffs bs' -> List.Forall2 stored_near bs' l ->
  forall X (xs : list f64) zs, 0 <= X -> chain_ok l X -> List.Forall (fun x => FloatSpec.is_fin x /\ Rabs (B2R x) <= X) xs ->
  ideal_out (map d_id l) (map B2R xs) zs ->
  let ys := snd (filt_run fl xs) : list f64 in
  length ys = length xs /\ List.Forall (fun y => FloatSpec.is_fin y /\ Rabs (B2R y) <= chain_bound l X) ys /\
  List.Forall2 (fun y z => Rabs (B2R y - z) <= chain_error l X 0) ys zs.
Proof.
  intros ST SS FC SN X xs zs HX OK Hxs Hz. rewrite filt_run_snd. unfold fl_cs. rewrite ST, SS.
  destruct (c66_chain m bs' l t xs X zs FC SN OK HX Hxs Hz) as (L1 & L2 & O & Er).
  assert (ID : List.Forall identity_coeffs (repeat (idb (N := F64 m)) d)). { apply List.Forall_forall. intros x Hx. apply repeat_spec in Hx. subst x. apply idb_ident. }
  assert (FN : List.Forall FloatSpec.is_fin (snd (cs_run (MkCStages bs' (repeat (st_init t) (length bs'))) xs) : list f64)) by (eapply List.Forall_impl; [|exact O]; intros y [Y _]; exact Y).
  pose proof (c09_stages m bs' _ t d xs ID FN) as Q.
  set (ys := snd (cs_run (MkCStages (bs' ++ repeat idb d) (repeat (st_init t) (length bs' + d))) xs)) in *.
  set (ws := snd (cs_run (MkCStages bs' (repeat (st_init t) (length bs'))) xs)) in *. clearbody ys ws. clear -Q L1 O Er.
  change (list (T (F64 m))) with (list f64) in ys, ws.
  split; [rewrite <- L1; clear -Q; induction Q; simpl; congruence|]. clear L1. revert zs O Er. induction Q as [|y w ys ws H Q IH]; intros zs O Er.
  - inversion Er; subst. split; constructor.
  - inversion Er as [|? z ? zs' H1 H2]; subst. inversion O as [|? ? [O1 O2] O3]; subst. destruct (f_same_fin _ _ H O1) as [Y1 Y2]. destruct (IH zs' O3 H2) as [I1 I2].
    split; constructor; try assumption; [split; [exact Y1|]|]; rewrite Y2; assumption.
Qed.
Lemma c66 m (hp : bool) (q : params (F64 m)) n FO t : libm_design m -> libm_response m -> FloatSpec.is_fin (q_fc q : f64) ->
  / 2 ^ 14 <= B2R (q_fc q : f64) <= 1 / 2 - / 2 ^ 14 -> (1 <= n <= 24)%nat -> (Z.of_nat n <= FO)%Z ->
  let k := (Bw, if hp then HP else LP) in let f := B2R (q_fc q : f64) in
  bw_scale_error hp f n <= / 8 ->
  exists fl, filt_setupN (N := F64 m) k FO (Some (Z.of_nat n)) q (filt_init t k FO) = Ok fl tt /\
    forall X (xs : list f64) zs, 0 <= X -> chain_ok (bw_chain hp f n) X -> List.Forall (fun x => FloatSpec.is_fin x /\ Rabs (B2R x) <= X) xs ->
    ideal_out (bw_cascade hp f n) (map B2R xs) zs ->
    let ys := snd (filt_run fl xs) : list f64 in
    length ys = length xs /\ List.Forall (fun y => FloatSpec.is_fin y /\ Rabs (B2R y) <= chain_bound (bw_chain hp f n) X) ys /\
    List.Forall2 (fun y z => Rabs (B2R y - z) <= chain_error (bw_chain hp f n) X 0) ys zs.
Proof.
  intros HM HR Ff Hf HN HFO k f HE. destruct (c66_parts m hp q n FO t HM HR Ff Hf HN HFO HE) as (fl & bs' & d & E & ST & SS & FC & SN & _ & _). exists fl. split; [exact E|].
  intros X xs zs HX OK Hxs Hz. apply (chain_out m fl bs' d t (bw_chain hp f n) ST SS FC SN X xs zs HX OK Hxs).
  assert (MI : map d_id (bw_chain hp f n) = bw_cascade hp f n) by (unfold bw_chain, bw_cascade; rewrite map_map; apply map_ext; reflexivity). rewrite MI. exact Hz.
Qed.

(** ** an example: third order low pass at a quarter of the sampling rate, inputs in [-1,1] *)
Lemma ex_chain : bw_chain false (1 / 4) 3 =
  [DSect (Ideal 0 (1 / 3) (1 / 6) (1 / 3) (1 / 6)) 9 (/ 2 ^ 43) (16 / 2 ^ 43); DSect (Ideal 0 0 1 1 0) 4 (/ 2 ^ 43) 0].
Proof.
  destruct ex_bw3 as (_ & _ & NS & SC & _).
  assert (T : tan (PI * (1 / 4)) = 1) by (replace (PI * (1 / 4)) with (PI / 4) by field; apply tan_PI4).
  assert (A : cos (bw_angle 3 0) = - (1 / 2)).
  { unfold bw_angle. replace (PI / 2 + (2 * INR 0 + 1) * PI / (2 * INR 3)) with (PI - PI / 3) by (cbn; field). rewrite Rtrigo_facts.cos_pi_minus, cos_PI3. lra. }
  assert (E : bw_error (1 / 4) = / 2 ^ 43) by (unfold bw_error; lra).
  assert (SE : bw_scale_error false (1 / 4) 3 = 96 / 2 ^ 43). { unfold bw_scale_error. rewrite T, E, Rinv_1. replace (INR 3) with 3 by (simpl; ring). lra. }
  unfold bw_chain. rewrite NS. cbn [seq map Nat.eqb]. rewrite SC, SE, E. unfold bw_section, scaled. rewrite SC. unfold bw_ideal, bw_gain. rewrite T.
  replace (3 / 2)%nat with 1%nat by reflexivity. cbn [Nat.ltb Nat.leb Nat.eqb]. cbn [i_a1 i_a2 i_b0 i_b1 i_b2]. rewrite A.
  f_equal; [f_equal; [f_equal|..]|f_equal; f_equal; [f_equal|]]; try lra; field.
Qed.
Lemma ex_c66 : libm_design design_libm /\ libm_response design_libm /\ B2R (fnorm 1 (-2)) = 1 / 4 /\ bw_scale_error false (1 / 4) 3 <= / 8 /\
  chain_ok (bw_chain false (1 / 4) 3) 1 /\ chain_error (bw_chain false (1 / 4) 3) 1 0 <= 1 / 10 ^ 8.
Proof.
  split; [apply design_libm_ok|]. split; [apply design_libm_ok|].
  split. { rewrite (sf_val (fnorm 1 (-2)) _ (ltac:(vm_compute; reflexivity) : _ = SpecFloat.S754_finite false 4503599627370496 (-54))). unfold SF2R, Defs.F2R. cbn. lra. }
  assert (T : tan (PI * (1 / 4)) = 1) by (replace (PI * (1 / 4)) with (PI / 4) by field; apply tan_PI4).
  split. { unfold bw_scale_error, bw_error. rewrite T, Rinv_1. replace (INR 3) with 3 by (simpl; ring). lra. }
  pose proof (c66_gain false (1 / 4) 3 0 ltac:(lra) ltac:(vm_compute; lia)) as G0. pose proof (c66_gain false (1 / 4) 3 1 ltac:(lra) ltac:(vm_compute; lia)) as G1.
  set (pr := fun j l => nth j l (DSect (Ideal 0 0 0 0 0) 0 0 0)).
  pose proof (f_equal (pr 0%nat) ex_chain) as C0. pose proof (f_equal (pr 1%nat) ex_chain) as C1.
  change (pr 0%nat (bw_chain false (1 / 4) 3)) with (DSect (bw_section false (1 / 4) 3 0) (bw_gain (1 / 4) 3 0) (bw_error (1 / 4)) (bw_scale_error false (1 / 4) 3 * bw_scale false (1 / 4) 3)) in C0.
  change (pr 1%nat (bw_chain false (1 / 4) 3)) with (DSect (bw_section false (1 / 4) 3 1) (bw_gain (1 / 4) 3 1) (bw_error (1 / 4)) 0) in C1.
  apply (f_equal (fun d => (d_id d, d_G d))) in C0. apply (f_equal (fun d => (d_id d, d_G d))) in C1. cbn [pr nth d_id d_G] in C0, C1.
  pose proof (f_equal fst C0) as C2. pose proof (f_equal snd C0) as C3. pose proof (f_equal fst C1) as C4. pose proof (f_equal snd C1) as C5. cbn [fst snd] in C2, C3, C4, C5.
  rewrite C2, C3 in G0. rewrite C4, C5 in G1. cbn [i_a1 i_a2] in G0, G1. clear C0 C1 C2 C3 C4 C5 pr. rewrite ex_chain.
  pose proof g_pos as GP. assert (GS : g_abs <= / 2 ^ 60) by (unfold g_abs; apply Rinv_le_contravar; [apply pow_lt; lra|apply Rle_pow; [lra|lia]]).
  assert (B9 : 2 ^ 60 <= 2 ^ 900) by (apply Rle_pow; [lra|lia]).
  cbn [chain_ok chain_error]. unfold d_ok, d_out, d_err, d_A, d_B, i_B. cbn [d_id d_G d_ea d_eb i_a1 i_a2 i_b0 i_b1 i_b2].
  rewrite !Rabs_R0, !Rabs_R1, !(Rabs_pos_eq (1 / 3)), !(Rabs_pos_eq (1 / 6)) by lra. unfold g_rel.
  set (ga := g_abs) in *. clearbody ga. set (P := 2 ^ 900) in *. clearbody P.
  split; [split; [split; [exact G0|]|split; [split; [exact G1|]|exact I]]|]; lra.
Qed.
Lemma gain_one : rec_gain 0 0 1.
Proof.
  intros y W n HW H. specialize (H n (le_n n)). unfold prev at 1 in H. rewrite Nat.sub_0_r in H. cbn [Nat.leb] in H.
  replace (y n + 0 * prev y n 1 + 0 * prev y n 2) with (y n) in H by ring. lra.
Qed.
Lemma ex_c66_cascade : let d := DSect (Ideal 0 0 1 0 0) 1 (1 / 1000) (1 / 1000) in
  fin_coeffs (biquad0 : biquad (F64 design_libm)) /\ stored_near (biquad0 : biquad (F64 design_libm)) d /\ chain_ok [d] 1.
Proof.
  intros d. split; [repeat split; reflexivity|]. split.
  - unfold stored_near, biquad0. cbn [d d_id d_ea d_eb i_a1 i_a2 i_b0 i_b1 i_b2 m_a1 m_a2 m_b0 m_b1 m_b2 nofZ F64].
    rewrite (proj1 (fofZ_val 1 ltac:(lia))), (proj1 (fofZ_val 0 ltac:(lia))), !Rminus_diag_eq, Rabs_R0 by reflexivity. lra.
  - cbn [chain_ok d]. split; [|exact I]. unfold d_ok, d_A, d_B, i_B, d. cbn [d_id d_G d_ea d_eb i_a1 i_a2 i_b0 i_b1 i_b2]. rewrite !Rabs_R0, Rabs_R1.
    assert (B9 : 2 ^ 60 <= 2 ^ 900) by (apply Rle_pow; [lra|lia]). set (P := 2 ^ 900) in *. clearbody P. split; [exact gain_one|]. lra.
Qed.

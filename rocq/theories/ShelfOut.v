(** Lemmas: Butterworth shelves designed and run in binary64, against the ideal shelf; their response (). *)
From Coq Require Import ZArith List Bool Reals Lra Lia.
From Coquelicot Require Import Coquelicot.
From Flocq Require Import Core.Raux IEEE754.BinarySingleNaN.
From Verif Require Import Num Outcome Types Biquad State Cascade PoleFilter History CallSpec Exact RealNum Float64 FloatSpec FloatProofs FloatLemmas Stream SigSpec StabProofs
  RoundSpec RoundProofs RoundRun RoundLemmas DblSpec DblProofs DblLemmas LayoutProofs BuildProofs BuildAny BwDblSpec CplxDbl BwDbl BwDbl2 BwDbl3 BwDblLemmas BwExact BwScale BwDblFinal BwScaleLemmas ChainSpec ChainLemmas BwOut
  RbjShProofs RelDbl ChCoefSpec ChDblSpec ChDbl ChDbl2 ChDbl3 ChDbl4 ChDblLemmas ChDblEx ChScaleSpec ChScale ChOut RespProofs PZSpec ChebSpec DesignSpec DesignLemmas DesignFinal ShelfSpec BandLemmas
  RespDblSpec RespDbl RespDblLemmas RespOutSpec RespOut RespOut2 Contract ContractCh CallLemmas ReuseLemmas BandFinal ShelfDblSpec ShelfExact ShelfSetup ShelfDbl ShelfDbl2 ShelfScale.
Import ListNotations.
Local Open Scope R_scope.

Lemma c85_gain hs f ga n i : 0 < f < 1 / 2 -> (1 <= n)%nat -> (i < bw_sections n)%nat ->
  rec_gain (i_a1 (sh_section hs f ga n i)) (i_a2 (sh_section hs f ga n i)) (sh_gain_bound hs f ga n i).
Proof.
  intros Hf Hn Hi. unfold sh_section, scaled. cbn [i_a1 i_a2]. unfold sh_ideal, sh_gain_bound. cbn zeta.
  pose proof PI_RGT_0 as PP. assert (T : 0 < tan (PI * f)) by (apply tan_gt_0; nra). set (t := tan (PI * f)) in *. pose proof (sh_g_pos n ga) as GP. set (g := sh_g n ga) in *.
  set (u := if hs then / t else t). assert (U : 0 < u) by (unfold u; destruct hs; [apply Rinv_0_lt_compat|]; exact T).
  assert (ZP : (if hs then -1 else 1) = 1 \/ (if hs then -1 else 1) = -1) by (destruct hs; lra). assert (X : 0 < u / g) by (apply Rdiv_lt_0_compat; assumption).
  destruct (Nat.ltb_spec i (n / 2)) as [L|L].
  - pose proof (angle_pos n i L) as AP. pose proof (SIN_bound (ch_angle n i)) as AB. set (s := sin (ch_angle n i)) in *. cbn [i_a1 i_a2]. unfold bl_pair. cbn [fst snd]. fold u.
    assert (XS : 0 < u / g * s) by (apply Rmult_lt_0_compat; assumption).
    assert (XS2 : (u / g * s) ^ 2 <= (u / g) ^ 2).
    { rewrite Rpow_mult_distr. rewrite <- (Rmult_1_r ((u / g) ^ 2)) at 2. apply Rmult_le_compat_l; [apply pow2_ge_0|]. rewrite <- (pow1 2). apply pow_incr. lra. }
    pose proof (pair_gain2 ((u / g) ^ 2) (u / g * s) (if hs then -1 else 1) XS XS2 ZP) as PG. cbn zeta in PG.
    replace (u ^ 2 * / g ^ 2) with ((u / g) ^ 2) by (field; lra). replace (2 * u * - (s / g)) with (- (2 * (u / g * s))) by (field; lra).
    replace (1 - - (2 * (u / g * s)) + (u / g) ^ 2) with (1 + 2 * (u / g * s) + (u / g) ^ 2) by ring. replace (1 + - (2 * (u / g * s)) + (u / g) ^ 2) with (1 - 2 * (u / g * s) + (u / g) ^ 2) by ring.
    replace (2 * (u / g) * s) with (2 * (u / g * s)) by ring. exact PG.
  - cbn [i_a1 i_a2]. unfold bl_one. fold u. replace (u * - / g) with (- (u / g)) by (unfold Rdiv; ring). rewrite Rmult_1_r. exact (single_gain2 (u / g) _ X ZP).
Qed.

Lemma c85_parts m (hs : bool) (q : params (F64 m)) n FO t : libm_design m -> libm_response m -> libm_bwshelf m -> FloatSpec.is_fin (q_fc q : f64) -> FloatSpec.is_fin (q_gain q : f64) ->
  sh_cut_ok (B2R (q_fc q : f64)) -> sh_gain_ok (B2R (q_gain q : f64)) -> (1 <= n <= 24)%nat -> (Z.of_nat n <= FO)%Z ->
  let k := (Bw, if hs then HSh else LSh) in let f := B2R (q_fc q : f64) in let ga := B2R (q_gain q : f64) in
  sh_scale_error hs f ga n <= / 8 ->
  exists fl bs' d, filt_setupN (N := F64 m) k FO (Some (Z.of_nat n)) q (filt_init t k FO) = Ok fl tt /\
    fl_stages fl = bs' ++ repeat idb d /\ fl_states fl = repeat (st_init t) (length bs' + d) /\
    List.Forall fin_coeffs bs' /\ List.Forall2 stored_near bs' (sh_chain hs f ga n) /\ filt_numStages fl = Z.of_nat (length bs') /\ List.Forall (fun b : biquad (F64 m) => m_a0 b = fofZ 1) bs'.
Proof.
  intros HM HR HC Ff Fd Hf Hd HN HFO k f ga HE.
  destruct (c84_setup m HM HR HC q Ff Fd Hf Hd n HN FO HFO hs HE) as (p & bs & sc & E & L & S & C & _ & _).
  destruct (c84 m hs q n FO HM HR HC Ff Fd Hf Hd HN HFO HE) as (p' & b & E' & I & B). cbv zeta in B. fold f ga in B.
  rewrite E in E'. inversion E'; subst p'. clear E'. destruct (nsec n HN) as [NS _].
  destruct bs as [|b0 bs]; [cbn [length] in L; lia|]. cbn [app scale_head] in C.
  assert (Eb : b = bq_applyScale (N := F64 m) sc b0).
  { rewrite C in I. change 0%Z with (Z.of_nat 0) in I. rewrite (index_at _ _ _ 0 (bq_applyScale (N := F64 m) sc b0)) in I; [inversion I; reflexivity|cbn [length]; lia|reflexivity]. }
  set (bs' := bq_applyScale (N := F64 m) sc b0 :: bs).
  assert (LB : length bs' = bw_sections n) by (unfold bs'; cbn [length] in *; exact L).
  assert (ML : (bw_sections n <= Z.to_nat (maxStagesOf (snd k) FO))%nat).
  { unfold bw_sections, k. assert (MS : maxStagesOf (snd (Bw, if hs then HSh else LSh)) FO = Z.quot (FO + 1) 2) by (destruct hs; reflexivity). rewrite MS, Z.quot_div_nonneg by lia.
    rewrite <- (Nat2Z.id ((n + 1) / 2)). apply Z2Nat.inj_le; try apply Z.div_pos; try lia. rewrite Nat2Z.inj_div, Nat2Z.inj_add. apply Z.div_le_mono; lia. }
  set (ch := fun i => DSect (sh_section hs f ga n i) (sh_gain_bound hs f ga n i) (sh_error f)
      (if Nat.eqb i 0 then sh_scale_error hs f ga n * sh_scale hs f ga n else sh_error f)).
  assert (FC : List.Forall fin_coeffs bs' /\ List.Forall2 stored_near bs' (sh_chain hs f ga n)).
  { assert (EL : 0 < sh_error f) by apply (serr_T m q Hf).
    assert (H : forall i x, nth_error bs' i = Some x -> fin_coeffs x /\ stored_near x (ch i)).
    { intros i x Ex. destruct i as [|i].
      - inversion Ex; subst x. destruct (S 0%nat b0 eq_refl) as ((F1 & F2 & _) & _ & A1 & A2 & _ & _). rewrite Eb in B. destruct B as (B1 & B2 & B3 & B4 & B5 & B6).
        split; [repeat split; assumption|]. unfold stored_near, ch, sh_section, scaled. cbn [d_id d_ea d_eb Nat.eqb i_a1 i_a2 i_b0 i_b1 i_b2]. repeat split; assumption.
      - cbn [bs' nth_error] in Ex. destruct (S (Datatypes.S i) x Ex) as (F & _ & A1 & A2 & _ & B0 & B1 & B2). split; [exact F|].
        assert (Hi : (Datatypes.S i < bw_sections n)%nat) by (rewrite <- L; cbn [length]; assert (i < length bs)%nat by (apply nth_error_Some; congruence); lia).
        destruct (sec_tame m q Hf Hd n HN hs HE _ Hi) as [(_ & _ & I3 & _) _].
        unfold stored_near, ch, sh_section, scaled. cbn [d_id d_ea d_eb Nat.eqb i_a1 i_a2 i_b0 i_b1 i_b2]. rewrite !Rmult_1_r.
        split; [exact A1|]. split; [exact A2|]. fold f ga in B1, B2, I3. split; [rewrite B0, I3, Rminus_eq_0, Rabs_R0; lra|]. split; [exact B1|exact B2]. }
    split.
    - apply List.Forall_forall. intros x Hx. apply In_nth_error in Hx. destruct Hx as [i Hi]. apply (H i x Hi).
    - apply F2_nth; [unfold sh_chain; rewrite map_length, seq_length; exact LB|]. intros i x y Ex Ey.
      assert (Hi : (i < bw_sections n)%nat) by (rewrite <- LB; apply nth_error_Some; congruence).
      unfold sh_chain in Ey. rewrite nth_error_map, (nth_error_nth' _ 0%nat), seq_nth in Ey by (try rewrite seq_length; exact Hi). cbn [option_map Nat.add] in Ey. inversion Ey; subst y.
      apply H. exact Ex. }
  exists (MkFilt p (repeat (st_init t) (Z.to_nat (maxStagesOf (snd k) FO)))), bs', (Z.to_nat (maxStagesOf (snd k) FO) - length bs')%nat.
  split.
  { unfold filt_setupN, on_pf, zoom, filt_init. cbn [fl_pf fl_states]. fold k in E. rewrite E. reflexivity. }
  split; [unfold fl_stages; cbn [fl_pf]; rewrite C; cbn [c_stages]; unfold bs'; cbn [app length]; reflexivity|].
  split; [cbn [fl_states]; f_equal; lia|]. split; [apply FC|]. split; [apply FC|].
  split; [unfold filt_numStages; cbn [fl_pf]; rewrite C; reflexivity|].
  apply List.Forall_forall. intros x Hx. apply In_nth_error in Hx. destruct Hx as [[|i] Hi].
  - inversion Hi; subst x. exact (proj1 (proj2 (S 0%nat b0 eq_refl))).
  - exact (proj1 (proj2 (S (Datatypes.S i) x Hi))).
Qed.
Lemma sh_ids hs f ga n : map d_id (sh_chain hs f ga n) = sh_cascade hs f ga n.
Proof. unfold sh_chain, sh_cascade. rewrite map_map. apply map_ext. reflexivity. Qed.
Lemma c85 m (hs : bool) (q : params (F64 m)) n FO t : libm_design m -> libm_response m -> libm_bwshelf m -> FloatSpec.is_fin (q_fc q : f64) -> FloatSpec.is_fin (q_gain q : f64) ->
  sh_cut_ok (B2R (q_fc q : f64)) -> sh_gain_ok (B2R (q_gain q : f64)) -> (1 <= n <= 24)%nat -> (Z.of_nat n <= FO)%Z ->
  let k := (Bw, if hs then HSh else LSh) in let f := B2R (q_fc q : f64) in let ga := B2R (q_gain q : f64) in let l := sh_chain hs f ga n in
  sh_scale_error hs f ga n <= / 8 ->
  exists fl, filt_setupN (N := F64 m) k FO (Some (Z.of_nat n)) q (filt_init t k FO) = Ok fl tt /\
    forall X (xs : list f64) zs, 0 <= X -> chain_ok l X -> List.Forall (fun x => FloatSpec.is_fin x /\ Rabs (B2R x) <= X) xs ->
    ideal_out (sh_cascade hs f ga n) (map B2R xs) zs ->
    let ys := snd (filt_run fl xs) : list f64 in
    length ys = length xs /\ List.Forall (fun y => FloatSpec.is_fin y /\ Rabs (B2R y) <= chain_bound l X) ys /\
    List.Forall2 (fun y z => Rabs (B2R y - z) <= chain_error l X 0) ys zs.
Proof.
  intros HM HR HC Ff Fd Hf Hd HN HFO k f ga l HE. destruct (c85_parts m hs q n FO t HM HR HC Ff Fd Hf Hd HN HFO HE) as (fl & bs' & d & E & ST & SS & FC & SN & _ & _). exists fl. split; [exact E|].
  intros X xs zs HX OK Hxs Hz. apply (chain_out m fl bs' d t l ST SS FC SN X xs zs HX OK Hxs). unfold l. rewrite sh_ids. exact Hz.
Qed.
Lemma c85_c m (hs : bool) (q : params (F64 m)) n FO t : libm_design m -> libm_response m -> libm_bwshelf m -> FloatSpec.is_fin (q_fc q : f64) -> FloatSpec.is_fin (q_gain q : f64) ->
  sh_cut_ok (B2R (q_fc q : f64)) -> sh_gain_ok (B2R (q_gain q : f64)) -> (1 <= n <= 24)%nat -> (Z.of_nat n <= FO)%Z ->
  let k := (Bw, if hs then HSh else LSh) in let f := B2R (q_fc q : f64) in let ga := B2R (q_gain q : f64) in let l := sh_chain hs f ga n in
  sh_scale_error hs f ga n <= / 8 ->
  exists fl, filt_setupN (N := F64 m) k FO (Some (Z.of_nat n)) q (filt_init t k FO) = Ok fl tt /\
    forall X (xs ys : list f64) zs, 0 <= X -> chain_ok l X -> List.Forall (fun x => FloatSpec.is_fin x /\ Rabs (B2R x) <= X) xs ->
    ideal_out (sh_cascade hs f ga n) (map B2R xs) zs -> c_run (fl_stages fl) (fl_states fl) xs ys ->
    length ys = length xs /\ List.Forall (fun y => FloatSpec.is_fin y /\ Rabs (B2R y) <= chain_bound l X) ys /\
    List.Forall2 (fun y z => Rabs (B2R y - z) <= chain_error l X 0) ys zs.
Proof.
  intros HM HR HC Ff Fd Hf Hd HN HFO k f ga l HE. destruct (c85_parts m hs q n FO t HM HR HC Ff Fd Hf Hd HN HFO HE) as (fl & bs' & d & E & ST & SS & FC & SN & _ & _). exists fl. split; [exact E|].
  intros X xs ys zs HX OK Hxs Hz R. rewrite ST, SS in R. apply (chain_c m bs' d t l X xs ys zs FC SN HX OK Hxs); [unfold l; rewrite sh_ids; exact Hz|exact R].
Qed.

(** ** the scale factor is at most the gain *)
Lemma sh_factor (hs : bool) f ga n i : 0 < tan (PI * f) -> let M := Rmax 1 (sh_g n ga) in
  0 < peak_inv (negb hs) (sh_ideal hs f ga n i) <= M ^ (if Nat.ltb i (n / 2) then 4 else 2).
Proof.
  intros T M. pose proof (sh_g_pos n ga) as G0. unfold peak_inv, sh_ideal. cbn zeta. set (g := sh_g n ga) in *. set (t := tan (PI * f)) in *.
  assert (ZE : (if negb hs then -1 else 1) = if hs then 1 else -1) by (destruct hs; reflexivity). rewrite ZE. clear ZE.
  set (u := if hs then / t else t). assert (U : 0 < u) by (unfold u; destruct hs; [apply Rinv_0_lt_compat|]; exact T).
  assert (GI : 0 < / g) by (apply Rinv_0_lt_compat; exact G0). assert (M1 : 1 <= M) by apply Rmax_l. assert (MG : g <= M) by apply Rmax_r.
  destruct (Nat.ltb_spec i (n / 2)) as [L|L].
  - pose proof (angle_pos n i L) as AP. set (s := sin (ch_angle n i)) in *. cbn [i_a1 i_a2 i_b0 i_b1 i_b2].
    destruct (bl_pair_peak hs t (- (s / g)) (/ g ^ 2) T ltac:(assert (0 < s / g) by (apply Rdiv_lt_0_compat; lra); lra) ltac:(left; apply Rinv_0_lt_compat, pow_lt; lra)) as [P1 P2].
    destruct (bl_pair_peak hs t (- (s * g)) (g ^ 2) T ltac:(assert (0 < s * g) by (apply Rmult_lt_0_compat; lra); lra) (pow2_ge_0 g)) as [Q1 Q2].
    cbn zeta in *. rewrite P1, Q1. fold u in P2, Q2 |- *. clear P1 Q1.
    replace (1 - 2 * u * - (s / g) + u ^ 2 * / g ^ 2) with ((g ^ 2 + 2 * (u * s) * g + u ^ 2) / g ^ 2) in * by (field; lra). replace (1 - 2 * u * - (s * g) + u ^ 2 * g ^ 2) with (1 + 2 * (u * s) * g + u ^ 2 * g ^ 2) in * by ring.
    assert (K : 0 < u * s) by (apply Rmult_lt_0_compat; assumption). set (w := u * s) in *. assert (G2 : 0 < g ^ 2) by (apply pow_lt; exact G0). assert (WG : 0 < w * g) by (apply Rmult_lt_0_compat; assumption). assert (U2 : 0 < u ^ 2) by (apply pow_lt; exact U).
    assert (D1 : 0 < g ^ 2 + 2 * w * g + u ^ 2) by lra. assert (D2 : 0 < 1 + 2 * w * g + u ^ 2 * g ^ 2) by (assert (0 < u ^ 2 * g ^ 2) by (apply Rmult_lt_0_compat; assumption); lra).
    match goal with |- 0 < ?e <= _ => replace e with ((1 + 2 * w * g + u ^ 2 * g ^ 2) * g ^ 2 / (g ^ 2 + 2 * w * g + u ^ 2)) by (field; repeat split; lra) end.
    split; [apply Rdiv_lt_0_compat; [apply Rmult_lt_0_compat; assumption|exact D1]|]. apply (proj2 (Rle_div_l _ (M ^ 4) _ D1)).
    assert (M2 : g ^ 2 <= M ^ 2) by (apply pow_incr; lra). assert (M0 : 1 <= M ^ 2) by (rewrite <- (pow1 2); apply pow_incr; lra). set (a := M ^ 2) in *. replace (M ^ 4) with (a * a) by (unfold a; ring). set (b := g ^ 2) in *.
    assert (AB : a * b <= a * a) by (apply Rmult_le_compat_l; lra). assert (A1 : a * 1 <= a * a) by (apply Rmult_le_compat_l; lra). assert (BB : b * b <= a * a) by (apply Rmult_le_compat; lra).
    assert (AA1 : b * 1 <= a * a * b) by (rewrite (Rmult_comm (a * a)); apply Rmult_le_compat_l; lra).
    assert (X1 : 2 * w * g * b <= 2 * w * g * (a * a)) by (apply Rmult_le_compat_l; [lra|]; lra). assert (X2 : u ^ 2 * (b * b) <= u ^ 2 * (a * a)) by (apply Rmult_le_compat_l; lra). lra.
  - cbn [i_a1 i_a2 i_b0 i_b1 i_b2]. destruct (bl_one_peak hs t (- / g) T ltac:(lra)) as [P1 P2]. destruct (bl_one_peak hs t (- g) T ltac:(lra)) as [Q1 Q2]. cbn zeta in *. rewrite !Rplus_0_r. rewrite P1, Q1. fold u in P2, Q2 |- *. clear P1 Q1.
    assert (UG : 0 < u * g) by (apply Rmult_lt_0_compat; assumption).
    match goal with |- 0 < ?e <= _ => replace e with ((1 + u * g) * g / (g + u)) by (field; repeat split; lra) end.
    split; [apply Rdiv_lt_0_compat; [apply Rmult_lt_0_compat; lra|lra]|]. assert (GU : 0 < g + u) by lra. apply (proj2 (Rle_div_l _ (M ^ 2) _ GU)).
    assert (M2 : g ^ 2 <= M ^ 2) by (apply pow_incr; lra). assert (M0 : 1 <= M ^ 2) by (rewrite <- (pow1 2); apply pow_incr; lra). set (a := M ^ 2) in *.
    assert (g * 1 <= g * a) by (apply Rmult_le_compat_l; lra). assert (u * g ^ 2 <= u * a) by (apply Rmult_le_compat_l; lra). lra.
Qed.
Lemma prod_bound (h : nat -> R) B : forall l, (forall i, In i l -> 0 < h i <= B) -> 0 < fold_right Rmult 1 (map h l) <= B ^ length l.
Proof.
  induction l as [|i l IH]; intros H; cbn [map fold_right length pow]; [lra|]. pose proof (H i (or_introl eq_refl)) as [H0 H1]. specialize (IH (fun j Hj => H j (or_intror Hj))).
  split; [apply Rmult_lt_0_compat; lra|apply Rmult_le_compat; lra].
Qed.
Lemma fold_prod_app l1 l2 : fold_right Rmult 1 (l1 ++ l2) = fold_right Rmult 1 l1 * fold_right Rmult 1 l2.
Proof. induction l1 as [|x l1 IH]; cbn [app fold_right]; [ring|rewrite IH; ring]. Qed.
Lemma Rmax_pow a k : 0 <= a -> Rmax 1 a ^ k = Rmax 1 (a ^ k).
Proof.
  intros A. destruct (Rle_dec 1 a) as [L|L].
  - rewrite (Rmax_right 1 a L). rewrite Rmax_right; [reflexivity|]. apply pow_R1_Rle. exact L.
  - rewrite (Rmax_left 1 a) by lra. rewrite pow1. rewrite Rmax_left; [reflexivity|]. rewrite <- (pow1 k). apply pow_incr. lra.
Qed.
Lemma sh_scale_le (hs : bool) f ga n : 0 < f < 1 / 2 -> (1 <= n)%nat -> 0 < sh_scale hs f ga n <= Rmax 1 (Rpower 10 (ga / 20)).
Proof.
  intros Hf Hn. pose proof PI_RGT_0 as PP. assert (T : 0 < tan (PI * f)) by (apply tan_gt_0; nra). pose proof (sh_g_pos n ga) as G0. set (M := Rmax 1 (sh_g n ga)).
  assert (GM : Rmax 1 (Rpower 10 (ga / 20)) = M ^ (2 * n)).
  { unfold M. rewrite Rmax_pow by lra. f_equal. unfold sh_g. rewrite <- Rpower_pow by apply exp_pos. rewrite Rpower_mult. f_equal. rewrite mult_INR. cbn [INR]. apply le_INR in Hn. cbn [INR] in Hn. field. lra. }
  rewrite GM. unfold sh_scale. set (h := fun i => peak_inv (negb hs) (sh_ideal hs f ga n i)).
  assert (SQ : seq 0 (bw_sections n) = seq 0 (n / 2) ++ (if Nat.odd n then [(n / 2)%nat] else [])).
  { unfold bw_sections. rewrite (half_up n). destruct (Nat.odd n); [rewrite seq_app; reflexivity|rewrite Nat.add_0_r, app_nil_r; reflexivity]. }
  rewrite SQ, map_app, fold_prod_app.
  destruct (prod_bound h (M ^ 4) (seq 0 (n / 2))) as [A1 A2].
  { intros i Hi. apply in_seq in Hi. pose proof (sh_factor hs f ga n i T) as F. cbn zeta in F. rewrite (proj2 (Nat.ltb_lt i (n / 2)) ltac:(lia)) in F. exact F. }
  rewrite seq_length, <- pow_mult in A2. set (P := fold_right Rmult 1 (map h (seq 0 (n / 2)))) in *.
  pose proof (Nat.div_mod n 2 ltac:(lia)) as DM.
  destruct (Nat.odd n) eqn:O.
  - cbn [map fold_right]. rewrite Rmult_1_r. pose proof (sh_factor hs f ga n (n / 2) T) as F. cbn zeta in F. rewrite Nat.ltb_irrefl in F. fold M in F. fold (h (n / 2)%nat) in F.
    split; [apply Rmult_lt_0_compat; lra|]. replace (2 * n)%nat with (4 * (n / 2) + 2)%nat; [rewrite pow_add; apply Rmult_le_compat; lra|].
    apply Nat.odd_spec in O. destruct O as [j O]. assert (n / 2 = j)%nat; [|lia]. rewrite O, Nat.mul_comm, Nat.div_add_l by lia. cbn. lia.
  - cbn [map fold_right]. rewrite Rmult_1_r. split; [lra|]. replace (2 * n)%nat with (4 * (n / 2))%nat; [exact A2|].
    assert (EV : Nat.even n = true) by (rewrite <- Nat.negb_odd, O; reflexivity). apply Nat.even_spec in EV. destruct EV as [j EV]. assert (n / 2 = j)%nat; [|lia]. rewrite EV, Nat.mul_comm. apply Nat.div_mul. lia.
Qed.

(** ** response of the ideal shelf *)
Section Ex.
  Notation XS := (X false).
  Lemma sh_xsetup (hs : bool) f ga n fl : (1 <= n)%nat -> in_int (2 * Z.of_nat n) = true -> 0 < f < 1 / 2 ->
    let k := (Bw, if hs then HSh else LSh) in let q := MkParams (N := XS) (XR f) (XR 0) (XR ga) (XR 0) in
    filt_setupN (N := XS) k (Z.of_nat n) (Some (Z.of_nat n)) q (filt_init DF1 k (Z.of_nat n)) = Ok fl tt -> stable_filter fl ->
    forall x, 0 <= x <= 1 / 2 -> cprod (map (i_den x) (sh_cascade hs f ga n)) <> 0%C /\ filt_response (N := XS) fl (XR x) = Val (xc (i_resp (sh_cascade hs f ga n) x)).
  Proof.
    intros Hn HI Hf k q E ST x Hx. destruct (shelf_exact hs q f ga n (Z.of_nat n) eq_refl eq_refl Hf Hn HI (Z.le_refl _)) as (p & E1 & E2 & E3).
    unfold filt_setupN, on_pf, zoom, filt_init in E. cbn [fl_pf fl_states] in E. unfold k in E. rewrite E1 in E. inversion E; subst fl.
    match type of ST with stable_filter ?F => exact (exact_resp F (bw_sections n) (sh_ideal hs f ga n) (fun i => if Nat.eqb i 0 then sh_scale hs f ga n else 1) x E2 E3 ST Hx) end.
  Qed.
  Lemma c85_ideal (hs : bool) f ga n : (1 <= n)%nat -> in_int (2 * Z.of_nat n) = true -> 0 < f < 1 / 2 ->
    let ds := sh_cascade hs f ga n in
    (forall x, 0 <= x <= 1 / 2 -> cprod (map (i_den x) ds) <> 0%C) /\
    (forall x, 0 < x < 1 / 2 -> Cmod (i_resp ds x) ^ 2 = shelf2 n ga (Some (lh_freq hs f x))) /\
    Cmod (i_resp ds f) ^ 2 = Rpower 10 (ga / 20) /\
    Cmod (i_resp ds (if hs then 1 / 2 else 0)) ^ 2 = Rpower 10 (ga / 10) /\
    Cmod (i_resp ds (if hs then 0 else 1 / 2)) ^ 2 = 1.
  Proof.
    intros Hn HI Hf ds. set (q := MkParams (N := XS) (XR f) (XR 0) (XR ga) (XR 0)).
    assert (RV : forall fl x m2 h, filt_response (N := XS) fl (XR x) = Val (xc h) -> responds fl x m2 -> Cmod h ^ 2 = m2).
    { intros fl x m2 h E (h' & E' & <-). rewrite E in E'. destruct h as [a b], h' as [a' b']. injection E' as Q1 Q2. rewrite Q1, Q2. reflexivity. }
    destruct hs.
    - destruct (c37_high DF1 n (Z.of_nat n) (Some (Z.of_nat n)) f ga q Hn (Z.le_refl _) HI eq_refl eq_refl Hf eq_refl) as (fl & E & ST & R1 & R2 & R3 & R4).
      pose proof (sh_xsetup true f ga n fl Hn HI Hf E ST) as L. fold ds in L.
      split; [intros x Hx; apply (L x Hx)|]. split; [intros x Hx; apply (RV fl x); [apply L; lra|apply R1; exact Hx]|]. split; [apply (RV fl f); [apply L; lra|exact R3]|]. split; [apply (RV fl (1 / 2)); [apply L; lra|exact R4]|apply (RV fl 0); [apply L; lra|exact R2]].
    - destruct (c37_low DF1 n (Z.of_nat n) (Some (Z.of_nat n)) f ga q Hn (Z.le_refl _) HI eq_refl eq_refl Hf eq_refl) as (fl & E & ST & R1 & R2 & R3 & R4).
      pose proof (sh_xsetup false f ga n fl Hn HI Hf E ST) as L. fold ds in L.
      split; [intros x Hx; apply (L x Hx)|]. split; [intros x Hx; apply (RV fl x); [apply L; lra|apply R1; lra]|]. split; [apply (RV fl f); [apply L; lra|exact R3]|]. split; [apply (RV fl 0); [apply L; lra|exact R2]|apply (RV fl (1 / 2)); [apply L; lra|exact R4]].
  Qed.
End Ex.
Lemma scaled_abs2 d s : i_b0 d = 1 -> Rabs (i_b1 d) <= 2 -> Rabs (i_b2 d) <= 1 -> 0 < s <= 64 -> s <= num_abs (scaled d s) <= 256.
Proof.
  intros B0 B1 B2 S. unfold num_abs, scaled. cbn [i_b0 i_b1 i_b2]. rewrite B0, !Rabs_mult, Rabs_R1, (Rabs_pos_eq s) by lra.
  pose proof (Rabs_pos (i_b1 d)). pose proof (Rabs_pos (i_b2 d)). split; [nra|]. assert (Rabs (i_b1 d) * s <= 2 * 64) by (apply Rmult_le_compat; lra). assert (Rabs (i_b2 d) * s <= 1 * 64) by (apply Rmult_le_compat; lra). lra.
Qed.
Lemma gain36 ga : ga <= 36 -> Rmax 1 (Rpower 10 (ga / 20)) <= 64.
Proof.
  intros H. apply Rmax_lub; [lra|]. apply Rle_trans with (Rpower 10 (9 / 5)); [apply Rle_Rpower; lra|].
  assert (E : Rpower 10 (9 / 5) ^ 5 = 10 ^ 9). { rewrite <- Rpower_pow by apply exp_pos. rewrite Rpower_mult. replace (9 / 5 * INR 5) with (INR 9) by (cbn [INR]; field). apply Rpower_pow. lra. }
  assert (P : 0 < Rpower 10 (9 / 5)) by apply exp_pos. set (y := Rpower 10 (9 / 5)) in *. destruct (Rle_lt_dec y 64) as [L|L]; [exact L|]. exfalso. assert (64 ^ 5 <= y ^ 5) by (apply pow_incr; lra). lra.
Qed.
Lemma c85_resp m (hs : bool) (q : params (F64 m)) n FO t : libm_design m -> libm_response m -> libm_bwshelf m -> FloatSpec.is_fin (q_fc q : f64) -> FloatSpec.is_fin (q_gain q : f64) ->
  sh_cut_ok (B2R (q_fc q : f64)) -> -80 <= B2R (q_gain q : f64) <= 36 -> (1 <= n <= 24)%nat -> (Z.of_nat n <= FO)%Z ->
  let k := (Bw, if hs then HSh else LSh) in let f := B2R (q_fc q : f64) in let ga := B2R (q_gain q : f64) in
  let e := sh_scale_error hs f ga n in let ds := sh_cascade hs f ga n in
  e <= / 2 ^ 10 ->
  exists fl, filt_setupN (N := F64 m) k FO (Some (Z.of_nat n)) q (filt_init t k FO) = Ok fl tt /\
    forall x : f64, FloatSpec.is_fin x -> 0 <= B2R x <= 1 / 2 -> resp_rel e (bw_sections n) * i_cond ds (B2R x) <= / 4 ->
    exists h, filt_response fl x = Val h /\ cfin h /\ Cmod (c2c h - i_resp ds (B2R x))%C <= resp_error e ds (B2R x).
Proof.
  intros HM HR HC Ff Fd Hf Hd' HN HFO k f ga e ds HE. assert (HE8 : sh_scale_error hs (B2R (q_fc q : f64)) (B2R (q_gain q : f64)) n <= / 8) by (fold f ga; unfold e in HE; lra).
  assert (Hd : sh_gain_ok (B2R (q_gain q : f64))) by (unfold sh_gain_ok; lra).
  destruct (c85_parts m hs q n FO t HM HR HC Ff Fd Hf Hd HN HFO HE8) as (fl & bs' & d & E & ST & SS & FC & SN & NS & A0). exists fl. split; [exact E|].
  fold f ga in SN. pose proof (sh_ids hs f ga n) as MI. fold ds in MI.
  assert (Hf' : 0 < f < 1 / 2) by (unfold f; unfold sh_cut_ok in Hf; lra).
  assert (LD : length ds = bw_sections n) by (unfold ds, sh_cascade; rewrite map_length, seq_length; reflexivity).
  pose proof (nsec n HN) as NSEC. rewrite <- LD.
  pose proof (err_low m q Hf) as EL. fold f in EL. assert (EP : 0 < sh_error f) by (unfold uu in EL; lra).
  destruct (E0_small m q Hf Hd n HN hs HE8) as (_ & _ & E2 & _). fold f ga in E2.
  assert (BE : 16 * sh_error f <= e) by (unfold e, sh_scale_error; lra).
  pose proof (sh_scale_le hs f ga n Hf' ltac:(lia)) as SC. pose proof (gain36 ga ltac:(unfold ga; lra)) as G36.
  assert (SCL : 0 < sh_scale hs f ga n <= 64) by lra.
  apply (resp_of m e fl bs' (repeat idb d) ds HM HR ltac:(lra) ST NS).
  - rewrite <- MI. apply chain_near; try assumption. unfold sh_chain. apply Forall_map, List.Forall_forall. intros i Hi. apply in_seq in Hi. cbn [d_ea d_eb d_id].
    destruct (sec_tame m q Hf Hd n HN hs HE8 i ltac:(lia)) as [(A1 & A2 & I0 & I1 & I2 & _) _]. fold f ga in A1, A2, I0, I1, I2.
    pose proof (scaled_abs2 (sh_ideal hs f ga n i) (if Nat.eqb i 0 then sh_scale hs f ga n else 1) I0 I1 I2 ltac:(destruct (Nat.eqb i 0); lra)) as [Q1 Q2]. fold (sh_section hs f ga n i) in Q1, Q2.
    split; [lra|]. split; [|split; [lra|unfold den_abs, sh_section, scaled; cbn [i_a1 i_a2]; lra]].
    destruct (Nat.eqb i 0); [apply Rmult_le_compat_l; lra|].
    apply Rle_trans with (e * 1); [lra|apply Rmult_le_compat_l; lra].
  - rewrite LD. lia.
  - intros x Hx. apply (proj1 (c85_ideal hs f ga n ltac:(lia) ltac:(unfold in_int, int_min, int_max; apply andb_true_iff; split; apply Z.leb_le; lia) Hf') x Hx).
Qed.
(** ** a shelf that was used before *)
Lemma c85_used m (HPo : forall r th, lm_polar m r th <> None) (hs : bool) (q : params (F64 m)) n FO t os (f0 : filt (F64 m)) : libm_design m -> libm_response m -> libm_bwshelf m -> FloatSpec.is_fin (q_fc q : f64) -> FloatSpec.is_fin (q_gain q : f64) ->
  sh_cut_ok (B2R (q_fc q : f64)) -> sh_gain_ok (B2R (q_gain q : f64)) -> B2R (q_gain q : f64) <> 0 -> (1 <= n <= 24)%nat -> (Z.of_nat n <= FO)%Z -> in_int (2 * FO) = true ->
  let k := (Bw, if hs then HSh else LSh) in let f := B2R (q_fc q : f64) in let ga := B2R (q_gain q : f64) in let l := sh_chain hs f ga n in
  sh_scale_error hs f ga n <= / 8 ->
  List.Forall op_ok os -> steps k FO os (filt_init t k FO) = Some f0 -> calm k FO (Some (Z.of_nat n)) q os (filt_init t k FO) ->
  exists fl, filt_setupN (N := F64 m) k FO (Some (Z.of_nat n)) q f0 = Ok fl tt /\
    forall X (xs : list f64) zs, 0 <= X -> chain_ok l X -> List.Forall (fun x => FloatSpec.is_fin x /\ Rabs (B2R x) <= X) xs ->
    ideal_out (sh_cascade hs f ga n) (map B2R xs) zs -> let ys := snd (filt_run (filt_reset fl) xs) : list f64 in
    length ys = length xs /\ List.Forall (fun y => FloatSpec.is_fin y /\ Rabs (B2R y) <= chain_bound l X) ys /\
    List.Forall2 (fun y z => Rabs (B2R y - z) <= chain_error l X 0) ys zs.
Proof.
  intros HM HR HC Ff Fd Hf Hd NZ HN HFO HI k f ga l HE HO ES CA.
  destruct (c85 m hs q n FO t HM HR HC Ff Fd Hf Hd HN HFO HE) as (fl0 & E0 & OUT).
  destruct (c81 (F64 m) HPo t k FO os f0 fl0 (Some (Z.of_nat n)) q) as (fl & E & LS); try assumption.
  - lia.
  - change (in_int (2 * Z.of_nat n) = true). unfold in_int, int_min, int_max in HI |- *. apply andb_true_iff in HI. destruct HI as [I1 I2]. apply Z.leb_le in I1, I2. apply andb_true_iff. split; apply Z.leb_le; lia.
  - cbn. lia.
  - intros _. apply exact_F64. intros s EZ. apply NZ. rewrite EZ. reflexivity.
  - intros Q. exfalso. apply Q. reflexivity.
  - exists fl. split; [exact E|]. destruct LS as (_ & _ & _ & _ & L5 & _ & _). intros X xs zs HX OK Hxs Hz. cbv zeta. rewrite L5. apply OUT; assumption.
Qed.

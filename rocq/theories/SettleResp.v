(** Proofs: in binary64 response () tells what filter () settles on. *)
From Coq Require Import ZArith List Bool Reals Lra Lia.
From Coquelicot Require Import Coquelicot.
From Flocq Require Import Core.Raux IEEE754.BinarySingleNaN.
From Verif Require Import Num Outcome Types Biquad State Cascade RBJ PoleFilter RealNum Float64 FloatSpec Stream
  SigSpec SigProofs StabProofs RespProofs RoundSpec DblSpec BwDblSpec BwDblFinal BwDbl3 BwScaleLemmas ChainSpec ChainLemmas BwOut
  RespDblSpec RespOutSpec RespOut RespOut2 ChCoefSpec ChDblSpec ChScaleSpec ChOut RbjRespSpec RbjResp ShelfDblSpec ShelfOut DblProofs DblLemmas SettleSpec Settle.
Import ListNotations.
Local Open Scope R_scope.

Lemma cis_mod t : Cmod (cis t) = 1.
Proof. unfold Cmod, cis. cbn [fst snd]. replace (cos t ^ 2 + sin t ^ 2) with 1; [apply sqrt_1|]. pose proof (sin2_cos2 t) as H. unfold Rsqr in H. lra. Qed.
Lemma settles_near N h H A fr e r (ys : list f64) : settles N (H * A)%C fr e ys -> Cmod (h - H)%C <= r -> settles N (h * A)%C fr (e + r * Cmod A) ys.
Proof.
  intros S Hr i Hi. destruct (S i Hi) as [F E]. split; [exact F|]. set (y := B2R _) in *. clearbody y.
  assert (W : Rabs (wave (H * A)%C fr i - wave (h * A)%C fr i) <= r * Cmod A).
  { unfold wave. set (u := cis _). replace (fst (H * A * u)%C - fst (h * A * u)%C) with (fst (- (h - H) * A * u)%C) by (destruct h, H, A, u; cbn; ring).
    eapply Rle_trans; [eapply Rle_trans; [apply Rmax_l|apply Rmax_Cmod]|]. rewrite !Cmod_mult, Cmod_opp. unfold u. rewrite cis_mod, Rmult_1_r. apply Rmult_le_compat_r; [apply Cmod_ge_0|exact Hr]. }
  replace (y - wave (h * A)%C fr i) with ((y - wave (H * A)%C fr i) + (wave (H * A)%C fr i - wave (h * A)%C fr i)) by ring. eapply Rle_trans; [apply Rabs_triang|]. lra.
Qed.
Lemma den_pos ds x : List.Forall (fun d => stable_poly (i_a1 d) (i_a2 d)) ds -> 0 < Cmod (cprod (map (i_den x) ds)).
Proof.
  intros H. apply Cmod_gt_0. apply cprod_nz. rewrite List.Forall_map. eapply List.Forall_impl; [|exact H]. intros d Hd. apply (rbot_nz (rbq d)). exact Hd.
Qed.
Lemma as_stored_ids m (bs : list (biquad (F64 m))) : forall Gs, length Gs = length bs -> map d_id (as_stored bs Gs) = map stored bs /\ List.Forall2 stored_near bs (as_stored bs Gs).
Proof.
  induction bs as [|b bs IH]; intros [|g Gs] L; try discriminate L; [split; [reflexivity|constructor]|]. cbn [length] in L. destruct (IH Gs ltac:(lia)) as [I1 I2].
  unfold as_stored in *. cbn [combine map fst snd d_id]. split; [f_equal; exact I1|]. constructor; [|exact I2].
  unfold stored_near, stored. cbn [d_id d_ea d_eb i_a1 i_a2 i_b0 i_b1 i_b2]. repeat split; rewrite Rminus_diag_eq, Rabs_R0 by reflexivity; lra.
Qed.
Lemma c94_stored m (bs : list (biquad (F64 m))) (Gs : list R) t mx (x : f64) X e (A : C) eps : libm_design m -> libm_response m -> List.Forall tame_coeffs bs -> (length bs <= 32)%nat -> length Gs = length bs ->
  FloatSpec.is_fin x -> 0 <= B2R x <= 1 / 2 -> let l := as_stored bs Gs in let ds := map stored bs in
  chain_ok l X -> 0 <= X -> 0 <= e -> 0 < eps -> resp_rel 0 (length bs) * i_cond ds (B2R x) <= / 4 ->
  exists h N, cas_response (N := F64 m) (MkCascade (Z.of_nat (length bs)) mx bs) x = Val h /\ cfin h /\
    forall xs : list f64, follows A (B2R x) e X xs -> let ys := snd (cs_run (MkCStages bs (repeat (st_init t) (length bs))) xs) : list f64 in
    length ys = length xs /\ settles N (c2c h * A)%C (B2R x) (chain_error l X e + eps + resp_error 0 ds (B2R x) * Cmod A) ys.
Proof.
  intros HM HR HT HL LG Fx Hx l ds OK HX He Hp HC. destruct (as_stored_ids m bs Gs LG) as [ID SN]. fold l in ID, SN. fold ds in ID.
  pose proof (chain_stable l X OK) as ST. rewrite ID in ST. pose proof (den_pos ds (B2R x) ST) as DP.
  destruct (c77_stored m bs [] mx x HM HR HT HL Fx Hx DP HC) as (h & E & F & B). rewrite app_nil_r in E.
  destruct (c93_cascade l X e (B2R x) A eps OK HX He Hp) as [N HN]. exists h, N. split; [exact E|]. split; [exact F|]. intros xs Hf ys.
  assert (FC : List.Forall fin_coeffs bs) by (eapply List.Forall_impl; [|exact HT]; intros b Hb; apply Hb).
  destruct (HN m bs t xs FC SN Hf) as [L S]. split; [exact L|]. rewrite ID in S. exact (settles_near _ _ _ _ _ _ _ _ S B).
Qed.
Lemma c94_butterworth m (hp : bool) (q : params (F64 m)) n FO t : libm_design m -> libm_response m -> FloatSpec.is_fin (q_fc q : f64) ->
  / 2 ^ 14 <= B2R (q_fc q : f64) <= 1 / 2 - / 2 ^ 14 -> (1 <= n <= 24)%nat -> (Z.of_nat n <= FO)%Z ->
  let k := (Bw, if hp then HP else LP) in let f := B2R (q_fc q : f64) in let l := bw_chain hp f n in let er := bw_scale_error hp f n in let ds := bw_cascade hp f n in
  er <= / 2 ^ 10 ->
  exists fl, filt_setupN (N := F64 m) k FO (Some (Z.of_nat n)) q (filt_init t k FO) = Ok fl tt /\
    forall (x : f64) X e (A : C) eps, FloatSpec.is_fin x -> 0 <= B2R x <= 1 / 2 -> resp_rel er (bw_sections n) * i_cond ds (B2R x) <= / 4 -> chain_ok l X -> 0 <= X -> 0 <= e -> 0 < eps ->
    exists h N, filt_response fl x = Val h /\ cfin h /\ forall xs : list f64, follows A (B2R x) e X xs ->
    let ys := snd (filt_run fl xs) : list f64 in length ys = length xs /\ settles N (c2c h * A)%C (B2R x) (chain_error l X e + eps + resp_error er ds (B2R x) * Cmod A) ys.
Proof.
  intros HM HR Ff Hf HN0 HFO k f l er ds HE. destruct (c93_butterworth m hp q n FO t HM HR Ff Hf HN0 HFO ltac:(fold f; fold er; lra)) as (fl & E & S).
  destruct (c78_bw m hp q n FO t HM HR Ff Hf HN0 HFO HE) as (fl' & E' & R).
  rewrite E in E'. injection E' as <-. exists fl. split; [exact E|]. intros x X e A eps Fx Hx HC OK HX He Hp. destruct (R x Fx Hx HC) as (h & Eh & F & B). destruct (S X e (B2R x) A eps OK HX He Hp) as [N HN].
  exists h, N. split; [exact Eh|]. split; [exact F|]. intros xs Hin ys. destruct (HN xs Hin) as [L S']. split; [exact L|]. exact (settles_near _ _ _ _ _ _ _ _ S' B).
Qed.
Lemma c94_chebyshev m (second hp : bool) (q : params (F64 m)) n FO t : libm_design m -> libm_response m -> libm_cheb m -> libm_pow10 m -> FloatSpec.is_fin (q_fc q : f64) -> FloatSpec.is_fin (q_db q : f64) ->
  ch_cut_ok (B2R (q_fc q : f64)) -> ch_db_ok second (B2R (q_db q : f64)) -> (1 <= n <= 24)%nat -> (Z.of_nat n <= FO)%Z ->
  let k := (if second then Ch2 else Ch1, if hp then HP else LP) in let f := B2R (q_fc q : f64) in let db := B2R (q_db q : f64) in let l := ch_chain second hp f db n in
  let er := ch_scale_error second hp f db n in let ds := ch_cascade second hp f db n in
  er <= / 2 ^ 10 ->
  exists fl, filt_setupN (N := F64 m) k FO (Some (Z.of_nat n)) q (filt_init t k FO) = Ok fl tt /\
    forall (x : f64) X e (A : C) eps, FloatSpec.is_fin x -> 0 <= B2R x <= 1 / 2 -> resp_rel er (bw_sections n) * i_cond ds (B2R x) <= / 4 -> chain_ok l X -> 0 <= X -> 0 <= e -> 0 < eps ->
    exists h N, filt_response fl x = Val h /\ cfin h /\ forall xs : list f64, follows A (B2R x) e X xs ->
    let ys := snd (filt_run fl xs) : list f64 in length ys = length xs /\ settles N (c2c h * A)%C (B2R x) (chain_error l X e + eps + resp_error er ds (B2R x) * Cmod A) ys.
Proof.
  intros HM HR HC0 HP Ff Fd Hf Hd HN0 HFO k f db l er ds HE. destruct (c93_chebyshev m second hp q n FO t HM HR HC0 HP Ff Fd Hf Hd HN0 HFO ltac:(fold f db; fold er; lra)) as (fl & E & S).
  destruct (c78_ch m second hp q n FO t HM HR HC0 HP Ff Fd Hf Hd HN0 HFO HE) as (fl' & E' & R).
  rewrite E in E'. injection E' as <-. exists fl. split; [exact E|]. intros x X e A eps Fx Hx HC OK HX He Hp. destruct (R x Fx Hx HC) as (h & Eh & F & B). destruct (S X e (B2R x) A eps OK HX He Hp) as [N HN].
  exists h, N. split; [exact Eh|]. split; [exact F|]. intros xs Hin ys. destruct (HN xs Hin) as [L S']. split; [exact L|]. exact (settles_near _ _ _ _ _ _ _ _ S' B).
Qed.
Lemma c94_shelf m (hs : bool) (q : params (F64 m)) n FO t : libm_design m -> libm_response m -> libm_bwshelf m -> FloatSpec.is_fin (q_fc q : f64) -> FloatSpec.is_fin (q_gain q : f64) ->
  sh_cut_ok (B2R (q_fc q : f64)) -> -80 <= B2R (q_gain q : f64) <= 36 -> (1 <= n <= 24)%nat -> (Z.of_nat n <= FO)%Z ->
  let k := (Bw, if hs then HSh else LSh) in let f := B2R (q_fc q : f64) in let ga := B2R (q_gain q : f64) in let l := sh_chain hs f ga n in
  let er := sh_scale_error hs f ga n in let ds := sh_cascade hs f ga n in
  er <= / 2 ^ 10 ->
  exists fl, filt_setupN (N := F64 m) k FO (Some (Z.of_nat n)) q (filt_init t k FO) = Ok fl tt /\
    forall (x : f64) X e (A : C) eps, FloatSpec.is_fin x -> 0 <= B2R x <= 1 / 2 -> resp_rel er (bw_sections n) * i_cond ds (B2R x) <= / 4 -> chain_ok l X -> 0 <= X -> 0 <= e -> 0 < eps ->
    exists h N, filt_response fl x = Val h /\ cfin h /\ forall xs : list f64, follows A (B2R x) e X xs ->
    let ys := snd (filt_run fl xs) : list f64 in length ys = length xs /\ settles N (c2c h * A)%C (B2R x) (chain_error l X e + eps + resp_error er ds (B2R x) * Cmod A) ys.
Proof.
  intros HM HR HC0 Ff Fd Hf Hd HN0 HFO k f ga l er ds HE. destruct (c93_shelf m hs q n FO t HM HR HC0 Ff Fd Hf ltac:(unfold sh_gain_ok; lra) HN0 HFO ltac:(fold f ga; fold er; lra)) as (fl & E & S).
  destruct (c85_resp m hs q n FO t HM HR HC0 Ff Fd Hf Hd HN0 HFO HE) as (fl' & E' & R).
  rewrite E in E'. injection E' as <-. exists fl. split; [exact E|]. intros x X e A eps Fx Hx HC OK HX He Hp. destruct (R x Fx Hx HC) as (h & Eh & F & B). destruct (S X e (B2R x) A eps OK HX He Hp) as [N HN].
  exists h, N. split; [exact Eh|]. split; [exact F|]. intros xs Hin ys. destruct (HN xs Hin) as [L S']. split; [exact L|]. exact (settles_near _ _ _ _ _ _ _ _ S' B).
Qed.

Lemma c94_rbj m (f g q : f64) k (r : rbj (F64 m)) : libm_design m -> libm_response m -> rbj_libm k m -> FloatSpec.is_fin f -> FloatSpec.is_fin g -> FloatSpec.is_fin q -> rbj_args k (B2R f) (B2R g) (B2R q) ->
  let i := rbj_ideal k (B2R f) (B2R g) (B2R q) in let ec := rbj_coef_error k (B2R q) in let er := rbj_rel_error k (B2R f) (B2R g) (B2R q) in er <= / 2 ^ 10 ->
  exists r', rbj_obj_setupN (N := F64 m) k f g q r = Ok r' tt /\
    forall (x : f64) G X e (A : C) eps, let l := [DSect i G ec ec] in FloatSpec.is_fin x -> 0 <= B2R x <= 1 / 2 -> resp_rel er 1 * i_cond [i] (B2R x) <= / 4 -> chain_ok l X -> 0 <= X -> 0 <= e -> 0 < eps ->
    exists h N, bq_response (r_bq r') x = Val h /\ cfin h /\ forall xs : list f64, follows A (B2R x) e X xs ->
    let ys := snd (rbj_run (rbj_reset r') xs) : list f64 in length ys = length xs /\ settles N (c2c h * A)%C (B2R x) (chain_error l X e + eps + resp_error er [i] (B2R x) * Cmod A) ys.
Proof.
  intros HM HR HL Ff Fg Fq H i ec er HE. destruct (c93_rbj m f g q k r HL Ff Fg Fq H) as (r' & E & S). fold i ec in S. destruct (c79 m f g q k (r_bq r) HM HR HL Ff Fg Fq H HE) as (b' & E' & R). fold i er in R.
  assert (RB : r_bq r' = b') by (unfold rbj_obj_setupN, zoom in E; rewrite E' in E; injection E as <-; reflexivity). exists r'. split; [exact E|].
  intros x G X e A eps l Fx Hx HC OK HX He Hp. destruct (R x Fx Hx HC) as (h & Eh & F & B). destruct (S G X e (B2R x) A eps OK HX He Hp) as [N HN].
  exists h, N. rewrite RB. split; [exact Eh|]. split; [exact F|]. intros xs Hin ys. destruct (HN xs Hin) as [L S']. split; [exact L|]. exact (settles_near _ _ _ _ _ _ _ _ S' B).
Qed.
(** ** examples *)
(** cos (pi i / 2) is 1, 0, -1, 0, ... *)
Definition quarter_wave (n : nat) : list f64 := map (fun i => fofZ (match (i mod 4)%nat with 0%nat => 1 | 2%nat => -1 | _ => 0 end)) (seq 0 n).
Lemma quarter_follows n : follows (RtoC 1) (1 / 4) 0 1 (quarter_wave n).
Proof.
  intros i Hi. unfold quarter_wave in *. rewrite map_length, seq_length in Hi.
  set (g := fun i : nat => fofZ (match (i mod 4)%nat with 0%nat => 1 | 2%nat => -1 | _ => 0 end)).
  assert (NE : nth i (map g (seq 0 n)) RefLibm.f0 = g i) by (rewrite nth_indep with (d' := g 0%nat) by (rewrite map_length, seq_length; exact Hi); rewrite map_nth, seq_nth by exact Hi; reflexivity).
  rewrite NE. unfold g. clear NE g. unfold wave. rewrite Cmult_1_l. cbn [cis fst].
  pose proof (Nat.div_mod i 4 ltac:(lia)) as D. pose proof (Nat.mod_upper_bound i 4 ltac:(lia)) as U. set (r := (i mod 4)%nat) in *. set (p := (i / 4)%nat) in *. clearbody r p.
  assert (C : cos (2 * PI * (1 / 4) * INR i) = cos (PI / 2 * INR r)).
  { rewrite D, plus_INR, mult_INR. replace (INR 4) with 4 by (cbn; ring). replace (2 * PI * (1 / 4) * (4 * INR p + INR r)) with (PI / 2 * INR r + 2 * INR p * PI) by field. apply cos_period. }
  rewrite C. clear C D Hi. assert (F : forall z, (-1 <= z <= 1)%Z -> FloatSpec.is_fin (fofZ z) /\ B2R (fofZ z) = IZR z) by (intros z Hz; destruct (fofZ_val z ltac:(lia)); split; assumption).
  destruct r as [|[|[|[|]]]]; try lia.
  - destruct (F 1%Z ltac:(lia)) as [F1 F2]. split; [exact F1|]. rewrite F2. cbn [INR]. rewrite Rmult_0_r, cos_0, Rminus_diag_eq, Rabs_R0, Rabs_R1 by reflexivity. lra.
  - destruct (F 0%Z ltac:(lia)) as [F1 F2]. split; [exact F1|]. rewrite F2. cbn [INR]. rewrite Rmult_1_r, cos_PI2, Rminus_diag_eq, Rabs_R0 by reflexivity. lra.
  - destruct (F (-1)%Z ltac:(lia)) as [F1 F2]. split; [exact F1|]. rewrite F2. replace (PI / 2 * INR 2) with PI by (cbn; field). rewrite cos_PI, Rminus_diag_eq, Rabs_R0, (Rabs_left (-1)) by (reflexivity || lra). lra.
  - destruct (F 0%Z ltac:(lia)) as [F1 F2]. split; [exact F1|]. rewrite F2. replace (PI / 2 * INR 3) with (3 * (PI / 2)) by (cbn; ring). rewrite cos_3PI2, Rminus_diag_eq, Rabs_R0 by reflexivity. lra.
Qed.
Lemma ex_gain : rec_gain (-1 / 2) (1 / 4) (64 / 9).
Proof. replace (64 / 9) with (/ (3 / 8) ^ 2) by field. apply c62_margin; [lra| |]; rewrite ?(Rabs_left (-1 / 2)), ?(Rabs_pos_eq (1 / 4)) by lra; lra. Qed.
Lemma ex_c93 : libm_design design_libm /\ libm_response design_libm /\ B2R (fnorm 1 (-2)) = 1 / 4 /\ bw_scale_error false (1 / 4) 3 <= / 8 /\
  chain_ok (bw_chain false (1 / 4) 3) 1 /\ chain_error (bw_chain false (1 / 4) 3) 1 0 <= 1 / 10 ^ 8 /\ Cmod (i_resp (bw_cascade false (1 / 4) 3) (1 / 4)) ^ 2 = 1 / 2 /\
  (forall n, length (quarter_wave n) = n /\ follows (RtoC 1) (1 / 4) 0 1 (quarter_wave n)).
Proof.
  pose proof ex_c66 as (A & B & C & D & E & F). pose proof ex_c78 as (_ & _ & _ & _ & _ & _ & G). repeat (split; [assumption|]). intros n. split; [unfold quarter_wave; rewrite map_length, seq_length; reflexivity|apply quarter_follows].
Qed.
Lemma ex_c94 : let b := @MkBiquad (F64 design_libm) (fofZ 1) (fnorm (-1) (-1)) (fnorm 1 (-2)) (fofZ 1) (fofZ 2) (fofZ 1) in chain_ok (as_stored [b] [64 / 9]) 1 /\ chain_error (as_stored [b] [64 / 9]) 1 0 <= 1 / 10 ^ 9.
Proof.
  intros b. pose proof ex_c77 as (_ & _ & _ & S & _). fold b in S. unfold as_stored. cbn [combine map fst snd]. rewrite S.
  pose proof ex_gain as GN.
  assert (B9 : 2 ^ 60 <= 2 ^ 900) by (apply Rle_pow; [lra|lia]). assert (GA : 0 < g_abs <= / 2 ^ 60). { unfold g_abs. split; [apply Rinv_0_lt_compat, pow_lt; lra|]. apply Rinv_le; [apply pow_lt; lra|apply Rle_pow; [lra|lia]]. }
  cbn [chain_ok chain_error]. unfold d_ok, d_err, d_A, d_B, i_B. cbn [d_id d_G d_ea d_eb i_a1 i_a2 i_b0 i_b1 i_b2]. rewrite (Rabs_left (-1 / 2)), (Rabs_pos_eq (1 / 4)), (Rabs_pos_eq 2), Rabs_R1 by lra.
  set (P := 2 ^ 900) in *. clearbody P. unfold g_rel. set (ga := g_abs) in *. clearbody ga.
  split; [split; [split; [exact GN|]|exact I]|]; lra.
Qed.

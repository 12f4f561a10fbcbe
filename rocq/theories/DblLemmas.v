(** Proofs: stability and output error of RBJ filters designed and run in binary64. *)
From Coq Require Import ZArith List Bool Reals Lra Lia.
From Coquelicot Require Import Coquelicot.
From Flocq Require Import Core.Raux Core.Defs Core.Generic_fmt IEEE754.BinarySingleNaN.
From Verif Require Import Num Outcome Types Biquad State Cascade RBJ Float64 RefLibm FloatSpec FloatProofs FloatLemmas SampleLemmas Stream SigSpec SigProofs StabProofs
  RoundSpec RoundProofs RoundRun RoundLemmas DblPi DblSpec DblProofs.
Import ListNotations.
Local Open Scope R_scope.

Lemma frac_le r p Q : 1 <= p -> Rabs r <= Q * p -> Rabs (r / p) <= Q.
Proof.
  intros Hp H. unfold Rdiv. rewrite Rabs_mult, (Rabs_pos_eq (/ p)) by (left; apply Rinv_0_lt_compat; lra).
  apply Rmult_le_reg_r with p; [lra|]. rewrite Rmult_assoc, Rinv_l, Rmult_1_r by lra. exact H.
Qed.
Lemma w_sin f : 0 < f < 1 / 2 -> 0 < sin (2 * PI * f).
Proof. intros H. pose proof PI_RGT_0. apply sin_gt_0; nra. Qed.
Lemma notch_r f q : 0 < f -> 0 < q -> 0 < exp (- (PI * f) / q) < 1.
Proof.
  intros Hf Hq. split; [apply exp_pos|]. rewrite <- exp_0. apply exp_increasing. pose proof PI_RGT_0.
  assert (0 < PI * f / q) by (apply Rdiv_lt_0_compat; nra). unfold Rdiv in *. lra.
Qed.
Lemma cook_range k f q : no_shelf k -> 0 < f < 1 / 2 -> 0 < q -> let i := cookbook k f q in
  Rabs (i_a1 i) <= 2 /\ Rabs (i_a2 i) <= 1 /\ Rabs (i_b0 i) <= 1 /\ Rabs (i_b1 i) <= 2 /\ Rabs (i_b2 i) <= 1.
Proof.
  intros (N1 & N2 & N3) Hf Hq i. pose proof (w_sin f Hf) as S. pose proof (SIN_bound (2 * PI * f)). pose proof (COS_bound (2 * PI * f)).
  assert (A : 0 < sin (2 * PI * f) / (2 * q)) by (apply Rdiv_lt_0_compat; lra).
  destruct (notch_r f q ltac:(lra) Hq) as [E0 E1].
  subst i; destruct k; try (elim N1; reflexivity); try (elim N2; reflexivity); try (elim N3; reflexivity); cbn [cookbook i_a1 i_a2 i_b0 i_b1 i_b2];
    repeat split; try (apply frac_le; [lra|apply Rabs_le; lra]); apply Rabs_le; nra.
Qed.

(** ** stability *)
Lemma sin_half x : 0 <= x <= 1 -> x / 2 <= sin x.
Proof.
  intros H. destruct (Req_dec x 0) as [->|N]; [rewrite sin_0; lra|].
  destruct (MVT_gen sin 0 x cos) as (c & Hc & E).
  - intros y _. apply is_derive_Reals. apply derivable_pt_lim_sin.
  - intros y _. apply continuity_sin.
  - rewrite sin_0 in E. rewrite Rmin_left, Rmax_right in Hc by lra.
    assert (1 / 2 <= cos c); [|nra]. rewrite <- cos_PI3. pose proof pi_bounds. destruct (Req_dec c (PI / 3)) as [->|]; [lra|].
    left. apply cos_decreasing_1; lra.
Qed.
Lemma w_sin_low f : / 32768 <= f <= 1 / 2 - / 32768 -> 3 / 32768 <= sin (2 * PI * f).
Proof.
  intros H. pose proof pi_bounds as P. set (d := 2 * PI * / 32768). assert (D : 6 / 32768 <= d <= 1) by (unfold d; lra).
  pose proof (sin_half d ltac:(lra)). apply Rle_trans with (sin d); [lra|].
  assert (d <= 2 * PI * f <= PI - d) by (unfold d; nra).
  destruct (Rle_lt_dec (2 * PI * f) (PI / 2)) as [L|L].
  - destruct (Req_dec d (2 * PI * f)) as [->|]; [lra|]. left. apply sin_increasing_1; lra.
  - rewrite (sin_PI_x (2 * PI * f)) at 1 || rewrite <- (sin_PI_x (2 * PI * f)).
    destruct (Req_dec d (PI - 2 * PI * f)) as [->|]; [lra|]. left. apply sin_increasing_1; lra.
Qed.
Lemma cook_margin k f q : no_shelf k -> / 32768 <= f <= 1 / 2 - / 32768 -> 1 / 64 <= q <= 1024 -> let i := cookbook k f q in
  Rabs (i_a2 i) <= 1 - / 10 ^ 9 /\ Rabs (i_a1 i) <= 1 + i_a2 i - / 10 ^ 10.
Proof.
  intros (N1 & N2 & N3) Hf Hq i. pose proof (w_sin_low f Hf) as S. pose proof (SIN_bound (2 * PI * f)) as SB. pose proof (COS_bound (2 * PI * f)) as CB.
  pose proof (sin2_cos2 (2 * PI * f)) as SC. unfold Rsqr in SC.
  assert (C1 : Rabs (cos (2 * PI * f)) <= 1 - 1 / 250000000) by (apply Rabs_le; split; nra).
  set (s := sin (2 * PI * f)) in *. set (c := cos (2 * PI * f)) in *. apply Rabs_le_between in C1.
  assert (I : / 2048 <= / (2 * q) <= 32). { split; [apply Rinv_le; lra|replace 32 with (/ (2 * (1 / 64))) by lra; apply Rinv_le; lra]. }
  assert (AL : 4 / 100000000 <= s / (2 * q) <= 32) by (unfold Rdiv; nra).
  assert (M : forall p al, p = 1 + al -> 4 / 100000000 <= al <= 32 -> Rabs ((1 - al) / p) <= 1 - / 10 ^ 9 /\ Rabs (- 2 * c / p) <= 1 + (1 - al) / p - / 10 ^ 10).
  { intros p al -> Ha. split; [apply frac_le; [lra|apply Rabs_le; split; lra]|]. apply frac_le; [lra|].
    replace ((1 + (1 - al) / (1 + al) - / 10 ^ 10) * (1 + al)) with (2 - / 10 ^ 10 * (1 + al)) by (field; lra). apply Rabs_le; split; lra. }
  subst i; destruct k; try (elim N1; reflexivity); try (elim N2; reflexivity); try (elim N3; reflexivity); cbn [cookbook i_a1 i_a2 i_b0 i_b1 i_b2];
    fold s c; try (apply M; [reflexivity|exact AL]).
  (* the notch *)
  assert (T : 9 / 100000000 <= PI * f / q). { pose proof pi_bounds. assert (/ 1024 <= / q) by (apply Rinv_le; lra). unfold Rdiv. apply Rle_trans with (PI * f * / 1024); [nra|]. apply Rmult_le_compat_l; [nra|assumption]. }
  assert (E : exp (- (PI * f) / q) <= 1 - 8 / 100000000).
  { pose proof (exp_ineq1_le (PI * f / q)) as L. replace (- (PI * f) / q) with (- (PI * f / q)) by (field; lra). rewrite exp_Ropp.
    apply Rmult_le_reg_r with (exp (PI * f / q)); [apply exp_pos|]. rewrite Rinv_l by (pose proof (exp_pos (PI * f / q)); lra). nra. }
  pose proof (exp_pos (- (PI * f) / q)) as E0. set (r := exp (- (PI * f) / q)) in *.
  split; apply Rabs_le; split; try nra.
  all: destruct (Rle_lt_dec r (1 / 2)); nra.
Qed.
Lemma near_bound x r e Q : Rabs (x - r) <= e -> Rabs r <= Q -> Rabs x <= Q + e.
Proof. intros A B. replace x with (r + (x - r)) by ring. eapply Rle_trans; [apply Rabs_triang|lra]. Qed.
Lemma de_small q : 1 / 64 <= q -> 0 < design_error q <= / 10 ^ 12.
Proof.
  intros H. unfold design_error. assert (0 < / q) by (apply Rinv_0_lt_compat; lra). assert (/ q <= 64) by (replace 64 with (/ (1 / 64)) by lra; apply Rinv_le; lra). lra.
Qed.
Lemma c61 m (f q : f64) k g b : libm_close m -> no_shelf k -> FloatSpec.is_fin f -> FloatSpec.is_fin q -> 0 < B2R f < 1 / 2 -> 1 / 64 <= B2R q <= 1024 ->
  exists b', rbj_setupN (N := F64 m) k f g q b = Ok b' tt /\ fin_coeffs b' /\ coefs_near b' (cookbook k (B2R f) (B2R q)) (design_error (B2R q)) /\
    (/ 2 ^ 15 <= B2R f <= 1 / 2 - / 2 ^ 15 -> stable_poly (B2R (m_a1 b' : f64)) (B2R (m_a2 b' : f64))).
Proof.
  intros HM K Ff Fq Hf Hq. destruct (design_double m f q HM Ff Fq Hf Hq k g b K) as (b' & E & F & N). exists b'. split; [exact E|]. split; [exact F|]. split; [exact N|].
  intros Hr. destruct (cook_margin k (B2R f) (B2R q) K ltac:(lra) Hq) as [M2 M1]. destruct N as (N1 & N2 & _). pose proof (de_small (B2R q) ltac:(lra)) as D.
  apply jury.
  - pose proof (near_bound _ _ _ _ N2 M2). lra.
  - pose proof (near_bound _ _ _ _ N1 M1) as Z. apply Rabs_le_between in N2. lra.
Qed.

(** ** the output of the whole filter *)
Lemma gain_near a1 a2 c1 c2 G E : rec_gain a1 a2 G -> Rabs (c1 - a1) <= E -> Rabs (c2 - a2) <= E -> 4 * E * G <= 1 -> rec_gain c1 c2 (2 * G).
Proof.
  intros HG H1 H2 HE y W n HW Hy. pose proof (gain_ge1 _ _ _ HG) as G1. pose proof (Rabs_pos (c1 - a1)) as E0.
  assert (Hy' : forall i, (i <= n)%nat -> Rabs (fir 1 c1 c2 y i) <= W) by (intros i Hi; rewrite <- prev_fir; apply Hy, Hi). clear Hy.
  assert (A : forall k, (k <= n)%nat -> Rabs (y k) <= 2 * G * W); [|apply A; lia].
  apply (strong (fun k => (k <= n)%nat -> Rabs (y k) <= 2 * G * W)). intros k IH Hk.
  replace (2 * G * W) with (G * (2 * W)) by ring. apply (gain_fir _ _ _ HG); [lra|]. intros i Hi.
  assert (D : Rabs (fir 0 (c1 - a1) (c2 - a2) y i) <= W).
  { assert (B : forall j, (j < i)%nat -> Rabs (y j) <= 2 * G * W) by (intros j Hj; apply IH; lia).
    assert (P : 0 <= 2 * G * W) by nra.
    assert (Q : Rabs (del y i) <= 2 * G * W) by (destruct i; simpl; [rewrite Rabs_R0; exact P|apply B; lia]).
    assert (R : Rabs (del (del y) i) <= 2 * G * W) by (destruct i as [|[|i]]; simpl; try (rewrite Rabs_R0; exact P); apply B; lia).
    unfold fir. rewrite Rmult_0_l, Rplus_0_l. eapply Rle_trans; [apply Rabs_triang|]. rewrite !Rabs_mult.
    assert (Rabs (c1 - a1) * Rabs (del y i) <= E * (2 * G * W)) by (apply Rmult_le_compat; auto using Rabs_pos).
    assert (Rabs (c2 - a2) * Rabs (del (del y) i) <= E * (2 * G * W)) by (apply Rmult_le_compat; auto using Rabs_pos).
    assert (4 * E * G * W <= 1 * W) by (apply Rmult_le_compat_r; assumption). lra. }
  replace (fir 1 a1 a2 y i) with (fir 1 c1 c2 y i - fir 0 (c1 - a1) (c2 - a2) y i) by (unfold fir; ring).
  unfold Rminus at 1. eapply Rle_trans; [apply Rabs_triang|]. rewrite Rabs_Ropp. specialize (Hy' i ltac:(lia)). lra.
Qed.
(** exact filters with nearby coefficients *)
Lemma coefs_apart a1 a2 b0 b1 b2 c1 c2 d0 d1 d2 G E (x u z : nat -> R) X U n : rec_gain a1 a2 G -> 0 <= X -> 0 <= U ->
  Rabs (c1 - a1) <= E -> Rabs (c2 - a2) <= E -> Rabs (d0 - b0) <= E -> Rabs (d1 - b1) <= E -> Rabs (d2 - b2) <= E ->
  (forall i, (i <= n)%nat -> Rabs (x i) <= X) -> (forall i, (i <= n)%nat -> Rabs (u i) <= U) ->
  (forall i, (i <= n)%nat -> fir 1 a1 a2 z i = fir b0 b1 b2 x i) -> (forall i, (i <= n)%nat -> fir 1 c1 c2 u i = fir d0 d1 d2 x i) ->
  Rabs (u n - z n) <= G * (E * (3 * X + 2 * U)).
Proof.
  intros HG HX HU H1 H2 H3 H4 H5 Hx Hu Hz He. assert (E0 : 0 <= E) by (eapply Rle_trans; [apply Rabs_pos|exact H1]).
  apply (gain_fir _ _ _ HG (fun k => u k - z k)). { apply Rmult_le_pos; lra. }
  intros i Hi. rewrite fir_sub, Hz by exact Hi.
  replace (fir 1 a1 a2 u i) with (fir 1 c1 c2 u i - fir 0 (c1 - a1) (c2 - a2) u i) by (unfold fir; ring). rewrite He by exact Hi.
  replace (fir d0 d1 d2 x i - fir 0 (c1 - a1) (c2 - a2) u i - fir b0 b1 b2 x i) with (fir (d0 - b0) (d1 - b1) (d2 - b2) x i - fir 0 (c1 - a1) (c2 - a2) u i) by (unfold fir; ring).
  assert (P : Rabs (fir (d0 - b0) (d1 - b1) (d2 - b2) x i) <= 3 * E * X).
  { eapply Rle_trans; [apply (fir_bd _ _ _ _ X); [exact HX|intros j Hj; apply Hx; lia]|]. apply Rmult_le_compat_r; lra. }
  assert (Q : Rabs (fir 0 (c1 - a1) (c2 - a2) u i) <= 2 * E * U).
  { eapply Rle_trans; [apply (fir_bd _ _ _ _ U); [exact HU|intros j Hj; apply Hu; lia]|]. apply Rmult_le_compat_r; [exact HU|]. rewrite Rabs_R0. lra. }
  unfold Rminus at 1. eapply Rle_trans; [apply Rabs_triang|]. rewrite Rabs_Ropp. lra.
Qed.
Lemma stored_bounds {m} (b : biquad (F64 m)) i E : coefs_near b i E -> E <= / 10 ^ 12 ->
  Rabs (i_a1 i) <= 2 -> Rabs (i_a2 i) <= 1 -> Rabs (i_b0 i) <= 1 -> Rabs (i_b1 i) <= 2 -> Rabs (i_b2 i) <= 1 ->
  Rabs (B2R (m_a1 b : f64)) + Rabs (B2R (m_a2 b : f64)) <= 4 /\ Rabs (B2R (m_b0 b : f64)) + Rabs (B2R (m_b1 b : f64)) + Rabs (B2R (m_b2 b : f64)) <= 5.
Proof.
  intros (N1 & N2 & N3 & N4 & N5) HE H1 H2 H3 H4 H5.
  pose proof (near_bound _ _ _ _ N1 H1). pose proof (near_bound _ _ _ _ N2 H2). pose proof (near_bound _ _ _ _ N3 H3). pose proof (near_bound _ _ _ _ N4 H4). pose proof (near_bound _ _ _ _ N5 H5). lra.
Qed.
Lemma own_small s X : s_G s * s_A s <= 2 ^ 44 -> 1 <= s_G s -> 0 <= s_A s <= 4 -> 0 <= s_B s <= 5 -> 0 <= X ->
  own_error s X <= (s_G s) ^ 2 * (135 * X * g_rel + 19 * g_abs).
Proof.
  intros _ G1 HA HB HX. unfold own_error. set (G := s_G s) in *. set (A := s_A s) in *. set (B := s_B s) in *. pose proof g_pos as GP.
  assert (R0 : 0 < g_rel <= 1 / 1000000) by (rewrite g_rel_uu; unfold uu; lra).
  assert (P : 0 <= (1 + B) * g_abs <= 6 * g_abs) by (split; [apply Rmult_le_pos; lra|apply Rmult_le_compat_r; lra]).
  assert (Q : 0 <= B * X <= 5 * X) by (split; [apply Rmult_le_pos; lra|apply Rmult_le_compat_r; lra]).
  assert (K : 1 <= 1 + 2 * A * G <= 9 * G) by nra.
  set (S := B * X + (1 + B) * g_abs) in *. assert (HS : 0 <= S <= 5 * X + 6 * g_abs) by (unfold S; lra).
  assert (V : g_rel * (1 + 2 * A * G) * S <= g_rel * (9 * G) * (5 * X + 6 * g_abs)).
  { apply Rmult_le_compat; [nra|lra| |lra]. apply Rmult_le_compat_l; lra. }
  assert (V2 : (1 + B) * g_abs <= G * (6 * g_abs)) by nra.
  apply Rle_trans with (3 * G * (g_rel * (9 * G) * (5 * X + 6 * g_abs) + G * (6 * g_abs))).
  { apply Rmult_le_compat_l; lra. }
  replace (3 * G * (g_rel * (9 * G) * (5 * X + 6 * g_abs) + G * (6 * g_abs))) with (G ^ 2 * (135 * X * g_rel + 162 * (g_rel * g_abs) + 18 * g_abs)) by ring.
  apply Rmult_le_compat_l; [nra|]. assert (g_rel * g_abs <= 1 / 1000000 * g_abs) by (apply Rmult_le_compat_r; lra). lra.
Qed.
Lemma near_out {m} (b : biquad (F64 m)) i q G t (xs : list f64) X zs :
  fin_coeffs b -> coefs_near b i (design_error q) -> 1 / 64 <= q ->
  Rabs (i_a1 i) <= 2 -> Rabs (i_a2 i) <= 1 -> Rabs (i_b0 i) <= 1 -> Rabs (i_b1 i) <= 2 -> Rabs (i_b2 i) <= 1 ->
  rec_gain (i_a1 i) (i_a2 i) G -> G <= 2 ^ 37 -> 0 <= X <= 2 ^ 800 ->
  List.Forall (fun x => FloatSpec.is_fin x /\ Rabs (B2R x) <= X) xs ->
  diffeq 1 (i_a1 i) (i_a2 i) (i_b0 i) (i_b1 i) (i_b2 i) (map B2R xs) zs ->
  let ys := snd (cs_run (MkCStages [b] [st_init t]) xs) : list f64 in
  length ys = length xs /\ List.Forall FloatSpec.is_fin ys /\ List.Forall2 (fun y z => Rabs (B2R y - z) <= output_error q G X) ys zs.
Proof.
  intros F N Hq H1 H2 H3 H4 H5 HG G37 HX Hxs Hz ys.
  pose proof (gain_ge1 _ _ _ HG) as G1. destruct (de_small q Hq) as [D0 D1].
  assert (D2 : design_error q <= 65 / 2 ^ 46). { unfold design_error. assert (/ q <= 64) by (replace 64 with (/ (1 / 64)) by lra; apply Rinv_le; lra). lra. }
  destruct (stored_bounds b i _ N D1 H1 H2 H3 H4 H5) as [SA SB]. pose proof N as (N1 & N2 & N3 & N4 & N5).
  assert (HG' : rec_gain (B2R (m_a1 b : f64)) (B2R (m_a2 b : f64)) (2 * G)).
  { apply (gain_near _ _ _ _ _ _ HG N1 N2). nra. }
  set (s := Sect (B2R (m_a1 b : f64)) (B2R (m_a2 b : f64)) (B2R (m_b0 b : f64)) (B2R (m_b1 b : f64)) (B2R (m_b2 b : f64)) (2 * G)).
  assert (A0 : 0 <= s_A s <= 4). { split; [|exact SA]. unfold s_A. pose proof (Rabs_pos (s_a1 s)). pose proof (Rabs_pos (s_a2 s)). lra. }
  assert (B0 : 0 <= s_B s <= 5). { split; [|exact SB]. unfold s_B. pose proof (Rabs_pos (s_b0 s)). pose proof (Rabs_pos (s_b1 s)). pose proof (Rabs_pos (s_b2 s)). lra. }
  assert (P800 : 1 <= 2 ^ 800 /\ 2 ^ 900 = 2 ^ 100 * 2 ^ 800).
  { split; [apply pow_R1_Rle; lra|rewrite <- pow_add; reflexivity]. }
  assert (OK : sect_ok s X).
  { split; [exact HG'|]. change (s_G s) with (2 * G). split; [simpl; nra|]. destruct P800 as [P1 P2]. rewrite P2. revert P1 HX. generalize (2 ^ 800). intros p P1 HX.
    assert (2 * G * s_B s <= 10 * 2 ^ 37) by nra. split; [nra|].
    apply Rle_trans with (10 * 2 ^ 37 * (2 * p)); [apply Rmult_le_compat; nra|]. simpl. lra. }
  destruct (diffeq_exists (s_a1 s) (s_a2 s) (s_b0 s) (s_b1 s) (s_b2 s) (map B2R xs)) as (us & Hu & _).
  assert (Ex : exact_out [s] (map B2R xs) us) by (exists us; split; [exact Hu|reflexivity]).
  destruct (c54_cs m [b] [s] t xs X us) as (L1 & L2 & Q1 & Q2); auto.
  { constructor; [repeat split; reflexivity|constructor]. }
  { split; [exact OK|exact I]. }
  { lra. }
  fold ys in L1, L2, Q1, Q2. cbn [length repeat] in L1, Q1, Q2. fold ys in L1, Q1, Q2.
  split; [exact L1|]. split; [eapply List.Forall_impl; [|exact Q1]; intros y Hy; apply Hy|].
  destruct (diffeq_fir _ _ _ _ _ _ _ Hu) as [Lu Fu]. destruct (diffeq_fir _ _ _ _ _ _ _ Hz) as [Lz Fz]. rewrite map_length in *.
  (* the exact outputs *)
  set (U := 10 * G * X). assert (U0 : 0 <= U) by (unfold U; nra).
  assert (XB : forall i, Rabs (seqof (map B2R xs) i) <= X).
  { intros j. unfold seqof. destruct (Nat.lt_ge_cases j (length xs)) as [L|L].
    - rewrite (nth_indep _ 0 (B2R f0)) by (rewrite map_length; exact L). rewrite map_nth. apply (proj1 (List.Forall_forall _ _) Hxs). apply nth_In, L.
    - rewrite nth_overflow by (rewrite map_length; exact L). rewrite Rabs_R0. lra. }
  assert (UB : forall n, (n < length xs)%nat -> Rabs (seqof us n) <= U).
  { intros n Hn. replace U with (2 * G * (5 * X)) by (unfold U; ring). apply (gain_fir _ _ _ HG'); [lra|]. intros j Hj.
    assert (FJ : fir 1 (s_a1 s) (s_a2 s) (seqof us) j = fir (s_b0 s) (s_b1 s) (s_b2 s) (seqof (map B2R xs)) j) by (apply Fu; lia).
    cbn [s_a1 s_a2 s_b0 s_b1 s_b2 s] in FJ. rewrite FJ.
    eapply Rle_trans; [apply (fir_bd _ _ _ _ X); [lra|intros; apply XB]|]. apply Rmult_le_compat_r; lra. }
  assert (D : forall n, (n < length xs)%nat -> Rabs (nth n us 0 - nth n zs 0) <= G * (design_error q * (3 * X + 2 * U))).
  { intros n Hn. change (nth n us 0) with (seqof us n). change (nth n zs 0) with (seqof zs n).
    apply (coefs_apart _ _ _ _ _ _ _ _ _ _ _ _ (seqof (map B2R xs)) _ _ X U n HG ltac:(lra) U0 N1 N2 N3 N4 N5); intros j Hj.
    - apply XB.
    - apply UB. lia.
    - apply Fz. lia.
    - apply Fu. lia. }
  assert (TE : total_error [s] X 0 + G * (design_error q * (3 * X + 2 * U)) <= output_error q G X).
  { cbn [total_error]. rewrite Rmult_0_r, Rplus_0_l.
    pose proof (own_small s X (proj1 (proj2 OK)) ltac:(cbn [s_G s]; lra) A0 B0 ltac:(lra)) as O. cbn [s_G s] in O. fold s in O.
    replace ((2 * G) ^ 2 * (135 * X * g_rel + 19 * g_abs)) with (G ^ 2 * (540 * X * g_rel + 76 * g_abs)) in O by ring.
    assert (V : G * (design_error q * (3 * X + 2 * U)) <= G ^ 2 * (23 * (design_error q * X))).
    { unfold U. replace (G * (design_error q * (3 * X + 2 * (10 * G * X)))) with (3 * G * (design_error q * X) + G ^ 2 * (20 * (design_error q * X))) by ring.
      assert (W0 : 0 <= design_error q * X) by (apply Rmult_le_pos; lra). revert W0. generalize (design_error q * X). intros w W0. assert (G * w <= G ^ 2 * w); [|lra]. apply Rmult_le_compat_r; [exact W0|]. simpl. rewrite Rmult_1_r. clear - G1. nra. }
    assert (GA : 76 * g_abs <= / 2 ^ 1050).
    { unfold g_abs. replace 1060%nat with (10 + 1050)%nat by reflexivity. rewrite pow_add. assert (0 < 2 ^ 1050) by (apply pow_lt; lra). rewrite Rinv_mult.
      assert (0 < / 2 ^ 1050) by (apply Rinv_0_lt_compat; assumption). simpl (2 ^ 10). lra. }
    unfold output_error. eapply Rle_trans; [apply Rplus_le_compat; [exact O|exact V]|]. rewrite <- Rmult_plus_distr_l. apply Rmult_le_compat_l; [nra|].
    unfold design_error, g_rel. assert (I0 : 0 < / q) by (apply Rinv_0_lt_compat; lra).
    assert (0 <= / q * X) by (apply Rmult_le_pos; lra). lra. }
  clear - L1 Lu Lz Q2 D TE. assert (LL : length us = length zs) by (rewrite Lu, Lz; reflexivity).
  assert (D' : forall n, (n < length us)%nat -> Rabs (nth n us 0 - nth n zs 0) <= G * (design_error q * (3 * X + 2 * U))) by (intros n Hn; apply D; exact (Nat.lt_le_trans _ _ _ Hn (Nat.eq_le_incl _ _ Lu))).
  clear D. rename D' into D. clear L1 Lu Lz. revert Q2 D LL. generalize ys. clear ys.
  revert zs. induction us as [|u us IH]; intros [|z zs] ys Q2 D LL; try discriminate; inversion Q2; subst; constructor.
  - specialize (D O ltac:(simpl; lia)). cbn [nth] in D. pose proof (Rabs_triang (B2R x - u) (u - z)) as TR. replace (B2R x - u + (u - z)) with (B2R x - z) in TR by ring. lra.
  - apply IH; [assumption| |simpl in LL; lia]. intros n Hn. apply (D (S n)). simpl. lia.
Qed.

Lemma c62 m (f q : f64) k g (r : rbj (F64 m)) : libm_close m -> no_shelf k -> FloatSpec.is_fin f -> FloatSpec.is_fin q -> 0 < B2R f < 1 / 2 -> 1 / 64 <= B2R q <= 1024 ->
  exists r', rbj_obj_setupN (N := F64 m) k f g q r = Ok r' tt /\
    let i := cookbook k (B2R f) (B2R q) in
    forall G X (xs : list f64) zs, rec_gain (i_a1 i) (i_a2 i) G -> G <= 2 ^ 37 -> 0 <= X <= 2 ^ 800 ->
    List.Forall (fun x => FloatSpec.is_fin x /\ Rabs (B2R x) <= X) xs -> diffeq 1 (i_a1 i) (i_a2 i) (i_b0 i) (i_b1 i) (i_b2 i) (map B2R xs) zs ->
    let ys := snd (rbj_run (rbj_reset r') xs) : list f64 in
    length ys = length xs /\ List.Forall FloatSpec.is_fin ys /\ List.Forall2 (fun y z => Rabs (B2R y - z) <= output_error (B2R q) G X) ys zs.
Proof.
  intros HM K Ff Fq Hf Hq. destruct (design_double m f q HM Ff Fq Hf Hq k g (r_bq r) K) as (b & E & F & N).
  destruct (cook_range k (B2R f) (B2R q) K Hf ltac:(lra)) as (R1 & R2 & R3 & R4 & R5).
  exists (MkRbj b (r_st r)). split; [unfold rbj_obj_setupN, zoom; rewrite E; reflexivity|].
  intros i G X xs zs HG G37 HX Hxs Hz. rewrite rbj_run_cs. unfold rbj_reset. cbn [r_bq r_st].
  replace (st_reset (r_st r)) with (st_init (N := F64 m) (st_topo (r_st r))) by (destruct (r_st r); reflexivity).
  apply (near_out b i (B2R q) G (st_topo (r_st r)) xs X zs F N ltac:(lra) R1 R2 R3 R4 R5 HG G37 HX Hxs Hz).
Qed.
Lemma gain_mono a1 a2 G G' : rec_gain a1 a2 G -> G <= G' -> rec_gain a1 a2 G'.
Proof. intros H L y W n HW Hy. specialize (H y W n HW Hy). nra. Qed.
Lemma c62_margin a1 a2 d : 0 < d < 1 -> 2 * d <= 1 + a2 - Rabs a1 -> 2 * d <= 1 - Rabs a2 -> rec_gain a1 a2 (/ d ^ 2).
Proof.
  intros Hd H1 H2. replace d with (1 - (1 - d)) by ring. apply gain_within; [|lra]. pose proof (Rabs_pos a1).
  apply jury_within; [lra|nra|nra].
Qed.
Lemma c62_gain k f q : no_shelf k -> 0 < f < 1 / 2 -> 0 < q -> (k <> R_IIRNotch -> 1 / 2 <= q) ->
  rec_gain (i_a1 (cookbook k f q)) (i_a2 (cookbook k f q)) (ideal_gain k f q).
Proof.
  intros (N1 & N2 & N3) Hf Hq Hh. pose proof (w_sin f Hf) as S. pose proof (SIN_bound (2 * PI * f)) as SB. pose proof (COS_bound (2 * PI * f)) as CB.
  pose proof (sin2_cos2 (2 * PI * f)) as SC. unfold Rsqr in SC.
  assert (M : 1 / 2 <= q -> rec_gain (- 2 * cos (2 * PI * f) / (1 + sin (2 * PI * f) / (2 * q))) ((1 - sin (2 * PI * f) / (2 * q)) / (1 + sin (2 * PI * f) / (2 * q))) ((1 + 2 * q / sin (2 * PI * f)) ^ 2)).
  { intros Hq2. set (s := sin (2 * PI * f)) in *. set (c := cos (2 * PI * f)) in *. set (al := s / (2 * q)).
    assert (A : 0 < al <= s). { unfold al. split; [apply Rdiv_lt_0_compat; lra|]. apply Rmult_le_reg_r with (2 * q); [lra|]. unfold Rdiv. rewrite Rmult_assoc, Rinv_l by lra. nra. }
    replace ((1 + 2 * q / s) ^ 2) with (/ (1 - / (1 + al)) ^ 2) by (unfold al; field; repeat split; lra || (intros Z; nra)).
    assert (I : 0 < / (1 + al) < 1). { split; [apply Rinv_0_lt_compat; lra|]. rewrite <- Rinv_1. apply Rinv_lt_contravar; lra. }
    apply gain_within; [|lra]. set (r := / (1 + al)) in *. assert (J : r * (1 + al) = 1) by (unfold r; field; lra).
    assert (C2 : 2 * Rabs c <= 2 - al * al).
    { assert (Rabs c <= 1 - al * al / 2); [|lra]. apply Rabs_le. assert (0 <= 1 - al * al / 2) by nra. assert (c * c <= (1 - al * al / 2) * (1 - al * al / 2)) by nra. split; nra. }
    apply jury_within; [lra| |].
    - unfold Rdiv. fold r. rewrite Rabs_pos_eq by nra. replace r with (r * (r * (1 + al))) at 1 by (rewrite J; ring). nra.
    - unfold Rdiv. fold r. rewrite !Rabs_mult, (Rabs_pos_eq r) by lra. replace (Rabs (-2)) with 2 by (rewrite Rabs_left; lra).
      replace ((1 - al) * r) with ((1 - al * al) * (r * r)) by (transitivity ((1 - al) * r * (r * (1 + al))); [ring|rewrite J; ring]).
      assert (0 < r * r) by nra. nra. }
  destruct k; try (elim N1; reflexivity); try (elim N2; reflexivity); try (elim N3; reflexivity); cbn [cookbook i_a1 i_a2 ideal_gain];
    try (apply M, Hh; discriminate).
  destruct (notch_r f q ltac:(lra) Hq) as [E0 E1]. set (t := PI * f / q). pose proof PI_RGT_0 as P0. assert (T : 0 < t) by (unfold t; apply Rdiv_lt_0_compat; nra).
  replace (- (PI * f) / q) with (- t) in * by (unfold t; field; lra). set (r := exp (- t)) in *.
  assert (R : r <= / (1 + t)). { unfold r. rewrite exp_Ropp. apply Rinv_le; [lra|]. pose proof (exp_ineq1_le t). lra. }
  apply gain_mono with (/ (1 - r) ^ 2).
  - apply gain_within; [|lra]. apply jury_within; [lra|rewrite Rabs_pos_eq; nra|]. rewrite !Rabs_mult, (Rabs_pos_eq r) by lra. replace (Rabs (-2)) with 2 by (rewrite Rabs_left; lra).
    assert (Rabs (cos (2 * PI * f)) <= 1) by (apply Rabs_le; lra). nra.
  - replace ((1 + q / (PI * f)) ^ 2) with (/ (1 - / (1 + t)) ^ 2) by (unfold t; field; repeat split; try lra; intros Z; nra).
    assert (0 < 1 - / (1 + t)). { assert (/ (1 + t) < 1); [|lra]. rewrite <- Rinv_1 at 2. apply Rinv_lt_contravar; lra. }
    apply Rinv_le; [nra|]. nra.
Qed.

(** ** the ideal coefficients are those of the exact model *)
From Verif Require Import Exact RealNum RBJSpec RBJProofs.
Lemma c61_exact strict k f g q (b : biquad (X strict)) : no_shelf k -> 0 < f < 1 / 2 -> 0 < q ->
  exists b', rbj_setupN (N := X strict) k (XR f) (XR g) (XR q) b = Ok b' tt /\ let i := cookbook k f q in
    m_a1 b' = XR (i_a1 i) /\ m_a2 b' = XR (i_a2 i) /\ m_b0 b' = XR (i_b0 i) /\ m_b1 b' = XR (i_b1 i) /\ m_b2 b' = XR (i_b2 i).
Proof.
  intros (N1 & N2 & N3) Hf Hq.
  assert (H : rbj_range k f g q) by (split; [exact Hf|split; [exact Hq|destruct k; try exact I; [elim N1|elim N2]; reflexivity]]).
  eexists. split; [apply rbj_setup_ok; exact H|]. pose proof (w_sin f Hf).
  assert (A : 0 < sin (2 * PI * f) / (2 * q)) by (apply Rdiv_lt_0_compat; lra).
  assert (E : - (2 * PI * f / 2) / q = - (PI * f) / q) by (field; lra).
  destruct k; try (elim N1; reflexivity); try (elim N2; reflexivity); try (elim N3; reflexivity);
    cbn [cookbook i_a1 i_a2 i_b0 i_b1 i_b2 rnorm emb_bq rbj_coefs rbj_lowpass rbj_highpass rbj_bandpass1 rbj_bandpass2 rbj_bandstop rbj_iirnotch rbj_allpass
      k_a0 k_a1 k_a2 k_b0 k_b1 k_b2 m_a1 m_a2 m_b0 m_b1 m_b2 nadd nsub nmul ndiv nopp nofZ ncos nsin nexp npi RN rbj_w0];
    rewrite ?E; repeat split; try reflexivity; f_equal; field; lra.
Qed.

(** ** a concrete library and a concrete filter *)
Definition to_f64 (r : R) : f64 := fnorm (Round_NE.ZnearestE (scaled_mantissa Zaux.radix2 (SpecFloat.fexp 53 1024) r)) (cexp Zaux.radix2 (SpecFloat.fexp 53 1024) r).
Lemma to_f64_ok r : Rabs r <= big -> is_finite (to_f64 r) = true /\ Rabs (B2R (to_f64 r) - r) <= uu * Rabs r + tiny.
Proof.
  intros H. unfold to_f64, fnorm.
  pose proof (@binary_normalize_correct 53 1024 Hprec64 Hemax64 mode_NE (Round_NE.ZnearestE (scaled_mantissa Zaux.radix2 (SpecFloat.fexp 53 1024) r)) (cexp Zaux.radix2 (SpecFloat.fexp 53 1024) r) false) as Q.
  cbv zeta in Q. change (F2R (Float Zaux.radix2 (Round_NE.ZnearestE (scaled_mantissa Zaux.radix2 (SpecFloat.fexp 53 1024) r)) (cexp Zaux.radix2 (SpecFloat.fexp 53 1024) r))) with (rnd64 r) in Q.
  rewrite round_generic in Q; [|apply valid_rnd_round_mode|apply generic_format_round; [apply vexp64|apply valid_rnd_round_mode]].
  rewrite rnd_fit in Q by exact H. destruct Q as (A & B & _). split; [exact B|]. rewrite A. apply rnd_err.
Qed.
(** correctly rounded sin, cos and exp *)
Definition round_libm : libm := MkLibm (fun x => to_f64 (sin (B2R x))) (fun x => to_f64 (cos (B2R x))) (lm_tan ref_libm) (lm_atan ref_libm)
  (fun x => to_f64 (exp (B2R x))) (lm_log ref_libm) (lm_sinh ref_libm) (lm_cosh ref_libm) (lm_pow ref_libm)
  (lm_cmul ref_libm) (lm_cdiv ref_libm) (lm_csqrt ref_libm) (lm_cabs ref_libm) (lm_polar ref_libm).
Lemma ex_close fn lo hi : (forall x, lo <= x <= hi -> Rabs (fn x) <= 3) -> lib_close (fun x => to_f64 (fn (B2R x))) fn lo hi (/ 2 ^ 50).
Proof.
  intros H x Fx Hx. specialize (H _ Hx). pose proof big_big. pose proof tiny_uu. destruct (to_f64_ok (fn (B2R x)) ltac:(lra)) as [A B]. split; [exact A|].
  eapply Rle_trans; [exact B|]. unfold uu in *. lra.
Qed.
Lemma round_libm_close : libm_close round_libm.
Proof.
  split; [|split].
  - apply (ex_close sin). intros x _. pose proof (SIN_bound x). apply Rabs_le; lra.
  - apply (ex_close cos). intros x _. pose proof (COS_bound x). apply Rabs_le; lra.
  - apply (ex_close exp). intros x Hx. rewrite Rabs_pos_eq by (left; apply exp_pos). pose proof exp_le_3.
    destruct (Req_dec x 1) as [->|]; [lra|]. assert (exp x < exp 1) by (apply exp_increasing; lra). lra.
Qed.
Lemma ex_fq : let f := fnorm 1 (-3) in let q := fofZ 1 in FloatSpec.is_fin f /\ FloatSpec.is_fin q /\ B2R f = 1 / 8 /\ B2R q = 1.
Proof.
  destruct (fnorm_exact 1 (-3) ltac:(lia) ltac:(lia)) as [A B]. destruct (fofZ_val 1 ltac:(lia)) as [C D].
  split; [exact B|]. split; [exact D|]. split; [|exact C]. rewrite A. unfold F2R. cbn. lra.
Qed.
Lemma ex_gain8 : ideal_gain R_LowPass (1 / 8) 1 <= 16 /\ output_error 1 16 1 <= 1 / 10 ^ 8.
Proof.
  split.
  - cbn [ideal_gain]. replace (2 * PI * (1 / 8)) with (PI / 4) by field. rewrite sin_PI4.
    assert (L : 1 <= sqrt 2 <= 142 / 100). { split; [rewrite <- sqrt_1; apply sqrt_le_1; lra|]. rewrite <- (sqrt_square (142 / 100)) by lra. apply sqrt_le_1; lra. }
    assert (E : 1 / (1 / sqrt 2) = sqrt 2) by (field; lra). replace (2 * 1 / (1 / sqrt 2)) with (2 * sqrt 2) by (field; lra). nra.
  - unfold output_error. assert (/ 2 ^ 1050 <= / 2 ^ 67) by (apply Rinv_le; [apply pow_lt; lra|apply Rle_pow; [lra|lia]]).
    lra.
Qed.

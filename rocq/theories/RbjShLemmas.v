(** Proofs: stability and output error of the RBJ shelves in binary64. *)
From Coq Require Import ZArith List Bool Reals Lra Lia.
From Coquelicot Require Import Coquelicot.
From Flocq Require Import Core.Raux Core.Defs Core.Generic_fmt IEEE754.BinarySingleNaN.
From Verif Require Import Num Outcome Types Biquad State Cascade RBJ Float64 RefLibm FloatSpec FloatProofs FloatLemmas SampleLemmas Stream SigSpec SigProofs StabProofs
  RoundSpec RoundProofs RoundRun RoundLemmas DblPi DblSpec DblProofs DblLemmas RbjShSpec RbjShProofs Exact RealNum RBJSpec RBJProofs.
Import ListNotations.
Local Open Scope R_scope.

(** ** the ideal coefficients *)
Lemma sl_sq_range A s w : 1 / 4 <= A <= 4 -> 1 / 16 <= s <= 1 -> 0 < sin w -> 7 / 10 * sin w <= 2 * sqrt A * (sin w / 2 * sqrt ((A + 1 / A) * (1 / s - 1) + 2)) <= 65 / 4.
Proof.
  intros HA Hs Hw. pose proof (SIN_bound w). assert (I : 0 < / A) by (apply Rinv_0_lt_compat; lra). assert (J : A * / A = 1) by (apply Rinv_r; lra).
  assert (0 <= 1 / s - 1 <= 15). { assert (/ 1 <= / s) by (apply Rinv_le; lra). assert (/ s <= / (1 / 16)) by (apply Rinv_le; lra). lra. }
  assert (Q : 0 < A + 1 / A <= 17 / 4) by (unfold Rdiv; nra).
  assert (L : 14 / 10 <= sqrt ((A + 1 / A) * (1 / s - 1) + 2) <= 65 / 8).
  { split; [rewrite <- (sqrt_square (14 / 10)) at 1 by lra|rewrite <- (sqrt_square (65 / 8)) by lra]; apply sqrt_le_1; nra. }
  assert (M : 1 / 2 <= sqrt A <= 2). { split; [rewrite <- (sqrt_square (1 / 2)) at 1 by lra|rewrite <- (sqrt_square 2) by lra]; apply sqrt_le_1; nra. }
  revert L M. generalize (sqrt ((A + 1 / A) * (1 / s - 1) + 2)) (sqrt A). intros t a L M.
  replace (2 * a * (sin w / 2 * t)) with (a * t * sin w) by field. assert (7 / 10 <= a * t <= 65 / 4) by (split; nra). split; nra.
Qed.
Lemma sinh_half x : 0 <= x -> x / 2 <= sinh x.
Proof.
  intros H. unfold sinh. pose proof (exp_ineq1_le x). pose proof (exp_mono (- x) 0 ltac:(lra)) as Q. rewrite exp_0 in Q. lra.
Qed.
Lemma bs_al_range f s : 0 < f < 1 / 2 -> / 2 ^ 15 <= f -> 1 / 64 <= s -> s * (2 * PI * f) <= 11 * sin (2 * PI * f) ->
  / 2 ^ 21 <= sin (2 * PI * f) * sinh (ln 2 / 2 * s * (2 * PI * f) / sin (2 * PI * f)) <= 41.
Proof.
  intros Hf Hl Hs Hw. pose proof (w_sin f Hf) as S. pose proof (SIN_bound (2 * PI * f)) as SB. pose proof ln2_bounds as L. apply Rabs_le_between in L. pose proof pi_bounds.
  assert (W1 : 6 / 32768 <= 2 * PI * f) by (simpl in Hl; nra). set (w := 2 * PI * f) in *. set (t := ln 2 / 2 * s * w / sin w).
  assert (T : t * sin w = ln 2 / 2 * (s * w)) by (unfold t; field; lra). assert (P : 0 < s * w) by nra.
  assert (T0 : 0 <= t <= 4). { split; apply Rmult_le_reg_r with (sin w); try lra; rewrite T; nra. }
  pose proof (sinh_half t (proj1 T0)). pose proof exp4. pose proof (exp_mono t 4 (proj2 T0)). pose proof (exp_pos (- t)). unfold sinh in *. split; [|nra].
  apply Rle_trans with (sin w * (t / 2)); [|apply Rmult_le_compat_l; lra]. simpl in *. nra.
Qed.
Lemma shelf_range k f g s : shelf_args k f g s -> let i := cookbook_shelf k f g s in
  Rabs (i_a1 i) <= 2 /\ Rabs (i_a2 i) <= 1 /\ Rabs (i_b0 i) <= 16 /\ Rabs (i_b1 i) <= 32 /\ Rabs (i_b2 i) <= 16.
Proof.
  intros (Hf & Hg & H) i. pose proof (amp_range g Hg) as HA. pose proof (COS_bound (2 * PI * f)) as CB. pose proof (w_sin f Hf) as HS.
  subst i. unfold cookbook_shelf. revert HA H. generalize (Rpower 10 (g / 40)). intros A HA H.
  destruct k; try contradiction; cbn [i_a1 i_a2 i_b0 i_b1 i_b2].
  - pose proof (sl_sq_range A s _ HA H HS) as [Q1 Q2]. revert Q1 Q2. generalize (2 * sqrt A * (sin (2 * PI * f) / 2 * sqrt ((A + 1 / A) * (1 / s - 1) + 2))). intros q Q1 Q2.
    revert CB. generalize (cos (2 * PI * f)). intros c CB. assert (D : 1 / 2 <= A + 1 + (A - 1) * c) by nra. assert (N : 0 <= A + 1 - (A - 1) * c <= 4 * (A + 1 + (A - 1) * c)) by (split; nra).
    assert (B1 : Rabs (A - 1 - (A + 1) * c) <= A + 1 - (A - 1) * c) by (apply Rabs_le; split; nra).
    assert (A1 : Rabs (A - 1 + (A + 1) * c) <= A + 1 + (A - 1) * c) by (apply Rabs_le; split; nra).
    repeat split; apply frac_le2; try lra.
    + rewrite Rabs_mult, Rabs_left by lra. lra.
    + apply Rabs_le; lra.
    + rewrite Rabs_mult, (Rabs_pos_eq A), Rabs_pos_eq by lra. nra.
    + rewrite Rabs_mult, (Rabs_pos_eq (2 * A)) by lra. apply Rle_trans with (2 * A * (4 * (A + 1 + (A - 1) * c))); [apply Rmult_le_compat_l; lra|nra].
    + rewrite Rabs_mult, (Rabs_pos_eq A) by lra. apply Rle_trans with (A * (4 * (A + 1 + (A - 1) * c) + q)); [apply Rmult_le_compat_l; [lra|apply Rabs_le; lra]|nra].
  - pose proof (sl_sq_range A s _ HA H HS) as [Q1 Q2]. revert Q1 Q2. generalize (2 * sqrt A * (sin (2 * PI * f) / 2 * sqrt ((A + 1 / A) * (1 / s - 1) + 2))). intros q Q1 Q2.
    revert CB. generalize (cos (2 * PI * f)). intros c CB. assert (D : 1 / 2 <= A + 1 - (A - 1) * c) by nra. assert (N : 0 <= A + 1 + (A - 1) * c <= 4 * (A + 1 - (A - 1) * c)) by (split; nra).
    assert (B1 : Rabs (A - 1 - (A + 1) * c) <= A + 1 - (A - 1) * c) by (apply Rabs_le; split; nra).
    assert (A1 : Rabs (A - 1 + (A + 1) * c) <= A + 1 + (A - 1) * c) by (apply Rabs_le; split; nra).
    repeat split; apply frac_le2; try lra.
    + rewrite Rabs_mult, (Rabs_pos_eq 2) by lra. lra.
    + apply Rabs_le; lra.
    + rewrite Rabs_mult, (Rabs_pos_eq A), Rabs_pos_eq by lra. nra.
    + rewrite Rabs_mult, (Rabs_left (-2 * A)) by lra. replace (- (-2 * A)) with (2 * A) by ring. apply Rle_trans with (2 * A * (4 * (A + 1 - (A - 1) * c))); [apply Rmult_le_compat_l; lra|nra].
    + rewrite Rabs_mult, (Rabs_pos_eq A) by lra. apply Rle_trans with (A * (4 * (A + 1 - (A - 1) * c) + q)); [apply Rmult_le_compat_l; [lra|apply Rabs_le; lra]|nra].
  - destruct H as (H1 & H2 & H3). pose proof (bs_al_range f s Hf H1 H2 H3) as [Q1 Q2]. revert Q1 Q2. generalize (sin (2 * PI * f) * sinh (ln 2 / 2 * s * (2 * PI * f) / sin (2 * PI * f))). intros al Q1 Q2.
    revert CB. generalize (cos (2 * PI * f)). intros c CB. assert (A0 : 0 < al) by (simpl in Q1; lra).
    assert (Z : 0 < al / A) by (apply Rdiv_lt_0_compat; lra).
    assert (Z3 : al * A <= 16 * (al / A)). { replace (al * A) with (16 * (al / A) * (A * A / 16)) by (field; lra). rewrite <- (Rmult_1_r (16 * (al / A))) at 2. apply Rmult_le_compat_l; nra. }
    assert (Z4 : 0 <= al * A) by (apply Rmult_le_pos; lra).
    repeat split; apply frac_le2; try lra; apply Rabs_le; lra.
Qed.
Lemma shelf_margin k f g s : shelf_args k f g s -> / 2 ^ 15 <= f <= 1 / 2 - / 2 ^ 15 -> let i := cookbook_shelf k f g s in
  Rabs (i_a2 i) <= 1 - / 10 ^ 10 /\ Rabs (i_a1 i) <= 1 + i_a2 i - 4 / 10 ^ 11.
Proof.
  intros (Hf & Hg & H) Hr i. pose proof (amp_range g Hg) as HA. pose proof (COS_bound (2 * PI * f)) as CB. pose proof (w_sin f Hf) as HS.
  pose proof (w_sin_low f ltac:(simpl in Hr; lra)) as SL. pose proof (sin2_cos2 (2 * PI * f)) as SC. unfold Rsqr in SC.
  assert (C1 : - (1 - 1 / 250000000) <= cos (2 * PI * f) <= 1 - 1 / 250000000) by (split; nra). clear SC.
  subst i. unfold cookbook_shelf. revert HA H. generalize (Rpower 10 (g / 40)). intros A HA H.
  destruct k; try contradiction; cbn [i_a1 i_a2 i_b0 i_b1 i_b2].
  - pose proof (sl_sq_range A s _ HA H HS) as [Q1 Q2]. revert Q1 Q2. generalize (2 * sqrt A * (sin (2 * PI * f) / 2 * sqrt ((A + 1 / A) * (1 / s - 1) + 2))). intros q Q1 Q2.
    revert CB C1. generalize (cos (2 * PI * f)). intros c CB C1. assert (D : 1 / 2 <= A + 1 + (A - 1) * c <= 8) by (split; nra).
    assert (E1 : / 1000000000 <= 2 - 2 * c) by lra. assert (E2 : / 1000000000 <= 2 * A * (1 + c)) by nra.
    split; [apply frac_le2; [lra|]; apply Rabs_le; lra|]. apply frac_le2; [lra|].
    replace ((1 + (A + 1 + (A - 1) * c - q) / (A + 1 + (A - 1) * c + q) - 4 / 10 ^ 11) * (A + 1 + (A - 1) * c + q)) with (2 * (A + 1 + (A - 1) * c) - 4 / 10 ^ 11 * (A + 1 + (A - 1) * c + q)) by (field; lra).
    apply Rabs_le. split; lra.
  - pose proof (sl_sq_range A s _ HA H HS) as [Q1 Q2]. revert Q1 Q2. generalize (2 * sqrt A * (sin (2 * PI * f) / 2 * sqrt ((A + 1 / A) * (1 / s - 1) + 2))). intros q Q1 Q2.
    revert CB C1. generalize (cos (2 * PI * f)). intros c CB C1. assert (D : 1 / 2 <= A + 1 - (A - 1) * c <= 8) by (split; nra).
    assert (E1 : / 1000000000 <= 2 + 2 * c) by lra. assert (E2 : / 1000000000 <= 2 * A * (1 - c)) by nra.
    split; [apply frac_le2; [lra|]; apply Rabs_le; lra|]. apply frac_le2; [lra|].
    replace ((1 + (A + 1 - (A - 1) * c - q) / (A + 1 - (A - 1) * c + q) - 4 / 10 ^ 11) * (A + 1 - (A - 1) * c + q)) with (2 * (A + 1 - (A - 1) * c) - 4 / 10 ^ 11 * (A + 1 - (A - 1) * c + q)) by (field; lra).
    apply Rabs_le. split; lra.
  - destruct H as (H1 & H2 & H3). pose proof (bs_al_range f s Hf H1 H2 H3) as [Q1 Q2]. revert Q1 Q2. generalize (sin (2 * PI * f) * sinh (ln 2 / 2 * s * (2 * PI * f) / sin (2 * PI * f))). intros al Q1 Q2.
    revert CB C1. generalize (cos (2 * PI * f)). intros c CB C1. 
    assert (Z : / 2 ^ 23 <= al / A <= 164).
    { split; (apply Rmult_le_reg_r with A; [lra|]); unfold Rdiv; rewrite Rmult_assoc, Rinv_l by lra; simpl in *; nra. }
    simpl (2 ^ 23) in Z. split; [apply frac_le2; [lra|]; apply Rabs_le; lra|]. apply frac_le2; [lra|].
    replace ((1 + (1 - al / A) / (1 + al / A) - 4 / 10 ^ 11) * (1 + al / A)) with (2 - 4 / 10 ^ 11 * (1 + al / A)) by (field; split; lra).
    apply Rabs_le. split; lra.
Qed.
Lemma c70 m (f g s : f64) k b : libm_shelf m -> FloatSpec.is_fin f -> FloatSpec.is_fin g -> FloatSpec.is_fin s -> shelf_args k (B2R f) (B2R g) (B2R s) ->
  exists b', rbj_setupN (N := F64 m) k f g s b = Ok b' tt /\ fin_coeffs b' /\ shelf_near b' (cookbook_shelf k (B2R f) (B2R g) (B2R s)) /\
    (/ 2 ^ 15 <= B2R f <= 1 / 2 - / 2 ^ 15 -> stable_poly (B2R (m_a1 b' : f64)) (B2R (m_a2 b' : f64))).
Proof.
  intros HM Ff Fg Fs H. destruct (shelf_double m f g s k b HM Ff Fg Fs H) as (b' & E & F & N). exists b'. split; [exact E|]. split; [exact F|]. split; [exact N|].
  intros Hr. destruct (shelf_margin k _ _ _ H Hr) as [M2 M1]. destruct N as (N1 & N2 & _).
  apply jury.
  - pose proof (near_bound _ _ _ _ N2 M2). simpl in *. lra.
  - pose proof (near_bound _ _ _ _ N1 M1) as Z. apply Rabs_le_between in N2. simpl in *. lra.
Qed.
Lemma shelf_args_range k f g s : shelf_args k f g s -> rbj_range k f g s.
Proof.
  intros (Hf & Hg & H). pose proof (amp_range g Hg) as HA. destruct k; try contradiction; (split; [exact Hf|split; [|]]); try exact I; try lra.
  all: unfold shelf_E; revert HA; generalize (Rpower 10 (g / 40)); intros A HA; assert (0 < / A) by (apply Rinv_0_lt_compat; lra);
    assert (0 <= 1 / s - 1) by (assert (/ 1 <= / s) by (apply Rinv_le; lra); lra); assert (0 <= A + 1 / A) by lra; nra.
Qed.
Lemma c70_exact strict k f g s (b : biquad (X strict)) : shelf_args k f g s ->
  exists b', rbj_setupN (N := X strict) k (XR f) (XR g) (XR s) b = Ok b' tt /\ let i := cookbook_shelf k f g s in
    m_a1 b' = XR (i_a1 i) /\ m_a2 b' = XR (i_a2 i) /\ m_b0 b' = XR (i_b0 i) /\ m_b1 b' = XR (i_b1 i) /\ m_b2 b' = XR (i_b2 i).
Proof.
  intros H. eexists. split; [apply rbj_setup_ok, shelf_args_range, H|]. destruct H as (_ & _ & H).
  destruct k; try contradiction; repeat split; reflexivity.
Qed.

(** ** the output of the whole filter *)
Lemma coefs_apart2 a1 a2 b0 b1 b2 c1 c2 d0 d1 d2 G Ea Eb (x u z : nat -> R) X U n : rec_gain a1 a2 G -> 0 <= X -> 0 <= U ->
  Rabs (c1 - a1) <= Ea -> Rabs (c2 - a2) <= Ea -> Rabs (d0 - b0) <= Eb -> Rabs (d1 - b1) <= Eb -> Rabs (d2 - b2) <= Eb ->
  (forall i, (i <= n)%nat -> Rabs (x i) <= X) -> (forall i, (i <= n)%nat -> Rabs (u i) <= U) ->
  (forall i, (i <= n)%nat -> fir 1 a1 a2 z i = fir b0 b1 b2 x i) -> (forall i, (i <= n)%nat -> fir 1 c1 c2 u i = fir d0 d1 d2 x i) ->
  Rabs (u n - z n) <= G * (3 * Eb * X + 2 * Ea * U).
Proof.
  intros HG HX HU H1 H2 H3 H4 H5 Hx Hu Hz He. assert (E0 : 0 <= Ea) by (eapply Rle_trans; [apply Rabs_pos|exact H1]). assert (E1 : 0 <= Eb) by (eapply Rle_trans; [apply Rabs_pos|exact H3]).
  apply (gain_fir _ _ _ HG (fun k => u k - z k)). { assert (0 <= Eb * X) by (apply Rmult_le_pos; lra). assert (0 <= Ea * U) by (apply Rmult_le_pos; lra). lra. }
  intros i Hi. rewrite fir_sub, Hz by exact Hi.
  replace (fir 1 a1 a2 u i) with (fir 1 c1 c2 u i - fir 0 (c1 - a1) (c2 - a2) u i) by (unfold fir; ring). rewrite He by exact Hi.
  replace (fir d0 d1 d2 x i - fir 0 (c1 - a1) (c2 - a2) u i - fir b0 b1 b2 x i) with (fir (d0 - b0) (d1 - b1) (d2 - b2) x i - fir 0 (c1 - a1) (c2 - a2) u i) by (unfold fir; ring).
  assert (P : Rabs (fir (d0 - b0) (d1 - b1) (d2 - b2) x i) <= 3 * Eb * X).
  { eapply Rle_trans; [apply (fir_bd _ _ _ _ X); [exact HX|intros j Hj; apply Hx; lia]|]. apply Rmult_le_compat_r; lra. }
  assert (Q : Rabs (fir 0 (c1 - a1) (c2 - a2) u i) <= 2 * Ea * U).
  { eapply Rle_trans; [apply (fir_bd _ _ _ _ U); [exact HU|intros j Hj; apply Hu; lia]|]. apply Rmult_le_compat_r; [exact HU|]. rewrite Rabs_R0. lra. }
  unfold Rminus at 1. eapply Rle_trans; [apply Rabs_triang|]. rewrite Rabs_Ropp. lra.
Qed.
Lemma own_shelf s X : 1 <= s_G s -> 0 <= s_A s <= 4 -> 0 <= s_B s <= 65 -> 0 <= X ->
  own_error s X <= (s_G s) ^ 2 * (1755 * X * g_rel + 199 * g_abs).
Proof.
  intros G1 HA HB HX. unfold own_error. set (G := s_G s) in *. set (A := s_A s) in *. set (B := s_B s) in *. pose proof g_pos as GP.
  assert (R0 : 0 < g_rel <= 1 / 1000000) by (rewrite g_rel_uu; unfold uu; lra).
  assert (P : 0 <= (1 + B) * g_abs <= 66 * g_abs) by (split; [apply Rmult_le_pos; lra|apply Rmult_le_compat_r; lra]).
  assert (Q : 0 <= B * X <= 65 * X) by (split; [apply Rmult_le_pos; lra|apply Rmult_le_compat_r; lra]).
  assert (K : 1 <= 1 + 2 * A * G <= 9 * G) by nra.
  set (S := B * X + (1 + B) * g_abs) in *. assert (HS : 0 <= S <= 65 * X + 66 * g_abs) by (unfold S; lra).
  assert (V : g_rel * (1 + 2 * A * G) * S <= g_rel * (9 * G) * (65 * X + 66 * g_abs)).
  { apply Rmult_le_compat; [nra|lra| |lra]. apply Rmult_le_compat_l; lra. }
  assert (V2 : (1 + B) * g_abs <= G * (66 * g_abs)) by nra.
  apply Rle_trans with (3 * G * (g_rel * (9 * G) * (65 * X + 66 * g_abs) + G * (66 * g_abs))).
  { apply Rmult_le_compat_l; lra. }
  replace (3 * G * (g_rel * (9 * G) * (65 * X + 66 * g_abs) + G * (66 * g_abs))) with (G ^ 2 * (1755 * X * g_rel + 1782 * (g_rel * g_abs) + 198 * g_abs)) by ring.
  apply Rmult_le_compat_l; [nra|]. assert (g_rel * g_abs <= 1 / 1000000 * g_abs) by (apply Rmult_le_compat_r; lra). lra.
Qed.
Lemma near_out_shelf {m} (b : biquad (F64 m)) i G t (xs : list f64) X zs :
  fin_coeffs b -> shelf_near b i ->
  Rabs (i_a1 i) <= 2 -> Rabs (i_a2 i) <= 1 -> Rabs (i_b0 i) <= 16 -> Rabs (i_b1 i) <= 32 -> Rabs (i_b2 i) <= 16 ->
  rec_gain (i_a1 i) (i_a2 i) G -> G <= 2 ^ 34 -> 0 <= X <= 2 ^ 800 ->
  List.Forall (fun x => FloatSpec.is_fin x /\ Rabs (B2R x) <= X) xs ->
  diffeq 1 (i_a1 i) (i_a2 i) (i_b0 i) (i_b1 i) (i_b2 i) (map B2R xs) zs ->
  let ys := snd (cs_run (MkCStages [b] [st_init t]) xs) : list f64 in
  length ys = length xs /\ List.Forall FloatSpec.is_fin ys /\ List.Forall2 (fun y z => Rabs (B2R y - z) <= shelf_error G X) ys zs.
Proof.
  intros F N H1 H2 H3 H4 H5 HG G34 HX Hxs Hz ys.
  pose proof (gain_ge1 _ _ _ HG) as G1. pose proof N as (N1 & N2 & N3 & N4 & N5).
  set (Ea := / 2 ^ 36) in *. set (Eb := / 2 ^ 33) in *. assert (VA : Ea = / 68719476736) by (unfold Ea; lra). assert (VB : Eb = / 8589934592) by (unfold Eb; lra).
  assert (SA : Rabs (B2R (m_a1 b : f64)) + Rabs (B2R (m_a2 b : f64)) <= 4).
  { pose proof (near_bound _ _ _ _ N1 H1). pose proof (near_bound _ _ _ _ N2 H2). lra. }
  assert (SB : Rabs (B2R (m_b0 b : f64)) + Rabs (B2R (m_b1 b : f64)) + Rabs (B2R (m_b2 b : f64)) <= 65).
  { pose proof (near_bound _ _ _ _ N3 H3). pose proof (near_bound _ _ _ _ N4 H4). pose proof (near_bound _ _ _ _ N5 H5). lra. }
  assert (HG' : rec_gain (B2R (m_a1 b : f64)) (B2R (m_a2 b : f64)) (2 * G)).
  { apply (gain_near _ _ _ _ _ _ HG N1 N2). rewrite VA. lra. }
  set (s := Sect (B2R (m_a1 b : f64)) (B2R (m_a2 b : f64)) (B2R (m_b0 b : f64)) (B2R (m_b1 b : f64)) (B2R (m_b2 b : f64)) (2 * G)).
  assert (A0 : 0 <= s_A s <= 4). { split; [|exact SA]. unfold s_A. pose proof (Rabs_pos (s_a1 s)). pose proof (Rabs_pos (s_a2 s)). lra. }
  assert (B0 : 0 <= s_B s <= 65). { split; [|exact SB]. unfold s_B. pose proof (Rabs_pos (s_b0 s)). pose proof (Rabs_pos (s_b1 s)). pose proof (Rabs_pos (s_b2 s)). lra. }
  assert (P800 : 1 <= 2 ^ 800 /\ 2 ^ 900 = 2 ^ 100 * 2 ^ 800).
  { split; [apply pow_R1_Rle; lra|rewrite <- pow_add; reflexivity]. }
  assert (OK : sect_ok s X).
  { split; [exact HG'|]. change (s_G s) with (2 * G). split; [simpl; nra|]. destruct P800 as [P1 P2]. rewrite P2. revert P1 HX. generalize (2 ^ 800). intros p P1 HX.
    assert (2 * G * s_B s <= 130 * 2 ^ 34) by nra. split; [nra|].
    apply Rle_trans with (130 * 2 ^ 34 * (2 * p)); [apply Rmult_le_compat; nra|]. simpl. lra. }
  destruct (diffeq_exists (s_a1 s) (s_a2 s) (s_b0 s) (s_b1 s) (s_b2 s) (map B2R xs)) as (us & Hu & _).
  assert (Ex : exact_out [s] (map B2R xs) us) by (exists us; split; [exact Hu|reflexivity]).
  destruct (c54_cs m [b] [s] t xs X us) as (L1 & L2 & Q1 & Q2); auto.
  { constructor; [repeat split; reflexivity|constructor]. }
  { split; [exact OK|exact I]. }
  { lra. }
  fold ys in L1, L2, Q1, Q2. cbn [length repeat] in L1, Q1, Q2. fold ys in L1, Q1, Q2.
  split; [exact L1|]. split; [eapply List.Forall_impl; [|exact Q1]; intros y Hy; apply Hy|].
  destruct (diffeq_fir _ _ _ _ _ _ _ Hu) as [Lu Fu]. destruct (diffeq_fir _ _ _ _ _ _ _ Hz) as [Lz Fz]. rewrite map_length in *.
  set (U := 130 * G * X). assert (U0 : 0 <= U) by (unfold U; nra).
  assert (XB : forall i, Rabs (seqof (map B2R xs) i) <= X).
  { intros j. unfold seqof. destruct (Nat.lt_ge_cases j (length xs)) as [L|L].
    - rewrite (nth_indep _ 0 (B2R f0)) by (rewrite map_length; exact L). rewrite map_nth. apply (proj1 (List.Forall_forall _ _) Hxs). apply nth_In, L.
    - rewrite nth_overflow by (rewrite map_length; exact L). rewrite Rabs_R0. lra. }
  assert (UB : forall n, (n < length xs)%nat -> Rabs (seqof us n) <= U).
  { intros n Hn. replace U with (2 * G * (65 * X)) by (unfold U; ring). apply (gain_fir _ _ _ HG'); [lra|]. intros j Hj.
    assert (FJ : fir 1 (s_a1 s) (s_a2 s) (seqof us) j = fir (s_b0 s) (s_b1 s) (s_b2 s) (seqof (map B2R xs)) j) by (apply Fu; lia).
    cbn [s_a1 s_a2 s_b0 s_b1 s_b2 s] in FJ. rewrite FJ.
    eapply Rle_trans; [apply (fir_bd _ _ _ _ X); [lra|intros; apply XB]|]. apply Rmult_le_compat_r; lra. }
  assert (D : forall n, (n < length xs)%nat -> Rabs (nth n us 0 - nth n zs 0) <= G * (3 * Eb * X + 2 * Ea * U)).
  { intros n Hn. change (nth n us 0) with (seqof us n). change (nth n zs 0) with (seqof zs n).
    apply (coefs_apart2 _ _ _ _ _ _ _ _ _ _ _ _ _ (seqof (map B2R xs)) _ _ X U n HG ltac:(lra) U0 N1 N2 N3 N4 N5); intros j Hj.
    - apply XB.
    - apply UB. lia.
    - apply Fz. lia.
    - apply Fu. lia. }
  assert (TE : total_error [s] X 0 + G * (3 * Eb * X + 2 * Ea * U) <= shelf_error G X).
  { cbn [total_error]. rewrite Rmult_0_r, Rplus_0_l.
    pose proof (own_shelf s X ltac:(cbn [s_G s]; lra) A0 B0 ltac:(lra)) as O. cbn [s_G s] in O. fold s in O.
    replace ((2 * G) ^ 2 * (1755 * X * g_rel + 199 * g_abs)) with (G ^ 2 * (7020 * X * g_rel + 796 * g_abs)) in O by ring.
    assert (V : G * (3 * Eb * X + 2 * Ea * U) <= G ^ 2 * (284 * / 68719476736 * X)).
    { unfold U. rewrite VA, VB. assert (G * X <= G ^ 2 * X) by (apply Rmult_le_compat_r; [lra|simpl; nra]). nra. }
    assert (GA : 796 * g_abs <= / 2 ^ 1050).
    { unfold g_abs. replace 1060%nat with (10 + 1050)%nat by reflexivity. rewrite pow_add. assert (0 < 2 ^ 1050) by (apply pow_lt; lra). rewrite Rinv_mult.
      assert (0 < / 2 ^ 1050) by (apply Rinv_0_lt_compat; assumption). simpl (2 ^ 10). lra. }
    unfold shelf_error. eapply Rle_trans; [apply Rplus_le_compat; [exact O|exact V]|]. rewrite <- Rmult_plus_distr_l. apply Rmult_le_compat_l; [nra|].
    unfold g_rel. lra. }
  clear - L1 Lu Lz Q2 D TE. assert (LL : length us = length zs) by (rewrite Lu, Lz; reflexivity).
  assert (D' : forall n, (n < length us)%nat -> Rabs (nth n us 0 - nth n zs 0) <= G * (3 * Eb * X + 2 * Ea * U)) by (intros n Hn; apply D; exact (Nat.lt_le_trans _ _ _ Hn (Nat.eq_le_incl _ _ Lu))).
  clear D. rename D' into D. clear L1 Lu Lz. revert Q2 D LL. generalize ys. clear ys.
  revert zs. induction us as [|u us IH]; intros [|z zs] ys Q2 D LL; try discriminate; inversion Q2; subst; constructor.
  - specialize (D O ltac:(simpl; lia)). cbn [nth] in D. pose proof (Rabs_triang (B2R x - u) (u - z)) as TR. replace (B2R x - u + (u - z)) with (B2R x - z) in TR by ring. lra.
  - apply IH; [assumption| |simpl in LL; lia]. intros n Hn. apply (D (S n)). simpl. lia.
Qed.
Lemma c70_output m (f g s : f64) k (r : rbj (F64 m)) : libm_shelf m -> FloatSpec.is_fin f -> FloatSpec.is_fin g -> FloatSpec.is_fin s -> shelf_args k (B2R f) (B2R g) (B2R s) ->
  exists r', rbj_obj_setupN (N := F64 m) k f g s r = Ok r' tt /\
    let i := cookbook_shelf k (B2R f) (B2R g) (B2R s) in
    forall G X (xs : list f64) zs, rec_gain (i_a1 i) (i_a2 i) G -> G <= 2 ^ 34 -> 0 <= X <= 2 ^ 800 ->
    List.Forall (fun x => FloatSpec.is_fin x /\ Rabs (B2R x) <= X) xs -> diffeq 1 (i_a1 i) (i_a2 i) (i_b0 i) (i_b1 i) (i_b2 i) (map B2R xs) zs ->
    let ys := snd (rbj_run (rbj_reset r') xs) : list f64 in
    length ys = length xs /\ List.Forall FloatSpec.is_fin ys /\ List.Forall2 (fun y z => Rabs (B2R y - z) <= shelf_error G X) ys zs.
Proof.
  intros HM Ff Fg Fs H. destruct (shelf_double m f g s k (r_bq r) HM Ff Fg Fs H) as (b & E & F & N).
  destruct (shelf_range k _ _ _ H) as (R1 & R2 & R3 & R4 & R5).
  exists (MkRbj b (r_st r)). split; [unfold rbj_obj_setupN, zoom; rewrite E; reflexivity|].
  intros i G X xs zs HG G34 HX Hxs Hz. rewrite rbj_run_cs. unfold rbj_reset. cbn [r_bq r_st].
  replace (st_reset (r_st r)) with (st_init (N := F64 m) (st_topo (r_st r))) by (destruct (r_st r); reflexivity).
  apply (near_out_shelf b i G (st_topo (r_st r)) xs X zs F N R1 R2 R3 R4 R5 HG G34 HX Hxs Hz).
Qed.
Lemma c70_gain a1 a2 : 0 < a2 < 1 -> a1 ^ 2 <= 4 * a2 -> rec_gain a1 a2 (/ (1 - sqrt a2) ^ 2).
Proof.
  intros H D. assert (S0 : 0 < sqrt a2) by (apply sqrt_lt_R0; lra). assert (S2 : sqrt a2 * sqrt a2 = a2) by (apply sqrt_sqrt; lra).
  assert (S1 : sqrt a2 < 1) by nra. apply gain_within; [|exact S1]. apply jury_within; [exact S0|rewrite Rabs_pos_eq; lra|].
  assert (Rabs a1 <= 2 * sqrt a2) by (apply Rabs_le; split; nra). nra.
Qed.

(** ** a concrete library and concrete filters *)
Definition shelf_libm : libm := MkLibm (lm_sin round_libm) (lm_cos round_libm) (lm_tan ref_libm) (lm_atan ref_libm)
  (lm_exp round_libm) (lm_log ref_libm) (fun x => to_f64 (sinh (B2R x))) (lm_cosh ref_libm) (fun x y => to_f64 (Rpower (B2R x) (B2R y)))
  (lm_cmul ref_libm) (lm_cdiv ref_libm) (lm_csqrt ref_libm) (lm_cabs ref_libm) (lm_polar ref_libm).
Lemma shelf_libm_close : libm_shelf shelf_libm.
Proof.
  pose proof big_big. pose proof tiny_uu. split; [exact round_libm_close|]. split; intros x Fx Hx; cbn [lm_pow lm_sinh shelf_libm].
  - rewrite (proj1 (fofZ_val 10 ltac:(lia))). pose proof rpow_58. pose proof (rpow10_le (B2R x) (5 / 8) ltac:(lra)). assert (0 < Rpower 10 (B2R x)) by apply exp_pos.
    destruct (to_f64_ok (Rpower 10 (B2R x))) as [A B]; [rewrite Rabs_pos_eq; lra|]. split; [exact A|]. eapply Rle_trans; [exact B|]. rewrite Rabs_pos_eq by lra. unfold uu in *. lra.
  - assert (Q : Rabs (sinh (B2R x)) <= 42).
    { pose proof exp4. pose proof exp_le_3. pose proof (exp_mono (B2R x) 4 ltac:(lra)). pose proof (exp_mono (- B2R x) 1 ltac:(lra)). pose proof (exp_pos (B2R x)). pose proof (exp_pos (- B2R x)). unfold sinh. apply Rabs_le. lra. }
    destruct (to_f64_ok (sinh (B2R x))) as [A B]; [lra|]. split; [exact A|]. eapply Rle_trans; [exact B|]. unfold uu in *. lra.
Qed.
Lemma shelf_ex_args k : k = R_LowShelf \/ k = R_HighShelf \/ k = R_BandShelf -> shelf_args k (1 / 4) 20 1.
Proof.
  intros H. split; [lra|]. split; [lra|]. destruct H as [->|[->| ->]]; try lra. simpl. replace (2 * PI * (1 / 4)) with (PI / 2) by field. rewrite sin_PI2. pose proof pi_bounds. lra.
Qed.
Lemma shelf_ex_fin : let f := fnorm 1 (-2) in FloatSpec.is_fin f /\ FloatSpec.is_fin (fofZ 20) /\ FloatSpec.is_fin (fofZ 1) /\ B2R f = 1 / 4 /\ B2R (fofZ 20) = 20 /\ B2R (fofZ 1) = 1.
Proof.
  destruct (fnorm_exact 1 (-2) ltac:(lia) ltac:(lia)) as [A B]. destruct (fofZ_val 1 ltac:(lia)) as [C D]. destruct (fofZ_val 20 ltac:(lia)) as [C' D'].
  split; [exact B|]. split; [exact D'|]. split; [exact D|]. split; [rewrite A; unfold F2R; cbn; lra|]. split; [exact C'|exact C].
Qed.
Lemma shelf_ex_gain : let i := cookbook_shelf R_LowShelf (1 / 4) 20 1 in (0 < i_a2 i < 1 /\ i_a1 i ^ 2 <= 4 * i_a2 i) /\ / (1 - sqrt (i_a2 i)) ^ 2 <= 5 /\ shelf_error 5 1 <= 1 / 10 ^ 6.
Proof.
  cbn [cookbook_shelf i_a1 i_a2]. replace (2 * PI * (1 / 4)) with (PI / 2) by field. rewrite sin_PI2, cos_PI2. replace (20 / 40) with (/ 2) by lra. rewrite Rpower_sqrt by lra.
  replace (1 / 1 - 1) with 0 by lra. rewrite !Rmult_0_r, Rplus_0_l, Rplus_0_r.
  assert (S10 : 3162 / 1000 <= sqrt 10 <= 3163 / 1000). { split; [rewrite <- (sqrt_square (3162 / 1000)) at 1 by lra|rewrite <- (sqrt_square (3163 / 1000)) by lra]; apply sqrt_le_1; lra. }
  set (A := sqrt 10) in *.
  assert (Sq : 1778 / 1000 <= sqrt A <= 1779 / 1000). { split; [rewrite <- (sqrt_square (1778 / 1000)) at 1 by lra|rewrite <- (sqrt_square (1779 / 1000)) by lra]; apply sqrt_le_1; lra. }
  assert (S2 : 1414 / 1000 <= sqrt 2 <= 1415 / 1000). { split; [rewrite <- (sqrt_square (1414 / 1000)) at 1 by lra|rewrite <- (sqrt_square (1415 / 1000)) by lra]; apply sqrt_le_1; lra. }
  assert (Q : 25 / 10 <= 2 * sqrt A * (1 / 2 * sqrt 2) <= 252 / 100) by (split; nra).
  revert Q. generalize (2 * sqrt A * (1 / 2 * sqrt 2)). intros q Q. rewrite ?Rplus_0_r.
  assert (P : 6 <= A + 1 + q) by lra.
  assert (V : 24 / 100 <= (A + 1 - q) / (A + 1 + q) <= 1 / 4).
  { split; (apply Rmult_le_reg_r with (A + 1 + q); [lra|]); unfold Rdiv at 2; rewrite ?Rmult_assoc, ?Rinv_l by lra; try lra. unfold Rdiv at 1. rewrite Rmult_assoc, Rinv_l by lra. lra. }
  assert (V1 : Rabs (-2 * (A - 1) / (A + 1 + q)) <= 7 / 10) by (apply frac_le2; [lra|apply Rabs_le; lra]). apply Rabs_le_between in V1.
  split; [split; [lra|simpl; nra]|]. split.
  - assert (R1 : sqrt ((A + 1 - q) / (A + 1 + q)) <= 1 / 2) by (rewrite <- (sqrt_square (1 / 2)) by lra; apply sqrt_le_1; lra).
    set (t := sqrt _) in *. assert (0 <= t) by apply sqrt_pos. replace 5 with (/ (1 / 5)) by lra. apply Rinv_le; [lra|simpl; nra].
  - unfold shelf_error. assert (/ 2 ^ 1050 <= / 2 ^ 67) by (apply Rinv_le; [apply pow_lt; lra|apply Rle_pow; [lra|lia]]). lra.
Qed.

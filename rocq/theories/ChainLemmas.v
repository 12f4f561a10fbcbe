(** Lemmas: cascades in binary64 with nearby coefficients. *)
From Coq Require Import ZArith List Bool Reals Lra Lia.
From Coquelicot Require Import Coquelicot.
From Flocq Require Import IEEE754.BinarySingleNaN.
From Verif Require Import Num Outcome Types Biquad State Cascade PoleFilter History RealNum Float64 FloatSpec Stream
  SigSpec SigProofs StabProofs RoundSpec RoundProofs RoundRun RoundLemmas DblSpec DblProofs DblLemmas BwDblSpec ChainSpec.
Import ListNotations.
Local Open Scope R_scope.

Lemma coefs_apart2 a1 a2 b0 b1 b2 c1 c2 d0 d1 d2 G E F (x u z : nat -> R) X U n : rec_gain a1 a2 G -> 0 <= X -> 0 <= U ->
  Rabs (c1 - a1) <= E -> Rabs (c2 - a2) <= E -> Rabs (d0 - b0) <= F -> Rabs (d1 - b1) <= F -> Rabs (d2 - b2) <= F ->
  (forall i, (i <= n)%nat -> Rabs (x i) <= X) -> (forall i, (i <= n)%nat -> Rabs (u i) <= U) ->
  (forall i, (i <= n)%nat -> fir 1 a1 a2 z i = fir b0 b1 b2 x i) -> (forall i, (i <= n)%nat -> fir 1 c1 c2 u i = fir d0 d1 d2 x i) ->
  Rabs (u n - z n) <= G * (3 * F * X + 2 * E * U).
Proof.
  intros HG HX HU H1 H2 H3 H4 H5 Hx Hu Hz He. assert (E0 : 0 <= E) by (eapply Rle_trans; [apply Rabs_pos|exact H1]). assert (F0 : 0 <= F) by (eapply Rle_trans; [apply Rabs_pos|exact H3]).
  apply (gain_fir _ _ _ HG (fun k => u k - z k)). { apply Rplus_le_le_0_compat; apply Rmult_le_pos; lra. }
  intros i Hi. rewrite fir_sub, Hz by exact Hi.
  replace (fir 1 a1 a2 u i) with (fir 1 c1 c2 u i - fir 0 (c1 - a1) (c2 - a2) u i) by (unfold fir; ring). rewrite He by exact Hi.
  replace (fir d0 d1 d2 x i - fir 0 (c1 - a1) (c2 - a2) u i - fir b0 b1 b2 x i) with (fir (d0 - b0) (d1 - b1) (d2 - b2) x i - fir 0 (c1 - a1) (c2 - a2) u i) by (unfold fir; ring).
  assert (P : Rabs (fir (d0 - b0) (d1 - b1) (d2 - b2) x i) <= 3 * F * X).
  { eapply Rle_trans; [apply (fir_bd _ _ _ _ X); [exact HX|intros j Hj; apply Hx; lia]|]. apply Rmult_le_compat_r; lra. }
  assert (Q : Rabs (fir 0 (c1 - a1) (c2 - a2) u i) <= 2 * E * U).
  { eapply Rle_trans; [apply (fir_bd _ _ _ _ U); [exact HU|intros j Hj; apply Hu; lia]|]. apply Rmult_le_compat_r; [exact HU|]. rewrite Rabs_R0. lra. }
  unfold Rminus at 1. eapply Rle_trans; [apply Rabs_triang|]. rewrite Rabs_Ropp. lra.
Qed.
Lemma near_abs x y e : Rabs (x - y) <= e -> Rabs x <= Rabs y + e.
Proof. intros H. replace x with ((x - y) + y) by ring. eapply Rle_trans; [apply Rabs_triang|]. lra. Qed.

Definition ssec {m} (b : biquad (F64 m)) (G : R) : sect :=
  Sect (B2R (m_a1 b : f64)) (B2R (m_a2 b : f64)) (B2R (m_b0 b : f64)) (B2R (m_b1 b : f64)) (B2R (m_b2 b : f64)) G.
Lemma d_facts {m} (b : biquad (F64 m)) d X : stored_near b d -> d_ok d X -> 0 <= X ->
  sect_ok (ssec b (2 * d_G d)) X /\ 1 <= d_G d /\ 0 <= d_ea d /\ 0 <= d_eb d /\ 0 <= i_B (d_id d) /\ s_B (ssec b (2 * d_G d)) <= d_B d /\ 0 <= s_B (ssec b (2 * d_G d)) /\
  own_error (ssec b (2 * d_G d)) X <= 6 * d_G d * (g_rel * (1 + 4 * d_A d * d_G d) * (d_B d * X + (1 + d_B d) * g_abs) + (1 + d_B d) * g_abs) /\
  out_bound (ssec b (2 * d_G d)) X <= d_out d X.
Proof.
  intros (N1 & N2 & N3 & N4 & N5) (HG & H1 & H2 & H3 & H4) HX. pose proof (gain_ge1 _ _ _ HG) as G1. pose proof g_pos as GP.
  assert (R0 : 0 < g_rel) by (rewrite g_rel_uu; unfold uu; lra).
  assert (E0 : 0 <= d_ea d) by (eapply Rle_trans; [apply Rabs_pos|exact N1]). assert (F0 : 0 <= d_eb d) by (eapply Rle_trans; [apply Rabs_pos|exact N3]).
  assert (B0 : 0 <= i_B (d_id d)). { unfold i_B. pose proof (Rabs_pos (i_b0 (d_id d))). pose proof (Rabs_pos (i_b1 (d_id d))). pose proof (Rabs_pos (i_b2 (d_id d))). lra. }
  set (s := ssec b (2 * d_G d)).
  assert (SB : 0 <= s_B s <= d_B d).
  { unfold s_B, s, ssec, d_B, i_B. cbn [s_b0 s_b1 s_b2]. pose proof (near_abs _ _ _ N3). pose proof (near_abs _ _ _ N4). pose proof (near_abs _ _ _ N5).
    pose proof (Rabs_pos (B2R (m_b0 b : f64))). pose proof (Rabs_pos (B2R (m_b1 b : f64))). pose proof (Rabs_pos (B2R (m_b2 b : f64))). lra. }
  assert (SA : 0 <= s_A s <= d_A d).
  { unfold s_A, s, ssec, d_A. cbn [s_a1 s_a2]. pose proof (near_abs _ _ _ N1). pose proof (near_abs _ _ _ N2).
    pose proof (Rabs_pos (B2R (m_a1 b : f64))). pose proof (Rabs_pos (B2R (m_a2 b : f64))). lra. }
  assert (SG : s_G s = 2 * d_G d) by reflexivity.
  assert (T1 : s_B s * X <= d_B d * X) by (apply Rmult_le_compat_r; lra). assert (T0 : 0 <= s_B s * X) by (apply Rmult_le_pos; lra).
  assert (T2 : (1 + s_B s) * g_abs <= (1 + d_B d) * g_abs) by (apply Rmult_le_compat_r; lra). assert (T3 : 0 <= (1 + s_B s) * g_abs) by (apply Rmult_le_pos; lra).
  repeat split; try lra.
  - cbn [s_a1 s_a2 s_G s ssec]. eapply gain_near; eassumption.
  - rewrite SG. eapply Rle_trans; [|exact H2]. apply Rmult_le_compat_l; lra.
  - rewrite SG. eapply Rle_trans; [|exact H4]. apply Rmult_le_compat_r; [lra|]. apply Rmult_le_compat_l; lra.
  - unfold own_error. rewrite SG. replace (3 * (2 * d_G d)) with (6 * d_G d) by ring. apply Rmult_le_compat_l; [lra|]. apply Rplus_le_compat; [|exact T2].
    apply Rmult_le_compat; [|lra| |lra].
    + apply Rmult_le_pos; [lra|]. assert (0 <= s_A s * (2 * d_G d)) by (apply Rmult_le_pos; lra). lra.
    + apply Rmult_le_compat_l; [lra|]. replace (2 * s_A s * (2 * d_G d)) with (4 * (s_A s * d_G d)) by ring. replace (4 * d_A d * d_G d) with (4 * (d_A d * d_G d)) by ring.
      assert (s_A s * d_G d <= d_A d * d_G d) by (apply Rmult_le_compat_r; lra). lra.
  - unfold out_bound, d_out. rewrite SG. replace (4 * (2 * d_G d)) with (8 * d_G d) by ring. apply Rmult_le_compat_l; lra.
Qed.

Lemma dstage {m} (b : biquad (F64 m)) d t (xs : list f64) X us zs e :
  fin_coeffs b -> stored_near b d -> d_ok d X -> 0 <= X -> 0 <= e ->
  List.Forall (okf X) xs -> length us = length xs ->
  (forall n, (n < length xs)%nat -> Rabs (B2R (nth n xs f0) - nth n us 0) <= e) ->
  diffeq 1 (i_a1 (d_id d)) (i_a2 (d_id d)) (i_b0 (d_id d)) (i_b1 (d_id d)) (i_b2 (d_id d)) us zs ->
  let ys := snd (bq_run b (st_init t) xs) : list f64 in
  length ys = length xs /\ length zs = length xs /\ List.Forall (okf (d_out d X)) ys /\
  forall n, (n < length xs)%nat -> Rabs (B2R (nth n ys f0) - nth n zs 0) <= d_G d * i_B (d_id d) * e + d_err d X.
Proof.
  intros Hf HN Hok HX He Hxs Hl Hin Hd ys. destruct (d_facts b d X HN Hok HX) as (OK & G1 & E0 & F0 & B0 & SB & SB0 & OE & OB). set (s := ssec b (2 * d_G d)) in *.
  destruct HN as (N1 & N2 & N3 & N4 & N5). destruct Hok as (HG & _).
  destruct (diffeq_exists (s_a1 s) (s_a2 s) (s_b0 s) (s_b1 s) (s_b2 s) (map B2R xs)) as (vs & V & _).
  assert (MN : forall n, (n < length xs)%nat -> nth n (map B2R xs) 0 = B2R (nth n xs f0)).
  { intros n Hn. rewrite (nth_indep _ 0 (B2R f0)) by (rewrite map_length; exact Hn). apply map_nth. }
  destruct (stage_round b s t xs X (map B2R xs) vs 0) as (L1 & L2 & O & E); try assumption; try lra.
  { repeat split. } { apply map_length. } { intros n Hn. rewrite MN, Rminus_diag_eq, Rabs_R0 by (assumption || reflexivity). lra. }
  fold ys in L1, O, E. destruct (diffeq_fir _ _ _ _ _ _ _ Hd) as [Lz Fz]. destruct (diffeq_fir _ _ _ _ _ _ _ V) as [Lv Fv]. rewrite map_length in Lv, Fv.
  split; [exact L1|]. split; [lia|]. split. { eapply List.Forall_impl; [|exact O]. intros y [Y1 Y2]. split; [exact Y1|]. eapply Rle_trans; [exact Y2|exact OB]. }
  intros n Hn. specialize (E n Hn). rewrite Rmult_0_r, Rplus_0_l in E.
  set (rb := @MkBiquad RN 1 (i_a1 (d_id d)) (i_a2 (d_id d)) (i_b0 (d_id d)) (i_b1 (d_id d)) (i_b2 (d_id d))). set (x := seqof (map B2R xs)). set (w := flt rb x).
  assert (Hw : forall k, fir 1 (i_a1 (d_id d)) (i_a2 (d_id d)) w k = fir (i_b0 (d_id d)) (i_b1 (d_id d)) (i_b2 (d_id d)) x k) by (intros k; apply (flt_eq rb)).
  assert (Hx : forall k, (k <= n)%nat -> Rabs (x k) <= X).
  { intros k Hk. unfold x, seqof. rewrite MN by lia. apply (proj1 (List.Forall_forall _ _) Hxs), nth_In. lia. }
  destruct OK as (SGn & _).
  assert (Hv : forall k, (k <= n)%nat -> Rabs (seqof vs k) <= 2 * d_G d * (d_B d * X)).
  { intros k Hk. apply (gain_fir _ _ _ SGn (seqof vs)); [apply Rmult_le_pos; lra|]. intros i Hi. rewrite Fv by lia. eapply Rle_trans; [apply (fir_bd _ _ _ _ X); [exact HX|]|].
    - intros j Hj. apply Hx. lia.
    - apply Rmult_le_compat_r; [exact HX|]. exact SB. }
  assert (P1 : 0 <= d_B d * X) by (apply Rmult_le_pos; lra).
  pose proof (coefs_apart2 _ _ _ _ _ _ _ _ _ _ (d_G d) (d_ea d) (d_eb d) x (seqof vs) w X (2 * d_G d * (d_B d * X)) n HG HX ltac:(apply Rmult_le_pos; lra) N1 N2 N3 N4 N5 Hx Hv
    (fun i _ => Hw i) (fun i Hi => Fv i ltac:(lia))) as AP.
  assert (Q : Rabs (w n - seqof zs n) <= d_G d * (i_B (d_id d) * e)).
  { apply (gain_fir _ _ _ HG (fun k => w k - seqof zs k)); [apply Rmult_le_pos; assumption|].
    intros i Hi. rewrite fir_sub, Hw, Fz by lia. rewrite <- fir_sub. apply fir_bd; [exact He|]. intros j Hj. unfold x, seqof. rewrite MN by lia. apply Hin. lia. }
  unfold seqof in Q, AP. unfold d_err.
  replace (d_G d * (3 * d_eb d * X + 2 * d_ea d * (2 * d_G d * (d_B d * X)))) with (d_G d * (3 * d_eb d * X + 4 * d_ea d * d_G d * d_B d * X)) in AP by ring.
  replace (B2R (nth n ys f0) - nth n zs 0) with ((B2R (nth n ys f0) - nth n vs 0) + ((nth n vs 0 - w n) + (w n - nth n zs 0))) by ring.
  eapply Rle_trans; [apply Rabs_triang|]. eapply Rle_trans; [apply Rplus_le_compat_l, Rabs_triang|]. lra.
Qed.
Lemma d_pos d X : d_ok d X -> 0 <= d_ea d -> 0 <= d_eb d -> 0 <= X -> 0 <= d_err d X /\ 0 <= d_out d X /\ 0 <= d_G d * i_B (d_id d).
Proof.
  intros (HG & _) E0 F0 HX. pose proof (gain_ge1 _ _ _ HG) as G1. pose proof g_pos. assert (0 < g_rel) by (rewrite g_rel_uu; unfold uu; lra).
  assert (B0 : 0 <= i_B (d_id d)). { unfold i_B. pose proof (Rabs_pos (i_b0 (d_id d))). pose proof (Rabs_pos (i_b1 (d_id d))). pose proof (Rabs_pos (i_b2 (d_id d))). lra. }
  assert (A0 : 0 <= d_A d). { unfold d_A. pose proof (Rabs_pos (i_a1 (d_id d))). pose proof (Rabs_pos (i_a2 (d_id d))). lra. }
  assert (B1 : 0 <= d_B d) by (unfold d_B; lra). assert (P1 : 0 <= d_B d * X) by (apply Rmult_le_pos; lra). assert (P2 : 0 <= (1 + d_B d) * g_abs) by (apply Rmult_le_pos; lra).
  assert (P3 : 0 <= d_A d * d_G d) by (apply Rmult_le_pos; lra). assert (P4 : 0 <= d_ea d * d_G d * (d_B d * X)) by (apply Rmult_le_pos; [apply Rmult_le_pos; lra|lra]). assert (P5 : 0 <= d_eb d * X) by (apply Rmult_le_pos; lra).
  split; [|split].
  - unfold d_err. apply Rplus_le_le_0_compat; apply Rmult_le_pos; try lra. apply Rplus_le_le_0_compat; [|lra]. apply Rmult_le_pos; [apply Rmult_le_pos; lra|lra].
  - unfold d_out. apply Rmult_le_pos; lra.
  - apply Rmult_le_pos; lra.
Qed.
Lemma chain_round {m} t (bs : list (biquad (F64 m))) : forall l (xs : list f64) X us zs e,
  List.Forall fin_coeffs bs -> List.Forall2 stored_near bs l -> chain_ok l X -> 0 <= X -> 0 <= e ->
  List.Forall (okf X) xs -> length us = length xs ->
  (forall n, (n < length xs)%nat -> Rabs (B2R (nth n xs f0) - nth n us 0) <= e) ->
  ideal_out (map d_id l) us zs ->
  let ys := snd (cs_run (MkCStages bs (repeat (st_init t) (length bs))) xs) : list f64 in
  length ys = length xs /\ length zs = length xs /\ List.Forall (okf (chain_bound l X)) ys /\
  forall n, (n < length xs)%nat -> Rabs (B2R (nth n ys f0) - nth n zs 0) <= chain_error l X e.
Proof.
  induction bs as [|b bs IH]; intros l xs X us zs e Hf H2 Hok HX He Hxs Hl Hin Hex; inversion H2; subst; simpl in *.
  - subst zs. rewrite cs_run_nil. simpl. auto.
  - destruct Hex as (vs & Hd & Hex). destruct Hok as [Hs Hok]. inversion Hf; subst.
    rewrite cs_run_cons by (rewrite repeat_length; reflexivity). cbn [snd].
    destruct (dstage b y t xs X us vs e) as (L1 & L2 & O & E); try assumption.
    destruct (d_facts b y X ltac:(assumption) Hs HX) as (_ & _ & E0 & F0 & _). destruct (d_pos y X Hs E0 F0 HX) as (P1 & P2 & P3).
    destruct (IH l' (snd (bq_run b (st_init t) xs)) (d_out y X) vs zs (d_G y * i_B (d_id y) * e + d_err y X)) as (Q1 & Q2 & Q3 & Q4); try assumption.
    + apply Rplus_le_le_0_compat; [apply Rmult_le_pos; assumption|assumption].
    + rewrite L1. exact L2.
    + intros n Hn. apply E. rewrite <- L1. exact Hn.
    + rewrite L1 in Q1, Q2, Q4. split; [exact Q1|]. split; [exact Q2|]. split; [exact Q3|exact Q4].
Qed.
Lemma c66_chain m (bs : list (biquad (F64 m))) (l : list dsect) t (xs : list f64) X zs :
  List.Forall fin_coeffs bs -> List.Forall2 stored_near bs l -> chain_ok l X ->
  0 <= X -> List.Forall (fun x => FloatSpec.is_fin x /\ Rabs (B2R x) <= X) xs -> ideal_out (map d_id l) (map B2R xs) zs ->
  let ys := snd (cs_run (MkCStages bs (repeat (st_init t) (length bs))) xs) : list f64 in
  length ys = length xs /\ length zs = length xs /\
  List.Forall (fun y => FloatSpec.is_fin y /\ Rabs (B2R y) <= chain_bound l X) ys /\
  List.Forall2 (fun y z => Rabs (B2R y - z) <= chain_error l X 0) ys zs.
Proof.
  intros Hf H2 Hok HX Hxs Hex ys.
  destruct (chain_round t bs l xs X (map B2R xs) zs 0) as (L1 & L2 & O & E); auto; try lra.
  - apply map_length.
  - intros n Hn. rewrite (nth_indep _ 0 (B2R f0)) by (rewrite map_length; exact Hn). rewrite map_nth, Rminus_diag_eq, Rabs_R0 by reflexivity. lra.
  - fold ys in L1, O, E. split; [exact L1|]. split; [exact L2|]. split; [exact O|].
    assert (L : length ys = length zs) by lia. rewrite <- L1 in E. clear - L E. revert zs L E. generalize (chain_error l X 0). intros d.
    induction ys as [|y ys IH]; intros [|z zs] L E; try discriminate; constructor.
    + apply (E O). simpl. lia.
    + apply IH; [simpl in L; lia|]. intros n Hn. apply (E (S n)). simpl. lia.
Qed.

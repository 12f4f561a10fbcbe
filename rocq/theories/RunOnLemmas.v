(** Proofs: cascades and filters that run on without reset; how fast they forget. *)
From Coq Require Import ZArith List Bool Reals Lra Lia.
From Flocq Require Import Core.Raux IEEE754.BinarySingleNaN.
From Verif Require Import Num Outcome Types Biquad State Cascade PoleFilter History RealNum Float64 FloatSpec Hoare Safe Stream AnyLemmas
  SigSpec SigProofs RoundSpec RoundProofs RoundRun RoundLemmas RunOnSpec RunOn.
Import ListNotations.
Local Open Scope R_scope.

Lemma s_A_pos s : 0 <= s_A s.
Proof. unfold s_A. pose proof (Rabs_pos (s_a1 s)). pose proof (Rabs_pos (s_a2 s)). lra. Qed.
Lemma s_B_pos s : 0 <= s_B s.
Proof. unfold s_B. pose proof (Rabs_pos (s_b0 s)). pose proof (Rabs_pos (s_b1 s)). pose proof (Rabs_pos (s_b2 s)). lra. Qed.
Lemma abs_mul_le u v c : Rabs v <= c -> Rabs (u * v) <= Rabs u * c.
Proof. intros H. rewrite Rabs_mult. apply Rmult_le_compat_l; [apply Rabs_pos|exact H]. Qed.
Lemma tri4 a b c d : Rabs (a + b - c - d) <= Rabs a + Rabs b + Rabs c + Rabs d.
Proof. unfold Rabs; repeat destruct (Rcase_abs _); lra. Qed.

Lemma Forall2_len {A B} (P : A -> B -> Prop) l l' : List.Forall2 P l l' -> length l = length l'.
Proof. induction 1; simpl; congruence. Qed.

(** ** what the delay lines leave *)
Lemma left_bd {m} (b : biquad (F64 m)) s c : 0 <= c -> st_within c s ->
  let A := Rabs (B2R (m_a1 b : f64)) + Rabs (B2R (m_a2 b : f64)) in
  let B := Rabs (B2R (m_b0 b : f64)) + Rabs (B2R (m_b1 b : f64)) + Rabs (B2R (m_b2 b : f64)) in
  Rabs (fst (left_over b s)) <= (A + B + A * B + 1) * c /\ Rabs (snd (left_over b s)) <= (A + B + A * B + 1) * c.
Proof.
  intros Hc W A B. set (a1 := B2R (m_a1 b : f64)) in *. set (a2 := B2R (m_a2 b : f64)) in *. set (b0 := B2R (m_b0 b : f64)) in *. set (b1 := B2R (m_b1 b : f64)) in *. set (b2 := B2R (m_b2 b : f64)) in *.
  pose proof (Rabs_pos a1) as P1. pose proof (Rabs_pos a2) as P2. pose proof (Rabs_pos b0) as P3. pose proof (Rabs_pos b1) as P4. pose proof (Rabs_pos b2) as P5.
  assert (0 <= A) by (unfold A; lra). assert (0 <= B) by (unfold B; lra). assert (AB : 0 <= A * B) by (apply Rmult_le_pos; assumption).
  destruct s as [x1 x2 w1 w2|v1 v2|r1 s1 r2 s2]; cbn [left_over fst snd]; fold a1 a2 b0 b1 b2.
  - destruct W as ((_ & U1) & (_ & U2) & (_ & U3) & (_ & U4)).
    pose proof (abs_mul_le b1 _ _ U1) as E1. pose proof (abs_mul_le b2 _ _ U2) as E2. pose proof (abs_mul_le a1 _ _ U3) as E3. pose proof (abs_mul_le a2 _ _ U4) as E4.
    pose proof (abs_mul_le b2 _ _ U1) as E5. pose proof (abs_mul_le a2 _ _ U3) as E6.
    assert (F1 : 0 <= Rabs b0 * c) by (apply Rmult_le_pos; lra). assert (F2 : 0 <= Rabs b1 * c) by (apply Rmult_le_pos; lra). assert (F3 : 0 <= Rabs b2 * c) by (apply Rmult_le_pos; lra).
    assert (F4 : 0 <= Rabs a1 * c) by (apply Rmult_le_pos; lra). assert (F5 : 0 <= Rabs a2 * c) by (apply Rmult_le_pos; lra). assert (F6 : 0 <= A * B * c) by (apply Rmult_le_pos; lra).
    replace ((A + B + A * B + 1) * c) with (Rabs a1 * c + Rabs a2 * c + (Rabs b0 * c + Rabs b1 * c + Rabs b2 * c) + A * B * c + c) by (unfold A, B; ring). split.
    + eapply Rle_trans; [apply tri4|]. lra.
    + eapply Rle_trans; [apply (Rabs_triang _ (- _))|]. rewrite Rabs_Ropp. lra.
  - destruct W as ((_ & U1) & (_ & U2)).
    assert (T1 : Rabs (b1 - a1 * b0) <= Rabs b1 + Rabs a1 * Rabs b0) by (rewrite <- Rabs_mult; unfold Rminus; eapply Rle_trans; [apply Rabs_triang|rewrite Rabs_Ropp; lra]).
    assert (T2 : Rabs (b2 - a2 * b0) <= Rabs b2 + Rabs a2 * Rabs b0) by (rewrite <- Rabs_mult; unfold Rminus; eapply Rle_trans; [apply Rabs_triang|rewrite Rabs_Ropp; lra]).
    assert (T3 : Rabs (a1 * b2 - a2 * b1) <= Rabs a1 * Rabs b2 + Rabs a2 * Rabs b1) by (rewrite <- !Rabs_mult; unfold Rminus; eapply Rle_trans; [apply Rabs_triang|rewrite Rabs_Ropp; lra]).
    pose proof (abs_mul_le (b1 - a1 * b0) _ _ U1) as E1. pose proof (abs_mul_le (b2 - a2 * b0) _ _ U2) as E2.
    pose proof (abs_mul_le (b2 - a2 * b0) _ _ U1) as E3. pose proof (abs_mul_le (a1 * b2 - a2 * b1) _ _ U2) as E4.
    assert (Q : forall u v, 0 <= u -> 0 <= v -> 0 <= u * v) by (intros; apply Rmult_le_pos; assumption).
    assert (ABe : A * B = Rabs a1 * Rabs b0 + Rabs a1 * Rabs b1 + Rabs a1 * Rabs b2 + Rabs a2 * Rabs b0 + Rabs a2 * Rabs b1 + Rabs a2 * Rabs b2) by (unfold A, B; ring).
    pose proof (Q _ _ P1 P3). pose proof (Q _ _ P1 P4). pose proof (Q _ _ P1 P5). pose proof (Q _ _ P2 P3). pose proof (Q _ _ P2 P4). pose proof (Q _ _ P2 P5).
    split; (eapply Rle_trans; [apply Rabs_triang|]).
    + apply Rle_trans with ((Rabs (b1 - a1 * b0) + Rabs (b2 - a2 * b0)) * c); [lra|]. apply Rmult_le_compat_r; [exact Hc|]. rewrite ABe. unfold A, B. lra.
    + apply Rle_trans with ((Rabs (b2 - a2 * b0) + Rabs (a1 * b2 - a2 * b1)) * c); [lra|]. apply Rmult_le_compat_r; [exact Hc|]. rewrite ABe. unfold A, B. lra.
  - destruct W as ((_ & U1) & (_ & U2)). assert (c <= (A + B + A * B + 1) * c). { rewrite <- (Rmult_1_l c) at 1. apply Rmult_le_compat_r; lra. } lra.
Qed.
Lemma left_real {m} (b : biquad (F64 m)) s : kick (real_bq b) (real_st s) = left_over b s.
Proof. destruct s; cbn [kick real_bq real_st left_over]; f_equal; ring. Qed.

(** ** the exact run: existence, uniqueness, real cascade *)
Lemma rings_fir a1 a2 b0 b1 b2 k xs zs : rings a1 a2 b0 b1 b2 k xs zs ->
  length zs = length xs /\ forall n, (n < length xs)%nat -> fir 1 a1 a2 (seqof zs) n = fir b0 b1 b2 (seqof xs) n + imp2 k n.
Proof.
  intros [L H]. split; [exact L|]. intros n Hn. specialize (H n Hn). revert H. unfold back, fir, seqof.
  destruct n as [|[|n]]; cbn [Nat.leb Nat.sub del imp2]; rewrite ?Nat.sub_0_r; intros H; lra.
Qed.
Lemma fir_uniq a1 a2 (u v : nat -> R) N : (forall n, (n < N)%nat -> fir 1 a1 a2 u n = fir 1 a1 a2 v n) -> forall n, (n < N)%nat -> u n = v n.
Proof.
  intros H. apply (strong (fun n => (n < N)%nat -> u n = v n)). intros n IH Hn. specialize (H n Hn). unfold fir in H. destruct n as [|[|n]]; cbn [del] in H.
  - lra.
  - rewrite (IH O) in H by lia. lra.
  - rewrite (IH n), (IH (S n)) in H by lia. lra.
Qed.
(** one signal that solves the equation, for every k *)
Definition solve (s : sect) (k : R * R) (x : sig) : sig :=
  bout (@MkBiquad RN 1 (s_a1 s) (s_a2 s) (s_b0 s) (s_b1 s) (s_b2 s)) (@S3 RN 0 (fst k) 0 (snd k)) x.
Lemma solve_eq s k x n : fir 1 (s_a1 s) (s_a2 s) (solve s k x) n = fir (s_b0 s) (s_b1 s) (s_b2 s) x n + imp2 k n.
Proof. unfold solve. pose proof (bout_eq (@MkBiquad RN 1 (s_a1 s) (s_a2 s) (s_b0 s) (s_b1 s) (s_b2 s)) (@S3 RN 0 (fst k) 0 (snd k)) x n) as E. cbn [kick] in E. destruct k. exact E. Qed.
Lemma seq_nth_map (z : nat -> R) N n : (n < N)%nat -> nth n (map z (seq 0 N)) 0 = z n.
Proof. intros Hn. rewrite (nth_indep _ 0 (z 0%nat)) by (rewrite map_length, seq_length; exact Hn). rewrite map_nth, seq_nth by exact Hn. reflexivity. Qed.
Lemma rings_of (s : sect) k xs (z : nat -> R) :
  (forall n, (n < length xs)%nat -> fir 1 (s_a1 s) (s_a2 s) z n = fir (s_b0 s) (s_b1 s) (s_b2 s) (seqof xs) n + imp2 k n) ->
  rings (s_a1 s) (s_a2 s) (s_b0 s) (s_b1 s) (s_b2 s) k xs (map z (seq 0 (length xs))).
Proof.
  intros Hz. split; [rewrite map_length, seq_length; reflexivity|]. intros n Hn. specialize (Hz n Hn). revert Hz. unfold fir, back, seqof.
  destruct n as [|[|n]]; cbn [Nat.leb Nat.sub del imp2]; rewrite ?Nat.sub_0_r; repeat (rewrite seq_nth_map by lia); intros Hz'; lra.
Qed.
Lemma rings_exists s k xs : exists zs, rings (s_a1 s) (s_a2 s) (s_b0 s) (s_b1 s) (s_b2 s) k xs zs /\
  forall zs', rings (s_a1 s) (s_a2 s) (s_b0 s) (s_b1 s) (s_b2 s) k xs zs' -> zs' = zs.
Proof.
  exists (map (solve s k (seqof xs)) (seq 0 (length xs))). split; [apply rings_of; intros; apply solve_eq|].
  intros zs' H. destruct (rings_fir _ _ _ _ _ _ _ _ H) as [L F]. apply (nth_ext _ _ 0 0); [rewrite map_length, seq_length; exact L|].
  intros n Hn. rewrite L in Hn. rewrite seq_nth_map by exact Hn. change (nth n zs' 0) with (seqof zs' n).
  apply (fir_uniq (s_a1 s) (s_a2 s) _ _ (length xs)); [|exact Hn]. intros i Hi. rewrite F by exact Hi. symmetry. apply solve_eq.
Qed.
Lemma exact_from_exists l : forall ks xs, length ks = length l -> exists zs, exact_from l ks xs zs /\ forall zs', exact_from l ks xs zs' -> zs' = zs.
Proof.
  induction l as [|s l IH]; intros [|k ks] xs Lk; try discriminate; simpl.
  - exists xs. auto.
  - destruct (rings_exists s k xs) as (us & U1 & U2). destruct (IH ks us) as (zs & Z1 & Z2); [simpl in Lk; lia|].
    exists zs. split; [exists us; auto|]. intros zs' (us' & D & E). apply Z2. rewrite <- (U2 us' D). exact E.
Qed.
Lemma fsq_map_R (xs : list R) : map (seqof xs) (seq 0 (length xs)) = xs.
Proof. unfold seqof. induction xs as [|a l IH]; simpl; auto. f_equal. rewrite <- seq_shift, map_map. exact IH. Qed.
Lemma real_run {m} (bs : list (biquad (F64 m))) : forall ss l xs, length ss = length bs -> List.Forall2 sect_of bs l ->
  exact_from l (lefts bs ss) xs (snd (cs_run (MkCStages (map real_bq bs) (map real_st ss)) xs)).
Proof.
  induction bs as [|b bs IH]; intros [|s ss] l xs Ls H2; try discriminate; inversion H2; subst; simpl.
  - rewrite cs_run_nil. reflexivity.
  - rewrite cs_run_cons by (rewrite !map_length; simpl in Ls; lia). cbn [snd]. eexists. split; [|apply IH; [simpl in Ls; lia|assumption]].
    match goal with H : sect_of _ _ |- _ => destruct H as (Ea1 & Ea2 & Eb0 & Eb1 & Eb2) end.
    assert (E : snd (bq_run (real_bq b) (real_st s) xs) = map (bout (real_bq b) (real_st s) (seqof xs)) (seq 0 (length xs))).
    { rewrite <- bq_run_prefix, fsq_map_R. reflexivity. }
    rewrite E. apply rings_of. intros n _. rewrite Ea1, Ea2, Eb0, Eb1, Eb2, <- left_real. apply (bout_eq (real_bq b) (real_st s) (seqof xs) n).
Qed.

(** ** rounding *)
Lemma bq_run_fst {m} (b : biquad (F64 m)) s (xs : list f64) : fst (bq_run b s xs) = sst (fun s v => st_filter s b v) s (fsq xs) (length xs).
Proof.
  set (stp := fun (s : st (F64 m)) (v : f64) => st_filter s b (v : T (F64 m))).
  rewrite bq_run_grun. rewrite <- (fsq_map xs) at 1. pose proof (grun_seq stp (length xs) s (fsq xs) 0) as E. cbn [sst] in E. exact (f_equal fst E).
Qed.
Lemma stage_on {m} (b : biquad (F64 m)) s t0 (xs : list f64) c X us zs e :
  fin_coeffs b -> sect_of b s -> sect_ok_from s c X -> 0 <= X -> 0 <= c -> 0 <= e -> st_within c t0 ->
  List.Forall (okf X) xs -> length us = length xs ->
  (forall n, (n < length xs)%nat -> Rabs (B2R (nth n xs f0) - nth n us 0) <= e) ->
  rings (s_a1 s) (s_a2 s) (s_b0 s) (s_b1 s) (s_b2 s) (left_over b t0) us zs ->
  let ys := snd (bq_run b t0 xs) : list f64 in
  length ys = length xs /\ length zs = length xs /\ List.Forall (okf (out_from s c X)) ys /\ st_within (hold_from s c X) (fst (bq_run b t0 xs)) /\
  forall n, (n < length xs)%nat -> Rabs (B2R (nth n ys f0) - nth n zs 0) <= s_G s * s_B s * e + err_from s c X.
Proof.
  intros Hf (Ea1 & Ea2 & Eb0 & Eb1 & Eb2) (Hg & H1 & H2 & H3) HX Hc He HW Hxs Hlu Hin Hd ys.
  destruct (rings_fir _ _ _ _ _ _ _ _ Hd) as [Lz Fz].
  assert (Hx : forall n, okf X (fsq xs n)).
  { intros n. unfold fsq. destruct (Nat.lt_ge_cases n (length xs)) as [L|L].
    - apply (proj1 (List.Forall_forall _ _) Hxs), nth_In, L.
    - rewrite nth_overflow by exact L. apply okf_0, HX. }
  set (k := left_over b t0) in *. set (z := solve s k (re (fsq xs))).
  assert (Hz : forall n, fir 1 (s_a1 s) (s_a2 s) z n = fir (s_b0 s) (s_b1 s) (s_b2 s) (re (fsq xs)) n + imp2 k n) by (intros n; apply solve_eq).
  destruct (left_bd b t0 c Hc HW) as [K1 K2]. fold k in K1, K2.
  assert (Ly : length ys = length xs) by apply bq_run_len.
  assert (HS : forall n, (okf (out_from s c X) (sout (fun s v => st_filter s b v) t0 (fsq xs) n) /\
    Rabs (re (sout (fun s v => st_filter s b v) t0 (fsq xs)) n - z n) <= err_from s c X) /\
    st_within (hold_from s c X) (sst (fun s v => st_filter s b v) t0 (fsq xs) n)).
  { intros n. clearbody z. unfold out_from, err_from, hold_from, lvl, s_A, s_B in *. rewrite Ea1, Ea2, Eb0, Eb1, Eb2 in *. split.
    - apply (stage_from b (fsq xs) (s_G s) X c Hf Hg Hx Hc H1 H2 H3 k z K1 K2 Hz t0 n HW eq_refl).
    - apply (stage_hold b (fsq xs) (s_G s) X c Hf Hg Hx Hc H1 H2 H3 k z K1 K2 Hz t0 n HW eq_refl). }
  split; [exact Ly|]. split; [lia|]. split; [|split].
  - apply List.Forall_forall. intros v Hv. destruct (In_nth _ _ f0 Hv) as (n & Hn & <-). unfold ys. rewrite bq_run_fsq by lia. apply HS.
  - rewrite bq_run_fst. apply HS.
  - intros n Hn. unfold ys. rewrite bq_run_fsq by exact Hn. destruct (HS n) as [[_ E] _].
    assert (Q : Rabs (z n - seqof zs n) <= s_G s * (s_B s * e)).
    { apply (gain_fir _ _ _ Hg (fun k => z k - seqof zs k)).
      - apply Rmult_le_pos; [apply s_B_pos|exact He].
      - intros i Hi. rewrite fir_sub, Hz, Fz by lia.
        replace (fir (s_b0 s) (s_b1 s) (s_b2 s) (re (fsq xs)) i + imp2 k i - (fir (s_b0 s) (s_b1 s) (s_b2 s) (seqof us) i + imp2 k i))
          with (fir (s_b0 s) (s_b1 s) (s_b2 s) (re (fsq xs)) i - fir (s_b0 s) (s_b1 s) (s_b2 s) (seqof us) i) by ring.
        rewrite <- fir_sub. apply fir_bd; [exact He|]. intros j Hj. apply Hin. lia. }
    unfold seqof in Q. fold (re (sout (fun (s : st (F64 m)) (v : T (F64 m)) => st_filter s b v) t0 (fsq xs)) n).
    revert E Q. generalize (re (sout (fun (s : st (F64 m)) (v : T (F64 m)) => st_filter s b v) t0 (fsq xs)) n). intros v E Q.
    pose proof (Rabs_triang (v - z n) (z n - nth n zs 0)) as TR. replace (v - z n + (z n - nth n zs 0)) with (v - nth n zs 0) in TR by ring. lra.
Qed.
Lemma from_pos s c X : sect_ok_from s c X -> 0 <= X -> 0 <= c -> 0 <= err_from s c X /\ 0 <= out_from s c X /\ 0 <= s_G s * s_B s /\ c <= hold_from s c X.
Proof.
  intros (Hg & _) HX Hc. pose proof (gain_ge1 _ _ _ Hg) as G1. pose proof g_pos.
  assert (0 < RoundSpec.g_rel) by (rewrite g_rel_uu; unfold uu; lra).
  pose proof (s_B_pos s) as B0. pose proof (s_A_pos s) as A0.
  assert (L1 : c <= lvl s c X). { unfold lvl. assert (0 <= s_B s * X) by (apply Rmult_le_pos; assumption). assert (0 <= s_A s * s_B s) by (apply Rmult_le_pos; assumption).
    assert (1 * c <= (1 + s_A s) * (1 + s_B s) * c) by (apply Rmult_le_compat_r; [exact Hc|nra]). lra. }
  assert (0 <= (1 + s_B s) * g_abs) by (apply Rmult_le_pos; lra). assert (0 <= s_A s * s_G s) by (apply Rmult_le_pos; lra).
  unfold err_from, out_from, hold_from. repeat split.
  - apply Rmult_le_pos; [lra|]. apply Rplus_le_le_0_compat; [|lra]. apply Rmult_le_pos; [apply Rmult_le_pos; lra|lra].
  - apply Rmult_le_pos; lra.
  - apply Rmult_le_pos; lra.
  - assert (1 * (X + lvl s c X + g_abs) <= 4 * s_G s * (1 + s_A s) * (X + lvl s c X + g_abs)) by (apply Rmult_le_compat_r; [lra|nra]). lra.
Qed.
Lemma within_mono c c' : c <= c' -> forall m (s : st (F64 m)), st_within c s -> st_within c' s.
Proof.
  intros H m s. assert (Q : forall v, within c v -> within c' v) by (intros v [A B]; split; [exact A|lra]).
  destruct s; cbn [st_within]; intros W; repeat match goal with H : _ /\ _ |- _ => destruct H end; repeat split; try (apply Q; assumption); eauto;
  match goal with H : within c ?v |- _ => apply (Q v H) end.
Qed.
Lemma held_ge l : forall c X, ok_from l c X -> 0 <= X -> 0 <= c -> c <= held l c X.
Proof.
  induction l as [|s l IH]; intros c X Hok HX Hc; simpl in *; [lra|]. destruct Hok as [H1 H2]. destruct (from_pos s c X H1 HX Hc) as (_ & _ & _ & Q). eapply Rle_trans; [exact Q|apply Rmax_l].
Qed.
Lemma cas_on {m} (bs : list (biquad (F64 m))) : forall ss l (xs : list f64) c X us zs e,
  List.Forall fin_coeffs bs -> List.Forall2 sect_of bs l -> ok_from l c X -> 0 <= X -> 0 <= c -> 0 <= e -> length ss = length bs -> List.Forall (st_within c) ss ->
  List.Forall (okf X) xs -> length us = length xs ->
  (forall n, (n < length xs)%nat -> Rabs (B2R (nth n xs f0) - nth n us 0) <= e) ->
  exact_from l (lefts bs ss) us zs ->
  let r := cs_run (MkCStages bs ss) xs in let ys := snd r : list f64 in
  length ys = length xs /\ length zs = length xs /\ List.Forall (okf (bound_from l c X)) ys /\ List.Forall (st_within (held l c X)) (cs_states (fst r)) /\
  forall n, (n < length xs)%nat -> Rabs (B2R (nth n ys f0) - nth n zs 0) <= error_from l c X e.
Proof.
  induction bs as [|b bs IH]; intros [|s ss] l xs c X us zs e Hf H2 Hok HX Hc He Ls HW Hxs Hl Hin Hex; try discriminate; inversion H2; subst; simpl in Hex.
  - subst zs. cbn zeta. rewrite cs_run_nil. cbn [bound_from error_from]. split; [reflexivity|]. split; [exact Hl|]. split; [exact Hxs|]. split; [constructor|exact Hin].
  - destruct Hex as (vs & Hd & Hex). destruct Hok as [Hs Hok]. inversion Hf; inversion HW; subst. cbn zeta.
    rewrite cs_run_cons by (simpl in Ls; lia). cbn [snd fst cs_states].
    destruct (stage_on b y s xs c X us vs e) as (L1 & L2 & O & W & E); try assumption.
    destruct (from_pos y c X Hs HX Hc) as (P1 & P2 & P3 & P4).
    destruct (IH ss l' (snd (bq_run b s xs)) c (out_from y c X) vs zs (s_G y * s_B y * e + err_from y c X)) as (Q1 & Q2 & Q3 & Q4 & Q5); try assumption.
    + apply Rplus_le_le_0_compat; [apply Rmult_le_pos; assumption|assumption].
    + simpl in Ls; lia.
    + rewrite L1. exact L2.
    + intros n Hn. apply E. rewrite <- L1. exact Hn.
    + rewrite L1 in Q1, Q2, Q5. split; [exact Q1|]. split; [exact Q2|]. split; [exact Q3|]. split; [|exact Q5].
      cbn [held]. constructor; [apply (within_mono (hold_from y c X)); [apply Rmax_l|exact W]|].
      revert Q4. apply List.Forall_impl. intros a. apply within_mono, Rmax_r.
Qed.

(** ** forgetting *)
Lemma fade_stage a1 a2 G b0 b1 b2 rho K E (e d : nat -> R) (k : R * R) N :
  rec_gain a1 a2 G -> 1 <= rho -> G * (Rabs a1 + Rabs a2) * (rho ^ 2 - 1) <= 1 / 2 -> 0 <= E -> 0 <= K -> Rabs (fst k) <= K -> Rabs (snd k) <= K ->
  (forall n, (n < N)%nat -> Rabs (e n) * rho ^ n <= E) -> (forall n, (n < N)%nat -> fir 1 a1 a2 d n = fir b0 b1 b2 e n + imp2 k n) ->
  forall n, (n < N)%nat -> Rabs (d n) * rho ^ n <= 2 * G * rho ^ 2 * ((Rabs b0 + Rabs b1 + Rabs b2) * E + K).
Proof.
  intros Hg Hr HA HE HK K1 K2 He Hd. pose proof (gain_ge1 _ _ _ Hg) as G1. set (A := Rabs a1 + Rabs a2) in *. set (B := Rabs b0 + Rabs b1 + Rabs b2).
  assert (A0 : 0 <= A) by (unfold A; pose proof (Rabs_pos a1); pose proof (Rabs_pos a2); lra).
  assert (B0 : 0 <= B) by (unfold B; pose proof (Rabs_pos b0); pose proof (Rabs_pos b1); pose proof (Rabs_pos b2); lra).
  assert (R2 : 1 <= rho ^ 2) by (simpl; nra). assert (R12 : rho <= rho ^ 2) by (simpl; nra).
  set (V := rho ^ 2 * (B * E + K)). assert (BE : 0 <= B * E) by (apply Rmult_le_pos; assumption). assert (V0 : 0 <= V) by (unfold V; apply Rmult_le_pos; lra).
  set (M := 2 * G * V). replace (2 * G * rho ^ 2 * (B * E + K)) with M by (unfold M, V; ring).
  assert (M0 : 0 <= M) by (unfold M; apply Rmult_le_pos; lra).
  assert (RP : forall n, 0 < rho ^ n) by (intros n; apply pow_lt; lra).
  set (y := fun n => d n * rho ^ n).
  assert (YE : forall n, Rabs (y n) = Rabs (d n) * rho ^ n) by (intros n; unfold y; rewrite Rabs_mult, (Rabs_pos_eq (rho ^ n)); [reflexivity|left; apply RP]).
  apply (strong (fun n => (n < N)%nat -> Rabs (d n) * rho ^ n <= M)). intros n IH Hn. rewrite <- YE.
  assert (W : Rabs (y n) <= G * (V + A * (rho ^ 2 - 1) * M)).
  { apply (gain_fir _ _ _ Hg y).
    - apply Rplus_le_le_0_compat; [exact V0|]. apply Rmult_le_pos; [apply Rmult_le_pos; lra|exact M0].
    - intros i Hi. assert (IY : forall j, (j < i)%nat -> Rabs (y j) <= M) by (intros j Hj; rewrite YE; apply IH; lia).
      pose proof (Hd i ltac:(lia)) as D. pose proof (fun j (H : (j <= i)%nat) => He j ltac:(lia)) as EE.
      assert (EQ : fir 1 a1 a2 y i = rho ^ i * (fir b0 b1 b2 e i + imp2 k i) + a1 * ((1 - rho) * del y i) + a2 * ((1 - rho ^ 2) * del (del y) i)).
      { rewrite <- D. unfold fir, y. destruct i as [|[|i]]; cbn [del pow]; ring. }
      rewrite EQ. clear EQ D.
      assert (DY1 : Rabs (del y i) <= M) by (destruct i as [|i]; cbn [del]; [rewrite Rabs_R0; exact M0|apply IY; lia]).
      assert (DY2 : Rabs (del (del y) i) <= M) by (destruct i as [|[|i]]; cbn [del]; [rewrite Rabs_R0; exact M0|rewrite Rabs_R0; exact M0|apply IY; lia]).
      assert (C1 : Rabs ((1 - rho) * del y i) <= (rho ^ 2 - 1) * M).
      { rewrite Rabs_mult. apply Rmult_le_compat; try apply Rabs_pos; [|exact DY1]. rewrite Rabs_left1 by lra. lra. }
      assert (C2 : Rabs ((1 - rho ^ 2) * del (del y) i) <= (rho ^ 2 - 1) * M).
      { rewrite Rabs_mult. apply Rmult_le_compat; try apply Rabs_pos; [|exact DY2]. rewrite Rabs_left1 by lra. lra. }
      pose proof (abs_mul_le a1 _ _ C1) as C3. pose proof (abs_mul_le a2 _ _ C2) as C4.
      assert (X0 : Rabs (rho ^ i * e i) <= rho ^ 2 * E).
      { rewrite Rabs_mult, (Rabs_pos_eq (rho ^ i)) by (left; apply RP). pose proof (EE i ltac:(lia)). nra. }
      assert (X1 : Rabs (rho ^ i * del e i) <= rho ^ 2 * E).
      { destruct i as [|i]; cbn [del]; [rewrite Rmult_0_r, Rabs_R0; nra|]. rewrite Rabs_mult, (Rabs_pos_eq (rho ^ S i)) by (left; apply RP). pose proof (EE i ltac:(lia)). cbn [pow] in *. nra. }
      assert (X2 : Rabs (rho ^ i * del (del e) i) <= rho ^ 2 * E).
      { destruct i as [|[|i]]; cbn [del]; [rewrite Rmult_0_r, Rabs_R0; nra|rewrite Rmult_0_r, Rabs_R0; nra|]. rewrite Rabs_mult, (Rabs_pos_eq (rho ^ S (S i))) by (left; apply RP). pose proof (EE i ltac:(lia)) as Q.
        replace (rho ^ S (S i) * Rabs (e i)) with (rho ^ 2 * (Rabs (e i) * rho ^ i)) by (cbn [pow]; ring). apply Rmult_le_compat_l; lra. }
      assert (X3 : Rabs (rho ^ i * imp2 k i) <= rho ^ 2 * K).
      { rewrite Rabs_mult, (Rabs_pos_eq (rho ^ i)) by (left; apply RP). destruct i as [|[|i]]; cbn [imp2].
        - cbn [pow]. apply Rmult_le_compat; try apply Rabs_pos; lra.
        - rewrite pow_1. apply Rmult_le_compat; try apply Rabs_pos; lra.
        - rewrite Rabs_R0, Rmult_0_r. apply Rmult_le_pos; lra. }
      pose proof (abs_mul_le b0 _ _ X0) as Z0. pose proof (abs_mul_le b1 _ _ X1) as Z1. pose proof (abs_mul_le b2 _ _ X2) as Z2.
      replace (rho ^ i * (fir b0 b1 b2 e i + imp2 k i)) with (b0 * (rho ^ i * e i) + b1 * (rho ^ i * del e i) + b2 * (rho ^ i * del (del e) i) + rho ^ i * imp2 k i) by (unfold fir; ring).
      eapply Rle_trans; [apply Rabs_triang|]. eapply Rle_trans; [apply Rplus_le_compat_r, Rabs_triang|].
      eapply Rle_trans; [apply Rplus_le_compat_r, Rplus_le_compat_r, Rabs_triang|]. eapply Rle_trans; [apply Rplus_le_compat_r, Rplus_le_compat_r, Rplus_le_compat_r, Rabs_triang|].
      eapply Rle_trans; [apply Rplus_le_compat_r, Rplus_le_compat_r, Rplus_le_compat_r, Rplus_le_compat_r, Rabs_triang|].
      assert (VE : V = Rabs b0 * (rho ^ 2 * E) + Rabs b1 * (rho ^ 2 * E) + Rabs b2 * (rho ^ 2 * E) + rho ^ 2 * K) by (unfold V, B; ring).
      assert (AE : A * (rho ^ 2 - 1) * M = Rabs a1 * ((rho ^ 2 - 1) * M) + Rabs a2 * ((rho ^ 2 - 1) * M)) by (unfold A; ring).
      rewrite VE, AE. lra. }
  eapply Rle_trans; [exact W|]. replace (G * (V + A * (rho ^ 2 - 1) * M)) with (M / 2 + G * A * (rho ^ 2 - 1) * M) by (unfold M at 1; field).
  assert (G * A * (rho ^ 2 - 1) * M <= 1 / 2 * M) by (apply Rmult_le_compat_r; lra). lra.
Qed.

Lemma fade_cas rho c l : rate_ok rho l -> 0 <= c -> List.Forall (fun s => rec_gain (s_a1 s) (s_a2 s) (s_G s)) l ->
  forall ks ks' xs xs' zs zs' E, length ks = length l -> length ks' = length l -> 0 <= E ->
  List.Forall2 (fun s p => Rabs (fst (fst p) - fst (snd p)) <= 2 * (1 + s_A s) * (1 + s_B s) * c /\ Rabs (snd (fst p) - snd (snd p)) <= 2 * (1 + s_A s) * (1 + s_B s) * c) l (combine ks ks') ->
  length xs' = length xs -> (forall n, (n < length xs)%nat -> Rabs (nth n xs 0 - nth n xs' 0) * rho ^ n <= E) ->
  exact_from l ks xs zs -> exact_from l ks' xs' zs' ->
  length zs = length xs /\ length zs' = length xs /\ forall n, (n < length xs)%nat -> Rabs (nth n zs 0 - nth n zs' 0) * rho ^ n <= fade rho l c E.
Proof.
  intros [Hr Ha] Hc. induction l as [|s l IH]; intros Hg [|k ks] [|k' ks'] xs xs' zs zs' E Lk Lk' HE H2 Lx Hx E1 E2; try discriminate; simpl in E1, E2.
  - subst zs zs'. cbn [fade]. split; [reflexivity|]. split; [exact Lx|exact Hx].
  - destruct E1 as (us & R1 & E1). destruct E2 as (us' & R2 & E2). inversion Hg; inversion Ha; subst. simpl in H2. inversion H2; subst. cbn [fst snd] in *.
    match goal with H : Rabs (fst k - fst k') <= _ /\ _ |- _ => destruct H as [K1 K2] end. set (K := 2 * (1 + s_A s) * (1 + s_B s) * c) in *.
    assert (K0 : 0 <= K) by (pose proof (Rabs_pos (fst k - fst k')); lra).
    destruct (rings_fir _ _ _ _ _ _ _ _ R1) as [L1 F1]. destruct (rings_fir _ _ _ _ _ _ _ _ R2) as [L2 F2].
    assert (Q : forall n, (n < length xs)%nat -> Rabs (seqof us n - seqof us' n) * rho ^ n <= 2 * s_G s * rho ^ 2 * (s_B s * E + K)).
    { apply (fade_stage (s_a1 s) (s_a2 s) (s_G s) (s_b0 s) (s_b1 s) (s_b2 s) rho K E (fun n => seqof xs n - seqof xs' n) (fun n => seqof us n - seqof us' n) (fst k - fst k', snd k - snd k') (length xs)); try assumption.
      intros n Hn. rewrite !fir_sub, F1 by exact Hn. rewrite F2 by (rewrite Lx; exact Hn). destruct n as [|[|n]]; cbn [imp2 fst snd]; ring. }
    assert (G1 : 1 <= s_G s) by (eapply gain_ge1; eassumption). pose proof (s_B_pos s).
    assert (P : 0 <= 2 * s_G s * rho ^ 2 * (s_B s * E + K)).
    { assert (0 <= rho ^ 2) by (apply pow_le; lra). assert (0 <= s_B s * E) by (apply Rmult_le_pos; assumption). apply Rmult_le_pos; [apply Rmult_le_pos|]; lra. }
    destruct (IH ltac:(assumption) ltac:(assumption) ks ks' us us' zs zs' (2 * s_G s * rho ^ 2 * (s_B s * E + K))) as (Z1 & Z2 & Z3); try assumption; try (simpl in Lk, Lk'; lia).
    + intros n Hn. apply Q. lia.
    + rewrite L1 in Z1, Z2, Z3. cbn [fade]. split; [exact Z1|]. split; [exact Z2|exact Z3].
Qed.
Lemma lefts_len {m} (bs : list (biquad (F64 m))) ss : length ss = length bs -> length (lefts bs ss) = length bs.
Proof. intros H. unfold lefts. rewrite map_length, combine_length, H. apply Nat.min_id. Qed.
Lemma lefts_diff {m} c (bs : list (biquad (F64 m))) : forall ss ss' l, 0 <= c -> length ss = length bs -> length ss' = length bs -> List.Forall2 sect_of bs l -> List.Forall (st_within c) ss -> List.Forall (st_within c) ss' ->
  List.Forall2 (fun s p => Rabs (fst (fst p) - fst (snd p)) <= 2 * (1 + s_A s) * (1 + s_B s) * c /\ Rabs (snd (fst p) - snd (snd p)) <= 2 * (1 + s_A s) * (1 + s_B s) * c) l (combine (lefts bs ss) (lefts bs ss')).
Proof.
  induction bs as [|b bs IH]; intros [|s ss] [|s' ss'] l Hc L1 L2 H2 W W'; try discriminate; inversion H2; subst; [constructor|]. inversion W; inversion W'; subst. cbn [lefts combine map fst snd]. constructor.
  - match goal with H : sect_of _ _ |- _ => destruct H as (Ea1 & Ea2 & Eb0 & Eb1 & Eb2) end.
    destruct (left_bd b s c Hc ltac:(assumption)) as [K1 K2]. destruct (left_bd b s' c Hc ltac:(assumption)) as [K3 K4]. cbn [fst snd].
    unfold s_A, s_B. rewrite Ea1, Ea2, Eb0, Eb1, Eb2.
    match type of K1 with _ <= ?u => match goal with |- _ <= ?v /\ _ => replace v with (u + u) by ring end end.
    split; unfold Rminus; (eapply Rle_trans; [apply Rabs_triang|]); rewrite Rabs_Ropp; lra.
  - apply IH; auto.
Qed.
Lemma ok_gains l : forall c X, ok_from l c X -> List.Forall (fun s => rec_gain (s_a1 s) (s_a2 s) (s_G s)) l.
Proof. induction l as [|s l IH]; intros c X H; constructor; destruct H as [H1 H2]; [apply H1|eapply IH; eassumption]. Qed.

(** ** the theorems *)
Notation fin_in X := (fun x : f64 => FloatSpec.is_fin x /\ Rabs (B2R x) <= X).
Lemma near2 (ys : list f64) : forall (zs : list R) (e : nat -> R), length ys = length zs -> (forall n, (n < length ys)%nat -> Rabs (B2R (nth n ys f0) - nth n zs 0) <= e n) ->
  forall d, (forall n, e n = d) -> List.Forall2 (fun y z => Rabs (B2R y - z) <= d) ys zs.
Proof.
  intros zs e L E d De. assert (E' : forall n, (n < length ys)%nat -> Rabs (B2R (nth n ys f0) - nth n zs 0) <= d) by (intros n Hn; rewrite <- (De n); apply E, Hn). clear E De e.
  revert zs L E'. induction ys as [|y ys IH]; intros [|z zs] L E; try discriminate; constructor.
  - apply (E O). simpl. lia.
  - apply IH; [simpl in L; lia|]. intros n Hn. apply (E (S n)). simpl. lia.
Qed.
Lemma map_near (xs : list f64) n : (n < length xs)%nat -> Rabs (B2R (nth n xs f0) - nth n (map B2R xs) 0) <= 0.
Proof. intros Hn. rewrite (nth_indep _ 0 (B2R f0)) by (rewrite map_length; exact Hn). rewrite map_nth, Rminus_diag_eq, Rabs_R0 by reflexivity. lra. Qed.
Lemma c87_cs m (bs : list (biquad (F64 m))) (l : list sect) (ss : list (st (F64 m))) (xs : list f64) c X :
  List.Forall fin_coeffs bs -> List.Forall2 sect_of bs l -> ok_from l c X -> 0 <= X -> 0 <= c -> length ss = length bs -> List.Forall (st_within c) ss ->
  List.Forall (fin_in X) xs ->
  let r := cs_run (MkCStages bs ss) xs in let ys := snd r : list f64 in
  let zs := snd (cs_run (MkCStages (map real_bq bs) (map real_st ss)) (map B2R xs)) : list R in
  length ys = length xs /\ List.Forall (fin_in (bound_from l c X)) ys /\ List.Forall2 (fun y z => Rabs (B2R y - z) <= error_from l c X 0) ys zs /\
  List.Forall (st_within (held l c X)) (cs_states (fst r)).
Proof.
  intros Hf H2 Hok HX Hc Ls HW Hxs r ys zs. pose proof (real_run bs ss l (map B2R xs) Ls H2) as Ex. fold zs in Ex.
  destruct (cas_on bs ss l xs c X (map B2R xs) zs 0) as (L1 & L2 & O & W & E); auto; try lra.
  - apply map_length.
  - intros n Hn. apply map_near, Hn.
  - fold r in L1, O, W, E. fold ys in L1, O, E. split; [exact L1|]. split; [exact O|]. split; [|exact W].
    apply (near2 ys zs (fun _ => error_from l c X 0)); [lia| |reflexivity]. rewrite L1. exact E.
Qed.
Lemma c87_exact m (bs : list (biquad (F64 m))) (l : list sect) (ss : list (st (F64 m))) xs zs : length ss = length bs -> List.Forall2 sect_of bs l ->
  exact_from l (lefts bs ss) xs zs <-> zs = snd (cs_run (MkCStages (map real_bq bs) (map real_st ss)) xs).
Proof.
  intros Ls H2. pose proof (real_run bs ss l xs Ls H2) as Ex. assert (LL : length (lefts bs ss) = length l) by (rewrite lefts_len by exact Ls; eapply Forall2_len; eassumption).
  destruct (exact_from_exists l (lefts bs ss) xs LL) as (zs0 & _ & U). split.
  - intros H. rewrite (U _ H), (U _ Ex). reflexivity.
  - intros ->. exact Ex.
Qed.
Lemma c87_two m (bs : list (biquad (F64 m))) (l : list sect) (ss ss' : list (st (F64 m))) (xs : list f64) c X rho :
  List.Forall fin_coeffs bs -> List.Forall2 sect_of bs l -> ok_from l c X -> 0 <= X -> 0 <= c -> rate_ok rho l ->
  length ss = length bs -> List.Forall (st_within c) ss -> length ss' = length bs -> List.Forall (st_within c) ss' ->
  List.Forall (fin_in X) xs ->
  forall us zs, exact_from l (lefts bs ss) (map B2R xs) us -> exact_from l (lefts bs ss') (map B2R xs) zs ->
  let ys := snd (cs_run (MkCStages bs ss) xs) : list f64 in
  forall n, (n < length xs)%nat -> Rabs (B2R (nth n ys f0) - nth n us 0) <= error_from l c X 0 /\ Rabs (nth n us 0 - nth n zs 0) <= fade rho l c 0 / rho ^ n.
Proof.
  intros Hf H2 Hok HX Hc Hr Ls HW Ls' HW' Hxs us zs Eu Ez ys n Hn.
  destruct (cas_on bs ss l xs c X (map B2R xs) us 0) as (L1 & L2 & O & W & E); auto; try lra.
  - apply map_length.
  - intros i Hi. apply map_near, Hi.
  - fold ys in E. split; [apply E, Hn|]. pose proof (Forall2_len _ _ _ H2) as Ll.
    destruct (fade_cas rho c l Hr Hc (ok_gains _ _ _ Hok) (lefts bs ss) (lefts bs ss') (map B2R xs) (map B2R xs) us zs 0) as (_ & _ & Q); auto; try lra.
    + rewrite lefts_len by exact Ls. exact Ll.
    + rewrite lefts_len by exact Ls'. exact Ll.
    + apply lefts_diff; assumption.
    + intros i _. rewrite Rminus_diag_eq, Rabs_R0 by reflexivity. lra.
    + rewrite map_length in Q. specialize (Q n Hn). assert (P : 0 < rho ^ n) by (apply pow_lt; destruct Hr; lra).
      apply (Rmult_le_reg_r (rho ^ n)); [exact P|]. replace (fade rho l c 0 / rho ^ n * rho ^ n) with (fade rho l c 0) by (field; lra). exact Q.
Qed.
Lemma c87_forgets m (bs : list (biquad (F64 m))) (l : list sect) (ss ss' : list (st (F64 m))) (xs : list f64) c X rho :
  List.Forall fin_coeffs bs -> List.Forall2 sect_of bs l -> ok_from l c X -> 0 <= X -> 0 <= c -> rate_ok rho l ->
  length ss = length bs -> List.Forall (st_within c) ss -> length ss' = length bs -> List.Forall (st_within c) ss' ->
  List.Forall (fin_in X) xs ->
  let ys := snd (cs_run (MkCStages bs ss) xs) : list f64 in let ys' := snd (cs_run (MkCStages bs ss') xs) : list f64 in
  forall n, (n < length xs)%nat -> Rabs (B2R (nth n ys f0) - B2R (nth n ys' f0)) <= 2 * error_from l c X 0 + fade rho l c 0 / rho ^ n.
Proof.
  intros Hf H2 Hok HX Hc Hr Ls HW Ls' HW' Hxs ys ys' n Hn.
  pose proof (real_run bs ss l (map B2R xs) Ls H2) as Eu. pose proof (real_run bs ss' l (map B2R xs) Ls' H2) as Ez.
  destruct (c87_two m bs l ss ss' xs c X rho Hf H2 Hok HX Hc Hr Ls HW Ls' HW' Hxs _ _ Eu Ez n Hn) as [A B].
  destruct (c87_two m bs l ss' ss xs c X rho Hf H2 Hok HX Hc Hr Ls' HW' Ls HW Hxs _ _ Ez Eu n Hn) as [C _].
  fold ys in A. fold ys' in C. revert A B C.
  generalize (nth n (snd (cs_run (MkCStages (map real_bq bs) (map real_st ss)) (map B2R xs))) 0), (nth n (snd (cs_run (MkCStages (map real_bq bs) (map real_st ss')) (map B2R xs))) 0). intros u z A B C.
  set (P := fade rho l c 0 / rho ^ n) in *. set (Q := error_from l c X 0) in *. clearbody P Q. revert A B C. generalize (B2R (nth n ys f0)), (B2R (nth n ys' f0)). intros. 
  revert A B C. unfold Rabs; repeat destruct (Rcase_abs _); lra.
Qed.
Lemma rest_exact {m} t (bs : list (biquad (F64 m))) : forall l xs zs, List.Forall2 sect_of bs l -> exact_out l xs zs -> exact_from l (lefts bs (repeat (st_init t) (length bs))) xs zs.
Proof.
  induction bs as [|b bs IH]; intros l xs zs H2 E; inversion H2; subst; simpl in *; [exact E|]. destruct E as (us & D & E). exists us. split; [|apply IH; assumption].
  destruct D as [L D]. split; [exact L|]. intros n Hn. rewrite <- (Rmult_1_l (back us n 0)). rewrite D by exact Hn.
  assert (Z : match n with 0%nat => fst (left_over b (st_init (N := F64 m) t)) | 1%nat => snd (left_over b (st_init (N := F64 m) t)) | _ => 0 end = 0).
  { assert (Z0 : B2R (nofZ (F64 m) 0 : f64) = 0) by reflexivity. destruct n as [|[|n]]; [| |reflexivity]; destruct t; cbn [st_init left_over fst snd]; rewrite ?Z0; ring. }
  rewrite Z. ring.
Qed.
Lemma init_within {m} c t : 0 <= c -> st_within c (st_init (N := F64 m) t).
Proof.
  intros H. assert (Q : within c (nofZ (F64 m) 0 : f64)). { split; [reflexivity|]. change (Rabs 0 <= c). rewrite Rabs_R0. exact H. }
  destruct t; cbn [st_init st_within]; repeat split; try apply Q.
Qed.
Lemma c87_settles m (bs : list (biquad (F64 m))) (l : list sect) (ss : list (st (F64 m))) (xs : list f64) zs c X rho :
  List.Forall fin_coeffs bs -> List.Forall2 sect_of bs l -> ok_from l c X -> 0 <= X -> 0 <= c -> rate_ok rho l ->
  length ss = length bs -> List.Forall (st_within c) ss -> List.Forall (fin_in X) xs -> exact_out l (map B2R xs) zs ->
  let ys := snd (cs_run (MkCStages bs ss) xs) : list f64 in
  forall n, (n < length xs)%nat -> Rabs (B2R (nth n ys f0) - nth n zs 0) <= error_from l c X 0 + fade rho l c 0 / rho ^ n.
Proof.
  intros Hf H2 Hok HX Hc Hr Ls HW Hxs Ex ys n Hn.
  pose proof (real_run bs ss l (map B2R xs) Ls H2) as Eu.
  destruct (c87_two m bs l ss (repeat (st_init DF1) (length bs)) xs c X rho Hf H2 Hok HX Hc Hr Ls HW (repeat_length _ _)) with (us := snd (cs_run (MkCStages (map real_bq bs) (map real_st ss)) (map B2R xs))) (zs := zs) (n := n) as [A B]; auto.
  - apply List.Forall_forall. intros s Hs. apply repeat_spec in Hs. subst s. apply init_within, Hc.
  - apply rest_exact; assumption.
  - fold ys in A. match type of A with Rabs (_ - ?v) <= _ => set (u := v) in * end.
    pose proof (Rabs_triang (B2R (nth n ys f0) - u) (u - nth n zs 0)) as TR. replace (B2R (nth n ys f0) - u + (u - nth n zs 0)) with (B2R (nth n ys f0) - nth n zs 0) in TR by ring. eapply Rle_trans; [exact TR|]. apply Rplus_le_compat; [exact A|exact B].
Qed.

(** ** filters *)
Lemma filt_lens {m} t k FO (f : filt (F64 m)) : filt_ok t k FO f -> length (fl_states f) = length (fl_stages f).
Proof. intros (P & L & T). destruct P as (P & _). destruct P as (P1 & P2 & _). unfold fl_stages. apply Nat2Z.inj. exact (eq_trans L (eq_sym P2)). Qed.
Lemma filt_run_states {m} (f : filt (F64 m)) xs : fl_states (fst (filt_run f xs)) = cs_states (fst (cs_run (fl_cs f) xs)) /\ fl_pf (fst (filt_run f xs)) = fl_pf f.
Proof. rewrite filt_run_cs. split; reflexivity. Qed.
Lemma filt_run_out {m} (f : filt (F64 m)) xs : snd (filt_run f xs) = snd (cs_run (MkCStages (fl_stages f) (fl_states f)) xs).
Proof. rewrite filt_run_cs. reflexivity. Qed.
Lemma c87_filt m : (forall r th, npolar (F64 m) r th <> None) -> forall t k FO (f : filt (F64 m)) (l : list sect) (xs : list f64) c X rho,
  (1 <= FO)%Z -> in_int (2 * FO) = true -> reachable_ok t k FO f ->
  List.Forall fin_coeffs (fl_stages f) -> List.Forall2 sect_of (fl_stages f) l -> ok_from l c X -> 0 <= X -> 0 <= c -> List.Forall (st_within c) (fl_states f) ->
  List.Forall (fin_in X) xs ->
  let r := filt_run f xs in let ys := snd r : list f64 in
  length ys = length xs /\ List.Forall (fin_in (bound_from l c X)) ys /\ List.Forall (st_within (held l c X)) (fl_states (fst r)) /\
  List.Forall2 (fun y z => Rabs (B2R y - z) <= error_from l c X 0) ys (snd (cs_run (MkCStages (map real_bq (fl_stages f)) (map real_st (fl_states f))) (map B2R xs)) : list R) /\
  forall zs, rate_ok rho l -> exact_out l (map B2R xs) zs -> forall n, (n < length xs)%nat -> Rabs (B2R (nth n ys f0) - nth n zs 0) <= error_from l c X 0 + fade rho l c 0 / rho ^ n.
Proof.
  intros HP t k FO f l xs c X rho HF HI R Hf H2 Hok HX Hc HW Hxs r ys. pose proof (filt_lens t k FO f (reach_filt_ok HP t k FO HF HI f R)) as Ls.
  destruct (c87_cs m (fl_stages f) l (fl_states f) xs c X Hf H2 Hok HX Hc Ls HW Hxs) as (L & O & E & W). rewrite <- filt_run_out in L, O, E. fold r in L, O, E. fold ys in L, O, E.
  split; [exact L|]. split; [exact O|]. split; [|split; [exact E|]].
  - unfold r. rewrite (proj1 (filt_run_states f xs)). exact W.
  - intros zs Hr Ex n Hn. pose proof (c87_settles m (fl_stages f) l (fl_states f) xs zs c X rho Hf H2 Hok HX Hc Hr Ls HW Hxs Ex n Hn) as Q. rewrite <- filt_run_out in Q. exact Q.
Qed.
(** parameters changed in the middle of a signal, no reset *)
Lemma c87_switch m : (forall r th, npolar (F64 m) r th <> None) -> forall t k FO (f f2 : filt (F64 m)) (l l2 : list sect) (xs xs2 : list f64) r q c X rho zs,
  (1 <= FO)%Z -> in_int (2 * FO) = true -> reachable_ok t k FO f -> order_ok r ->
  List.Forall fin_coeffs (fl_stages f) -> List.Forall2 sect_of (fl_stages f) l -> ok_from l c X -> 0 <= X -> 0 <= c -> List.Forall (st_within c) (fl_states f) ->
  List.Forall (fin_in X) xs -> filt_setupN k FO r q (fst (filt_run f xs)) = Ok f2 tt ->
  List.Forall fin_coeffs (fl_stages f2) -> List.Forall2 sect_of (fl_stages f2) l2 -> let c2 := held l c X in ok_from l2 c2 X -> rate_ok rho l2 ->
  List.Forall (fin_in X) xs2 -> exact_out l2 (map B2R xs2) zs ->
  let ys := snd (filt_run f2 xs2) : list f64 in
  length ys = length xs2 /\ List.Forall (fin_in (bound_from l2 c2 X)) ys /\
  forall n, (n < length xs2)%nat -> Rabs (B2R (nth n ys f0) - nth n zs 0) <= error_from l2 c2 X 0 + fade rho l2 c2 0 / rho ^ n.
Proof.
  intros HP t k FO f f2 l l2 xs xs2 r q c X rho zs HF HI R Hr Hf H2 Hok HX Hc HW Hxs ES Hf2 H22 c2 Hok2 Hrho Hxs2 Ex ys.
  destruct (c87_filt m HP t k FO f l xs c X rho HF HI R Hf H2 Hok HX Hc HW Hxs) as (_ & _ & W & _).
  assert (R2 : reachable_ok t k FO f2).
  { destruct R as (os & Ho & Hs). exists (os ++ map (fun x => OpFilter (N := F64 m) x) xs ++ [OpSetupN r q]). split.
    - apply List.Forall_app. split; [exact Ho|]. apply List.Forall_app. split; [|repeat constructor; exact Hr]. apply List.Forall_forall. intros o Hin. apply in_map_iff in Hin. destruct Hin as (x & <- & _). exact I.
    - assert (APP : forall (os1 os2 : list (op (F64 m))) (g g' : filt (F64 m)), steps k FO os1 g = Some g' -> steps k FO (os1 ++ os2) g = steps k FO os2 g').
      { induction os1 as [|o os1 IH]; intros os2 g g' H; simpl in *; [congruence|]. destruct (step k FO o g); [apply IH, H|discriminate]. }
      rewrite (APP _ _ _ _ Hs). assert (RUN : forall (ys : list (T (F64 m))) (g : filt (F64 m)), steps k FO (map (fun x => OpFilter (N := F64 m) x) ys) g = Some (fst (filt_run g ys))).
      { clear. induction ys as [|y ys IH]; intros g; [reflexivity|]. cbn [map steps step]. rewrite IH. cbn [filt_run]. destruct (filt_filter g y) as [g' o]. cbn [fst]. destruct (filt_run g' ys). reflexivity. }
      rewrite (APP _ _ _ _ (RUN xs f)). cbn [steps step]. exact (f_equal (fun r => match after r with Some g => Some g | None => None end) ES). }
  assert (ST : fl_states f2 = fl_states (fst (filt_run f xs))) by (apply (proj1 (setup_keeps_states k FO r q (nofZ (F64 m) 0) (fst (filt_run f xs)) f2)); exact (f_equal after ES)).
  assert (C2 : 0 <= c2) by (pose proof (held_ge l c X Hok HX Hc); unfold c2; lra).
  destruct (c87_filt m HP t k FO f2 l2 xs2 c2 X rho HF HI R2 Hf2 H22 Hok2 HX C2) as (L & O & _ & _ & Q); auto.
  rewrite ST. exact W.
Qed.

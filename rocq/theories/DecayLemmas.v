(** Proofs: cascades and filters fall silent. *)
From Coq Require Import ZArith List Bool Reals Lra Lia.
From Flocq Require Import Core.Raux IEEE754.BinarySingleNaN.
From Verif Require Import Num Outcome Types Biquad State Cascade PoleFilter History Float64 FloatSpec FloatLemmas Stream AnyLemmas SigSpec SigProofs
  RoundSpec RoundProofs RoundRun RoundLemmas RunOnSpec RunOn RunOnLemmas DecaySpec Decay.
Import ListNotations.
Local Open Scope R_scope.

Lemma falling_props rho c : 1 <= rho -> 0 <= c ->
  (forall n, 0 < falling rho c n) /\ (forall n, falling rho c (S n) <= falling rho c n <= rho * falling rho c (S n)) /\ (forall n, g_abs <= falling rho c n) /\
  falling rho c 0 <= c + 1 /\ c <= falling rho c 0.
Proof.
  intros Hr Hc. pose proof g_pos as GP. assert (RP : forall n, 0 < rho ^ n) by (intros n; apply pow_lt; lra).
  assert (C0 : forall n, 0 <= c / rho ^ n) by (intros n; apply Rle_mult_inv_pos; [exact Hc|apply RP]).
  assert (E : forall n, c / rho ^ n = rho * (c / rho ^ S n)). { intros n. cbn [pow]. specialize (RP n). field. lra. }
  unfold falling. split; [intros n; specialize (C0 n); lra|]. split; [|split; [intros n; specialize (C0 n); lra|]].
  - intros n. pose proof (C0 (S n)). rewrite (E n). nra.
  - cbn [pow]. unfold Rdiv. rewrite Rinv_1. lra.
Qed.
Lemma falling_limit rho c : 1 < rho -> 0 <= c -> exists N, forall n, (N <= n)%nat -> falling rho c n <= 2 * g_abs.
Proof.
  intros Hr Hc. pose proof g_pos as GP. destruct (Pow_x_infinity rho ltac:(rewrite Rabs_pos_eq; lra) (c / g_abs)) as (N & HN).
  exists N. intros n Hn. specialize (HN n Hn). assert (RP : 0 < rho ^ n) by (apply pow_lt; lra). rewrite Rabs_pos_eq in HN by lra. unfold falling.
  assert (Q : c <= g_abs * rho ^ n). { apply Rge_le in HN. apply (Rmult_le_compat_l g_abs) in HN; [|lra]. replace (g_abs * (c / g_abs)) with c in HN by (field; lra). exact HN. }
  assert (c / rho ^ n <= g_abs). { unfold Rdiv. apply (Rmult_le_reg_r (rho ^ n)); [exact RP|]. rewrite Rmult_assoc, Rinv_l by lra. lra. } lra.
Qed.

Lemma fall_stage {m} (b : biquad (F64 m)) s t0 (xs : list f64) rho c u :
  fin_coeffs b -> sect_of b s -> 1 <= rho -> rho ^ 2 <= 2 -> fall_ok1 rho c s u -> 0 <= u -> 0 <= c -> st_within c t0 ->
  (forall n, (n < length xs)%nat -> okf (u * falling rho c n) (nth n xs f0)) ->
  let ys := snd (bq_run b t0 xs) : list f64 in
  length ys = length xs /\ forall n, (n < length xs)%nat -> okf (fall_out s u * falling rho c n) (nth n ys f0).
Proof.
  intros Hf (Ea1 & Ea2 & Eb0 & Eb1 & Eb2) Hr R2 (Hg & HA & H1 & H2) Hu Hc HW Hxs ys.
  destruct (falling_props rho c Hr Hc) as (HP & HM & Hga & C1 & C2).
  assert (Hx : forall n, okf (u * falling rho c n) (fsq xs n)).
  { intros n. unfold fsq. destruct (Nat.lt_ge_cases n (length xs)) as [L|L]; [apply Hxs, L|].
    rewrite nth_overflow by exact L. apply okf_0. specialize (HP n). apply Rmult_le_pos; lra. }
  assert (Ly : length ys = length xs) by apply bq_run_len. split; [exact Ly|].
  intros n Hn. unfold ys. rewrite bq_run_fsq by exact Hn.
  assert (OV : fall_out s u * (1 + s_B s) * falling rho c 0 <= 2 ^ 900).
  { eapply Rle_trans; [|exact H2]. apply Rmult_le_compat_l; [|exact C1]. pose proof (gain_ge1 _ _ _ Hg). pose proof (s_A_pos s). pose proof (s_B_pos s).
    apply Rmult_le_pos; [|lra]. unfold fall_out. apply Rmult_le_pos; [lra|]. apply Rplus_le_le_0_compat; [|lra]. apply Rmult_le_pos; [apply Rmult_le_pos|]; lra. }
  set (phi := falling rho c) in *. clearbody phi. unfold fall_out, s_A, s_B in *. rewrite Ea1, Ea2, Eb0, Eb1, Eb2 in *.
  apply (stage_fall b (fsq xs) phi (s_G s) u rho Hf Hg Hu Hr R2 HA HP HM Hga Hx H1 OV t0 n).
  exact (within_mono c (phi 0%nat) C2 m t0 HW).
Qed.
Lemma fall_out_pos s u rho c : fall_ok1 rho c s u -> 0 <= u -> 0 <= fall_out s u.
Proof.
  intros (Hg & _) Hu. pose proof (gain_ge1 _ _ _ Hg). pose proof (s_A_pos s). pose proof (s_B_pos s).
  unfold fall_out. apply Rmult_le_pos; [lra|]. apply Rplus_le_le_0_compat; [|lra]. apply Rmult_le_pos; [apply Rmult_le_pos|]; lra.
Qed.
Lemma fall_cas {m} (bs : list (biquad (F64 m))) rho c : 1 <= rho -> rho ^ 2 <= 2 -> 0 <= c -> forall ss l (xs : list f64) u,
  List.Forall fin_coeffs bs -> List.Forall2 sect_of bs l -> fall_ok rho c l u -> 0 <= u -> length ss = length bs -> List.Forall (st_within c) ss ->
  (forall n, (n < length xs)%nat -> okf (u * falling rho c n) (nth n xs f0)) ->
  let ys := snd (cs_run (MkCStages bs ss) xs) : list f64 in
  length ys = length xs /\ forall n, (n < length xs)%nat -> okf (fall l u * falling rho c n) (nth n ys f0).
Proof.
  intros Hr R2 Hc. induction bs as [|b bs IH]; intros [|s ss] l xs u Hf H2 Hok Hu Ls HW Hxs; try discriminate; inversion H2; subst; cbn zeta.
  - rewrite cs_run_nil. cbn [fall]. split; [reflexivity|exact Hxs].
  - destruct Hok as [Hs Hok]. inversion Hf; inversion HW; subst. rewrite cs_run_cons by (simpl in Ls; lia). cbn [snd].
    destruct (fall_stage b y s xs rho c u) as (L1 & O1); try assumption.
    destruct (IH ss l' (snd (bq_run b s xs)) (fall_out y u)) as (L2 & O2); try assumption.
    + exact (fall_out_pos y u rho c Hs Hu).
    + simpl in Ls; lia.
    + intros n Hn. apply O1. rewrite <- L1. exact Hn.
    + rewrite L1 in L2, O2. cbn [fall]. split; assumption.
Qed.

Lemma c88_falls m (bs : list (biquad (F64 m))) (l : list sect) (ss : list (st (F64 m))) (xs : list f64) rho c u :
  List.Forall fin_coeffs bs -> List.Forall2 sect_of bs l -> 1 <= rho -> rho ^ 2 <= 2 -> fall_ok rho c l u -> 0 <= u -> 0 <= c -> length ss = length bs -> List.Forall (st_within c) ss ->
  (forall n, (n < length xs)%nat -> FloatSpec.is_fin (nth n xs f0) /\ Rabs (B2R (nth n xs f0)) <= u * falling rho c n) ->
  let ys := snd (cs_run (MkCStages bs ss) xs) : list f64 in
  length ys = length xs /\ forall n, (n < length xs)%nat -> FloatSpec.is_fin (nth n ys f0) /\ Rabs (B2R (nth n ys f0)) <= fall l u * falling rho c n.
Proof. intros Hf H2 Hr R2 Hok Hu Hc Ls HW Hxs ys. exact (fall_cas bs rho c Hr R2 Hc ss l xs u Hf H2 Hok Hu Ls HW Hxs). Qed.

Definition zeros (k : nat) : list f64 := repeat f0 k.
Lemma zeros_ok rho c k n : okf (0 * falling rho c n) (nth n (zeros k) f0).
Proof. unfold zeros. rewrite nth_repeat. apply okf_0. lra. Qed.
Lemma fall_pos rho c l : forall u, fall_ok rho c l u -> 0 <= u -> 0 <= fall l u.
Proof. induction l as [|s l IH]; intros u Hok Hu; [exact Hu|]. destruct Hok as [H1 H2]. cbn [fall]. apply IH; [exact H2|]. exact (fall_out_pos s u rho c H1 Hu). Qed.
(** silence, from any delay lines *)
Lemma c88_silence rho c : 1 < rho -> rho ^ 2 <= 2 -> 0 <= c -> exists N, forall m (bs : list (biquad (F64 m))) (l : list sect) (ss : list (st (F64 m))) k,
  List.Forall fin_coeffs bs -> List.Forall2 sect_of bs l -> fall_ok rho c l 0 -> length ss = length bs -> List.Forall (st_within c) ss ->
  let ys := snd (cs_run (MkCStages bs ss) (repeat f0 k)) : list f64 in
  length ys = k /\ (forall n, (n < k)%nat -> FloatSpec.is_fin (nth n ys f0) /\ Rabs (B2R (nth n ys f0)) <= fall l 0 * falling rho c n) /\
  forall n, (N <= n < k)%nat -> Rabs (B2R (nth n ys f0)) <= 2 * fall l 0 * g_abs.
Proof.
  intros Hr R2 Hc. destruct (falling_limit rho c Hr Hc) as (N & HN). exists N. intros m bs l ss k Hf H2 Hok Ls HW ys.
  destruct (fall_cas bs rho c ltac:(lra) R2 Hc ss l (zeros k) 0 Hf H2 Hok ltac:(lra) Ls HW (fun n _ => zeros_ok rho c k n)) as (L & O). fold ys in L, O.
  unfold zeros in L, O. rewrite repeat_length in L, O. split; [exact L|]. split; [exact O|]. intros n Hn. destruct (O n ltac:(lia)) as [_ Q].
  eapply Rle_trans; [exact Q|]. replace (2 * fall l 0 * g_abs) with (fall l 0 * (2 * g_abs)) by ring. apply Rmult_le_compat_l; [|apply HN; lia]. apply (fall_pos rho c l); [exact Hok|lra].
Qed.
(** a filter object after any history, fed with xs and then with silence *)
Lemma c88_filter m : (forall r th, npolar (F64 m) r th <> None) -> forall t k FO (f : filt (F64 m)) (l : list sect) (xs : list f64) c X rho,
  (1 <= FO)%Z -> in_int (2 * FO) = true -> reachable_ok t k FO f ->
  List.Forall fin_coeffs (fl_stages f) -> List.Forall2 sect_of (fl_stages f) l -> ok_from l c X -> 0 <= X -> 0 <= c -> List.Forall (st_within c) (fl_states f) ->
  List.Forall (fin_in X) xs -> 1 < rho -> rho ^ 2 <= 2 -> fall_ok rho (held l c X) l 0 ->
  exists N, forall z, let ys := snd (filt_run (fst (filt_run f xs)) (repeat f0 z)) : list f64 in
  length ys = z /\ (forall n, (n < z)%nat -> FloatSpec.is_fin (nth n ys f0) /\ Rabs (B2R (nth n ys f0)) <= fall l 0 * falling rho (held l c X) n) /\
  forall n, (N <= n < z)%nat -> Rabs (B2R (nth n ys f0)) <= 2 * fall l 0 * g_abs.
Proof.
  intros HP t k FO f l xs c X rho HF HI R Hf H2 Hok HX Hc HW Hxs Hr R2 HF0.
  pose proof (held_ge l c X Hok HX Hc) as HC. destruct (c88_silence rho (held l c X) Hr R2 ltac:(lra)) as (N & HN). exists N. intros z ys.
  pose proof (filt_lens t k FO f (reach_filt_ok HP t k FO HF HI f R)) as Ls.
  destruct (c87_cs m (fl_stages f) l (fl_states f) xs c X Hf H2 Hok HX Hc Ls HW Hxs) as (_ & _ & _ & W).
  destruct (filt_run_states f xs) as [ST PF]. set (g := fst (filt_run f xs)) in *.
  assert (SG : fl_stages g = fl_stages f) by (unfold fl_stages; rewrite PF; reflexivity).
  assert (WG : List.Forall (st_within (held l c X)) (fl_states g)) by (rewrite ST; exact W).
  assert (LG : length (fl_states g) = length (fl_stages f)).
  { rewrite ST. clear - Ls. exact (eq_trans (proj2 (FloatLemmas.cs_run_shape (N := F64 m) xs (fl_cs f))) Ls). }
  destruct (HN m (fl_stages f) l (fl_states g) z Hf H2 HF0 LG WG) as (A & B & C). rewrite <- SG in A, B, C. rewrite <- filt_run_out in A, B, C.
  split; [exact A|]. split; [exact B|exact C].
Qed.

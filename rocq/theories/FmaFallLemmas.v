(** Proofs: contracted cascades and filters fall silent. *)
From Coq Require Import ZArith List Bool Reals Lra Lia.
From Flocq Require Import Core.Raux IEEE754.BinarySingleNaN.
From Verif Require Import Num Outcome Types Biquad State Cascade PoleFilter History RealNum Float64 FloatSpec FloatLemmas Stream AnyLemmas SigSpec SigProofs
  RoundSpec RoundProofs RoundRun RoundLemmas RunOnSpec RunOn RunOnLemmas DecaySpec Decay DecayLemmas Contract ContractProofs ContractLemmas FmaOn FmaOnLemmas FmaFall FmaFallSpec.
Import ListNotations.
Local Open Scope R_scope.

Lemma cfall_stage {m} (b : biquad (F64 m)) s t0 (xs ys : list f64) rho c u :
  fin_coeffs b -> sect_of b s -> 1 <= rho -> rho ^ 2 <= 2 -> fall_ok1 rho c s u -> 0 <= u -> 0 <= c -> st_within c t0 ->
  (forall n, (n < length xs)%nat -> okf (u * falling rho c n) (nth n xs f0)) -> c_brun b t0 xs ys ->
  length ys = length xs /\ forall n, (n < length xs)%nat -> okf (fall_out s u * falling rho c n) (nth n ys f0).
Proof.
  intros Hf (Ea1 & Ea2 & Eb0 & Eb1 & Eb2) Hr R2 (Hg & HA & H1 & H2) Hu Hc HW Hxs HR.
  destruct (falling_props rho c Hr Hc) as (HP & HM & Hga & C1 & C2).
  assert (Hx : forall n, okf (u * falling rho c n) (fsq xs n)).
  { intros n. unfold fsq. destruct (Nat.lt_ge_cases n (length xs)) as [L|L]; [apply Hxs, L|].
    rewrite nth_overflow by exact L. apply okf_0. specialize (HP n). apply Rmult_le_pos; lra. }
  assert (Ly : length ys = length xs) by (eapply c_blen; eassumption). destruct (c_forever b _ xs ys HR) as (ss & y & E0 & Hrn & Hy). split; [exact Ly|].
  intros n Hn. rewrite Hy by exact Hn.
  assert (OV : fall_out s u * (1 + s_B s) * falling rho c 0 <= 2 ^ 900).
  { eapply Rle_trans; [|exact H2]. apply Rmult_le_compat_l; [|exact C1]. pose proof (gain_ge1 _ _ _ Hg). pose proof (s_A_pos s). pose proof (s_B_pos s).
    apply Rmult_le_pos; [|lra]. unfold fall_out. apply Rmult_le_pos; [lra|]. apply Rplus_le_le_0_compat; [|lra]. apply Rmult_le_pos; [apply Rmult_le_pos|]; lra. }
  set (phi := falling rho c) in *. clearbody phi. unfold fall_out, s_A, s_B in *. rewrite Ea1, Ea2, Eb0, Eb1, Eb2 in *.
  apply (cstage_fall b (fsq xs) phi (s_G s) u rho Hf Hg Hu Hr R2 HA HP HM Hga Hx H1 OV ss y Hrn t0 n E0).
  exact (within_mono c (phi 0%nat) C2 m t0 HW).
Qed.
Lemma cfall_cas {m} (bs : list (biquad (F64 m))) rho c : 1 <= rho -> rho ^ 2 <= 2 -> 0 <= c -> forall ss l (xs ys : list f64) u,
  List.Forall fin_coeffs bs -> List.Forall2 sect_of bs l -> fall_ok rho c l u -> 0 <= u -> length ss = length bs -> List.Forall (st_within c) ss ->
  (forall n, (n < length xs)%nat -> okf (u * falling rho c n) (nth n xs f0)) -> c_run bs ss xs ys ->
  length ys = length xs /\ forall n, (n < length xs)%nat -> okf (fall l u * falling rho c n) (nth n ys f0).
Proof.
  intros Hr R2 Hc. induction bs as [|b bs IH]; intros [|s ss] l xs ys u Hf H2 Hok Hu Ls HW Hxs HR; try discriminate; inversion H2; subst.
  - apply c_none in HR. subst ys. cbn [fall]. split; [reflexivity|exact Hxs].
  - destruct Hok as [Hs Hok]. inversion Hf; inversion HW; subst. apply c_split in HR as (ws & RB & RR).
    destruct (cfall_stage b y s xs ws rho c u) as (L1 & O1); try assumption.
    destruct (IH ss l' ws ys (fall_out y u)) as (L2 & O2); try assumption.
    + exact (fall_out_pos y u rho c Hs Hu).
    + simpl in Ls; lia.
    + intros n Hn. apply O1. rewrite <- L1. exact Hn.
    + rewrite L1 in L2, O2. cbn [fall]. split; assumption.
Qed.
Lemma c100_falls m (bs : list (biquad (F64 m))) (l : list sect) (ss : list (st (F64 m))) (xs ys : list f64) rho c u :
  List.Forall fin_coeffs bs -> List.Forall2 sect_of bs l -> 1 <= rho -> rho ^ 2 <= 2 -> fall_ok rho c l u -> 0 <= u -> 0 <= c -> length ss = length bs -> List.Forall (st_within c) ss ->
  (forall n, (n < length xs)%nat -> FloatSpec.is_fin (nth n xs f0) /\ Rabs (B2R (nth n xs f0)) <= u * falling rho c n) -> c_run bs ss xs ys ->
  length ys = length xs /\ forall n, (n < length xs)%nat -> FloatSpec.is_fin (nth n ys f0) /\ Rabs (B2R (nth n ys f0)) <= fall l u * falling rho c n.
Proof. intros Hf H2 Hr R2 Hok Hu Hc Ls HW Hxs HR. exact (cfall_cas bs rho c Hr R2 Hc ss l xs ys u Hf H2 Hok Hu Ls HW Hxs HR). Qed.
Lemma c100_silence rho c : 1 < rho -> rho ^ 2 <= 2 -> 0 <= c -> exists N, forall m (bs : list (biquad (F64 m))) (l : list sect) (ss : list (st (F64 m))) k (ys : list f64),
  List.Forall fin_coeffs bs -> List.Forall2 sect_of bs l -> fall_ok rho c l 0 -> length ss = length bs -> List.Forall (st_within c) ss -> c_run bs ss (repeat f0 k) ys ->
  length ys = k /\ (forall n, (n < k)%nat -> FloatSpec.is_fin (nth n ys f0) /\ Rabs (B2R (nth n ys f0)) <= fall l 0 * falling rho c n) /\
  forall n, (N <= n < k)%nat -> Rabs (B2R (nth n ys f0)) <= 2 * fall l 0 * g_abs.
Proof.
  intros Hr R2 Hc. destruct (falling_limit rho c Hr Hc) as (N & HN). exists N. intros m bs l ss k ys Hf H2 Hok Ls HW HR.
  destruct (cfall_cas bs rho c ltac:(lra) R2 Hc ss l (zeros k) ys 0 Hf H2 Hok ltac:(lra) Ls HW (fun n _ => zeros_ok rho c k n) HR) as (L & O).
  unfold zeros in L, O. rewrite repeat_length in L, O. split; [exact L|]. split; [exact O|]. intros n Hn. destruct (O n ltac:(lia)) as [_ Q].
  eapply Rle_trans; [exact Q|]. replace (2 * fall l 0 * g_abs) with (fall l 0 * (2 * g_abs)) by ring. apply Rmult_le_compat_l; [|apply HN; lia]. apply (fall_pos rho c l); [exact Hok|lra].
Qed.

(** ** the delay lines that a contracted run leaves behind *)
Section To.
  Context {m : libm}.
  Notation FN := (F64 m).
  Lemma to_run (bs : list (biquad FN)) ss xs ss' ys : c_to bs ss xs ss' ys -> c_run bs ss xs ys.
  Proof. induction 1; econstructor; eassumption. Qed.
  Lemma run_to (bs : list (biquad FN)) ss xs ys : c_run bs ss xs ys -> exists ss', c_to bs ss xs ss' ys.
  Proof. induction 1 as [ss|ss x xs ss' y ys L R (s2 & IH)]; [exists ss; constructor|]. exists s2. econstructor; eassumption. Qed.
  Lemma to_len (bs : list (biquad FN)) ss xs ss' ys : c_to bs ss xs ss' ys -> length ss = length bs -> length ss' = length bs.
  Proof. induction 1 as [|ss x xs ss' y ys s2 L R IH]; intros H; [exact H|]. apply IH. exact (proj2 (c_loop_len _ _ _ _ _ L)). Qed.
  Lemma to_app (bs : list (biquad FN)) ss xs ss' ys zs ws : c_to bs ss xs ss' ys -> c_run bs ss' zs ws -> c_run bs ss (xs ++ zs) (ys ++ ws).
  Proof. induction 1 as [|s0 x xs s1 y ys s2 L R IH]; intros H; [exact H|]. cbn [app]. econstructor; [exact L|]. apply IH, H. Qed.
  Lemma app_to (bs : list (biquad FN)) xs : forall ss zs vs, c_run bs ss (xs ++ zs) vs -> exists ss' ys ws, vs = ys ++ ws /\ c_to bs ss xs ss' ys /\ c_run bs ss' zs ws.
  Proof.
    induction xs as [|x xs IH]; intros ss zs vs H; cbn [app] in H; [exists ss, [], vs; split; [reflexivity|]; split; [constructor|exact H]|].
    inversion H as [|? ? ? s1 y ys L R]; subst. destruct (IH _ _ _ R) as (s2 & us & ws & -> & A & B). exists s2, (y :: us), ws. split; [reflexivity|]. split; [econstructor; eassumption|exact B].
  Qed.
  Inductive c_bto (b : biquad FN) : st FN -> list f64 -> st FN -> list f64 -> Prop :=
  | bt_nil s : c_bto b s [] s []
  | bt_cons s x xs s' y ys s'' : c_filter b s x s' y -> c_bto b s' xs s'' ys -> c_bto b s (x :: xs) s'' (y :: ys).
  Lemma bto_brun b s xs s' ys : c_bto b s xs s' ys -> c_brun b s xs ys.
  Proof. induction 1; econstructor; eassumption. Qed.
  Lemma to_split (b : biquad FN) bs s ss xs r ys : c_to (b :: bs) (s :: ss) xs r ys -> exists us s' ss', r = s' :: ss' /\ c_bto b s xs s' us /\ c_to bs ss us ss' ys.
  Proof.
    intros H. remember (s :: ss) as l eqn:El. revert s ss El. induction H as [l|l x xs l' y ys r L R IH]; intros s ss El; subst l.
    - exists [], s, ss. repeat split; constructor.
    - inversion L; subst. destruct (IH _ _ eq_refl) as (us & s2 & ss2 & E & A & B). eexists _, s2, ss2. split; [exact E|]. split; econstructor; eassumption.
  Qed.
  Lemma bto_forever (b : biquad FN) s xs s' ys : c_bto b s xs s' ys -> exists (ss : nat -> st FN) (y : nat -> f64),
    ss 0%nat = s /\ (forall n, c_filter b (ss n) (fsq xs n) (ss (S n)) (y n)) /\ ss (length xs) = s'.
  Proof.
    induction 1 as [s|s x xs s' y ys s'' F R (ss & yy & E0 & Hr & Hy)].
    - destruct (c_forever b s [] [] (cb_nil b s)) as (ss & y & E0 & Hr & _). exists ss, y. auto.
    - exists (fun n => match n with O => s | S k => ss k end), (fun n => match n with O => y | S k => yy k end).
      split; [reflexivity|]. split; [|exact Hy]. intros [|n]; [rewrite E0; exact F|apply Hr].
  Qed.
End To.
Lemma chold_stage {m} (b : biquad (F64 m)) s t0 (xs ys : list f64) t1 c X :
  fin_coeffs b -> sect_of b s -> sect_ok_from s c X -> 0 <= X -> 0 <= c -> st_within c t0 ->
  List.Forall (okf X) xs -> c_bto b t0 xs t1 ys -> st_within (hold_from s c X) t1 /\ List.Forall (okf (out_from s c X)) ys.
Proof.
  intros Hf Hs Hok HX Hc HW Hxs HR. pose proof (bto_brun _ _ _ _ _ HR) as HB. split.
  - destruct Hs as (Ea1 & Ea2 & Eb0 & Eb1 & Eb2). destruct Hok as (Hg & H1 & H2 & H3).
    assert (Hx : forall n, okf X (fsq xs n)).
    { intros n. unfold fsq. destruct (Nat.lt_ge_cases n (length xs)) as [L|L].
      - apply (proj1 (List.Forall_forall _ _) Hxs), nth_In, L.
      - rewrite nth_overflow by exact L. apply okf_0, HX. }
    set (k := left_over b t0) in *. set (z := solve s k (re (fsq xs))).
    assert (Hz : forall n, fir 1 (s_a1 s) (s_a2 s) z n = fir (s_b0 s) (s_b1 s) (s_b2 s) (re (fsq xs)) n + imp2 k n) by (intros n; apply solve_eq).
    destruct (left_bd b t0 c Hc HW) as [K1 K2]. fold k in K1, K2. destruct (bto_forever b _ _ _ _ HR) as (ss & y & E0 & Hr & <-).
    clearbody z. unfold hold_from, lvl, s_A, s_B in *. rewrite Ea1, Ea2, Eb0, Eb1, Eb2 in *.
    apply (cstage_hold b (fsq xs) (s_G s) X c Hf Hg Hx Hc H1 H2 H3 k z K1 K2 Hz ss y Hr t0 (length xs) E0 HW eq_refl).
  - pose proof (real_run [b] [t0] [s] (map B2R xs) eq_refl (List.Forall2_cons _ _ Hs (List.Forall2_nil _))) as Ex. cbn [lefts map exact_from] in Ex. destruct Ex as (vs & Hd & _).
    destruct (cstage_on b s t0 xs ys c X (map B2R xs) vs 0) as (_ & _ & O & _); try assumption; try lra.
    + apply map_length.
    + intros n Hn. apply map_near, Hn.
Qed.
Lemma c100_states m (bs : list (biquad (F64 m))) : forall (l : list sect) (ss ss' : list (st (F64 m))) (xs ys : list f64) c X,
  List.Forall fin_coeffs bs -> List.Forall2 sect_of bs l -> ok_from l c X -> 0 <= X -> 0 <= c -> length ss = length bs -> List.Forall (st_within c) ss ->
  List.Forall (fin_in X) xs -> c_to bs ss xs ss' ys -> length ss' = length bs /\ List.Forall (st_within (held l c X)) ss'.
Proof.
  intros l ss ss' xs ys c X Hf H2 Hok HX Hc Ls HW Hxs HR. split; [exact (to_len _ _ _ _ _ HR Ls)|].
  revert l ss ss' xs ys X Hf H2 Hok HX Ls HW Hxs HR. induction bs as [|b bs IH]; intros l [|s ss] ss' xs ys X Hf H2 Hok HX Ls HW Hxs HR; try discriminate; inversion H2; subst.
  - pose proof (to_len _ _ _ _ _ HR eq_refl) as L. destruct ss'; [constructor|discriminate].
  - destruct Hok as [Hs Hok]. inversion Hf; inversion HW; subst. apply to_split in HR as (us & s' & ss2 & -> & RB & RR).
    destruct (chold_stage b y s xs us s' c X) as (W & O); try assumption. destruct (from_pos y c X Hs HX Hc) as (P1 & P2 & P3 & P4).
    cbn [held]. constructor; [apply (within_mono (hold_from y c X)); [apply Rmax_l|exact W]|].
    assert (Q : List.Forall (st_within (held l' c (out_from y c X))) ss2) by (apply (IH l' ss ss2 us ys); try assumption; simpl in Ls; lia).
    revert Q. apply List.Forall_impl. intros a. apply within_mono, Rmax_r.
Qed.
(** a signal, then silence *)
Lemma c100_after m (bs : list (biquad (F64 m))) (l : list sect) (ss : list (st (F64 m))) (xs : list f64) c X rho :
  List.Forall fin_coeffs bs -> List.Forall2 sect_of bs l -> ok_from l c X -> 0 <= X -> 0 <= c -> length ss = length bs -> List.Forall (st_within c) ss ->
  List.Forall (fin_in X) xs -> 1 < rho -> rho ^ 2 <= 2 -> fall_ok rho (held l c X) l 0 ->
  exists N, forall k (ys : list f64), c_run bs ss (xs ++ repeat f0 k) ys ->
  length ys = (length xs + k)%nat /\
  (forall n, (n < k)%nat -> FloatSpec.is_fin (nth (length xs + n) ys f0) /\ Rabs (B2R (nth (length xs + n) ys f0)) <= fall l 0 * falling rho (held l c X) n) /\
  forall n, (N <= n < k)%nat -> Rabs (B2R (nth (length xs + n) ys f0)) <= 2 * fall l 0 * g_abs.
Proof.
  intros Hf H2 Hok HX Hc Ls HW Hxs Hr R2 HF. pose proof (held_ge l c X Hok HX Hc) as HC. destruct (c100_silence rho (held l c X) Hr R2 ltac:(lra)) as (N & HN). exists N. intros k ys HR.
  apply app_to in HR as (s1 & us & ws & -> & A & B). destruct (c100_states m bs l ss s1 xs us c X Hf H2 Hok HX Hc Ls HW Hxs A) as (L1 & W1).
  destruct (HN m bs l s1 k ws Hf H2 HF L1 W1 B) as (Q1 & Q2 & Q3). assert (Lu : length us = length xs). { clear - A. induction A; cbn; lia. }
  assert (E : forall n, nth (length xs + n) (us ++ ws) f0 = nth n ws f0). { intros n. rewrite <- Lu. rewrite app_nth2 by lia. f_equal. lia. }
  split; [rewrite app_length; lia|]. split; intros n Hn; rewrite E; [apply Q2, Hn|apply Q3, Hn].
Qed.
Lemma c100_filter m : (forall r th, npolar (F64 m) r th <> None) -> forall t k FO (f : filt (F64 m)) (l : list sect) (xs : list f64) c X rho,
  (1 <= FO)%Z -> in_int (2 * FO) = true -> reachable_ok t k FO f ->
  List.Forall fin_coeffs (fl_stages f) -> List.Forall2 sect_of (fl_stages f) l -> ok_from l c X -> 0 <= X -> 0 <= c -> List.Forall (st_within c) (fl_states f) ->
  List.Forall (fin_in X) xs -> 1 < rho -> rho ^ 2 <= 2 -> fall_ok rho (held l c X) l 0 ->
  exists N, forall z (ys : list f64), c_run (fl_stages f) (fl_states f) (xs ++ repeat f0 z) ys ->
  length ys = (length xs + z)%nat /\
  (forall n, (n < z)%nat -> FloatSpec.is_fin (nth (length xs + n) ys f0) /\ Rabs (B2R (nth (length xs + n) ys f0)) <= fall l 0 * falling rho (held l c X) n) /\
  forall n, (N <= n < z)%nat -> Rabs (B2R (nth (length xs + n) ys f0)) <= 2 * fall l 0 * g_abs.
Proof.
  intros HP t k FO f l xs c X rho HF HI R Hf H2 Hok HX Hc HW Hxs Hr R2 HF0. apply c100_after; try assumption. exact (filt_lens t k FO f (reach_filt_ok HP t k FO HF HI f R)).
Qed.

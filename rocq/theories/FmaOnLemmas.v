(** Proofs: cascades and filters that run on without reset, under contraction. *)
From Coq Require Import ZArith List Bool Reals Lra Lia.
From Coquelicot Require Import Coquelicot.
From Flocq Require Import IEEE754.BinarySingleNaN.
From Verif Require Import Num Outcome Types Biquad State Cascade PoleFilter History RealNum Float64 FloatSpec Hoare Safe Stream AnyLemmas
  SigSpec SigProofs StabProofs RespProofs SigLemmas RoundSpec RoundProofs RoundRun RoundLemmas DblSpec LayoutProofs ChainSpec RespDblSpec RunOnSpec RunOn RunOnLemmas Contract ContractProofs ContractLemmas FmaOn SettleSpec Settle SettleResp SettleOn SettleRate.
Import ListNotations.
Local Open Scope R_scope.

Lemma cstage_on {m} (b : biquad (F64 m)) s t0 (xs ys : list f64) c X us zs e :
  fin_coeffs b -> sect_of b s -> sect_ok_from s c X -> 0 <= X -> 0 <= c -> 0 <= e -> st_within c t0 ->
  List.Forall (okf X) xs -> length us = length xs ->
  (forall n, (n < length xs)%nat -> Rabs (B2R (nth n xs f0) - nth n us 0) <= e) ->
  rings (s_a1 s) (s_a2 s) (s_b0 s) (s_b1 s) (s_b2 s) (left_over b t0) us zs -> c_brun b t0 xs ys ->
  length ys = length xs /\ length zs = length xs /\ List.Forall (okf (out_from s c X)) ys /\
  forall n, (n < length xs)%nat -> Rabs (B2R (nth n ys f0) - nth n zs 0) <= s_G s * s_B s * e + err_from s c X.
Proof.
  intros Hf (Ea1 & Ea2 & Eb0 & Eb1 & Eb2) (Hg & H1 & H2 & H3) HX Hc He HW Hxs Hlu Hin Hd HR.
  destruct (rings_fir _ _ _ _ _ _ _ _ Hd) as [Lz Fz].
  assert (Hx : forall n, okf X (fsq xs n)).
  { intros n. unfold fsq. destruct (Nat.lt_ge_cases n (length xs)) as [L|L].
    - apply (proj1 (List.Forall_forall _ _) Hxs), nth_In, L.
    - rewrite nth_overflow by exact L. apply okf_0, HX. }
  set (k := left_over b t0) in *. set (z := solve s k (re (fsq xs))).
  assert (Hz : forall n, fir 1 (s_a1 s) (s_a2 s) z n = fir (s_b0 s) (s_b1 s) (s_b2 s) (re (fsq xs)) n + imp2 k n) by (intros n; apply solve_eq).
  destruct (left_bd b t0 c Hc HW) as [K1 K2]. fold k in K1, K2.
  assert (Ly : length ys = length xs) by (eapply c_blen; eassumption). destruct (c_forever b _ xs ys HR) as (ss & y & E0 & Hr & Hy).
  assert (HS : forall n, okf (out_from s c X) (y n) /\ Rabs (re y n - z n) <= err_from s c X).
  { intros n. clearbody z. unfold out_from, err_from, lvl, s_A, s_B in *. rewrite Ea1, Ea2, Eb0, Eb1, Eb2 in *.
    apply (cstage_from b (fsq xs) (s_G s) X c Hf Hg Hx Hc H1 H2 H3 k z K1 K2 Hz ss y Hr t0 n E0 HW eq_refl). }
  split; [exact Ly|]. split; [lia|]. split.
  - apply List.Forall_forall. intros v Hv. destruct (In_nth _ _ f0 Hv) as (n & Hn & <-). rewrite Hy by lia. apply HS.
  - intros n Hn. rewrite Hy by exact Hn. destruct (HS n) as [_ E].
    assert (Q : Rabs (z n - seqof zs n) <= s_G s * (s_B s * e)).
    { apply (gain_fir _ _ _ Hg (fun k => z k - seqof zs k)).
      - apply Rmult_le_pos; [apply s_B_pos|exact He].
      - intros i Hi. rewrite fir_sub, Hz, Fz by lia.
        replace (fir (s_b0 s) (s_b1 s) (s_b2 s) (re (fsq xs)) i + imp2 k i - (fir (s_b0 s) (s_b1 s) (s_b2 s) (seqof us) i + imp2 k i))
          with (fir (s_b0 s) (s_b1 s) (s_b2 s) (re (fsq xs)) i - fir (s_b0 s) (s_b1 s) (s_b2 s) (seqof us) i) by ring.
        rewrite <- fir_sub. apply fir_bd; [exact He|]. intros j Hj. apply Hin. lia. }
    unfold seqof in Q. unfold re in E. revert E Q. generalize (B2R (y n)). intros v E Q.
    pose proof (Rabs_triang (v - z n) (z n - nth n zs 0)) as TR. replace (v - z n + (z n - nth n zs 0)) with (v - nth n zs 0) in TR by ring. lra.
Qed.
Lemma ccas_on {m} (bs : list (biquad (F64 m))) : forall ss l (xs ys : list f64) c X us zs e,
  List.Forall fin_coeffs bs -> List.Forall2 sect_of bs l -> ok_from l c X -> 0 <= X -> 0 <= c -> 0 <= e -> length ss = length bs -> List.Forall (st_within c) ss ->
  List.Forall (okf X) xs -> length us = length xs ->
  (forall n, (n < length xs)%nat -> Rabs (B2R (nth n xs f0) - nth n us 0) <= e) ->
  exact_from l (lefts bs ss) us zs -> c_run bs ss xs ys ->
  length ys = length xs /\ length zs = length xs /\ List.Forall (okf (bound_from l c X)) ys /\
  forall n, (n < length xs)%nat -> Rabs (B2R (nth n ys f0) - nth n zs 0) <= error_from l c X e.
Proof.
  induction bs as [|b bs IH]; intros [|s ss] l xs ys c X us zs e Hf H2 Hok HX Hc He Ls HW Hxs Hl Hin Hex HR; try discriminate; inversion H2; subst; simpl in Hex.
  - subst zs. apply c_none in HR. subst ys. auto.
  - destruct Hex as (vs & Hd & Hex). destruct Hok as [Hs Hok]. inversion Hf; inversion HW; subst. apply c_split in HR as (ws & RB & RR).
    destruct (cstage_on b y s xs ws c X us vs e) as (L1 & L2 & O & E); try assumption.
    destruct (from_pos y c X Hs HX Hc) as (P1 & P2 & P3 & P4).
    destruct (IH ss l' ws ys c (out_from y c X) vs zs (s_G y * s_B y * e + err_from y c X)) as (Q1 & Q2 & Q3 & Q5); try assumption.
    + apply Rplus_le_le_0_compat; [apply Rmult_le_pos; assumption|assumption].
    + simpl in Ls; lia.
    + rewrite L1. exact L2.
    + intros n Hn. apply E. rewrite <- L1. exact Hn.
    + rewrite L1 in Q1, Q2, Q5. split; [exact Q1|]. split; [exact Q2|]. split; [exact Q3|exact Q5].
Qed.
Lemma c99_cascade m (bs : list (biquad (F64 m))) (l : list sect) (ss : list (st (F64 m))) (xs ys : list f64) c X :
  List.Forall fin_coeffs bs -> List.Forall2 sect_of bs l -> ok_from l c X -> 0 <= X -> 0 <= c -> length ss = length bs -> List.Forall (st_within c) ss ->
  List.Forall (fin_in X) xs -> c_run bs ss xs ys ->
  let zs := snd (cs_run (MkCStages (map real_bq bs) (map real_st ss)) (map B2R xs)) : list R in
  length ys = length xs /\ List.Forall (fin_in (bound_from l c X)) ys /\ List.Forall2 (fun y z => Rabs (B2R y - z) <= error_from l c X 0) ys zs.
Proof.
  intros Hf H2 Hok HX Hc Ls HW Hxs HR zs. pose proof (real_run bs ss l (map B2R xs) Ls H2) as Ex. fold zs in Ex.
  destruct (ccas_on bs ss l xs ys c X (map B2R xs) zs 0) as (L1 & L2 & O & E); auto; try lra.
  - apply map_length.
  - intros n Hn. apply map_near, Hn.
  - split; [exact L1|]. split; [exact O|]. apply (near2 ys zs (fun _ => error_from l c X 0)); [lia| |reflexivity]. rewrite L1. exact E.
Qed.
Lemma c99_two1 m (bs : list (biquad (F64 m))) (l : list sect) (ss ss' : list (st (F64 m))) (xs ys : list f64) c X rho :
  List.Forall fin_coeffs bs -> List.Forall2 sect_of bs l -> ok_from l c X -> 0 <= X -> 0 <= c -> rate_ok rho l ->
  length ss = length bs -> List.Forall (st_within c) ss -> length ss' = length bs -> List.Forall (st_within c) ss' ->
  List.Forall (fin_in X) xs -> c_run bs ss xs ys ->
  forall us zs, exact_from l (lefts bs ss) (map B2R xs) us -> exact_from l (lefts bs ss') (map B2R xs) zs ->
  forall n, (n < length xs)%nat -> Rabs (B2R (nth n ys f0) - nth n us 0) <= error_from l c X 0 /\ Rabs (nth n us 0 - nth n zs 0) <= fade rho l c 0 / rho ^ n.
Proof.
  intros Hf H2 Hok HX Hc Hr Ls HW Ls' HW' Hxs HR us zs Eu Ez n Hn.
  destruct (ccas_on bs ss l xs ys c X (map B2R xs) us 0) as (L1 & L2 & O & E); auto; try lra.
  - apply map_length.
  - intros i Hi. apply map_near, Hi.
  - split; [apply E, Hn|]. pose proof (Forall2_len _ _ _ H2) as Ll.
    destruct (fade_cas rho c l Hr Hc (ok_gains _ _ _ Hok) (lefts bs ss) (lefts bs ss') (map B2R xs) (map B2R xs) us zs 0) as (_ & _ & Q); auto; try lra.
    + rewrite lefts_len by exact Ls. exact Ll.
    + rewrite lefts_len by exact Ls'. exact Ll.
    + apply lefts_diff; assumption.
    + intros i _. rewrite Rminus_diag_eq, Rabs_R0 by reflexivity. lra.
    + rewrite map_length in Q. specialize (Q n Hn). assert (P : 0 < rho ^ n) by (apply pow_lt; destruct Hr; lra).
      apply (Rmult_le_reg_r (rho ^ n)); [exact P|]. replace (fade rho l c 0 / rho ^ n * rho ^ n) with (fade rho l c 0) by (field; lra). exact Q.
Qed.
Lemma c99_two m (bs : list (biquad (F64 m))) (l : list sect) (ss ss' : list (st (F64 m))) (xs ys ys' : list f64) c X rho :
  List.Forall fin_coeffs bs -> List.Forall2 sect_of bs l -> ok_from l c X -> 0 <= X -> 0 <= c -> rate_ok rho l ->
  length ss = length bs -> List.Forall (st_within c) ss -> length ss' = length bs -> List.Forall (st_within c) ss' ->
  List.Forall (fin_in X) xs -> c_run bs ss xs ys -> c_run bs ss' xs ys' ->
  forall n, (n < length xs)%nat -> Rabs (B2R (nth n ys f0) - B2R (nth n ys' f0)) <= 2 * error_from l c X 0 + fade rho l c 0 / rho ^ n.
Proof.
  intros Hf H2 Hok HX Hc Hr Ls HW Ls' HW' Hxs R1 R2 n Hn.
  pose proof (real_run bs ss l (map B2R xs) Ls H2) as Eu. pose proof (real_run bs ss' l (map B2R xs) Ls' H2) as Ez.
  destruct (c99_two1 m bs l ss ss' xs ys c X rho Hf H2 Hok HX Hc Hr Ls HW Ls' HW' Hxs R1 _ _ Eu Ez n Hn) as [A B].
  destruct (c99_two1 m bs l ss' ss xs ys' c X rho Hf H2 Hok HX Hc Hr Ls' HW' Ls HW Hxs R2 _ _ Ez Eu n Hn) as [C _].
  revert A B C.
  generalize (nth n (snd (cs_run (MkCStages (map real_bq bs) (map real_st ss)) (map B2R xs))) 0), (nth n (snd (cs_run (MkCStages (map real_bq bs) (map real_st ss')) (map B2R xs))) 0). intros u z A B C.
  set (P := fade rho l c 0 / rho ^ n) in *. set (Q := error_from l c X 0) in *. clearbody P Q. revert A B C. generalize (B2R (nth n ys f0)), (B2R (nth n ys' f0)). intros. 
  revert A B C. unfold Rabs; repeat destruct (Rcase_abs _); lra.
Qed.
Lemma c99_settles m (bs : list (biquad (F64 m))) (l : list sect) (ss : list (st (F64 m))) (xs ys : list f64) c X e rho fr (A : C) :
  List.Forall fin_coeffs bs -> List.Forall2 sect_of bs l -> ok_from l c X -> rate_ok rho l -> 0 <= X -> 0 <= e -> length ss = length bs -> List.Forall (st_within c) ss ->
  (forall j, (j <= length bs)%nat -> Cmod (i_resp (map stored (firstn j bs)) fr * A)%C <= c) -> follows A fr e X xs -> c_run bs ss xs ys ->
  length ys = length xs /\ forall n, (n < length xs)%nat -> FloatSpec.is_fin (nth n ys f0) /\
    Rabs (B2R (nth n ys f0) - wave (i_resp (map stored bs) fr * A)%C fr n) <= error_from l c X e + fade rho l c 0 / rho ^ n.
Proof.
  intros Hf H2 Hok Ra HX He Ls HW HV Hin HR. pose proof (ok_gains _ _ _ Hok) as Hg. pose proof (Forall2_len _ _ _ H2) as Ll. pose proof (ids_stored bs l H2) as IS.
  assert (ST : List.Forall (fun d => stable_poly (i_a1 d) (i_a2 d)) (ids l)). { unfold ids. rewrite List.Forall_map. eapply List.Forall_impl; [|exact Hg]. intros s H. exact (gain_stable _ _ _ H). }
  assert (LV : levels c (ids l) fr A). { apply levels_of; [exact ST|]. intros j Hj. rewrite <- IS in Hj |- *. rewrite map_length in Hj. rewrite firstn_map. apply HV. exact Hj. }
  assert (Hc : 0 <= c). { pose proof (Cmod_ge_0 A). destruct (ids l); cbn [levels] in LV; destruct LV; lra. }
  rewrite IS. pose proof (follows_in _ _ _ _ _ Hin) as Hxs. set (us := prefix (length xs) (wave A fr)). assert (Lu : length us = length xs) by apply prefix_len.
  pose proof (wave_exact l fr (length xs) ST A) as E0. fold us in E0. pose proof (real_run bs ss l us Ls H2) as E1. set (zs := snd (cs_run (MkCStages (map real_bq bs) (map real_st ss)) us)) in *. clearbody zs.
  destruct (fade_cas rho c l Ra Hc Hg (lefts bs ss) (wave_lefts (ids l) fr A) us us zs (prefix (length xs) (wave (i_resp (ids l) fr * A)%C fr)) 0) as (_ & _ & Q); auto; try lra.
  { rewrite lefts_len by exact Ls. exact Ll. } { rewrite wave_lefts_len. unfold ids. apply map_length. }
  { apply wave_lefts_diff; assumption. }
  { intros i _. rewrite Rminus_diag_eq, Rabs_R0 by reflexivity. lra. }
  destruct (ccas_on bs ss l xs ys c X us zs e) as (L1 & L2 & O & E); auto.
  { intros i Hi. unfold us. rewrite prefix_nth by exact Hi. apply Hin. exact Hi. }
  split; [exact L1|]. intros i H3. split; [apply (forall_nth _ ys i O); lia|]. specialize (E i H3). rewrite Lu in Q. specialize (Q i H3). rewrite prefix_nth in Q by exact H3.
  assert (P : 0 < rho ^ i) by (apply pow_lt; destruct Ra; lra). set (wv := wave (i_resp (ids l) fr * A)%C fr i) in *.
  assert (Q' : Rabs (nth i zs 0 - wv) <= fade rho l c 0 / rho ^ i). { apply (Rmult_le_reg_r (rho ^ i)); [exact P|]. replace (fade rho l c 0 / rho ^ i * rho ^ i) with (fade rho l c 0) by (field; lra). exact Q. }
  change (Rabs (B2R (nth i ys f0) - nth i zs 0) <= error_from l c X e) in E. change (Rabs (B2R (nth i ys f0) - wv) <= error_from l c X e + fade rho l c 0 / rho ^ i).
  revert E Q'. generalize (B2R (nth i ys f0)), wv, (nth i zs 0), (error_from l c X e), (fade rho l c 0 / rho ^ i). intros y v u k p E Q'.
  replace (y - v) with ((y - u) + (u - v)) by ring. eapply Rle_trans; [apply Rabs_triang|]. lra.
Qed.
Lemma c99_filter m : (forall r th, npolar (F64 m) r th <> None) -> forall t k FO (f : filt (F64 m)) (l : list sect) (xs ys : list f64) c X e rho fr (A : C),
  (1 <= FO)%Z -> in_int (2 * FO) = true -> reachable_ok t k FO f ->
  List.Forall fin_coeffs (fl_stages f) -> List.Forall2 sect_of (fl_stages f) l -> ok_from l c X -> rate_ok rho l -> 0 <= X -> 0 <= e -> List.Forall (st_within c) (fl_states f) ->
  (forall j, (j <= length (fl_stages f))%nat -> Cmod (i_resp (map stored (firstn j (fl_stages f))) fr * A)%C <= c) -> follows A fr e X xs -> c_run (fl_stages f) (fl_states f) xs ys ->
  length ys = length xs /\ forall n, (n < length xs)%nat -> FloatSpec.is_fin (nth n ys f0) /\
    Rabs (B2R (nth n ys f0) - wave (i_resp (map stored (fl_stages f)) fr * A)%C fr n) <= error_from l c X e + fade rho l c 0 / rho ^ n.
Proof.
  intros HP t k FO f l xs ys c X e rho fr A HF HI R Hf H2 Hok Ra HX He HW HV Hin HR.
  apply (c99_settles m (fl_stages f) l (fl_states f)); try assumption. exact (filt_lens t k FO f (reach_filt_ok HP t k FO HF HI f R)).
Qed.

(** Proofs: contracted filters designed in binary64 fall silent. *)
From Coq Require Import ZArith List Bool Reals Lra Lia.
From Coquelicot Require Import Coquelicot.
From Flocq Require Import Core.Defs IEEE754.BinarySingleNaN.
From Verif Require Import Num Outcome Types Biquad State Cascade RBJ PoleFilter Float64 FloatSpec FloatProofs FloatLemmas Stream
  SigSpec RoundSpec RoundProofs RoundRun RoundLemmas DblSpec DblProofs DblLemmas LayoutProofs BuildProofs BuildAny BwDblSpec BwDblFinal BwScaleLemmas ChainSpec ChainLemmas BwOut
  ChCoefSpec ChDblSpec ChScaleSpec ChOut RbjRespSpec RbjResp ShelfDblSpec ShelfOut RunOnSpec RunOnEx DecaySpec DecayLemmas DesFallSpec DesFall Contract FmaFallLemmas.
Import ListNotations.
Local Open Scope R_scope.

Lemma cd_runs {m} (bs : list (biquad (F64 m))) (l : list dsect) (ss : list (st (F64 m))) (xs ys : list f64) rho c u :
  List.Forall fin_coeffs bs -> List.Forall2 stored_near bs l -> 1 <= rho -> rho ^ 2 <= 2 -> dfall_ok rho c l u -> 0 <= u -> 0 <= c -> length ss = length bs -> List.Forall (st_within c) ss ->
  (forall n, (n < length xs)%nat -> FloatSpec.is_fin (nth n xs f0) /\ Rabs (B2R (nth n xs f0)) <= u * falling rho c n) -> c_run bs ss xs ys ->
  length ys = length xs /\ forall n, (n < length xs)%nat -> FloatSpec.is_fin (nth n ys f0) /\ Rabs (B2R (nth n ys f0)) <= dfall l u * falling rho c n.
Proof.
  intros Hf H2 Hr R2 Hok Hu Hc Ls HW Hxs HR. destruct (d_falls rho c Hr Hc bs l u u H2 Hok ltac:(lra)) as (l' & S & K & F).
  destruct (c100_falls m bs l' ss xs ys rho c u Hf S Hr R2 K Hu Hc Ls HW Hxs HR) as (L & O). split; [exact L|]. intros n Hn. destruct (O n Hn) as (O1 & O2). split; [exact O1|].
  eapply Rle_trans; [exact O2|]. destruct (falling_props rho c Hr Hc) as (HP & _). specialize (HP n). apply Rmult_le_compat_r; lra.
Qed.

(** a filter whose first stages are near the sections l *)
Lemma paddecd_runs m (fl : filt (F64 m)) bs' d K (l : list dsect) : fl_stages fl = bs' ++ repeat idb d -> (length bs' + d)%nat = Z.to_nat K -> List.Forall fin_coeffs bs' -> List.Forall2 stored_near bs' l ->
  forall (ss : list (st (F64 m))) (xs ys : list f64) rho c u,
  length ss = Z.to_nat K -> List.Forall (st_within c) ss -> 0 <= c -> 0 <= u -> 1 <= rho -> rho ^ 2 <= 2 -> dfall_ok rho c (padded l K) u ->
  (forall i, (i < length xs)%nat -> FloatSpec.is_fin (nth i xs f0) /\ Rabs (B2R (nth i xs f0)) <= u * falling rho c i) -> c_run (fl_stages fl) ss xs ys ->
  length ys = length xs /\ forall i, (i < length xs)%nat -> FloatSpec.is_fin (nth i ys f0) /\ Rabs (B2R (nth i ys f0)) <= dfall (padded l K) u * falling rho c i.
Proof.
  intros ST LK FC SN ss xs ys rho c u Ls HW Hc Hu Hr R2 Hok Hxs HR. rewrite ST in HR.
  assert (LL : length l = length bs') by (clear -SN; induction SN; cbn [length]; congruence).
  assert (PD : padded l K = l ++ repeat spare d) by (unfold padded; do 2 f_equal; lia). rewrite PD in *.
  apply (cd_runs (bs' ++ repeat idb d) _ ss); try assumption.
  - apply Forall_app. split; [exact FC|]. apply List.Forall_forall. intros x Hx. apply repeat_spec in Hx. subst x. apply idb_fin.
  - apply Forall2_app; [exact SN|]. clear. induction d as [|d IH]; cbn [repeat]; constructor; [apply spare_near|exact IH].
  - rewrite Ls, app_length, repeat_length. symmetry. exact LK.
Qed.

Lemma c101_butterworth m (hp : bool) (q : params (F64 m)) n FO t : libm_design m -> libm_response m -> FloatSpec.is_fin (q_fc q : f64) ->
  / 2 ^ 14 <= B2R (q_fc q : f64) <= 1 / 2 - / 2 ^ 14 -> (1 <= n <= 24)%nat -> (Z.of_nat n <= FO)%Z ->
  let k := (Bw, if hp then HP else LP) in let f := B2R (q_fc q : f64) in
  bw_scale_error hp f n <= / 8 ->
  exists fl, filt_setupN (N := F64 m) k FO (Some (Z.of_nat n)) q (filt_init t k FO) = Ok fl tt /\
    forall (ss : list (st (F64 m))) (xs ys : list f64) rho c u, let l := padded (bw_chain hp f n) (maxStagesOf (snd k) FO) in
    length ss = Z.to_nat (maxStagesOf (snd k) FO) -> List.Forall (st_within c) ss -> 0 <= c -> 0 <= u -> 1 <= rho -> rho ^ 2 <= 2 -> dfall_ok rho c l u ->
    (forall i, (i < length xs)%nat -> FloatSpec.is_fin (nth i xs f0) /\ Rabs (B2R (nth i xs f0)) <= u * falling rho c i) -> c_run (fl_stages fl) ss xs ys ->
    length ys = length xs /\ forall i, (i < length xs)%nat -> FloatSpec.is_fin (nth i ys f0) /\ Rabs (B2R (nth i ys f0)) <= dfall l u * falling rho c i.
Proof.
  intros HM HR Ff Hf HN HFO k f HE. destruct (c66_parts m hp q n FO t HM HR Ff Hf HN HFO HE) as (fl & bs' & d & E & ST & SS & FC & SN & _ & _). exists fl. split; [exact E|].
  apply (paddecd_runs m fl bs' d _ _ ST); try assumption. pose proof (setup_states m _ _ _ _ _ _ E) as L. rewrite SS, repeat_length in L. exact L.
Qed.
Lemma c101_chebyshev m (second hp : bool) (q : params (F64 m)) n FO t : libm_design m -> libm_response m -> libm_cheb m -> libm_pow10 m -> FloatSpec.is_fin (q_fc q : f64) -> FloatSpec.is_fin (q_db q : f64) ->
  ch_cut_ok (B2R (q_fc q : f64)) -> ch_db_ok second (B2R (q_db q : f64)) -> (1 <= n <= 24)%nat -> (Z.of_nat n <= FO)%Z ->
  let k := (if second then Ch2 else Ch1, if hp then HP else LP) in let f := B2R (q_fc q : f64) in let db := B2R (q_db q : f64) in
  ch_scale_error second hp f db n <= / 8 ->
  exists fl, filt_setupN (N := F64 m) k FO (Some (Z.of_nat n)) q (filt_init t k FO) = Ok fl tt /\
    forall (ss : list (st (F64 m))) (xs ys : list f64) rho c u, let l := padded (ch_chain second hp f db n) (maxStagesOf (snd k) FO) in
    length ss = Z.to_nat (maxStagesOf (snd k) FO) -> List.Forall (st_within c) ss -> 0 <= c -> 0 <= u -> 1 <= rho -> rho ^ 2 <= 2 -> dfall_ok rho c l u ->
    (forall i, (i < length xs)%nat -> FloatSpec.is_fin (nth i xs f0) /\ Rabs (B2R (nth i xs f0)) <= u * falling rho c i) -> c_run (fl_stages fl) ss xs ys ->
    length ys = length xs /\ forall i, (i < length xs)%nat -> FloatSpec.is_fin (nth i ys f0) /\ Rabs (B2R (nth i ys f0)) <= dfall l u * falling rho c i.
Proof.
  intros HM HR HC HP Ff Fd Hf Hd HN HFO k f db HE. destruct (c76_parts m second hp q n FO t HM HR HC HP Ff Fd Hf Hd HN HFO HE) as (fl & bs' & d & E & ST & SS & FC & SN & _ & _). exists fl. split; [exact E|].
  apply (paddecd_runs m fl bs' d _ _ ST); try assumption. pose proof (setup_states m _ _ _ _ _ _ E) as L. rewrite SS, repeat_length in L. exact L.
Qed.
Lemma c101_shelf m (hs : bool) (q : params (F64 m)) n FO t : libm_design m -> libm_response m -> libm_bwshelf m -> FloatSpec.is_fin (q_fc q : f64) -> FloatSpec.is_fin (q_gain q : f64) ->
  sh_cut_ok (B2R (q_fc q : f64)) -> sh_gain_ok (B2R (q_gain q : f64)) -> (1 <= n <= 24)%nat -> (Z.of_nat n <= FO)%Z ->
  let k := (Bw, if hs then HSh else LSh) in let f := B2R (q_fc q : f64) in let ga := B2R (q_gain q : f64) in
  sh_scale_error hs f ga n <= / 8 ->
  exists fl, filt_setupN (N := F64 m) k FO (Some (Z.of_nat n)) q (filt_init t k FO) = Ok fl tt /\
    forall (ss : list (st (F64 m))) (xs ys : list f64) rho c u, let l := padded (sh_chain hs f ga n) (maxStagesOf (snd k) FO) in
    length ss = Z.to_nat (maxStagesOf (snd k) FO) -> List.Forall (st_within c) ss -> 0 <= c -> 0 <= u -> 1 <= rho -> rho ^ 2 <= 2 -> dfall_ok rho c l u ->
    (forall i, (i < length xs)%nat -> FloatSpec.is_fin (nth i xs f0) /\ Rabs (B2R (nth i xs f0)) <= u * falling rho c i) -> c_run (fl_stages fl) ss xs ys ->
    length ys = length xs /\ forall i, (i < length xs)%nat -> FloatSpec.is_fin (nth i ys f0) /\ Rabs (B2R (nth i ys f0)) <= dfall l u * falling rho c i.
Proof.
  intros HM HR HC Ff Fd Hf Hd HN HFO k f ga HE. destruct (c85_parts m hs q n FO t HM HR HC Ff Fd Hf Hd HN HFO HE) as (fl & bs' & d & E & ST & SS & FC & SN & _ & _). exists fl. split; [exact E|].
  apply (paddecd_runs m fl bs' d _ _ ST); try assumption. pose proof (setup_states m _ _ _ _ _ _ E) as L. rewrite SS, repeat_length in L. exact L.
Qed.
Lemma c101_rbj m (f g q : f64) k (r : rbj (F64 m)) : rbj_libm k m -> FloatSpec.is_fin f -> FloatSpec.is_fin g -> FloatSpec.is_fin q -> rbj_args k (B2R f) (B2R g) (B2R q) ->
  let i := rbj_ideal k (B2R f) (B2R g) (B2R q) in let e := rbj_coef_error k (B2R q) in
  exists r', rbj_obj_setupN (N := F64 m) k f g q r = Ok r' tt /\
    forall G (xs ys : list f64) rho c u, let l := [DSect i G e e] in
    st_within c (r_st r) -> 0 <= c -> 0 <= u -> 1 <= rho -> rho ^ 2 <= 2 -> dfall_ok rho c l u ->
    (forall i, (i < length xs)%nat -> FloatSpec.is_fin (nth i xs f0) /\ Rabs (B2R (nth i xs f0)) <= u * falling rho c i) -> c_run [r_bq r'] [r_st r'] xs ys ->
    length ys = length xs /\ forall i, (i < length xs)%nat -> FloatSpec.is_fin (nth i ys f0) /\ Rabs (B2R (nth i ys f0)) <= dfall l u * falling rho c i.
Proof.
  intros HL Ff Fg Fq H i e. destruct (rbj_double m f g q k (r_bq r) HL Ff Fg Fq H) as (b' & E & F & N & _). fold i e in N. exists (MkRbj b' (r_st r)). split; [unfold rbj_obj_setupN, zoom; rewrite E; reflexivity|].
  intros G xs ys rho c u l HW Hc Hu Hr R2 Hok Hxs HR. cbn [r_bq r_st] in HR. apply (cd_runs [b'] _ [r_st r]); try assumption.
  - constructor; [exact F|constructor].
  - constructor; [exact N|constructor].
  - reflexivity.
  - constructor; [exact HW|constructor].
Qed.

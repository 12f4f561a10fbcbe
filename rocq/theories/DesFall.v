(** Proofs: filters designed in binary64 fall silent. *)
From Coq Require Import ZArith List Bool Reals Lra Lia.
From Coquelicot Require Import Coquelicot.
From Flocq Require Import Core.Defs IEEE754.BinarySingleNaN.
From Verif Require Import Num Outcome Types Biquad State Cascade RBJ PoleFilter Float64 FloatSpec FloatProofs FloatLemmas Stream
  SigSpec RoundSpec RoundProofs RoundRun RoundLemmas DblSpec DblProofs DblLemmas LayoutProofs BuildProofs BuildAny BwDblSpec BwDblFinal BwScaleLemmas ChainSpec ChainLemmas BwOut
  ChCoefSpec ChDblSpec ChScaleSpec ChOut RbjRespSpec RbjResp ShelfDblSpec ShelfOut RunOnSpec RunOnEx DecaySpec DecayLemmas DesFallSpec.
Import ListNotations.
Local Open Scope R_scope.

Lemma d_fall {m} (b : biquad (F64 m)) d rho c u v : stored_near b d -> dfall_ok1 rho c d v -> 1 <= rho -> 0 <= u <= v -> 0 <= c ->
  fall_ok1 rho c (ssec b (2 * d_G d)) u /\ 0 <= fall_out (ssec b (2 * d_G d)) u <= dfall_out d v.
Proof.
  intros (N1 & N2 & N3 & N4 & N5) (HG & H1 & H2 & H3 & H4) Hr Hu Hc. pose proof (gain_ge1 _ _ _ HG) as G1.
  set (s := ssec b (2 * d_G d)).
  assert (SB : 0 <= s_B s <= d_B d).
  { unfold s_B, s, ssec, d_B, i_B. cbn [s_b0 s_b1 s_b2]. pose proof (near_abs _ _ _ N3). pose proof (near_abs _ _ _ N4). pose proof (near_abs _ _ _ N5).
    pose proof (Rabs_pos (B2R (m_b0 b : f64))). pose proof (Rabs_pos (B2R (m_b1 b : f64))). pose proof (Rabs_pos (B2R (m_b2 b : f64))). lra. }
  assert (SA : 0 <= s_A s <= d_A d).
  { unfold s_A, s, ssec, d_A. cbn [s_a1 s_a2]. pose proof (near_abs _ _ _ N1). pose proof (near_abs _ _ _ N2).
    pose proof (Rabs_pos (B2R (m_a1 b : f64))). pose proof (Rabs_pos (B2R (m_a2 b : f64))). lra. }
  assert (SG : s_G s = 2 * d_G d) by reflexivity.
  assert (P1 : 0 <= (1 + s_A s) * (1 + s_B s) <= (1 + d_A d) * (1 + d_B d)) by (apply mulb; lra).
  assert (P2 : 0 <= (1 + s_A s) * (1 + s_B s) * (u + 1) <= (1 + d_A d) * (1 + d_B d) * (v + 1)) by (apply mulb; lra).
  assert (P3 : 0 <= s_G s * (2 * (1 + s_A s) * (1 + s_B s) * (u + 1) + 4 * (1 + s_B s)) <= 2 * d_G d * (2 * (1 + d_A d) * (1 + d_B d) * (v + 1) + 4 * (1 + d_B d))) by (apply mulb; lra).
  assert (FO : 0 <= fall_out s u <= dfall_out d v) by (unfold fall_out, dfall_out; lra).
  assert (P4 : 0 <= s_G s * s_A s <= 2 * d_G d * d_A d) by (apply mulb; lra).
  assert (R2 : 0 <= rho ^ 2 - 1) by nra.
  assert (P5 : 0 <= s_G s * s_A s * (rho ^ 2 - 1) <= 2 * d_G d * d_A d * (rho ^ 2 - 1)) by (apply mulb; lra).
  assert (P6 : 0 <= fall_out s u * (1 + s_B s) <= dfall_out d v * (1 + d_B d)) by (apply mulb; lra).
  assert (P7 : 0 <= fall_out s u * (1 + s_B s) * (c + 1) <= dfall_out d v * (1 + d_B d) * (c + 1)) by (apply mulb; lra).
  split; [|exact FO]. split; [cbn [s_a1 s_a2 s_G s ssec]; eapply gain_near; eassumption|]. repeat split; lra.
Qed.
Lemma d_falls {m} rho c : 1 <= rho -> 0 <= c -> forall (bs : list (biquad (F64 m))) (l : list dsect) u v, List.Forall2 stored_near bs l -> dfall_ok rho c l v -> 0 <= u <= v ->
  exists l', List.Forall2 sect_of bs l' /\ fall_ok rho c l' u /\ 0 <= fall l' u <= dfall l v.
Proof.
  intros Hr Hc. induction bs as [|b bs IH]; intros l u v H2 Hok Hu; inversion H2; subst.
  - exists []. split; [constructor|]. split; [exact I|]. exact Hu.
  - destruct Hok as [K1 Hok]. destruct (d_fall b y rho c u v) as (A & B); try assumption. destruct (IH l' (fall_out (ssec b (2 * d_G y)) u) (dfall_out y v)) as (k & Q1 & Q2 & Q3); try assumption.
    exists (ssec b (2 * d_G y) :: k). split; [constructor; [repeat split|exact Q1]|]. split; [split; [exact A|exact Q2]|]. exact Q3.
Qed.
Lemma d_runs {m} (bs : list (biquad (F64 m))) (l : list dsect) (ss : list (st (F64 m))) (xs : list f64) rho c u :
  List.Forall fin_coeffs bs -> List.Forall2 stored_near bs l -> 1 <= rho -> rho ^ 2 <= 2 -> dfall_ok rho c l u -> 0 <= u -> 0 <= c -> length ss = length bs -> List.Forall (st_within c) ss ->
  (forall n, (n < length xs)%nat -> FloatSpec.is_fin (nth n xs f0) /\ Rabs (B2R (nth n xs f0)) <= u * falling rho c n) ->
  let ys := snd (cs_run (MkCStages bs ss) xs) : list f64 in
  length ys = length xs /\ forall n, (n < length xs)%nat -> FloatSpec.is_fin (nth n ys f0) /\ Rabs (B2R (nth n ys f0)) <= dfall l u * falling rho c n.
Proof.
  intros Hf H2 Hr R2 Hok Hu Hc Ls HW Hxs ys. destruct (d_falls rho c Hr Hc bs l u u H2 Hok ltac:(lra)) as (l' & S & K & F).
  destruct (c88_falls m bs l' ss xs rho c u Hf S Hr R2 K Hu Hc Ls HW Hxs) as (L & O). split; [exact L|]. intros n Hn. destruct (O n Hn) as (O1 & O2). split; [exact O1|].
  eapply Rle_trans; [exact O2|]. destruct (falling_props rho c Hr Hc) as (HP & _). specialize (HP n). apply Rmult_le_compat_r; lra.
Qed.

Lemma zero_val (x : f64) : is_zero x -> B2R x = 0.
Proof. intros [s ->]. reflexivity. Qed.
Lemma spare_near m : stored_near (idb (N := F64 m)) spare.
Proof.
  destruct (idb_ident m) as (B0 & B1 & B2 & A1 & A2). apply zero_val in B1, B2, A1, A2. generalize dependent (idb (N := F64 m)). intros b B0 B1 B2 A1 A2.
  unfold stored_near, spare. cbn [d_id d_ea d_eb i_a1 i_a2 i_b0 i_b1 i_b2].
  repeat split; match goal with |- Rabs (?x - ?y) <= _ => replace (x - y) with 0; [rewrite Rabs_R0; lra|symmetry; apply Rminus_diag_eq; assumption] end.
Qed.
Lemma idb_fin m : fin_coeffs (idb (N := F64 m)).
Proof. repeat split; reflexivity. Qed.
(** a filter whose first stages are near the sections l *)
Lemma padded_runs m (fl : filt (F64 m)) bs' d K (l : list dsect) : fl_stages fl = bs' ++ repeat idb d -> (length bs' + d)%nat = Z.to_nat K -> List.Forall fin_coeffs bs' -> List.Forall2 stored_near bs' l ->
  forall (ss : list (st (F64 m))) (xs : list f64) rho c u,
  length ss = Z.to_nat K -> List.Forall (st_within c) ss -> 0 <= c -> 0 <= u -> 1 <= rho -> rho ^ 2 <= 2 -> dfall_ok rho c (padded l K) u ->
  (forall i, (i < length xs)%nat -> FloatSpec.is_fin (nth i xs f0) /\ Rabs (B2R (nth i xs f0)) <= u * falling rho c i) ->
  let ys := snd (filt_run (MkFilt (fl_pf fl) ss) xs) : list f64 in
  length ys = length xs /\ forall i, (i < length xs)%nat -> FloatSpec.is_fin (nth i ys f0) /\ Rabs (B2R (nth i ys f0)) <= dfall (padded l K) u * falling rho c i.
Proof.
  intros ST LK FC SN ss xs rho c u Ls HW Hc Hu Hr R2 Hok Hxs. rewrite filt_run_snd. unfold fl_cs, fl_stages. cbn [fl_pf fl_states]. unfold fl_stages in ST. rewrite ST.
  assert (LL : length l = length bs') by (clear -SN; induction SN; cbn [length]; congruence).
  assert (PD : padded l K = l ++ repeat spare d) by (unfold padded; do 2 f_equal; lia). rewrite PD in *.
  apply d_runs; try assumption.
  - apply Forall_app. split; [exact FC|]. apply List.Forall_forall. intros x Hx. apply repeat_spec in Hx. subst x. apply idb_fin.
  - apply Forall2_app; [exact SN|]. clear. induction d as [|d IH]; cbn [repeat]; constructor; [apply spare_near|exact IH].
  - rewrite Ls, app_length, repeat_length. symmetry. exact LK.
Qed.

Lemma setup_states m k FO r (q : params (F64 m)) t fl : filt_setupN (N := F64 m) k FO r q (filt_init t k FO) = Ok fl tt -> length (fl_states fl) = Z.to_nat (maxStagesOf (snd k) FO).
Proof.
  unfold filt_setupN, on_pf, zoom, filt_init. cbn [fl_pf fl_states]. destruct (setupN _ _ _ _ _) as [p []|e p|]; intros E; inversion E; subst. cbn [fl_states]. apply repeat_length.
Qed.
Lemma c91_butterworth m (hp : bool) (q : params (F64 m)) n FO t : libm_design m -> libm_response m -> FloatSpec.is_fin (q_fc q : f64) ->
  / 2 ^ 14 <= B2R (q_fc q : f64) <= 1 / 2 - / 2 ^ 14 -> (1 <= n <= 24)%nat -> (Z.of_nat n <= FO)%Z ->
  let k := (Bw, if hp then HP else LP) in let f := B2R (q_fc q : f64) in
  bw_scale_error hp f n <= / 8 ->
  exists fl, filt_setupN (N := F64 m) k FO (Some (Z.of_nat n)) q (filt_init t k FO) = Ok fl tt /\
    forall (ss : list (st (F64 m))) (xs : list f64) rho c u, let l := padded (bw_chain hp f n) (maxStagesOf (snd k) FO) in
    length ss = Z.to_nat (maxStagesOf (snd k) FO) -> List.Forall (st_within c) ss -> 0 <= c -> 0 <= u -> 1 <= rho -> rho ^ 2 <= 2 -> dfall_ok rho c l u ->
    (forall i, (i < length xs)%nat -> FloatSpec.is_fin (nth i xs f0) /\ Rabs (B2R (nth i xs f0)) <= u * falling rho c i) ->
    let ys := snd (filt_run (MkFilt (fl_pf fl) ss) xs) : list f64 in
    length ys = length xs /\ forall i, (i < length xs)%nat -> FloatSpec.is_fin (nth i ys f0) /\ Rabs (B2R (nth i ys f0)) <= dfall l u * falling rho c i.
Proof.
  intros HM HR Ff Hf HN HFO k f HE. destruct (c66_parts m hp q n FO t HM HR Ff Hf HN HFO HE) as (fl & bs' & d & E & ST & SS & FC & SN & _ & _). exists fl. split; [exact E|].
  apply (padded_runs m fl bs' d _ _ ST); try assumption. pose proof (setup_states m _ _ _ _ _ _ E) as L. rewrite SS, repeat_length in L. exact L.
Qed.
Lemma c91_chebyshev m (second hp : bool) (q : params (F64 m)) n FO t : libm_design m -> libm_response m -> libm_cheb m -> libm_pow10 m -> FloatSpec.is_fin (q_fc q : f64) -> FloatSpec.is_fin (q_db q : f64) ->
  ch_cut_ok (B2R (q_fc q : f64)) -> ch_db_ok second (B2R (q_db q : f64)) -> (1 <= n <= 24)%nat -> (Z.of_nat n <= FO)%Z ->
  let k := (if second then Ch2 else Ch1, if hp then HP else LP) in let f := B2R (q_fc q : f64) in let db := B2R (q_db q : f64) in
  ch_scale_error second hp f db n <= / 8 ->
  exists fl, filt_setupN (N := F64 m) k FO (Some (Z.of_nat n)) q (filt_init t k FO) = Ok fl tt /\
    forall (ss : list (st (F64 m))) (xs : list f64) rho c u, let l := padded (ch_chain second hp f db n) (maxStagesOf (snd k) FO) in
    length ss = Z.to_nat (maxStagesOf (snd k) FO) -> List.Forall (st_within c) ss -> 0 <= c -> 0 <= u -> 1 <= rho -> rho ^ 2 <= 2 -> dfall_ok rho c l u ->
    (forall i, (i < length xs)%nat -> FloatSpec.is_fin (nth i xs f0) /\ Rabs (B2R (nth i xs f0)) <= u * falling rho c i) ->
    let ys := snd (filt_run (MkFilt (fl_pf fl) ss) xs) : list f64 in
    length ys = length xs /\ forall i, (i < length xs)%nat -> FloatSpec.is_fin (nth i ys f0) /\ Rabs (B2R (nth i ys f0)) <= dfall l u * falling rho c i.
Proof.
  intros HM HR HC HP Ff Fd Hf Hd HN HFO k f db HE. destruct (c76_parts m second hp q n FO t HM HR HC HP Ff Fd Hf Hd HN HFO HE) as (fl & bs' & d & E & ST & SS & FC & SN & _ & _). exists fl. split; [exact E|].
  apply (padded_runs m fl bs' d _ _ ST); try assumption. pose proof (setup_states m _ _ _ _ _ _ E) as L. rewrite SS, repeat_length in L. exact L.
Qed.
Lemma c91_shelf m (hs : bool) (q : params (F64 m)) n FO t : libm_design m -> libm_response m -> libm_bwshelf m -> FloatSpec.is_fin (q_fc q : f64) -> FloatSpec.is_fin (q_gain q : f64) ->
  sh_cut_ok (B2R (q_fc q : f64)) -> sh_gain_ok (B2R (q_gain q : f64)) -> (1 <= n <= 24)%nat -> (Z.of_nat n <= FO)%Z ->
  let k := (Bw, if hs then HSh else LSh) in let f := B2R (q_fc q : f64) in let ga := B2R (q_gain q : f64) in
  sh_scale_error hs f ga n <= / 8 ->
  exists fl, filt_setupN (N := F64 m) k FO (Some (Z.of_nat n)) q (filt_init t k FO) = Ok fl tt /\
    forall (ss : list (st (F64 m))) (xs : list f64) rho c u, let l := padded (sh_chain hs f ga n) (maxStagesOf (snd k) FO) in
    length ss = Z.to_nat (maxStagesOf (snd k) FO) -> List.Forall (st_within c) ss -> 0 <= c -> 0 <= u -> 1 <= rho -> rho ^ 2 <= 2 -> dfall_ok rho c l u ->
    (forall i, (i < length xs)%nat -> FloatSpec.is_fin (nth i xs f0) /\ Rabs (B2R (nth i xs f0)) <= u * falling rho c i) ->
    let ys := snd (filt_run (MkFilt (fl_pf fl) ss) xs) : list f64 in
    length ys = length xs /\ forall i, (i < length xs)%nat -> FloatSpec.is_fin (nth i ys f0) /\ Rabs (B2R (nth i ys f0)) <= dfall l u * falling rho c i.
Proof.
  intros HM HR HC Ff Fd Hf Hd HN HFO k f ga HE. destruct (c85_parts m hs q n FO t HM HR HC Ff Fd Hf Hd HN HFO HE) as (fl & bs' & d & E & ST & SS & FC & SN & _ & _). exists fl. split; [exact E|].
  apply (padded_runs m fl bs' d _ _ ST); try assumption. pose proof (setup_states m _ _ _ _ _ _ E) as L. rewrite SS, repeat_length in L. exact L.
Qed.
Lemma c91_rbj m (f g q : f64) k (r : rbj (F64 m)) : rbj_libm k m -> FloatSpec.is_fin f -> FloatSpec.is_fin g -> FloatSpec.is_fin q -> rbj_args k (B2R f) (B2R g) (B2R q) ->
  let i := rbj_ideal k (B2R f) (B2R g) (B2R q) in let e := rbj_coef_error k (B2R q) in
  exists r', rbj_obj_setupN (N := F64 m) k f g q r = Ok r' tt /\
    forall G (xs : list f64) rho c u, let l := [DSect i G e e] in
    st_within c (r_st r) -> 0 <= c -> 0 <= u -> 1 <= rho -> rho ^ 2 <= 2 -> dfall_ok rho c l u ->
    (forall i, (i < length xs)%nat -> FloatSpec.is_fin (nth i xs f0) /\ Rabs (B2R (nth i xs f0)) <= u * falling rho c i) ->
    let ys := snd (rbj_run r' xs) : list f64 in
    length ys = length xs /\ forall i, (i < length xs)%nat -> FloatSpec.is_fin (nth i ys f0) /\ Rabs (B2R (nth i ys f0)) <= dfall l u * falling rho c i.
Proof.
  intros HL Ff Fg Fq H i e. destruct (rbj_double m f g q k (r_bq r) HL Ff Fg Fq H) as (b' & E & F & N & _). fold i e in N. exists (MkRbj b' (r_st r)). split; [unfold rbj_obj_setupN, zoom; rewrite E; reflexivity|].
  intros G xs rho c u l HW Hc Hu Hr R2 Hok Hxs. rewrite rbj_run_cs. cbn [r_bq r_st]. apply d_runs; try assumption.
  - constructor; [exact F|constructor].
  - constructor; [exact N|constructor].
  - reflexivity.
  - constructor; [exact HW|constructor].
Qed.

(** ** examples *)
Lemma ex_dfall : dfall_ok (129 / 128) 2 (padded (bw_chain false (1 / 4) 3) (maxStagesOf LP 4)) 1 /\ dfall (padded (bw_chain false (1 / 4) 3) (maxStagesOf LP 4)) 1 <= 2 ^ 23.
Proof.
  pose proof (c66_gain false (1 / 4) 3 0 ltac:(lra) ltac:(vm_compute; lia)) as G0. pose proof (c66_gain false (1 / 4) 3 1 ltac:(lra) ltac:(vm_compute; lia)) as G1.
  set (pr := fun j l => nth j l (DSect (Ideal 0 0 0 0 0) 0 0 0)).
  pose proof (f_equal (pr 0%nat) ex_chain) as C0. pose proof (f_equal (pr 1%nat) ex_chain) as C1.
  change (pr 0%nat (bw_chain false (1 / 4) 3)) with (DSect (bw_section false (1 / 4) 3 0) (bw_gain (1 / 4) 3 0) (bw_error (1 / 4)) (bw_scale_error false (1 / 4) 3 * bw_scale false (1 / 4) 3)) in C0.
  change (pr 1%nat (bw_chain false (1 / 4) 3)) with (DSect (bw_section false (1 / 4) 3 1) (bw_gain (1 / 4) 3 1) (bw_error (1 / 4)) 0) in C1.
  apply (f_equal (fun d => (d_id d, d_G d))) in C0. apply (f_equal (fun d => (d_id d, d_G d))) in C1. cbn [pr nth d_id d_G] in C0, C1.
  pose proof (f_equal fst C0) as C2. pose proof (f_equal snd C0) as C3. pose proof (f_equal fst C1) as C4. pose proof (f_equal snd C1) as C5. cbn [fst snd] in C2, C3, C4, C5.
  rewrite C2, C3 in G0. rewrite C4, C5 in G1. cbn [i_a1 i_a2] in G0, G1. clear C0 C1 C2 C3 C4 C5 pr.
  assert (B9 : 2 ^ 60 <= 2 ^ 900) by (apply Rle_pow; [lra|lia]).
  unfold padded. rewrite ex_chain. change (Z.to_nat (maxStagesOf LP 4)) with 2%nat. cbn [length Nat.sub repeat app].
  cbn [dfall_ok dfall]. unfold dfall_ok1, dfall_out, d_A, d_B, i_B. cbn [d_id d_G d_ea d_eb i_a1 i_a2 i_b0 i_b1 i_b2].
  rewrite !Rabs_R0, !Rabs_R1, !(Rabs_pos_eq (1 / 3)), !(Rabs_pos_eq (1 / 6)) by lra.
  set (P := 2 ^ 900) in *. clearbody P.
  split; [split; [split; [exact G0|]|split; [split; [exact G1|]|exact I]]|]; lra.
Qed.

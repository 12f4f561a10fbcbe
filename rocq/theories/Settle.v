(** Proofs: a filter in binary64 that is fed a sinusoid settles on the sinusoid of the ideal response. *)
From Coq Require Import ZArith List Bool Reals Lra Lia.
From Coquelicot Require Import Coquelicot.
From Flocq Require Import IEEE754.BinarySingleNaN.
From Verif Require Import Num Outcome Types Biquad State Cascade RBJ PoleFilter RealNum Float64 FloatSpec FloatProofs FloatLemmas Stream
  SigSpec SigProofs StabProofs RespProofs SigLemmas RoundSpec RoundProofs RoundRun RoundLemmas DblSpec DblProofs DblLemmas LayoutProofs BuildProofs BuildAny BwDblSpec BwDblFinal BwScaleLemmas ChainSpec ChainLemmas BwOut
  RespDblSpec ChCoefSpec ChDblSpec ChScaleSpec ChOut RbjRespSpec RbjResp ShelfDblSpec ShelfOut DesFall SettleSpec.
Import ListNotations.
Local Open Scope R_scope.

(** ** a recursion with a gain bound is stable *)
Fixpoint cp (z : C) (n : nat) : C := match n with O => RtoC 1 | S n => (z * cp z n)%C end.
Lemma cp_mod z n : Cmod (cp z n) = Cmod z ^ n.
Proof. induction n as [|n IH]; cbn [cp pow]; [apply Cmod_1|]. rewrite Cmod_mult, IH. reflexivity. Qed.
Definition ramp (z : C) (n : nat) : C := (RtoC (INR (S n)) * cp z n)%C.
Lemma ramp_next z k a1 a2 : (z * z + RtoC a1 * z + RtoC a2 = 0)%C ->
  (ramp z (S (S k)) + RtoC a1 * ramp z (S k) + RtoC a2 * ramp z k = cp z k * (z * z - RtoC a2))%C.
Proof.
  intros Hz. unfold ramp. cbn [cp]. rewrite !S_INR. set (c := cp z k). rewrite !RtoC_plus.
  replace (RtoC a2) with (- (z * z + RtoC a1 * z))%C by (replace (z * z + RtoC a1 * z)%C with (- RtoC a2 + (z * z + RtoC a1 * z + RtoC a2))%C by ring; rewrite Hz; ring). ring.
Qed.
Lemma ramp_one z a1 a2 : (z * z + RtoC a1 * z + RtoC a2 = 0)%C -> (z * (ramp z 1 + RtoC a1 * ramp z 0) = z * z - RtoC a2)%C.
Proof.
  intros Hz. unfold ramp. cbn [cp INR]. replace (RtoC a2) with (- (z * z + RtoC a1 * z))%C by (replace (z * z + RtoC a1 * z)%C with (- RtoC a2 + (z * z + RtoC a1 * z + RtoC a2))%C by ring; rewrite Hz; ring). rewrite !RtoC_plus. ring.
Qed.
Lemma gain_part (p : C -> R) a1 a2 G z : (forall c, Rabs (p c) <= Cmod c) -> (forall c d, p (c + d)%C = p c + p d) -> (forall r c, p (RtoC r * c)%C = r * p c) ->
  rec_gain a1 a2 G -> (z * z + RtoC a1 * z + RtoC a2 = 0)%C -> 1 <= Cmod z -> forall n, Rabs (p (ramp z n)) <= G * ((1 + Rabs a2) * Cmod z ^ n).
Proof.
  intros P1 P2 P3 HG Hz H1 n. pose proof (Rabs_pos a2) as A2. set (K := 1 + Rabs a2). set (rho := Cmod z) in *.
  assert (RP : forall i, 1 <= rho ^ i) by (intros i; apply pow_R1_Rle; exact H1).
  assert (D : Cmod (z * z - RtoC a2)%C <= rho ^ 2 * K).
  { unfold Cminus. eapply Rle_trans; [apply Cmod_triangle|]. rewrite Cmod_opp, Cmod_mult, Cmod_R. fold rho. unfold K. specialize (RP 2%nat). nra. }
  apply (HG (fun k => p (ramp z k))). { specialize (RP n). apply Rmult_le_pos; unfold K; lra. }
  intros i Hi. apply Rle_trans with (K * rho ^ i); [|apply Rmult_le_compat_l; [unfold K; lra|apply Rle_pow; [exact H1|exact Hi]]].
  unfold prev. destruct i as [|[|i]].
  - cbn [Nat.leb Nat.sub pow]. rewrite !Rmult_0_r, !Rplus_0_r, Rmult_1_r. eapply Rle_trans; [apply P1|]. unfold ramp. cbn [cp INR]. rewrite Cmult_1_l, Cmod_1. unfold K. lra.
  - cbn [Nat.leb Nat.sub]. rewrite Rmult_0_r, Rplus_0_r, <- P3, <- P2. eapply Rle_trans; [apply P1|].
    apply Rmult_le_reg_l with rho; [lra|]. unfold rho at 1. rewrite <- Cmod_mult, (ramp_one z a1 a2 Hz). eapply Rle_trans; [exact D|]. rewrite pow_1. right. ring.
  - replace (Nat.leb 1 (S (S i))) with true by reflexivity. replace (Nat.leb 2 (S (S i))) with true by reflexivity. replace (Nat.leb 0 (S (S i))) with true by reflexivity.
    replace (S (S i) - 0)%nat with (S (S i)) by lia. replace (S (S i) - 1)%nat with (S i) by lia. replace (S (S i) - 2)%nat with i by lia.
    rewrite <- !P3, <- !P2. eapply Rle_trans; [apply P1|]. rewrite (ramp_next z i a1 a2 Hz), Cmod_mult, cp_mod. fold rho.
    apply Rle_trans with (rho ^ i * (rho ^ 2 * K)); [apply Rmult_le_compat_l; [specialize (RP i); lra|exact D]|]. cbn [pow]. right. ring.
Qed.
Lemma gain_stable a1 a2 G : rec_gain a1 a2 G -> stable_poly a1 a2.
Proof.
  intros HG z Hz. destruct (Rlt_le_dec (Cmod z) 1) as [H|H]; [exact H|exfalso].
  assert (F : forall n, Rabs (fst (ramp z n)) <= G * ((1 + Rabs a2) * Cmod z ^ n)).
  { apply (gain_part fst a1 a2 G z); try assumption; [|intros; reflexivity|intros r [x y]; cbn; ring]. intros c. eapply Rle_trans; [apply Rmax_l|apply Rmax_Cmod]. }
  assert (S : forall n, Rabs (snd (ramp z n)) <= G * ((1 + Rabs a2) * Cmod z ^ n)).
  { apply (gain_part snd a1 a2 G z); try assumption; [|intros; reflexivity|intros r [x y]; cbn; ring]. intros c. eapply Rle_trans; [apply Rmax_r|apply Rmax_Cmod]. }
  destruct (nfloor_ex (Rmax 0 (2 * G * (1 + Rabs a2))) (Rmax_l _ _)) as [n0 [_ Hn]]. rewrite <- S_INR in Hn. set (n := Datatypes.S n0) in *. pose proof (Rmax_r 0 (2 * G * (1 + Rabs a2))) as RM.
  assert (M : Cmod (ramp z n) <= Rabs (fst (ramp z n)) + Rabs (snd (ramp z n))).
  { destruct (ramp z n) as [x y]. cbn [fst snd]. replace (x, y) with (RtoC x + Ci * RtoC y)%C by (unfold RtoC, Ci, Cmult, Cplus; cbn [fst snd]; f_equal; ring).
    eapply Rle_trans; [apply Cmod_triangle|]. rewrite Cmod_mult, !Cmod_R. replace (Cmod Ci) with 1; [lra|]. symmetry. unfold Cmod, Ci. cbn [fst snd]. replace (0 ^ 2 + 1 ^ 2) with 1 by ring. apply sqrt_1. }
  specialize (F n). specialize (S n). unfold ramp in M at 1. rewrite Cmod_mult, Cmod_R, cp_mod, S_INR, Rabs_pos_eq in M by (pose proof (pos_INR n); lra).
  pose proof (pow_R1_Rle (Cmod z) n H) as RP. assert (Q : INR n * Cmod z ^ n > 2 * G * (1 + Rabs a2) * Cmod z ^ n) by (apply Rmult_gt_compat_r; lra). lra.
Qed.

(** ** the ideal cascade and its steady state *)
Definition rbq (d : ideal) : biquad RN := @MkBiquad RN 1 (i_a1 d) (i_a2 d) (i_b0 d) (i_b1 d) (i_b2 d).
Lemma prefix_len n x : length (prefix n x) = n.
Proof. unfold prefix. rewrite map_length, seq_length. reflexivity. Qed.
Lemma flt_diffeq d (x : sig) n : diffeq 1 (i_a1 d) (i_a2 d) (i_b0 d) (i_b1 d) (i_b2 d) (prefix n x) (prefix n (flt (rbq d) x)).
Proof.
  split; [rewrite !prefix_len; reflexivity|]. rewrite prefix_len. intros k Hk. unfold prefix. rewrite !back_seq by exact Hk. pose proof (flt_eq (rbq d) x k) as F.
  unfold den, numr, fir, rbq in F. cbn [m_a1 m_a2 m_b0 m_b1 m_b2] in F. set (y := flt _ x) in *.
  change (flt (rbq d) x) with y. clearbody y. destruct k as [|[|k]]; simpl in *; rewrite ?Nat.sub_0_r; exact F.
Qed.
Lemma ideal_sig ds : forall (x : sig) n, ideal_out ds (prefix n x) (prefix n (flts (map rbq ds) x)).
Proof.
  induction ds as [|d ds IH]; intros x n; [reflexivity|]. cbn [ideal_out]. exists (prefix n (flt (rbq d) x)). split; [apply flt_diffeq|]. apply (IH (flt (rbq d) x) n).
Qed.
Lemma ideal_steady ds fr (A : C) eps : List.Forall (fun d => stable_poly (i_a1 d) (i_a2 d)) ds -> 0 < eps ->
  exists N, forall i, (N <= i)%nat -> Rabs (flts (map rbq ds) (fun i => fst (A * cis (2 * PI * fr * INR i))%C) i - fst (i_resp ds fr * A * cis (2 * PI * fr * INR i))%C) <= eps.
Proof.
  intros HS He. set (x := fun i : nat => fst (A * cis (2 * PI * fr * INR i))%C). set (w := 2 * PI * fr) in *.
  assert (T : tends_osc x A w). { unfold tends_osc. apply (is_lim_seq_ext (fun _ => 0)); [|apply is_lim_seq_const]. intros i. unfold x, osc. ring. }
  assert (R : List.Forall (fun bs : biquad RN * st RN => rstable (fst bs)) (map (fun b => (b, st_init DF1)) (map rbq ds))).
  { rewrite !List.Forall_map. eapply List.Forall_impl; [|exact HS]. intros d Hd. exact Hd. }
  pose proof (couts_steady _ w R x A T) as Q. rewrite couts_init in Q. rewrite !map_map in Q. cbn [fst] in Q.
  unfold tends_osc in Q. apply is_lim_seq_spec in Q. destruct (Q (mkposreal eps He)) as [N HN]. exists N. intros i Hi. specialize (HN i Hi). cbn [pos] in HN. rewrite Rminus_0_r in HN. left. exact HN.
Qed.

(** ** in binary64 *)
Lemma chain_stable l : forall X, chain_ok l X -> List.Forall (fun d => stable_poly (i_a1 d) (i_a2 d)) (map d_id l).
Proof. induction l as [|d l IH]; intros X H; cbn [map]; constructor; destruct H as [(H & _) H']; [exact (gain_stable _ _ _ H)|exact (IH _ H')]. Qed.
Lemma prefix_nth (x : sig) n i : (i < n)%nat -> nth i (prefix n x) 0 = x i.
Proof. intros H. apply nth_map_seq. exact H. Qed.

Lemma follows_in A fr e X (xs : list f64) : follows A fr e X xs -> List.Forall (fun x => FloatSpec.is_fin x /\ Rabs (B2R x) <= X) xs.
Proof. intros H. apply List.Forall_forall. intros x Hx. apply (In_nth _ _ f0) in Hx. destruct Hx as (i & Hi & <-). destruct (H i Hi) as (F & B & _). split; assumption. Qed.
Lemma forall_nth (P : f64 -> Prop) xs i : List.Forall P xs -> (i < length xs)%nat -> P (nth i xs f0).
Proof. intros H Hi. rewrite List.Forall_forall in H. apply H, nth_In, Hi. Qed.

Lemma c93_cascade (l : list dsect) X e fr (A : C) eps : chain_ok l X -> 0 <= X -> 0 <= e -> 0 < eps -> exists N, forall m (bs : list (biquad (F64 m))) t (xs : list f64),
  List.Forall fin_coeffs bs -> List.Forall2 stored_near bs l -> follows A fr e X xs ->
  let ys := snd (cs_run (MkCStages bs (repeat (st_init t) (length bs))) xs) : list f64 in
  length ys = length xs /\ settles N (i_resp (map d_id l) fr * A)%C fr (chain_error l X e + eps) ys.
Proof.
  intros Hok HX He Hp. destruct (ideal_steady (map d_id l) fr A eps (chain_stable l X Hok) Hp) as [N HN]. exists N. intros m bs t xs Hf H2 Hin ys.
  pose proof (follows_in _ _ _ _ _ Hin) as Hxs.
  change (fun i : nat => fst (A * cis (2 * PI * fr * INR i))%C) with (wave A fr) in HN. set (z := flts (map rbq (map d_id l)) (wave A fr)) in *.
  destruct (chain_round t bs l xs X (prefix (length xs) (wave A fr)) (prefix (length xs) z) e) as (L1 & _ & O & E); try assumption.
  - apply prefix_len.
  - intros i Hi. rewrite prefix_nth by exact Hi. apply Hin. exact Hi.
  - apply ideal_sig.
  - fold ys in L1, O, E. split; [exact L1|]. intros i [H1 H3]. split; [apply (forall_nth _ ys i O H3)|]. rewrite L1 in H3. specialize (E i H3). rewrite prefix_nth in E by exact H3. specialize (HN i H1).
    fold (wave (i_resp (map d_id l) fr * A)%C fr i) in HN.
    change (Rabs (B2R (nth i ys f0) - wave (i_resp (map d_id l) fr * A)%C fr i) <= chain_error l X e + eps).
    revert E HN. generalize (B2R (nth i ys f0)), (wave (i_resp (map d_id l) fr * A)%C fr i), (z i), (chain_error l X e). intros y w v c E HN.
    replace (y - w) with ((y - v) + (v - w)) by ring. eapply Rle_trans; [apply Rabs_triang|]. lra.
Qed.
(** the same for a filter with spare stages *)
Lemma chain_settles m (fl : filt (F64 m)) bs' d t (l : list dsect) : fl_stages fl = bs' ++ repeat idb d -> fl_states fl = repeat (st_init t) (length bs' + d) ->
  List.Forall fin_coeffs bs' -> List.Forall2 stored_near bs' l ->
  forall X e fr (A : C) eps, chain_ok l X -> 0 <= X -> 0 <= e -> 0 < eps -> exists N, forall xs : list f64, follows A fr e X xs ->
  let ys := snd (filt_run fl xs) : list f64 in length ys = length xs /\ settles N (i_resp (map d_id l) fr * A)%C fr (chain_error l X e + eps) ys.
Proof.
  intros ST SS FC SN X e fr A eps OK HX He Hp. destruct (c93_cascade l X e fr A eps OK HX He Hp) as [N HN]. exists N. intros xs Hin. rewrite filt_run_snd. unfold fl_cs. rewrite ST, SS.
  pose proof (follows_in _ _ _ _ _ Hin) as Hxs. destruct (HN m bs' t xs FC SN Hin) as (L1 & Er). clear HN.
  assert (ID : List.Forall identity_coeffs (repeat (idb (N := F64 m)) d)). { apply List.Forall_forall. intros x Hx. apply repeat_spec in Hx. subst x. apply idb_ident. }
  assert (FN : List.Forall FloatSpec.is_fin (snd (cs_run (MkCStages bs' (repeat (st_init t) (length bs'))) xs) : list f64)).
  { destruct (chain_round t bs' l xs X (map B2R xs) (zs (map rbq (map d_id l)) (map B2R xs)) 0) as (_ & _ & O & _); try assumption; try lra; [apply map_length| | |].
    - intros i Hi. rewrite (nth_indep _ 0 (B2R f0)) by (rewrite map_length; exact Hi). rewrite map_nth, Rminus_diag_eq, Rabs_R0 by reflexivity. lra.
    - pose proof (ideal_sig (map d_id l) (seqof (map B2R xs)) (length (map B2R xs))) as I. unfold zs. fold (prefix (length (map B2R xs)) (flts (map rbq (map d_id l)) (seqof (map B2R xs)))).
      unfold prefix in I at 1. rewrite map_nth_seq in I. exact I.
    - eapply List.Forall_impl; [|exact O]. intros y [Y _]. exact Y. }
  pose proof (c09_stages m bs' _ t d xs ID FN) as Q.
  set (ys := snd (cs_run (MkCStages (bs' ++ repeat idb d) (repeat (st_init t) (length bs' + d))) xs)) in *.
  set (ws := snd (cs_run (MkCStages bs' (repeat (st_init t) (length bs'))) xs)) in *. clearbody ys ws. change (list (T (F64 m))) with (list f64) in ys, ws.
  assert (NQ : length ys = length ws /\ forall i, (i < length ws)%nat -> FloatSpec.is_fin (nth i ys f0) /\ B2R (nth i ys f0) = B2R (nth i ws f0)).
  { clear -Q FN. induction Q as [|y w ys ws H Q IH]; [split; [reflexivity|cbn; lia]|]. inversion FN; subst. destruct (IH ltac:(assumption)) as [I1 I2]. split; [cbn [length]; congruence|].
    intros [|i] Hi; cbn [nth]; [apply f_same_fin; assumption|]. apply I2. cbn [length] in Hi. lia. }
  destruct NQ as [LQ NQ]. cbv zeta. split; [congruence|]. intros i Hi. rewrite LQ in Hi. destruct (NQ i ltac:(lia)) as [F V]. split; [exact F|]. destruct (Er i Hi) as [_ E2]. revert E2. change (nth i ws RefLibm.f0) with (nth i ws f0). change (nth i ys RefLibm.f0) with (nth i ys f0). rewrite V. tauto.
Qed.

Lemma c93_butterworth m (hp : bool) (q : params (F64 m)) n FO t : libm_design m -> libm_response m -> FloatSpec.is_fin (q_fc q : f64) ->
  / 2 ^ 14 <= B2R (q_fc q : f64) <= 1 / 2 - / 2 ^ 14 -> (1 <= n <= 24)%nat -> (Z.of_nat n <= FO)%Z ->
  let k := (Bw, if hp then HP else LP) in let f := B2R (q_fc q : f64) in let l := bw_chain hp f n in
  bw_scale_error hp f n <= / 8 ->
  exists fl, filt_setupN (N := F64 m) k FO (Some (Z.of_nat n)) q (filt_init t k FO) = Ok fl tt /\
    forall X e fr (A : C) eps, chain_ok l X -> 0 <= X -> 0 <= e -> 0 < eps -> exists N, forall xs : list f64, follows A fr e X xs ->
    let ys := snd (filt_run fl xs) : list f64 in
    length ys = length xs /\ settles N (i_resp (bw_cascade hp f n) fr * A)%C fr (chain_error l X e + eps) ys.
Proof.
  intros HM HR Ff Hf HN HFO k f l HE. destruct (c66_parts m hp q n FO t HM HR Ff Hf HN HFO HE) as (fl & bs' & d & E & ST & SS & FC & SN & _ & _). exists fl. split; [exact E|].
  assert (MI : map d_id l = bw_cascade hp f n) by (unfold l, bw_chain, bw_cascade; rewrite map_map; apply map_ext; reflexivity). rewrite <- MI.
  exact (chain_settles m fl bs' d t l ST SS FC SN).
Qed.
Lemma c93_chebyshev m (second hp : bool) (q : params (F64 m)) n FO t : libm_design m -> libm_response m -> libm_cheb m -> libm_pow10 m -> FloatSpec.is_fin (q_fc q : f64) -> FloatSpec.is_fin (q_db q : f64) ->
  ch_cut_ok (B2R (q_fc q : f64)) -> ch_db_ok second (B2R (q_db q : f64)) -> (1 <= n <= 24)%nat -> (Z.of_nat n <= FO)%Z ->
  let k := (if second then Ch2 else Ch1, if hp then HP else LP) in let f := B2R (q_fc q : f64) in let db := B2R (q_db q : f64) in let l := ch_chain second hp f db n in
  ch_scale_error second hp f db n <= / 8 ->
  exists fl, filt_setupN (N := F64 m) k FO (Some (Z.of_nat n)) q (filt_init t k FO) = Ok fl tt /\
    forall X e fr (A : C) eps, chain_ok l X -> 0 <= X -> 0 <= e -> 0 < eps -> exists N, forall xs : list f64, follows A fr e X xs ->
    let ys := snd (filt_run fl xs) : list f64 in
    length ys = length xs /\ settles N (i_resp (ch_cascade second hp f db n) fr * A)%C fr (chain_error l X e + eps) ys.
Proof.
  intros HM HR HC HP Ff Fd Hf Hd HN HFO k f db l HE. destruct (c76_parts m second hp q n FO t HM HR HC HP Ff Fd Hf Hd HN HFO HE) as (fl & bs' & d & E & ST & SS & FC & SN & _ & _). exists fl. split; [exact E|].
  assert (MI : map d_id l = ch_cascade second hp f db n) by (unfold l, ch_chain, ch_cascade; rewrite map_map; apply map_ext; reflexivity). rewrite <- MI.
  exact (chain_settles m fl bs' d t l ST SS FC SN).
Qed.
Lemma c93_shelf m (hs : bool) (q : params (F64 m)) n FO t : libm_design m -> libm_response m -> libm_bwshelf m -> FloatSpec.is_fin (q_fc q : f64) -> FloatSpec.is_fin (q_gain q : f64) ->
  sh_cut_ok (B2R (q_fc q : f64)) -> sh_gain_ok (B2R (q_gain q : f64)) -> (1 <= n <= 24)%nat -> (Z.of_nat n <= FO)%Z ->
  let k := (Bw, if hs then HSh else LSh) in let f := B2R (q_fc q : f64) in let ga := B2R (q_gain q : f64) in let l := sh_chain hs f ga n in
  sh_scale_error hs f ga n <= / 8 ->
  exists fl, filt_setupN (N := F64 m) k FO (Some (Z.of_nat n)) q (filt_init t k FO) = Ok fl tt /\
    forall X e fr (A : C) eps, chain_ok l X -> 0 <= X -> 0 <= e -> 0 < eps -> exists N, forall xs : list f64, follows A fr e X xs ->
    let ys := snd (filt_run fl xs) : list f64 in
    length ys = length xs /\ settles N (i_resp (sh_cascade hs f ga n) fr * A)%C fr (chain_error l X e + eps) ys.
Proof.
  intros HM HR HC Ff Fd Hf Hd HN HFO k f ga l HE. destruct (c85_parts m hs q n FO t HM HR HC Ff Fd Hf Hd HN HFO HE) as (fl & bs' & d & E & ST & SS & FC & SN & _ & _). exists fl. split; [exact E|].
  assert (MI : map d_id l = sh_cascade hs f ga n) by apply sh_ids. rewrite <- MI.
  exact (chain_settles m fl bs' d t l ST SS FC SN).
Qed.
Lemma c93_rbj m (f g q : f64) k (r : rbj (F64 m)) : rbj_libm k m -> FloatSpec.is_fin f -> FloatSpec.is_fin g -> FloatSpec.is_fin q -> rbj_args k (B2R f) (B2R g) (B2R q) ->
  let i := rbj_ideal k (B2R f) (B2R g) (B2R q) in let er := rbj_coef_error k (B2R q) in
  exists r', rbj_obj_setupN (N := F64 m) k f g q r = Ok r' tt /\
    forall G X e fr (A : C) eps, let l := [DSect i G er er] in chain_ok l X -> 0 <= X -> 0 <= e -> 0 < eps -> exists N, forall xs : list f64, follows A fr e X xs ->
    let ys := snd (rbj_run (rbj_reset r') xs) : list f64 in
    length ys = length xs /\ settles N (i_resp [i] fr * A)%C fr (chain_error l X e + eps) ys.
Proof.
  intros HL Ff Fg Fq H i er. destruct (rbj_double m f g q k (r_bq r) HL Ff Fg Fq H) as (b' & E & F & N & _). fold i er in N. exists (MkRbj b' (r_st r)). split; [unfold rbj_obj_setupN, zoom; rewrite E; reflexivity|].
  intros G X e fr A eps l OK HX He Hp. destruct (c93_cascade l X e fr A eps OK HX He Hp) as [M HM]. exists M. intros xs Hin. rewrite rbj_run_cs. cbn [rbj_reset r_bq r_st].
  replace (st_reset (r_st r)) with (st_init (N := F64 m) (st_topo (r_st r))) by (destruct (r_st r); reflexivity).
  apply (HM m [b'] (st_topo (r_st r)) xs); try assumption.
  - constructor; [exact F|constructor].
  - constructor; [exact N|constructor].
Qed.

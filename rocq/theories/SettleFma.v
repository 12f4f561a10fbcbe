(** Proofs: filters in binary64 that run with fused multiply-adds settle on the sinusoid of the ideal response. *)
From Coq Require Import ZArith List Bool Reals Lra Lia.
From Coquelicot Require Import Coquelicot.
From Flocq Require Import IEEE754.BinarySingleNaN.
From Verif Require Import Num Outcome Types Biquad State Cascade RBJ PoleFilter RealNum Float64 FloatSpec FloatProofs Stream
  SigSpec SigProofs StabProofs RespProofs SigLemmas RoundSpec RoundProofs RoundRun RoundLemmas DblSpec DblProofs DblLemmas LayoutProofs BuildAny BwDblSpec BwDblFinal ChainSpec ChainLemmas BwOut Contract ContractProofs ContractLemmas ContractBw
  ChCoefSpec ChDblSpec ChScaleSpec ChOut RespDblSpec RbjRespSpec RbjResp ShelfDblSpec ShelfOut SettleSpec Settle.
Import ListNotations.
Local Open Scope R_scope.

Lemma c98_cascade (l : list dsect) X e fr (A : C) eps : chain_ok l X -> 0 <= X -> 0 <= e -> 0 < eps -> exists N, forall m (bs : list (biquad (F64 m))) t (xs ys : list f64),
  List.Forall fin_coeffs bs -> List.Forall2 stored_near bs l -> follows A fr e X xs -> c_run bs (repeat (st_init t) (length bs)) xs ys ->
  length ys = length xs /\ settles N (i_resp (map d_id l) fr * A)%C fr (chain_error l X e + eps) ys.
Proof.
  intros Hok HX He Hp. destruct (ideal_steady (map d_id l) fr A eps (chain_stable l X Hok) Hp) as [N HN]. exists N. intros m bs t xs ys Hf H2 Hin HR.
  pose proof (follows_in _ _ _ _ _ Hin) as Hxs.
  change (fun i : nat => fst (A * cis (2 * PI * fr * INR i))%C) with (wave A fr) in HN. set (z := flts (map rbq (map d_id l)) (wave A fr)) in *.
  destruct (cchain_round t bs l xs ys X (prefix (length xs) (wave A fr)) (prefix (length xs) z) e) as (L1 & _ & O & E); try assumption.
  - apply prefix_len.
  - intros i Hi. rewrite prefix_nth by exact Hi. apply Hin. exact Hi.
  - apply ideal_sig.
  - split; [exact L1|]. intros i [H1 H3]. split; [apply (forall_nth _ ys i O H3)|]. rewrite L1 in H3. specialize (E i H3). rewrite prefix_nth in E by exact H3. specialize (HN i H1).
    fold (wave (i_resp (map d_id l) fr * A)%C fr i) in HN. change (Rabs (B2R (nth i ys f0) - z i) <= chain_error l X e) in E.
    change (Rabs (B2R (nth i ys f0) - wave (i_resp (map d_id l) fr * A)%C fr i) <= chain_error l X e + eps).
    revert E HN. generalize (B2R (nth i ys f0)), (wave (i_resp (map d_id l) fr * A)%C fr i), (z i), (chain_error l X e). intros y w v c E HN.
    replace (y - w) with ((y - v) + (v - w)) by ring. eapply Rle_trans; [apply Rabs_triang|]. lra.
Qed.
Lemma cchain_settles m (fl : filt (F64 m)) bs' d t (l : list dsect) : fl_stages fl = bs' ++ repeat idb d -> fl_states fl = repeat (st_init t) (length bs' + d) ->
  List.Forall fin_coeffs bs' -> List.Forall2 stored_near bs' l ->
  forall X e fr (A : C) eps, chain_ok l X -> 0 <= X -> 0 <= e -> 0 < eps -> exists N, forall xs ys : list f64, follows A fr e X xs -> c_run (fl_stages fl) (fl_states fl) xs ys ->
  length ys = length xs /\ settles N (i_resp (map d_id l) fr * A)%C fr (chain_error l X e + eps) ys.
Proof.
  intros ST SS FC SN X e fr A eps OK HX He Hp. destruct (c98_cascade l X e fr A eps OK HX He Hp) as [N HN]. exists N. intros xs ys Hin R. rewrite ST, SS in R.
  rewrite repeat_app in R. apply c_app in R as (us & R1 & R2); [|apply repeat_length]. destruct (HN m bs' t xs us FC SN Hin R1) as (L1 & Er). clear HN.
  pose proof (follows_in _ _ _ _ _ Hin) as Hxs.
  assert (FN : List.Forall FloatSpec.is_fin us).
  { destruct (cchain_round t bs' l xs us X (prefix (length xs) (wave A fr)) (prefix (length xs) (flts (map rbq (map d_id l)) (wave A fr))) e) as (_ & _ & O & _); try assumption; [apply prefix_len| |apply ideal_sig|].
    - intros i Hi. rewrite prefix_nth by exact Hi. apply Hin. exact Hi.
    - eapply List.Forall_impl; [|exact O]. intros y [Y _]. exact Y. }
  assert (Q : List.Forall2 same_f ys us).
  { eapply id_run; [exact R2|rewrite !repeat_length; reflexivity| | |exact FN].
    - apply List.Forall_forall. intros x Hx. apply repeat_spec in Hx. subst x. apply id_idb.
    - apply List.Forall_forall. intros x Hx. apply repeat_spec in Hx. subst x. apply init_id. }
  assert (NQ : length ys = length us /\ forall i, (i < length us)%nat -> FloatSpec.is_fin (nth i ys f0) /\ B2R (nth i ys f0) = B2R (nth i us f0)).
  { clear -Q. induction Q as [|y w ys ws H Q IH]; [split; [reflexivity|cbn; lia]|]. destruct IH as [I1 I2]. split; [cbn [length]; congruence|].
    intros [|i] Hi; cbn [nth]; [exact H|]. apply I2. cbn [length] in Hi. lia. }
  destruct NQ as [LQ NQ]. split; [congruence|]. intros i Hi. rewrite LQ in Hi. destruct (NQ i ltac:(lia)) as [F V]. split; [exact F|]. destruct (Er i Hi) as [_ E2]. revert E2. change (nth i us RefLibm.f0) with (nth i us f0). change (nth i ys RefLibm.f0) with (nth i ys f0). rewrite V. tauto.
Qed.
Lemma c98_butterworth m (hp : bool) (q : params (F64 m)) n FO t : libm_design m -> libm_response m -> FloatSpec.is_fin (q_fc q : f64) ->
  / 2 ^ 14 <= B2R (q_fc q : f64) <= 1 / 2 - / 2 ^ 14 -> (1 <= n <= 24)%nat -> (Z.of_nat n <= FO)%Z ->
  let k := (Bw, if hp then HP else LP) in let f := B2R (q_fc q : f64) in let l := bw_chain hp f n in
  bw_scale_error hp f n <= / 8 ->
  exists fl, filt_setupN (N := F64 m) k FO (Some (Z.of_nat n)) q (filt_init t k FO) = Ok fl tt /\
    forall X e fr (A : C) eps, chain_ok l X -> 0 <= X -> 0 <= e -> 0 < eps -> exists N, forall xs ys : list f64, follows A fr e X xs -> c_run (fl_stages fl) (fl_states fl) xs ys ->
    length ys = length xs /\ settles N (i_resp (bw_cascade hp f n) fr * A)%C fr (chain_error l X e + eps) ys.
Proof.
  intros HM HR Ff Hf HN HFO k f l HE. destruct (c66_parts m hp q n FO t HM HR Ff Hf HN HFO HE) as (fl & bs' & d & E & ST & SS & FC & SN & _ & _). exists fl. split; [exact E|].
  assert (MI : map d_id l = bw_cascade hp f n) by (unfold l, bw_chain, bw_cascade; rewrite map_map; apply map_ext; reflexivity). rewrite <- MI.
  exact (cchain_settles m fl bs' d t l ST SS FC SN).
Qed.
Lemma c98_chebyshev m (second hp : bool) (q : params (F64 m)) n FO t : libm_design m -> libm_response m -> libm_cheb m -> libm_pow10 m -> FloatSpec.is_fin (q_fc q : f64) -> FloatSpec.is_fin (q_db q : f64) ->
  ch_cut_ok (B2R (q_fc q : f64)) -> ch_db_ok second (B2R (q_db q : f64)) -> (1 <= n <= 24)%nat -> (Z.of_nat n <= FO)%Z ->
  let k := (if second then Ch2 else Ch1, if hp then HP else LP) in let f := B2R (q_fc q : f64) in let db := B2R (q_db q : f64) in let l := ch_chain second hp f db n in
  ch_scale_error second hp f db n <= / 8 ->
  exists fl, filt_setupN (N := F64 m) k FO (Some (Z.of_nat n)) q (filt_init t k FO) = Ok fl tt /\
    forall X e fr (A : C) eps, chain_ok l X -> 0 <= X -> 0 <= e -> 0 < eps -> exists N, forall xs ys : list f64, follows A fr e X xs -> c_run (fl_stages fl) (fl_states fl) xs ys ->
    length ys = length xs /\ settles N (i_resp (ch_cascade second hp f db n) fr * A)%C fr (chain_error l X e + eps) ys.
Proof.
  intros HM HR HC HP Ff Fd Hf Hd HN HFO k f db l HE. destruct (c76_parts m second hp q n FO t HM HR HC HP Ff Fd Hf Hd HN HFO HE) as (fl & bs' & d & E & ST & SS & FC & SN & _ & _). exists fl. split; [exact E|].
  assert (MI : map d_id l = ch_cascade second hp f db n) by (unfold l, ch_chain, ch_cascade; rewrite map_map; apply map_ext; reflexivity). rewrite <- MI.
  exact (cchain_settles m fl bs' d t l ST SS FC SN).
Qed.
Lemma c98_shelf m (hs : bool) (q : params (F64 m)) n FO t : libm_design m -> libm_response m -> libm_bwshelf m -> FloatSpec.is_fin (q_fc q : f64) -> FloatSpec.is_fin (q_gain q : f64) ->
  sh_cut_ok (B2R (q_fc q : f64)) -> sh_gain_ok (B2R (q_gain q : f64)) -> (1 <= n <= 24)%nat -> (Z.of_nat n <= FO)%Z ->
  let k := (Bw, if hs then HSh else LSh) in let f := B2R (q_fc q : f64) in let ga := B2R (q_gain q : f64) in let l := sh_chain hs f ga n in
  sh_scale_error hs f ga n <= / 8 ->
  exists fl, filt_setupN (N := F64 m) k FO (Some (Z.of_nat n)) q (filt_init t k FO) = Ok fl tt /\
    forall X e fr (A : C) eps, chain_ok l X -> 0 <= X -> 0 <= e -> 0 < eps -> exists N, forall xs ys : list f64, follows A fr e X xs -> c_run (fl_stages fl) (fl_states fl) xs ys ->
    length ys = length xs /\ settles N (i_resp (sh_cascade hs f ga n) fr * A)%C fr (chain_error l X e + eps) ys.
Proof.
  intros HM HR HC Ff Fd Hf Hd HN HFO k f ga l HE. destruct (c85_parts m hs q n FO t HM HR HC Ff Fd Hf Hd HN HFO HE) as (fl & bs' & d & E & ST & SS & FC & SN & _ & _). exists fl. split; [exact E|].
  assert (MI : map d_id l = sh_cascade hs f ga n) by apply sh_ids. rewrite <- MI.
  exact (cchain_settles m fl bs' d t l ST SS FC SN).
Qed.
Lemma c98_rbj m (f g q : f64) k (r : rbj (F64 m)) : rbj_libm k m -> FloatSpec.is_fin f -> FloatSpec.is_fin g -> FloatSpec.is_fin q -> rbj_args k (B2R f) (B2R g) (B2R q) ->
  let i := rbj_ideal k (B2R f) (B2R g) (B2R q) in let er := rbj_coef_error k (B2R q) in
  exists r', rbj_obj_setupN (N := F64 m) k f g q r = Ok r' tt /\
    forall G X e fr (A : C) eps, let l := [DSect i G er er] in chain_ok l X -> 0 <= X -> 0 <= e -> 0 < eps -> exists N, forall xs ys : list f64, follows A fr e X xs -> c_run [r_bq r'] [r_st (rbj_reset r')] xs ys ->
    length ys = length xs /\ settles N (i_resp [i] fr * A)%C fr (chain_error l X e + eps) ys.
Proof.
  intros HL Ff Fg Fq H i er. destruct (rbj_double m f g q k (r_bq r) HL Ff Fg Fq H) as (b' & E & F & N & _). fold i er in N. exists (MkRbj b' (r_st r)). split; [unfold rbj_obj_setupN, zoom; rewrite E; reflexivity|].
  intros G X e fr A eps l OK HX He Hp. destruct (c98_cascade l X e fr A eps OK HX He Hp) as [M HM]. exists M. intros xs ys Hin R. cbn [rbj_reset r_bq r_st] in R.
  replace (st_reset (r_st r)) with (st_init (N := F64 m) (st_topo (r_st r))) in R by (destruct (r_st r); reflexivity).
  apply (HM m [b'] (st_topo (r_st r)) xs ys); try assumption.
  - constructor; [exact F|constructor].
  - constructor; [exact N|constructor].
Qed.

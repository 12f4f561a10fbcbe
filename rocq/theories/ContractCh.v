(** Lemmas: Chebyshev and RBJ filters run with fused multiply-adds. *)
From Coq Require Import ZArith List Bool Reals Lra Lia.
From Coquelicot Require Import Coquelicot.
From Flocq Require Import Core.Raux Core.Generic_fmt IEEE754.BinarySingleNaN.
From Verif Require Import Num Outcome Types Biquad State Cascade RBJ PoleFilter Float64 FloatSpec FloatProofs Stream
  SigSpec RoundSpec RoundProofs RoundLemmas DblSpec DblProofs DblLemmas RbjShSpec RbjShLemmas LayoutProofs BuildAny BwDblSpec BwDblFinal ChainSpec ChainLemmas BwOut Contract ContractProofs ContractLemmas ContractBw
  ChCoefSpec ChDblSpec ChScaleSpec ChOut RespDblSpec RbjRespSpec RbjResp.
Import ListNotations.
Local Open Scope R_scope.

(** the sections of a chain, then unused ones *)
Lemma chain_c m (bs' : list (biquad (F64 m))) d t l X (xs ys : list f64) zs : List.Forall fin_coeffs bs' -> List.Forall2 stored_near bs' l ->
  0 <= X -> chain_ok l X -> List.Forall (fun x => FloatSpec.is_fin x /\ Rabs (B2R x) <= X) xs -> ideal_out (map d_id l) (map B2R xs) zs ->
  c_run (bs' ++ repeat idb d) (repeat (st_init t) (length bs' + d)) xs ys ->
  length ys = length xs /\ List.Forall (fun y => FloatSpec.is_fin y /\ Rabs (B2R y) <= chain_bound l X) ys /\ List.Forall2 (fun y z => Rabs (B2R y - z) <= chain_error l X 0) ys zs.
Proof.
  intros FC SN HX OK Hxs Hz R. rewrite repeat_app in R. apply c_app in R as (us & R1 & R2); [|apply repeat_length].
  destruct (c68_ideal bs' l t xs us X zs FC SN OK HX Hxs Hz R1) as (L1 & L2 & O & Er).
  assert (Q : List.Forall2 same_f ys us).
  { eapply id_run; [exact R2|rewrite !repeat_length; reflexivity| | |].
    - apply List.Forall_forall. intros x Hx. apply repeat_spec in Hx. subst x. apply id_idb.
    - apply List.Forall_forall. intros x Hx. apply repeat_spec in Hx. subst x. apply init_id.
    - eapply List.Forall_impl; [|exact O]. intros y [Y _]. exact Y. }
  clear -Q L1 O Er.
  split; [rewrite <- L1; clear -Q; induction Q; simpl; congruence|]. clear L1. revert zs O Er. induction Q as [|y w ys ws H Q IH]; intros zs O Er.
  - inversion Er; subst. split; constructor.
  - inversion Er as [|? z ? zs' H1 H2]; subst. inversion O as [|? ? [O1 O2] O3]; subst. destruct H as [Y1 Y2]. destruct (IH zs' O3 H2) as [I1 I2].
    split; constructor; try assumption; [split; [exact Y1|]|]; rewrite Y2; assumption.
Qed.
Lemma c80_ch m (second hp : bool) (q : params (F64 m)) n FO t : libm_design m -> libm_response m -> libm_cheb m -> libm_pow10 m -> FloatSpec.is_fin (q_fc q : f64) -> FloatSpec.is_fin (q_db q : f64) ->
  ch_cut_ok (B2R (q_fc q : f64)) -> ch_db_ok second (B2R (q_db q : f64)) -> (1 <= n <= 24)%nat -> (Z.of_nat n <= FO)%Z ->
  let k := (if second then Ch2 else Ch1, if hp then HP else LP) in let f := B2R (q_fc q : f64) in let db := B2R (q_db q : f64) in
  ch_scale_error second hp f db n <= / 8 ->
  exists fl, filt_setupN (N := F64 m) k FO (Some (Z.of_nat n)) q (filt_init t k FO) = Ok fl tt /\
    forall X (xs ys : list f64) zs, 0 <= X -> chain_ok (ch_chain second hp f db n) X -> List.Forall (fun x => FloatSpec.is_fin x /\ Rabs (B2R x) <= X) xs ->
    ideal_out (ch_cascade second hp f db n) (map B2R xs) zs ->
    c_run (fl_stages fl) (fl_states fl) xs ys ->
    length ys = length xs /\ List.Forall (fun y => FloatSpec.is_fin y /\ Rabs (B2R y) <= chain_bound (ch_chain second hp f db n) X) ys /\
    List.Forall2 (fun y z => Rabs (B2R y - z) <= chain_error (ch_chain second hp f db n) X 0) ys zs.
Proof.
  intros HM HR HC HP Ff Fd Hf Hd HN HFO k f db HE. destruct (c76_parts m second hp q n FO t HM HR HC HP Ff Fd Hf Hd HN HFO HE) as (fl & bs' & d & E & ST & SS & FC & SN & _ & _). exists fl. split; [exact E|].
  intros X xs ys zs HX OK Hxs Hz R. rewrite ST, SS in R.
  assert (MI : map d_id (ch_chain second hp f db n) = ch_cascade second hp f db n) by (unfold ch_chain, ch_cascade; rewrite map_map; apply map_ext; reflexivity).
  apply (chain_c m bs' d t (ch_chain second hp f db n) X xs ys zs FC SN HX OK Hxs ltac:(rewrite MI; exact Hz) R).
Qed.
Lemma c80_rbj m (f g q : f64) k (r : rbj (F64 m)) : rbj_libm k m -> FloatSpec.is_fin f -> FloatSpec.is_fin g -> FloatSpec.is_fin q -> rbj_args k (B2R f) (B2R g) (B2R q) ->
  let i := rbj_ideal k (B2R f) (B2R g) (B2R q) in let e := rbj_coef_error k (B2R q) in
  exists r', rbj_obj_setupN (N := F64 m) k f g q r = Ok r' tt /\
    forall G X (xs ys : list f64) zs, let l := [DSect i G e e] in 0 <= X -> chain_ok l X -> List.Forall (fun x => FloatSpec.is_fin x /\ Rabs (B2R x) <= X) xs ->
    diffeq 1 (i_a1 i) (i_a2 i) (i_b0 i) (i_b1 i) (i_b2 i) (map B2R xs) zs ->
    c_run [r_bq r'] [r_st (rbj_reset r')] xs ys ->
    length ys = length xs /\ List.Forall (fun y => FloatSpec.is_fin y /\ Rabs (B2R y) <= chain_bound l X) ys /\ List.Forall2 (fun y z => Rabs (B2R y - z) <= chain_error l X 0) ys zs.
Proof.
  intros HL Ff Fg Fq H i e. destruct (rbj_double m f g q k (r_bq r) HL Ff Fg Fq H) as (b' & E & F & N & _). fold i e in N. exists (MkRbj b' (r_st r)). split; [unfold rbj_obj_setupN, zoom; rewrite E; reflexivity|].
  intros G X xs ys zs l HX OK Hxs Hz R. cbn [rbj_reset r_bq r_st] in R.
  replace (st_reset (r_st r)) with (st_init (N := F64 m) (st_topo (r_st r))) in R by (destruct (r_st r); reflexivity).
  apply (chain_c m [b'] 0 (st_topo (r_st r)) l X xs ys zs); try assumption.
  - constructor; [exact F|constructor].
  - constructor; [exact N|constructor].
  - exists zs. split; [exact Hz|reflexivity].
Qed.
Lemma ex_c80 : let i := rbj_ideal R_LowPass (1 / 4) 0 1 in let e := rbj_coef_error R_LowPass 1 in let l := [DSect i 9 e e] in
  chain_ok l 1 /\ chain_error l 1 0 <= 1 / 10 ^ 9.
Proof.
  intros i e l. assert (EI : i = Ideal 0 (1 / 3) (1 / 3) (2 / 3) (1 / 3)) by exact quarter_lp.
  assert (EE : e = 2 / 2 ^ 46) by (unfold e, rbj_coef_error, design_error; cbn [rbj_is_shelf]; lra).
  assert (B : i_B i = 4 / 3) by (rewrite EI; unfold i_B; cbn [i_b0 i_b1 i_b2]; rewrite !Rabs_pos_eq by lra; lra).
  assert (A0 : Rabs (i_a1 i) = 0 /\ Rabs (i_a2 i) = 1 / 3) by (rewrite EI; cbn [i_a1 i_a2]; rewrite Rabs_R0, Rabs_pos_eq by lra; lra).
  assert (P900 : 2 ^ 10 <= 2 ^ 900) by (apply Rle_pow; [lra|lia]).
  assert (GA : 0 < g_abs <= / 2 ^ 60). { unfold g_abs. split; [apply Rinv_0_lt_compat, pow_lt; lra|]. apply Rinv_le; [apply pow_lt; lra|apply Rle_pow; [lra|lia]]. }
  set (d := DSect i 9 e e). assert (DA : d_A d = 1 / 3 + 4 / 2 ^ 46) by (unfold d_A, d; cbn [d_id d_ea]; rewrite (proj1 A0), (proj2 A0), EE; lra).
  assert (DB : d_B d = 4 / 3 + 6 / 2 ^ 46) by (unfold d_B, d; cbn [d_id d_eb]; rewrite B, EE; lra).
  split.
  - split; [|exact I]. fold d. unfold d_ok. rewrite DA, DB. unfold d. cbn [d_id d_G d_ea]. rewrite EE.
    split. { replace 9 with (/ (1 / 3) ^ 2) by lra. rewrite EI. cbn [i_a1 i_a2]. apply c62_margin; rewrite ?Rabs_R0, ?(Rabs_pos_eq (1 / 3)) by lra; lra. }
    clear - P900. set (p := 2 ^ 900) in *. clearbody p. lra.
  - unfold l. fold d. cbn [chain_error]. unfold d_err. rewrite DA, DB, Rmult_0_r, Rplus_0_l. unfold d. cbn [d_G d_ea d_eb]. rewrite EE. unfold g_rel.
    clear - GA. set (g := g_abs) in *. clearbody g. nra.
Qed.

(** Lemmas: setup() on a filter with a past, then reset(): indistinguishable from a new filter after the same setup(). *)
From Coq Require Import ZArith List Bool Reals Lra Lia.
From Coquelicot Require Import Coquelicot.
From Flocq Require Import IEEE754.BinarySingleNaN.
From Verif Require Import Num Outcome Types Biquad State Cascade PoleFilter History Stream CallSpec CallLemmas Float64 FloatSpec
  SigSpec RoundSpec DblSpec BwDblSpec BwDblFinal ChainSpec ChainLemmas BwOut ChCoefSpec ChDblSpec ChDblEx ChScaleSpec ChOut RespDblSpec RespOut RespOut2.
Import ListNotations.
Local Open Scope R_scope.

Lemma c81 (N : num) : (forall r th, npolar N r th <> None) -> forall t k FO os (f fl0 : filt N) r q,
  (1 <= FO)%Z -> in_int (2 * FO) = true -> List.Forall op_ok os -> order_ok r -> (1 <= order_of FO r)%Z ->
  (is_shelf (snd k) = true -> exact_param (q_gain q)) -> (fst k <> Bw -> exact_param (q_db q)) ->
  steps k FO os (filt_init t k FO) = Some f -> calm k FO r q os (filt_init t k FO) ->
  filt_setupN k FO r q (filt_init t k FO) = Ok fl0 tt ->
  exists fl, filt_setupN k FO r q f = Ok fl tt /\ looks_same fl0 (filt_reset fl).
Proof.
  intros HP t k FO os f fl0 r q HF HI HO HR H1 PG PD E HC E0.
  destruct (c24 N HP t t k FO os f r q HF HI HO HR H1 PG PD E HC) as [S _]. rewrite E0 in S.
  destruct (filt_setupN k FO r q f) as [fl []| |] eqn:EF; cbn [same_outcome] in S; try contradiction.
  destruct S as (S1 & S2 & S3 & S4). exists fl. split; [reflexivity|].
  assert (A0 : fl_states fl0 = fl_states (filt_init t k FO)). { apply (setup_states _ (setupN k FO r q)). unfold filt_setupN in E0. rewrite E0. reflexivity. }
  assert (A1 : fl_states fl = fl_states f). { apply (setup_states _ (setupN k FO r q)). unfold filt_setupN in EF. rewrite EF. reflexivity. }
  destruct (steps_states_ok t k FO os _ f (init_states_ok t k FO) E) as [L T].
  assert (SS : fl_states (filt_reset fl) = fl_states fl0).
  { unfold filt_reset. cbn [fl_states]. rewrite A1, (reset_states_init t _ T), L, A0. reflexivity. }
  assert (ST : fl_stages (filt_reset fl) = fl_stages fl0) by exact S1.
  split; [exact S4|]. split; [exact S3|]. split; [exact S2|].
  split. { intros i. unfold filt_index, cas_index. unfold filt_numStages in S2. unfold fl_stages in S1. cbn [filt_reset fl_pf]. rewrite S2, S1. reflexivity. }
  split. { intros xs. rewrite !filt_run_snd. unfold fl_cs. rewrite ST, SS. reflexivity. }
  split; [exact ST|exact SS].
Qed.

(** ** Butterworth and Chebyshev low and high passes in binary64 *)
Section Used.
  Variable m : libm.
  Hypothesis HPo : forall r th, lm_polar m r th <> None.
  Hypothesis HM : libm_design m.
  Hypothesis HR : libm_response m.
  Lemma c81_bw (hp : bool) (q : params (F64 m)) n FO t os (f0 : filt (F64 m)) : FloatSpec.is_fin (q_fc q : f64) ->
    / 2 ^ 14 <= B2R (q_fc q : f64) <= 1 / 2 - / 2 ^ 14 -> (1 <= n <= 24)%nat -> (Z.of_nat n <= FO)%Z -> in_int (2 * FO) = true ->
    let k := (Bw, if hp then HP else LP) in let f := B2R (q_fc q : f64) in let e := bw_scale_error hp f n in let ds := bw_cascade hp f n in let l := bw_chain hp f n in
    e <= / 2 ^ 10 -> List.Forall op_ok os -> steps k FO os (filt_init t k FO) = Some f0 -> calm k FO (Some (Z.of_nat n)) q os (filt_init t k FO) ->
    exists fl, filt_setupN (N := F64 m) k FO (Some (Z.of_nat n)) q f0 = Ok fl tt /\
      (forall X (xs : list f64) zs, 0 <= X -> chain_ok l X -> List.Forall (fun x => FloatSpec.is_fin x /\ Rabs (B2R x) <= X) xs ->
       ideal_out ds (map B2R xs) zs -> let ys := snd (filt_run (filt_reset fl) xs) : list f64 in
       length ys = length xs /\ List.Forall (fun y => FloatSpec.is_fin y /\ Rabs (B2R y) <= chain_bound l X) ys /\
       List.Forall2 (fun y z => Rabs (B2R y - z) <= chain_error l X 0) ys zs) /\
      forall x : f64, FloatSpec.is_fin x -> 0 <= B2R x <= 1 / 2 -> resp_rel e (bw_sections n) * i_cond ds (B2R x) <= / 4 ->
      exists h, filt_response fl x = Val h /\ cfin h /\ Cmod (c2c h - i_resp ds (B2R x))%C <= resp_error e ds (B2R x).
  Proof.
    intros Ff Hf HN HFO HI k f e ds l HE HO ES HC.
    destruct (c66 m hp q n FO t HM HR Ff Hf HN HFO ltac:(fold f; fold e; lra)) as (fl0 & E0 & OUT).
    destruct (c78_bw m hp q n FO t HM HR Ff Hf HN HFO HE) as (fl1 & E1 & RSP).
    assert (Q : fl1 = fl0) by (pose proof (eq_trans (eq_sym E0) E1) as Q; injection Q; auto). subst fl1.
    destruct (c81 (F64 m) HPo t k FO os f0 fl0 (Some (Z.of_nat n)) q) as (fl & E & LS); try assumption.
    - lia.
    - change (in_int (2 * Z.of_nat n) = true). unfold in_int, int_min, int_max in HI |- *. apply andb_true_iff in HI. destruct HI as [I1 I2]. apply Z.leb_le in I1, I2. apply andb_true_iff. split; apply Z.leb_le; lia.
    - cbn. lia.
    - destruct hp; discriminate.
    - intros C. elim C. reflexivity.
    - exists fl. split; [exact E|]. destruct LS as (L1 & _ & _ & _ & L5 & _ & _). split.
      + intros X xs zs HX OK Hxs Hz. cbv zeta. rewrite L5. apply OUT; assumption.
      + intros x Fx Hx HH. change (filt_response fl x) with (filt_response (filt_reset fl) x). rewrite L1. apply RSP; assumption.
  Qed.
  Hypothesis HC : libm_cheb m.
  Hypothesis HW : libm_pow10 m.
  Lemma c81_ch (second hp : bool) (q : params (F64 m)) n FO t os (f0 : filt (F64 m)) : FloatSpec.is_fin (q_fc q : f64) -> FloatSpec.is_fin (q_db q : f64) ->
    ch_cut_ok (B2R (q_fc q : f64)) -> ch_db_ok second (B2R (q_db q : f64)) -> (1 <= n <= 24)%nat -> (Z.of_nat n <= FO)%Z -> in_int (2 * FO) = true ->
    let k := (if second then Ch2 else Ch1, if hp then HP else LP) in let f := B2R (q_fc q : f64) in let db := B2R (q_db q : f64) in
    let e := ch_scale_error second hp f db n in let ds := ch_cascade second hp f db n in let l := ch_chain second hp f db n in
    e <= / 2 ^ 10 -> List.Forall op_ok os -> steps k FO os (filt_init t k FO) = Some f0 -> calm k FO (Some (Z.of_nat n)) q os (filt_init t k FO) ->
    exists fl, filt_setupN (N := F64 m) k FO (Some (Z.of_nat n)) q f0 = Ok fl tt /\
      (forall X (xs : list f64) zs, 0 <= X -> chain_ok l X -> List.Forall (fun x => FloatSpec.is_fin x /\ Rabs (B2R x) <= X) xs ->
       ideal_out ds (map B2R xs) zs -> let ys := snd (filt_run (filt_reset fl) xs) : list f64 in
       length ys = length xs /\ List.Forall (fun y => FloatSpec.is_fin y /\ Rabs (B2R y) <= chain_bound l X) ys /\
       List.Forall2 (fun y z => Rabs (B2R y - z) <= chain_error l X 0) ys zs) /\
      forall x : f64, FloatSpec.is_fin x -> 0 <= B2R x <= 1 / 2 -> resp_rel e (bw_sections n) * i_cond ds (B2R x) <= / 4 ->
      exists h, filt_response fl x = Val h /\ cfin h /\ Cmod (c2c h - i_resp ds (B2R x))%C <= resp_error e ds (B2R x).
  Proof.
    intros Ff Fd Hf Hd HN HFO HI k f db e ds l HE HO ES CA.
    destruct (c76 m second hp q n FO t HM HR HC HW Ff Fd Hf Hd HN HFO ltac:(fold f db; fold e; lra)) as (fl0 & E0 & OUT).
    destruct (c78_ch m second hp q n FO t HM HR HC HW Ff Fd Hf Hd HN HFO HE) as (fl1 & E1 & RSP).
    assert (Q : fl1 = fl0) by (pose proof (eq_trans (eq_sym E0) E1) as Q; injection Q; auto). subst fl1.
    destruct (c81 (F64 m) HPo t k FO os f0 fl0 (Some (Z.of_nat n)) q) as (fl & E & LS); try assumption.
    - lia.
    - change (in_int (2 * Z.of_nat n) = true). unfold in_int, int_min, int_max in HI |- *. apply andb_true_iff in HI. destruct HI as [I1 I2]. apply Z.leb_le in I1, I2. apply andb_true_iff. split; apply Z.leb_le; lia.
    - cbn. lia.
    - destruct hp; discriminate.
    - intros _. apply exact_F64. intros s EZ. fold db in Hd. assert (Z0 : db = 0) by (unfold db; rewrite EZ; reflexivity). clear - Hd Z0. unfold ch_db_ok in Hd. destruct second; lra.
    - exists fl. split; [exact E|]. destruct LS as (L1 & _ & _ & _ & L5 & _ & _). split.
      + intros X xs zs HX OK Hxs Hz. cbv zeta. rewrite L5. apply OUT; assumption.
      + intros x Fx Hx HH. change (filt_response fl x) with (filt_response (filt_reset fl) x). rewrite L1. apply RSP; assumption.
  Qed.
End Used.

(** ** a filter with a past: a first order design, three samples and an order that is too large, then the third order low pass *)
Definition used_q : params (F64 design_libm) := MkParams (N := F64 design_libm) (fnorm 1 (-2)) (fofZ 0) (fofZ 0) (fofZ 0).
Definition used_calls : list (op (F64 design_libm)) :=
  [OpSetupN (Some 1%Z) used_q; OpFilter (fofZ 1 : T (F64 design_libm)); OpFilter (fofZ 5 : T (F64 design_libm)); OpFilter (fofZ 0 : T (F64 design_libm)); OpSetupN (Some 99%Z) used_q].
Lemma ex_c81 : (forall r th, lm_polar design_libm r th <> None) /\ libm_design design_libm /\ libm_response design_libm /\ FloatSpec.is_fin (q_fc used_q : f64) /\ B2R (q_fc used_q : f64) = 1 / 4 /\
  bw_scale_error false (1 / 4) 3 <= / 2 ^ 10 /\ List.Forall op_ok used_calls /\
  exists f0, steps (Bw, LP) 4 used_calls (filt_init DF2 (Bw, LP) 4) = Some f0 /\ calm (Bw, LP) 4 (Some 3%Z) used_q used_calls (filt_init DF2 (Bw, LP) 4) /\ filt_numStages f0 = 1%Z.
Proof.
  pose proof ex_c78 as X. destruct X as (M & R & V & B & _). split; [intros r th; discriminate|]. split; [exact M|]. split; [exact R|].
  split; [reflexivity|]. split; [exact V|]. split; [exact B|]. split; [repeat constructor|].
  destruct (c66_parts design_libm false used_q 1 4 DF2 M R eq_refl) as (f1 & bs & d & E & _ & _ & _ & SN & NS & _).
  - change (q_fc used_q) with (fnorm 1 (-2)). rewrite V. assert (/ 2 ^ 14 <= / 2 ^ 3) by (apply Rinv_le_contravar; [apply pow_lt; lra|apply Rle_pow; [lra|lia]]). lra.
  - lia.
  - lia.
  - change (q_fc used_q) with (fnorm 1 (-2)). rewrite V. unfold bw_scale_error in B |- *. replace (INR 3) with 3 in B by (simpl; ring). replace (INR 1) with 1 by reflexivity.
    assert (T : tan (PI * (1 / 4)) = 1) by (replace (PI * (1 / 4)) with (PI / 4) by field; apply tan_PI4).
    unfold bw_error in *. rewrite T, Rinv_1 in *. lra.
  - assert (L1 : length bs = 1%nat) by (assert (Q : length bs = length (bw_chain false (B2R (q_fc used_q : f64)) 1)) by (clear - SN; induction SN; cbn [length]; congruence); rewrite Q; reflexivity). rewrite L1 in NS.
    set (f2 := fst (filt_filter (fst (filt_filter (fst (filt_filter f1 (fofZ 1 : T (F64 design_libm)))) (fofZ 5 : T (F64 design_libm)))) (fofZ 0 : T (F64 design_libm)))).
    assert (K : filt_setupN (Bw, LP) 4 (Some 99%Z) used_q f2 = Throw E_order f2) by (destruct f2 as [[? ? ?] ?]; reflexivity).
    change (filt_setupN (N := F64 design_libm) (Bw, LP) 4 (Some 1%Z) used_q (filt_init DF2 (Bw, LP) 4) = Ok f1 tt) in E.
    exists f2. split; [|split].
    + unfold used_calls. cbn [steps step]. rewrite E. cbn [after]. fold f2. rewrite K. reflexivity.
    + unfold used_calls. cbn [calm step op_threw]. rewrite E. cbn [after threw]. fold f2. rewrite K. cbn [after threw]. split; [exact I|]. split; [exact I|]. split; [exact I|]. split; [exact I|].
      split; [discriminate|exact I].
    + assert (P : forall (f : filt (F64 design_libm)) x, filt_numStages (fst (filt_filter f x)) = filt_numStages f).
      { intros f x. unfold filt_filter. destruct (cs_filter (fl_cs f) x). reflexivity. }
      unfold f2. rewrite !P. exact NS.
Qed.

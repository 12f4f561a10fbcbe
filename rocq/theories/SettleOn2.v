(** Proofs: in binary64 response () tells what a filter that runs on without reset settles on. *)
From Coq Require Import ZArith List Bool Reals Lra Lia.
From Coquelicot Require Import Coquelicot.
From Flocq Require Import Core.Raux IEEE754.BinarySingleNaN.
From Verif Require Import Num Outcome Types Biquad State Cascade PoleFilter Float64 FloatSpec Stream
  SigSpec RoundSpec SigProofs StabProofs RespProofs DblSpec BwDblSpec BwDblFinal ChainSpec RespDblSpec RespOutSpec RespOut RespOut2 DblProofs RunOnSpec RunOnLemmas SettleSpec Settle SettleResp SettleOn.
Import ListNotations.
Local Open Scope R_scope.

Lemma c95_response m (bs : list (biquad (F64 m))) (l : list sect) mx (x : f64) c X e (A : C) eps : libm_design m -> libm_response m -> List.Forall tame_coeffs bs -> (length bs <= 32)%nat -> List.Forall2 sect_of bs l ->
  FloatSpec.is_fin x -> 0 <= B2R x <= 1 / 2 -> let ds := map stored bs in
  ok_from l c X -> 0 <= X -> 0 <= c -> 0 <= e -> 0 < eps -> resp_rel 0 (length bs) * i_cond ds (B2R x) <= / 4 ->
  exists h N, cas_response (N := F64 m) (MkCascade (Z.of_nat (length bs)) mx bs) x = Val h /\ cfin h /\
    forall (ss : list (st (F64 m))) (xs : list f64), length ss = length bs -> List.Forall (st_within c) ss -> follows A (B2R x) e X xs -> let ys := snd (cs_run (MkCStages bs ss) xs) : list f64 in
    length ys = length xs /\ settles N (c2c h * A)%C (B2R x) (error_from l c X e + eps + resp_error 0 ds (B2R x) * Cmod A) ys.
Proof.
  intros HM HR HT HL H2 Fx Hx ds OK HX Hc He Hp HC. pose proof (ok_gains _ _ _ OK) as Hg.
  assert (ST : List.Forall (fun d => stable_poly (i_a1 d) (i_a2 d)) ds). { unfold ds. rewrite (ids_stored bs l H2). unfold ids. rewrite List.Forall_map. eapply List.Forall_impl; [|exact Hg]. intros s H. exact (gain_stable _ _ _ H). }
  pose proof (den_pos ds (B2R x) ST) as DP.
  destruct (c77_stored m bs [] mx x HM HR HT HL Fx Hx DP HC) as (h & E & F & B). rewrite app_nil_r in E.
  destruct (c95_cascade l c X e (B2R x) A eps OK HX Hc He Hp) as [N HN]. exists h, N. split; [exact E|]. split; [exact F|]. intros ss xs Ls HW Hf ys.
  assert (FC : List.Forall fin_coeffs bs) by (eapply List.Forall_impl; [|exact HT]; intros b Hb; apply Hb).
  destruct (HN m bs ss xs FC H2 Ls HW Hf) as [L S]. split; [exact L|]. exact (settles_near _ _ _ _ _ _ _ _ S B).
Qed.
(** the section of C94_example with delay lines that hold 1 and -1 *)
Lemma ex_c95 : let b := @MkBiquad (F64 design_libm) (fofZ 1) (fnorm (-1) (-1)) (fnorm 1 (-2)) (fofZ 1) (fofZ 2) (fofZ 1) in let l := [Sect (-1 / 2) (1 / 4) 1 2 1 (64 / 9)] in
  List.Forall2 sect_of [b] l /\ ok_from l 1 1 /\ error_from l 1 1 0 <= 1 / 10 ^ 9 /\ st_within 1 (@S2 (F64 design_libm) (fofZ 1) (fofZ (-1))).
Proof.
  intros b l. pose proof ex_c77 as (_ & _ & _ & S & _). fold b in S. unfold stored in S. injection S as S1 S2 S3 S4 S5. pose proof ex_gain as GN.
  assert (B9 : 2 ^ 60 <= 2 ^ 900) by (apply Rle_pow; [lra|lia]). assert (GA : 0 < g_abs <= / 2 ^ 60). { unfold g_abs. split; [apply Rinv_0_lt_compat, pow_lt; lra|]. apply Rinv_le; [apply pow_lt; lra|apply Rle_pow; [lra|lia]]. }
  split; [|split; [|split]].
  - constructor; [|constructor]. unfold sect_of. cbn [s_a1 s_a2 s_b0 s_b1 s_b2]. repeat split; symmetry; assumption.
  - unfold l. cbn [ok_from]. unfold sect_ok_from, lvl, s_A, s_B. cbn [s_a1 s_a2 s_b0 s_b1 s_b2 s_G]. rewrite (Rabs_left (-1 / 2)), (Rabs_pos_eq (1 / 4)), (Rabs_pos_eq 2), Rabs_R1 by lra. set (P := 2 ^ 900) in *. clearbody P. split; [split; [exact GN|]|exact I]. lra.
  - unfold l. cbn [error_from]. unfold err_from, lvl, s_A, s_B. cbn [s_a1 s_a2 s_b0 s_b1 s_b2 s_G]. rewrite (Rabs_left (-1 / 2)), (Rabs_pos_eq (1 / 4)), (Rabs_pos_eq 2), Rabs_R1 by lra. unfold g_rel. set (ga := g_abs) in *. clearbody ga. lra.
  - cbn [st_within]. unfold within. destruct (fofZ_val 1 ltac:(lia)) as [V1 F1]. destruct (fofZ_val (-1) ltac:(lia)) as [V2 F2]. repeat split; try assumption; [rewrite V1, Rabs_R1|rewrite V2, (Rabs_left (-1))]; lra.
Qed.

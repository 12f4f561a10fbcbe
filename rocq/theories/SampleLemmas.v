(** Lemmas: integer and float samples. *)
From Coq Require Import ZArith List Bool Reals Lra Lia Psatz.
From Flocq Require Import Core.Raux Core.Defs Core.Generic_fmt Core.Round_NE Core.FLT Core.FIX IEEE754.BinarySingleNaN.
From Verif Require Import Num Outcome Biquad State Cascade RBJ Float64 Samples FloatSpec FloatProofs FloatLemmas.
Import ListNotations.

Lemma format64 (z e : Z) : (Z.abs z < 2 ^ 53)%Z -> (-1074 <= e)%Z ->
  generic_format Zaux.radix2 (SpecFloat.fexp 53 1024) (F2R (Float Zaux.radix2 z e)).
Proof.
  intros H He. change (SpecFloat.fexp 53 1024) with (FLT_exp (-1074) 53). apply generic_format_FLT. exists (Float Zaux.radix2 z e); [reflexivity|exact H|exact He].
Qed.
Lemma fnorm_exact (z e : Z) : (Z.abs z < 2 ^ 53)%Z -> (-1074 <= e <= 900)%Z ->
  B2R (fnorm z e) = F2R (Float Zaux.radix2 z e) /\ is_finite (fnorm z e) = true.
Proof.
  intros H He. unfold fnorm. pose proof (@binary_normalize_correct 53 1024 Hprec64 Hemax64 mode_NE z e false) as Q. cbv zeta in Q.
  rewrite round_generic in Q; [|apply valid_rnd_round_mode|apply format64; lia].
  rewrite Rlt_bool_true in Q; [destruct Q as (A & B & _); auto|].
  unfold F2R. cbn [Fnum Fexp]. rewrite Rabs_mult, <- abs_IZR, (Rabs_pos_eq (bpow _ e)) by apply bpow_ge_0.
  apply Rle_lt_trans with (bpow Zaux.radix2 53 * bpow Zaux.radix2 900)%R.
  - apply Rmult_le_compat; [apply IZR_le; lia|apply bpow_ge_0| |apply bpow_le; lia].
    change (bpow Zaux.radix2 53) with (IZR (2 ^ 53)). apply IZR_le. lia.
  - rewrite <- bpow_plus. apply bpow_lt. lia.
Qed.
Lemma fofZ_exact z : (Z.abs z < 2 ^ 53)%Z -> B2R (fofZ z) = IZR z /\ is_finite (fofZ z) = true.
Proof. intros H. destruct (fnorm_exact z 0 H ltac:(lia)) as [A B]. split; [|exact B]. unfold fofZ. rewrite A. unfold F2R. cbn. lra. Qed.
Lemma Btrunc_Ztrunc (y : f64) : Btrunc y = Ztrunc (B2R y).
Proof. apply eq_IZR. rewrite Btrunc_correct by reflexivity. rewrite round_FIX_IZR; reflexivity. Qed.

(** ** integers *)
Lemma to_integer_spec lo hi (y : f64) : (lo <= 0 <= hi)%Z ->
  match f_to_integer lo hi y with
  | Some z => is_finite y = true /\ (lo <= z <= hi)%Z /\ ((0 <= B2R y)%R -> (IZR z <= B2R y < IZR z + 1)%R) /\ ((B2R y <= 0)%R -> (IZR z - 1 < B2R y <= IZR z)%R)
  | None => is_finite y = false \/ (B2R y <= IZR lo - 1)%R \/ (IZR hi + 1 <= B2R y)%R
  end.
Proof.
  intros H. unfold f_to_integer. destruct (is_finite y); [|left; reflexivity]. rewrite Btrunc_Ztrunc. set (r := B2R y).
  assert (P : (0 <= r)%R -> (IZR (Ztrunc r) <= r < IZR (Ztrunc r) + 1)%R). { intros Hr. rewrite Ztrunc_floor by exact Hr. split; [apply Zfloor_lb|apply Zfloor_ub]. }
  assert (M : (r <= 0)%R -> (IZR (Ztrunc r) - 1 < r <= IZR (Ztrunc r))%R). { intros Hr. rewrite Ztrunc_ceil by exact Hr. split; [|apply Zceil_ub]. pose proof (Zceil_lb r). lra. }
  assert (S : (r < 0)%R -> (IZR (Ztrunc r) <= 0)%R). { intros Hr. rewrite Ztrunc_ceil by lra. apply IZR_le. apply Zceil_glb. simpl. lra. }
  assert (SP : (0 <= r)%R -> (0 <= IZR (Ztrunc r))%R). { intros Hr. rewrite Ztrunc_floor by lra. apply IZR_le. apply Zfloor_lub. simpl. lra. }
  destruct (Z.leb_spec lo (Ztrunc r)) as [A|A], (Z.leb_spec (Ztrunc r) hi) as [B|B]; cbn [andb].
  - repeat split; auto; apply P || apply M; assumption.
  - right. right. apply Zlt_le_succ, IZR_le in B. unfold Z.succ in B. rewrite plus_IZR in B. destruct (Rlt_dec r 0) as [Hr|Hr].
    + specialize (S Hr). assert (0 <= IZR hi)%R by (apply (IZR_le 0); lia). lra.
    + assert (P' := P ltac:(lra)). lra.
  - right. left. apply Zlt_le_succ, IZR_le in A. unfold Z.succ in A. rewrite plus_IZR in A. destruct (Rlt_dec r 0) as [Hr|Hr].
    + assert (M' := M ltac:(lra)). lra.
    + specialize (SP ltac:(lra)). assert (IZR lo <= 0)%R by (apply (IZR_le lo 0); lia). lra.
  - lia.
Qed.
Section M.
  Variable m : libm.
  Notation N := (F64 m).
  Lemma out_fits (y : T N) lo hi z : (lo <= 0 <= hi)%Z -> (lo <= z <= hi)%Z -> (Z.abs z < 2 ^ 53)%Z -> sim false y (fofZ z) -> f_to_integer lo hi y = Some z.
  Proof.
    intros HL Hz H S. destruct (fofZ_exact z H) as [A B]. pose proof (sim_B2R _ _ _ S) as E. pose proof (sim_fin _ _ _ S) as F. cbn in E. rewrite A in E. rewrite B in F.
    unfold f_to_integer. rewrite F, Btrunc_Ztrunc, E, Ztrunc_IZR. destruct (Z.leb_spec lo z), (Z.leb_spec z hi); try lia. reflexivity.
  Qed.
  Lemma c41_run lo hi (cs : list (biquad N)) : (-2 ^ 53 < lo <= 0)%Z -> (0 <= hi < 2 ^ 53)%Z -> Forall identity_coeffs cs -> forall xs us, Forall (st_fin m) us ->
    Forall (fun x => lo <= x <= hi)%Z xs -> exists c', run_as (cs_filter_as (smp_int m lo hi)) xs (MkCStages cs us) = Ok c' xs.
  Proof.
    intros HL HH HC. induction xs as [|x xs IH]; intros us HU HX; [eexists; reflexivity|]. inversion HX; subst.
    assert (Hx : (Z.abs x < 2 ^ 53)%Z) by lia. destruct (fofZ_exact x Hx) as [A B].
    destruct (cs_loop_id m cs HC us (fofZ x) HU B) as [U S]. cbn [run_as]. unfold bind, cs_filter_as, cs_filter. cbn [smp_in smp_out smp_int cs_stages cs_states].
    destruct (cs_loop cs us _) as [us' y]. cbn [fst snd] in *.
    rewrite (out_fits y lo hi x) by (auto; lia). destruct (IH us' U ltac:(assumption)) as [c' E].
    match goal with |- context [run_as ?f xs ?c] => change (run_as f xs c) with (run_as (cs_filter_as (smp_int m lo hi)) xs c) end.
    rewrite E. eexists. reflexivity.
  Qed.
  Lemma c41 lo hi (cs : list (biquad N)) t n xs : (-2 ^ 53 < lo <= 0)%Z -> (0 <= hi < 2 ^ 53)%Z -> Forall identity_coeffs cs ->
    Forall (fun x => lo <= x <= hi)%Z xs -> exists c', run_as (cs_filter_as (smp_int m lo hi)) xs (MkCStages cs (repeat (st_init t) n)) = Ok c' xs.
  Proof. intros. apply c41_run; auto. apply init_fin. Qed.
  Lemma c41_cast lo hi (c : cstages N) x : (lo <= 0 <= hi)%Z -> let y : f64 := snd (cs_filter c (fofZ x : T N)) in
    match cs_filter_as (smp_int m lo hi) x c with
    | Ok c' z => c' = fst (cs_filter c (fofZ x : T N)) /\ is_finite y = true /\ (lo <= z <= hi)%Z /\
        ((0 <= B2R y)%R -> (IZR z <= B2R y < IZR z + 1)%R) /\ ((B2R y <= 0)%R -> (IZR z - 1 < B2R y <= IZR z)%R)
    | Throw _ _ => False
    | UB => is_finite y = false \/ (B2R y <= IZR lo - 1)%R \/ (IZR hi + 1 <= B2R y)%R
    end.
  Proof.
    intros H y. unfold cs_filter_as. cbn [smp_in smp_out smp_int]. unfold y. destruct (cs_filter c (fofZ x : T N)) as [c' v]. cbn [fst snd].
    pose proof (to_integer_spec lo hi v H) as Q. destruct (f_to_integer lo hi v); [|exact Q]. split; [reflexivity|exact Q].
  Qed.

  (** ** float *)
  Lemma flt_max_val : B2R flt_max = (bpow Zaux.radix2 128 - bpow Zaux.radix2 104)%R /\ is_finite flt_max = true.
  Proof.
    destruct (fnorm_exact 16777215 104) as [A B]; [cbn; lia|lia|]. split; [|exact B]. unfold flt_max. rewrite A. unfold F2R. cbn [Fnum Fexp].
    replace (bpow Zaux.radix2 128) with (bpow Zaux.radix2 24 * bpow Zaux.radix2 104)%R by (rewrite <- bpow_plus; reflexivity).
    replace (bpow Zaux.radix2 24) with (IZR 16777216) by reflexivity. lra.
  Qed.
  Lemma of_float_exact (x : f32) : is_finite x = true -> B2R (f_of_float x) = B2R x /\ is_finite (f_of_float x) = true.
  Proof.
    destruct x as [s|s| |s mx ex H]; try discriminate; intros _; [auto|]. cbn [f_of_float].
    assert (P : (Zpos mx < 2 ^ 24)%Z).
    { unfold SpecFloat.bounded in H. apply andb_prop in H. destruct H as [H1 H2]. unfold SpecFloat.canonical_mantissa in H1. apply Zeq_bool_eq in H1.
      unfold SpecFloat.fexp, SpecFloat.emin in H1. rewrite Digits.Zpos_digits2_pos in H1. change (Zpos mx) with (Z.abs (Zpos mx)). change (2 ^ 24)%Z with (Z.pow (Zaux.radix_val Zaux.radix2) 24). apply (Digits.Zpower_gt_Zdigits Zaux.radix2 24 (Zpos mx)). lia. }
    assert (E : (-149 <= ex <= 104)%Z).
    { unfold SpecFloat.bounded in H. apply andb_prop in H. destruct H as [H1 H2]. unfold SpecFloat.canonical_mantissa in H1. apply Zeq_bool_eq in H1. apply Zle_bool_imp_le in H2.
      unfold SpecFloat.fexp, SpecFloat.emin in H1. lia. }
    assert (AB : (Z.abs (SpecFloat.cond_Zopp s (Zpos mx)) < 2 ^ 53)%Z) by (destruct s; cbn [SpecFloat.cond_Zopp]; lia).
    destruct (fnorm_exact (SpecFloat.cond_Zopp s (Zpos mx)) ex AB ltac:(lia)) as [A B]. split; [exact A|exact B].
  Qed.
  Lemma to_float_spec (y : f64) :
    match f_to_float y with
    | Some x => is_finite x = is_finite y /\ B2R x = round Zaux.radix2 (SpecFloat.fexp 24 128) ZnearestE (B2R y) /\ (is_finite y = false -> B2SF x = B2SF y)
    | None => is_finite y = true /\ (bpow Zaux.radix2 128 - bpow Zaux.radix2 104 < Rabs (B2R y))%R
    end.
  Proof.
    destruct y as [s|s| |s mx ex H]; cbn [f_to_float].
    1,2,3: cbn; repeat split; try discriminate; symmetry; apply round_0; apply valid_rnd_N.
    set (y := B754_finite s mx ex H : f64). assert (FY : is_finite y = true) by reflexivity. destruct flt_max_val as [V F].
    destruct (Bleb (Babs y) flt_max) eqn:L.
    - rewrite Bleb_correct in L by (auto; rewrite is_finite_Babs; exact FY). rewrite B2R_Babs, V in L. apply Rle_bool_true in L || (destruct (Rle_bool_spec (Rabs (B2R y)) (bpow Zaux.radix2 128 - bpow Zaux.radix2 104)) as [L'|]; [|discriminate]).
      pose proof (@binary_normalize_correct 24 128 Hprec32 Hemax32 mode_NE (SpecFloat.cond_Zopp s (Zpos mx)) ex s) as Q. cbv zeta in Q.
      change (F2R (Float Zaux.radix2 (SpecFloat.cond_Zopp s (Zpos mx)) ex)) with (B2R y) in Q.
      rewrite Rlt_bool_true in Q.
      + destruct Q as (A & B & _). repeat split; [exact B|exact A|]. rewrite FY. discriminate.
      + pose proof (fexp_correct 24 128 Hprec32) as VE.
        assert (G : generic_format Zaux.radix2 (SpecFloat.fexp 24 128) (bpow Zaux.radix2 128 - bpow Zaux.radix2 104)).
        { rewrite <- V. destruct (fnorm_exact 16777215 104) as [A _]; [cbn; lia|lia|]. unfold flt_max. rewrite A.
          change (SpecFloat.fexp 24 128) with (FLT_exp (-149) 24). apply generic_format_FLT. exists (Float Zaux.radix2 16777215 104); [reflexivity|cbn; lia|cbn; lia]. }
        assert (R1 : (Rabs (round Zaux.radix2 (SpecFloat.fexp 24 128) (round_mode mode_NE) (B2R y)) <= bpow Zaux.radix2 128 - bpow Zaux.radix2 104)%R).
        { apply abs_round_le_generic; auto. apply valid_rnd_round_mode. }
        pose proof (bpow_gt_0 Zaux.radix2 104). lra.
    - split; [exact FY|]. rewrite Bleb_correct in L by (auto; rewrite is_finite_Babs; exact FY). rewrite B2R_Babs, V in L.
      destruct (Rle_bool_spec (Rabs (B2R y)) (bpow Zaux.radix2 128 - bpow Zaux.radix2 104)) as [|L']; [discriminate|exact L'].
  Qed.
  Lemma float_fits (y : T N) (x : f32) : is_finite x = true -> sim false y (f_of_float x) -> exists x', f_to_float y = Some x' /\ Beqb x' x = true.
  Proof.
    intros Fx S. destruct (of_float_exact x Fx) as [A B]. pose proof (sim_B2R _ _ _ S) as E. pose proof (sim_fin _ _ _ S) as F. cbn in E. rewrite A in E. rewrite B in F.
    pose proof (to_float_spec y) as Q. destruct (f_to_float y) as [x'|].
    - exists x'. split; [reflexivity|]. destruct Q as (Q1 & Q2 & _). rewrite Beqb_correct by congruence. apply Req_bool_true. rewrite Q2, E.
      apply round_generic; [apply valid_rnd_N|]. apply generic_format_B2R.
    - exfalso. destruct Q as [_ Q]. rewrite E in Q. pose proof (abs_B2R_le_emax_minus_prec 24 128 Hprec32 x) as W. change (128 - 24)%Z with 104%Z in W. lra.
  Qed.
  Lemma c45_run (cs : list (biquad N)) : Forall identity_coeffs cs -> forall xs us, Forall (st_fin m) us -> Forall (fun x : f32 => is_finite x = true) xs ->
    exists c' ys, run_as (cs_filter_as (smp_float m)) xs (MkCStages cs us) = Ok c' ys /\ Forall2 (fun y x : f32 => Beqb y x = true) ys xs.
  Proof.
    intros HC. induction xs as [|x xs IH]; intros us HU HX; [eexists; eexists; split; [reflexivity|constructor]|]. inversion HX; subst.
    destruct (of_float_exact x ltac:(assumption)) as [A B].
    destruct (cs_loop_id m cs HC us (f_of_float x) HU B) as [U S]. cbn [run_as]. unfold bind, cs_filter_as, cs_filter. cbn [smp_in smp_out smp_float cs_stages cs_states].
    destruct (cs_loop cs us _) as [us' y]. cbn [fst snd] in *.
    destruct (float_fits y x ltac:(assumption) S) as (x' & E1 & E2). rewrite E1. destruct (IH us' U ltac:(assumption)) as (c' & ys & E & EQ).
    match goal with |- context [run_as ?f xs ?c] => change (run_as f xs c) with (run_as (cs_filter_as (smp_float m)) xs c) end.
    rewrite E. eexists. eexists. split; [reflexivity|]. constructor; assumption.
  Qed.
  Lemma c45 (cs : list (biquad N)) t n xs : Forall identity_coeffs cs -> Forall (fun x : f32 => is_finite x = true) xs ->
    exists c' ys, run_as (cs_filter_as (smp_float m)) xs (MkCStages cs (repeat (st_init t) n)) = Ok c' ys /\ Forall2 (fun y x : f32 => Beqb y x = true) ys xs.
  Proof. intros. apply c45_run; auto. apply init_fin. Qed.
  Lemma c45_cast (c : cstages N) x : let y : f64 := snd (cs_filter c (f_of_float x : T N)) in
    match cs_filter_as (smp_float m) x c with
    | Ok c' z => c' = fst (cs_filter c (f_of_float x : T N)) /\ is_finite z = is_finite y /\ B2R z = round Zaux.radix2 (SpecFloat.fexp 24 128) ZnearestE (B2R y) /\
                 (is_finite y = false -> B2SF z = B2SF y)
    | Throw _ _ => False
    | UB => is_finite y = true /\ (bpow Zaux.radix2 128 - bpow Zaux.radix2 104 < Rabs (B2R y))%R
    end.
  Proof.
    intros y. unfold cs_filter_as. cbn [smp_in smp_out smp_float]. unfold y. destruct (cs_filter c (f_of_float x : T N)) as [c' v]. cbn [fst snd].
    pose proof (to_float_spec v) as Q. destruct (f_to_float v); [|exact Q]. split; [reflexivity|exact Q].
  Qed.

  (** ** RBJ *)
  Lemma rbj_as (S : sample N) x (r : rbj N) : rbj_filter_as S x r =
    match cs_filter_as S x (MkCStages [r_bq r] [r_st r]) with
    | Ok c z => Ok (MkRbj (r_bq r) (hd (r_st r) (cs_states c))) z | Throw e c => Throw e r | UB => UB end.
  Proof.
    unfold rbj_filter_as, cs_filter_as, rbj_filter, cs_filter. cbn [cs_stages cs_states cs_loop]. destruct (st_filter _ _ _) as [s y]. cbn.
    destruct (smp_out S y); reflexivity.
  Qed.
  Lemma rbj_run_as (S : sample N) xs : forall (r : rbj N) c ys, run_as (cs_filter_as S) xs (MkCStages [r_bq r] [r_st r]) = Ok c ys ->
    exists r', run_as (rbj_filter_as S) xs r = Ok r' ys.
  Proof.
    induction xs as [|x xs IH]; intros r c ys H; [cbn in *; inversion H; subst; eexists; reflexivity|]. cbn [run_as] in *. unfold bind in *. rewrite rbj_as.
    unfold cs_filter_as at 1 in H. unfold cs_filter_as at 1. unfold cs_filter in *. cbn [cs_stages cs_states cs_loop] in *. destruct (st_filter (r_st r) (r_bq r) _) as [s y]. cbn [fst snd] in *.
    destruct (smp_out S y) as [z|]; [|discriminate]. cbn [hd cs_states].
    destruct (run_as (cs_filter_as S) xs _) as [c2 zs| |] eqn:E; try discriminate. cbn in H. inversion H; subst.
    destruct (IH (MkRbj (r_bq r) s) _ _ E) as [r' E']. rewrite E'. eexists. reflexivity.
  Qed.
  Lemma c41_rbj lo hi (r : rbj N) xs : (-2 ^ 53 < lo <= 0)%Z -> (0 <= hi < 2 ^ 53)%Z -> identity_coeffs (r_bq r) ->
    Forall (fun x => lo <= x <= hi)%Z xs -> exists r', run_as (rbj_filter_as (smp_int m lo hi)) xs (rbj_reset r) = Ok r' xs.
  Proof.
    intros A B C D. destruct (c41 lo hi [r_bq r] (st_topo (r_st r)) 1 xs A B ltac:(auto) D) as [c E]. eapply (rbj_run_as (smp_int m lo hi)). unfold rbj_reset at 1 2. cbn [r_bq r_st].
    replace (st_reset (r_st r)) with (st_init (N := N) (st_topo (r_st r))) by (destruct (r_st r); reflexivity). exact E.
  Qed.
  Lemma c45_rbj (r : rbj N) xs : identity_coeffs (r_bq r) -> Forall (fun x : f32 => is_finite x = true) xs ->
    exists r' ys, run_as (rbj_filter_as (smp_float m)) xs (rbj_reset r) = Ok r' ys /\ Forall2 (fun y x : f32 => Beqb y x = true) ys xs.
  Proof.
    intros C D. destruct (c45 [r_bq r] (st_topo (r_st r)) 1 xs ltac:(auto) D) as (c & ys & E & F).
    destruct (rbj_run_as (smp_float m) xs (rbj_reset r) c ys) as [r' E'].
    { unfold rbj_reset. cbn [r_bq r_st]. replace (st_reset (r_st r)) with (st_init (N := N) (st_topo (r_st r))) by (destruct (r_st r); reflexivity). exact E. }
    exists r', ys. auto.
  Qed.
  Lemma c41_cast_rbj lo hi (r : rbj N) x : (lo <= 0 <= hi)%Z -> let y : f64 := snd (rbj_filter r (fofZ x : T N)) in
    match rbj_filter_as (smp_int m lo hi) x r with
    | Ok r' z => r' = fst (rbj_filter r (fofZ x : T N)) /\ is_finite y = true /\ (lo <= z <= hi)%Z /\
        ((0 <= B2R y)%R -> (IZR z <= B2R y < IZR z + 1)%R) /\ ((B2R y <= 0)%R -> (IZR z - 1 < B2R y <= IZR z)%R)
    | Throw _ _ => False
    | UB => is_finite y = false \/ (B2R y <= IZR lo - 1)%R \/ (IZR hi + 1 <= B2R y)%R
    end.
  Proof.
    intros H y. unfold rbj_filter_as. cbn [smp_in smp_out smp_int]. unfold y. destruct (rbj_filter r (fofZ x : T N)) as [c' v]. cbn [fst snd].
    pose proof (to_integer_spec lo hi v H) as Q. destruct (f_to_integer lo hi v); [|exact Q]. split; [reflexivity|exact Q].
  Qed.
  Lemma c45_cast_rbj (r : rbj N) x : let y : f64 := snd (rbj_filter r (f_of_float x : T N)) in
    match rbj_filter_as (smp_float m) x r with
    | Ok r' z => r' = fst (rbj_filter r (f_of_float x : T N)) /\ is_finite z = is_finite y /\ B2R z = round Zaux.radix2 (SpecFloat.fexp 24 128) ZnearestE (B2R y) /\
                 (is_finite y = false -> B2SF z = B2SF y)
    | Throw _ _ => False
    | UB => is_finite y = true /\ (bpow Zaux.radix2 128 - bpow Zaux.radix2 104 < Rabs (B2R y))%R
    end.
  Proof.
    intros y. unfold rbj_filter_as. cbn [smp_in smp_out smp_float]. unfold y. destruct (rbj_filter r (f_of_float x : T N)) as [c' v]. cbn [fst snd].
    pose proof (to_float_spec v) as Q. destruct (f_to_float v); [|exact Q]. split; [reflexivity|exact Q].
  Qed.
End M.

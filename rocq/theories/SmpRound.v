(** Proofs: integer and float samples through a cascade in binary64, against the exact output. *)
From Coq Require Import ZArith List Bool Reals Lra Lia.
From Flocq Require Import Core.Core Relative IEEE754.BinarySingleNaN.
From Verif Require Import Num Outcome Types Biquad State Cascade RBJ History Float64 FloatSpec FloatProofs FloatLemmas Stream Samples SampleLemmas
  SigSpec SigProofs RoundSpec RoundProofs RoundRun RoundLemmas.
Import ListNotations.
Local Open Scope R_scope.

Section Any.
  Context {N : num}.
  (** every output can be converted *)
  Lemma run_as_ok (S : sample N) (R : T N -> smp S -> Prop) xs : forall c : cstages N,
    List.Forall (fun y => exists z, smp_out S y = Some z /\ R y z) (snd (cs_run c (map (smp_in S) xs))) ->
    exists zs, run_as (cs_filter_as S) xs c = Ok (fst (cs_run c (map (smp_in S) xs))) zs /\ List.Forall2 R (snd (cs_run c (map (smp_in S) xs))) zs.
  Proof.
    induction xs as [|x xs IH]; intros c H; [exists []; split; [reflexivity|constructor]|].
    cbn [map cs_run run_as] in *. unfold bind, cs_filter_as at 1. destruct (cs_filter c (smp_in S x)) as [c' y]. specialize (IH c'). destruct (cs_run c' (map (smp_in S) xs)) as [c2 ys]. cbn [fst snd] in *.
    inversion H as [|? ? (z & E & Rz) H']; subst. destruct (IH H') as (zs & E' & F). rewrite E, E'. exists (z :: zs). split; [reflexivity|constructor; assumption].
  Qed.
  (** one cannot *)
  Lemma run_as_ub (S : sample N) xs : forall c : cstages N, List.Exists (fun y => smp_out S y = None) (snd (cs_run c (map (smp_in S) xs))) -> run_as (cs_filter_as S) xs c = UB.
  Proof.
    induction xs as [|x xs IH]; intros c H; [inversion H|].
    cbn [map cs_run run_as] in *. unfold bind, cs_filter_as at 1. destruct (cs_filter c (smp_in S x)) as [c' y]. specialize (IH c'). destruct (cs_run c' (map (smp_in S) xs)) as [c2 ys]. cbn [fst snd] in *.
    destruct (smp_out S y) as [z|] eqn:E; [|reflexivity]. inversion H as [? ? K|? ? K]; subst; [congruence|]. rewrite (IH K). reflexivity.
  Qed.
End Any.

Lemma ints_in (xs : list Z) X : List.Forall (fun x => (Z.abs x < 2 ^ 53)%Z /\ Rabs (IZR x) <= X) xs ->
  List.Forall (fun x : f64 => FloatSpec.is_fin x /\ Rabs (B2R x) <= X) (map fofZ xs) /\ map B2R (map fofZ xs) = map IZR xs.
Proof.
  induction 1 as [|x xs [A B] _ [IH1 IH2]]; [split; [constructor|reflexivity]|]. destruct (fofZ_exact x A) as [V F]. cbn [map]. rewrite IH2, V. split; [|reflexivity].
  constructor; [|exact IH1]. rewrite V. split; [exact F|exact B].
Qed.
Lemma F2_join {A B C : Type} (P : A -> B -> Prop) (Q : A -> C -> Prop) (W : B -> C -> Prop) : (forall a b c, P a b -> Q a c -> W b c) -> forall ys bs, List.Forall2 P ys bs -> forall zs, List.Forall2 Q ys zs -> List.Forall2 W bs zs.
Proof. intros H ys bs F. induction F; intros zs G; inversion G; subst; constructor; eauto. Qed.
Lemma F2_left {A B : Type} (P : A -> B -> Prop) (Q : B -> Prop) (W : A -> Prop) : (forall a b, P a b -> Q b -> W a) -> forall ys zs, List.Forall2 P ys zs -> List.Forall Q zs -> List.Forall W ys.
Proof. intros H ys zs F. induction F; intros G; inversion G; subst; constructor; eauto. Qed.

Section Ints.
  Variables (m : libm) (lo hi : Z) (bs : list (biquad (F64 m))) (l : list sect) (t : topo) (xs : list Z) (X : R) (zs : list R).
  Hypotheses (Hf : List.Forall fin_coeffs bs) (H2 : List.Forall2 sect_of bs l) (Hok : sects_ok l X) (Hr : (lo <= 0 <= hi)%Z) (HX : 0 <= X).
  Hypotheses (Hxs : List.Forall (fun x => (Z.abs x < 2 ^ 53)%Z /\ Rabs (IZR x) <= X) xs) (Hz : exact_out l (map IZR xs) zs).
  Let c0 : cstages (F64 m) := MkCStages bs (repeat (st_init t) (length bs)).
  Let ys : list f64 := snd (cs_run c0 (map (smp_in (smp_int m lo hi)) xs)).
  Lemma ints_run : length ys = length xs /\ List.Forall (fun y => FloatSpec.is_fin y /\ Rabs (B2R y) <= last_bound l X) ys /\ List.Forall2 (fun y z => Rabs (B2R y - z) <= total_error l X 0) ys zs.
  Proof.
    destruct (ints_in xs X Hxs) as (A & B). rewrite <- B in Hz. destruct (@c54_cs m bs l t (map fofZ xs) X zs Hf H2 Hok HX A Hz) as (L & _ & O & E). rewrite map_length in L. split; [exact L|]. split; [exact O|exact E].
  Qed.
  Lemma ints_cast : List.Forall (fun y => IZR lo - 1 < B2R y < IZR hi + 1) ys ->
    exists c' vs, run_as (cs_filter_as (smp_int m lo hi)) xs c0 = Ok c' vs /\ List.Forall2 (fun v z => Rabs (IZR v - z) < 1 + total_error l X 0) vs zs.
  Proof.
    intros HR. destruct ints_run as (L & O & E).
    destruct (run_as_ok (smp_int m lo hi) (fun (y : f64) (v : Z) => Rabs (IZR v - B2R y) < 1) xs c0) as (vs & R & F).
    - fold ys. clear L E. clearbody ys. induction O as [|y ys0 [F _] O IH]; inversion HR; subst; constructor; [|apply IH; assumption].
      pose proof (to_integer_spec lo hi y Hr) as Q. cbn [smp_out smp_int]. destruct (f_to_integer lo hi y) as [v|]; [|exfalso; destruct Q as [Q|[Q|Q]]; [unfold FloatSpec.is_fin in F; congruence|lra|lra]].
      destruct Q as (_ & _ & Q1 & Q2). exists v. split; [reflexivity|]. destruct (Rle_dec 0 (B2R y)) as [K|K]; [specialize (Q1 K)|specialize (Q2 ltac:(lra))]; apply Rabs_lt; lra.
    - fold ys in F. exists (fst (cs_run c0 (map (smp_in (smp_int m lo hi)) xs))), vs. split; [exact R|].
      apply (F2_join (fun (y : f64) (v : Z) => Rabs (IZR v - B2R y) < 1) (fun y z => Rabs (B2R y - z) <= total_error l X 0) _) with (ys := ys); [|exact F|exact E].
      intros y v z A B. replace (IZR v - z) with ((IZR v - B2R y) + (B2R y - z)) by ring. eapply Rle_lt_trans; [apply Rabs_triang|]. lra.
  Qed.
  Lemma c92_integers : List.Forall (fun z => IZR lo - 1 + total_error l X 0 < z < IZR hi + 1 - total_error l X 0) zs ->
    exists c' vs, run_as (cs_filter_as (smp_int m lo hi)) xs c0 = Ok c' vs /\ List.Forall2 (fun v z => Rabs (IZR v - z) < 1 + total_error l X 0) vs zs.
  Proof.
    intros H. apply ints_cast. destruct ints_run as (_ & _ & E). eapply F2_left; [|exact E|exact H]. intros y z A B. cbn beta in A, B. apply Rabs_le_inv in A. lra.
  Qed.
  Lemma c92_never_clips : last_bound l X < IZR hi + 1 -> last_bound l X < 1 - IZR lo ->
    exists c' vs, run_as (cs_filter_as (smp_int m lo hi)) xs c0 = Ok c' vs /\ List.Forall2 (fun v z => Rabs (IZR v - z) < 1 + total_error l X 0) vs zs.
  Proof.
    intros A B. apply ints_cast. destruct ints_run as (_ & O & _). eapply List.Forall_impl; [|exact O]. intros y [_ Y]. apply Rabs_le_inv in Y. lra.
  Qed.
  Lemma c92_clips : List.Exists (fun z => z <= IZR lo - 1 - total_error l X 0 \/ IZR hi + 1 + total_error l X 0 <= z) zs -> run_as (cs_filter_as (smp_int m lo hi)) xs c0 = UB.
  Proof.
    intros H. apply run_as_ub. fold ys. destruct ints_run as (_ & _ & E). clear Hz. revert H. induction E as [|y z ys' zs' A E IH]; intros H; inversion H as [? ? K|? ? K]; subst; [|right; exact (IH K)].
    left. cbn [smp_out smp_int]. pose proof (to_integer_spec lo hi y Hr) as Q. destruct (f_to_integer lo hi y) as [v|]; [|reflexivity]. exfalso. destruct Q as (_ & [V1 V2] & Q1 & Q2).
    apply IZR_le in V1, V2. apply Rabs_le_inv in A. destruct Hr as [R1 R2]. apply IZR_le in R1, R2. destruct (Rle_dec 0 (B2R y)) as [P|P]; [specialize (Q1 P)|specialize (Q2 ltac:(lra))]; destruct K; lra.
  Qed.
End Ints.

Lemma round32 x : Rabs (round Zaux.radix2 (SpecFloat.fexp 24 128) ZnearestE x - x) <= / 2 ^ 24 * Rabs x + / 2 ^ 150.
Proof.
  change (SpecFloat.fexp 24 128) with (FLT_exp (-149) 24). destruct (error_N_FLT Zaux.radix2 (-149) 24 ltac:(lia) (fun x => negb (Z.even x)) x) as (eps & eta & A & B & _ & E).
  fold ZnearestE in E. rewrite E. replace (x * (1 + eps) + eta - x) with (eps * x + eta) by ring. eapply Rle_trans; [apply Rabs_triang|]. rewrite Rabs_mult. apply Rplus_le_compat.
  - apply Rmult_le_compat_r; [apply Rabs_pos|]. eapply Rle_trans; [exact A|]. unfold u_ro. cbn [bpow]. simpl. lra.
  - eapply Rle_trans; [exact B|]. right. replace (/ 2 ^ 150) with (/ 2 * / 2 ^ 149) by (rewrite <- Rinv_mult; f_equal; rewrite <- tech_pow_Rmult; ring). f_equal.
    change (bpow Zaux.radix2 (-149)) with (/ IZR (Z.pow_pos 2 149)). f_equal. rewrite (pow_IZR 2 149). f_equal.
Qed.
Lemma floats_in (xs : list f32) X : List.Forall (fun x => is_finite x = true /\ Rabs (B2R x) <= X) xs ->
  List.Forall (fun x : f64 => FloatSpec.is_fin x /\ Rabs (B2R x) <= X) (map f_of_float xs) /\ map B2R (map f_of_float xs) = map B2R xs.
Proof.
  induction 1 as [|x xs [A B] _ [IH1 IH2]]; [split; [constructor|reflexivity]|]. destruct (of_float_exact x A) as [V F]. cbn [map]. rewrite IH2, V. split; [|reflexivity].
  constructor; [|exact IH1]. rewrite V. split; [exact F|exact B].
Qed.
Lemma c92_floats m (bs : list (biquad (F64 m))) (l : list sect) t (xs : list f32) X zs : List.Forall fin_coeffs bs -> List.Forall2 sect_of bs l -> sects_ok l X -> 0 <= X ->
  List.Forall (fun x => is_finite x = true /\ Rabs (B2R x) <= X) xs -> exact_out l (map B2R xs) zs ->
  List.Forall (fun z => Rabs z <= 2 ^ 128 - 2 ^ 104 - total_error l X 0) zs ->
  exists c' vs, run_as (cs_filter_as (smp_float m)) xs (MkCStages bs (repeat (st_init t) (length bs))) = Ok c' vs /\
    List.Forall2 (fun (v : f32) z => is_finite v = true /\ Rabs (B2R v - z) <= total_error l X 0 + / 2 ^ 24 * (Rabs z + total_error l X 0) + / 2 ^ 150) vs zs.
Proof.
  intros Hf H2 Hok HX Hxs Hz HR. destruct (floats_in xs X Hxs) as (A & B). rewrite <- B in Hz. destruct (@c54_cs m bs l t (map f_of_float xs) X zs Hf H2 Hok HX A Hz) as (_ & _ & O & E).
  assert (BP : bpow Zaux.radix2 128 - bpow Zaux.radix2 104 = 2 ^ 128 - 2 ^ 104) by (rewrite !(pow_IZR 2); reflexivity).
  set (c0 := MkCStages bs (repeat (st_init t) (length bs))) in *.
  set (P := fun (y : f64) (v : f32) => is_finite v = true /\ Rabs (B2R v - B2R y) <= / 2 ^ 24 * Rabs (B2R y) + / 2 ^ 150).
  destruct (run_as_ok (smp_float m) P xs c0) as (vs & R & F).
  - change (map (smp_in (smp_float m)) xs) with (map f_of_float xs). set (ys := snd (cs_run c0 (map f_of_float xs))) in *. change (list (T (F64 m))) with (list f64) in ys. clearbody ys. clear - O E HR BP.
    revert HR O. induction E as [|y z ys zs A E IH]; intros HR O; [constructor|]. inversion HR as [|? ? Z1 Z2]; inversion O as [|? ? [F _] O2]; subst. constructor; [|apply IH; assumption].
    pose proof (to_float_spec y) as Q. cbn [smp_out smp_float]. destruct (f_to_float y) as [v|].
    + destruct Q as (Q1 & Q2 & _). exists v. split; [reflexivity|]. split; [rewrite Q1; exact F|]. rewrite Q2. apply round32.
    + exfalso. destruct Q as (_ & Q). rewrite BP in Q. replace (B2R y) with ((B2R y - z) + z) in Q by ring. pose proof (Rabs_triang (B2R y - z) z). lra.
  - change (map (smp_in (smp_float m)) xs) with (map f_of_float xs) in F, R. eexists _, vs. split; [exact R|].
    apply (F2_join P (fun y z => Rabs (B2R y - z) <= total_error l X 0) _) with (ys := snd (cs_run c0 (map f_of_float xs))); [|exact F|exact E].
    intros y v z (F1 & F2) Q. split; [exact F1|]. replace (B2R v - z) with ((B2R v - B2R y) + (B2R y - z)) by ring. eapply Rle_trans; [apply Rabs_triang|].
    assert (Rabs (B2R y) <= Rabs z + total_error l X 0). { replace (B2R y) with ((B2R y - z) + z) by ring. eapply Rle_trans; [apply Rabs_triang|]. lra. }
    assert (0 < / 2 ^ 24) by (apply Rinv_0_lt_compat, pow_lt; lra). assert (/ 2 ^ 24 * Rabs (B2R y) <= / 2 ^ 24 * (Rabs z + total_error l X 0)) by (apply Rmult_le_compat_l; lra). lra.
Qed.

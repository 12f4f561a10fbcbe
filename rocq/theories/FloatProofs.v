(** Proofs about binary64: equality up to the sign of zero is a congruence for filtering. *)
From Coq Require Import ZArith List Bool Reals Lra Lia.
From Flocq Require Import Core.Raux Core.Defs Core.Generic_fmt Core.Round_NE Core.FLT IEEE754.BinarySingleNaN.
From Verif Require Import Num Outcome Biquad State Cascade Float64 FloatSpec.
Import ListNotations.

Notation rnd64 := (round Zaux.radix2 (SpecFloat.fexp 53 1024) (round_mode mode_NE)).
#[global] Instance vexp64 : Valid_exp (SpecFloat.fexp 53 1024) := fexp_correct 53 1024 Hprec64.

(** negation if [s] *)
Definition flp (s : bool) (x : f64) : f64 := if s then Bopp x else x.
Definition Rflp (s : bool) (r : R) : R := if s then Ropp r else r.
(** equal, after negating the second one if [s], up to the signs of zeros *)
Definition sim (s : bool) (x y : f64) : Prop := x = flp s y \/ (is_zero x /\ is_zero y).

Lemma B2R_flp s x : B2R (flp s x) = Rflp s (B2R x).
Proof. destruct s; [apply B2R_Bopp|reflexivity]. Qed.
Lemma fin_flp s x : is_finite (flp s x) = is_finite x.
Proof. destruct s; [apply is_finite_Bopp|reflexivity]. Qed.
Lemma sign_flp s (x : f64) : BinarySingleNaN.is_nan x = false -> Bsign (flp s x) = xorb s (Bsign x).
Proof. destruct s; intros H; cbn [flp]; [rewrite Bsign_Bopp by exact H; reflexivity|]. destruct (Bsign x); reflexivity. Qed.
Lemma B2R_zero (x : f64) : is_finite x = true -> B2R x = 0%R -> is_zero x.
Proof.
  destruct x as [s| | |s mx ex H]; try discriminate; intros _ E; [exists s; reflexivity|]. cbn in E. apply Float_prop.eq_0_F2R in E. destruct s; discriminate.
Qed.
Lemma sim_real s (x y : f64) : is_finite x = true -> is_finite y = true -> B2R x = Rflp s (B2R y) -> sim s x y.
Proof.
  intros Fx Fy E. destruct (Req_EM_T (B2R x) 0) as [Z|NZ].
  - right. split; apply B2R_zero; auto. rewrite Z in E. destruct s; cbn in E; lra.
  - left. rewrite <- B2R_flp in E. apply B2R_inj; [| |exact E].
    + destruct x; try discriminate; [elim NZ|]; reflexivity.
    + rewrite E in NZ. rewrite <- (fin_flp s) in Fy. destruct (flp s y); try discriminate; [elim NZ|]; reflexivity.
Qed.
Lemma sim_inf s sg (x y : f64) : B2SF x = SpecFloat.S754_infinity (xorb s sg) -> B2SF y = SpecFloat.S754_infinity sg -> sim s x y.
Proof.
  intros A B. left. destruct x; try discriminate A. destruct y; try discriminate B. cbn in *. injection A as ->. injection B as ->.
  destruct s; cbn; [f_equal; destruct sg; reflexivity|destruct sg; reflexivity].
Qed.
Lemma rnd_flp s r : rnd64 (Rflp s r) = Rflp s (rnd64 r).
Proof. destruct s; [apply round_NE_opp|reflexivity]. Qed.
Lemma Rabs_flp s r : Rabs (Rflp s r) = Rabs r.
Proof. destruct s; [apply Rabs_Ropp|reflexivity]. Qed.
Lemma sim_B2R s x y : sim s x y -> B2R x = Rflp s (B2R y).
Proof.
  intros [->|[[a ->] [b ->]]]; [apply B2R_flp|]. destruct s; cbn; lra.
Qed.
Lemma sim_fin s x y : sim s x y -> is_finite x = is_finite y.
Proof. intros [->|[[a ->] [b ->]]]; [apply fin_flp|reflexivity]. Qed.
Lemma sim_refl x : sim false x x.
Proof. left. reflexivity. Qed.

Lemma sim_mul s c x y : sim s x y -> sim s (fmul c x) (fmul c y).
Proof.
  intros H. destruct (is_finite c) eqn:Fc, (is_finite y) eqn:Fy.
  - pose proof (sim_fin _ _ _ H) as Fx. rewrite Fy in Fx. pose proof (sim_B2R _ _ _ H) as E.
    destruct H as [->|[[a ->] [b ->]]].
    + pose proof (@Bmult_correct 53 1024 Hprec64 Hemax64 mode_NE c (flp s y)) as A. pose proof (@Bmult_correct 53 1024 Hprec64 Hemax64 mode_NE c y) as B.
      rewrite E in A. replace (B2R c * Rflp s (B2R y))%R with (Rflp s (B2R c * B2R y)) in A by (destruct s; cbn; ring).
      rewrite rnd_flp, Rabs_flp in A. unfold fmul. destruct (Rlt_bool _ _).
      * destruct A as (A1 & A2 & _), B as (B1 & B2 & _). rewrite Fc, Fx in A2. rewrite Fc, Fy in B2. apply sim_real; auto. rewrite A1, B1. reflexivity.
      * cbn [binary_overflow overflow_to_inf] in A, B. apply (sim_inf s (xorb (Bsign c) (Bsign y))); [|exact B].
        refine (eq_trans A _). unfold binary_overflow, overflow_to_inf. rewrite sign_flp by (destruct y; try discriminate Fy; reflexivity).
        f_equal. destruct s, (Bsign c), (Bsign y); reflexivity.
    + right. destruct c; try discriminate Fc; split; eexists; reflexivity.
  - destruct H as [->|[_ [b ->]]]; [|discriminate Fy]. left. destruct y; try discriminate Fy; destruct c, s; try discriminate Fc; cbn; try reflexivity;
    f_equal; match goal with |- xorb ?a (negb ?b) = negb (xorb ?a ?b) => destruct a, b; reflexivity end.
  - destruct H as [->|[[a ->] [b ->]]]; [|left; destruct c; try discriminate Fc; destruct s; reflexivity].
    left. destruct c; try discriminate Fc; destruct y, s; cbn; try reflexivity; f_equal; match goal with |- xorb ?a (negb ?b) = negb (xorb ?a ?b) => destruct a, b; reflexivity end.
  - destruct H as [->|[_ [b ->]]]; [|discriminate Fy]. left. destruct y; try discriminate Fy; destruct c, s; try discriminate Fc; cbn; try reflexivity;
    f_equal; match goal with |- xorb ?a (negb ?b) = negb (xorb ?a ?b) => destruct a, b; reflexivity end.
Qed.
Lemma sim_add s x y x' y' : sim s x y -> sim s x' y' -> sim s (fadd x x') (fadd y y').
Proof.
  intros H H'. destruct (is_finite y) eqn:Fy, (is_finite y') eqn:Fy'.
  - pose proof (sim_fin _ _ _ H) as Fx. rewrite Fy in Fx. pose proof (sim_B2R _ _ _ H) as E.
    pose proof (sim_fin _ _ _ H') as Fx'. rewrite Fy' in Fx'. pose proof (sim_B2R _ _ _ H') as E'.
    pose proof (@Bplus_correct 53 1024 Hprec64 Hemax64 mode_NE x x' Fx Fx') as A. pose proof (@Bplus_correct 53 1024 Hprec64 Hemax64 mode_NE y y' Fy Fy') as B.
    rewrite E, E' in A. replace (Rflp s (B2R y) + Rflp s (B2R y'))%R with (Rflp s (B2R y + B2R y')) in A by (destruct s; cbn; ring).
    rewrite rnd_flp, Rabs_flp in A. unfold fadd. destruct (Rlt_bool _ _) eqn:OV.
    + destruct A as (A1 & A2 & _), B as (B1 & B2 & _). apply sim_real; auto. rewrite A1, B1. reflexivity.
    + destruct A as (A & SA), B as (B & SB).
      assert (S : Bsign x = xorb s (Bsign y)).
      { destruct H as [->|[_ [b ->]]]; [apply sign_flp; destruct y; try discriminate Fy; reflexivity|].
        destruct H' as [->|[_ [b' ->]]].
        - rewrite sign_flp in SA by (destruct y'; try discriminate Fy'; reflexivity). rewrite SA. rewrite SB. reflexivity.
        - exfalso. cbn [B2R] in OV. rewrite Rplus_0_r, round_0, Rabs_R0 in OV by apply valid_rnd_round_mode. rewrite Rlt_bool_true in OV by apply bpow_gt_0. discriminate. }
      apply (sim_inf s (Bsign y)); [|exact B]. refine (eq_trans A _). unfold binary_overflow, overflow_to_inf. rewrite S. reflexivity.
  - destruct H' as [->|[_ [b ->]]]; [|discriminate Fy']. destruct H as [->|[[a ->] [b ->]]].
    + left. destruct y'; try discriminate Fy'; destruct y, s; try discriminate Fy; cbn; reflexivity.
    + left. destruct y'; try discriminate Fy'; destruct s; cbn; reflexivity.
  - destruct H as [->|[_ [b ->]]]; [|discriminate Fy]. destruct H' as [->|[[a ->] [b ->]]].
    + left. destruct y; try discriminate Fy; destruct y', s; try discriminate Fy'; cbn; reflexivity.
    + left. destruct y; try discriminate Fy; destruct s; cbn; reflexivity.
  - destruct H as [->|[_ [b ->]]]; [|discriminate Fy]. destruct H' as [->|[_ [b ->]]]; [|discriminate Fy'].
    left. destruct y as [|sy| |], y' as [|sy'| |]; try discriminate Fy; try discriminate Fy'; destruct s; try reflexivity; destruct sy, sy'; reflexivity.
Qed.
Lemma sub_add x y : fsub x y = fadd x (Bopp y).
Proof. unfold fsub, fadd. destruct x, y; reflexivity. Qed.
Lemma sim_opp s x y : sim s x y -> sim s (Bopp x) (Bopp y).
Proof. intros [->|[[a ->] [b ->]]]; [left; destruct s; reflexivity|right; split; eexists; reflexivity]. Qed.
Lemma sim_sub s x y x' y' : sim s x y -> sim s x' y' -> sim s (fsub x x') (fsub y y').
Proof. intros H H'. rewrite !sub_add. apply sim_add; [exact H|apply sim_opp, H']. Qed.

(** the specification's notion *)
Lemma Beqb_cases (x y : f64) : Beqb x y = true -> (x = y /\ x <> B754_nan) \/ (is_zero x /\ is_zero y).
Proof.
  intros H. destruct (is_finite x) eqn:Fx, (is_finite y) eqn:Fy.
  - rewrite Beqb_correct in H by assumption. destruct (Req_bool_spec (B2R x) (B2R y)) as [E|]; [|discriminate].
    destruct (sim_real false x y Fx Fy E) as [->|Z]; [left; split; [reflexivity|intros Q; cbn in Q; rewrite Q in Fy; discriminate]|right; exact Z].
  - destruct x as [|[]| |[]], y as [|[]| |[]]; discriminate.
  - destruct x as [|[]| |[]], y as [|[]| |[]]; discriminate.
  - destruct x as [|[]| |[]], y as [|[]| |[]]; try discriminate; left; (split; [reflexivity|discriminate]).
Qed.
Lemma Beqb_self (x : f64) : x <> B754_nan -> Beqb x x = true.
Proof. intros H. rewrite Beqb_refl. destruct x; try reflexivity. elim H; reflexivity. Qed.
Lemma f_same_sim x y : f_same x y <-> sim false x y.
Proof.
  split.
  - intros [H|[-> ->]]; [|left; reflexivity]. apply Beqb_cases in H. destruct H as [[-> _]|Z]; [left; reflexivity|right; exact Z].
  - intros [->|[[a ->] [b ->]]]; [|left; destruct a, b; reflexivity]. cbn [flp]. destruct (BinarySingleNaN.is_nan y) eqn:E.
    + right. destruct y; try discriminate. auto.
    + left. apply Beqb_self. intros ->. discriminate.
Qed.
Lemma f_same_opp x y : f_same x (Bopp y) <-> sim true x y.
Proof.
  rewrite f_same_sim. unfold sim. cbn [flp]. split; intros [H|[H [b Hb]]]; auto; right; split; auto.
  - destruct y; try discriminate Hb. eexists; reflexivity.
  - exists (negb b). rewrite Hb. reflexivity.
Qed.

Section M.
  Variable m : libm.
  Notation N := (F64 m).
  (** ** filtering respects it *)
  Inductive st_sim (s : bool) : st N -> st N -> Prop :=
  | sim1 x1 x2 y1 y2 x1' x2' y1' y2' : sim s x1 x1' -> sim s x2 x2' -> sim s y1 y1' -> sim s y2 y2' -> st_sim s (S1 (N := N) x1 x2 y1 y2) (S1 (N := N) x1' x2' y1' y2')
  | sim2 v1 v2 v1' v2' : sim s v1 v1' -> sim s v2 v2' -> st_sim s (S2 (N := N) v1 v2) (S2 (N := N) v1' v2')
  | sim3 a b c e a' b' c' e' : sim s a a' -> sim s b b' -> sim s c c' -> sim s e e' -> st_sim s (S3 (N := N) a b c e) (S3 (N := N) a' b' c' e').
  Lemma st_filter_sim s (b : biquad N) u v x y : st_sim s u v -> sim s x y ->
    st_sim s (fst (st_filter u b x)) (fst (st_filter v b y)) /\ sim s (snd (st_filter u b x)) (snd (st_filter v b y)).
  Proof.
    intros H Hx. destruct H; cbn [st_filter fst snd nadd nsub nmul F64]; split; try match goal with |- st_sim _ _ _ => constructor end; auto;
    repeat (apply sim_add || apply sim_sub || apply sim_mul || assumption).
  Qed.
  Lemma cs_loop_sim s (bs : list (biquad N)) : forall us vs x y, Forall2 (st_sim s) us vs -> sim s x y ->
    Forall2 (st_sim s) (fst (cs_loop bs us x)) (fst (cs_loop bs vs y)) /\ sim s (snd (cs_loop bs us x)) (snd (cs_loop bs vs y)).
  Proof.
    induction bs as [|b bs IH]; intros us vs x y H Hx; [destruct H; cbn; auto|]. destruct H as [|u v us vs Hu Hs]; [cbn; auto|].
    cbn [cs_loop]. destruct (st_filter_sim s b u v x y Hu Hx) as [A B]. destruct (st_filter u b x) as [u' x'], (st_filter v b y) as [v' y']. cbn [fst snd] in *.
    destruct (IH us vs x' y' Hs B) as [C D]. destruct (cs_loop bs us x'), (cs_loop bs vs y'). cbn [fst snd] in *. split; [constructor|]; assumption.
  Qed.
  Lemma cs_run_sim s (bs : list (biquad N)) : forall xs ys us vs, Forall2 (st_sim s) us vs -> Forall2 (sim s) xs ys ->
    Forall2 (sim s) (snd (cs_run (MkCStages bs us) xs)) (snd (cs_run (MkCStages bs vs) ys)).
  Proof.
    induction xs as [|x xs IH]; intros ys us vs H Hx; inversion Hx; subst; [constructor|]. cbn [cs_run]. unfold cs_filter. cbn [cs_stages cs_states].
    match goal with Q : sim s x ?y |- _ => destruct (cs_loop_sim s bs us vs x y H Q) as [A B]; destruct (cs_loop bs us x) as [us' x'], (cs_loop bs vs y) as [vs' y'] end.
    cbn [fst snd] in *. match goal with Q : Forall2 (sim s) xs ?l |- _ => specialize (IH l us' vs' A Q) end.
    destruct (cs_run (MkCStages bs us') xs), (cs_run (MkCStages bs vs') _). cbn [snd] in *. constructor; assumption.
  Qed.
  Lemma zero_sim s : sim s (fofZ 0) (fofZ 0).
  Proof. right. split; exists false; reflexivity. Qed.
  Lemma st_init_sim s t : st_sim s (st_init t) (st_init t).
  Proof. destruct t; constructor; apply zero_sim. Qed.
  Lemma repeat_sim s t n : Forall2 (st_sim s) (repeat (st_init t) n) (repeat (st_init t) n).
  Proof. induction n; constructor; auto. apply st_init_sim. Qed.

  (** ** NaN *)
  Definition poisoned (s : st N) : Prop :=
    match s with
    | S1 _ _ y1 _ => y1 = B754_nan
    | S2 v1 _ => v1 = B754_nan
    | S3 _ s1_1 _ _ => s1_1 = B754_nan
    end.
  Lemma mul_nan x : fmul x B754_nan = B754_nan.
  Proof. destruct x; reflexivity. Qed.
  Lemma add_nan_l x : fadd B754_nan x = B754_nan.
  Proof. destruct x; reflexivity. Qed.
  Lemma add_nan_r x : fadd x B754_nan = B754_nan.
  Proof. destruct x; reflexivity. Qed.
  Lemma sub_nan_l x : fsub B754_nan x = B754_nan.
  Proof. destruct x; reflexivity. Qed.
  Lemma sub_nan_r x : fsub x B754_nan = B754_nan.
  Proof. destruct x; reflexivity. Qed.
  Ltac nans := repeat (rewrite ?mul_nan, ?add_nan_l, ?add_nan_r, ?sub_nan_l, ?sub_nan_r).
  Lemma st_nan s (b : biquad N) : poisoned (fst (st_filter s b (B754_nan : T N))) /\ snd (st_filter s b (B754_nan : T N)) = B754_nan.
  Proof. destruct s; cbn [st_filter fst snd nadd nsub nmul F64 poisoned]; nans; auto. Qed.
  Lemma st_poisoned s (b : biquad N) x : poisoned s -> poisoned (fst (st_filter s b x)) /\ snd (st_filter s b x) = B754_nan.
  Proof. destruct s; cbn [st_filter fst snd nadd nsub nmul F64 poisoned]; intros ->; nans; auto. Qed.
  Lemma cs_loop_nan (bs : list (biquad N)) : forall us, snd (cs_loop bs us (B754_nan : T N)) = B754_nan.
  Proof.
    induction bs as [|b bs IH]; intros [|u us]; try reflexivity. cbn [cs_loop]. destruct (st_nan u b) as [_ B].
    destruct (st_filter u b _) as [u' y]. cbn [fst snd] in *. subst y. specialize (IH us). destruct (cs_loop bs us _). exact IH.
  Qed.
  Lemma run_poisoned b (bs : list (biquad N)) : forall xs u us, poisoned u ->
    snd (cs_run (MkCStages (b :: bs) (u :: us)) xs) = repeat (B754_nan : T N) (length xs).
  Proof.
    induction xs as [|x xs IH]; intros u us H; [reflexivity|]. cbn [cs_run length repeat]. unfold cs_filter. cbn [cs_stages cs_states cs_loop].
    destruct (st_poisoned u b x H) as [A B]. destruct (st_filter u b x) as [u' y]. cbn [fst snd] in *. subst y.
    pose proof (cs_loop_nan bs us) as C. destruct (cs_loop bs us _) as [us' z]. cbn [snd] in C. subst z.
    specialize (IH u' us' A). destruct (cs_run (N := N) _ xs). cbn [snd] in *. rewrite IH. reflexivity.
  Qed.
  Lemma run_nan (bs : list (biquad N)) us xs : bs <> [] -> us <> [] ->
    snd (cs_run (MkCStages bs us) ((B754_nan : T N) :: xs)) = repeat (B754_nan : T N) (S (length xs)).
  Proof.
    intros Hb Hu. destruct bs as [|b bs]; [elim Hb; reflexivity|]. destruct us as [|u us]; [elim Hu; reflexivity|]. cbn [cs_run length repeat]. unfold cs_filter. cbn [cs_stages cs_states cs_loop].
    destruct (st_nan u b) as [A B]. destruct (st_filter u b _) as [u' y]. cbn [fst snd] in *. subst y.
    pose proof (cs_loop_nan bs us) as C. destruct (cs_loop bs us _) as [us' z]. cbn [snd] in C. subst z.
    pose proof (run_poisoned b bs xs u' us' A) as D. destruct (cs_run (N := N) _ xs). cbn [snd] in *. rewrite D. reflexivity.
  Qed.

  (** ** silence *)
  Definition st_silent (s : st N) : Prop :=
    match s with
    | S1 x1 x2 y1 y2 => is_zero x1 /\ is_zero x2 /\ is_zero y1 /\ is_zero y2
    | S2 v1 v2 => is_zero v1 /\ is_zero v2
    | S3 a b c e => is_zero a /\ is_zero b /\ is_zero c /\ is_zero e
    end.
  Lemma zero_mul c x : is_fin c -> is_zero x -> is_zero (fmul c x).
  Proof. intros F [s ->]. unfold is_fin in F. destruct c; try discriminate; eexists; reflexivity. Qed.
  Lemma zero_add x y : is_zero x -> is_zero y -> is_zero (fadd x y).
  Proof. intros [s ->] [s' ->]. destruct s, s'; eexists; reflexivity. Qed.
  Lemma zero_sub x y : is_zero x -> is_zero y -> is_zero (fsub x y).
  Proof. intros [s ->] [s' ->]. destruct s, s'; eexists; reflexivity. Qed.
  Lemma st_filter_silent s (b : biquad N) x : fin_coeffs b -> st_silent s -> is_zero x -> st_silent (fst (st_filter s b x)) /\ is_zero (snd (st_filter s b x)).
  Proof.
    intros (A & B & C & D & E) H Hx. destruct s; cbn [st_filter fst snd nadd nsub nmul F64 st_silent] in *; repeat match goal with Q : _ /\ _ |- _ => destruct Q end;
    repeat split; auto; repeat (assumption || apply zero_add || apply zero_sub || (apply zero_mul; [assumption|])).
  Qed.
  Lemma cs_loop_silent (bs : list (biquad N)) : Forall fin_coeffs bs -> forall us x, Forall st_silent us -> is_zero x ->
    Forall st_silent (fst (cs_loop bs us x)) /\ is_zero (snd (cs_loop bs us x)).
  Proof.
    induction 1 as [|b bs Hb _ IH]; intros us x H Hx; [destruct us; cbn; auto|]. destruct H as [|u us Hu Hs]; [cbn; auto|].
    cbn [cs_loop]. destruct (st_filter_silent u b x Hb Hu Hx) as [A B]. destruct (st_filter u b x) as [u' y]. cbn [fst snd] in *.
    destruct (IH us y Hs B) as [C D]. destruct (cs_loop bs us y). cbn [fst snd] in *. auto.
  Qed.
  Lemma run_silent (bs : list (biquad N)) : Forall fin_coeffs bs -> forall xs us, Forall st_silent us -> Forall is_zero xs ->
    Forall is_zero (snd (cs_run (MkCStages bs us) xs)).
  Proof.
    intros Hb. induction xs as [|x xs IH]; intros us H Hx; [constructor|]. inversion Hx; subst. cbn [cs_run]. unfold cs_filter. cbn [cs_stages cs_states].
    match goal with Q : is_zero x |- _ => destruct (cs_loop_silent bs Hb us x H Q) as [A B] end. destruct (cs_loop bs us x) as [us' y]. cbn [fst snd] in *.
    specialize (IH us' A ltac:(assumption)). destruct (cs_run (N := N) _ xs). cbn [snd] in *. constructor; assumption.
  Qed.
  Lemma init_silent t n : Forall st_silent (repeat (st_init t) n).
  Proof. apply Forall_forall. intros u Hu. apply repeat_spec in Hu. subst u. destruct t; repeat split; exists false; reflexivity. Qed.

  (** ** identity stages *)
  Lemma mul_one c x : B2R c = 1%R -> is_fin x -> fmul c x = x.
  Proof.
    intros C F. assert (Fc : is_finite c = true) by (destruct c; try reflexivity; cbn in C; lra).
    assert (Sc : Bsign c = false). { destruct c as [| | |[]]; cbn in C; try lra; [|reflexivity]. exfalso.
      assert (Q : (F2R (beta := Zaux.radix2) {| Fnum := Z.neg m0; Fexp := e |} < 0)%R) by (apply Float_prop.F2R_lt_0; reflexivity). cbn in *. lra. }
    pose proof (@Bmult_correct 53 1024 Hprec64 Hemax64 mode_NE c x) as A. rewrite C, Rmult_1_l in A.
    rewrite round_generic in A by (auto with typeclass_instances; apply generic_format_B2R).
    rewrite Rlt_bool_true in A by apply abs_B2R_lt_emax. destruct A as (A1 & A2 & A3). rewrite Fc, F in A2. cbn in A2.
    apply B2R_Bsign_inj; auto. unfold fmul. rewrite A3 by (destruct (Bmult mode_NE c x); try discriminate A2; reflexivity). rewrite Sc. destruct (Bsign x); reflexivity.
  Qed.
  Lemma add_zero x y : is_fin x -> is_zero y -> sim false (fadd x y) x.
  Proof. intros F [s ->]. unfold is_fin in F. destruct x as [sx| | |]; try discriminate; [right; split; [destruct s, sx|]; eexists; reflexivity|left; reflexivity]. Qed.
  Lemma zero_add_l x y : is_fin x -> is_zero y -> sim false (fadd y x) x.
  Proof. intros F [s ->]. unfold is_fin in F. destruct x as [sx| | |]; try discriminate; [right; split; [destruct s, sx|]; eexists; reflexivity|left; reflexivity]. Qed.
  Lemma sub_zero x y : is_fin x -> is_zero y -> sim false (fsub x y) x.
  Proof. intros F [s ->]. unfold is_fin in F. destruct x as [sx| | |]; try discriminate; [right; split; [destruct s, sx|]; eexists; reflexivity|left; reflexivity]. Qed.
  Lemma mul_zero_l c x : is_zero c -> is_fin x -> is_zero (fmul c x).
  Proof. intros [s ->] F. unfold is_fin in F. destruct x; try discriminate; eexists; reflexivity. Qed.
  Lemma sim_trans x y z : sim false x y -> sim false y z -> sim false x z.
  Proof. intros [->|[A B]] [C|[D E]]; cbn in *; subst; [left; reflexivity|right; auto|right; auto|right; auto]. Qed.
  Definition st_fin (s : st N) : Prop :=
    match s with
    | S1 x1 x2 y1 y2 => is_fin x1 /\ is_fin x2 /\ is_fin y1 /\ is_fin y2
    | S2 v1 v2 => is_fin v1 /\ is_fin v2
    | S3 a b c e => is_zero a /\ is_zero b /\ is_zero c /\ is_zero e
    end.
  Lemma sim_is_fin x y : sim false x y -> is_fin y -> is_fin x.
  Proof. intros H F. unfold is_fin in *. rewrite (sim_fin _ _ _ H). exact F. Qed.
  (** chains of added and subtracted zeros *)
  Lemma plus0 w x y : sim false w x -> is_fin x -> is_zero y -> sim false (fadd w y) x.
  Proof. intros H F Z. eapply sim_trans; [|exact H]. apply add_zero; [apply (sim_is_fin _ _ H F)|exact Z]. Qed.
  Lemma minus0 w x y : sim false w x -> is_fin x -> is_zero y -> sim false (fsub w y) x.
  Proof. intros H F Z. eapply sim_trans; [|exact H]. apply sub_zero; [apply (sim_is_fin _ _ H F)|exact Z]. Qed.
  Lemma st_filter_id s (b : biquad N) x : identity_coeffs b -> st_fin s -> is_fin x -> st_fin (fst (st_filter s b x)) /\ sim false (snd (st_filter s b x)) x.
  Proof.
    intros (B0 & B1 & B2 & A1 & A2) H F. destruct s as [x1 x2 y1 y2|v1 v2|a b' c e]; cbn [st_filter fst snd nadd nsub nmul F64 st_fin] in *; repeat match goal with Q : _ /\ _ |- _ => destruct Q end.
    - assert (S : sim false (fsub (fsub (fadd (fadd (fmul (m_b0 b) x) (fmul (m_b1 b) x1)) (fmul (m_b2 b) x2)) (fmul (m_a1 b) y1)) (fmul (m_a2 b) y2)) x).
      { rewrite mul_one by assumption. repeat (apply minus0 || apply plus0); auto using sim_refl, mul_zero_l. }
      repeat split; auto. exact (sim_is_fin _ _ S F).
    - assert (S : sim false (fsub (fsub x (fmul (m_a1 b) v1)) (fmul (m_a2 b) v2)) x).
      { repeat (apply minus0 || apply plus0); auto using sim_refl, mul_zero_l. }
      pose proof (sim_is_fin _ _ S F) as FS. repeat split; auto. rewrite mul_one by assumption. repeat apply plus0; auto using mul_zero_l.
    - assert (S : sim false (fadd b' (fmul (m_b0 b) x)) x). { rewrite mul_one by assumption. apply zero_add_l; assumption. }
      pose proof (sim_is_fin _ _ S F) as FS.
      assert (Z1 : is_zero (fsub (fadd e (fmul (m_b1 b) x)) (fmul (m_a1 b) (fadd b' (fmul (m_b0 b) x))))) by auto using zero_sub, zero_add, mul_zero_l.
      assert (Z2 : is_zero (fsub (fmul (m_b2 b) x) (fmul (m_a2 b) (fadd b' (fmul (m_b0 b) x))))) by auto using zero_sub, mul_zero_l.
      repeat split; auto.
  Qed.
  Lemma cs_loop_id (bs : list (biquad N)) : Forall identity_coeffs bs -> forall us x, Forall st_fin us -> is_fin x ->
    Forall st_fin (fst (cs_loop bs us x)) /\ sim false (snd (cs_loop bs us x)) x.
  Proof.
    induction 1 as [|b bs Hb _ IH]; intros us x H Hx; [destruct us; cbn; auto using sim_refl|]. destruct H as [|u us Hu Hs]; [cbn; auto using sim_refl|].
    cbn [cs_loop]. destruct (st_filter_id u b x Hb Hu Hx) as [A B]. destruct (st_filter u b x) as [u' y]. cbn [fst snd] in *.
    destruct (IH us y Hs (sim_is_fin _ _ B Hx)) as [C D]. destruct (cs_loop bs us y). cbn [fst snd] in *. split; [constructor; assumption|eapply sim_trans; eassumption].
  Qed.
  Lemma cs_loop_app (bs cs : list (biquad N)) : forall us vs x, length us = length bs ->
    cs_loop (bs ++ cs) (us ++ vs) x = (fst (cs_loop bs us x) ++ fst (cs_loop cs vs (snd (cs_loop bs us x))), snd (cs_loop cs vs (snd (cs_loop bs us x)))).
  Proof.
    induction bs as [|b bs IH]; intros [|u us] vs x L; try discriminate L; [cbn; destruct (cs_loop cs vs x); reflexivity|].
    cbn [app cs_loop]. destruct (st_filter u b x) as [u' y]. rewrite IH by (cbn in L; lia). destruct (cs_loop bs us y) as [us' z]. cbn [fst snd app]. reflexivity.
  Qed.
  Lemma cs_loop_len (bs : list (biquad N)) : forall us x, length (fst (cs_loop bs us x)) = length us.
  Proof. induction bs as [|b bs IH]; intros [|u us] x; try reflexivity. cbn [cs_loop]. destruct (st_filter u b x) as [u' y]. specialize (IH us y). destruct (cs_loop bs us y). cbn in *. lia. Qed.
  Lemma run_id (bs cs : list (biquad N)) : Forall identity_coeffs cs -> forall xs us vs, length us = length bs -> Forall st_fin vs ->
    Forall is_fin (snd (cs_run (MkCStages bs us) xs)) ->
    Forall2 (sim false) (snd (cs_run (MkCStages (bs ++ cs) (us ++ vs)) xs)) (snd (cs_run (MkCStages bs us) xs)).
  Proof.
    intros Hc. induction xs as [|x xs IH]; intros us vs L V; [constructor|]. cbn [cs_run]. unfold cs_filter. cbn [cs_stages cs_states].
    rewrite cs_loop_app by exact L. pose proof (cs_loop_len bs us x) as L'. destruct (cs_loop bs us x) as [us' y]. cbn [fst snd] in *.
    intros F. destruct (cs_run (MkCStages bs us') xs) as [c1 ys] eqn:E. cbn [snd] in F. inversion F; subst.
    destruct (cs_loop_id cs Hc vs y V ltac:(assumption)) as [A B]. destruct (cs_loop cs vs y) as [vs' z]. cbn [fst snd] in *.
    specialize (IH us' vs'). rewrite E in IH. specialize (IH ltac:(lia) A ltac:(assumption)).
    destruct (cs_run (MkCStages (bs ++ cs) (us' ++ vs')) xs). cbn [snd] in *. constructor; assumption.
  Qed.
  Lemma init_fin t n : Forall st_fin (repeat (st_init t) n).
  Proof. apply Forall_forall. intros u Hu. apply repeat_spec in Hu. subst u. destruct t; repeat split; try reflexivity; exists false; reflexivity. Qed.
End M.

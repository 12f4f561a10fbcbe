(** The real numbers as an instance of [num] (total operations, used for the finite part of
    exact arithmetic), and its embedding into [X]. *)
From Coq Require Import ZArith List Bool Reals Lra.
From Verif Require Import Num Outcome Types Biquad State Cascade Exact.
Import ListNotations.
Local Open Scope R_scope.

(** Only +, -, *, unary minus and the literals are meant to be used with this instance: on these it
    agrees with [X] (lemmas below). *)
Definition RN : num := {|
  T := R;
  nadd := Rplus; nsub := Rminus; nmul := Rmult; ndiv := Rdiv; nopp := Ropp; nabs := Rabs;
  nsqrt := sqrt; nsin := sin; ncos := cos; ntan := tan; natan := atan;
  nexp := exp; nlog := ln; nsinh := sinh; ncosh := cosh; npow := Rpower;
  neqb := fun x y => if Req_EM_T x y then true else false;
  nltb := Rltb; nleb := Rleb;
  nofZ := IZR;
  nlit := fun p q => IZR p / IZR (Zpos q);
  npi := PI; npi_2 := PI / 2; nln2 := ln 2; nln10 := ln 10; ninf := 0;
  ncmul := fun c d => Cx (re c * re d - im c * im d) (re c * im d + im c * re d);
  ncdiv := fun c d => Cx ((re c * re d + im c * im d) / (re d * re d + im d * im d))
                         ((im c * re d - re c * im d) / (re d * re d + im d * im d));
  ncsqrt := fun c => c;
  ncabs := fun c => sqrt (re c * re c + im c * im c);
  npolar := fun r th => Some (Cx (r * cos th) (r * sin th))
|}.

Section Emb.
  Context {strict : bool}.
  Notation XS := (X strict).

  Definition emb_bq (b : biquad RN) : biquad XS :=
    @MkBiquad XS (XR (m_a0 b)) (XR (m_a1 b)) (XR (m_a2 b)) (XR (m_b0 b)) (XR (m_b1 b)) (XR (m_b2 b)).
  Definition emb_st (s : st RN) : st XS :=
    match s with
    | S1 x1 x2 y1 y2 => @S1 XS (XR x1) (XR x2) (XR y1) (XR y2)
    | S2 v1 v2 => @S2 XS (XR v1) (XR v2)
    | S3 a b c d => @S3 XS (XR a) (XR b) (XR c) (XR d)
    end.

  Lemma emb_init t : emb_st (st_init t) = st_init t.
  Proof. destruct t; reflexivity. Qed.
  Lemma emb_filter s b x :
    st_filter (emb_st s) (emb_bq b) (XR x : T XS) =
    (emb_st (fst (st_filter s b x)), XR (snd (st_filter s b x))).
  Proof. destruct s; reflexivity. Qed.

  Lemma emb_run b xs : forall s,
    bq_run (emb_bq b) (emb_st s) (map (fun r => XR r : T XS) xs) =
    (emb_st (fst (bq_run b s xs)), map XR (snd (bq_run b s xs))).
  Proof.
    induction xs as [|x xs IH]; intros s; simpl; auto.
    rewrite emb_filter. destruct (st_filter s b x) as [s' y]. simpl. rewrite IH.
    destruct (bq_run b s' xs). reflexivity.
  Qed.

  Lemma emb_loop bs : forall ss x,
    cs_loop (map emb_bq bs) (map emb_st ss) (XR x : T XS) =
    (map emb_st (fst (cs_loop bs ss x)), XR (snd (cs_loop bs ss x))).
  Proof.
    induction bs as [|b bs IH]; intros ss x; simpl; auto.
    destruct ss as [|s ss]; simpl; auto.
    rewrite emb_filter. destruct (st_filter s b x) as [s' y]. simpl. rewrite IH.
    destruct (cs_loop bs ss y). reflexivity.
  Qed.
  Lemma emb_cs_run bs xs : forall ss,
    cs_run (MkCStages (map emb_bq bs) (map emb_st ss)) (map (fun r => XR r : T XS) xs) =
    (MkCStages (map emb_bq bs) (map emb_st (cs_states (fst (cs_run (MkCStages bs ss) xs)))),
     map XR (snd (cs_run (MkCStages bs ss) xs))).
  Proof.
    induction xs as [|x xs IH]; intros ss; simpl; auto.
    unfold cs_filter. cbn [cs_stages cs_states].
    rewrite emb_loop. destruct (cs_loop bs ss x) as [s' y]. simpl. rewrite IH.
    destruct (cs_run (MkCStages bs s') xs). reflexivity.
  Qed.
End Emb.

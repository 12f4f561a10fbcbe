(** /repo/iir/RBJ.h, /repo/iir/RBJ.cpp *)
From Coq Require Import ZArith List Bool.
From Verif Require Import Num Outcome Types Biquad State.
Import ListNotations.

(** RBJ.h:89-357 *)
Inductive rkind : Type :=
| R_LowPass | R_HighPass | R_BandPass1 | R_BandPass2 | R_BandStop | R_IIRNotch
| R_LowShelf | R_HighShelf | R_BandShelf | R_AllPass.

Section RBJ.
  Context {N : num}.
  Notation C := (cpx (T N)).
  Local Open Scope num_scope.

  (** the six arguments of the setCoefficients call *)
  Record coefs : Type := MkCoefs {
    k_a0 : T N; k_a1 : T N; k_a2 : T N; k_b0 : T N; k_b1 : T N; k_b2 : T N }.
  Definition set_coefs (c : coefs) : M (biquad N) unit :=
    setCoefficients (k_a0 c) (k_a1 c) (k_a2 c) (k_b0 c) (k_b1 c) (k_b2 c).

  (** 2 * doublePi * frequency (first line of every setupN) *)
  Definition rbj_w0 (f : T N) : T N := #2 * npi N * f.

  (** RBJ.cpp:43-57 LowPass::setupN *)
  Definition rbj_lowpass (f q : T N) : coefs :=
    let w0 := rbj_w0 f in
    let cs := ncos N w0 in
    let sn := nsin N w0 in
    let AL := sn / (#2 * q) in
    MkCoefs (#1 + AL) (#(-2) * cs) (#1 - AL)
            ((#1 - cs) / #2) (#1 - cs) ((#1 - cs) / #2).

  (** RBJ.cpp:59-73 HighPass::setupN *)
  Definition rbj_highpass (f q : T N) : coefs :=
    let w0 := rbj_w0 f in
    let cs := ncos N w0 in
    let sn := nsin N w0 in
    let AL := sn / (#2 * q) in
    MkCoefs (#1 + AL) (#(-2) * cs) (#1 - AL)
            ((#1 + cs) / #2) (- (#1 + cs)) ((#1 + cs) / #2).

  (** RBJ.cpp:75-89 BandPass1::setupN *)
  Definition rbj_bandpass1 (f bandWidth : T N) : coefs :=
    let w0 := rbj_w0 f in
    let cs := ncos N w0 in
    let sn := nsin N w0 in
    let AL := sn / (#2 * bandWidth) in
    MkCoefs (#1 + AL) (#(-2) * cs) (#1 - AL)
            (bandWidth * AL) #0 ((- bandWidth) * AL).

  (** RBJ.cpp:91-105 BandPass2::setupN *)
  Definition rbj_bandpass2 (f bandWidth : T N) : coefs :=
    let w0 := rbj_w0 f in
    let cs := ncos N w0 in
    let sn := nsin N w0 in
    let AL := sn / (#2 * bandWidth) in
    MkCoefs (#1 + AL) (#(-2) * cs) (#1 - AL)
            AL #0 (- AL).

  (** RBJ.cpp:107-121 BandStop::setupN *)
  Definition rbj_bandstop (f bandWidth : T N) : coefs :=
    let w0 := rbj_w0 f in
    let cs := ncos N w0 in
    let sn := nsin N w0 in
    let AL := sn / (#2 * bandWidth) in
    MkCoefs (#1 + AL) (#(-2) * cs) (#1 - AL)
            #1 (#(-2) * cs) #1.

  (** RBJ.cpp:123-136 IIRNotch::setupN *)
  Definition rbj_iirnotch (f q_factor : T N) : coefs :=
    let w0 := rbj_w0 f in
    let cs := ncos N w0 in
    let r := nexp N ((- (w0 / #2)) / q_factor) in
    MkCoefs #1 (#(-2) * r * cs) (r * r)
            #1 (#(-2) * cs) #1.

  (** RBJ.cpp:138-155 LowShelf::setupN *)
  Definition rbj_lowshelf (f gainDb shelfSlope : T N) : coefs :=
    let A := npow N #10 (gainDb / #40) in
    let w0 := rbj_w0 f in
    let cs := ncos N w0 in
    let sn := nsin N w0 in
    let AL := sn / #2 * nsqrt N ((A + #1 / A) * (#1 / shelfSlope - #1) + #2) in
    let sq := #2 * nsqrt N A * AL in
    MkCoefs ((A + #1) + (A - #1) * cs + sq)
            (#(-2) * ((A - #1) + (A + #1) * cs))
            ((A + #1) + (A - #1) * cs - sq)
            (A * ((A + #1) - (A - #1) * cs + sq))
            (#2 * A * ((A - #1) - (A + #1) * cs))
            (A * ((A + #1) - (A - #1) * cs - sq)).

  (** RBJ.cpp:158-175 HighShelf::setupN *)
  Definition rbj_highshelf (f gainDb shelfSlope : T N) : coefs :=
    let A := npow N #10 (gainDb / #40) in
    let w0 := rbj_w0 f in
    let cs := ncos N w0 in
    let sn := nsin N w0 in
    let AL := sn / #2 * nsqrt N ((A + #1 / A) * (#1 / shelfSlope - #1) + #2) in
    let sq := #2 * nsqrt N A * AL in
    MkCoefs ((A + #1) - (A - #1) * cs + sq)
            (#2 * ((A - #1) - (A + #1) * cs))
            ((A + #1) - (A - #1) * cs - sq)
            (A * ((A + #1) + (A - #1) * cs + sq))
            (#(-2) * A * ((A - #1) + (A + #1) * cs))
            (A * ((A + #1) + (A - #1) * cs - sq)).

  (** RBJ.cpp:182-188: AL and the test of BandShelf::setupN *)
  Definition rbj_bandshelf_AL (f bandWidth : T N) : T N :=
    let w0 := rbj_w0 f in
    let sn := nsin N w0 in
    sn * nsinh N (nln2 N / #2 * bandWidth * w0 / sn).
  (** RBJ.cpp:189-194 *)
  Definition rbj_bandshelf (f gainDb bandWidth : T N) : coefs :=
    let A := npow N #10 (gainDb / #40) in
    let cs := ncos N (rbj_w0 f) in
    let AL := rbj_bandshelf_AL f bandWidth in
    MkCoefs (#1 + AL / A) (#(-2) * cs) (#1 - AL / A)
            (#1 + AL * A) (#(-2) * cs) (#1 - AL * A).

  (** RBJ.cpp:198-212 AllPass::setupN *)
  Definition rbj_allpass (f q : T N) : coefs :=
    let w0 := rbj_w0 f in
    let cs := ncos N w0 in
    let sn := nsin N w0 in
    let AL := sn / (#2 * q) in
    MkCoefs (#1 + AL) (#(-2) * cs) (#1 - AL)
            (#1 - AL) (#(-2) * cs) (#1 + AL).

  (** setupN of all ten classes.  [g] is gainDb (shelves only), [q] the last argument
      (q, bandWidth, q_factor or shelfSlope); [g] is ignored by the other classes.
      Default arguments: RBJDefaults.v. *)
  Definition rbj_coefs (k : rkind) (f g q : T N) : coefs :=
    match k with
    | R_LowPass => rbj_lowpass f q
    | R_HighPass => rbj_highpass f q
    | R_BandPass1 => rbj_bandpass1 f q
    | R_BandPass2 => rbj_bandpass2 f q
    | R_BandStop => rbj_bandstop f q
    | R_IIRNotch => rbj_iirnotch f q
    | R_LowShelf => rbj_lowshelf f g q
    | R_HighShelf => rbj_highshelf f g q
    | R_BandShelf => rbj_bandshelf f g q
    | R_AllPass => rbj_allpass f q
    end.
  Definition rbj_setupN (k : rkind) (f g q : T N) : M (biquad N) unit :=
    (match k with
     | R_BandShelf => throw_if (is_nan (rbj_bandshelf_AL f q)) E_no_solution
     | _ => ret tt
     end) ;;
    set_coefs (rbj_coefs k f g q).

  (** RBJ.h:105-109 LowPass::setup (sampleRate, f, ...) *)
  Definition rbj_LowPass_setup (sampleRate f q : T N) : M (biquad N) unit :=
    rbj_setupN R_LowPass (f / sampleRate) #0 q.

  (** RBJ.h:130-134 HighPass::setup (sampleRate, f, ...) *)
  Definition rbj_HighPass_setup (sampleRate f q : T N) : M (biquad N) unit :=
    rbj_setupN R_HighPass (f / sampleRate) #0 q.

  (** RBJ.h:155-159 BandPass1::setup (sampleRate, f, ...) *)
  Definition rbj_BandPass1_setup (sampleRate f bandWidth : T N) : M (biquad N) unit :=
    rbj_setupN R_BandPass1 (f / sampleRate) #0 bandWidth.

  (** RBJ.h:180-184 BandPass2::setup (sampleRate, f, ...) *)
  Definition rbj_BandPass2_setup (sampleRate f bandWidth : T N) : M (biquad N) unit :=
    rbj_setupN R_BandPass2 (f / sampleRate) #0 bandWidth.

  (** RBJ.h:206-210 BandStop::setup (sampleRate, f, ...) *)
  Definition rbj_BandStop_setup (sampleRate f bandWidth : T N) : M (biquad N) unit :=
    rbj_setupN R_BandStop (f / sampleRate) #0 bandWidth.

  (** RBJ.h:239-243 IIRNotch::setup (sampleRate, f, ...) *)
  Definition rbj_IIRNotch_setup (sampleRate f q_factor : T N) : M (biquad N) unit :=
    rbj_setupN R_IIRNotch (f / sampleRate) #0 q_factor.

  (** RBJ.h:267-272 LowShelf::setup (sampleRate, f, ...) *)
  Definition rbj_LowShelf_setup (sampleRate f gainDb shelfSlope : T N) : M (biquad N) unit :=
    rbj_setupN R_LowShelf (f / sampleRate) gainDb shelfSlope.

  (** RBJ.h:296-301 HighShelf::setup (sampleRate, f, ...) *)
  Definition rbj_HighShelf_setup (sampleRate f gainDb shelfSlope : T N) : M (biquad N) unit :=
    rbj_setupN R_HighShelf (f / sampleRate) gainDb shelfSlope.

  (** RBJ.h:325-330 BandShelf::setup (sampleRate, f, ...) *)
  Definition rbj_BandShelf_setup (sampleRate f gainDb bandWidth : T N) : M (biquad N) unit :=
    rbj_setupN R_BandShelf (f / sampleRate) gainDb bandWidth.

  (** RBJ.h:352-356 AllPass::setup (sampleRate, f, ...) *)
  Definition rbj_AllPass_setup (sampleRate f q : T N) : M (biquad N) unit :=
    rbj_setupN R_AllPass (f / sampleRate) #0 q.

  Definition rbj_setup (k : rkind) (sampleRate f g q : T N) : M (biquad N) unit :=
    match k with
    | R_LowPass => rbj_LowPass_setup sampleRate f q
    | R_HighPass => rbj_HighPass_setup sampleRate f q
    | R_BandPass1 => rbj_BandPass1_setup sampleRate f q
    | R_BandPass2 => rbj_BandPass2_setup sampleRate f q
    | R_BandStop => rbj_BandStop_setup sampleRate f q
    | R_IIRNotch => rbj_IIRNotch_setup sampleRate f q
    | R_LowShelf => rbj_LowShelf_setup sampleRate f g q
    | R_HighShelf => rbj_HighShelf_setup sampleRate f g q
    | R_BandShelf => rbj_BandShelf_setup sampleRate f g q
    | R_AllPass => rbj_AllPass_setup sampleRate f q
    end.

  (** RBJ.h:66-84 RBJbase: coefficients and a DirectFormI state *)
  Record rbj : Type := MkRbj { r_bq : biquad N; r_st : st N }.
  Definition rbj_init : rbj := MkRbj biquad0 (st_init DF1).
  Definition rbj_filter (r : rbj) (x : T N) : rbj * T N :=
    let '(s, y) := st_filter (r_st r) (r_bq r) x in (MkRbj (r_bq r) s, y).
  Definition rbj_reset (r : rbj) : rbj := MkRbj (r_bq r) (st_reset (r_st r)).
  Definition rbj_obj_setupN k f g q : M rbj unit :=
    zoom r_bq (fun b r => MkRbj b (r_st r)) (rbj_setupN k f g q).
  Fixpoint rbj_run (r : rbj) (xs : list (T N)) : rbj * list (T N) :=
    match xs with
    | [] => (r, [])
    | x :: xs' =>
        let '(r', y) := rbj_filter r x in
        let '(r'', ys) := rbj_run r' xs' in
        (r'', y :: ys)
    end.
End RBJ.
Arguments coefs : clear implicits.
Arguments rbj : clear implicits.

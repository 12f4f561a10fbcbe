(** The 21 Butterworth and Chebyshev classes, one by one: the XxxBase::setup functions and the
    four public overloads of each filter template.  ClassesProofs.v shows that each of them is
    an instance of [setup] / [setupN] of PoleFilter.v. *)
From Coq Require Import ZArith List Bool.
From Verif Require Import Num Outcome Types Biquad State Cascade Transforms Butterworth Chebyshev
  PoleFilter.
Import ListNotations.

Section Classes.
  Context {N : num}.
  Local Open Scope num_scope.

  (** ** Butterworth *)
  (** Butterworth.cpp:107-117 *)
  Definition bw_LowPassBase_setup (order : Z) (cutoffFrequency : T N) : M (pf N) unit :=
    on_ana (bw_lp_design order) ;;
    do f <- get;
    on_dig (LowPassTransform cutoffFrequency (p_lay (pf_ana f))) ;;
    do f <- get;
    on_cas (setLayout (pf_dig f)).

  (** Butterworth.cpp:119-129 *)
  Definition bw_HighPassBase_setup (order : Z) (cutoffFrequency : T N) : M (pf N) unit :=
    on_ana (bw_lp_design order) ;;
    do f <- get;
    on_dig (HighPassTransform cutoffFrequency (p_lay (pf_ana f))) ;;
    do f <- get;
    on_cas (setLayout (pf_dig f)).

  (** Butterworth.cpp:131-143 *)
  Definition bw_BandPassBase_setup (order : Z) (centerFrequency : T N) (widthFrequency : T N) : M (pf N) unit :=
    on_ana (bw_lp_design order) ;;
    do f <- get;
    on_dig (BandPassTransform centerFrequency widthFrequency (p_lay (pf_ana f))) ;;
    do f <- get;
    on_cas (setLayout (pf_dig f)).

  (** Butterworth.cpp:145-157 *)
  Definition bw_BandStopBase_setup (order : Z) (centerFrequency : T N) (widthFrequency : T N) : M (pf N) unit :=
    on_ana (bw_lp_design order) ;;
    do f <- get;
    on_dig (BandStopTransform centerFrequency widthFrequency (p_lay (pf_ana f))) ;;
    do f <- get;
    on_cas (setLayout (pf_dig f)).

  (** Butterworth.cpp:159-170 *)
  Definition bw_LowShelfBase_setup (order : Z) (cutoffFrequency : T N) (gainDb : T N) : M (pf N) unit :=
    on_ana (bw_ls_design order gainDb) ;;
    do f <- get;
    on_dig (LowPassTransform cutoffFrequency (p_lay (pf_ana f))) ;;
    do f <- get;
    on_cas (setLayout (pf_dig f)).

  (** Butterworth.cpp:172-183 *)
  Definition bw_HighShelfBase_setup (order : Z) (cutoffFrequency : T N) (gainDb : T N) : M (pf N) unit :=
    on_ana (bw_ls_design order gainDb) ;;
    do f <- get;
    on_dig (HighPassTransform cutoffFrequency (p_lay (pf_ana f))) ;;
    do f <- get;
    on_cas (setLayout (pf_dig f)).

  (** Butterworth.cpp:185-201 *)
  Definition bw_BandShelfBase_setup (order : Z) (centerFrequency : T N) (widthFrequency : T N) (gainDb : T N) : M (pf N) unit :=
    on_ana (bw_ls_design order gainDb) ;;
    do f <- get;
    on_dig (BandPassTransform centerFrequency widthFrequency (p_lay (pf_ana f))) ;;
    on_dig (modify (lay_setNormal (if nltb N centerFrequency (nlit N 1 4) then npi N else #0) #1)) ;;
    do f <- get;
    on_cas (setLayout (pf_dig f)).

  (** Butterworth.h:154-158 *)
  Definition bw_LowPass_setup (FilterOrder : Z) (sampleRate : T N) (cutoffFrequency : T N) : M (pf N) unit :=
    bw_LowPassBase_setup FilterOrder (cutoffFrequency / sampleRate).

  (** Butterworth.h:166-172 *)
  Definition bw_LowPass_setup_order (FilterOrder : Z) (reqOrder : Z) (sampleRate : T N) (cutoffFrequency : T N) : M (pf N) unit :=
    throw_if (FilterOrder <? reqOrder)%Z E_order ;;
    bw_LowPassBase_setup reqOrder (cutoffFrequency / sampleRate).

  (** Butterworth.h:179-182 *)
  Definition bw_LowPass_setupN (FilterOrder : Z) (cutoffFrequency : T N) : M (pf N) unit :=
    bw_LowPassBase_setup FilterOrder cutoffFrequency.

  (** Butterworth.h:189-194 *)
  Definition bw_LowPass_setupN_order (FilterOrder : Z) (reqOrder : Z) (cutoffFrequency : T N) : M (pf N) unit :=
    throw_if (FilterOrder <? reqOrder)%Z E_order ;;
    bw_LowPassBase_setup reqOrder cutoffFrequency.

  (** Butterworth.h:211-215 *)
  Definition bw_HighPass_setup (FilterOrder : Z) (sampleRate : T N) (cutoffFrequency : T N) : M (pf N) unit :=
    bw_HighPassBase_setup FilterOrder (cutoffFrequency / sampleRate).

  (** Butterworth.h:222-228 *)
  Definition bw_HighPass_setup_order (FilterOrder : Z) (reqOrder : Z) (sampleRate : T N) (cutoffFrequency : T N) : M (pf N) unit :=
    throw_if (FilterOrder <? reqOrder)%Z E_order ;;
    bw_HighPassBase_setup reqOrder (cutoffFrequency / sampleRate).

  (** Butterworth.h:235-238 *)
  Definition bw_HighPass_setupN (FilterOrder : Z) (cutoffFrequency : T N) : M (pf N) unit :=
    bw_HighPassBase_setup FilterOrder cutoffFrequency.

  (** Butterworth.h:244-249 *)
  Definition bw_HighPass_setupN_order (FilterOrder : Z) (reqOrder : Z) (cutoffFrequency : T N) : M (pf N) unit :=
    throw_if (FilterOrder <? reqOrder)%Z E_order ;;
    bw_HighPassBase_setup reqOrder cutoffFrequency.

  (** Butterworth.h:266-272 *)
  Definition bw_BandPass_setup (FilterOrder : Z) (sampleRate : T N) (centerFrequency : T N) (widthFrequency : T N) : M (pf N) unit :=
    bw_BandPassBase_setup FilterOrder (centerFrequency / sampleRate) (widthFrequency / sampleRate).

  (** Butterworth.h:281-289 *)
  Definition bw_BandPass_setup_order (FilterOrder : Z) (reqOrder : Z) (sampleRate : T N) (centerFrequency : T N) (widthFrequency : T N) : M (pf N) unit :=
    throw_if (FilterOrder <? reqOrder)%Z E_order ;;
    bw_BandPassBase_setup reqOrder (centerFrequency / sampleRate) (widthFrequency / sampleRate).

  (** Butterworth.h:298-303 *)
  Definition bw_BandPass_setupN (FilterOrder : Z) (centerFrequency : T N) (widthFrequency : T N) : M (pf N) unit :=
    bw_BandPassBase_setup FilterOrder centerFrequency widthFrequency.

  (** Butterworth.h:311-318 *)
  Definition bw_BandPass_setupN_order (FilterOrder : Z) (reqOrder : Z) (centerFrequency : T N) (widthFrequency : T N) : M (pf N) unit :=
    throw_if (FilterOrder <? reqOrder)%Z E_order ;;
    bw_BandPassBase_setup reqOrder centerFrequency widthFrequency.

  (** Butterworth.h:336-342 *)
  Definition bw_BandStop_setup (FilterOrder : Z) (sampleRate : T N) (centerFrequency : T N) (widthFrequency : T N) : M (pf N) unit :=
    bw_BandStopBase_setup FilterOrder (centerFrequency / sampleRate) (widthFrequency / sampleRate).

  (** Butterworth.h:351-359 *)
  Definition bw_BandStop_setup_order (FilterOrder : Z) (reqOrder : Z) (sampleRate : T N) (centerFrequency : T N) (widthFrequency : T N) : M (pf N) unit :=
    throw_if (FilterOrder <? reqOrder)%Z E_order ;;
    bw_BandStopBase_setup reqOrder (centerFrequency / sampleRate) (widthFrequency / sampleRate).

  (** Butterworth.h:368-373 *)
  Definition bw_BandStop_setupN (FilterOrder : Z) (centerFrequency : T N) (widthFrequency : T N) : M (pf N) unit :=
    bw_BandStopBase_setup FilterOrder centerFrequency widthFrequency.

  (** Butterworth.h:381-388 *)
  Definition bw_BandStop_setupN_order (FilterOrder : Z) (reqOrder : Z) (centerFrequency : T N) (widthFrequency : T N) : M (pf N) unit :=
    throw_if (FilterOrder <? reqOrder)%Z E_order ;;
    bw_BandStopBase_setup reqOrder centerFrequency widthFrequency.

  (** Butterworth.h:407-413 *)
  Definition bw_LowShelf_setup (FilterOrder : Z) (sampleRate : T N) (cutoffFrequency : T N) (gainDb : T N) : M (pf N) unit :=
    bw_LowShelfBase_setup FilterOrder (cutoffFrequency / sampleRate) gainDb.

  (** Butterworth.h:422-430 *)
  Definition bw_LowShelf_setup_order (FilterOrder : Z) (reqOrder : Z) (sampleRate : T N) (cutoffFrequency : T N) (gainDb : T N) : M (pf N) unit :=
    throw_if (FilterOrder <? reqOrder)%Z E_order ;;
    bw_LowShelfBase_setup reqOrder (cutoffFrequency / sampleRate) gainDb.

  (** Butterworth.h:440-445 *)
  Definition bw_LowShelf_setupN (FilterOrder : Z) (cutoffFrequency : T N) (gainDb : T N) : M (pf N) unit :=
    bw_LowShelfBase_setup FilterOrder cutoffFrequency gainDb.

  (** Butterworth.h:453-460 *)
  Definition bw_LowShelf_setupN_order (FilterOrder : Z) (reqOrder : Z) (cutoffFrequency : T N) (gainDb : T N) : M (pf N) unit :=
    throw_if (FilterOrder <? reqOrder)%Z E_order ;;
    bw_LowShelfBase_setup reqOrder cutoffFrequency gainDb.

  (** Butterworth.h:480-486 *)
  Definition bw_HighShelf_setup (FilterOrder : Z) (sampleRate : T N) (cutoffFrequency : T N) (gainDb : T N) : M (pf N) unit :=
    bw_HighShelfBase_setup FilterOrder (cutoffFrequency / sampleRate) gainDb.

  (** Butterworth.h:495-503 *)
  Definition bw_HighShelf_setup_order (FilterOrder : Z) (reqOrder : Z) (sampleRate : T N) (cutoffFrequency : T N) (gainDb : T N) : M (pf N) unit :=
    throw_if (FilterOrder <? reqOrder)%Z E_order ;;
    bw_HighShelfBase_setup reqOrder (cutoffFrequency / sampleRate) gainDb.

  (** Butterworth.h:512-517 *)
  Definition bw_HighShelf_setupN (FilterOrder : Z) (cutoffFrequency : T N) (gainDb : T N) : M (pf N) unit :=
    bw_HighShelfBase_setup FilterOrder cutoffFrequency gainDb.

  (** Butterworth.h:525-532 *)
  Definition bw_HighShelf_setupN_order (FilterOrder : Z) (reqOrder : Z) (cutoffFrequency : T N) (gainDb : T N) : M (pf N) unit :=
    throw_if (FilterOrder <? reqOrder)%Z E_order ;;
    bw_HighShelfBase_setup reqOrder cutoffFrequency gainDb.

  (** Butterworth.h:552-560 *)
  Definition bw_BandShelf_setup (FilterOrder : Z) (sampleRate : T N) (centerFrequency : T N) (widthFrequency : T N) (gainDb : T N) : M (pf N) unit :=
    bw_BandShelfBase_setup FilterOrder (centerFrequency / sampleRate) (widthFrequency / sampleRate) gainDb.

  (** Butterworth.h:570-580 *)
  Definition bw_BandShelf_setup_order (FilterOrder : Z) (reqOrder : Z) (sampleRate : T N) (centerFrequency : T N) (widthFrequency : T N) (gainDb : T N) : M (pf N) unit :=
    throw_if (FilterOrder <? reqOrder)%Z E_order ;;
    bw_BandShelfBase_setup reqOrder (centerFrequency / sampleRate) (widthFrequency / sampleRate) gainDb.

  (** Butterworth.h:590-597 *)
  Definition bw_BandShelf_setupN (FilterOrder : Z) (centerFrequency : T N) (widthFrequency : T N) (gainDb : T N) : M (pf N) unit :=
    bw_BandShelfBase_setup FilterOrder centerFrequency widthFrequency gainDb.

  (** Butterworth.h:606-615 *)
  Definition bw_BandShelf_setupN_order (FilterOrder : Z) (reqOrder : Z) (centerFrequency : T N) (widthFrequency : T N) (gainDb : T N) : M (pf N) unit :=
    throw_if (FilterOrder <? reqOrder)%Z E_order ;;
    bw_BandShelfBase_setup reqOrder centerFrequency widthFrequency gainDb.

  (** ** ChebyshevI *)
  (** ChebyshevI.cpp:159-170 *)
  Definition c1_LowPassBase_setup (order : Z) (cutoffFrequency : T N) (rippleDb : T N) : M (pf N) unit :=
    on_ana (c1_lp_design order rippleDb) ;;
    do f <- get;
    on_dig (LowPassTransform cutoffFrequency (p_lay (pf_ana f))) ;;
    do f <- get;
    on_cas (setLayout (pf_dig f)).

  (** ChebyshevI.cpp:172-183 *)
  Definition c1_HighPassBase_setup (order : Z) (cutoffFrequency : T N) (rippleDb : T N) : M (pf N) unit :=
    on_ana (c1_lp_design order rippleDb) ;;
    do f <- get;
    on_dig (HighPassTransform cutoffFrequency (p_lay (pf_ana f))) ;;
    do f <- get;
    on_cas (setLayout (pf_dig f)).

  (** ChebyshevI.cpp:185-198 *)
  Definition c1_BandPassBase_setup (order : Z) (centerFrequency : T N) (widthFrequency : T N) (rippleDb : T N) : M (pf N) unit :=
    on_ana (c1_lp_design order rippleDb) ;;
    do f <- get;
    on_dig (BandPassTransform centerFrequency widthFrequency (p_lay (pf_ana f))) ;;
    do f <- get;
    on_cas (setLayout (pf_dig f)).

  (** ChebyshevI.cpp:200-213 *)
  Definition c1_BandStopBase_setup (order : Z) (centerFrequency : T N) (widthFrequency : T N) (rippleDb : T N) : M (pf N) unit :=
    on_ana (c1_lp_design order rippleDb) ;;
    do f <- get;
    on_dig (BandStopTransform centerFrequency widthFrequency (p_lay (pf_ana f))) ;;
    do f <- get;
    on_cas (setLayout (pf_dig f)).

  (** ChebyshevI.cpp:215-227 *)
  Definition c1_LowShelfBase_setup (order : Z) (cutoffFrequency : T N) (gainDb : T N) (rippleDb : T N) : M (pf N) unit :=
    on_ana (c1_ls_design order gainDb rippleDb) ;;
    do f <- get;
    on_dig (LowPassTransform cutoffFrequency (p_lay (pf_ana f))) ;;
    do f <- get;
    on_cas (setLayout (pf_dig f)).

  (** ChebyshevI.cpp:229-241 *)
  Definition c1_HighShelfBase_setup (order : Z) (cutoffFrequency : T N) (gainDb : T N) (rippleDb : T N) : M (pf N) unit :=
    on_ana (c1_ls_design order gainDb rippleDb) ;;
    do f <- get;
    on_dig (HighPassTransform cutoffFrequency (p_lay (pf_ana f))) ;;
    do f <- get;
    on_cas (setLayout (pf_dig f)).

  (** ChebyshevI.cpp:243-259 *)
  Definition c1_BandShelfBase_setup (order : Z) (centerFrequency : T N) (widthFrequency : T N) (gainDb : T N) (rippleDb : T N) : M (pf N) unit :=
    on_ana (c1_ls_design order gainDb rippleDb) ;;
    do f <- get;
    on_dig (BandPassTransform centerFrequency widthFrequency (p_lay (pf_ana f))) ;;
    on_dig (modify (lay_setNormal (if nltb N centerFrequency (nlit N 1 4) then npi N else #0) #1)) ;;
    do f <- get;
    on_cas (setLayout (pf_dig f)).

  (** ChebyshevI.h:163-169 *)
  Definition c1_LowPass_setup (FilterOrder : Z) (sampleRate : T N) (cutoffFrequency : T N) (rippleDb : T N) : M (pf N) unit :=
    c1_LowPassBase_setup FilterOrder (cutoffFrequency / sampleRate) rippleDb.

  (** ChebyshevI.h:178-186 *)
  Definition c1_LowPass_setup_order (FilterOrder : Z) (reqOrder : Z) (sampleRate : T N) (cutoffFrequency : T N) (rippleDb : T N) : M (pf N) unit :=
    throw_if (FilterOrder <? reqOrder)%Z E_order ;;
    c1_LowPassBase_setup reqOrder (cutoffFrequency / sampleRate) rippleDb.

  (** ChebyshevI.h:195-200 *)
  Definition c1_LowPass_setupN (FilterOrder : Z) (cutoffFrequency : T N) (rippleDb : T N) : M (pf N) unit :=
    c1_LowPassBase_setup FilterOrder cutoffFrequency rippleDb.

  (** ChebyshevI.h:208-215 *)
  Definition c1_LowPass_setupN_order (FilterOrder : Z) (reqOrder : Z) (cutoffFrequency : T N) (rippleDb : T N) : M (pf N) unit :=
    throw_if (FilterOrder <? reqOrder)%Z E_order ;;
    c1_LowPassBase_setup reqOrder cutoffFrequency rippleDb.

  (** ChebyshevI.h:232-238 *)
  Definition c1_HighPass_setup (FilterOrder : Z) (sampleRate : T N) (cutoffFrequency : T N) (rippleDb : T N) : M (pf N) unit :=
    c1_HighPassBase_setup FilterOrder (cutoffFrequency / sampleRate) rippleDb.

  (** ChebyshevI.h:247-255 *)
  Definition c1_HighPass_setup_order (FilterOrder : Z) (reqOrder : Z) (sampleRate : T N) (cutoffFrequency : T N) (rippleDb : T N) : M (pf N) unit :=
    throw_if (FilterOrder <? reqOrder)%Z E_order ;;
    c1_HighPassBase_setup reqOrder (cutoffFrequency / sampleRate) rippleDb.

  (** ChebyshevI.h:264-269 *)
  Definition c1_HighPass_setupN (FilterOrder : Z) (cutoffFrequency : T N) (rippleDb : T N) : M (pf N) unit :=
    c1_HighPassBase_setup FilterOrder cutoffFrequency rippleDb.

  (** ChebyshevI.h:277-284 *)
  Definition c1_HighPass_setupN_order (FilterOrder : Z) (reqOrder : Z) (cutoffFrequency : T N) (rippleDb : T N) : M (pf N) unit :=
    throw_if (FilterOrder <? reqOrder)%Z E_order ;;
    c1_HighPassBase_setup reqOrder cutoffFrequency rippleDb.

  (** ChebyshevI.h:302-310 *)
  Definition c1_BandPass_setup (FilterOrder : Z) (sampleRate : T N) (centerFrequency : T N) (widthFrequency : T N) (rippleDb : T N) : M (pf N) unit :=
    c1_BandPassBase_setup FilterOrder (centerFrequency / sampleRate) (widthFrequency / sampleRate) rippleDb.

  (** ChebyshevI.h:320-330 *)
  Definition c1_BandPass_setup_order (FilterOrder : Z) (reqOrder : Z) (sampleRate : T N) (centerFrequency : T N) (widthFrequency : T N) (rippleDb : T N) : M (pf N) unit :=
    throw_if (FilterOrder <? reqOrder)%Z E_order ;;
    c1_BandPassBase_setup reqOrder (centerFrequency / sampleRate) (widthFrequency / sampleRate) rippleDb.

  (** ChebyshevI.h:340-347 *)
  Definition c1_BandPass_setupN (FilterOrder : Z) (centerFrequency : T N) (widthFrequency : T N) (rippleDb : T N) : M (pf N) unit :=
    c1_BandPassBase_setup FilterOrder centerFrequency widthFrequency rippleDb.

  (** ChebyshevI.h:356-365 *)
  Definition c1_BandPass_setupN_order (FilterOrder : Z) (reqOrder : Z) (centerFrequency : T N) (widthFrequency : T N) (rippleDb : T N) : M (pf N) unit :=
    throw_if (FilterOrder <? reqOrder)%Z E_order ;;
    c1_BandPassBase_setup reqOrder centerFrequency widthFrequency rippleDb.

  (** ChebyshevI.h:383-391 *)
  Definition c1_BandStop_setup (FilterOrder : Z) (sampleRate : T N) (centerFrequency : T N) (widthFrequency : T N) (rippleDb : T N) : M (pf N) unit :=
    c1_BandStopBase_setup FilterOrder (centerFrequency / sampleRate) (widthFrequency / sampleRate) rippleDb.

  (** ChebyshevI.h:401-411 *)
  Definition c1_BandStop_setup_order (FilterOrder : Z) (reqOrder : Z) (sampleRate : T N) (centerFrequency : T N) (widthFrequency : T N) (rippleDb : T N) : M (pf N) unit :=
    throw_if (FilterOrder <? reqOrder)%Z E_order ;;
    c1_BandStopBase_setup reqOrder (centerFrequency / sampleRate) (widthFrequency / sampleRate) rippleDb.

  (** ChebyshevI.h:421-428 *)
  Definition c1_BandStop_setupN (FilterOrder : Z) (centerFrequency : T N) (widthFrequency : T N) (rippleDb : T N) : M (pf N) unit :=
    c1_BandStopBase_setup FilterOrder centerFrequency widthFrequency rippleDb.

  (** ChebyshevI.h:437-446 *)
  Definition c1_BandStop_setupN_order (FilterOrder : Z) (reqOrder : Z) (centerFrequency : T N) (widthFrequency : T N) (rippleDb : T N) : M (pf N) unit :=
    throw_if (FilterOrder <? reqOrder)%Z E_order ;;
    c1_BandStopBase_setup reqOrder centerFrequency widthFrequency rippleDb.

  (** ChebyshevI.h:465-473 *)
  Definition c1_LowShelf_setup (FilterOrder : Z) (sampleRate : T N) (cutoffFrequency : T N) (gainDb : T N) (rippleDb : T N) : M (pf N) unit :=
    c1_LowShelfBase_setup FilterOrder (cutoffFrequency / sampleRate) gainDb rippleDb.

  (** ChebyshevI.h:483-493 *)
  Definition c1_LowShelf_setup_order (FilterOrder : Z) (reqOrder : Z) (sampleRate : T N) (cutoffFrequency : T N) (gainDb : T N) (rippleDb : T N) : M (pf N) unit :=
    throw_if (FilterOrder <? reqOrder)%Z E_order ;;
    c1_LowShelfBase_setup reqOrder (cutoffFrequency / sampleRate) gainDb rippleDb.

  (** ChebyshevI.h:503-510 *)
  Definition c1_LowShelf_setupN (FilterOrder : Z) (cutoffFrequency : T N) (gainDb : T N) (rippleDb : T N) : M (pf N) unit :=
    c1_LowShelfBase_setup FilterOrder cutoffFrequency gainDb rippleDb.

  (** ChebyshevI.h:519-528 *)
  Definition c1_LowShelf_setupN_order (FilterOrder : Z) (reqOrder : Z) (cutoffFrequency : T N) (gainDb : T N) (rippleDb : T N) : M (pf N) unit :=
    throw_if (FilterOrder <? reqOrder)%Z E_order ;;
    c1_LowShelfBase_setup reqOrder cutoffFrequency gainDb rippleDb.

  (** ChebyshevI.h:546-554 *)
  Definition c1_HighShelf_setup (FilterOrder : Z) (sampleRate : T N) (cutoffFrequency : T N) (gainDb : T N) (rippleDb : T N) : M (pf N) unit :=
    c1_HighShelfBase_setup FilterOrder (cutoffFrequency / sampleRate) gainDb rippleDb.

  (** ChebyshevI.h:564-574 *)
  Definition c1_HighShelf_setup_order (FilterOrder : Z) (reqOrder : Z) (sampleRate : T N) (cutoffFrequency : T N) (gainDb : T N) (rippleDb : T N) : M (pf N) unit :=
    throw_if (FilterOrder <? reqOrder)%Z E_order ;;
    c1_HighShelfBase_setup reqOrder (cutoffFrequency / sampleRate) gainDb rippleDb.

  (** ChebyshevI.h:585-592 *)
  Definition c1_HighShelf_setupN (FilterOrder : Z) (cutoffFrequency : T N) (gainDb : T N) (rippleDb : T N) : M (pf N) unit :=
    c1_HighShelfBase_setup FilterOrder cutoffFrequency gainDb rippleDb.

  (** ChebyshevI.h:601-610 *)
  Definition c1_HighShelf_setupN_order (FilterOrder : Z) (reqOrder : Z) (cutoffFrequency : T N) (gainDb : T N) (rippleDb : T N) : M (pf N) unit :=
    throw_if (FilterOrder <? reqOrder)%Z E_order ;;
    c1_HighShelfBase_setup reqOrder cutoffFrequency gainDb rippleDb.

  (** ChebyshevI.h:630-641 *)
  Definition c1_BandShelf_setup (FilterOrder : Z) (sampleRate : T N) (centerFrequency : T N) (widthFrequency : T N) (gainDb : T N) (rippleDb : T N) : M (pf N) unit :=
    c1_BandShelfBase_setup FilterOrder (centerFrequency / sampleRate) (widthFrequency / sampleRate) gainDb rippleDb.

  (** ChebyshevI.h:652-665 *)
  Definition c1_BandShelf_setup_order (FilterOrder : Z) (reqOrder : Z) (sampleRate : T N) (centerFrequency : T N) (widthFrequency : T N) (gainDb : T N) (rippleDb : T N) : M (pf N) unit :=
    throw_if (FilterOrder <? reqOrder)%Z E_order ;;
    c1_BandShelfBase_setup reqOrder (centerFrequency / sampleRate) (widthFrequency / sampleRate) gainDb rippleDb.

  (** ChebyshevI.h:677-687 *)
  Definition c1_BandShelf_setupN (FilterOrder : Z) (centerFrequency : T N) (widthFrequency : T N) (gainDb : T N) (rippleDb : T N) : M (pf N) unit :=
    c1_BandShelfBase_setup FilterOrder centerFrequency widthFrequency gainDb rippleDb.

  (** ChebyshevI.h:697-709 *)
  Definition c1_BandShelf_setupN_order (FilterOrder : Z) (reqOrder : Z) (centerFrequency : T N) (widthFrequency : T N) (gainDb : T N) (rippleDb : T N) : M (pf N) unit :=
    throw_if (FilterOrder <? reqOrder)%Z E_order ;;
    c1_BandShelfBase_setup reqOrder centerFrequency widthFrequency gainDb rippleDb.

  (** ** ChebyshevII *)
  (** ChebyshevII.cpp:160-171 *)
  Definition c2_LowPassBase_setup (order : Z) (cutoffFrequency : T N) (stopBandDb : T N) : M (pf N) unit :=
    on_ana (c2_lp_design order stopBandDb) ;;
    do f <- get;
    on_dig (LowPassTransform cutoffFrequency (p_lay (pf_ana f))) ;;
    do f <- get;
    on_cas (setLayout (pf_dig f)).

  (** ChebyshevII.cpp:173-184 *)
  Definition c2_HighPassBase_setup (order : Z) (cutoffFrequency : T N) (stopBandDb : T N) : M (pf N) unit :=
    on_ana (c2_lp_design order stopBandDb) ;;
    do f <- get;
    on_dig (HighPassTransform cutoffFrequency (p_lay (pf_ana f))) ;;
    do f <- get;
    on_cas (setLayout (pf_dig f)).

  (** ChebyshevII.cpp:186-199 *)
  Definition c2_BandPassBase_setup (order : Z) (centerFrequency : T N) (widthFrequency : T N) (stopBandDb : T N) : M (pf N) unit :=
    on_ana (c2_lp_design order stopBandDb) ;;
    do f <- get;
    on_dig (BandPassTransform centerFrequency widthFrequency (p_lay (pf_ana f))) ;;
    do f <- get;
    on_cas (setLayout (pf_dig f)).

  (** ChebyshevII.cpp:201-214 *)
  Definition c2_BandStopBase_setup (order : Z) (centerFrequency : T N) (widthFrequency : T N) (stopBandDb : T N) : M (pf N) unit :=
    on_ana (c2_lp_design order stopBandDb) ;;
    do f <- get;
    on_dig (BandStopTransform centerFrequency widthFrequency (p_lay (pf_ana f))) ;;
    do f <- get;
    on_cas (setLayout (pf_dig f)).

  (** ChebyshevII.cpp:216-228 *)
  Definition c2_LowShelfBase_setup (order : Z) (cutoffFrequency : T N) (gainDb : T N) (stopBandDb : T N) : M (pf N) unit :=
    on_ana (c2_ls_design order gainDb stopBandDb) ;;
    do f <- get;
    on_dig (LowPassTransform cutoffFrequency (p_lay (pf_ana f))) ;;
    do f <- get;
    on_cas (setLayout (pf_dig f)).

  (** ChebyshevII.cpp:230-242 *)
  Definition c2_HighShelfBase_setup (order : Z) (cutoffFrequency : T N) (gainDb : T N) (stopBandDb : T N) : M (pf N) unit :=
    on_ana (c2_ls_design order gainDb stopBandDb) ;;
    do f <- get;
    on_dig (HighPassTransform cutoffFrequency (p_lay (pf_ana f))) ;;
    do f <- get;
    on_cas (setLayout (pf_dig f)).

  (** ChebyshevII.cpp:244-260 *)
  Definition c2_BandShelfBase_setup (order : Z) (centerFrequency : T N) (widthFrequency : T N) (gainDb : T N) (stopBandDb : T N) : M (pf N) unit :=
    on_ana (c2_ls_design order gainDb stopBandDb) ;;
    do f <- get;
    on_dig (BandPassTransform centerFrequency widthFrequency (p_lay (pf_ana f))) ;;
    on_dig (modify (lay_setNormal (if nltb N centerFrequency (nlit N 1 4) then npi N else #0) #1)) ;;
    do f <- get;
    on_cas (setLayout (pf_dig f)).

  (** ChebyshevII.h:167-173 *)
  Definition c2_LowPass_setup (FilterOrder : Z) (sampleRate : T N) (cutoffFrequency : T N) (stopBandDb : T N) : M (pf N) unit :=
    c2_LowPassBase_setup FilterOrder (cutoffFrequency / sampleRate) stopBandDb.

  (** ChebyshevII.h:182-190 *)
  Definition c2_LowPass_setup_order (FilterOrder : Z) (reqOrder : Z) (sampleRate : T N) (cutoffFrequency : T N) (stopBandDb : T N) : M (pf N) unit :=
    throw_if (FilterOrder <? reqOrder)%Z E_order ;;
    c2_LowPassBase_setup reqOrder (cutoffFrequency / sampleRate) stopBandDb.

  (** ChebyshevII.h:201-206 *)
  Definition c2_LowPass_setupN (FilterOrder : Z) (cutoffFrequency : T N) (stopBandDb : T N) : M (pf N) unit :=
    c2_LowPassBase_setup FilterOrder cutoffFrequency stopBandDb.

  (** ChebyshevII.h:214-221 *)
  Definition c2_LowPass_setupN_order (FilterOrder : Z) (reqOrder : Z) (cutoffFrequency : T N) (stopBandDb : T N) : M (pf N) unit :=
    throw_if (FilterOrder <? reqOrder)%Z E_order ;;
    c2_LowPassBase_setup reqOrder cutoffFrequency stopBandDb.

  (** ChebyshevII.h:239-245 *)
  Definition c2_HighPass_setup (FilterOrder : Z) (sampleRate : T N) (cutoffFrequency : T N) (stopBandDb : T N) : M (pf N) unit :=
    c2_HighPassBase_setup FilterOrder (cutoffFrequency / sampleRate) stopBandDb.

  (** ChebyshevII.h:254-262 *)
  Definition c2_HighPass_setup_order (FilterOrder : Z) (reqOrder : Z) (sampleRate : T N) (cutoffFrequency : T N) (stopBandDb : T N) : M (pf N) unit :=
    throw_if (FilterOrder <? reqOrder)%Z E_order ;;
    c2_HighPassBase_setup reqOrder (cutoffFrequency / sampleRate) stopBandDb.

  (** ChebyshevII.h:272-277 *)
  Definition c2_HighPass_setupN (FilterOrder : Z) (cutoffFrequency : T N) (stopBandDb : T N) : M (pf N) unit :=
    c2_HighPassBase_setup FilterOrder cutoffFrequency stopBandDb.

  (** ChebyshevII.h:285-292 *)
  Definition c2_HighPass_setupN_order (FilterOrder : Z) (reqOrder : Z) (cutoffFrequency : T N) (stopBandDb : T N) : M (pf N) unit :=
    throw_if (FilterOrder <? reqOrder)%Z E_order ;;
    c2_HighPassBase_setup reqOrder cutoffFrequency stopBandDb.

  (** ChebyshevII.h:311-319 *)
  Definition c2_BandPass_setup (FilterOrder : Z) (sampleRate : T N) (centerFrequency : T N) (widthFrequency : T N) (stopBandDb : T N) : M (pf N) unit :=
    c2_BandPassBase_setup FilterOrder (centerFrequency / sampleRate) (widthFrequency / sampleRate) stopBandDb.

  (** ChebyshevII.h:329-339 *)
  Definition c2_BandPass_setup_order (FilterOrder : Z) (reqOrder : Z) (sampleRate : T N) (centerFrequency : T N) (widthFrequency : T N) (stopBandDb : T N) : M (pf N) unit :=
    throw_if (FilterOrder <? reqOrder)%Z E_order ;;
    c2_BandPassBase_setup reqOrder (centerFrequency / sampleRate) (widthFrequency / sampleRate) stopBandDb.

  (** ChebyshevII.h:350-357 *)
  Definition c2_BandPass_setupN (FilterOrder : Z) (centerFrequency : T N) (widthFrequency : T N) (stopBandDb : T N) : M (pf N) unit :=
    c2_BandPassBase_setup FilterOrder centerFrequency widthFrequency stopBandDb.

  (** ChebyshevII.h:366-375 *)
  Definition c2_BandPass_setupN_order (FilterOrder : Z) (reqOrder : Z) (centerFrequency : T N) (widthFrequency : T N) (stopBandDb : T N) : M (pf N) unit :=
    throw_if (FilterOrder <? reqOrder)%Z E_order ;;
    c2_BandPassBase_setup reqOrder centerFrequency widthFrequency stopBandDb.

  (** ChebyshevII.h:393-401 *)
  Definition c2_BandStop_setup (FilterOrder : Z) (sampleRate : T N) (centerFrequency : T N) (widthFrequency : T N) (stopBandDb : T N) : M (pf N) unit :=
    c2_BandStopBase_setup FilterOrder (centerFrequency / sampleRate) (widthFrequency / sampleRate) stopBandDb.

  (** ChebyshevII.h:411-421 *)
  Definition c2_BandStop_setup_order (FilterOrder : Z) (reqOrder : Z) (sampleRate : T N) (centerFrequency : T N) (widthFrequency : T N) (stopBandDb : T N) : M (pf N) unit :=
    throw_if (FilterOrder <? reqOrder)%Z E_order ;;
    c2_BandStopBase_setup reqOrder (centerFrequency / sampleRate) (widthFrequency / sampleRate) stopBandDb.

  (** ChebyshevII.h:432-439 *)
  Definition c2_BandStop_setupN (FilterOrder : Z) (centerFrequency : T N) (widthFrequency : T N) (stopBandDb : T N) : M (pf N) unit :=
    c2_BandStopBase_setup FilterOrder centerFrequency widthFrequency stopBandDb.

  (** ChebyshevII.h:448-457 *)
  Definition c2_BandStop_setupN_order (FilterOrder : Z) (reqOrder : Z) (centerFrequency : T N) (widthFrequency : T N) (stopBandDb : T N) : M (pf N) unit :=
    throw_if (FilterOrder <? reqOrder)%Z E_order ;;
    c2_BandStopBase_setup reqOrder centerFrequency widthFrequency stopBandDb.

  (** ChebyshevII.h:475-483 *)
  Definition c2_LowShelf_setup (FilterOrder : Z) (sampleRate : T N) (cutoffFrequency : T N) (gainDb : T N) (stopBandDb : T N) : M (pf N) unit :=
    c2_LowShelfBase_setup FilterOrder (cutoffFrequency / sampleRate) gainDb stopBandDb.

  (** ChebyshevII.h:493-503 *)
  Definition c2_LowShelf_setup_order (FilterOrder : Z) (reqOrder : Z) (sampleRate : T N) (cutoffFrequency : T N) (gainDb : T N) (stopBandDb : T N) : M (pf N) unit :=
    throw_if (FilterOrder <? reqOrder)%Z E_order ;;
    c2_LowShelfBase_setup reqOrder (cutoffFrequency / sampleRate) gainDb stopBandDb.

  (** ChebyshevII.h:515-522 *)
  Definition c2_LowShelf_setupN (FilterOrder : Z) (cutoffFrequency : T N) (gainDb : T N) (stopBandDb : T N) : M (pf N) unit :=
    c2_LowShelfBase_setup FilterOrder cutoffFrequency gainDb stopBandDb.

  (** ChebyshevII.h:531-540 *)
  Definition c2_LowShelf_setupN_order (FilterOrder : Z) (reqOrder : Z) (cutoffFrequency : T N) (gainDb : T N) (stopBandDb : T N) : M (pf N) unit :=
    throw_if (FilterOrder <? reqOrder)%Z E_order ;;
    c2_LowShelfBase_setup reqOrder cutoffFrequency gainDb stopBandDb.

  (** ChebyshevII.h:559-567 *)
  Definition c2_HighShelf_setup (FilterOrder : Z) (sampleRate : T N) (cutoffFrequency : T N) (gainDb : T N) (stopBandDb : T N) : M (pf N) unit :=
    c2_HighShelfBase_setup FilterOrder (cutoffFrequency / sampleRate) gainDb stopBandDb.

  (** ChebyshevII.h:577-587 *)
  Definition c2_HighShelf_setup_order (FilterOrder : Z) (reqOrder : Z) (sampleRate : T N) (cutoffFrequency : T N) (gainDb : T N) (stopBandDb : T N) : M (pf N) unit :=
    throw_if (FilterOrder <? reqOrder)%Z E_order ;;
    c2_HighShelfBase_setup reqOrder (cutoffFrequency / sampleRate) gainDb stopBandDb.

  (** ChebyshevII.h:600-607 *)
  Definition c2_HighShelf_setupN (FilterOrder : Z) (cutoffFrequency : T N) (gainDb : T N) (stopBandDb : T N) : M (pf N) unit :=
    c2_HighShelfBase_setup FilterOrder cutoffFrequency gainDb stopBandDb.

  (** ChebyshevII.h:616-625 *)
  Definition c2_HighShelf_setupN_order (FilterOrder : Z) (reqOrder : Z) (cutoffFrequency : T N) (gainDb : T N) (stopBandDb : T N) : M (pf N) unit :=
    throw_if (FilterOrder <? reqOrder)%Z E_order ;;
    c2_HighShelfBase_setup reqOrder cutoffFrequency gainDb stopBandDb.

  (** ChebyshevII.h:645-655 *)
  Definition c2_BandShelf_setup (FilterOrder : Z) (sampleRate : T N) (centerFrequency : T N) (widthFrequency : T N) (gainDb : T N) (stopBandDb : T N) : M (pf N) unit :=
    c2_BandShelfBase_setup FilterOrder (centerFrequency / sampleRate) (widthFrequency / sampleRate) gainDb stopBandDb.

  (** ChebyshevII.h:667-679 *)
  Definition c2_BandShelf_setup_order (FilterOrder : Z) (reqOrder : Z) (sampleRate : T N) (centerFrequency : T N) (widthFrequency : T N) (gainDb : T N) (stopBandDb : T N) : M (pf N) unit :=
    throw_if (FilterOrder <? reqOrder)%Z E_order ;;
    c2_BandShelfBase_setup reqOrder (centerFrequency / sampleRate) (widthFrequency / sampleRate) gainDb stopBandDb.

  (** ChebyshevII.h:694-703 *)
  Definition c2_BandShelf_setupN (FilterOrder : Z) (centerFrequency : T N) (widthFrequency : T N) (gainDb : T N) (stopBandDb : T N) : M (pf N) unit :=
    c2_BandShelfBase_setup FilterOrder centerFrequency widthFrequency gainDb stopBandDb.

  (** ChebyshevII.h:714-725 *)
  Definition c2_BandShelf_setupN_order (FilterOrder : Z) (reqOrder : Z) (centerFrequency : T N) (widthFrequency : T N) (gainDb : T N) (stopBandDb : T N) : M (pf N) unit :=
    throw_if (FilterOrder <? reqOrder)%Z E_order ;;
    c2_BandShelfBase_setup reqOrder centerFrequency widthFrequency gainDb stopBandDb.

End Classes.

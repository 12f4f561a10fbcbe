# Formal model of berndporr/iir1 in Rocq (Coq 8.16.1)

## Approach

* **One model, many arithmetics.** Every function of `/repo/iir` is transcribed once as a Gallina
  function over a record `num` (Num.v): the operations of C++ `double`, `std::complex<double>` and the
  math library. Control flow (branches, exceptions, caches, array writes, pointer aliasing) is in the
  model; arithmetic is a parameter. `num` has *no law fields*: it is only a bundle of functions, so a
  theorem quantified over `num` assumes nothing about arithmetic. Theorems are stated
  1. **(any)** for every `num`: control flow, memory safety, exception behaviour, streaming laws. These
     hold for IEEE-754 with any math library, any rounding, any NaN pattern;
  2. **(F)** for `F64 m` (Float64.v): Flocq's `binary_float 53 1024`, round to nearest even, with an
     arbitrary math library `m` (bit-level facts: NaN, identity stages, polarity, silence, casts);
  3. **(X)** for `X strict` (Exact.v): exact real arithmetic extended with +-infinity and NaN, where
     `doublePi`, `doubleLn10` are the mathematical constants (design formulas, stability, frequency
     responses). `strict = true` makes `std::polar` with a negative or NaN radius undefined behaviour,
     as the C++ standard says; `strict = false` computes `rho cos theta, rho sin theta` as libstdc++ does.
* **Exceptions and UB are outcomes.** `res S A = Ok s a | Throw e s | UB` (Outcome.v). A thrown exception
  keeps the state mutated so far (C++ does not roll back). Array accesses out of range, `int` overflow,
  `std::polar` preconditions, dangling pointers and out-of-range casts give `UB`.
* **Histories.** History.v: one filter object, any list of `setupN`, `setup`, `filter`, `reset` and
  assignment calls, exceptions caught by the caller; `reachable` is defined from it. WorldHistory.v: any
  interleaving over any number of objects, with construction, copy construction and destruction.
  Public.v: the calls of History.v mixed with calls of the public base classes.
* **Objects and pointers.** A PoleFilter owns four arrays and holds three pointers into arrays; the
  default copy constructor copies the pointers. World.v has a heap of objects with object ids as
  pointers, so aliasing after copies and dangling pointers after destruction are expressible.
* **Specification.** Files named `*Spec.v` define the difference equation, transfer function, poles,
  Chebyshev polynomials, design responses etc. directly on lists, reals and Coquelicot complex numbers,
  without model functions.
* **File roles.** Model: Num, Outcome, Types, Biquad, State, Cascade, Transforms, Butterworth, Chebyshev,
  PoleFilter, RBJ, Custom, World, Classes, Samples, Contract; arithmetic instances: Exact, Float64, RefLibm,
  RealNum; histories: History, WorldHistory, Public, NoExc; specifications: Spec, SigSpec, PZSpec, RBJSpec, ChebSpec,
  DesignSpec, BandSpec, ShelfSpec, ChShelfSpec, CallSpec, FloatSpec, RoundSpec, NanSpec, RBJAllSpec, RBJProtoSpec, EndSpec, DblSpec, BwDblSpec, ChainSpec, RbjShSpec, ChCoefSpec, ChDblSpec, UnsetSpec, ChScaleSpec, RespDblSpec, RespOutSpec; theorems: `Props*.v` (each theorem is
  closed by `exact` of a lemma, followed by `Print Assumptions` and an `Example` in which a concrete case
  meets the hypotheses); everything else is proof.
* **False claims.** Where the code does not do what the property says, a theorem ending in `_refuted`
  proves a counterexample about the model and the property has status "partial"; the part that is true
  is proved where possible.

## Properties

For every property: what is modelled and how it is proved, the theorems (file; what `Print Assumptions`
lists, abbreviated as in "Trusted base": none = closed under the global context, R = the axioms of the
standard library's real numbers, R+C = these and classical logic), and what is not covered.
The statements are in `properties.jsonl`, status and notes also in `MANIFEST.json`.

### C01 Direct Form I realises the documented difference equation (proved)

Modelled: Biquad::setCoefficients, DirectFormI::filter (State.h). Specification: the difference equation on lists of reals (Spec.v), terms before the start 0. Induction over the input with the invariant that the delay line holds the last two inputs and outputs.

Theorems: `C01_difference_equation` (PropsSig.v; R+C).

Scope: Exact arithmetic; any old coefficients, any input.

### C02 The three filter topologies are interchangeable (proved)

Modelled: the three State.h topologies and CascadeStages::filter. Each topology is shown to solve the same list-level difference equation from reset (DF2 and TDF2 by an invariant relating the internal state to the past of input and output), for one section and by induction for a cascade.

Theorems: `C02_topologies_interchangeable` (PropsSig.v; R+C); `C02_topologies_interchangeable_one` (PropsSig.v; R+C).

Scope: Exact arithmetic; any finite coefficients.

### C03 Filtering is linear (proved)

The list-level difference equation is linear; C02's refinement carries this to every topology and cascade.

Theorems: `C03_linear` (PropsSig.v; R+C).

Scope: Exact arithmetic.

### C04 Filtering is time invariant and silent on silence (proved)

Exact: the difference equation applied to a delayed input. binary64: case analysis shows 0*finite and sums of zeros are zeros; the invariant "all delay lines are +-0" is kept by every topology; the design of the filter enters only through finiteness of the coefficients.

Theorems: `C04_time_invariant` (PropsSig.v; R+C); `C04_silence` (PropsFloat.v; R+C); `C04_silence_filter` (PropsFloat.v; R+C); `C04_silence_rbj` (PropsFloat.v; R+C).

Scope: Time invariance in exact arithmetic, silence in binary64 for every math library.

### C05 Filtering is causal and can be chunked (proved)

The model's filter is a state transformer; streaming and causality are proved by induction over the list for each object type (PoleFilter classes, SOSCascade, RBJ), for an arbitrary `num`, so no arithmetic law is used.

Theorems: `C05_streaming` (PropsAny.v; none).

Scope: Every arithmetic; Butterworth/Chebyshev filters, SOSCascade and RBJ filters, any state.

### C06 reset() restores the freshly set up behaviour (proved)

reset() writes the constructor's delay line values; for every reachable filter all future outputs equal those of a new object with the same coefficients, and coefficients, response and reported poles are untouched (by inspection of the state transformer, any `num`).

Theorems: `C06_reset_restores_fresh_behaviour` (PropsAny.v; none); `C06_reset_keeps_the_design` (PropsAny.v; none); `C06_reset_rbj` (PropsAny.v; none); `C06_reset_sos` (PropsAny.v; none).

Scope: Every arithmetic, every call history.

### C07 A cascade is the chain of its stages (proved)

Chain law: induction over the samples, any `num`. Permutation: each stage is a linear difference equation from reset; two stages commute because both orders solve the same product equation; transpositions generate permutations.

Theorems: `C07_cascade_is_chain` (PropsAny.v; none); `C07_stages_commute` (PropsSig.v; R+C).

Scope: Chain law for every arithmetic, permutation law in exact arithmetic.

### C08 A NaN sample poisons the filter until reset (proved)

binary64: NaN absorbs in + and * (Flocq case analysis), the invariant "a NaN sits in the delay line of the stage" is kept by each topology for every continuation.

Theorems: `C08_nan_stays` (PropsFloat.v; R+C); `C08_nan_stays_filter` (PropsFloat.v; R+C); `C08_nan_stays_rbj` (PropsFloat.v; R+C); `C06_reset_restores_fresh_behaviour` (PropsAny.v; none); `C06_reset_rbj` (PropsAny.v; none); `C06_reset_sos` (PropsAny.v; none).

Scope: binary64, every math library; the reset half is C06 (every arithmetic, hence also with NaN delay lines).

### C09 Identity stages are transparent for finite signals (proved)

binary64: x*1 = x, y + 0 and y - 0 compare equal to y for finite y; invariant: delay lines of identity stages hold finite values. For designed filters: every stage at or above the requested order's stages is the identity after any history (invariant from BuildProofs/Safe).

Theorems: `C09_identity_stages` (PropsFloat.v; R+C); `C09_identity_stages_alone` (PropsFloat.v; R+C); `C09_unused_stages` (PropsFloat.v; R+C).

Scope: binary64, every math library; unused stages for every call history whose std::polar calls return.

### C10 Polarity inversion commutes with filtering in double arithmetic (proved)

binary64: relation "equal up to the sign of zero, NaN with NaN" is a congruence for + and *, rounding to nearest even is odd; the negated run is related to the run step by step.

Theorems: `C10_negated_input` (PropsFloat.v; R+C); `C10_negated_input_filter` (PropsFloat.v; R+C); `C10_negated_input_rbj` (PropsFloat.v; R+C); `C10_zero_signs_do_not_matter` (PropsFloat.v; R+C).

Scope: binary64, every math library.

### C11 Poles inside the unit circle mean bounded output (proved)

Stability (roots of the denominator inside the unit circle) factors the recurrence into two complex first-order recurrences; geometric sums bound the output. Any finite initial state.

Theorems: `C11_bounded_output` (PropsSig.v; R+C); `C11_bounded_output_filter` (PropsSig.v; R+C).

Scope: Exact arithmetic; any finite delay line contents.

### C12 A stable filter relaxes to zero (proved)

Same factorisation, limits with Coquelicot; a null sequence through a first-order stable recurrence is null.

Theorems: `C12_relaxes_to_zero` (PropsSig.v; R+C); `C12_relaxes_to_zero_filter` (PropsSig.v; R+C).

Scope: Exact arithmetic; any finite delay line contents.

### C13 response() is the steady state gain and phase for sinusoids (proved)

The particular solution Re(H(e^iw) e^i(wn+phi)) is exact; the difference solves the homogeneous recurrence and vanishes by C12; the model's response() is shown to be H.

Theorems: `C13_response_is_steady_state` (PropsSig.v; R+C); `C13_response_is_steady_state_filter` (PropsSig.v; R+C).

Scope: Exact arithmetic; any finite delay line contents.

### C14 response() accepts exactly the frequencies 0..1/2 (proved)

Any `num` whose polar returns: case split on the two comparisons (a NaN frequency passes both, as in the code); the response function takes no state.

Theorems: `C14_response_domain` (PropsAny.v; none).

Scope: Every arithmetic in which std::polar returns; every call history.

### C15 setCoefficients rejects NaN and stores normalised coefficients (proved)

Any `num`: exactly the six is_nan tests decide; exact arithmetic: the getters multiply by a0 what was divided by it.

Theorems: `C15_nan_rejected` (PropsCoef.v; none); `C15_getters` (PropsCoef.v; R+C); `C01_difference_equation` (PropsSig.v; R+C).

Scope: Rejection for every arithmetic; getters and difference equation in exact arithmetic.

### C16 No NaN coefficient gets stored (README error handling claim) (partial)

Refutations: evaluation of the model on the cited inputs, in exact arithmetic and in binary64 (for a0 = 0 with every math library).

Theorems: `C16_a0_zero_refuted` (PropsCoef.v; R+C); `C16_rbj_refuted` (PropsCoef.v; R+C); `C16_a0_zero_double_refuted` (PropsCoef.v; R+C); `C16_negative_width_refuted` (PropsCoef.v; R+C); `C16_stored_nan_partial` (PropsAccept.v; R+C); `C16_finite_partial` (PropsAccept.v; R+C).

Scope: The claim is FALSE of the code: refuted in exact arithmetic (a0 = 0, RBJ q = 0) and in binary64 (a0 = 0 for every math library; negative band width with the reference library). True part, binary64: for arguments that are not NaN a stored coefficient is NaN exactly for 0/0 and inf/inf; finite arguments with a0 not 0 never store NaN. Missing: a check of a0 in the code.

### C17 setOnePole / setTwoPole place exactly the requested poles and zeros (proved)

Exact: all cases of the matched-pair test; the polynomial identity for the transfer function by field arithmetic on Coquelicot complex numbers.

Theorems: `C17_setTwoPole` (PropsCoef.v; R+C); `C17_setOnePole` (PropsCoef.v; R+C).

Scope: Exact arithmetic, all finite complex arguments.

### C18 getPoleZeros round trip (partial)

Exact: quadratic formula with complex square root; the first-order branch of the code is wrong (refuted), the second-order branch is proved to give the roots and to reconstruct the section. C18_no_nan: the isnan test in BiquadPoleState's caller, any `num`.

Theorems: `C18_round_trip_partial` (PropsCoef.v; R+C); `C18_single_pole_refuted` (PropsCoef.v; R+C); `C18_no_nan` (PropsQuery.v; none).

Scope: The claim is FALSE for sections with one pole and one zero (Biquad.cpp:58 reports -b0/b1 instead of -b1/b0): refuted. Proved for all other sections with a0, b0 not 0. C18_no_nan: every arithmetic.

### C19 applyScale scales the response and nothing else (proved)

Exact: scaling the numerator of stage 0; response product and difference equation are linear in it.

Theorems: `C19_applyScale` (PropsSig.v; R+C).

Scope: Exact arithmetic.

### C20 Installing a pole/zero layout normalises the gain and leaves spare stages transparent (proved)

Exact: invariant over the two loops of setLayout; the gain is computed from the cascade's own response, |response| at the normalisation frequency follows.

Theorems: `C20_setLayout` (PropsCoef.v; R+C).

Scope: Exact arithmetic.

### C21 No out-of-bounds access in any call history (proved)

Any `num` whose polar returns (precondition of C40 excluded): Hoare-style invariant (Hoare.v, Safe.v) on the lengths of the three arrays and the pole counts; every array access in the model is a checked `aget/aset` giving UB out of range; proved that no reachable call gives UB.

Theorems: `C21_no_out_of_bounds` (PropsAny.v; none).

Scope: Every arithmetic in which std::polar returns (its precondition is C40), every call history with 2*order in int range.

### C22 An order above the template order is rejected without effect (proved)

Any `num`: the order test precedes everything in each of the 42 transcribed overloads.

Theorems: `C22_order_too_high` (PropsAny.v; none); `C22_order_rejected_butterworth` (PropsClasses.v; none); `C22_order_rejected_chebyshev1` (PropsClasses.v; none); `C22_order_rejected_chebyshev2` (PropsClasses.v; none).

Scope: Every arithmetic, all 42 overloads with an order.

### C23 A cutoff outside [0, 1/2) is rejected without effect (proved)

Any `num`: the design writes only prototype caches before the frequency test fires in the transform; coefficients and digital layout are shown unchanged, for every class.

Theorems: `C23_cutoff_rejected` (PropsAny.v; none).

Scope: Every arithmetic in which std::polar returns, every call history, all 21 classes.

### C24 setup does not depend on the history of the filter (partial)

A relation between a filter with history and a new one: equal up to prototype caches whose key, if matched, holds the same computed layout. Proved as an invariant over all histories of calls (HistRel.v, any `num`); the two exceptions are refutations with executed witnesses.

Theorems: `C24_setup_does_not_depend_on_history` (PropsCalls.v; none); `C24_exact_parameters` (PropsCalls.v; R+C); `C24_double_parameters` (PropsCalls.v; R+C); `C24_second_call_refuted` (PropsCalls.v; R+C); `C24_order_refuted` (PropsCalls.v; R+C).

Scope: False in general: a setup that threw while computing poles leaves its cache key behind, so the same call then succeeds as a pass-through (witness); also false for orders below 1 (witness). Proved for every arithmetic and every other history: order >= 1, no failed design of the same prototype before, gain and ripple exact under == (in binary64: not a zero).

### C25 Changing parameters at run time keeps the delay lines (proved)

Any `num`: no design function takes the delay lines as argument; stated on the objects' state for all overloads, also for Throw.

Theorems: `C25_setup_keeps_delay_lines` (PropsAny.v; none).

Scope: Every arithmetic.

### C26 Copies of a Butterworth/Chebyshev filter are independent (partial)

Heap model: evaluation of copy, destroy, then use (dangling) and of setup on the copy (original's arrays change), for every class and every `num`.

Theorems: `C26_copy_dangles_refuted` (PropsAny.v; none); `C26_setup_on_copy_hits_original_refuted` (PropsAny.v; none); `C43_objects_independent` (PropsAny.v; none).

Scope: The claim is FALSE of the code: refuted for every class and arithmetic (copies share the original's arrays). C43 is the true part: objects that are not copied are independent.

### C27 Assignment of a Butterworth/Chebyshev filter (proved)

Heap model, any `num`: operator= as written (resets own delay lines, copies nothing).

Theorems: `C27_assignment` (PropsAny.v; none).

Scope: Every arithmetic; heap model with aliasing pointers.

### C28 SOSCascade stores scipy coefficients and copies are independent (proved)

Induction over the rows; exact point at which a NaN row throws.

Theorems: `C28_sos_installs_rows` (PropsAny.v; none); `C28_sos_nan_row` (PropsAny.v; none).

Scope: Every arithmetic. SOSCascade holds its stages and delay lines by value (no pointers), so copies are values in the model.

### C29 Every RBJ design is stable (proved)

Schur-Cohn triangle |a2| < 1, |a1| < 1 + a2 from trigonometric inequalities; triangle implies both roots inside the unit circle (RBJProofs).

Theorems: `C29_rbj_stable` (PropsRBJ.v; R+C).

Scope: Exact arithmetic.

### C30 RBJ filters meet their documented gains (proved)

Evaluation of the transfer function at z = 1, -1 and e^(i w0) by trigonometric identities.

Theorems: `C30_lowpass` (PropsRBJ.v; R+C); `C30_highpass` (PropsRBJ.v; R+C); `C30_bandpass1` (PropsRBJ.v; R+C); `C30_bandpass2` (PropsRBJ.v; R+C); `C30_bandstop` (PropsRBJ.v; R+C); `C30_iirnotch` (PropsRBJ.v; R+C); `C30_lowshelf` (PropsRBJ.v; R+C); `C30_highshelf` (PropsRBJ.v; R+C); `C30_bandshelf` (PropsRBJ.v; R+C); `C30_allpass` (PropsRBJ.v; R+C).

Scope: Exact arithmetic.

### C31 RBJ setup rejects invalid frequencies (README error handling claim) (partial)

Refutation: for every cutoff in (1/2,1) the setup returns normally with a pole outside the unit circle.

Theorems: `C31_rbj_cutoff_refuted` (PropsCoef.v; R+C); `C31_nonfinite_partial` (PropsAccept.v; R+C); `C55_rbj_any_cutoff` (PropsAccept.v; R+C).

Scope: The claim is FALSE of the code: every cutoff between 1/2 and 1 is accepted and gives an unstable low pass. True part, binary64: NaN and infinite cutoffs are rejected by all ten classes, if cos(NaN) and cos(inf) are NaN. C55 decides stability for all finite cutoffs.

### C32 Butterworth LowPass/HighPass have the Butterworth response (proved)

Prototype poles on the circle (ProtoProofs), factorisation of 1+x^(2N) (PolyProofs), bilinear map (MapProofs, TransProofs), model loops unrolled by induction (ProtoBuild, BuildProofs), normalisation by C20. The result is stated on the model's `after`-setup filter and its response().

Theorems: `C32_butterworth_lowpass` (PropsDesign.v; R+C); `C32_butterworth_highpass` (PropsDesign.v; R+C); `C32_butterworth_edges` (PropsDesign.v; R+C).

Scope: Exact arithmetic, every order.

### C33 Chebyshev I LowPass/HighPass have the Chebyshev response (proved)

As C32 with the ellipse poles and the factorisation of 1+e^2 T_N(x)^2; T_N defined by its recurrence in ChebSpec.

Theorems: `C33_chebyshev1_lowpass` (PropsDesign.v; R+C); `C33_chebyshev1_highpass` (PropsDesign.v; R+C); `C33_chebyshev1_ripple` (PropsDesign.v; R+C).

Scope: Exact arithmetic, every order.

### C34 Chebyshev II LowPass/HighPass guarantee the stop band rejection (proved)

As C33 with the inverse Chebyshev poles and zeros.

Theorems: `C34_chebyshev2_lowpass` (PropsDesign.v; R+C); `C34_chebyshev2_highpass` (PropsDesign.v; R+C); `C34_chebyshev2_rejection` (PropsDesign.v; R+C).

Scope: Exact arithmetic, every order.

### C35 Band pass and band stop filters have the transformed response (proved)

BandProofs: the quadratic transform maps each prototype pole to two z-plane poles; the product over both equals the prototype evaluated at the transformed frequency; root signs of the complex square root do not matter.

Theorems: `C35_bandpass` (PropsBand.v; R+C); `C35_bandstop` (PropsBand.v; R+C); `C35_bandpass_limits` (PropsBand.v; R+C); `C35_bandstop_limits` (PropsBand.v; R+C); `C35_edges` (PropsBand.v; R).

Scope: Exact arithmetic, every order; edges are clamped to 1e-8 from 0 and pi as the code does; the setups that throw (C44) are excluded.

### C36 Butterworth and Chebyshev designs are stable (proved)

Poles with negative real part map inside the circle, for the bilinear and the band transforms; with C11-C13 this gives bounded, relaxing, settling behaviour of the model's output.

Theorems: `C36_designs_are_stable` (PropsBand.v; R+C); `C36_bounded_relaxing_steady` (PropsBand.v; R+C).

Scope: Exact arithmetic, every order, all twelve non-shelf classes, newly constructed objects.

### C37 Shelves have the requested gain (proved)

As C32 for the shelf prototype; gain evaluated at the ends and as closed form.

Theorems: `C37_lowshelf` (PropsBand.v; R+C); `C37_highshelf` (PropsBand.v; R+C); `C37_bandshelf` (PropsBand.v; R+C).

Scope: Exact arithmetic, every order (std::polar with negative radius taken as libstdc++ computes it, see C40); odd order band shelves whose transform hits a zero pole are excluded.

### C38 setup(sampleRate, f) equals setupN(f / sampleRate) (proved)

Classes.v transcribes every overload separately; each pair is proved equal for every `num`; classes_are_instances relates them to the generic model used elsewhere.

Theorems: `C38_setup_is_setupN_butterworth` (PropsClasses.v; none); `C38_setup_is_setupN_chebyshev1` (PropsClasses.v; none); `C38_setup_is_setupN_chebyshev2` (PropsClasses.v; none); `C38_setup_is_setupN_rbj` (PropsClasses.v; none); `classes_are_instances_of_setup_butterworth` (PropsClasses.v; none); `classes_are_instances_of_setup_chebyshev1` (PropsClasses.v; none); `classes_are_instances_of_setup_chebyshev2` (PropsClasses.v; none).

Scope: Every arithmetic; each of the 84+10 overloads transcribed separately.

### C39 Non-positive orders (partial)

Refutations: execution of the model for order 0, negative orders and -3.

Theorems: `C39_order_not_positive_refuted` (PropsCoef.v; R+C); `C39_order_minus_three_refuted` (PropsCoef.v; R+C).

Scope: The claim is FALSE of the code: orders <= 0 are accepted.

### C40 Standard library preconditions are met (partial)

Refutation for the Butterworth shelves; the positive part is C36 in the reading in which violation is UB (`strict = true`).

Theorems: `C40_polar_refuted` (PropsCoef.v; R+C); `C36_designs_are_stable` (PropsBand.v; R+C).

Scope: The claim is FALSE of the code for the Butterworth shelves (Butterworth.cpp:98-99 call std::polar with a negative radius). C36_designs_are_stable with strict = true shows that no other Butterworth/Chebyshev design violates the precondition.

### C41 Integer sample streams (proved)

Samples.v models the int-to-double conversion and the truncating cast with UB when out of range; Flocq's exactness of integers below 2^53 and C09's lemma.

Theorems: `C41_identity` (PropsFloat.v; R+C); `C41_identity_rbj` (PropsFloat.v; R+C); `C41_cast` (PropsFloat.v; R+C); `C41_cast_rbj` (PropsFloat.v; R+C).

Scope: binary64, every math library, every integer type whose values have magnitude below 2^53 (for the cast: every integer type).

### C42 Cascade indexing is bounds checked (proved)

Any `num`: case split of operator[] and the invariant numStages <= array length.

Theorems: `C42_indexing` (PropsAny.v; none).

Scope: Every arithmetic in which std::polar returns, every call history.

### C43 Filters that are not copied are independent (proved)

Heap model, any `num`: invariant that pointers of never-copied objects point to their own arrays; simulation of each object's own call list; the query calls read the same arrays.

Theorems: `C43_objects_independent` (PropsAny.v; none); `C43_queries` (PropsQuery.v; none).

Scope: Every arithmetic, every interleaving without copy construction.

### C44 Every documented band pass and band stop setup succeeds (partial)

Refutation: the transform gives a pole exactly 0, isMatchedPair tests `!= 0`; proved for a family of parameters, the quarter-band example, and in binary64 with the reference library.

Theorems: `C44_bandpass_throws_refuted` (PropsBand.v; R+C); `C44_bandstop_throws_refuted` (PropsBand.v; R+C); `C44_quarter_refuted` (PropsBand.v; R+C); `C44_double_refuted` (PropsBand.v; R+C); `C35_bandpass` (PropsBand.v; R+C); `C35_bandstop` (PropsBand.v; R+C).

Scope: The claim is FALSE of the code: an odd order design whose real prototype pole is mapped to z = 0 is rejected by ComplexPair::isMatchedPair (e.g. Butterworth, centre 1/4, width 1/4). C35 proves that all other setups succeed.

### C45 Float sample streams (proved)

As C41 with Flocq's binary32: double-to-float conversion rounds once, UB exactly on overflow of a finite value; with double samples the template is the plain chain.

Theorems: `C45_identity` (PropsFloat.v; R+C); `C45_identity_rbj` (PropsFloat.v; R+C); `C45_cast` (PropsFloat.v; R+C); `C45_cast_rbj` (PropsFloat.v; R+C); `C45_double` (PropsQuery.v; R+C); `C45_double_rbj` (PropsQuery.v; R+C).

Scope: binary64 and binary32 (Flocq), every math library.

### C46 Chebyshev shelf gains (proved)

As C33/C34 for the shelf prototypes with the ripple parameter; bounds of T_N on [-1,1].

Theorems: `C46_lowshelf` (PropsShelf.v; R+C); `C46_highshelf` (PropsShelf.v; R+C); `C46_bandshelf` (PropsShelf.v; R+C).

Scope: Exact arithmetic, both readings of std::polar, every order; odd order band shelves whose transform hits a zero pole or zero are excluded (see C44).

### C47 Chebyshev shelves have the requested gain for every gain and ripple (partial)

Refutations: the clamp of the ripple parameter in exact arithmetic, and executed binary64 witnesses for the wrong gain and for the exception at 0 dB.

Theorems: `C47_ripple_refuted` (PropsShelf.v; R+C); `C47_gain_double_refuted` (PropsShelf.v; R+C); `C47_zero_double_refuted` (PropsShelf.v; R+C); `C46_lowshelf` (PropsShelf.v; R+C); `C46_highshelf` (PropsShelf.v; R+C); `C46_bandshelf` (PropsShelf.v; R+C).

Scope: The claim is FALSE of the code: with ripple >= |gain| the clamp of the ripple parameter gives another gain (6 dB with 6 dB ripple gives 19.5 dB), and gain 0 dB throws. C46 proves it for 0 < ripple < |gain|.

### C48 Custom filters realise the given poles and zeros (proved)

Custom.v transcribes Custom.cpp; C17 and C11's notion of stability.

Theorems: `C48_onepole` (PropsCustom.v; R+C); `C48_twopole` (PropsCustom.v; R+C); `C48_negative_radius` (PropsCustom.v; R+C).

Scope: Exact arithmetic; TwoPole for both readings of std::polar.

### C49 Biquad::response is the frequency response (proved)

Biquad::response is a polynomial quotient at the unit-circle point; periodicity by polar; steady state from C13.

Theorems: `C49_value` (PropsCustom.v; R+C); `C49_as_cascade` (PropsCustom.v; R+C); `C49_symmetry` (PropsCustom.v; R+C); `C49_steady_state` (PropsCustom.v; R+C).

Scope: Exact arithmetic.

### C50 getPoleZeros of designed filters (proved)

The design chain (MapProofs, BandProofs, shelves) additionally keeps the digital layout and the sections setLayout makes of it (C20); getPoleZeros reads the layout. Each pair's first zero is not 0 because the leading coefficient of the transformed zero factor does not vanish.

Theorems: `C50_poles_and_zeros` (PropsPZ.v; R+C); `C50_butterworth_shelves` (PropsPZ.v; R+C); `C50_chebyshev_shelves` (PropsPZ.v; R+C).

Scope: Exact arithmetic, every order, newly constructed objects; the setups that throw (C44) are excluded; Butterworth shelves with std::polar as libstdc++ computes it (C40).

### C51 Layouts and cascades check their capacity (partial)

Modelled: LayoutBase::add..., Cascade::setLayout with the assignment to m_numStages before the check, XxxBase::setup. Refutations: for every cascade and every too large layout (any `num`), for every full layout (any `num`), and an executed binary64 witness for the base class setup.

Theorems: `C51_rejected_layout_refuted` (PropsPublic.v; none); `C51_full_layout_refuted` (PropsPublic.v; none); `C51_base_setup_refuted` (PropsPublic.v; R+C); `C52_public_calls_are_safe` (PropsPublic.v; none).

Scope: The claim is FALSE of the code: setLayout stores the number of stages before it throws, so a later response() or operator[] reads outside the array; LayoutBase::add never checks its capacity. C52 is the true part.

### C52 Mixing in the public Cascade interface stays memory safe (proved)

Public.v adds these calls to the histories of C21; the same invariant is kept by each of them (any `num`). Frame: each call runs on the cascade part only. Effects on the sections: QueryProofs.v.

Theorems: `C52_public_calls_are_safe` (PropsPublic.v; none); `C52_frame` (PropsQuery.v; none); `C52_scale` (PropsQuery.v; none); `C52_sos` (PropsQuery.v; none).

Scope: Every arithmetic in which std::polar returns.

### C53 Number of second order stages (proved)

Hoare triples that count the poles exactly through prototype design, transform and setLayout (CountLemmas.v, any `num`); histories by C24.

Theorems: `C53_stage_count` (PropsCount.v; none).

Scope: Every arithmetic in which std::polar returns; the histories excluded by C24 (a failed design of the same prototype before) are excluded here.

### C54 Rounding errors stay bounded for all time (proved)

RoundSpec.v defines gain, bounds and exact output over the reals. RoundProofs.v: each sum of products in State.h has error at most 2^-50 times its magnitude plus 2^-1066 (Flocq). RoundRun.v: per topology the double outputs satisfy the exact recursion with a bounded perturbation (induction over time, the level bound and the error bound together). RoundLemmas.v: composition over stages, gains from pole radii.

Theorems: `C54_rounding` (PropsRound.v; R+C); `C54_rounding_filter` (PropsRound.v; R+C); `C54_exact_output` (PropsRound.v; R+C); `C54_gain_from_radius` (PropsRound.v; R); `C54_stable_has_gain` (PropsRound.v; R).

Scope: Binary64 with round to nearest even, no contraction to fused operations; the constants 2^-46 and 2^-1060 are generous. Requires (gain of the recursion) * (|a1|+|a2|) <= 2^44 and values below 2^900. The exact filter has the rounded coefficients: errors made by setup() itself are not covered.

### C55 RBJ filters for arbitrary real cutoffs (proved)

RBJAllSpec.v states range and damping. RBJAll.v: every design has a0 = P + s, a2 = P - s with P > 0; the product of the poles is then inside the circle exactly for s > 0, and Jury's criterion gives the converse. The sign of s is that of the damping (sign lemmas for quotients, sinh, exp).

Theorems: `C55_rbj_any_cutoff` (PropsAccept.v; R+C); `C55_shelf_rejects` (PropsAccept.v; R+C).

Scope: Exact arithmetic.

### C56 RBJ filters are the bilinear transforms of the cookbook prototypes (proved)

RBJProtoSpec.v writes the cookbook's H(s). RBJProto.v: with T = tan(pi f) numerator and denominator of each design are a common factor times those of H((1-u)/(T(1+u))) (one field identity each); u = e^(-2 pi i f') gives s = i tan(pi f')/T.

Theorems: `C56_rbj_prototype` (PropsProto.v; R+C); `C56_notch` (PropsProto.v; R+C).

Scope: Exact arithmetic.

### C57 RBJ default arguments (proved)

RBJDefaults.v models the default arguments. RBJPeak.v: squared gain 1/((1-v^2)^2 + v^2/Q^2) from C56; with Q = 1/sqrt 2 this is 1/(1+v^4), the Butterworth gain of C32.

Theorems: `C57_defaults_stable` (PropsProto.v; R+C); `C57_defaults_butterworth` (PropsProto.v; R+C).

Scope: Exact arithmetic. Absolute value of the response; phases are not compared.

### C58 Resonance of the RBJ low and high pass (proved)

RBJPeak.v: complete the square in v^2; the frequency of the peak is found with atan.

Theorems: `C58_resonance` (PropsProto.v; R+C).

Scope: Exact arithmetic.

### C59 Where designed filters settle (proved)

EndSpec.v lists the levels. EndLemmas.v: by C50 the response is K times a quotient of products over conjugate or real pairs with K > 0, poles inside and zeros in the closed unit disc; at u = 1 and u = -1 all factors are real and >= 0, so the response is the non-negative root of the squared gain known from C32-C37, C45, C46. Limits: C13's proof for inputs that only approach a sinusoid (stable recursions map null sequences to null sequences).

Theorems: `C59_end_gains` (PropsEnd.v; R+C); `C59_settles` (PropsEnd.v; R+C); `C59_band_stop_centre` (PropsEnd.v; R+C); `C59_steady_state` (PropsEnd.v; R+C).

Scope: Exact arithmetic, std::polar as libstdc++ computes it (C40). The designs that throw (C44) and Chebyshev shelves with ripple >= |gain| (C47) are excluded.

### C60 Where RBJ filters settle (proved)

RBJSettle.v: one section, limit as in C13, response from C56 and C30.

Theorems: `C60_sinusoid` (PropsEnd.v; R+C); `C60_settles` (PropsEnd.v; R+C); `C60_notch` (PropsEnd.v; R+C).

Scope: Exact arithmetic. The constant input of the IIR notch is covered by C56_notch only.

### C61 RBJ designs in double precision (proved)

DblSpec.v: accuracy of the library, the cookbook's table over the reals. DblProofs.v carries absolute error bounds through the code's operations (Flocq), DblPi.v bounds the rounding of pi; the stability margin sin(w)/(2q) of the ideal filter exceeds the error (DblLemmas.v). C61_design_exact: the table is what the model computes over the exact reals.

Theorems: `C61_design_in_double` (PropsDbl.v; R+C); `C61_design_exact` (PropsDbl.v; R+C).

Scope: Binary64, hypothesis libm_close: sin, cos on [-4,4] and exp on [-128,1] are off by at most 2^-50. The three shelves are the subject of C70.

### C62 RBJ filters in double precision against the ideal filter (proved)

DblLemmas.v: C54 bounds the double filter against its own coefficients; a perturbation argument on the recursion bounds the effect of the coefficient errors, the perturbed recursion has at most twice the ideal gain.

Theorems: `C62_output_in_double` (PropsDbl.v; R+C); `C62_gain_complex_poles` (PropsDbl.v; R+C); `C62_gain_margin` (PropsDbl.v; R).

Scope: As C61; gain of the ideal recursion at most 2^37, inputs at most 2^800. Not fused, round to nearest even.

### C63 Closed form of Butterworth low and high pass coefficients (proved)

BwDblSpec.v states the sections; BuildAny.v: what setLayout stores for any digital layout, in any arithmetic; BwExact.v: bilinear images of the poles in closed form, response at the normalisation frequency as a product of real section responses.

Theorems: `C63_butterworth_coefficients` (PropsBwDbl.v; R+C).

Scope: Exact arithmetic. Orders with 2n in the range of int.

### C64 Butterworth low and high pass designs in double precision: poles (proved)

CplxDbl.v, BwDbl*.v: error bounds for complex doubles through tan, polar, the bilinear map and setTwoPole/setOnePole; the stability margin of the ideal sections exceeds the error. The hypotheses about the library are met by one that rounds correctly (design_libm, BwDblFinal.v).

Theorems: `C64_butterworth_in_double` (PropsBwDbl.v; R+C).

Scope: Binary64, hypothesis libm_design: tan within 2^-50 relative on [2^-15, pi/2 - 2^-15], polar within 2^-50, complex division within 2^-48 relative. Fresh filter object.

### C65 Butterworth low and high pass designs in double precision: scale factor (proved)

BwScale.v: relative errors of the products in Cascade::response, near positive reals; BwScaleLemmas.v: section bounds and assembly.

Theorems: `C65_butterworth_scale_in_double` (PropsBwDbl.v; R+C).

Scope: As C64, with libm_response: complex product and modulus within 2^-48 relative. Orders up to 24.

### C66 Butterworth low and high pass in double precision against the ideal filter (proved)

ChainSpec.v: error budget of a cascade, section by section; ChainLemmas.v: composition of C54's rounding bounds with the distance of two recursions with near coefficients; BwOut.v: gain of the ideal recursions and assembly with C64, C65.

Theorems: `C66_butterworth_output` (PropsChain.v; R+C); `C66_gain` (PropsChain.v; R); `C66_cascade_output` (PropsChain.v; R+C).

Scope: As C65; after setting up a freshly constructed filter; inputs bounded by X with chain_ok. Not fused, round to nearest even.

### C67 Stability of accepted Butterworth designs in double precision (partial)

True part: C64. False: at 2^-30 from 0 (low pass) or from Nyquist (high pass) the order 2 design is accepted and the rounded coefficients satisfy 1 + a1 + a2 = 0 (1 - a1 + a2 = 0), a pole at 1 (-1), computed with the runnable library ref_libm. The response used for the scale factor then divides by zero, so the scale is 0 or NaN depending on the complex division. Nothing in the code bounds the cutoff from below.

Theorems: `C67_stability_partial` (PropsTiny.v; R+C); `C67_stability_refuted` (PropsTiny.v; R+C).

Scope: Cutoffs between 2^-14 and 1/2 - 2^-14 and orders up to 2^15 are proved for every accurate library; refuted for a cutoff 2^-30 away from the ends.

### C68 Rounding error bounds with fused multiply-add (proved)

Contract.v: evaluation of the expressions of State.h as a relation, each sum with a product operand may be one fused operation. ContractProofs.v: every such evaluation has the error bound used in C54, because fusing only removes a rounding; ContractLemmas.v repeats the argument of C54 and C66 for the relation; ContractBw.v: unused sections pass the signal unchanged under contraction too. C68_no_contraction: the functional model is one of the runs of the relation.

Theorems: `C68_contraction` (PropsContract.v; R+C); `C68_contraction_filter` (PropsContract.v; R+C); `C68_contraction_ideal` (PropsContract.v; R+C); `C68_contraction_butterworth` (PropsContract.v; R+C); `C68_no_contraction` (PropsContract.v; R+C).

Scope: Binary64 with any fused multiply-adds in the filter functions; the design code is not contracted.

### C69 The cascade's own getPoleZeros agrees with the design (proved)

Any `num`: induction over the sections. Exact: by C50 every active section realises its pair with a factor k <> 0; if a2 or b2 is not 0 the roots of the quadratic formula give the same factorisation (C18's first part), otherwise the zero is real of modulus 1 and -b0/b1 equals it.

Theorems: `C69_sections` (PropsCasPZ.v; none); `C69_designs` (PropsCasPZ.v; R+C); `C69_butterworth_shelves` (PropsCasPZ.v; R+C); `C69_chebyshev_shelves` (PropsCasPZ.v; R+C).

Scope: Designs: exact arithmetic, newly constructed objects; first order shelf sections are excluded because BiquadPoleState reports the reciprocal zero there (C18).

### C70 RBJ shelves in double precision (proved)

RbjShSpec.v: accuracy of the library, the cookbook's formulas for the shelves over the reals, the admitted arguments. RbjShProofs.v: numerical bounds of ln 2, ln 10 and 10^(5/8); absolute error bounds through the code's operations including sqrt; near Nyquist the error of the argument of sinh grows like 1/sin w, which the factor sin w of AL cancels. RbjShLemmas.v: stability margins, the output bound (as C62), agreement of the formulas with the exact model.

Theorems: `C70_shelf_in_double` (PropsRbjSh.v; R+C); `C70_shelf_exact` (PropsRbjSh.v; R+C); `C70_output_in_double` (PropsRbjSh.v; R+C); `C70_gain_complex_poles` (PropsRbjSh.v; R).

Scope: Binary64, hypothesis libm_shelf: as C61, and pow(10,.) on [-5/8,5/8] is off by at most 2^-50, sinh on [-1,4] by at most 2^-47. Gain of the ideal recursion at most 2^34, inputs at most 2^800. Not fused, round to nearest even.

### C71 The library without exceptions (proved)

NoExc.v runs the same calls with a throw turned into the end of the program (there is no catch in the library). Each step agrees with the step of the library with exceptions until the first throw; a layout that is too large is rejected by setLayout before it is used (the lemma behind C51), so the invariant of C21 holds in every program still running. A program still running has seen no failed setup, which is the condition of C24 on the history.

Theorems: `C71_safe_or_aborted` (PropsNoExc.v; none); `C71_aborts_at_first_throw` (PropsNoExc.v; none); `C71_setup_does_not_depend_on_history` (PropsNoExc.v; none).

Scope: Every arithmetic in which std::polar returns. Layouts passed to setLayout are valid ones (as built by a layout object), of any size.

### C72 Closed form of Chebyshev low and high pass coefficients (proved)

ChCoefSpec.v: the section of a pair of analogue poles given by real part and squared modulus, the poles and zeros of the two prototypes, the factor. ChExact.v: the image of a point left of the imaginary axis under both transforms, the coefficients built from it, positivity of every section at the normalisation frequency; the setup is that of C63 for an arbitrary list of sections.

Theorems: `C72_chebyshev_coefficients` (PropsChCoef.v; R+C).

Scope: Exact arithmetic.

### C73 Chebyshev low and high pass designs in double precision (proved)

ChDblSpec.v: accuracy of the library, the admitted parameters, the bound. RelDbl.v: relative errors through the operations. ChDbl.v, ChDbl2.v: conditioning of exp, log, asinh, sinh, cosh, then the constants sinh v0, cosh v0 of the code. ChDbl3.v, ChDbl4.v: angles, poles, their inverses and the zeros on the imaginary axis; |pole|^2 = sinh^2 v + cos^2 a bounds the loss in the inverse. SimDbl.v: error of the bilinear transform for any point left of the axis. SimSetup.v: setup for any prototype given as a list. ChDblLemmas.v: distance of the poles from the unit circle over the admitted parameters, larger than the error.

Theorems: `C73_chebyshev_in_double` (PropsChDbl.v; R+C).

Scope: Binary64, hypotheses libm_design (tan, polar, complex division) and libm_cheb (sin, cos, log, exp, sinh, cosh accurate to about 2^-50 on the arguments that occur). Newly constructed filter objects (C24 for others).

### C74 Filters that have not been set up (proved)

UnsetLemmas.v: calls without setup keep the constructed coefficients (any `num`); C09 for the outputs.

Theorems: `C74_before_setup` (PropsUnset.v; none); `C74_pass_through` (PropsUnset.v; R+C); `C74_pass_through_rbj` (PropsUnset.v; R+C); `C74_pass_through_sos` (PropsUnset.v; R+C).

Scope: Queries: every arithmetic. The response is what complex division returns for 1/1.

### C75 Chebyshev low and high pass designs in double precision: scale factor (proved)

ChScaleSpec.v: the accuracy asked of pow, the condition number, the bound, the ideal cascade. ChScale.v: the sections at z = 1 and z = -1 are positive and not too small, relative errors through Cascade::response and pow, assembly with C73.

Theorems: `C75_chebyshev_scale_in_double` (PropsChOut.v; R+C).

Scope: As C73, with libm_response (complex product and modulus within 2^-48 relative) and libm_pow10 (pow(10,x) within 2^-50 relative on [-2,0]). Orders up to 24.

### C76 Output of Chebyshev low and high pass filters in double precision (proved)

ChScaleSpec.v: gains and error budget; ChOut.v: gain of the ideal recursions, assembly of C73, C75 with the chain bound of C66 (BwOut.v: chain_out), the numerical example.

Theorems: `C76_chebyshev_output` (PropsChOut.v; R+C); `C76_gain` (PropsChOut.v; R+C).

Scope: As C75; after setting up a freshly constructed filter; inputs bounded by X with chain_ok. Not fused, round to nearest even.

### C77 Frequency response computed in double precision (proved)

RespDblSpec.v: the frequency response of a list of ideal sections, its condition number and the bound. RespDbl.v: errors of polar, of the two addmul per polynomial and of the products, as complex errors relative to the sums of absolute values. RespDblLemmas.v: the loop over the stages and the quotient.

Theorems: `C77_response_of_stored` (PropsResp.v; R+C); `C77_biquad_response` (PropsResp.v; R+C); `C77_response_of_near` (PropsResp.v; R+C).

Scope: Binary64, any library with libm_design and libm_response (polar, complex division and product). The denominator must not vanish at f and the condition number must be moderate.

### C78 Frequency response of low and high pass filters set up in double precision (proved)

RespOutSpec.v: the ideal cascades. RespOut.v: the exact setup stores these (BwExact.v, ChExact.v), so their response is that of C32-C34, and stability (C36) keeps the denominator from vanishing. RespOut2.v: the scale factor is at most 1, the stored coefficients (C64, C65, C73, C75) are near in the sense of C77; the example.

Theorems: `C78_butterworth_response` (PropsResp.v; R+C); `C78_chebyshev_response` (PropsResp.v; R+C); `C78_ideal_gain` (PropsResp.v; R+C).

Scope: Newly constructed filters. The gain curve is that of C32-C34, for the same ideal coefficients the double design approximates.

### C79 Frequency response of RBJ filters set up in double precision (proved)

RbjRespSpec.v: coefficients, ranges and error of all ten filters. RbjResp.v: C61 and C70 give the stored coefficients, C77 the response; the exact response is the one of C56 (prototype at the warped frequency); example.

Theorems: `C79_rbj_response` (PropsRbjResp.v; R+C); `C79_ideal_response` (PropsRbjResp.v; R+C); `C79_ideal_notch` (PropsRbjResp.v; R+C).

Scope: Binary64, any library with libm_design, libm_response and the accuracy asked by C61 / C70. The relative coefficient error must be at most 2^-10 and the condition number moderate.

### C80 Fused multiply-add in Chebyshev and RBJ filters (proved)

Contract.v, ContractLemmas.v: contracted filter functions and their error (C68). ContractCh.v: the stored coefficients of C73, C75 and C61, C70 put into the chain bound.

Theorems: `C80_contraction_chebyshev` (PropsContractCh.v; R+C); `C80_contraction_rbj` (PropsContractCh.v; R+C).

Scope: Only the filter functions are contracted; the design is computed without fused operations. Round to nearest even. The gain G of the RBJ recursion is a parameter bounded by chain_ok.

### C81 Filters with a past, set up again and reset (proved)

ReuseLemmas.v: the setup rebuilds the layout from the same parameters (C23, C24) and reset clears the delay lines, so the two filters agree on the active stages; then C66, C76, C78 for the new filter carry over.

Theorems: `C81_setup_then_reset` (PropsReuse.v; none); `C81_butterworth_used` (PropsReuse.v; R+C); `C81_chebyshev_used` (PropsReuse.v; R+C).

Scope: calm: no earlier setup for the same analogue prototype threw a design error. Parameters compared by the cache (gain, ripple) must equal themselves (no NaN).

### C82 Closed form of the coefficients of Butterworth shelves (proved)

ShelfDblSpec.v: the closed form. ShelfExact.v: the exact setup of the proof of C37 evaluated at the bilinear images of the points on the circles of radius g and 1/g; product of the values at the normalisation frequency; examples.

Theorems: `C82_shelf_coefficients` (PropsShelfCoef.v; R+C).

Scope: Exact arithmetic in which polar of a negative radius is evaluated (the standard leaves it undefined, C16).

### C83 Butterworth shelves in double precision: coefficients (proved)

ShelfDblSpec.v: ranges and error. ShelfSetup.v: the setup unfolded. ShelfDbl.v, ShelfDbl2.v: relative errors of g and 1/g through pow, of the points on the two circles, of their bilinear images and of the coefficients.

Theorems: `C83_shelf_in_double` (PropsShelfDbl.v; R+C).

Scope: Round to nearest even. libm_bwshelf asks pow to be accurate and polar with a negative radius to be evaluated accurately (the standard leaves it undefined, C16).

### C84 Butterworth shelves in double precision: scale factor (proved)

ShelfScale.v: the product of the section responses at the normalisation frequency, as in C65 and C75.

Theorems: `C84_shelf_scale_in_double` (PropsShelfDbl.v; R+C).

Scope: Round to nearest even; library as in C83.

### C85 Output of Butterworth shelves in double precision (proved)

ShelfOut.v: the stored coefficients of C83 and C84 put into the chain bound (BwOut.v), the contracted one (ContractCh.v) and C81. ShelfEx.v: a library and the numbers of the examples.

Theorems: `C85_shelf_output` (PropsShelfDbl.v; R+C); `C85_gain` (PropsShelfDbl.v; R+C); `C85_contraction` (PropsShelfDbl.v; R+C); `C85_shelf_used` (PropsShelfDbl.v; R+C).

Scope: Round to nearest even; library as in C83. Only the filter functions are contracted, not the design. A shelf with a past: gain other than 0 dB, and calm as in C81.

### C86 Frequency response of Butterworth shelves set up in double precision (proved)

ShelfOut.v: bound of the scale factor by the gain, then C77; the ideal cascade is the exact setup of C82, whose response is that of C37.

Theorems: `C86_shelf_response` (PropsShelfDbl.v; R+C); `C86_shelf_ideal` (PropsShelfDbl.v; R+C).

Scope: Round to nearest even; library as in C83.

### C87 Running on without reset in double precision (proved)

RunOnSpec.v: what the delay lines leave, the difference equations with two extra inputs, the bounds. RunOn.v: one section of each state structure. RunOnLemmas.v: cascades, forgetting by weighting the signals with rho^n in the gain bound, filter objects. RunOnEx.v: the numbers of the examples.

Theorems: `C87_running_on` (PropsRunOn.v; R+C); `C87_exact` (PropsRunOn.v; R+C); `C87_forgets` (PropsRunOn.v; R+C); `C87_settles` (PropsRunOn.v; R+C); `C87_filter` (PropsRunOn.v; R+C); `C87_switch` (PropsRunOn.v; R+C).

Scope: Round to nearest even, no contraction. The recursion gain bound is a hypothesis, as in C54 (it follows from the poles, C54_gain_from_radius). A switch keeps the class and state structure.

### C88 Falling silent in double precision (proved)

DecaySpec.v: the falling level and the constants. Decay.v: gain bound for signals measured in units of a slowly falling level, rounding errors of one section of each state structure in these units. DecayLemmas.v: cascades and filter objects. DecayEx.v: numbers of the example.

Theorems: `C88_falls` (PropsDecay.v; R+C); `C88_silence` (PropsDecay.v; R+C); `C88_filter` (PropsDecay.v; R+C).

Scope: Round to nearest even, no contraction, subnormal numbers not flushed to zero. The recursion gain bound is a hypothesis, as in C54; the rate rho follows from it.

### C89 Silence and periodic signals end exactly in double precision (partial)

LimitEx.v runs the setup and 3400 samples of the impulse response in the kernel's virtual machine and finds delay lines that return after six samples of silence. LimitLemmas.v: there are finitely many doubles, so the delay lines at multiples of the period repeat (pigeonhole).

Theorems: `C89_silence_refuted` (PropsLimit.v; R+C); `C89_periodic_partial` (PropsLimit.v; R+C); `C89_periodic_filter_partial` (PropsLimit.v; R+C); `C89_periodic_rbj_partial` (PropsLimit.v; R+C).

Scope: The claim is false for the code; the refutation and what is true are proved. C88 bounds what is left.

### C90 State structure, order of the stages and superposition in double precision (proved)

EquivLemmas.v: C54 for each of the runs; the exact outputs are the real runs, which do not depend on the state structure or the order of the stages and are linear. EquivEx.v: the numbers of the example.

Theorems: `C90_topologies` (PropsEquiv.v; R+C); `C90_order` (PropsEquiv.v; R+C); `C90_linear` (PropsEquiv.v; R+C).

Scope: Round to nearest even, no contraction; cascades at rest at the start. The recursion gain bound is a hypothesis, as in C54.

### C91 Designed filters fall silent in double precision (proved)

DesFallSpec.v: the bounds of C88 in terms of the ideal sections. DesFall.v: the stored coefficients (C64-C66, C73-C76, C83-C85, C61, C70) are near the ideal ones, the gain of the stored recursion is at most twice the ideal one, spare stages are the identity; then C88. DesFallEx.v: the numbers of the examples.

Theorems: `C91_butterworth` (PropsDesFall.v; R+C); `C91_chebyshev` (PropsDesFall.v; R+C); `C91_shelf` (PropsDesFall.v; R+C); `C91_rbj` (PropsDesFall.v; R+C); `C91_level` (PropsDesFall.v; functional_extensionality_dep, sig_forall_dec).

Scope: Round to nearest even, no contraction, subnormal numbers not flushed to zero. Libraries as in C66, C76, C85 and C79. The gain G of the RBJ recursion is a parameter bounded by dfall_ok.

### C92 Streams of integer and float samples in double precision against the exact filter (proved)

SmpRound.v: a loop of filter calls with conversions is a run in double whose outputs can all be converted (or one cannot); then C54 and the conversions of C41 and C45. SmpEx.v: the numbers of the examples.

Theorems: `C92_integers` (PropsSmpRound.v; R+C); `C92_never_clips` (PropsSmpRound.v; R+C); `C92_clips` (PropsSmpRound.v; R+C); `C92_floats` (PropsSmpRound.v; R+C).

Scope: Round to nearest even, no contraction; cascades at rest at the start; integers below 2^53 in size. The recursion gain bound is a hypothesis, as in C54. Between the two margins of C92_integers and C92_clips the outcome depends on the rounding.

### C93 Double-precision filters settle on the sinusoid of the ideal response (proved)

SettleSpec.v: sinusoids, and what it means to follow one. Settle.v: a recursion with a gain bound is stable (a root z outside the open unit disc would let (n+1) z^n grow faster than its input); the ideal cascade has the steady state of C13; the rounding bound of C66 with inputs that are off by e. SettleResp.v: the numbers of the examples.

Theorems: `C93_cascade` (PropsSettle.v; R+C); `C93_butterworth` (PropsSettle.v; R+C); `C93_chebyshev` (PropsSettle.v; R+C); `C93_shelf` (PropsSettle.v; R+C); `C93_rbj` (PropsSettle.v; R+C); `C93_gain_stable` (PropsSettle.v; R).

Scope: Round to nearest even, no contraction; filters at rest at the start. Libraries as in C66, C76, C85 and C79. The time N is not computed.

### C94 In double precision response() tells what filter() settles on (proved)

SettleResp.v: C93 and the error bounds of response() from C77, C78, C79 and C86; both start from the same setup.

Theorems: `C94_stored` (PropsSettle.v; R+C); `C94_butterworth` (PropsSettle.v; R+C); `C94_chebyshev` (PropsSettle.v; R+C); `C94_shelf` (PropsSettle.v; R+C); `C94_rbj` (PropsSettle.v; R+C).

Scope: Round to nearest even, no contraction; filters at rest at the start. Conditioning hypotheses as in C77 to C79 and C86.

### C95 A running or retuned filter settles on its response in double precision (proved)

SettleOn.v: a rate of forgetting exists for every cascade with gain bounds, so the run from any delay lines and the run from rest come together (C87) uniformly in the delay lines; the run from rest settles as in C93. SettleOn2.v: with the error bound of response() from C77.

Theorems: `C95_cascade` (PropsSettleOn.v; R+C); `C95_filter` (PropsSettleOn.v; R+C); `C95_switch` (PropsSettleOn.v; R+C); `C95_response` (PropsSettleOn.v; R+C).

Scope: Round to nearest even, no contraction. The time N is not computed (C97 has explicit rates).

### C96 Documented gains in double precision (proved)

MarkSpec.v: the frequencies and gains. Mark.v: at these frequencies the numerator of the ideal section is the gain times its denominator (polynomial identities in sin and cos), the scale factor of a Butterworth cascade makes the numerators equal to the denominators at the end of the pass band, and C93. MarkEx.v: the numbers of the notch example.

Theorems: `C96_rbj` (PropsMark.v; R+C); `C96_butterworth` (PropsMark.v; R+C).

Scope: Round to nearest even, no contraction; filters at rest at the start. Libraries as in C79 and C66. The time N is not computed.

### C97 How fast double-precision filters settle (proved)

SettleRate.v: the sinusoid that a stage settles on solves its difference equation exactly if the delay lines hold the values of the sinusoids before the first sample; these are bounded by the amplitudes, so the run from the actual delay lines comes together with it at the rate of C87. SettleRateEx.v: the numbers of the example.

Theorems: `C97_cascade` (PropsRate.v; R+C); `C97_filter` (PropsRate.v; R+C).

Scope: Round to nearest even, no contraction.

### C98 Filters settle as predicted when the compiler fuses operations (proved)

SettleFma.v: as for C93, with the rounding bound of C68 (cchain_round) in place of that of C66; spare stages at the end of a filter object pass samples on unchanged with fused operations too.

Theorems: `C98_cascade` (PropsSettleFma.v; R+C); `C98_butterworth` (PropsSettleFma.v; R+C); `C98_chebyshev` (PropsSettleFma.v; R+C); `C98_shelf` (PropsSettleFma.v; R+C); `C98_rbj` (PropsSettleFma.v; R+C).

Scope: Round to nearest even; filters at rest at the start; setup itself without fused operations. Libraries as in C66, C76, C85 and C79. The time N is not computed.

### C99 Running filters when the compiler fuses operations (proved)

FmaOn.v: the induction of C87 for one section of each state structure, with the error bounds of contracted expressions from C68. FmaOnLemmas.v: cascades one section at a time; the forgetting of exact runs from C87, the sinusoids of C97.

Theorems: `C99_cascade` (PropsFmaOn.v; R+C); `C99_two` (PropsFmaOn.v; R+C); `C99_settles` (PropsFmaOn.v; R+C); `C99_filter` (PropsFmaOn.v; R+C).

Scope: Round to nearest even. Rate and K as in C87 and C97. What the delay lines hold at the end of a contracted run is bounded in C100.

### C100 Silence when the compiler fuses operations (proved)

FmaFall.v: the induction of C88 for one section of each state structure, with the error bounds of contracted expressions from C68. FmaOn.v (cstage_hold): the bound of the delay lines. FmaFallSpec.v: contracted runs with their final delay lines. FmaFallLemmas.v: cascades one section at a time.

Theorems: `C100_falls` (PropsFmaFall.v; R+C); `C100_silence` (PropsFmaFall.v; R+C); `C100_states` (PropsFmaFall.v; R+C); `C100_after` (PropsFmaFall.v; R+C); `C100_filter` (PropsFmaFall.v; R+C).

Scope: Round to nearest even. Rate and K as in C88. The final level is subnormal in the examples but not shown to be zero.

### C101 Designed filters fall silent when the compiler fuses operations (proved)

FmaDes.v: as DesFall.v (C91), with C100 in place of C88.

Theorems: `C101_butterworth` (PropsFmaDes.v; R+C); `C101_chebyshev` (PropsFmaDes.v; R+C); `C101_shelf` (PropsFmaDes.v; R+C); `C101_rbj` (PropsFmaDes.v; R+C).

Scope: Round to nearest even; setup is computed without contraction; ranges, rate and K as in C91. C91_level tells what the bound comes to.

## Trusted base

1. The kernel of Coq 8.16.1 (including `vm_compute`, used to evaluate the model on concrete binary64
   inputs in witnesses and examples). No kernel check is switched off; there are no axioms, parameters,
   admitted proofs, functors, module types or plugins in `rocq/theories`.
2. Axioms, all from Coq's standard library, as printed by `Print Assumptions` after each theorem
   (the build log shows them; abbreviations used above):
   * **none**: "Closed under the global context".
   * **R**: `ClassicalDedekindReals.sig_forall_dec`, `ClassicalDedekindReals.sig_not_dec`,
     `FunctionalExtensionality.functional_extensionality_dep` (the construction of the real numbers).
   * **R+C**: R and `Classical_Prop.classic`. Flocq's operations carry proofs over the reals, so
     binary64 theorems list the same axioms.
   The libraries Flocq (binary floating point) and Coquelicot (complex numbers, limits) add none.
3. The transcription: that the Gallina functions do what the cited C++ lines do. Every definition cites
   file and lines. The mutation tests of `seeded/LOG.jsonl` check that the theorems notice wrong
   transcriptions of the kind a bug would produce.
4. For the theorems about binary64: that C++ `double` is IEEE-754 binary64 with round to nearest even
   and no excess precision, with subnormal numbers (not flushed to zero); and no contraction, except in C68, C80, C85_contraction, C98, C99, C100 and C101, which allow it in the filter functions. The math library is universally quantified, except in
   witnesses: these evaluate the model with `RefLibm.ref_libm`, Taylor series evaluated in binary64 (about 1e-13
   accurate), not glibc's functions.

## What of the code is modelled

| file of /repo/iir | model | not modelled |
|---|---|---|
| Common.h | `throw_invalid_argument` as the outcome `Throw`/`Exc`; the IIR1_NO_EXCEPTIONS variant (abort) for calls on one filter in NoExc.v | export macros |
| MathSupplement.h | constants, `infinity`, `addmul`, `asinh` by the formula in the code, `is_nan` | |
| Types.h | `ComplexPair`, `PoleZeroPair`, `isMatchedPair`, `is_nan` | |
| Layout.h | `LayoutBase`, `Layout<N>`: add, addPoleZeroConjugatePairs, reset, operator[], normal W and gain, bounds of the reserved array | |
| Biquad.h/.cpp | coefficients, getters, `response`, `getPoleZeros`, `setCoefficients`, `setOnePole`, `setTwoPole`, `setPoleZeroForm`, `setIdentity`, `applyScale`, `BiquadPoleState` | |
| State.h | DirectFormI, DirectFormII, TransposedDirectFormII: filter, reset; filter with fused multiply-adds (Contract.v) | |
| Cascade.h/.cpp | `CascadeStages` (filter, reset, setup with sections), `Cascade` (storage pointer, response, getPoleZeros, operator[], applyScale, setLayout) | `setCascadeStorage` with an array other than the filter's own. Histories (Public.v, C52) contain user calls of `applyScale`, `setLayout`, `setCascadeStorage(getCascadeStorage())` and `CascadeStages::setup`; they leave out layouts larger than the filter and `XxxBase::setup` called by its base name, for which C51 shows undefined behaviour |
| PoleFilter.h/.cpp | the four transforms, the `PoleFilter` object (two layouts, pointers, copy constructor, assignment) | |
| Butterworth.h/.cpp, ChebyshevI.h/.cpp, ChebyshevII.h/.cpp | prototypes with their caches, all 21 classes with all `setup`/`setupN` overloads (Classes.v transcribes each of the 84) | |
| RBJ.h/.cpp | all ten classes, `setup` and `setupN`, default arguments (RBJDefaults.v) | |
| Custom.h/.cpp | OnePole, TwoPole, SOSCascade | |
| sample type template of `filter<Sample>` | double, float, integer types | other types |

Not modelled anywhere: NaN payloads and the sign of NaN, floating point exceptions flags, rounding mode
changes, fused multiply-add contraction of the design code (for the filter functions see Contract.v, C68), extended precision, `-ffast-math`, memory exhaustion, threads,
the demo, test and documentation directories, the build system.

{
 "claims": [
  {
   "property": "C01",
   "status": "proved",
   "theorems": [
    "C01_difference_equation"
   ],
   "note": "Exact arithmetic; any old coefficients, any input."
  },
  {
   "property": "C02",
   "status": "proved",
   "theorems": [
    "C02_topologies_interchangeable",
    "C02_topologies_interchangeable_one"
   ],
   "note": "Exact arithmetic; any finite coefficients."
  },
  {
   "property": "C03",
   "status": "proved",
   "theorems": [
    "C03_linear"
   ],
   "note": "Exact arithmetic."
  },
  {
   "property": "C04",
   "status": "proved",
   "theorems": [
    "C04_time_invariant",
    "C04_silence",
    "C04_silence_filter",
    "C04_silence_rbj"
   ],
   "note": "Time invariance in exact arithmetic, silence in binary64 for every math library."
  },
  {
   "property": "C05",
   "status": "proved",
   "theorems": [
    "C05_streaming"
   ],
   "note": "Every arithmetic; Butterworth/Chebyshev filters, SOSCascade and RBJ filters, any state."
  },
  {
   "property": "C06",
   "status": "proved",
   "theorems": [
    "C06_reset_restores_fresh_behaviour",
    "C06_reset_keeps_the_design",
    "C06_reset_rbj",
    "C06_reset_sos"
   ],
   "note": "Every arithmetic, every call history."
  },
  {
   "property": "C07",
   "status": "proved",
   "theorems": [
    "C07_cascade_is_chain",
    "C07_stages_commute"
   ],
   "note": "Chain law for every arithmetic, permutation law in exact arithmetic."
  },
  {
   "property": "C08",
   "status": "proved",
   "theorems": [
    "C08_nan_stays",
    "C08_nan_stays_filter",
    "C08_nan_stays_rbj",
    "C06_reset_restores_fresh_behaviour",
    "C06_reset_rbj",
    "C06_reset_sos"
   ],
   "note": "binary64, every math library; the reset half is C06 (every arithmetic, hence also with NaN delay lines)."
  },
  {
   "property": "C09",
   "status": "proved",
   "theorems": [
    "C09_identity_stages",
    "C09_identity_stages_alone",
    "C09_unused_stages"
   ],
   "note": "binary64, every math library; unused stages for every call history whose std::polar calls return."
  },
  {
   "property": "C10",
   "status": "proved",
   "theorems": [
    "C10_negated_input",
    "C10_negated_input_filter",
    "C10_negated_input_rbj",
    "C10_zero_signs_do_not_matter"
   ],
   "note": "binary64, every math library."
  },
  {
   "property": "C11",
   "status": "proved",
   "theorems": [
    "C11_bounded_output",
    "C11_bounded_output_filter"
   ],
   "note": "Exact arithmetic; any finite delay line contents."
  },
  {
   "property": "C12",
   "status": "proved",
   "theorems": [
    "C12_relaxes_to_zero",
    "C12_relaxes_to_zero_filter"
   ],
   "note": "Exact arithmetic; any finite delay line contents."
  },
  {
   "property": "C13",
   "status": "proved",
   "theorems": [
    "C13_response_is_steady_state",
    "C13_response_is_steady_state_filter"
   ],
   "note": "Exact arithmetic; any finite delay line contents."
  },
  {
   "property": "C14",
   "status": "proved",
   "theorems": [
    "C14_response_domain"
   ],
   "note": "Every arithmetic in which std::polar returns; every call history."
  },
  {
   "property": "C15",
   "status": "proved",
   "theorems": [
    "C15_nan_rejected",
    "C15_getters",
    "C01_difference_equation"
   ],
   "note": "Rejection for every arithmetic; getters and difference equation in exact arithmetic."
  },
  {
   "property": "C16",
   "status": "partial",
   "theorems": [
    "C16_a0_zero_refuted",
    "C16_rbj_refuted",
    "C16_a0_zero_double_refuted",
    "C16_negative_width_refuted",
    "C16_stored_nan_partial",
    "C16_finite_partial"
   ],
   "note": "The claim is FALSE of the code: refuted in exact arithmetic (a0 = 0, RBJ q = 0) and in binary64 (a0 = 0 for every math library; negative band width with the reference library). True part, binary64: for arguments that are not NaN a stored coefficient is NaN exactly for 0/0 and inf/inf; finite arguments with a0 not 0 never store NaN. Missing: a check of a0 in the code."
  },
  {
   "property": "C17",
   "status": "proved",
   "theorems": [
    "C17_setTwoPole",
    "C17_setOnePole"
   ],
   "note": "Exact arithmetic, all finite complex arguments."
  },
  {
   "property": "C18",
   "status": "partial",
   "theorems": [
    "C18_round_trip_partial",
    "C18_single_pole_refuted",
    "C18_no_nan"
   ],
   "note": "The claim is FALSE for sections with one pole and one zero (Biquad.cpp:58 reports -b0/b1 instead of -b1/b0): refuted. Proved for all other sections with a0, b0 not 0. C18_no_nan: every arithmetic."
  },
  {
   "property": "C19",
   "status": "proved",
   "theorems": [
    "C19_applyScale"
   ],
   "note": "Exact arithmetic."
  },
  {
   "property": "C20",
   "status": "proved",
   "theorems": [
    "C20_setLayout"
   ],
   "note": "Exact arithmetic."
  },
  {
   "property": "C21",
   "status": "proved",
   "theorems": [
    "C21_no_out_of_bounds"
   ],
   "note": "Every arithmetic in which std::polar returns (its precondition is C40), every call history with 2*order in int range."
  },
  {
   "property": "C22",
   "status": "proved",
   "theorems": [
    "C22_order_too_high",
    "C22_order_rejected_butterworth",
    "C22_order_rejected_chebyshev1",
    "C22_order_rejected_chebyshev2"
   ],
   "note": "Every arithmetic, all 42 overloads with an order."
  },
  {
   "property": "C23",
   "status": "proved",
   "theorems": [
    "C23_cutoff_rejected"
   ],
   "note": "Every arithmetic in which std::polar returns, every call history, all 21 classes."
  },
  {
   "property": "C24",
   "status": "partial",
   "theorems": [
    "C24_setup_does_not_depend_on_history",
    "C24_exact_parameters",
    "C24_double_parameters",
    "C24_second_call_refuted",
    "C24_order_refuted"
   ],
   "note": "False in general: a setup that threw while computing poles leaves its cache key behind, so the same call then succeeds as a pass-through (witness); also false for orders below 1 (witness). Proved for every arithmetic and every other history: order >= 1, no failed design of the same prototype before, gain and ripple exact under == (in binary64: not a zero)."
  },
  {
   "property": "C25",
   "status": "proved",
   "theorems": [
    "C25_setup_keeps_delay_lines"
   ],
   "note": "Every arithmetic."
  },
  {
   "property": "C26",
   "status": "partial",
   "theorems": [
    "C26_copy_dangles_refuted",
    "C26_setup_on_copy_hits_original_refuted",
    "C43_objects_independent"
   ],
   "note": "The claim is FALSE of the code: refuted for every class and arithmetic (copies share the original's arrays). C43 is the true part: objects that are not copied are independent."
  },
  {
   "property": "C27",
   "status": "proved",
   "theorems": [
    "C27_assignment"
   ],
   "note": "Every arithmetic; heap model with aliasing pointers."
  },
  {
   "property": "C28",
   "status": "proved",
   "theorems": [
    "C28_sos_installs_rows",
    "C28_sos_nan_row"
   ],
   "note": "Every arithmetic. SOSCascade holds its stages and delay lines by value (no pointers), so copies are values in the model."
  },
  {
   "property": "C29",
   "status": "proved",
   "theorems": [
    "C29_rbj_stable"
   ],
   "note": "Exact arithmetic."
  },
  {
   "property": "C30",
   "status": "proved",
   "theorems": [
    "C30_lowpass",
    "C30_highpass",
    "C30_bandpass1",
    "C30_bandpass2",
    "C30_bandstop",
    "C30_iirnotch",
    "C30_lowshelf",
    "C30_highshelf",
    "C30_bandshelf",
    "C30_allpass"
   ],
   "note": "Exact arithmetic."
  },
  {
   "property": "C31",
   "status": "partial",
   "theorems": [
    "C31_rbj_cutoff_refuted",
    "C31_nonfinite_partial",
    "C55_rbj_any_cutoff"
   ],
   "note": "The claim is FALSE of the code: every cutoff between 1/2 and 1 is accepted and gives an unstable low pass. True part, binary64: NaN and infinite cutoffs are rejected by all ten classes, if cos(NaN) and cos(inf) are NaN. C55 decides stability for all finite cutoffs."
  },
  {
   "property": "C32",
   "status": "proved",
   "theorems": [
    "C32_butterworth_lowpass",
    "C32_butterworth_highpass",
    "C32_butterworth_edges"
   ],
   "note": "Exact arithmetic, every order."
  },
  {
   "property": "C33",
   "status": "proved",
   "theorems": [
    "C33_chebyshev1_lowpass",
    "C33_chebyshev1_highpass",
    "C33_chebyshev1_ripple"
   ],
   "note": "Exact arithmetic, every order."
  },
  {
   "property": "C34",
   "status": "proved",
   "theorems": [
    "C34_chebyshev2_lowpass",
    "C34_chebyshev2_highpass",
    "C34_chebyshev2_rejection"
   ],
   "note": "Exact arithmetic, every order."
  },
  {
   "property": "C35",
   "status": "proved",
   "theorems": [
    "C35_bandpass",
    "C35_bandstop",
    "C35_bandpass_limits",
    "C35_bandstop_limits",
    "C35_edges"
   ],
   "note": "Exact arithmetic, every order; edges are clamped to 1e-8 from 0 and pi as the code does; the setups that throw (C44) are excluded."
  },
  {
   "property": "C36",
   "status": "proved",
   "theorems": [
    "C36_designs_are_stable",
    "C36_bounded_relaxing_steady"
   ],
   "note": "Exact arithmetic, every order, all twelve non-shelf classes, newly constructed objects."
  },
  {
   "property": "C37",
   "status": "proved",
   "theorems": [
    "C37_lowshelf",
    "C37_highshelf",
    "C37_bandshelf"
   ],
   "note": "Exact arithmetic, every order (std::polar with negative radius taken as libstdc++ computes it, see C40); odd order band shelves whose transform hits a zero pole are excluded."
  },
  {
   "property": "C38",
   "status": "proved",
   "theorems": [
    "C38_setup_is_setupN_butterworth",
    "C38_setup_is_setupN_chebyshev1",
    "C38_setup_is_setupN_chebyshev2",
    "C38_setup_is_setupN_rbj",
    "classes_are_instances_of_setup_butterworth",
    "classes_are_instances_of_setup_chebyshev1",
    "classes_are_instances_of_setup_chebyshev2"
   ],
   "note": "Every arithmetic; each of the 84+10 overloads transcribed separately."
  },
  {
   "property": "C39",
   "status": "partial",
   "theorems": [
    "C39_order_not_positive_refuted",
    "C39_order_minus_three_refuted"
   ],
   "note": "The claim is FALSE of the code: orders <= 0 are accepted."
  },
  {
   "property": "C40",
   "status": "partial",
   "theorems": [
    "C40_polar_refuted",
    "C36_designs_are_stable"
   ],
   "note": "The claim is FALSE of the code for the Butterworth shelves (Butterworth.cpp:98-99 call std::polar with a negative radius). C36_designs_are_stable with strict = true shows that no other Butterworth/Chebyshev design violates the precondition."
  },
  {
   "property": "C41",
   "status": "proved",
   "theorems": [
    "C41_identity",
    "C41_identity_rbj",
    "C41_cast",
    "C41_cast_rbj"
   ],
   "note": "binary64, every math library, every integer type whose values have magnitude below 2^53 (for the cast: every integer type)."
  },
  {
   "property": "C42",
   "status": "proved",
   "theorems": [
    "C42_indexing"
   ],
   "note": "Every arithmetic in which std::polar returns, every call history."
  },
  {
   "property": "C43",
   "status": "proved",
   "theorems": [
    "C43_objects_independent",
    "C43_queries"
   ],
   "note": "Every arithmetic, every interleaving without copy construction."
  },
  {
   "property": "C44",
   "status": "partial",
   "theorems": [
    "C44_bandpass_throws_refuted",
    "C44_bandstop_throws_refuted",
    "C44_quarter_refuted",
    "C44_double_refuted",
    "C35_bandpass",
    "C35_bandstop"
   ],
   "note": "The claim is FALSE of the code: an odd order design whose real prototype pole is mapped to z = 0 is rejected by ComplexPair::isMatchedPair (e.g. Butterworth, centre 1/4, width 1/4). C35 proves that all other setups succeed."
  },
  {
   "property": "C45",
   "status": "proved",
   "theorems": [
    "C45_identity",
    "C45_identity_rbj",
    "C45_cast",
    "C45_cast_rbj",
    "C45_double",
    "C45_double_rbj"
   ],
   "note": "binary64 and binary32 (Flocq), every math library."
  },
  {
   "property": "C46",
   "status": "proved",
   "theorems": [
    "C46_lowshelf",
    "C46_highshelf",
    "C46_bandshelf"
   ],
   "note": "Exact arithmetic, both readings of std::polar, every order; odd order band shelves whose transform hits a zero pole or zero are excluded (see C44)."
  },
  {
   "property": "C47",
   "status": "partial",
   "theorems": [
    "C47_ripple_refuted",
    "C47_gain_double_refuted",
    "C47_zero_double_refuted",
    "C46_lowshelf",
    "C46_highshelf",
    "C46_bandshelf"
   ],
   "note": "The claim is FALSE of the code: with ripple >= |gain| the clamp of the ripple parameter gives another gain (6 dB with 6 dB ripple gives 19.5 dB), and gain 0 dB throws. C46 proves it for 0 < ripple < |gain|."
  },
  {
   "property": "C48",
   "status": "proved",
   "theorems": [
    "C48_onepole",
    "C48_twopole",
    "C48_negative_radius"
   ],
   "note": "Exact arithmetic; TwoPole for both readings of std::polar."
  },
  {
   "property": "C49",
   "status": "proved",
   "theorems": [
    "C49_value",
    "C49_as_cascade",
    "C49_symmetry",
    "C49_steady_state"
   ],
   "note": "Exact arithmetic."
  },
  {
   "property": "C50",
   "status": "proved",
   "theorems": [
    "C50_poles_and_zeros",
    "C50_butterworth_shelves",
    "C50_chebyshev_shelves"
   ],
   "note": "Exact arithmetic, every order, newly constructed objects; the setups that throw (C44) are excluded; Butterworth shelves with std::polar as libstdc++ computes it (C40)."
  },
  {
   "property": "C51",
   "status": "partial",
   "theorems": [
    "C51_rejected_layout_refuted",
    "C51_full_layout_refuted",
    "C51_base_setup_refuted",
    "C52_public_calls_are_safe"
   ],
   "note": "The claim is FALSE of the code: setLayout stores the number of stages before it throws, so a later response() or operator[] reads outside the array; LayoutBase::add never checks its capacity. C52 is the true part."
  },
  {
   "property": "C52",
   "status": "proved",
   "theorems": [
    "C52_public_calls_are_safe",
    "C52_frame",
    "C52_scale",
    "C52_sos"
   ],
   "note": "Every arithmetic in which std::polar returns."
  },
  {
   "property": "C53",
   "status": "proved",
   "theorems": [
    "C53_stage_count"
   ],
   "note": "Every arithmetic in which std::polar returns; the histories excluded by C24 (a failed design of the same prototype before) are excluded here."
  },
  {
   "property": "C54",
   "status": "proved",
   "theorems": [
    "C54_rounding",
    "C54_rounding_filter",
    "C54_exact_output",
    "C54_gain_from_radius",
    "C54_stable_has_gain"
   ],
   "note": "Binary64 with round to nearest even, no contraction to fused operations; the constants 2^-46 and 2^-1060 are generous. Requires (gain of the recursion) * (|a1|+|a2|) <= 2^44 and values below 2^900. The exact filter has the rounded coefficients: errors made by setup() itself are not covered."
  },
  {
   "property": "C55",
   "status": "proved",
   "theorems": [
    "C55_rbj_any_cutoff",
    "C55_shelf_rejects"
   ],
   "note": "Exact arithmetic."
  },
  {
   "property": "C56",
   "status": "proved",
   "theorems": [
    "C56_rbj_prototype",
    "C56_notch"
   ],
   "note": "Exact arithmetic."
  },
  {
   "property": "C57",
   "status": "proved",
   "theorems": [
    "C57_defaults_stable",
    "C57_defaults_butterworth"
   ],
   "note": "Exact arithmetic. Absolute value of the response; phases are not compared."
  },
  {
   "property": "C58",
   "status": "proved",
   "theorems": [
    "C58_resonance"
   ],
   "note": "Exact arithmetic."
  },
  {
   "property": "C59",
   "status": "proved",
   "theorems": [
    "C59_end_gains",
    "C59_settles",
    "C59_band_stop_centre",
    "C59_steady_state"
   ],
   "note": "Exact arithmetic, std::polar as libstdc++ computes it (C40). The designs that throw (C44) and Chebyshev shelves with ripple >= |gain| (C47) are excluded."
  },
  {
   "property": "C60",
   "status": "proved",
   "theorems": [
    "C60_sinusoid",
    "C60_settles",
    "C60_notch"
   ],
   "note": "Exact arithmetic. The constant input of the IIR notch is covered by C56_notch only."
  },
  {
   "property": "C61",
   "status": "proved",
   "theorems": [
    "C61_design_in_double",
    "C61_design_exact"
   ],
   "note": "Binary64, hypothesis libm_close: sin, cos on [-4,4] and exp on [-128,1] are off by at most 2^-50. The three shelves are the subject of C70."
  },
  {
   "property": "C62",
   "status": "proved",
   "theorems": [
    "C62_output_in_double",
    "C62_gain_complex_poles",
    "C62_gain_margin"
   ],
   "note": "As C61; gain of the ideal recursion at most 2^37, inputs at most 2^800. Not fused, round to nearest even."
  },
  {
   "property": "C63",
   "status": "proved",
   "theorems": [
    "C63_butterworth_coefficients"
   ],
   "note": "Exact arithmetic. Orders with 2n in the range of int."
  },
  {
   "property": "C64",
   "status": "proved",
   "theorems": [
    "C64_butterworth_in_double"
   ],
   "note": "Binary64, hypothesis libm_design: tan within 2^-50 relative on [2^-15, pi/2 - 2^-15], polar within 2^-50, complex division within 2^-48 relative. Fresh filter object."
  },
  {
   "property": "C65",
   "status": "proved",
   "theorems": [
    "C65_butterworth_scale_in_double"
   ],
   "note": "As C64, with libm_response: complex product and modulus within 2^-48 relative. Orders up to 24."
  },
  {
   "property": "C66",
   "status": "proved",
   "theorems": [
    "C66_butterworth_output",
    "C66_gain",
    "C66_cascade_output"
   ],
   "note": "As C65; after setting up a freshly constructed filter; inputs bounded by X with chain_ok. Not fused, round to nearest even."
  },
  {
   "property": "C67",
   "status": "partial",
   "theorems": [
    "C67_stability_partial",
    "C67_stability_refuted"
   ],
   "note": "Cutoffs between 2^-14 and 1/2 - 2^-14 and orders up to 2^15 are proved for every accurate library; refuted for a cutoff 2^-30 away from the ends."
  },
  {
   "property": "C68",
   "status": "proved",
   "theorems": [
    "C68_contraction",
    "C68_contraction_filter",
    "C68_contraction_ideal",
    "C68_contraction_butterworth",
    "C68_no_contraction"
   ],
   "note": "Binary64 with any fused multiply-adds in the filter functions; the design code is not contracted."
  },
  {
   "property": "C69",
   "status": "proved",
   "theorems": [
    "C69_sections",
    "C69_designs",
    "C69_butterworth_shelves",
    "C69_chebyshev_shelves"
   ],
   "note": "Designs: exact arithmetic, newly constructed objects; first order shelf sections are excluded because BiquadPoleState reports the reciprocal zero there (C18)."
  },
  {
   "property": "C70",
   "status": "proved",
   "theorems": [
    "C70_shelf_in_double",
    "C70_shelf_exact",
    "C70_output_in_double",
    "C70_gain_complex_poles"
   ],
   "note": "Binary64, hypothesis libm_shelf: as C61, and pow(10,.) on [-5/8,5/8] is off by at most 2^-50, sinh on [-1,4] by at most 2^-47. Gain of the ideal recursion at most 2^34, inputs at most 2^800. Not fused, round to nearest even."
  },
  {
   "property": "C71",
   "status": "proved",
   "theorems": [
    "C71_safe_or_aborted",
    "C71_aborts_at_first_throw",
    "C71_setup_does_not_depend_on_history"
   ],
   "note": "Every arithmetic in which std::polar returns. Layouts passed to setLayout are valid ones (as built by a layout object), of any size."
  },
  {
   "property": "C72",
   "status": "proved",
   "theorems": [
    "C72_chebyshev_coefficients"
   ],
   "note": "Exact arithmetic."
  },
  {
   "property": "C73",
   "status": "proved",
   "theorems": [
    "C73_chebyshev_in_double"
   ],
   "note": "Binary64, hypotheses libm_design (tan, polar, complex division) and libm_cheb (sin, cos, log, exp, sinh, cosh accurate to about 2^-50 on the arguments that occur). Newly constructed filter objects (C24 for others)."
  },
  {
   "property": "C74",
   "status": "proved",
   "theorems": [
    "C74_before_setup",
    "C74_pass_through",
    "C74_pass_through_rbj",
    "C74_pass_through_sos"
   ],
   "note": "Queries: every arithmetic. The response is what complex division returns for 1/1."
  },
  {
   "property": "C75",
   "status": "proved",
   "theorems": [
    "C75_chebyshev_scale_in_double"
   ],
   "note": "As C73, with libm_response (complex product and modulus within 2^-48 relative) and libm_pow10 (pow(10,x) within 2^-50 relative on [-2,0]). Orders up to 24."
  },
  {
   "property": "C76",
   "status": "proved",
   "theorems": [
    "C76_chebyshev_output",
    "C76_gain"
   ],
   "note": "As C75; after setting up a freshly constructed filter; inputs bounded by X with chain_ok. Not fused, round to nearest even."
  },
  {
   "property": "C77",
   "status": "proved",
   "theorems": [
    "C77_response_of_stored",
    "C77_biquad_response",
    "C77_response_of_near"
   ],
   "note": "Binary64, any library with libm_design and libm_response (polar, complex division and product). The denominator must not vanish at f and the condition number must be moderate."
  },
  {
   "property": "C78",
   "status": "proved",
   "theorems": [
    "C78_butterworth_response",
    "C78_chebyshev_response",
    "C78_ideal_gain"
   ],
   "note": "Newly constructed filters. The gain curve is that of C32-C34, for the same ideal coefficients the double design approximates."
  },
  {
   "property": "C79",
   "status": "proved",
   "theorems": [
    "C79_rbj_response",
    "C79_ideal_response",
    "C79_ideal_notch"
   ],
   "note": "Binary64, any library with libm_design, libm_response and the accuracy asked by C61 / C70. The relative coefficient error must be at most 2^-10 and the condition number moderate."
  },
  {
   "property": "C80",
   "status": "proved",
   "theorems": [
    "C80_contraction_chebyshev",
    "C80_contraction_rbj"
   ],
   "note": "Only the filter functions are contracted; the design is computed without fused operations. Round to nearest even. The gain G of the RBJ recursion is a parameter bounded by chain_ok."
  },
  {
   "property": "C81",
   "status": "proved",
   "theorems": [
    "C81_setup_then_reset",
    "C81_butterworth_used",
    "C81_chebyshev_used"
   ],
   "note": "calm: no earlier setup for the same analogue prototype threw a design error. Parameters compared by the cache (gain, ripple) must equal themselves (no NaN)."
  },
  {
   "property": "C82",
   "status": "proved",
   "theorems": [
    "C82_shelf_coefficients"
   ],
   "note": "Exact arithmetic in which polar of a negative radius is evaluated (the standard leaves it undefined, C16)."
  },
  {
   "property": "C83",
   "status": "proved",
   "theorems": [
    "C83_shelf_in_double"
   ],
   "note": "Round to nearest even. libm_bwshelf asks pow to be accurate and polar with a negative radius to be evaluated accurately (the standard leaves it undefined, C16)."
  },
  {
   "property": "C84",
   "status": "proved",
   "theorems": [
    "C84_shelf_scale_in_double"
   ],
   "note": "Round to nearest even; library as in C83."
  },
  {
   "property": "C85",
   "status": "proved",
   "theorems": [
    "C85_shelf_output",
    "C85_gain",
    "C85_contraction",
    "C85_shelf_used"
   ],
   "note": "Round to nearest even; library as in C83. Only the filter functions are contracted, not the design. A shelf with a past: gain other than 0 dB, and calm as in C81."
  },
  {
   "property": "C86",
   "status": "proved",
   "theorems": [
    "C86_shelf_response",
    "C86_shelf_ideal"
   ],
   "note": "Round to nearest even; library as in C83."
  },
  {
   "property": "C87",
   "status": "proved",
   "theorems": [
    "C87_running_on",
    "C87_exact",
    "C87_forgets",
    "C87_settles",
    "C87_filter",
    "C87_switch"
   ],
   "note": "Round to nearest even, no contraction. The recursion gain bound is a hypothesis, as in C54 (it follows from the poles, C54_gain_from_radius). A switch keeps the class and state structure."
  },
  {
   "property": "C88",
   "status": "proved",
   "theorems": [
    "C88_falls",
    "C88_silence",
    "C88_filter"
   ],
   "note": "Round to nearest even, no contraction, subnormal numbers not flushed to zero. The recursion gain bound is a hypothesis, as in C54; the rate rho follows from it."
  },
  {
   "property": "C89",
   "status": "partial",
   "theorems": [
    "C89_silence_refuted",
    "C89_periodic_partial",
    "C89_periodic_filter_partial",
    "C89_periodic_rbj_partial"
   ],
   "note": "The claim is false for the code; the refutation and what is true are proved. C88 bounds what is left."
  },
  {
   "property": "C90",
   "status": "proved",
   "theorems": [
    "C90_topologies",
    "C90_order",
    "C90_linear"
   ],
   "note": "Round to nearest even, no contraction; cascades at rest at the start. The recursion gain bound is a hypothesis, as in C54."
  },
  {
   "property": "C91",
   "status": "proved",
   "theorems": [
    "C91_butterworth",
    "C91_chebyshev",
    "C91_shelf",
    "C91_rbj",
    "C91_level"
   ],
   "note": "Round to nearest even, no contraction, subnormal numbers not flushed to zero. Libraries as in C66, C76, C85 and C79. The gain G of the RBJ recursion is a parameter bounded by dfall_ok."
  },
  {
   "property": "C92",
   "status": "proved",
   "theorems": [
    "C92_integers",
    "C92_never_clips",
    "C92_clips",
    "C92_floats"
   ],
   "note": "Round to nearest even, no contraction; cascades at rest at the start; integers below 2^53 in size. The recursion gain bound is a hypothesis, as in C54. Between the two margins of C92_integers and C92_clips the outcome depends on the rounding."
  },
  {
   "property": "C93",
   "status": "proved",
   "theorems": [
    "C93_cascade",
    "C93_butterworth",
    "C93_chebyshev",
    "C93_shelf",
    "C93_rbj",
    "C93_gain_stable"
   ],
   "note": "Round to nearest even, no contraction; filters at rest at the start. Libraries as in C66, C76, C85 and C79. The time N is not computed."
  },
  {
   "property": "C94",
   "status": "proved",
   "theorems": [
    "C94_stored",
    "C94_butterworth",
    "C94_chebyshev",
    "C94_shelf",
    "C94_rbj"
   ],
   "note": "Round to nearest even, no contraction; filters at rest at the start. Conditioning hypotheses as in C77 to C79 and C86."
  },
  {
   "property": "C95",
   "status": "proved",
   "theorems": [
    "C95_cascade",
    "C95_filter",
    "C95_switch",
    "C95_response"
   ],
   "note": "Round to nearest even, no contraction. The time N is not computed (C97 has explicit rates)."
  },
  {
   "property": "C96",
   "status": "proved",
   "theorems": [
    "C96_rbj",
    "C96_butterworth"
   ],
   "note": "Round to nearest even, no contraction; filters at rest at the start. Libraries as in C79 and C66. The time N is not computed."
  },
  {
   "property": "C97",
   "status": "proved",
   "theorems": [
    "C97_cascade",
    "C97_filter"
   ],
   "note": "Round to nearest even, no contraction."
  },
  {
   "property": "C98",
   "status": "proved",
   "theorems": [
    "C98_cascade",
    "C98_butterworth",
    "C98_chebyshev",
    "C98_shelf",
    "C98_rbj"
   ],
   "note": "Round to nearest even; filters at rest at the start; setup itself without fused operations. Libraries as in C66, C76, C85 and C79. The time N is not computed."
  },
  {
   "property": "C99",
   "status": "proved",
   "theorems": [
    "C99_cascade",
    "C99_two",
    "C99_settles",
    "C99_filter"
   ],
   "note": "Round to nearest even. Rate and K as in C87 and C97. What the delay lines hold at the end of a contracted run is bounded in C100."
  },
  {
   "property": "C100",
   "status": "proved",
   "theorems": [
    "C100_falls",
    "C100_silence",
    "C100_states",
    "C100_after",
    "C100_filter"
   ],
   "note": "Round to nearest even. Rate and K as in C88. The final level is subnormal in the examples but not shown to be zero."
  },
  {
   "property": "C101",
   "status": "proved",
   "theorems": [
    "C101_butterworth",
    "C101_chebyshev",
    "C101_shelf",
    "C101_rbj"
   ],
   "note": "Round to nearest even; setup is computed without contraction; ranges, rate and K as in C91. C91_level tells what the bound comes to."
  }
 ]
}
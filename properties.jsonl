{"id": "C01", "title": "Direct Form I realises the documented difference equation", "statement": "Starting from reset delay lines, feeding any finite sequence x through a biquad with the DirectFormI topology returns the sequence y with y[n] = b0 x[n] + b1 x[n-1] + b2 x[n-2] - a1 y[n-1] - a2 y[n-2] (coefficients divided by a0, terms before the start are 0), in exact arithmetic.", "quantifier": "all coefficient sets, all finite input sequences", "why_tests_cant": "A test checks a few sequences; the equation must hold at every step of every sequence.", "anchors": ["iir/State.h:DirectFormI::filter", "iir/Biquad.h:Biquad::filter"]}
{"id": "C02", "title": "The three filter topologies are interchangeable", "statement": "For the same coefficients, DirectFormI, DirectFormII and TransposedDirectFormII return the same output sequence for the same input sequence after a reset, in exact arithmetic, both for one biquad and for a cascade of any length.", "quantifier": "all coefficient sets, all cascade lengths, all finite input sequences", "why_tests_cant": "Tests compare two topologies on 3-7 samples.", "anchors": ["iir/State.h:DirectFormI::filter", "iir/State.h:DirectFormII::filter", "iir/State.h:TransposedDirectFormII::filter"]}
{"id": "C03", "title": "Filtering is linear", "statement": "From reset, filter(a*x + b*y) = a*filter(x) + b*filter(y) sample by sample, in exact arithmetic, for every topology and every cascade.", "quantifier": "all coefficients, topologies, cascades, scalars and pairs of equally long inputs", "why_tests_cant": "Superposition ranges over all pairs of signals.", "anchors": ["iir/State.h", "iir/Cascade.h:CascadeStages::filter"]}
{"id": "C04", "title": "Filtering is time invariant and silent on silence", "statement": "From reset, prefixing the input by k zero samples prefixes the output by k zero samples and changes nothing else, in exact arithmetic; in IEEE-754 double arithmetic with finite coefficients an all-zero input gives outputs that compare equal to zero.", "quantifier": "all delays k, inputs, coefficients, topologies and cascades", "why_tests_cant": "Unbounded delays and signals.", "anchors": ["iir/State.h", "iir/Cascade.h:CascadeStages::filter"]}
{"id": "C05", "title": "Filtering is causal and can be chunked", "statement": "The first k outputs depend only on the first k inputs, and filtering a signal in consecutive chunks gives exactly (bit for bit) the same outputs and final delay lines as filtering it in one go, for every arithmetic.", "quantifier": "all inputs and all ways of cutting them, all states, all arithmetics including IEEE-754", "why_tests_cant": "All cut points of all signals.", "anchors": ["iir/State.h", "iir/Cascade.h:CascadeStages::filter"]}
{"id": "C06", "title": "reset() restores the freshly set up behaviour", "statement": "After any history of filtered samples, reset() makes the filter return exactly the outputs a newly constructed filter with the same coefficients would return, and reset() changes no coefficient, no response() value and no reported pole or zero.", "quantifier": "all histories, all coefficient sets, all arithmetics", "why_tests_cant": "All histories.", "anchors": ["iir/Cascade.h:CascadeStages::reset", "iir/State.h:reset", "iir/RBJ.h:RBJbase::reset"]}
{"id": "C07", "title": "A cascade is the chain of its stages", "statement": "Filtering a signal through a cascade gives exactly the output of filtering it through stage 0, then that output through stage 1, and so on, for every arithmetic; permuting the stages does not change the output in exact arithmetic.", "quantifier": "all cascades, all permutations, all inputs", "why_tests_cant": "All cascade lengths and signals.", "anchors": ["iir/Cascade.h:CascadeStages::filter"]}
{"id": "C08", "title": "A NaN sample poisons the filter until reset", "statement": "In IEEE-754 double arithmetic, once a NaN sample enters a cascade, every later output is NaN whatever the coefficients and later samples are, until reset() is called; after reset() the filter behaves as new.", "quantifier": "all coefficients, topologies, cascades and all continuations", "why_tests_cant": "Unbounded continuations; all coefficient bit patterns.", "anchors": ["iir/State.h", "iir/Cascade.h:CascadeStages::filter"]}
{"id": "C09", "title": "Identity stages are transparent for finite signals", "statement": "In IEEE-754 double arithmetic a stage holding the identity coefficients returns each finite sample unchanged (compares equal), for every topology, whatever finite samples came before; hence stages left unused because a lower order was requested do not change the output.", "quantifier": "all finite double sequences, all topologies, any number of identity stages", "why_tests_cant": "All double bit patterns and all histories.", "anchors": ["iir/Biquad.cpp:Biquad::setIdentity", "iir/Cascade.cpp:Cascade::setLayout", "iir/State.h"]}
{"id": "C10", "title": "Polarity inversion commutes with filtering in double arithmetic", "statement": "In IEEE-754 double arithmetic, from reset, filtering the negated signal returns the negated output (compared with ==, NaN staying NaN), for every topology and cascade.", "quantifier": "all double sequences and coefficients", "why_tests_cant": "All bit patterns.", "anchors": ["iir/State.h"]}
{"id": "C11", "title": "Poles inside the unit circle mean bounded output", "statement": "If all poles of every stage lie strictly inside the unit circle, then a bounded input gives a bounded output, with a bound that does not depend on the length of the signal (exact arithmetic).", "quantifier": "all stable cascades, all topologies, all bounded signals of any length", "why_tests_cant": "Signal length is unbounded.", "anchors": ["iir/State.h", "iir/Cascade.h:CascadeStages::filter"]}
{"id": "C12", "title": "A stable filter relaxes to zero", "statement": "If all poles lie strictly inside the unit circle then, once the input becomes and stays zero (or tends to zero), the output tends to zero (exact arithmetic).", "quantifier": "all stable cascades, all topologies, all input histories", "why_tests_cant": "It is a statement about the limit; tests check one impulse.", "anchors": ["iir/State.h", "iir/Cascade.h:CascadeStages::filter", "README.md"]}
{"id": "C13", "title": "response() is the steady state gain and phase for sinusoids", "statement": "For a stable filter, feeding cos(2 pi f n + phi) gives an output whose difference to Re(response(f) * exp(i(2 pi f n + phi))) tends to zero (exact arithmetic).", "quantifier": "all stable cascades, all f in [0, 1/2], all phases, all topologies", "why_tests_cant": "A limit statement over a continuum of frequencies.", "anchors": ["iir/Cascade.cpp:Cascade::response", "iir/Biquad.cpp:Biquad::response", "iir/State.h"]}
{"id": "C14", "title": "response() accepts exactly the frequencies 0..1/2", "statement": "Cascade response(f) throws invalid_argument for f > 1/2 and for f < 0 and returns a value otherwise; it never changes the filter.", "quantifier": "all f, all cascades, all arithmetics", "why_tests_cant": "Continuum of f.", "anchors": ["iir/Cascade.cpp:Cascade::response"]}
{"id": "C15", "title": "setCoefficients rejects NaN and stores normalised coefficients", "statement": "setCoefficients throws iff one of its six arguments is NaN, leaving the biquad unchanged; otherwise, if a0 is not 0, getA0..getB2 return the arguments and the filter realises the difference equation divided by a0 (exact arithmetic).", "quantifier": "all arguments, all previous coefficients", "why_tests_cant": "All arguments.", "anchors": ["iir/Biquad.cpp:Biquad::setCoefficients", "iir/Biquad.h:getA0"]}
{"id": "C16", "title": "No NaN coefficient gets stored (README error handling claim)", "statement": "The README promises that parameters which result in NaN coefficients throw. For setCoefficients with a0 = 0, for RBJ setup with q = 0 and for a band filter with a negative width this must hold: either an exception or no NaN coefficient.", "quantifier": "all parameters", "why_tests_cant": "Claim over all parameters.", "anchors": ["README.md", "iir/Biquad.cpp:Biquad::setCoefficients", "iir/Cascade.cpp:Cascade::setLayout", "iir/RBJ.cpp"]}
{"id": "C17", "title": "setOnePole / setTwoPole place exactly the requested poles and zeros", "statement": "setTwoPole throws (leaving the biquad unchanged) iff the poles or the zeros are neither both real nor complex conjugates; otherwise the transfer function is (1-z1/z)(1-z2/z) / ((1-p1/z)(1-p2/z)). setOnePole likewise for one real pole and zero. (exact arithmetic)", "quantifier": "all complex poles and zeros, all evaluation points", "why_tests_cant": "All complex numbers.", "anchors": ["iir/Biquad.cpp:Biquad::setOnePole", "iir/Biquad.cpp:Biquad::setTwoPole", "iir/Custom.cpp"]}
{"id": "C18", "title": "getPoleZeros round trip", "statement": "For a biquad, getPoleZeros returns the roots of its denominator and numerator and setPoleZeroForm(BiquadPoleState(b)) reconstructs a biquad with the same transfer function (exact arithmetic). In any arithmetic, if getPoleZeros of a section with two poles or two zeros returns at all, nothing it returns is NaN.", "quantifier": "all biquads with a0 != 0 and b0 != 0", "why_tests_cant": "All coefficients.", "anchors": ["iir/Biquad.cpp:BiquadPoleState::BiquadPoleState", "iir/Biquad.cpp:Biquad::setPoleZeroForm", "iir/Biquad.cpp:Biquad::getPoleZeros"]}
{"id": "C19", "title": "applyScale scales the response and nothing else", "statement": "applyScale(s) multiplies response() at every frequency and every output sample (from reset) by s and leaves the poles unchanged (exact arithmetic).", "quantifier": "all cascades with at least one stage, all s, all frequencies and signals", "why_tests_cant": "All signals.", "anchors": ["iir/Biquad.cpp:Biquad::applyScale", "iir/Cascade.cpp:Cascade::applyScale"]}
{"id": "C20", "title": "Installing a pole/zero layout normalises the gain and leaves spare stages transparent", "statement": "After setLayout succeeds, getNumStages is ceil(numPoles/2), stage i realises pole/zero pair i of the layout (up to the overall gain), every further stage is the identity, and |response| at the layout's normalisation frequency equals the layout's normalisation gain (exact arithmetic, when the response there is not zero).", "quantifier": "all layouts and previous cascade contents", "why_tests_cant": "All layouts.", "anchors": ["iir/Cascade.cpp:Cascade::setLayout"]}
{"id": "C21", "title": "No out-of-bounds access in any call history", "statement": "For every FilterOrder >= 1 and every sequence of constructor, setup (any order that does not overflow int, any parameters incl. NaN), filter, reset, response, operator[] and getPoleZeros calls on one Butterworth or Chebyshev filter, every array access stays inside the storage reserved by the template, whatever values the floating point library returns.", "quantifier": "all 21 filter classes, all orders, all call sequences, all floating point results", "why_tests_cant": "All histories and all numeric outcomes.", "anchors": ["iir/Layout.h", "iir/PoleFilter.cpp", "iir/PoleFilter.h", "iir/Cascade.cpp:Cascade::setLayout"]}
{"id": "C22", "title": "An order above the template order is rejected without effect", "statement": "setup/setupN with reqOrder > FilterOrder throws invalid_argument and leaves coefficients, delay lines, response and reported poles unchanged, for all 21 classes.", "quantifier": "all classes, all orders above the template order, all other parameters, all states", "why_tests_cant": "All states and parameters.", "anchors": ["iir/Butterworth.h", "iir/ChebyshevI.h", "iir/ChebyshevII.h", "iir/Common.h:orderTooHigh"]}
{"id": "C23", "title": "A cutoff outside [0, 1/2) is rejected without effect", "statement": "Every Butterworth and Chebyshev setup whose normalised cutoff/centre frequency is NaN, negative or >= 1/2 throws invalid_argument, and coefficients, delay lines, response() and getPoleZeros() are as before.", "quantifier": "all 21 classes, all orders, all other parameters, all states, all arithmetics", "why_tests_cant": "Continuum of parameters, all states.", "anchors": ["iir/PoleFilter.cpp"]}
{"id": "C24", "title": "setup does not depend on the history of the filter", "statement": "setup(p) on a filter with any past gives the same coefficients and reported poles as setup(p) on a newly constructed filter (or throws in both cases).", "quantifier": "all histories of earlier setup calls, all parameters", "why_tests_cant": "All histories.", "anchors": ["iir/Butterworth.cpp:AnalogLowPass::design", "iir/ChebyshevI.cpp:design", "iir/ChebyshevII.cpp:design"]}
{"id": "C25", "title": "Changing parameters at run time keeps the delay lines", "statement": "setup between two samples changes coefficients only: the delay lines are exactly as before, so streaming continues (also when setup throws).", "quantifier": "all states, all parameters, all classes", "why_tests_cant": "All states.", "anchors": ["iir/PoleFilter.h", "iir/Cascade.cpp", "demo/rbj_update.cpp"]}
{"id": "C26", "title": "Copies of a Butterworth/Chebyshev filter are independent", "statement": "After copy construction, calling setup on either filter changes only that filter, and destroying one does not affect the other.", "quantifier": "all filters, all later call sequences", "why_tests_cant": "All interleavings of calls on the two objects.", "anchors": ["iir/PoleFilter.h:PoleFilter(const PoleFilter&)", "iir/Cascade.h:Cascade::m_stageArray", "test/assignment.cpp"]}
{"id": "C27", "title": "Assignment of a Butterworth/Chebyshev filter", "statement": "a = b keeps a's coefficients and clears a's delay lines; b is unchanged; a stays independent of b.", "quantifier": "all pairs of filters in any state", "why_tests_cant": "All states.", "anchors": ["iir/PoleFilter.h:PoleFilter::operator=", "test/assignment.cpp"]}
{"id": "C28", "title": "SOSCascade stores scipy coefficients and copies are independent", "statement": "SOSCascade::setup with rows (b0,b1,b2,a0,a1,a2) free of NaN makes stage i realise row i for every i; if a row contains NaN it throws and exactly the rows before it have been installed. Copies of an SOSCascade do not influence each other.", "quantifier": "all coefficient tables of every size, all histories", "why_tests_cant": "All tables.", "anchors": ["iir/Cascade.h:CascadeStages::setup", "iir/Custom.h:SOSCascade"]}
{"id": "C29", "title": "Every RBJ design is stable", "statement": "For 0 < f < 1/2 and q > 0 (bandwidth > 0, slope > 0 with a real non-zero shelf alpha) each of the ten RBJ filters has all poles strictly inside the unit circle (exact arithmetic).", "quantifier": "all f, q, bandwidth, gain, slope in the documented ranges; all ten classes", "why_tests_cant": "Continuum of parameters.", "anchors": ["iir/RBJ.cpp"]}
{"id": "C30", "title": "RBJ filters meet their documented gains", "statement": "LowPass: gain 1 at 0, 0 at 1/2, q at the cutoff. HighPass: mirrored. BandPass1: peak gain = bandWidth parameter at the centre; BandPass2: gain 1 at the centre; both 0 at 0 and 1/2. BandStop and IIRNotch: 0 at the centre. LowShelf/HighShelf: gainDb at 0 resp. 1/2 and 0 dB at the other end. BandShelf: gainDb at the centre, 0 dB at 0 and 1/2. AllPass: gain 1 everywhere. (exact arithmetic)", "quantifier": "all parameters in the documented ranges, all frequencies for AllPass", "why_tests_cant": "Continuum of parameters.", "anchors": ["iir/RBJ.cpp", "iir/RBJ.h"]}
{"id": "C31", "title": "RBJ setup rejects invalid frequencies (README error handling claim)", "statement": "RBJ setup with a cutoff above the Nyquist frequency throws, as the README promises for invalid values.", "quantifier": "all parameters", "why_tests_cant": "Claim over all parameters.", "anchors": ["README.md", "iir/RBJ.cpp", "iir/RBJ.h"]}
{"id": "C32", "title": "Butterworth LowPass/HighPass have the Butterworth response", "statement": "For every order N with 1 <= N <= FilterOrder and 0 < fc < 1/2 setup succeeds and |response(f)|^2 = 1/(1+(tan(pi f)/tan(pi fc))^(2N)) for 0 <= f < 1/2 (low pass; the high pass has the reciprocal ratio), so gain 1 in the pass band limit, 1/sqrt 2 at the cutoff, monotone. (exact arithmetic)", "quantifier": "all orders, all template orders, all cutoffs, all frequencies", "why_tests_cant": "Unbounded orders, continuum of frequencies.", "anchors": ["iir/Butterworth.cpp", "iir/PoleFilter.cpp", "iir/Cascade.cpp"]}
{"id": "C33", "title": "Chebyshev I LowPass/HighPass have the Chebyshev response", "statement": "For every order N >= 1, 0 < fc < 1/2 and rippleDb > 0, |response(f)|^2 = 1/(1+eps^2 T_N(W)^2), eps^2 = 10^(rippleDb/10)-1, W = tan(pi f)/tan(pi fc): pass band ripple at most rippleDb. (exact arithmetic)", "quantifier": "all orders, ripples, cutoffs, frequencies", "why_tests_cant": "Unbounded orders, continuum.", "anchors": ["iir/ChebyshevI.cpp"]}
{"id": "C34", "title": "Chebyshev II LowPass/HighPass guarantee the stop band rejection", "statement": "For every order N >= 1, 0 < fc < 1/2 and stopBandDb > 0, |response(f)|^2 = 1/(1+1/(eps^2 T_N(1/W)^2)), eps^2 = 1/(10^(stopBandDb/10)-1): beyond the cutoff the gain is at most -stopBandDb. (exact arithmetic)", "quantifier": "all orders, rejections, cutoffs, frequencies", "why_tests_cant": "Unbounded orders, continuum.", "anchors": ["iir/ChebyshevII.cpp", "iir/ChebyshevII.h"]}
{"id": "C35", "title": "Band pass and band stop filters have the transformed response", "statement": "For Butterworth/Chebyshev BandPass and BandStop of any order (except the setups of C44, which throw), |response(f)| is the low pass prototype's magnitude at the frequency b(a-cos w)/sin w (band pass) or its reciprocal form (band stop), with unit (normalised) gain at the centre resp. at 0/Nyquist and the prototype's cutoff gain at both band edges; the band stop response is 0 at the centre for Butterworth. (exact arithmetic)", "quantifier": "all orders, centres, widths, frequencies", "why_tests_cant": "Unbounded orders, continuum.", "anchors": ["iir/PoleFilter.cpp:BandPassTransform", "iir/PoleFilter.cpp:BandStopTransform"]}
{"id": "C36", "title": "Butterworth and Chebyshev designs are stable", "statement": "Every successful Butterworth, Chebyshev I and Chebyshev II LowPass, HighPass, BandPass and BandStop setup in the documented parameter range gives poles strictly inside the unit circle; so bounded input gives bounded output and impulses die out. (exact arithmetic)", "quantifier": "all orders and parameters in range", "why_tests_cant": "Unbounded orders, continuum.", "anchors": ["iir/PoleFilter.cpp", "iir/Butterworth.cpp", "iir/ChebyshevI.cpp", "iir/ChebyshevII.cpp"]}
{"id": "C37", "title": "Shelves have the requested gain", "statement": "Butterworth LowShelf of any order has gain gainDb at 0 and 0 dB at Nyquist; HighShelf mirrored; BandShelf has gainDb at the centre. (exact arithmetic)", "quantifier": "all orders, gains, cutoffs", "why_tests_cant": "Unbounded orders, continuum.", "anchors": ["iir/Butterworth.cpp:AnalogLowShelf::design"]}
{"id": "C38", "title": "setup(sampleRate, f) equals setupN(f / sampleRate)", "statement": "For all classes, setup with a sampling rate has exactly the effect of setupN with every frequency divided by the sampling rate and other parameters unchanged.", "quantifier": "all classes, parameters, states, arithmetics", "why_tests_cant": "All parameters; argument mix-ups among 84 wrappers.", "anchors": ["iir/Butterworth.h", "iir/ChebyshevI.h", "iir/ChebyshevII.h", "iir/RBJ.h"]}
{"id": "C39", "title": "Non-positive orders", "statement": "setup with reqOrder <= 0 throws, as promised for invalid values.", "quantifier": "all reqOrder <= 0", "why_tests_cant": "Claim over all orders.", "anchors": ["README.md", "iir/Butterworth.cpp", "iir/Butterworth.h"]}
{"id": "C40", "title": "Standard library preconditions are met", "statement": "No design calls std::polar with a negative radius (undefined behaviour in the C++ standard).", "quantifier": "all designs and parameters", "why_tests_cant": "Undefined behaviour is invisible to tests on a forgiving library.", "anchors": ["iir/Butterworth.cpp:AnalogLowShelf::design", "iir/Custom.cpp:TwoPole::setup"]}
{"id": "C41", "title": "Integer sample streams", "statement": "Filtering samples of an integer type with values within (-2^53, 2^53) through identity stages returns them unchanged; for any stages the result is the double output with its fraction dropped, and undefined behaviour of the final cast is reached iff that does not fit the type.", "quantifier": "all int sequences", "why_tests_cant": "All values.", "anchors": ["iir/Cascade.h:CascadeStages::filter", "iir/RBJ.h:RBJbase::filter", "README.md"]}
{"id": "C42", "title": "Cascade indexing is bounds checked", "statement": "operator[](i) returns stage i iff 0 <= i < getNumStages() and throws otherwise.", "quantifier": "all indices, all reachable filters", "why_tests_cant": "All indices and histories.", "anchors": ["iir/Cascade.h:Cascade::operator[]", "iir/Layout.h:LayoutBase::getPair"]}
{"id": "C43", "title": "Filters that are not copied are independent", "statement": "After any interleaving of constructions, destructions and calls (setup, filter, reset, operator=) on any number of Butterworth/Chebyshev filter objects that are never copy-constructed, each live object is exactly what its own calls alone make of it.", "quantifier": "all interleavings of calls on any number of objects of all classes, all arithmetics", "why_tests_cant": "Unboundedly many objects and interleavings; the classes work through pointers into arrays.", "anchors": ["iir/PoleFilter.h:PoleFilter", "iir/Cascade.h:CascadeStages", "iir/Layout.h:Layout"]}
{"id": "C44", "title": "Every documented band pass and band stop setup succeeds", "statement": "BandPass and BandStop setup with a valid order, centre frequency, width and ripple/rejection does not throw.", "quantifier": "all orders and parameters in range", "why_tests_cant": "The failing parameters are a measure zero set.", "anchors": ["iir/PoleFilter.cpp:BandPassTransform", "iir/PoleFilter.cpp:BandStopTransform", "iir/Layout.h", "iir/Types.h:ComplexPair::isMatchedPair"]}
{"id": "C45", "title": "Float sample streams", "statement": "Filtering float samples through identity stages returns finite samples unchanged (compares equal); for any stages the result is the double precision output rounded once to the nearest float, and the final cast is undefined behaviour exactly if the output is finite and larger in magnitude than FLT_MAX.", "quantifier": "all float sequences, all coefficients and delay line contents", "why_tests_cant": "All values; overflow of the cast is invisible to tests.", "anchors": ["iir/Cascade.h:CascadeStages::filter", "iir/RBJ.h:RBJbase::filter", "README.md"]}
{"id": "C46", "title": "Chebyshev shelf gains", "statement": "A Chebyshev I or II LowShelf, HighShelf or BandShelf with 0 < ripple < |gain| is set up without exception, is stable, and its squared gain is (1+e^2 T_N(W)^2)/(1/g+e^2 T_N(W)^2) for the prewarped frequency W: inside the shelf it stays between gainDb and gainDb with its magnitude reduced by the ripple, which it takes at the cutoff; it is exactly 0 dB at the far end.", "quantifier": "all orders, cutoffs, widths, gains and ripples in range, all frequencies", "why_tests_cant": "A continuum of parameters and frequencies for every order.", "anchors": ["iir/ChebyshevI.cpp:AnalogLowShelf::design", "iir/ChebyshevII.cpp:AnalogLowShelf::design"]}
{"id": "C47", "title": "Chebyshev shelves have the requested gain for every gain and ripple", "statement": "LowShelf/HighShelf/BandShelf setup succeeds for every finite gain and positive ripple and the gain at the middle of the shelf is gainDb up to the ripple.", "quantifier": "all orders, gains and ripples", "why_tests_cant": "The interplay of two real parameters.", "anchors": ["iir/ChebyshevI.cpp:AnalogLowShelf::design", "iir/ChebyshevII.cpp:AnalogLowShelf::design"]}
{"id": "C48", "title": "Custom filters realise the given poles and zeros", "statement": "Custom::OnePole::setup(s,p,z) has the response s(1-z/Z)/(1-p/Z) and TwoPole::setup(s,rp,tp,rz,tz) s(1-q/Z)(1-q*/Z)/((1-r/Z)(1-r*/Z)) with q = rz e^(i tz), r = rp e^(i tp); from reset each topology outputs the solution of that difference equation; the filter is stable if and only if |p| < 1 (|rp| < 1). A negative radius violates the precondition of std::polar.", "quantifier": "all parameters, frequencies, inputs and topologies", "why_tests_cant": "A continuum of parameters.", "anchors": ["iir/Custom.cpp:OnePole::setup", "iir/Custom.cpp:TwoPole::setup"]}
{"id": "C49", "title": "Biquad::response is the frequency response", "statement": "Biquad::response(f) is B(e^(-2 pi i f))/A(e^(-2 pi i f)) for every real f, has period 1, is conjugate symmetric, equals the response of a cascade of that one section, and for a stable section is the complex gain with which the output of a cosine settles from any finite delay line contents.", "quantifier": "all real frequencies and phases, all sections with nonzero a0, all topologies and states", "why_tests_cant": "Limits and a continuum of frequencies.", "anchors": ["iir/Biquad.cpp:Biquad::response", "iir/State.h"]}
{"id": "C50", "title": "getPoleZeros of designed filters", "statement": "After a successful setup of a Butterworth or Chebyshev filter, getPoleZeros() returns one pair per active stage; in each pair poles and zeros are real or conjugate, all poles lie inside the unit circle, the zeros lie on it (shelves: inside it; the partner of a single zero is 0), every active stage's coefficients have exactly the poles and zeros of its pair, all other stages are the identity, and response(f) is a constant times the rational function with exactly these poles and zeros.", "quantifier": "all 21 classes, all orders and parameters in range, all frequencies in [0,1/2]", "why_tests_cant": "Continuum of parameters; the reported pairs and the coefficients come from different data.", "anchors": ["iir/PoleFilter.h:PoleFilterBase2::getPoleZeros", "iir/PoleFilter.cpp", "iir/Cascade.cpp:Cascade::setLayout"]}
{"id": "C51", "title": "Layouts and cascades check their capacity", "statement": "Handing the public base-class interface more poles than the reserved storage holds (Cascade::setLayout with a larger layout, LayoutBase::add on a full layout, XxxBase::setup with an order above the template order) is rejected and leaves the object usable.", "quantifier": "all cascades, layouts and orders", "why_tests_cant": "Out-of-bounds accesses usually go unnoticed by tests.", "anchors": ["iir/Cascade.cpp:Cascade::setLayout", "iir/Layout.h:LayoutBase::add", "iir/Butterworth.cpp:LowPassBase::setup"]}
{"id": "C52", "title": "Mixing in the public Cascade interface stays memory safe", "statement": "Any sequence of setup, filter, reset and assignment calls mixed with applyScale, setLayout (with a layout that fits), setCascadeStorage(getCascadeStorage()) and CascadeStages::setup on a Butterworth or Chebyshev filter never accesses an array out of range, and afterwards response(), operator[] and getPoleZeros() do not either; the four base-class calls leave the delay lines and the reported poles and zeros unchanged. applyScale multiplies the numerator of the first section and nothing else, and CascadeStages::setup stores its rows divided by their a0.", "quantifier": "all 21 classes, all template orders, all call sequences, all arithmetics", "why_tests_cant": "All interleavings of calls, all values.", "anchors": ["iir/Cascade.h", "iir/Cascade.cpp", "iir/PoleFilter.h"]}
{"id": "C53", "title": "Number of second order stages", "statement": "After a successful setup with order N >= 1 getNumStages() is ceil(N/2), for BandPass, BandStop and BandShelf N, and getPoleZeros() returns that many pairs, in every arithmetic and after every earlier history of calls without a failed design of the same prototype.", "quantifier": "all classes, orders, parameters, call histories, arithmetics", "why_tests_cant": "All orders and histories.", "anchors": ["iir/Cascade.cpp:Cascade::setLayout", "iir/PoleFilter.cpp", "iir/Butterworth.cpp"]}
{"id": "C54", "title": "Rounding errors stay bounded for all time", "statement": "In IEEE-754 double arithmetic a cascade of second order sections with finite coefficients, fed after reset with samples of magnitude at most X, produces only finite outputs, and every output differs from the output of the exact difference equations with the same coefficients by at most an explicit bound that does not depend on the number of samples. The bound is computed from X, the coefficients and a gain 1/(1-r)^2 for pole radius r < 1, for all three topologies.", "quantifier": "all math libraries, coefficients, topologies, numbers of stages, input signals of any length", "why_tests_cant": "A test runs for a limited time on some signals; accumulation of errors over an unbounded run cannot be excluded by testing.", "anchors": ["iir/State.h:DirectFormI::filter", "iir/State.h:DirectFormII::filter", "iir/State.h:TransposedDirectFormII::filter", "iir/Cascade.h:CascadeStages::filter"]}
{"id": "C55", "title": "RBJ filters for arbitrary real cutoffs", "statement": "RBJ setup accepts every finite cutoff (also negative, zero or above Nyquist) with q, bandwidth or slope not zero, and the filter is stable exactly when a simple damping quantity is positive: q sin(2 pi f) for low pass, high pass, band pass, band stop and all pass, sin(2 pi f) for the shelves, q f for notch and peaking filter. A shelf slope without a real alpha is rejected and leaves the object unchanged.", "quantifier": "all ten classes, all real cutoffs, gains and q (shelves: real alpha; peaking filter: cutoff no multiple of Nyquist)", "why_tests_cant": "A continuum of parameters; both directions of an equivalence.", "anchors": ["iir/RBJ.cpp", "iir/Biquad.cpp:Biquad::setCoefficients"]}
{"id": "C56", "title": "RBJ filters are the bilinear transforms of the cookbook prototypes", "statement": "At every frequency the complex response of an RBJ filter is H(s) of the Audio EQ Cookbook's analogue prototype at s = i tan(pi f')/tan(pi f), with its limit at Nyquist. The IIR notch has its zeros at e^(+-2 pi i f) and its poles at the same angles with radius exp(-pi f/q), as documented.", "quantifier": "all ten classes, all cutoffs in (0, 1/2), gains, q > 0, all frequencies", "why_tests_cant": "Holds at uncountably many frequencies and parameters; tests sample a few and allow tolerances.", "anchors": ["iir/RBJ.cpp", "iir/RBJ.h", "iir/Biquad.cpp:Biquad::response"]}
{"id": "C57", "title": "RBJ default arguments", "statement": "setupN without the last argument gives a stable filter for every cutoff in (0, 1/2) and gain. With the default Q the gain of the RBJ low pass and high pass equals that of the Butterworth filter of order 2 with the same cutoff at every frequency.", "quantifier": "all classes with a default argument, all cutoffs and gains, all frequencies", "why_tests_cant": "Compares two independent implementations on a continuum of inputs.", "anchors": ["iir/RBJ.h", "iir/RBJ.cpp:LowPass::setupN", "iir/RBJ.cpp:HighPass::setupN", "iir/Butterworth.cpp"]}
{"id": "C58", "title": "Resonance of the RBJ low and high pass", "statement": "The gain of the RBJ low pass and high pass never exceeds 1 if q <= 1/sqrt 2. For q > 1/sqrt 2 its maximum over all frequencies is 2 q^2/sqrt(4 q^2 - 1) > 1, and it is attained (RBJ.h: above 1/sqrt(2) the peak becomes more and more pronounced).", "quantifier": "all cutoffs in (0, 1/2), all q > 0, all frequencies", "why_tests_cant": "A maximum over all frequencies cannot be found by sampling.", "anchors": ["iir/RBJ.h", "iir/RBJ.cpp:LowPass::setupN", "iir/RBJ.cpp:HighPass::setupN"]}
{"id": "C59", "title": "Where designed filters settle", "statement": "The response of every successfully set up Butterworth and Chebyshev filter at frequency 0 and at Nyquist is a real number >= 0 (no sign inversion): 1 in the pass band (10^(-ripple/20) for even order Chebyshev I), 0 in the stop band (10^(-rejection/20) for even order Chebyshev II), the shelf gain inside a shelf. Hence from any finite delay line contents an input that converges to c, or ends up alternating between c and -c, gives an output that converges to that multiple of it; a band stop filter removes a sinusoid at its centre frequency; an input that approaches any sinusoid gives an output that approaches the response times the sinusoid.", "quantifier": "all 21 classes, orders, cutoffs, gains, ripples in range, topologies, delay line contents, all such input signals", "why_tests_cant": "A limit of an infinite run for all inputs; tests compare a few output samples.", "anchors": ["iir/Cascade.cpp:Cascade::setLayout", "iir/Cascade.cpp:Cascade::response", "iir/PoleFilter.cpp", "iir/Butterworth.cpp", "iir/ChebyshevI.cpp", "iir/ChebyshevII.cpp"]}
{"id": "C60", "title": "Where RBJ filters settle", "statement": "After setup of an RBJ object with arbitrary finite delay line contents, an input that approaches a sinusoid gives an output that approaches the cookbook prototype's response times the sinusoid; constant and alternating inputs settle at 0, 1 or the shelf's 10^(gain/20) times the input according to the class; band stop and notch remove a sinusoid at their frequency.", "quantifier": "all ten classes, cutoffs in (0, 1/2), gains, q > 0, states, all such input signals", "why_tests_cant": "A limit of an infinite run for all inputs; tests compare a few output samples.", "anchors": ["iir/RBJ.cpp", "iir/RBJ.h:RBJbase::filter", "iir/State.h:DirectFormI::filter"]}
{"id": "C61", "title": "RBJ designs in double precision", "statement": "In IEEE-754 double arithmetic setup of the RBJ filters without gain parameter succeeds for every cutoff in (0, 1/2) and q in [1/64, 1024], stores finite coefficients within 2^-46 (1 + 1/q) of the exact values of the Audio EQ Cookbook formulas, and the stored coefficients are those of a stable filter if the cutoff is at least 2^-15 away from 0 and 1/2. The math library may be any whose sin, cos and exp are accurate to 2^-50.", "quantifier": "LowPass, HighPass, BandPass1, BandPass2, BandStop, AllPass, IIRNotch; all double cutoffs and q in range; all such math libraries", "why_tests_cant": "All double arguments and all math libraries; stability next to the unit circle is lost by tiny errors that tests with a tolerance do not see.", "anchors": ["iir/RBJ.cpp", "iir/Biquad.cpp:Biquad::setCoefficients"]}
{"id": "C62", "title": "RBJ filters in double precision against the ideal filter", "statement": "An RBJ filter (without gain parameter) that is designed and run in IEEE-754 double arithmetic stays, for all time after reset, within an explicit bound of the ideal filter, that is of the difference equation with the exact cookbook coefficients run without rounding: G^2 ((1 + 1/q) X/2^36 + 2^-1050) for inputs of magnitude at most X, where G is a gain of the ideal recursion, e.g. (1 + 2 q/sin(2 pi f))^2.", "quantifier": "the seven classes of C61, all double cutoffs and q in range, all input signals of any length, all math libraries accurate to 2^-50", "why_tests_cant": "Covers design and filtering errors together over unbounded runs; a test compares finitely many samples.", "anchors": ["iir/RBJ.cpp", "iir/RBJ.h:RBJbase::filter", "iir/State.h:DirectFormI::filter"]}
{"id": "C63", "title": "Closed form of Butterworth low and high pass coefficients", "statement": "A Butterworth low pass or high pass of any order n and cutoff f in (0, 1/2) is stored as exactly ceil(n/2) sections. With t = tan(pi f) and the pole angles theta_i = pi/2 + (2i+1) pi/(2n), section i of a conjugate pair has the denominator 1 + 2(t^2-1)/d z^-1 + (1+t^2+2tc)/d z^-2, c = cos theta_i, d = 1+t^2-2tc, the last section of an odd order has 1 + (t-1)/(t+1) z^-1, the numerators are (1 +- z^-1)^2 or 1 +- z^-1, and the first section carries the factor that makes the gain at frequency 0 (low pass) or Nyquist (high pass) 1 (exact arithmetic).", "quantifier": "all orders, all cutoffs in (0, 1/2), low and high pass", "why_tests_cant": "Tests compare single designs with tabulated coefficients.", "anchors": ["iir/Butterworth.cpp", "iir/PoleFilter.cpp", "iir/Cascade.cpp:Cascade::setLayout", "iir/Biquad.cpp:Biquad::setTwoPole", "iir/Biquad.cpp:Biquad::setOnePole"]}
{"id": "C64", "title": "Butterworth low and high pass designs in double precision: poles", "statement": "In IEEE-754 double arithmetic the setup of a Butterworth low or high pass succeeds for every order up to 32768 and every cutoff between 2^-14 and 1/2 - 2^-14, stores the right number of sections with finite recursive coefficients within 2^-44/(1-2f) of the exact ones, every section is stable, and the numerators of all sections but the first are exact. The math library may be any whose tan, std::polar and complex division are accurate.", "quantifier": "all orders up to 2^15, all double cutoffs in range, low and high pass, all such math libraries", "why_tests_cant": "All double cutoffs, orders and math libraries; stability next to the unit circle is lost by tiny errors that tests with a tolerance do not see.", "anchors": ["iir/Butterworth.cpp", "iir/PoleFilter.cpp:LowPassTransform::transform", "iir/PoleFilter.cpp:HighPassTransform::transform", "iir/Cascade.cpp:Cascade::setLayout", "iir/Biquad.cpp:Biquad::setTwoPole"]}
{"id": "C65", "title": "Butterworth low and high pass designs in double precision: scale factor", "statement": "In IEEE-754 double arithmetic the numerator of the first section, which carries the scale factor computed from the response of the unscaled cascade at the normalisation frequency, is finite and within the relative error 8 n (1+u)^2 2^-44/(1-2f) of the exact one, u = tan(pi f) for the high pass and its inverse for the low pass, as long as that error is at most 1/8. The math library may be any whose tan, std::polar, complex product, complex division and modulus are accurate.", "quantifier": "all orders up to 24, all double cutoffs with a relative error bound of at most 1/8, low and high pass, all such math libraries", "why_tests_cant": "All double cutoffs and math libraries; the conditioning of the scale factor near 0 and Nyquist is not visible in single designs.", "anchors": ["iir/Cascade.cpp:Cascade::setLayout", "iir/Cascade.cpp:Cascade::response", "iir/Cascade.cpp:Cascade::applyScale", "iir/PoleFilter.cpp"]}
{"id": "C66", "title": "Butterworth low and high pass in double precision against the ideal filter", "statement": "A Butterworth low or high pass that is set up and run in IEEE-754 double arithmetic produces, for all time, finite outputs within an explicit bound of the output of the ideal filter, that is of the cascade with the exact coefficients (closed form of the design) run without rounding. The bound adds, section by section, the rounding errors, the errors of the stored coefficients and the amplified error of the section's input; for order 3 at a quarter of the sampling rate and inputs in [-1, 1] it is below 10^-8. The same bound holds for any cascade whose stored coefficients are within given distances of ideal ones.", "quantifier": "all orders up to 24, all double cutoffs in range for which the bounds apply, all state structures, all input signals of any length, all accurate math libraries", "why_tests_cant": "Covers design and filtering errors together over unbounded runs; a test compares finitely many samples.", "anchors": ["iir/Butterworth.cpp", "iir/PoleFilter.cpp", "iir/Cascade.cpp:Cascade::setLayout", "iir/Cascade.h:CascadeStages::filter", "iir/State.h"]}
{"id": "C67", "title": "Stability of accepted Butterworth designs in double precision", "statement": "Whenever the setup of a Butterworth low or high pass with a cutoff strictly between 0 and 1/2 succeeds in IEEE-754 double arithmetic, every stored section is stable.", "quantifier": "all orders, all double cutoffs in (0, 1/2), low and high pass", "why_tests_cant": "The failing cutoffs are far below those used in tests, and a pole on the unit circle does not show in a short run.", "anchors": ["iir/Butterworth.cpp", "iir/PoleFilter.cpp:LowPassTransform::transform", "iir/PoleFilter.cpp:HighPassTransform::transform", "iir/Biquad.cpp:Biquad::setTwoPole"]}
{"id": "C68", "title": "Rounding error bounds with fused multiply-add", "statement": "If the compiler contracts any of the products and sums in the filter functions to fused multiply-adds, chosen freely at every operation and every sample, the outputs still satisfy the bounds proved for separate operations: every output is finite, bounded, and within the same explicit distance of the exact output, for any cascade with finite coefficients and known gain, for any reachable filter object, for cascades with coefficients near ideal ones, and for Butterworth low and high pass filters.", "quantifier": "all cascades, state structures, input signals of any length, and all choices of contraction at every operation", "why_tests_cant": "The results of a build depend on the target's instructions and on the optimiser; tests see one build.", "anchors": ["iir/State.h:DirectFormI::filter", "iir/State.h:DirectFormII::filter", "iir/State.h:TransposedDirectFormII::filter", "iir/Cascade.h:CascadeStages::filter"]}
{"id": "C69", "title": "The cascade's own getPoleZeros agrees with the design", "statement": "Cascade::getPoleZeros returns one entry per active section, the roots of that section's coefficients in order, and is defined for every reachable filter. For every Butterworth or Chebyshev low pass, high pass, band pass or band stop design it describes, section by section, the same poles and zeros as PoleFilterBase2::getPoleZeros reports from the digital layout; for shelves the same holds for every section that is not of first order.", "quantifier": "all families, orders, FilterOrder, cutoffs, widths and ripples (exact arithmetic); entry count and definedness for every arithmetic and history", "why_tests_cant": "Roots are recomputed from coefficients by a quadratic formula; equality of two sets of roots for all designs is beyond sampling, and the first order special case is only right because the zero is +-1.", "anchors": ["iir/Cascade.cpp:Cascade::getPoleZeros", "iir/Biquad.cpp:BiquadPoleState::BiquadPoleState", "iir/PoleFilter.h:PoleFilterBase2::getPoleZeros"]}
{"id": "C70", "title": "RBJ shelves in double precision", "statement": "In IEEE-754 double arithmetic setup of the RBJ low, high and band shelf succeeds for gains of at most 24 dB, slopes from 1/16 to 1 and (band shelf) widths from 1/64 octave up to a digital width of 11 octaves. It stores finite coefficients, those of the recursion within 2^-36 and the others within 2^-33 of the exact values of the Audio EQ Cookbook formulas, and the stored coefficients are those of a stable filter if the cutoff is at least 2^-15 away from 0 and 1/2. Run in double arithmetic the filter stays, for all time after reset, within G^2 (X/2^27 + 2^-1050) of the difference equation with the exact coefficients run without rounding, for inputs of magnitude at most X, where G is a gain of the ideal recursion. The math library may be any whose sin, cos and pow are accurate to 2^-50 and whose sinh is accurate to 2^-47.", "quantifier": "LowShelf, HighShelf, BandShelf; all double cutoffs, gains, slopes and widths in range; all input signals of any length; all such math libraries", "why_tests_cant": "All double arguments, all math libraries, unbounded runs; the conditioning of the square root and of sinh near Nyquist is not visible in single designs.", "anchors": ["iir/RBJ.cpp:LowShelf::setupN", "iir/RBJ.cpp:HighShelf::setupN", "iir/RBJ.cpp:BandShelf::setupN", "iir/Biquad.cpp:Biquad::setCoefficients", "iir/RBJ.h:RBJbase::filter"]}
{"id": "C71", "title": "The library without exceptions", "statement": "With IIR1_NO_EXCEPTIONS, where an invalid argument aborts the program, every sequence of the public calls of C21 and C52 on a filter, including setLayout with a layout that has too many poles for the filter, either is aborted, at the first call that would throw, or leaves the same filter as the library with exceptions, on which response, operator[] and getPoleZeros are defined and the numbers of stages and states are as constructed. In a program that was not aborted, setup with an order of at least one gives the design of a newly constructed filter, with no condition on the earlier calls other than those of C24 on the parameters.", "quantifier": "all families, kinds, orders, layouts, call sequences and parameters, for every arithmetic", "why_tests_cant": "The variant is not built by the test suite, and an abort ends the test.", "anchors": ["iir/Common.h:throw_invalid_argument", "iir/Cascade.cpp:Cascade::setLayout", "iir/PoleFilter.h:PoleFilterBase", "iir/Layout.h:LayoutBase::add"]}
{"id": "C72", "title": "Closed form of Chebyshev low and high pass coefficients", "statement": "For every Chebyshev I or II low pass or high pass setup with cutoff f in (0, 1/2), ripple or rejection db > 0 and order n the stored sections are, in exact arithmetic: for the i-th pair of analogue poles - sinh v sin a +- i cosh v cos a (type II: their inverses, with zeros +- i/cos a), v = arsinh(1/eps)/n, a = (2 i + 1) pi/(2 n), the section obtained by z = (1 + t s)/(1 - t s), t = tan(pi f) (high pass: z = -(1 + s/t)/(1 - s/t)); for an odd order the last section has the pole of - sinh v (type II: its inverse); the feedforward coefficients of the first section carry the factor that gives the response 1, or 10^(-db/20) for even orders of type I, at frequency 0 (high pass: at the Nyquist frequency).", "quantifier": "both types, low and high pass, all orders, FilterOrder, cutoffs and ripples (exact arithmetic)", "why_tests_cant": "The coefficients themselves, not only magnitude responses at sampled frequencies, for all parameters and orders.", "anchors": ["iir/ChebyshevI.cpp:AnalogLowPass::design", "iir/ChebyshevII.cpp:AnalogLowPass::design", "iir/PoleFilter.cpp:LowPassTransform", "iir/PoleFilter.cpp:HighPassTransform", "iir/Cascade.cpp:Cascade::setLayout", "iir/Biquad.cpp:Biquad::setTwoPole", "iir/Biquad.cpp:Biquad::setOnePole"]}
{"id": "C73", "title": "Chebyshev low and high pass designs in double precision", "statement": "In IEEE-754 double arithmetic every Chebyshev I or II low or high pass setup with order at most 32, cutoff f from 2^-11 to 1/2 - 2^-8 and pass band ripple from 1/64 to 24 dB (type II: stop band rejection from 1 to 80 dB) succeeds and stores, in every section, finite recursive coefficients within 2^-35/(1 - 2 f) of the exact ones and with both poles inside the unit circle; the feedforward coefficients of all sections but the first, which carries the scale factor, are exact for type I and within 2^-41/(1 - 2 f) of the exact ones for type II. The math library may be any whose tan, sin, cos, polar, log, exp, sinh, cosh and complex division are accurate to about 2^-50.", "quantifier": "both types, low and high pass, all orders up to 32, all double cutoffs and ripples in range, all such math libraries", "why_tests_cant": "All double parameters and all math libraries; loss of accuracy in 1/eps, asinh and the inverse poles is not visible in single designs.", "anchors": ["iir/ChebyshevI.cpp:AnalogLowPass::design", "iir/ChebyshevII.cpp:AnalogLowPass::design", "iir/MathSupplement.h:asinh", "iir/PoleFilter.cpp:LowPassTransform", "iir/PoleFilter.cpp:HighPassTransform", "iir/Biquad.cpp:Biquad::setTwoPole", "iir/Biquad.cpp:Biquad::setOnePole"]}
{"id": "C74", "title": "Filters that have not been set up", "statement": "A Butterworth or Chebyshev filter that was constructed and then only run, reset or assigned to reports no stages and no poles and zeros, its response is 1 at every frequency response() accepts, operator[] throws for every index, and in double arithmetic it returns every sequence of finite samples unchanged (compares equal). Newly constructed RBJ filters and SOSCascade objects also return finite samples unchanged.", "quantifier": "all filter classes, template orders, state structures, call sequences without a setup, and input signals", "why_tests_cant": "All call sequences and signals; tests always call setup first.", "anchors": ["iir/PoleFilter.h:PoleFilter::PoleFilter", "iir/Cascade.cpp:Cascade::setCascadeStorage", "iir/Cascade.cpp:Cascade::response", "iir/Biquad.h:Biquad", "iir/RBJ.h:RBJbase", "iir/Custom.h:SOSCascade"]}
{"id": "C75", "title": "Chebyshev low and high pass designs in double precision: scale factor", "statement": "In IEEE-754 double arithmetic the feedforward coefficients of the first section of a Chebyshev I or II low or high pass, which carry the scale factor that setLayout computes from the response of the unscaled cascade and the gain (10^(-db/20) for even orders of type I), are finite and within the relative error 16 n K 2^-35/(1-2f) of the exact ones, as long as that error is at most 1/8; K is the sum over the sections of the inverses of numerator and denominator at frequency 0 (high pass: Nyquist). The math library may be any whose functions, complex product, division and modulus, and pow(10, x) are accurate.", "quantifier": "both types, low and high pass, orders up to 24, all double cutoffs and ripples in the ranges of C73, all such math libraries", "why_tests_cant": "All double parameters and math libraries; the conditioning of the product of section responses is not visible in single designs.", "anchors": ["iir/Cascade.cpp:Cascade::setLayout", "iir/Cascade.cpp:Cascade::applyScale", "iir/Cascade.cpp:Cascade::response", "iir/ChebyshevI.cpp:AnalogLowPass::design", "iir/ChebyshevII.cpp:AnalogLowPass::design"]}
{"id": "C76", "title": "Output of Chebyshev low and high pass filters in double precision", "statement": "A Chebyshev I or II low or high pass that is set up and run in IEEE-754 double arithmetic produces, for all time, finite outputs within an explicit bound of the output of the ideal filter, that is of the cascade with the exact coefficients (closed form of the design) run without rounding. The bound adds, section by section, the rounding errors, the errors of the stored coefficients and the amplified error of the section's input; the gains in it are an explicit function of the poles. For a type II low pass of order 2 at a quarter of the sampling rate with 10 dB rejection and inputs in [-1, 1] it is below 10^-5.", "quantifier": "both types, low and high pass, orders up to 24, all state structures, all double parameters in range, all bounded input signals of any length, all such math libraries", "why_tests_cant": "All signals of any length, all parameters and all math libraries; there is no exact reference to test against.", "anchors": ["iir/ChebyshevI.h:LowPassBase", "iir/ChebyshevI.h:HighPassBase", "iir/ChebyshevII.h:LowPassBase", "iir/ChebyshevII.h:HighPassBase", "iir/Cascade.cpp:Cascade::setLayout", "iir/Cascade.h:CascadeStages::filter", "iir/State.h:DirectFormI::filter", "iir/State.h:DirectFormII::filter", "iir/State.h:TransposedDirectFormII::filter"]}
{"id": "C77", "title": "Frequency response computed in double precision", "statement": "In IEEE-754 double arithmetic Cascade::response(f) and Biquad::response(f), f from 0 to 1/2, return a finite complex number near the exact frequency response of the coefficients stored in the active stages: the difference is at most (n+1) 2^-42 C L + 2^-300 for n stages, where C is the product of the sums of absolute values of the denominator coefficients over the modulus of the denominator at f, and L the same with the numerator coefficients above. Stages that are not active do not matter. If the stored coefficients are within e of those of an ideal cascade, the difference to the ideal response is at most (n+1)(32 e + 2^-42) C L + 2^-300. The bound holds as long as (n+1)(32 e + 2^-42) C is at most 1/4, for coefficients up to 256 and up to 32 stages, and any library whose polar, complex product and division are accurate.", "quantifier": "all cascades of up to 32 stages and single biquads, all stored coefficients in range, all double frequencies in [0, 1/2], all such math libraries", "why_tests_cant": "All coefficients and frequencies and every math library; there is no exact reference to test against.", "anchors": ["iir/Cascade.cpp:Cascade::response", "iir/Biquad.cpp:Biquad::response", "iir/MathSupplement.h:addmul"]}
{"id": "C78", "title": "Frequency response of low and high pass filters set up in double precision", "statement": "After setup of a Butterworth or Chebyshev I or II low or high pass in IEEE-754 double arithmetic response(x) returns, for every double x in [0, 1/2], a finite number within (n'+1)(32 e + 2^-42) C L + 2^-300 (C77, n' sections) of the frequency response H(x) of the ideal cascade, where e is the error bound of the scale factor of C65 or C75, as long as (n'+1)(32 e + 2^-42) C is at most 1/4. The ideal cascade has no pole on the unit circle, and |H(x)|^2 is the textbook curve: 1/(1 + w^(2n)), 1/(1 + eps^2 T_n(w)^2) or the Chebyshev II curve, with w = tan(pi x)/tan(pi f) for low pass and the inverse for high pass. For a third order low pass at a quarter of the sampling rate the value at the cutoff is within 10^-8.", "quantifier": "three families, low and high pass, orders up to 24, all double cutoffs, ripples and frequencies in range, all such math libraries", "why_tests_cant": "All double parameters and frequencies and every math library.", "anchors": ["iir/Cascade.cpp:Cascade::response", "iir/Cascade.cpp:Cascade::setLayout", "iir/Butterworth.h:LowPassBase", "iir/Butterworth.h:HighPassBase", "iir/ChebyshevI.h:LowPassBase", "iir/ChebyshevII.h:HighPassBase"]}
{"id": "C79", "title": "Frequency response of RBJ filters set up in double precision", "statement": "After setup of any of the ten RBJ filters in IEEE-754 double arithmetic response(x) returns, for every double x in [0, 1/2], a finite number within the bound of C77 of the frequency response of the cookbook's coefficients, where the relative coefficient error is that of C61 / C70 times (1 + 1/N), N the sum of the moduli of the numerator coefficients. That frequency response is the response of the cookbook's analogue prototype at the warped frequency (and its value at infinity for x = 1/2), with no pole on the unit circle; for the notch it is that of a pair of zeros on the unit circle at the cutoff and poles at radius exp(-pi f/q).", "quantifier": "all ten RBJ filters, all double cutoffs, gains, q and frequencies in range, any earlier content of the biquad, all such math libraries", "why_tests_cant": "All double parameters and frequencies and every math library; there is no exact reference to test against.", "anchors": ["iir/RBJ.cpp:LowPass::setupN", "iir/RBJ.cpp:IIRNotch::setupN", "iir/RBJ.cpp:BandShelf::setupN", "iir/Biquad.cpp:Biquad::response"]}
{"id": "C80", "title": "Fused multiply-add in Chebyshev and RBJ filters", "statement": "The bound on the output of Chebyshev I and II low and high passes in double precision (C76) also holds when the compiler fuses multiplications and additions of the filter functions in any way, with a different choice at every operation and sample. The same kind of bound, against the cookbook's difference equation, holds for each of the ten RBJ filters after setup and reset.", "quantifier": "both Chebyshev types, low and high pass, orders up to 24, all ten RBJ filters, all state structures, all double parameters in range, all bounded inputs of any length, every choice of fused operations, all such math libraries", "why_tests_cant": "The set of contraction choices is exponential in the number of samples, and a given build only shows one.", "anchors": ["iir/State.h:DirectFormI::filter", "iir/State.h:DirectFormII::filter", "iir/State.h:TransposedDirectFormII::filter", "iir/ChebyshevI.h:LowPassBase", "iir/ChebyshevII.h:HighPassBase", "iir/RBJ.h:RBJbase"]}
{"id": "C81", "title": "Filters with a past, set up again and reset", "statement": "However a Butterworth or Chebyshev filter was used before (setups of other orders and parameters, setups that threw for too large an order, samples, resets, assignments), setup() followed by reset() gives a filter that cannot be told from a new one after the same setup(): same response, poles and zeros, stages and all later outputs. It needs that no earlier setup for the same prototype threw in the middle of a design (C24). So the double precision bounds on output and response of C66, C76 and C78 hold for such filters as well.", "quantifier": "all filter classes and state structures, all call sequences, all arithmetics (first part); Butterworth and Chebyshev low and high passes in double precision (second part)", "why_tests_cant": "All call histories of any length; the effect of stale layouts and delay lines depends on the combination of orders.", "anchors": ["iir/Butterworth.cpp:LowPassBase::setup", "iir/Cascade.h:CascadeStages::reset", "iir/Butterworth.cpp:AnalogLowPass::design", "iir/Cascade.cpp:Cascade::setLayout", "iir/Layout.h:LayoutBase"]}
{"id": "C82", "title": "Closed form of the coefficients of Butterworth shelves", "statement": "In exact arithmetic every coefficient of every section of a Butterworth low or high shelf is given by an explicit formula in tan(pi f), the 2n-th root g of the gain and the Butterworth angles (poles at radius 1/g, zeros at radius g, bilinear transform); the first section carries the scale factor that makes the response 1 at half the sampling rate (low shelf) or at 0 (high shelf), also in closed form.", "quantifier": "low and high shelf, every order n >= 1 with 2n in the range of int, all cutoffs strictly between 0 and 1/2, all real gains", "why_tests_cant": "All orders and real parameters.", "anchors": ["iir/Butterworth.cpp:AnalogLowShelf::design", "iir/Butterworth.cpp:LowShelfBase::setup", "iir/Butterworth.cpp:HighShelfBase::setup", "iir/PoleFilter.cpp:LowPassTransform", "iir/PoleFilter.cpp:HighPassTransform", "iir/Cascade.cpp:Cascade::setLayout"]}
{"id": "C83", "title": "Butterworth shelves in double precision: coefficients", "statement": "In IEEE-754 double arithmetic setup of a Butterworth low or high shelf succeeds; a1 and a2 of every section, and b1 and b2 of every section but the first, are finite and within 2^-44/(1-2f) of the closed form of C82, b0 of every section but the first is 1, and the poles of every section, as stored, are inside the unit circle. The math library may be any whose functions are accurate, including pow and polar with a negative radius.", "quantifier": "low and high shelf, orders up to 32, all double cutoffs f from 2^-13 to 1/2-2^-8, all double gains from -80 to 80 dB, all such math libraries", "why_tests_cant": "All double parameters and math libraries.", "anchors": ["iir/Butterworth.cpp:AnalogLowShelf::design", "iir/Butterworth.cpp:LowShelfBase::setup", "iir/Butterworth.cpp:HighShelfBase::setup", "iir/PoleFilter.cpp:LowPassTransform", "iir/PoleFilter.cpp:HighPassTransform"]}
{"id": "C84", "title": "Butterworth shelves in double precision: scale factor", "statement": "In IEEE-754 double arithmetic the feedforward coefficients of the first section of a Butterworth shelf, which carry the scale factor, are finite and within the relative error 32 n K 2^-44/(1-2f) of the exact ones, as long as that error is at most 1/8; K is the sum over the sections of the inverses of numerator and denominator at the frequency where the response is normalised to 1.", "quantifier": "low and high shelf, orders up to 24, all double cutoffs and gains in the ranges of C83, all such math libraries", "why_tests_cant": "All double parameters and math libraries; the conditioning of the product of section responses is not visible in single designs.", "anchors": ["iir/Cascade.cpp:Cascade::setLayout", "iir/Cascade.cpp:Cascade::applyScale", "iir/Cascade.cpp:Cascade::response", "iir/Butterworth.cpp:AnalogLowShelf::design"]}
{"id": "C85", "title": "Output of Butterworth shelves in double precision", "statement": "A Butterworth low or high shelf that is set up and run in IEEE-754 double arithmetic produces, for all time, finite outputs within an explicit bound of the output of the ideal shelf (closed form of the design, run without rounding); the gains of the recursions in the bound are explicit functions of the poles. The same bound holds when the compiler fuses multiplications and additions of the filter functions in any way, and for a shelf with a past that is set up again and reset. For the second order low shelf of 20 dB at a quarter of the sampling rate and inputs in [-1, 1] it is below 10^-8.", "quantifier": "low and high shelf, orders up to 24, all state structures, all double parameters in range, all bounded inputs of any length, every choice of fused operations, all call histories, all such math libraries", "why_tests_cant": "All signals of any length, all parameters and all math libraries; there is no exact reference to test against.", "anchors": ["iir/Butterworth.h:LowShelfBase", "iir/Butterworth.h:HighShelfBase", "iir/Cascade.cpp:Cascade::setLayout", "iir/Cascade.h:CascadeStages::filter", "iir/State.h:DirectFormI::filter", "iir/State.h:DirectFormII::filter", "iir/State.h:TransposedDirectFormII::filter"]}
{"id": "C86", "title": "Frequency response of Butterworth shelves set up in double precision", "statement": "After setup of a Butterworth low or high shelf in IEEE-754 double arithmetic response(x) returns, for every double x in [0, 1/2], a finite number within the bound of C77 of the frequency response of the ideal shelf, e being the error bound of C84. The ideal shelf has no pole on the unit circle and its squared gain is the Butterworth shelf curve at the warped frequency: half the gain in dB at the cutoff, the full gain at the end of the shelf, and exactly 1 at the other end.", "quantifier": "low and high shelf, orders up to 24, all double cutoffs in range, gains from -80 to 36 dB, all double frequencies, all such math libraries (ideal shelf: all orders, cutoffs and gains)", "why_tests_cant": "All double parameters and frequencies and every math library.", "anchors": ["iir/Cascade.cpp:Cascade::response", "iir/Cascade.cpp:Cascade::setLayout", "iir/Butterworth.h:LowShelfBase", "iir/Butterworth.h:HighShelfBase", "iir/Butterworth.cpp:AnalogLowShelf::design"]}
{"id": "C87", "title": "Running on without reset in double precision", "statement": "A cascade or filter object that goes on filtering with whatever finite numbers its delay lines hold (parameters changed in the middle of a signal, no reset) produces for all time finite outputs within an explicit bound of the output of the same cascade over the real numbers started from the same delay lines, and the delay lines stay bounded. What was in the delay lines is forgotten at an explicit geometric rate: after n samples the outputs differ from the exact output of the cascade started at rest, and from those of a second run with other delay lines, by at most the rounding bound plus a constant over rho^n. For the order 4 Butterworth low pass at 0.1 of the sampling rate with delay lines up to 2 the rounding part is below 10^-6.", "quantifier": "all coefficients with bounded recursion gain, all state structures, all finite delay line contents, all bounded inputs of any length, all reachable filter objects, a setup between two stretches of signal", "why_tests_cant": "All contents of the delay lines and all signals of any length; there is no exact reference to test against.", "anchors": ["iir/State.h:DirectFormI::filter", "iir/State.h:DirectFormII::filter", "iir/State.h:TransposedDirectFormII::filter", "iir/Cascade.h:CascadeStages::filter", "iir/Cascade.h:CascadeStages::reset", "iir/PoleFilter.h:PoleFilter"]}
{"id": "C88", "title": "Falling silent in double precision", "statement": "In IEEE-754 double arithmetic a stable cascade that is no longer fed falls silent at an explicit geometric rate: from any finite delay line contents up to c every output is finite and at most a constant K times c/rho^n + 2^-1060, so from some sample on it stays below 2 K 2^-1060 for ever. Rounding errors cannot keep an audible limit cycle going. The same holds, with the constant of the input, for inputs that fall in this way. For the used order 4 Butterworth low pass at 0.1 of the sampling rate the level is below 2^-1035, a subnormal number.", "quantifier": "all coefficients with bounded recursion gain, all state structures, all finite delay line contents, all stretches of silence, all reachable filter objects after any bounded signal", "why_tests_cant": "For ever, and from all contents of the delay lines; a test sees one decay of finite length.", "anchors": ["iir/State.h:DirectFormI::filter", "iir/State.h:DirectFormII::filter", "iir/State.h:TransposedDirectFormII::filter", "iir/Cascade.h:CascadeStages::filter", "iir/PoleFilter.h:PoleFilter"]}
{"id": "C89", "title": "Silence and periodic signals end exactly in double precision", "statement": "A stable filter that is fed with zeros finally outputs exact zeros. This is false in double arithmetic: after setup with cutoff 0.1 the order 4 Butterworth low pass (default state structure) answers an impulse with non-zero subnormal numbers for ever; the library has no protection against subnormal numbers in its delay lines. What is true for every filter object in any state, stable or not: its answer to a signal of period q (silence, a constant, a periodic signal) becomes exactly periodic.", "quantifier": "the counterexample: all times from sample 3400 on; periodicity: all coefficients, delay lines, state structures and periodic double signals, including infinities and NaN", "why_tests_cant": "A statement about all times; the state space is far too large to search.", "anchors": ["iir/State.h:DirectFormI::filter", "iir/State.h:DirectFormII::filter", "iir/State.h:TransposedDirectFormII::filter", "iir/Cascade.h:CascadeStages::filter", "iir/RBJ.h:RBJbase::filter"]}
{"id": "C90", "title": "State structure, order of the stages and superposition in double precision", "statement": "What C02, C03 and C07 say exactly holds in IEEE-754 double arithmetic up to the rounding bound of C54, for all time: the three state structures give outputs within twice that bound of each other, the stages may be put in any order at the price of the sum of the two bounds, and the answer to a weighted sum of two signals (itself rounded, with error e) is the weighted sum of the answers up to an explicit bound. For the order 4 Butterworth low pass at 0.1 of the sampling rate and inputs in [-1, 1] the state structures differ by at most 2 10^-9.", "quantifier": "all coefficients with bounded recursion gain, all state structures, all orders of the stages, all real weights, all bounded inputs of any length", "why_tests_cant": "All signals of any length and all orders of the stages; differences grow with the length of the signal before they level off.", "anchors": ["iir/State.h:DirectFormI::filter", "iir/State.h:DirectFormII::filter", "iir/State.h:TransposedDirectFormII::filter", "iir/Cascade.h:CascadeStages::filter"]}
{"id": "C91", "title": "Designed filters fall silent in double precision", "statement": "A filter that is set up in IEEE-754 double arithmetic, with whatever finite numbers up to c its delay lines hold (also those of stages the design does not use), answers silence, or an input that falls like c/rho^n, with finite outputs that are at most K times c/rho^n + 2^-1060; K and the admissible rates rho are explicit functions of the ideal design (the closed form of its poles). So no Butterworth, Chebyshev or RBJ filter keeps ringing at an audible level, whatever the rounding of its design and of its recursion.", "quantifier": "Butterworth and Chebyshev I/II low and high pass, Butterworth shelves, all ten RBJ filters; all orders up to 24, all double parameters in range, all state structures, all delay line contents, all such inputs of any length, all math libraries that are accurate", "why_tests_cant": "For ever, from all contents of the delay lines, and for all double parameters and math libraries.", "anchors": ["iir/Butterworth.h:LowPassBase", "iir/ChebyshevI.h:LowPassBase", "iir/ChebyshevII.h:LowPassBase", "iir/Butterworth.h:LowShelfBase", "iir/RBJ.h:RBJbase::filter", "iir/Cascade.h:CascadeStages::filter", "iir/State.h:DirectFormII::filter"]}
{"id": "C92", "title": "Streams of integer and float samples in double precision against the exact filter", "statement": "Integer samples: if the exact output of the cascade stays in the sample type, with a margin of the rounding bound e of C54, no conversion in filter() is undefined and every sample that is returned is less than 1 + e away from the exact output (the cast drops the fraction). If the exact output leaves the type by more than e the call is undefined behaviour: the library does not saturate. Float samples: the result is within e + 2^-24 (|z| + e) + 2^-150 of the exact output z. For 16 bit samples held in int the order 4 Butterworth low pass at 0.1 of the sampling rate never overflows and e is below 10^-4.", "quantifier": "all coefficients with bounded recursion gain, all state structures, all integer types with values below 2^53, all streams of integer or float samples of any length", "why_tests_cant": "All streams of any length; undefined conversions usually go unnoticed in tests.", "anchors": ["iir/Cascade.h:CascadeStages::filter", "iir/State.h:DirectFormI::filter", "iir/State.h:DirectFormII::filter", "iir/State.h:TransposedDirectFormII::filter"]}
{"id": "C93", "title": "Double-precision filters settle on the sinusoid of the ideal response", "statement": "Feed a filter that was designed in double with samples that follow a sinusoid of frequency fr up to an error e (a constant is fr = 0): after a certain time the output follows the sinusoid multiplied by the complex frequency response of the ideal filter at fr, up to the bound of C66 for input error e plus any eps > 0, for as long as the input goes on. The time depends on the ideal filter, the sinusoid and eps only. Shown for Butterworth and Chebyshev low and high passes, Butterworth shelves, the RBJ filters, and any cascade whose stored coefficients are near ideal ones. A gain bound of the recursion as used throughout exists for stable recursions only.", "quantifier": "all libraries of given accuracy, all cutoffs, orders, levels and state structures in the ranges of C66, C76, C79 and C85, all sinusoids and constants, all input lengths, all eps", "why_tests_cant": "The steady state is a limit: no test can wait for it, for all frequencies, with a bound.", "anchors": ["iir/Butterworth.h:LowPassBase", "iir/ChebyshevI.h:LowPassBase", "iir/ChebyshevII.h:LowPassBase", "iir/Butterworth.h:LowShelfBase", "iir/RBJ.h:RBJbase::filter", "iir/Cascade.h:CascadeStages::filter"]}
{"id": "C94", "title": "In double precision response() tells what filter() settles on", "statement": "Let h be the value that response(x) returns in double. If the samples given to filter() follow a sinusoid of frequency x and complex amplitude A, the output settles on the sinusoid of amplitude h A, up to the rounding bound of filter() (C54, C66), the error bound of response() (C77 to C79, C86) times |A|, and any eps > 0. Shown for any stored cascade with finite coefficients and for Butterworth and Chebyshev low and high passes, Butterworth shelves and RBJ filters after setup.", "quantifier": "all libraries of given accuracy, all tame stored coefficients with bounded recursion gain, all designs in the ranges of C78, C79 and C86, all frequencies in [0, 1/2] at which the response is not too badly conditioned, all amplitudes, all input lengths", "why_tests_cant": "Relates two code paths, both with rounding errors, over all frequencies and inputs of any length.", "anchors": ["iir/Cascade.cpp:Cascade::response", "iir/Biquad.cpp:Biquad::response", "iir/Cascade.h:CascadeStages::filter", "iir/RBJ.h:RBJbase::filter"]}
{"id": "C95", "title": "A running or retuned filter settles on its response in double precision", "statement": "Whatever finite numbers up to c its delay lines hold (after any history, or after a second setup in the middle of a signal without reset), a filter in double that is fed a sinusoid settles on that sinusoid multiplied by the frequency response of its stored coefficients, and by the value that response() returns, up to the bound of C87 and any eps > 0. The time after which this holds depends on the coefficients, c, the sinusoid and eps only, not on what the delay lines hold or on the signal before the change.", "quantifier": "all stored coefficients with bounded recursion gain, all state structures, all delay lines up to c, all reachable filter objects, all bounded signals before a change of parameters, all sinusoids, all input lengths, all eps", "why_tests_cant": "All histories and delay lines at once, and a limit in time.", "anchors": ["iir/Cascade.h:CascadeStages::filter", "iir/Cascade.cpp:Cascade::response", "iir/PoleFilter.h:PoleFilter", "iir/State.h:DirectFormII::filter"]}
{"id": "C96", "title": "Documented gains in double precision", "statement": "The landmark gains of C30 and C32 hold for filters that are set up and run in double: fed with a sinusoid or a constant at one of these frequencies the filter settles on it multiplied by that complex gain, up to the rounding bound of C80 or C66 and any eps > 0. RBJ: low pass 1 at frequency 0, 0 at 1/2 and -i q at the cutoff, high pass accordingly, band pass 0 at both ends and q or 1 at the centre, band stop and notch 0 at the centre, all pass 1, -1 and 1, shelves 10^(g/20) inside and 1 outside. Butterworth low and high pass: 1 at the end of the pass band and 0 at the other end. The notch at a quarter of the sampling rate with q = 1 removes its centre frequency down to 10^-9.", "quantifier": "all ten RBJ filters, Butterworth low and high pass up to order 24, all double parameters in range, all state structures, all amplitudes and phases, all input lengths, all eps, all math libraries of given accuracy", "why_tests_cant": "All double parameters and a limit in time; a single spectrum measured over a finite signal shows neither.", "anchors": ["iir/RBJ.cpp:LowPass::setupN", "iir/RBJ.cpp:IIRNotch::setupN", "iir/RBJ.cpp:BandStop::setupN", "iir/RBJ.cpp:LowShelf::setupN", "iir/RBJ.h:RBJbase::filter", "iir/Butterworth.h:LowPassBase", "iir/Cascade.h:CascadeStages::filter"]}
{"id": "C97", "title": "How fast double-precision filters settle", "statement": "Sample n of the output of a cascade or filter object in double that is fed a sinusoid differs from the sinusoid that the frequency response of its stored coefficients predicts by at most the rounding bound of C87 plus K/rho^n. The rate rho > 1 and K are explicit functions of the coefficients and of c, a bound for the numbers in the delay lines and for the amplitudes after each stage. So the settling time for any tolerance above the rounding bound can be computed in advance.", "quantifier": "all stored coefficients with bounded recursion gain, all state structures, all delay lines up to c, all reachable filter objects, all sinusoids and constants, all n", "why_tests_cant": "All contents of the delay lines, all frequencies and all times.", "anchors": ["iir/Cascade.h:CascadeStages::filter", "iir/State.h:DirectFormI::filter", "iir/State.h:DirectFormII::filter", "iir/State.h:TransposedDirectFormII::filter", "iir/Biquad.cpp:Biquad::response"]}
{"id": "C98", "title": "Filters settle as predicted when the compiler fuses operations", "statement": "Compiled with contraction, filter() may compute any product and sum with one rounding (fused multiply-add), and choose differently at every operation. For all these choices, over the whole stream, a filter that is fed samples which follow a sinusoid up to e settles on the sinusoid multiplied by the ideal frequency response, up to the same bound as in C93 plus any eps > 0. The settling time depends on the ideal filter, the sinusoid and eps, not on the choices. So differently compiled programs agree, after this time, up to twice this bound.", "quantifier": "all choices of fused and separate operations at every operation of every sample, all designs and ranges of C93, all stored coefficients near ideal ones, all state structures, all sinusoids and constants, all input lengths, all eps", "why_tests_cant": "A test binary has one choice of fused operations, runs for a finite time and sees few frequencies.", "anchors": ["iir/State.h:DirectFormI::filter", "iir/State.h:DirectFormII::filter", "iir/State.h:TransposedDirectFormII::filter", "iir/Cascade.h:CascadeStages::filter", "iir/RBJ.h:RBJbase::filter", "iir/Butterworth.h:LowPassBase"]}
{"id": "C99", "title": "Running filters when the compiler fuses operations", "statement": "The bounds of C87 and C97 hold for every choice of fused and separate operations. Whatever finite numbers up to c its delay lines hold, a contracted filter in double stays within the rounding bound of the run in exact arithmetic, for inputs of any length. Two differently compiled programs which start with different delay lines come together like K/rho^n, up to twice the rounding bound. Fed with a sinusoid, sample n of the output differs from the sinusoid that the stored coefficients predict by at most the rounding bound plus K/rho^n.", "quantifier": "all choices of fused and separate operations at every operation of every sample, all stored coefficients with bounded recursion gain, all state structures, all delay lines up to c, all reachable filter objects, all bounded inputs of any length, all sinusoids, all n", "why_tests_cant": "All contents of the delay lines and all ways to compile the loop at once.", "anchors": ["iir/State.h:DirectFormI::filter", "iir/State.h:DirectFormII::filter", "iir/State.h:TransposedDirectFormII::filter", "iir/Cascade.h:CascadeStages::filter"]}
{"id": "C100", "title": "Silence when the compiler fuses operations", "statement": "The bounds of C88 hold for every choice of fused and separate operations. Inputs that fall like c/rho^n down to 2^-1060 give outputs that fall in the same way. A contracted stable filter that is no longer fed falls geometrically, from any delay lines up to c, until it is below 2*K*2^-1060, and stays there: no choice of fused operations makes a limit cycle of audible size. The delay lines that a contracted run leaves behind are finite and within the bound of C87, so the same holds for a signal of any length followed by silence.", "quantifier": "all choices of fused and separate operations at every operation of every sample, all stored coefficients with bounded recursion gain, all state structures, all delay lines up to c, all reachable filter objects, all bounded signals of any length followed by any number of zeros", "why_tests_cant": "The silence after the signal is unbounded, and a test binary has one choice of fused operations.", "anchors": ["iir/State.h:DirectFormI::filter", "iir/State.h:DirectFormII::filter", "iir/State.h:TransposedDirectFormII::filter", "iir/Cascade.h:CascadeStages::filter"]}
{"id": "C101", "title": "Designed filters fall silent when the compiler fuses operations", "statement": "C91 holds for every choice of fused and separate operations in filter(). Butterworth and Chebyshev low and high passes, Butterworth shelves and the ten RBJ filters, set up in double with any accurate math library, with any finite delay lines up to c in their stages, give outputs that fall like K*c/rho^n down to K*2^-1060 when their inputs fall in this way, silence for instance.", "quantifier": "all choices of fused and separate operations at every operation of every sample, all math libraries within the stated accuracy, all cutoffs, orders, ripples, gains and widths in the stated ranges, all state structures, all finite delay lines up to c, all inputs that fall, of any length", "why_tests_cant": "A test binary has one choice of fused operations and runs for a finite time, with few designs.", "anchors": ["iir/State.h:DirectFormI::filter", "iir/State.h:DirectFormII::filter", "iir/State.h:TransposedDirectFormII::filter", "iir/Cascade.h:CascadeStages::filter", "iir/RBJ.h:RBJbase::filter", "iir/Butterworth.h:LowPassBase"]}

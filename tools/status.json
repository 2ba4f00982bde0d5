{
 "C01": [
  "proved",
  "exact reals, from the input node; 64-bit sizes"
 ],
 "C02": [
  "proved",
  "exact reals, from the input node; 64-bit sizes"
 ],
 "C03": [
  "proved",
  "for every non-NaN double as compared by IEEE 754, and for reals"
 ],
 "C04": [
  "proved",
  "bin counts whose product fits in 64 bits"
 ],
 "C05": [
  "proved",
  "any arithmetic; an estimator's bins abort instead because their constructor is noexcept"
 ],
 "C06": [
  "proved",
  "exact reals"
 ],
 "C07": [
  "proved",
  "exact reals"
 ],
 "C08": [
  "proved",
  "exact reals"
 ],
 "C09": [
  "proved",
  "spheres and x-planes over exact reals"
 ],
 "C10": [
  "partial",
  "false of the code: containment compares the axis distance with r squared; refuted with a witness, also as a crossing mismatch for every r other than 1; proved for r = 1"
 ],
 "C100": [
  "proved",
  "over the reals; either absorption with probability at least b in every group of every nuclide, or every non-void cell within one of its own spheres; whole histories where nothing is born by fission"
 ],
 "C101": [
  "proved",
  "exact arithmetic; histories drawn independently from a finite distribution"
 ],
 "C102": [
  "proved",
  "exact arithmetic; multigroup data"
 ],
 "C103": [
  "proved",
  "Joint chance of the number, groups and cosines of the neutrons of a fission in a mixture. With ideal independent random numbers; the children's own streams are seeded from a raw integer of the parent, whose value is not looked at. Requires the spectrum of every fissionable nuclide to be non-zero for the group."
 ],
 "C104": [
  "proved",
  "Law of directions on all patches of the sphere. With ideal independent random numbers and real arithmetic; the azimuth is measured from axes that depend on the reference only."
 ],
 "C105": [
  "proved",
  "Joint law of distance and outcome of a step, in a mixture with multigroup data, for both tracking methods."
 ],
 "C106": [
  "proved",
  "Law of a whole walk in a purely absorbing mixture next to the void, for both tracking methods and any score."
 ],
 "C107": [
  "proved",
  "Leakage through any number of absorbing layers, for both tracking methods and any score."
 ],
 "C108": [
  "proved",
  "Leakage of an isotropic point source in an absorbing ball; the direction and the flight use independent random numbers, where the code reseeds."
 ],
 "C109": [
  "proved",
  "Leakage of an isotropic point source through each face of an absorbing plate; the direction and the flight use independent random numbers, where the code reseeds."
 ],
 "C11": [
  "proved",
  "exact reals for all surfaces and any storage order; doubles when no distance is NaN"
 ],
 "C110": [
  "proved",
  "Leakage of an isotropic point source through nested absorbing shells; the direction and the flight use independent random numbers, where the code reseeds."
 ],
 "C111": [
  "proved",
  "Distribution of the cell of capture in layers of absorbers, with independent random numbers."
 ],
 "C112": [
  "proved",
  "Binomial law of counts of independent histories, with independent random numbers for each history where the code seeds them by number."
 ],
 "C12": [
  "proved",
  "exact reals, spheres and x-planes"
 ],
 "C13": [
  "proved",
  "any arithmetic"
 ],
 "C14": [
  "proved",
  "exact reals; the generator hypothesis is met by the program's generator (C60)"
 ],
 "C15": [
  "proved",
  "exact reals"
 ],
 "C16": [
  "proved",
  "exact reals; indirect effects of perturbations are the subject of C55"
 ],
 "C17": [
  "proved",
  "exact reals"
 ],
 "C18": [
  "proved",
  "exact reals, tables of any depth"
 ],
 "C19": [
  "proved",
  "any arithmetic"
 ],
 "C20": [
  "proved",
  "exact reals"
 ],
 "C21": [
  "proved",
  "any arithmetic for the sum in the written order; exact reals for its value"
 ],
 "C22": [
  "proved",
  "exact reals, non-negative data"
 ],
 "C23": [
  "proved",
  "any arithmetic; the counts are of what the text parses to"
 ],
 "C24": [
  "proved",
  "exact reals, non-negative data"
 ],
 "C25": [
  "proved",
  "exact reals, non-negative data"
 ],
 "C26": [
  "proved",
  "exact reals, both data kinds"
 ],
 "C27": [
  "proved",
  "exact reals; multigroup and continuous"
 ],
 "C28": [
  "proved",
  "exact reals; distinct nuclides with positive fractions"
 ],
 "C29": [
  "proved",
  "exact reals; order of storage irrelevant"
 ],
 "C30": [
  "proved",
  "exact reals"
 ],
 "C31": [
  "proved",
  "majorant: any arithmetic; no virtual collisions: exact reals"
 ],
 "C32": [
  "partial",
  "False of the code: the relative difference has no absolute value, so an evaluation is accepted at every temperature below its own (refuted with T0=600, T=300). Proved: the documented test at or above T0, and acceptance below."
 ],
 "C33": [
  "proved",
  "Real arithmetic. Ratio formula, value one at T=0, at least one, and monotone in T."
 ],
 "C34": [
  "proved",
  "Real arithmetic; the particle's temperature is within the cell's declared upper bound and thermal data do not apply."
 ],
 "C35": [
  "proved",
  "Real arithmetic; the soundness of the tables is the hypothesis named in the statement (total at most the sum of reactions, thermal total at most thermal majorant)."
 ],
 "C36": [
  "proved",
  "Real arithmetic, uniform numbers in [0,1). Choice, share of the unit interval, and divergence when all reactions are zero."
 ],
 "C37": [
  "proved",
  "Real arithmetic, uniform numbers in (0,1) as the generator gives them. The nucleus has the sampled speed and cosine; momentum, energy and the centre-of-mass speed are conserved; energy and direction of the outgoing particle are those of the outgoing velocity."
 ],
 "C38": [
  "proved",
  "Real arithmetic, uniform numbers in (0,1)."
 ],
 "C39": [
  "proved",
  "any arithmetic"
 ],
 "C40": [
  "partial",
  "exact reals; false at and above the highest of several temperatures, where the code uses the last but one: refuted with a witness, everything else proved"
 ],
 "C41": [
  "proved",
  "exact reals for the sign, any arithmetic for the number of attempts"
 ],
 "C42": [
  "partial",
  "exact reals; an outgoing energy of exactly zero is excluded, there the direction is not a number: refuted with a witness"
 ],
 "C43": [
  "partial",
  "exact reals; the code divides only the lower grid point by the spacing, so the documented probability holds only at unit spacing: refuted with a witness"
 ],
 "C44": [
  "partial",
  "exact reals; false for transfers at or above the last tabulated beta, where an index past the end is used: refuted with a witness"
 ],
 "C45": [
  "proved",
  "For every arithmetic: the walk is a chain of events scored one by one, only the last ends it; leak iff void. An event left unset by a multigroup collision without a selected reaction is excluded by the hypothesis no_multigroup, and for real arithmetic with sensible data by C45_multigroup."
 ],
 "C46": [
  "proved",
  "C46_inside adds that with surface tracking through spheres and planes the particle stays inside its recorded cell."
 ],
 "C47": [
  "partial",
  "Refuted for space-dependent temperature (ratio evaluated before the flight); the partial theorem covers cells with one temperature."
 ],
 "C48": [
  "proved",
  "Real points; linear fields with zero gradient included."
 ],
 "C49": [
  "partial",
  "Proved in exact arithmetic for planes and spheres, also of the transport step itself; refuted in double precision, where the nudge is absorbed by rounding."
 ],
 "C50": [
  "proved",
  "exact arithmetic; C50_crossings counts the crossings in each bin over the events of the whole family, C50_created ties the estimator to the written surface and bins"
 ],
 "C51": [
  "proved",
  "exact arithmetic; scores are pending in a proxy that is separate from the estimators, so nothing is visible before the commit; C51_untouched holds in every arithmetic"
 ],
 "C52": [
  "proved",
  "exact arithmetic as stated; C52_binary64_refuted records that in double precision three histories scoring 0.1 print NaN as deviation"
 ],
 "C53": [
  "proved",
  "every arithmetic; matching sets have the same number of bins, as sets copied from one initial set do"
 ],
 "C54": [
  "proved",
  "exact arithmetic for the totals; bins and surface of a sensitivity are those of its estimator"
 ],
 "C55": [
  "partial",
  "holds for walks whose flights in the nuclide's materials end in collisions and whose materials have atom density one; C55_error gives the exact error otherwise (one over the total for every flight that ends on a surface, and density minus one times the length), C55_surface_refuted a neutron that leaks with a wrong effect; with delta tracking, in materials whose majorant is their total; every secondary starts again from zero (FixedSource.cpp:65)"
 ],
 "C56": [
  "proved",
  "Every Arith and generator, any schedule; batch size plus threads at most 2^64 (the 64-bit counter would wrap otherwise). C56_ends: a worker given 2N+1 steps has returned. The increment of the counter is one atomic step (std::atomic)."
 ],
 "C57": [
  "proved",
  "Exact arithmetic. The merged set is the initial set plus histories 0..N-1 (C57_result); equals the single-threaded run whenever that succeeds (C57_serial); same for any two thread counts and schedules (C57_threads). Estimator names must be unique, at least one thread; C57_no_threads_refuted: threads = 0 is accepted and runs nothing."
 ],
 "C58": [
  "proved",
  "Every Arith and generator: equal seed + index gives the same events whatever the estimators, fuel, batch size and threads."
 ],
 "C59": [
  "partial",
  "False as stated: C59_streams_refuted (seed 2147483647: histories 0 and 1 share a stream). C59_collisions characterises all collisions of a batch of at most 2147483646 histories; C59_distinct_partial: no collision when seed + N <= 2147483647."
 ],
 "C60": [
  "proved",
  "std::minstd_rand: range, injective step, uniform numbers in (0,1) in exact arithmetic, full period 2147483646 and every state reached from every state."
 ],
 "C61": [
  "proved",
  "every arithmetic and scoring object"
 ],
 "C62": [
  "partial",
  "False as stated: C62_repeat_refuted. C62_second and C62_empty say what a second call does: starts no history, returns the initial estimators."
 ],
 "C63": [
  "partial",
  "False of the code: Solve starts no worker. C63_cycles_refuted gives a document whose bank would score; C63_initial: the result is always the initial estimators."
 ],
 "C64": [
  "proved",
  "The lock, empty(), back(), pop_back() and the release are separate steps, interleaved arbitrarily."
 ],
 "C65": [
  "proved",
  "Directions in exact arithmetic, for non-zero written vectors (C65_zero_direction_refuted otherwise)."
 ],
 "C66": [
  "proved",
  "For documents that follow the schema (well_formed); C66_shared, C66_described and C66_cells for every document that is accepted."
 ],
 "C67": [
  "partial",
  "Refuted: undefined behaviour in void, termination outside all cells. Sources in a material: C71."
 ],
 "C68": [
  "partial",
  "exact reals; proved between the tabulated temperatures, outside them the code extrapolates or yields NaN: refuted with a witness"
 ],
 "C69": [
  "proved",
  "exact reals"
 ],
 "C70": [
  "proved",
  "exact reals"
 ],
 "C71": [
  "proved",
  ""
 ],
 "C72": [
  "proved",
  "All partitions, boundaries and indices, in any arithmetic."
 ],
 "C73": [
  "proved",
  "Exact reals; temperatures within the tabulated ones (see C68 for the others)."
 ],
 "C74": [
  "proved",
  "Decision in any arithmetic, law in exact reals."
 ],
 "C75": [
  "partial",
  "Defined for all valid documents with no empty axis; reported only for usable ones: a constructor marked noexcept aborts otherwise (C75_abort_refuted), and an empty axis is undefined behaviour (C75_empty_axis_refuted)."
 ],
 "C76": [
  "proved",
  "Any arithmetic; the decimal format of a number is an oracle."
 ],
 "C77": [
  "partial",
  "Determinism in exact reals; crash statements in any arithmetic. Preserving earlier results, reporting an unwritable output and sparing the input are refuted."
 ],
 "C78": [
  "partial",
  "Estimators: proved in binary64 for every schedule and number of threads (C78_exact gives the 2^53 limit, C78_counts, C78_schedule, C78_program). Sensitivities: refuted, the sums of rounded effects differ in the last bit between two schedules of a 24-history run (C78_sensitivity_refuted)."
 ],
 "C79": [
  "partial",
  "Proved for linspace and logspace elements of non-degenerate width (range, monotonicity, at most one bin from the exact one). Refuted with witnesses: a value below max can land in the overflow bin; a subnormal width can give an index outside the array; an overflowing span or a NaN value is undefined behaviour."
 ],
 "C80": [
  "proved",
  "The bounds on flight lengths and directions hold for every mathematical library of the stated accuracy; a correctly rounded one meets it (Example C80_case)."
 ],
 "C81": [
  "partial",
  "Proved while the square of the total number of crossings is at most 2^53. Beyond that refuted: 379625063 histories crossing once each print NaN."
 ],
 "C82": [
  "partial",
  "The temperature itself: proved. That it stays within the written bounds and is not negative: refuted, neither is checked."
 ],
 "C83": [
  "proved",
  ""
 ],
 "C84": [
  "proved",
  ""
 ],
 "C85": [
  "proved",
  "The counting of numbers is for multigroup collisions; for continuous data the choice of the nuclide and everything before it is covered."
 ],
 "C86": [
  "proved",
  "Single absorbing region with void behind it, multigroup data, exact reals for the tallies. Attenuation through several regions depends on the joint distribution of successive numbers and is not claimed."
 ],
 "C87": [
  "partial",
  "False: the tracking method is shared by all problems of the process, so a problem read later changes the result of one read earlier (C87_independent_refuted). C87_method says which method is used after any calls; C87_independent_partial says the problems are independent if the files read since have the same method."
 ],
 "C88": [
  "partial",
  "The derivative claim is false of the code (C88_derivative_refuted: printed positive, derivative negative). Proved: the printed sensitivity and deviation are a fixed multiple of those of the count (C88_value), the exact excess over the derivative (C88_error), and zero for nuclides outside the absorber (C88_untouched_partial)."
 ],
 "C89": [
  "proved",
  "Every reason why a worker of a run can be stopped, in double precision with the program's generator (C89_double) and in exact arithmetic with any valid generator (C89_exact), for every schedule. Data with thermal scattering tables are outside the theorem's hypotheses; OutOfFuel stands for histories longer than the modelled number of steps."
 ],
 "C90": [
  "proved",
  "For entries up to 2^900, totals of at least 2^-900 and at most 65536 groups; the shares are exact up to one part in 2^34, which is what rounding can change."
 ],
 "C91": [
  "proved",
  "Binary64 with the program's generator: the nuclide hit and the continuous-energy reaction chosen are those of the exact shares up to 2^-34; the retry of the reaction choice is characterised."
 ],
 "C92": [
  "partial",
  "True for planes near enough, in both directions; a particle short of a plane always meets it again. Refuted in general: one that reaches the plane exactly while flying down is lost, with a document where none of the neutrons is counted behind it, and a document where every neutron is counted twice."
 ],
 "C93": [
  "partial",
  "Proved from the centre of spheres of radius at most 5/4. Refuted in general: a law and two whole runs."
 ],
 "C94": [
  "proved",
  "Limits shown by C94_beyond_refuted, C94_negative_refuted and C94_nan_refuted."
 ],
 "C95": [
  "proved",
  "Normalising, turning by a scattering cosine, any number of collisions. The computed cosine of a direction with itself can be above one, and then the new direction is not a number."
 ],
 "C96": [
  "proved",
  "The mixture's data must be non-negative doubles up to 2^400, each total at most its majorant, and the exact majorant at least 2^-900."
 ],
 "C97": [
  "partial",
  "True: only the order of addresses matters (C97_order), nothing matters if materials have one nuclide and cells one surface (C97_few), the worlds built differ only in order (C97_exact in exact arithmetic, C97_built in any arithmetic up to the fractions), and the same cell is found for every point (C97_place; C11 and C29 then give the same nearest distance and the same totals in any order). The full claim is false: C97_nuclides_refuted and C97_surfaces_refuted."
 ],
 "C98": [
  "partial",
  "proved when the total is constant along the flight; refuted for delta tracking when it varies (C98_varying_refuted), because the total at the start of the flight decides"
 ],
 "C99": [
  "proved",
  "over the reals; each iteration's numbers are independent and uniform on (0,1); at_most bounds the upper probability"
 ]
}
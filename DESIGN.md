# Formal model of minimc in Rocq: design and trusted base

## 1. What is modelled

`/repo/src` (C++17) is modelled function by function in `rocq/theories/Model/`.
Every definition carries a comment `(* models src/File.cpp:lines ... *)` and says
what it simplifies.

### Arithmetic

All model functions are parametrised by a record `Arith` of number operations
(`Model/Num.v`). Two instances are used.

* `XRa` : extended exact reals (`Fin r | PInf | NInf | NaN`). `x/0`, `sqrt` of a
  negative number and `log` of a non-positive number have explicit outcomes, so
  totalised real division never makes a theorem true for the wrong reason.
  Zero is unsigned (`Fin 1 / Fin 0 = PInf`): the only simplification with
  respect to IEEE special values.
* `F64` : IEEE binary64, Coq's `SpecFloat` with (53,1024), axiom-free and
  computable. `libm` (cos, sin, log, exp, erf, pow) is a parameter of this instance.
  Used for witnesses of floating-point behaviour, and for theorems that use no
  arithmetic laws and so hold for the doubles as computed.

A theorem stated for every `A : Arith` holds bit-for-bit for doubles. A theorem
stated for `XRa` is about exact real arithmetic; rounding is then outside it.

### Outcomes

`outcome X := Ok x | Throw msg | Terminate | UB | OutOfFuel`. `Terminate` is an
exception leaving a `noexcept` function, `UB` is undefined behaviour (null
dereference, out-of-range `operator[]`, float-to-integer cast out of range,
end-iterator dereference), `OutOfFuel` is the model's own step bound. The three are distinct from each other and
from errors the code reports.

### External world

* `std::minstd_rand` is modelled exactly (`x -> 48271 x mod 2147483647`). Library
  distributions follow libstdc++: `generate_canonical` with two draws,
  `uniform_real(a,b) = u(b-a)+a`, `exponential(l) = -log(1-u)/l`,
  `bernoulli(p) = u < p`. Most theorems quantify over an arbitrary generator record
  whose uniforms lie in [0,1).
* pugixml: documents are finite trees; text-to-number conversion is an oracle
  (record `Ext`).
* Xerces: `Model/Schema.v` is a validator of trees for `minimc.xsd`; the lexical rules of
  the simple types are an oracle (record `Lexical`). Identity constraints and element
  orders are those of the schema. Only C75-C77 use it; other theorems state which facts
  of the document they use.
* Files, formatting of numbers and the success of opening the output are the record
  `Env` of `Model/Program.v`. `main` gives the list of its effects on files; a crash
  happens between two effects or within the text of one.
* `Particle::transport_method` is static: only `Model/Process.v` (C87) keeps it as a state of
  the process. All other models describe a process with one problem, where it is the
  method of that problem.
* HDF5/pandas files: the arrays after reading are the model's input.
* `std::map` keyed by pointer: a list in the order of addresses. The allocator is an oracle
  (fields `surface_address` and `nuclide_address` of `Ext`), over which theorems quantify.
* Threads: small-step interleaving; `std::atomic` fetch-and-add is one step; each
  worker's other steps touch only its own state.
* Debug `assert`s are not executed (release build): what follows a failing
  assert is modelled, usually `UB`.

### Not modelled

* Decimal formatting of numbers (an oracle), progress output on the console, and
  the messages of Xerces.
* `KEigenvalue::StartWorker`, which no code calls; `KEigenvalue::Solve` starts no worker
  and is modelled as the loop over cycles that changes no estimator.
* Reading the bytes of HDF5 files: the axes and values are the result of the oracle
  `h5_file`.
* Memory allocation and its failure, copying costs, and the C++ memory model below the
  level of one atomic fetch-and-add or one step under a lock.
* `CMakeLists.txt`, the Python scripts, the unit tests and the Catch2 sources.

## 2. Layout

* `Model/*.v` definitions only, one file per source file.
* `Spec/*.v` small independent specifications (geometry of surfaces, counting boundaries,
  chord interpolation, row-major offset, exactly-once, ...).
* `Proofs/*.v` lemmas.
* `Props/*.v` property theorems only: `Theorem Cxx_... . Proof. exact lemma. Qed.`,
  `Print Assumptions`, and an `Example` showing that a concrete non-trivial case meets the
  hypotheses. A false property has `Cxx_..._refuted` with a witness and, where useful,
  `Cxx_..._partial` stating what does hold.

### Is it the same program?

`Proofs/RepoTests.v` replays the repository's own unit tests (`/repo/test/test_*.cpp`) on the
model in binary64, over the documents of `/repo/test` turned into terms by `tools/mkdocs.py`
(`Proofs/RepoDocuments.v`): the operators of points, distances to the sphere, the nearest
surface, cells found at given points, totals of multigroup nuclides (equal to the last bit),
the messages of every expected exception, the validity of every document of `test/` and
`benchmarks/` under the schema, and a run of 100 of the 1000 histories on two threads whose leakage the
test compares with exp(-1) (0.37, within the test's three standard deviations). Left out are
the cases that need the contents of data files.

## 3. Properties: what is modelled and how it is proved

| id | model | method |
|---|---|---|
| C01 | `LinspaceBins` over `XRa` | real arithmetic; index = count of boundaries by induction on count |
| C02 | `LogspaceBins` over `XRa` | reduction to C01 through monotonicity of log |
| C03 | `BoundaryBins`, any `Arith` with an order | `upper_bound` on sorted list, induction |
| C04 | `ParticleBins` | div/mod arithmetic over arbitrary sub-bins |
| C05 | constructors | induction over the boundary list |
| C06-C08 | `SolveQuadratic`, `Distance` over `XRa` | algebra of quadratics |
| C09, C12 | `Contains` along a ray | sign of a quadratic/linear form between roots; induction over surfaces |
| C10 | `CylinderX::Contains` | refuted by witness; partial for r = 1 |
| C11, C13 | `Cell`, `World` | induction over lists, any order |
| C14-C16 | `Point`, `Direction`, `Stream` | vector algebra over R |
| C17, C18 | `ContinuousMap`, nested by recursion on depth | induction |
| C19, C20 | `HDF5DataSet` | induction on dimension |
| C21-C27 | `Multigroup` | induction over lists of cumulative sums |
| C28-C31 | `Material`, `SampleNuclide`, `CellDelta` | induction, permutation invariance |
| C32 | `IsValid` | refuted by witness; partial for T >= T0 |
| C33, C34 | free-gas adjustment over R, erf as an integral | derivative sign and monotonicity |
| C35, C36 | `Continuous` | sums; induction over redraws |
| C37, C38 | free-gas kinematics | vector algebra |
| C39-C44 | `ThermalScattering` | case analysis; refutations by witness where the code is wrong |
| C45, C46 | both `Transport` loops | invariant of the loop for all fuels |
| C47 | `CellDelta` | refuted by witness, partial for constant temperature |
| C48 | `TransportMethod::Create`, fields | case analysis |
| C49 | crossing + nudge | real arithmetic; binary64 refutation by computation |
| C50-C55 | `Estimator`, `Scorable`, `Sensitivity`, `Perturbation` | induction over histories |
| C56, C57 | interleaving semantics of workers | invariant over every execution |
| C58-C60 | seeding and `minstd_rand` | number theory modulo a prime |
| C61 | `Bank` loop | invariant relating bank and family tree |
| C62, C63 | driver calls | refuted |
| C64 | `NextParticle` under interleaving | invariant |
| C65-C67 | `Source`, `World` construction over XML trees | induction over documents; witness for UB |
| C68, C69 | thermal tables between temperatures and energies | case analysis; C68 refuted outside the table |
| C70 | isotropic directions, azimuth of a scatter | real arithmetic |
| C71 | transport and the bank loop with sensible multigroup data | progress and preservation of an invariant on live particles, induction on fuel |
| C72 | constructor of thermal data, partition lookup | characterisation of the running ends and of the binary search over them, any arithmetic |
| C73 | candidate beta, `find_cdf`, `SampleAlpha` | piecewise linear curves: totality, inverse and monotonicity; search of the completed axis |
| C74 | flight length of one transport step, both methods | any arithmetic for the decision; exact reals for the exponential law |
| C75 | the schema as a validator of trees, `Driver::Create` | validity gives each constructor the children and attributes it dereferences; induction over documents; refuted where a constructor must not throw |
| C76 | `main`, `to_string` of estimators, `replace_extension` | text as lines; the merge preserves the shape of the initial estimators |
| C77 | `main` as a list of effects on files | C57 for the schedule; case analysis over prefixes of the effects; witnesses for the three defects |
| C78 | the solver and `main` in any arithmetic that counts exactly; `F64` | integers up to 2^53 are added and squared exactly (rounding of an integer in the format, through Flocq's lemmas about `SpecFloat`); the tally invariant over every schedule; a computed pair of schedules refutes it for sensitivities |
| C79 | `bins_create` and `bins_index` at `F64` | rounding is monotone, so the computed index is; the relative error of a difference and of two quotients bounds the distance to the exact bin by one; computed witnesses for the cases that fail |
| C80 | `runif` of `Minstd` at `F64` and `XRa`, `exponential`, `dir_isotropic` | the draw before an extreme draw is known (the multiplier is invertible), so the weighed sum of two draws stays away from both ends; rounding is monotone; a correctly rounded library shows the assumptions can be met |
| C81 | `sc_means` and `sc_stddevs` at `F64` on counted scores | the Cauchy-Schwarz inequality over the integers and monotone rounding keep the radicand non-negative; errors of each operation are added up; a computed witness for the NaN |
| C82 | `world_create`, `cell_create`, `field_create` in any arithmetic | unfolding over the list of cells; a computed document for the bounds that are not checked |
| C83 | `driver_create` in any arithmetic | induction over perturbations and estimators |
| C84 | states of `Minstd`, `history_start`, `exponential`, `mg_interact`, `sample_nuclide` in the extended reals | the map from a state to the second raw number of its k-th draw permutes the states, and that number fixes the draw up to 1/2147483646; seeds of consecutive histories miss at most one state |
| C85 | `transport_step`, `mg_interact`, `dir_isotropic`, `bank_secondary` and any generator; `Minstd` for the period | the state after each choice is written as the list of calls made, and each direction, group and child seed as a function of the state in which the previous choice left the stream; distinct states by the period of the generator (C60) |
| C86 | a whole fixed-source run: source, `transport_step`, estimators, workers and their merge, with any valid generator; `Minstd` for the share | one step ends a history of the beam: it is captured or leaks, decided by the first number of its stream; the printed mean (C57, C76) is then the share of histories whose number is above the threshold, and over a cycle of seeds each state occurs once (C60, C84) |
| C87 | `Model/Process.v`: the calls `Driver::Create` and `Solve` made in one process, with the static tracking method shared by all drivers | the state after any list of calls: no call changes another problem, and the method used is that of the last driver built. `_partial`: independent if all files read since have the same method; `_refuted`: two files whose methods differ, one run finds all neutrons leave and the other none |
| C88 | the same runs as C86, with sensitivities and perturbations | every counted neutron of the beam carries the same indirect effect (C55), so the printed sensitivity is that number times the printed count (C57, C76); compared with the derivative of the attenuation law (Coquelicot). `C88_error` gives the exact excess, `_refuted` a run whose printed sensitivity has the wrong sign, `_partial` the nuclides outside the absorber |
| C89 | `run_schedule` with the real estimators, for any problem with complete tables | every function called during a history is shown to succeed, or run out of fuel, unless one of the named reasons is the case (`safe`), by induction over the loops; generic in the arithmetic under three facts (a usable total exceeds total times draw, zero is not usable, a countable number converts), which are proved for binary64 with the program's generator and for exact arithmetic. Thermal tables are not covered |
| C90 | `multigroup_create`, `mg_interact`, `mg_scatter`, `mg_fission` in binary64 with the program's generator | both selection loops are rewritten as one choice over a list; a rounded sum of k non-negative doubles is between (1-u)^k and (1+u)^k times the exact sum (no underflow in addition), the quotients of the normalised columns are off by a relative u plus an underflow, and the largest random number is 1-2^-32, so the last sum always exceeds it; the intervals follow from the same bounds |
| C91 | `sample_nuclide`, `co_get_total`, `co_interact` in binary64 with the program's generator | the same choice over a list as for C90, with rounded products as entries; a product is off by a relative u plus an underflow of at most 2^-1075, which the lower bound on the total absorbs; a table of totals may exceed the sum of the reactions, so the loop may go round again, and does not when the total is within one part in 2^34 of the sum, since the largest random number is 1-2^-32 |
| C92 | `distance`, `contains`, `padd`, `pscale` for x-planes and `nudge` in binary64; whole fixed-source runs | the errors of the subtraction, the quotient, the added nudge, the product and the final sum are bounded one after the other; the flight is longer than the gap by at least (19 w - 4 gap) 2^-53, which decides the side when flying up, and must exceed the rounding of the final sum when flying down. False beyond that: two documents evaluated by the kernel, one losing every neutron at a plane at 20, one counting every neutron twice at a plane at 100 |
| C93 | `distance`, `contains`, `padd`, `pscale`, `SolveQuadratic` for spheres and `nudge` in binary64; whole fixed-source runs | from the centre: b is exactly zero, the root is the rounded 2R, and the computed length of the flight exceeds R by the nudge less the rounding errors, which are collected from below. At the sphere: c is exactly zero, so the lesser root is zero and is rejected, and the greater root is the chord up to 2^-50. False in general: two documents evaluated by the kernel, one in which every neutron flies through a black sphere of radius 20, one in which every neutron leaving a sphere of radius 40 is counted twice |
| C94 | `cm_at` with one level of keys in binary64 | each operation contributes a factor 1 + e with abs(e) at most 2^-53, and the quotient and the product also a number below 2^-1021; the factors are multiplied out. At a key the last factor is exactly zero. The search is an induction over the table. Limits: three tables evaluated by the kernel |
| C95 | `pnormalize`, `dir_rotate`, `p_scatter` in binary64 | relative errors through dot product, square root and division give the normalised vector. The two auxiliary axes are unit vectors up to 2^-50 and orthogonal to the direction and each other up to 31 times 2^-52, because the axis crossed with is at least a third away; then the sum is multiplied out. Induction over the collisions. Limit: the diagonal direction evaluated by the kernel |
| C96 | `delta_step`, `mat_total`, `mat_majorant` in binary64 | both sums are folded side by side, rounding being monotone, so the sum of larger products is the larger; the errors of both against the exact sums and of the quotient are added up; the step is unfolded with the particle's random state moved on |
| C97 | `main`, `world_create` under two layouts of the allocator (`surface_address`, `nuclide_address` of `Ext`) | pairs of outcomes related through every step of building the world (`both`); equality of runs when the order of addresses agrees or there is nothing to order; two documents run in binary64 with different results refute the full claim |
| C98 | `transport_step` with the random numbers given as a list; probability as iterated integrals over the unit interval, each up to finitely many values (`chance`) | induction on the number of virtual collisions: the chance of passing in `k` steps is `exp(-mu r)` times the first `k` terms of the series of `exp((mu - sigma) r)` (Coquelicot's Riemann integral and power series); a slab with a step in the total cross section refutes the claim without that assumption |
| C99 | `free_gas_target`, `co_interact` with the random numbers given as a list; `at_most` bounds a probability from above by iterated integrals | induction on the number of rounds: a round of the target loop accepts with chance above 1/4 whatever speed is drawn (directions against the neutron, acceptance above one half); every other part of the model of a collision is shown never to run out of fuel |
| C100 | `transport` of a neutron whose random numbers are given as a list, in a well-posed multigroup world (C71) | induction on the number of steps; every crossing of a straight flight is a root of one of the surfaces' polynomials along the line, so that at most two crossings per surface come between collisions; each collision absorbs with chance `b` at least, whatever was drawn before. `_leaks`: a flight leaves its cell's sphere of radius R uncollided with chance `exp(-2MR)` at least, and 2S such flights in a row leave the world; `_history`: no secondaries without fission |
| C101 | `run_all` (scoring and committing histories) and the printed means and deviations of C52, over histories drawn independently from a finite distribution | moments of sums of independent draws by induction on their number; Chebyshev's inequality. That the program's random streams make histories independent is assumed, not proved |
| C102 | `collide` (flight, choice of nuclide, of reaction, of group and direction, or of yield) with random numbers given as a list | each choice is by shares of an interval (C24, C25, C26, C30, C70); one lemma integrates a choice by shares, and the chances multiply |
| C103 | `collide` ending in fission, with random numbers given as a list; the list of the neutrons banked | induction on the neutrons asked for: each takes four numbers (group, cosine, azimuth, seed), of which two decide; the yield is as in C102 |
| C104 | `sample_direction`, `set_direction_isotropic` and `p_scatter` with random numbers given as a list | the direction is written by its cosine and azimuth in an orthonormal frame (C70, C15), both functions of one random number each; the law of a patch is a product of two lengths |
| C105 | `transport_step` of both tracking methods in a mixture with multigroup data, random numbers given as a list | the first number fixes the distance; below the surface the step is `collide` (delta tracking spends one more number on a ratio of one), beyond it the crossing; the laws of C102 and C103 hold for every distance, so the integral over the first number is a product |
| C106 | `transport` (the loop, and the cell found at the start) with any score that does not fail, random numbers given as a list | in an absorber every collision is a capture, behind the surface is the void: both end the loop, so the walk is one step, whose law is C105 |
| C107 | `transport` through any number of cells, random numbers given as a list | induction over the layers: a number below the layer's chance of collision ends in capture, any other in the crossing, after which the walk is that of the same neutron behind the surface; the nudge past each surface is part of the way to the next |
| C108 | `sample_direction` and `transport` with random numbers given as a list; the code seeds a new generator for the flight from a raw number of the first, for which independent numbers stand here | from the middle every direction meets the sphere at distance r, so C107 with one layer gives the same chance for each direction, and the integral over directions is that chance; the history is one step, so the list of scored particles is computed |
| C109 | as C108, with two planes instead of a sphere | for each direction but those along the plate the nearest face and its distance h/mu are computed, C105's step gives the chance of the flight, and the integral over random numbers becomes one over cosines |
| C110 | as C108, with a cell between every two spheres | on the way out the sphere ahead is met at the difference of the radii and the one behind is not met, so by induction over the shells every direction has the layers of C107 |
| C111 | `transport` with random numbers given as a list, as C107 | by induction over the cells: the first draw either captures in this cell, with chance 1 - exp(-x), or leaves the walk at the next cell |
| C112 | each history as a test on a list of its own random numbers; the seeds of the code, consecutive numbers, are taken to give independent ones | an event followed by another with further random numbers has the product chance, by induction over the integrals; the recurrence of Pascal gives the distribution by induction over the histories; with C108 for the ball |

## 4. Trusted base

* The kernel of Coq 8.16.1 (`coqc`, including its virtual machine, used by `vm_compute`
  in binary64 witnesses). No `native_compute`, no plugin, no kernel check switched off.
* `Print Assumptions`, beneath each theorem and collected in `ASSUMPTIONS.md` (written by
  `tools/assumptions.py`). Some theorems are closed under the global context; the others
  use only axioms of the standard library: `ClassicalDedekindReals.sig_forall_dec`,
  `ClassicalDedekindReals.sig_not_dec`,
  `FunctionalExtensionality.functional_extensionality_dep` and `Classical_Prop.classic`,
  all through the classical reals. Other libraries (Flocq and Coquelicot lemmas) add no axiom.
* The records that stand for things outside the code: `Arith` (through its instances
  `XRa` and `F64`, the latter with a record `Libm`), `Rng`, `Ext`, `Lexical`, `Env`.
  Every theorem quantifies over them or names the instance it uses, and what it needs of
  them is a hypothesis in its statement.
* Statements of probability (C98 to C112) put independent uniform random numbers in the place of
  `std::minstd_rand`: the generator `Given` reads them from a list, and `chance` in
  `Spec/ChanceSpec.v` is the iterated Riemann integral (Coquelicot's `is_RInt`) of the event over
  them, finitely many values of each number apart. They say what the code computes from ideal
  random numbers; that the sequence of `minstd_rand` imitates such numbers is not claimed.
* The fidelity of `Model/` to `/repo`, including the conventions listed in section 1: one
  atomic step for `histories_elapsed++`, single steps under the lock of `NextParticle`,
  libstdc++'s random distributions, and decimal digits for `std::to_string` of integers
  (`show_N`).

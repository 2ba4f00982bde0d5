{"id": "C01", "title": "Equally spaced bins partition the line", "statement": "For a linspace bin structure with n finite bins on [min,max) the index returned for any value v equals the number of boundaries min+i*(max-min)/n (0<=i<=n) that are <= v; it is always smaller than the reported size n+2, and it never decreases when v increases.", "quantifier": "all real min<max, all n>=1, all real v", "why_tests_cant": "Every real value is a distinct input; a unit test samples finitely many and the boundary cases are a measure-zero set it has to guess.", "anchors": ["src/Bins.cpp:LinspaceBins::GetIndex", "src/Bins.cpp:LinspaceBins::size", "src/Bins.cpp:LinspaceBins::to_string"]}
{"id": "C02", "title": "Logarithmically spaced bins partition the positive axis", "statement": "For a logspace bin structure with base b>1, n finite bins and exponents in [min,max) the index returned for any v>0 equals the number of boundaries b^(min+i*(max-min)/n) (0<=i<=n) that are <= v and is smaller than the reported size.", "quantifier": "all bases b>1, all exponents min<max, all n>=1, all v>0", "why_tests_cant": "Every real value is a distinct input; a unit test samples finitely many and the boundary cases are a measure-zero set it has to guess.", "anchors": ["src/Bins.cpp:LogspaceBins::GetIndex", "src/Bins.cpp:LogspaceBins::to_string"]}
{"id": "C03", "title": "Explicit bin boundaries partition the line", "statement": "For an explicit boundary list the index returned for v is the number of listed boundaries <= v, smaller than the reported size, so bin i is exactly [a_i,a_{i+1}) with open-ended first and last bins. This holds for IEEE doubles as computed, not only for exact reals.", "quantifier": "all strictly increasing boundary lists of any length, all values v (every non-NaN double)", "why_tests_cant": "Every real value is a distinct input; a unit test samples finitely many and the boundary cases are a measure-zero set it has to guess.", "anchors": ["src/Bins.cpp:BoundaryBins::GetIndex", "src/Bins.cpp:BoundaryBins::size", "src/Bins.hpp:Bins"]}
{"id": "C04", "title": "Phase-space bin index is a bijection onto the score array", "statement": "The flattened index of a particle is always smaller than the size of the score array, two particles get the same index iff they fall in the same cosine bin and the same energy bin, and every slot is the index of some (cosine bin, energy bin) pair. Without a cosine node all directions share one bin.", "quantifier": "all combinations of cosine and energy bin structures, all particle directions and energies (group or continuous)", "why_tests_cant": "The two bin structures and the particle state range over infinite sets; a collision or out-of-range index corrupts a neighbouring score silently.", "anchors": ["src/Bins.cpp:ParticleBins::GetIndex", "src/Bins.cpp:ParticleBins::size", "src/Bins.hpp:ParticleBins::ComputeStrides"]}
{"id": "C05", "title": "Malformed bin structures are rejected, well-formed ones accepted", "statement": "A linspace/logspace node is rejected with an error iff max<=min; a boundaries node is rejected iff some boundary is not strictly greater than its predecessor; otherwise the boundaries stored are exactly the ones written.", "quantifier": "all attribute values, all boundary lists of any length", "why_tests_cant": "The offending pair may sit at any position of an arbitrarily long list.", "anchors": ["src/Bins.cpp:LinspaceBins::LinspaceBins", "src/Bins.cpp:LogspaceBins::LogspaceBins", "src/Bins.cpp:BoundaryBins::BoundaryBins"]}
{"id": "C06", "title": "Distance to a sphere is the first transversal hit", "statement": "For a unit direction, the reported distance d to a sphere is finite iff the forward ray meets the sphere at a positive parameter without merely grazing it, and then o+d*u lies on the sphere and no smaller positive parameter does; otherwise infinity is returned. No division by zero or invalid operation occurs on the way.", "quantifier": "all centres, radii r>0, origins and unit directions", "why_tests_cant": "Every real value is a distinct input; a unit test samples finitely many and the boundary cases are a measure-zero set it has to guess.", "anchors": ["src/CSGSurface.cpp:CSGSurface::SolveQuadratic", "src/CSGSurface.cpp:Sphere::Distance"]}
{"id": "C07", "title": "Distance to an x-plane is the first hit", "statement": "The reported distance d to the plane x=c is finite iff some positive parameter t has the x component of o+t*u equal to c and the ray is not parallel to it, and then it is that unique t; otherwise infinity is returned.", "quantifier": "all plane positions, origins and directions, including directions parallel to the plane", "why_tests_cant": "Every real value is a distinct input; a unit test samples finitely many and the boundary cases are a measure-zero set it has to guess.", "anchors": ["src/CSGSurface.cpp:PlaneX::Distance"]}
{"id": "C08", "title": "Distance to an x-cylinder is the first transversal hit", "statement": "For a unit direction, the reported distance d to the cylinder of radius r around the x axis is finite iff the forward ray meets it transversally at a positive parameter, and then it is the smallest such parameter; rays parallel to the axis report infinity.", "quantifier": "all radii, origins and unit directions", "why_tests_cant": "Every real value is a distinct input; a unit test samples finitely many and the boundary cases are a measure-zero set it has to guess.", "anchors": ["src/CSGSurface.cpp:CylinderX::Distance", "src/CSGSurface.cpp:CSGSurface::SolveQuadratic"]}
{"id": "C09", "title": "Side of a surface changes only at the reported distance", "statement": "Starting off the surface of a sphere or x-plane, the inside/outside answer is the same for every point of the open flight [0,d) up to the reported distance d, and it is the opposite for all points just beyond d.", "quantifier": "all spheres and x-planes, all origins not on the surface, all unit directions, all distances", "why_tests_cant": "Needs every point of a continuum of flight paths.", "anchors": ["src/CSGSurface.cpp:Sphere::Contains", "src/CSGSurface.cpp:PlaneX::Contains", "src/CSGSurface.cpp:Sphere::Distance", "src/CSGSurface.cpp:PlaneX::Distance"]}
{"id": "C10", "title": "Cylinder containment agrees with the cylinder", "statement": "A point is reported inside the x-cylinder of radius r iff its distance from the x axis is smaller than r (equivalently, containment and the reported crossing distance describe the same surface).", "quantifier": "all radii r>0 and all points", "why_tests_cant": "Any fixed test radius such as r=1 hides a dimensional error.", "anchors": ["src/CSGSurface.cpp:CylinderX::Contains", "src/CSGSurface.cpp:CylinderX::Distance"]}
{"id": "C11", "title": "Nearest surface of a cell is the nearest", "statement": "Querying the nearest surface of a cell returns one of the cell's surfaces together with that surface's distance, and no surface of the cell is closer; it fails with an error iff the cell has no surface.", "quantifier": "all cells with any number of surfaces in any storage order, all positions and directions", "why_tests_cant": "Surfaces are stored in a map ordered by memory address, so the iteration order differs between runs; a test sees one order.", "anchors": ["src/Cell.cpp:Cell::NearestSurface"]}
{"id": "C12", "title": "A flight shorter than the nearest-surface distance stays in the cell", "statement": "If a particle in a cell bounded by spheres and x-planes is not exactly on one of its surfaces, then every point of its flight at a distance smaller than the reported nearest-surface distance is in the same cell.", "quantifier": "all cells built from spheres and x-planes, all interior starting points, all unit directions, all flight lengths below the bound", "why_tests_cant": "Continuum of points per flight and unboundedly many surfaces per cell.", "anchors": ["src/Cell.cpp:Cell::Contains", "src/Cell.cpp:Cell::NearestSurface", "src/TransportMethod.cpp:SurfaceTracking::Transport"]}
{"id": "C13", "title": "Point location", "statement": "Locating a point returns the first declared cell whose every surface-sense test agrees with the point, fails with an error iff no cell does, and if the cells partition space it returns the only cell containing the point regardless of declaration order.", "quantifier": "all worlds with any number of cells, all points", "why_tests_cant": "Cells and points are unbounded; overlap or gaps show only at specific points.", "anchors": ["src/World.cpp:World::FindCellContaining", "src/Cell.cpp:Cell::Contains"]}
{"id": "C14", "title": "Every direction is a unit vector", "statement": "Every way of making a direction (from components, from a node, isotropically from the random generator, by rotating another direction by (mu,phi), from a non-zero vector) yields a vector of length one in exact arithmetic.", "quantifier": "all non-zero component triples, all generator states, all unit reference directions, all mu in [-1,1], all phi", "why_tests_cant": "Every real value is a distinct input; a unit test samples finitely many and the boundary cases are a measure-zero set it has to guess.", "anchors": ["src/Point.cpp:Direction::Direction", "src/Point.cpp:Point::Normalize"]}
{"id": "C15", "title": "Rotating a direction realises the requested cosine", "statement": "The direction built from reference d, cosine mu and azimuth phi has inner product exactly mu with d, for every reference including those on the coordinate axes; over phi it traces the whole cone (phi and phi+pi are mirror images about mu*d).", "quantifier": "all unit d, all mu in [-1,1], all phi", "why_tests_cant": "Every real value is a distinct input; a unit test samples finitely many and the boundary cases are a measure-zero set it has to guess. The axis-avoidance switch is a boundary case at |d.x|=0.9.", "anchors": ["src/Point.cpp:Direction::Direction"]}
{"id": "C16", "title": "Streaming moves exactly the flight and nothing else", "statement": "Streaming a particle by distance s moves its position by s along its direction (displacement length |s|) and leaves direction, energy, type, cell, event, surface, random state and secondaries unchanged; streaming s then t equals streaming s+t.", "quantifier": "all particle states, all distances", "why_tests_cant": "Every real value is a distinct input; a unit test samples finitely many and the boundary cases are a measure-zero set it has to guess.", "anchors": ["src/Particle.cpp:Particle::Stream"]}
{"id": "C17", "title": "Pointwise tables interpolate linearly and clamp", "statement": "Looking up k in a table returns the stored value at a stored key, the first/last value below/above the key range, and otherwise the point on the chord between the two neighbouring entries; consequently the result lies between the two neighbouring values and the lookup is a continuous function of k.", "quantifier": "all non-empty tables with strictly increasing keys of any length, all real k", "why_tests_cant": "Every real value is a distinct input; a unit test samples finitely many and the boundary cases are a measure-zero set it has to guess.", "anchors": ["src/ContinuousMap.hpp:ContinuousMap::at"]}
{"id": "C18", "title": "Nested tables interpolate multilinearly", "statement": "For a nested table of any depth, at(k1,...,kD) is the successive linear interpolation along each level with clamping, and equals the stored value when every k_i is a stored key.", "quantifier": "all nesting depths, all table shapes, all keys", "why_tests_cant": "Depth is a template parameter; each depth instantiates new code.", "anchors": ["src/ContinuousMap.hpp:ContinuousMap::at", "src/ContinuousMap.hpp:NestedContinuousMap"]}
{"id": "C19", "title": "Multi-dimensional data sets are row-major", "statement": "For a D-dimensional data set whose value array has the product size, at(i1,...,iD) with all indices in range returns the element at the row-major offset, distinct index tuples address distinct elements and every element is addressed; with an index out of range it fails with an out-of-range error naming the first offending (level,index).", "quantifier": "all dimensions D>=1, all axis lengths, all index tuples", "why_tests_cant": "Dimension, shapes and indices are unbounded.", "anchors": ["src/HDF5DataSet.hpp:HDF5DataSet::at", "src/HDF5DataSet.hpp:HDF5DataSet::at_from_base", "src/HDF5DataSet.hpp:HDF5DataSet::ComputeAxisStrides"]}
{"id": "C20", "title": "Converting a data set to a table preserves every entry", "statement": "The table made from a data set with strictly increasing axes, looked up at the axis values (a_1[i1],...,a_D[iD]), returns the data set's element at (i1,...,iD).", "quantifier": "all dimensions, shapes, axis values and indices", "why_tests_cant": "Dimension, shapes and indices are unbounded.", "anchors": ["src/HDF5DataSet.hpp:HDF5DataSet::ToContinuousMap", "src/ContinuousMap.hpp:ContinuousMap::at"]}
{"id": "C21", "title": "Multigroup total cross section is the sum over reactions", "statement": "For every group g the total cross section equals the sum of the cross sections of all listed reactions at g, where the scatter cross section at incoming group g is the sum over outgoing groups of the written matrix entries in column g.", "quantifier": "all group counts, all matrices and cross-section lists", "why_tests_cant": "All group counts and data values.", "anchors": ["src/Multigroup.cpp:Multigroup::CreateTotalXS", "src/Multigroup.cpp:Multigroup::CreateScatterXS", "src/Multigroup.cpp:Multigroup::GetTotal"]}
{"id": "C22", "title": "Group-transfer probabilities are normalised and keep their orientation", "statement": "For every incoming group g the outgoing-group probabilities derived from a written G-by-G matrix are the entries of column g divided by the column sum: non-negative, summing to one, proportional to the written entries; a column of zeros stays zero.", "quantifier": "all group counts, all non-negative matrices", "why_tests_cant": "All group counts and data values; a transposed matrix passes any symmetric test.", "anchors": ["src/Multigroup.cpp:Multigroup::TwoDimensional", "src/Multigroup.cpp:Multigroup::NormalizedTwoDimensional"]}
{"id": "C23", "title": "Group data of the wrong length is rejected", "statement": "A one-dimensional group list is accepted iff it has exactly G entries and a matrix iff it has exactly G*G; rejected data never yields a nuclide.", "quantifier": "all group counts and list lengths", "why_tests_cant": "Unbounded lengths.", "anchors": ["src/Multigroup.cpp:Multigroup::OneDimensional", "src/Multigroup.cpp:Multigroup::TwoDimensional"]}
{"id": "C24", "title": "Multigroup reactions are selected in proportion to their cross sections", "statement": "A collision with random number u in [0,1) selects the unique reaction whose cumulative cross-section interval contains u times the total; the interval's length is that reaction's cross section, so a reaction with zero cross section is never selected and some reaction is always selected when the total is positive.", "quantifier": "all nuclides, groups and random numbers u in [0,1)", "why_tests_cant": "Each u is a different outcome; zero-width intervals are only hit at boundaries.", "anchors": ["src/Multigroup.cpp:Multigroup::Interact"]}
{"id": "C25", "title": "Multigroup scattering stays in the group structure", "statement": "After a scatter the particle is alive, its group is in 1..G, was drawn with probability proportional to the column entry of the incoming group (a group of zero probability is never drawn), its new direction is a unit vector and its position is unchanged.", "quantifier": "all nuclides with a positive scatter cross section in the incoming group, all random streams", "why_tests_cant": "Unbounded random streams.", "anchors": ["src/Multigroup.cpp:Multigroup::Scatter"]}
{"id": "C26", "title": "Fission yield brackets nubar", "statement": "The number of neutrons emitted by a fission with average yield nu and random number u in [0,1) is floor(nu+u): floor(nu) or floor(nu)+1, the latter exactly for u in an interval of length frac(nu), so the mean over u is nu.", "quantifier": "all nu>=0, all u in [0,1)", "why_tests_cant": "Every real value is a distinct input; a unit test samples finitely many and the boundary cases are a measure-zero set it has to guess.", "anchors": ["src/Multigroup.cpp:Multigroup::Fission", "src/ContinuousReaction.cpp:ContinuousFission::Interact"]}
{"id": "C27", "title": "Fission secondaries are born at the collision site", "statement": "Every secondary banked by a fission has the parent's position and cell, an isotropically drawn unit direction, a random stream of its own seeded from the parent's, a valid energy (group in 1..G with positive emission probability, or the incident energy for continuous data), is a neutron, is alive, and their number is the sampled yield (for emission spectra that are not identically zero); the parent is dead afterwards.", "quantifier": "all nuclides, incident energies and random streams", "why_tests_cant": "Unbounded yields and random streams.", "anchors": ["src/Multigroup.cpp:Multigroup::Fission", "src/Particle.cpp:Particle::BankSecondaries", "src/ContinuousReaction.cpp:ContinuousFission::Interact"]}
{"id": "C28", "title": "Atom fractions are normalised", "statement": "The atom fractions of a material built from written positive fractions with distinct nuclides sum to one and keep the written ratios.", "quantifier": "all materials with any number of nuclides and any positive fractions", "why_tests_cant": "Unbounded number of nuclides.", "anchors": ["src/Material.cpp:Material::AssignNuclides"]}
{"id": "C29", "title": "Material cross sections are fraction-weighted sums and the majorant dominates", "statement": "The total (majorant) cross section of a material is the fraction-weighted sum of the nuclide totals (majorants), independent of the order nuclides are stored in; if each nuclide's majorant is at least its total then so is the material's, and the real-collision probability total/majorant is in [0,1].", "quantifier": "all materials, storage orders and particle states", "why_tests_cant": "The storage order is by memory address.", "anchors": ["src/Material.cpp:Material::GetMicroscopicTotal", "src/Material.cpp:Material::GetMicroscopicMajorant"]}
{"id": "C30", "title": "Collided nuclides are selected in proportion to fraction times cross section", "statement": "At a collision with random number u in [0,1) the nuclide chosen is the one whose cumulative interval of fraction*cross-section contains u times the material total; nuclides contributing zero are never chosen, and a nuclide is always found when the material total is positive.", "quantifier": "all materials, storage orders, particle states and u in [0,1)", "why_tests_cant": "Each u is a different outcome.", "anchors": ["src/Particle.cpp:Particle::SampleNuclide"]}
{"id": "C31", "title": "Multigroup delta tracking has no virtual collisions", "statement": "In a multigroup problem the majorant equals the total, so with cell delta tracking every tentative collision in a material with positive total is real.", "quantifier": "all multigroup materials, particle states and random streams", "why_tests_cant": "All data values.", "anchors": ["src/Multigroup.cpp:Multigroup::GetMajorant", "src/TransportMethod.cpp:CellDeltaTracking::Transport"]}
{"id": "C32", "title": "An evaluation is used only near its temperature", "statement": "A cross-section evaluation made at temperature T0 is declared valid for a requested temperature T iff the relative difference |T-T0|/T0 is below one percent.", "quantifier": "all T0>0 and all T>=0", "why_tests_cant": "Any finite set of temperature pairs can miss the sign of the difference.", "anchors": ["src/ContinuousEvaluation.cpp:ContinuousEvaluation::IsValid", "src/ContinuousEvaluation.hpp"]}
{"id": "C33", "title": "Free-gas adjustment grows with temperature", "statement": "The free-gas scattering adjustment factor at energy E>0 is at least one, equals one at T=0, and never decreases with temperature.", "quantifier": "all atomic weight ratios, energies E>0 and temperatures T>=0", "why_tests_cant": "An inequality between transcendental functions on a continuum.", "anchors": ["src/ContinuousReaction.cpp:ContinuousScatter::GetFreeGasScatterAdjustment", "doc/transport_methods.dox"]}
{"id": "C34", "title": "Scatter majorant dominates the scatter cross section everywhere in the cell", "statement": "For data without thermal scattering, at every point of a cell whose temperature does not exceed the declared upper bound the scatter cross section is at most the scatter majorant.", "quantifier": "all energies, evaluations, temperature fields and positions with T(position) <= upper bound", "why_tests_cant": "The two functions choose between three formulas independently; all combinations on a continuum.", "anchors": ["src/ContinuousReaction.cpp:ContinuousScatter::GetMajorant", "src/ContinuousReaction.cpp:ContinuousScatter::GetCrossSection"]}
{"id": "C35", "title": "Continuous-energy majorant dominates the total", "statement": "If the tabulated total is at most the sum of the tabulated reactions and the thermal majorant is at least the thermal cross section, the nuclide majorant is at least the nuclide total at every point of the cell whose temperature is at most the declared bound.", "quantifier": "all nuclides, energies and positions", "why_tests_cant": "Independent choices of formula on each side.", "anchors": ["src/Continuous.cpp:Continuous::GetMajorant", "src/Continuous.cpp:Continuous::GetTotal"]}
{"id": "C36", "title": "Continuous reactions are selected by cross section", "statement": "A collision selects the reaction whose cumulative interval contains u*total, redrawing u when u*total is at or beyond the sum of the reactions; a reaction with zero cross section is never selected; when the reactions sum to the total the probability of each is its share; if every reaction is zero no number of redraws ever selects one.", "quantifier": "all nuclides, energies and random streams", "why_tests_cant": "Unbounded redraws.", "anchors": ["src/Continuous.cpp:Continuous::Interact"]}
{"id": "C37", "title": "Free-gas collision conserves energy and momentum", "statement": "In a free-gas collision the neutron speed in the centre-of-mass frame is unchanged, total kinetic energy and momentum of neutron and target are conserved, the outgoing energy is non-negative and the lab cosine is in [-1,1].", "quantifier": "all incident energies and directions, atomic weight ratios, sampled target velocities and centre-of-mass angles", "why_tests_cant": "A continuum of kinematic configurations.", "anchors": ["src/ContinuousReaction.cpp:ContinuousScatter::Interact"]}
{"id": "C38", "title": "Free-gas target sampling uses a genuine acceptance probability", "statement": "In the rejection loop for the target velocity the number compared with the random number is always in [0,1], the sampled cosine is in [-1,1) and the target speed is non-negative.", "quantifier": "all x,y>0 and mu in [-1,1]", "why_tests_cant": "Every real value is a distinct input; a unit test samples finitely many and the boundary cases are a measure-zero set it has to guess.", "anchors": ["src/ContinuousReaction.cpp:ContinuousScatter::Interact"]}
{"id": "C39", "title": "Thermal scattering applies exactly below the cutoff", "statement": "Thermal scattering data is used iff the particle is a neutron with energy strictly below the last tabulated energy; all other particles get the evaluated or free-gas cross section.", "quantifier": "all particle types, energies and data sets", "why_tests_cant": "Boundary energy is a single value.", "anchors": ["src/ThermalScattering.cpp:ThermalScattering::IsValid", "src/ContinuousReaction.cpp:ContinuousScatter::GetCrossSection"]}
{"id": "C40", "title": "Thermal cross section is bilinear on the grid and clamps outside", "statement": "The thermal total cross section equals the reconstructed grid value at grid points, is the bilinear interpolation of the four neighbours between them, takes the value at the lowest energy/temperature below the grid and the value at the highest temperature above it.", "quantifier": "all grids, energies below the cutoff and temperatures", "why_tests_cant": "Every real value is a distinct input; a unit test samples finitely many and the boundary cases are a measure-zero set it has to guess.", "anchors": ["src/ThermalScattering.cpp:ThermalScattering::GetTotal", "src/ThermalScattering.cpp:ThermalScattering::EvaluateInelastic"]}
{"id": "C41", "title": "Thermal energy transfer is physical", "statement": "Whenever a thermal energy transfer is returned the outgoing energy E+beta*k*T is non-negative; at most ten attempts are made and exceeding them is an error.", "quantifier": "all data sets, energies, temperatures and random streams", "why_tests_cant": "Unbounded data and random streams.", "anchors": ["src/ThermalScattering.cpp:ThermalScattering::SampleBeta", "src/ThermalScattering.cpp:ThermalScattering::Scatter"]}
{"id": "C42", "title": "Thermal momentum transfer gives a legal cosine", "statement": "Whenever a thermal momentum transfer is returned for a physical energy transfer, it lies strictly between the kinematic limits and the resulting scattering cosine is in [-1,1].", "quantifier": "all data sets, energies, temperatures and random streams", "why_tests_cant": "Unbounded data and random streams.", "anchors": ["src/ThermalScattering.cpp:ThermalScattering::SampleAlpha", "src/ThermalScattering.cpp:ThermalScattering::Scatter"]}
{"id": "C43", "title": "Thermal momentum transfer interpolates between neighbouring beta grids", "statement": "For |beta| between two tabulated values b_lo<=|beta|<b_hi, the upper grid is chosen with probability (|beta|-b_lo)/(b_hi-b_lo).", "quantifier": "all beta grids and sampled beta", "why_tests_cant": "The probability is a function on a continuum.", "anchors": ["src/ThermalScattering.cpp:ThermalScattering::SampleAlpha"]}
{"id": "C44", "title": "Thermal sampling only touches existing table entries", "statement": "For every neutron energy below the cutoff and every temperature, sampling a thermal collision addresses only existing grid entries (no out-of-range error escapes).", "quantifier": "all data sets with at least one energy, beta and temperature, all neutron states", "why_tests_cant": "Grid-edge conditions depend on data and on sampled values.", "anchors": ["src/ThermalScattering.cpp:ThermalScattering::SampleBeta", "src/ThermalScattering.cpp:ThermalScattering::SampleAlpha", "src/ThermalScattering.cpp:ThermalScattering::BetaPartition::Evaluate"]}
{"id": "C45", "title": "Transport ends in death and each step is one event", "statement": "When transport of a particle returns, the particle is captured, fissioned or leaked; every event before the last is a scatter, a surface crossing or a virtual collision; exactly one score call is made per event, each seeing the state after that event; a leak is recorded iff the particle entered a void cell.", "quantifier": "all worlds, particles and random streams; all walk lengths", "why_tests_cant": "Unbounded random walks.", "anchors": ["src/TransportMethod.cpp:SurfaceTracking::Transport", "src/TransportMethod.cpp:CellDeltaTracking::Transport"]}
{"id": "C46", "title": "A particle's recorded cell always contains it or was just entered", "statement": "During transport the recorded cell is, after every surface crossing, the first declared cell containing the particle's position, and before every further step it has a material.", "quantifier": "all worlds and random streams, every step of a walk", "why_tests_cant": "Invariant over unbounded walks.", "anchors": ["src/TransportMethod.cpp:SurfaceTracking::Transport", "src/World.cpp:World::FindCellContaining"]}
{"id": "C47", "title": "Virtual collisions are rejected with the cross section at the collision site", "statement": "With cell delta tracking a tentative collision is accepted with probability total/majorant evaluated at the tentative collision point.", "quantifier": "all worlds with space-dependent temperature, all particle states", "why_tests_cant": "Invisible in any constant-temperature test.", "anchors": ["src/TransportMethod.cpp:CellDeltaTracking::Transport"]}
{"id": "C48", "title": "Surface tracking is only used with constant temperature", "statement": "If a problem is accepted with surface tracking then every cell's temperature is the same at every point of the cell; a non-constant global temperature with surface tracking is rejected with an error.", "quantifier": "all inputs", "why_tests_cant": "All fields and cells.", "anchors": ["src/TransportMethod.cpp:TransportMethod::Create", "src/World.cpp:World::HasConstantTemperature", "src/ScalarField.cpp"]}
{"id": "C49", "title": "Crossing a surface leaves the old side", "statement": "Streaming to the reported distance plus the nudge puts the particle strictly on the other side of the crossed surface (for a sphere or x-plane met at a positive angle large enough for the nudge).", "quantifier": "all surfaces, positions and directions", "why_tests_cant": "In floating point the nudge is absorbed for large coordinates; tests use coordinates near one.", "anchors": ["src/TransportMethod.cpp:SurfaceTracking::Transport", "src/Constants.hpp:nudge"]}
{"id": "C50", "title": "Current estimators count crossings of their surface", "statement": "The value a current estimator accumulates for a history is the number of surface-crossing or leak events of the history (secondaries included) whose surface is the estimator's, distributed over the bins of the crossing particles; nothing else scores.", "quantifier": "all histories, surfaces and bin structures", "why_tests_cant": "Unbounded histories.", "anchors": ["src/Estimator.cpp:CurrentEstimator::GetScore", "src/Scorable.cpp:ScorableProxy::Score"]}
{"id": "C51", "title": "Per-history tallies: sums and squares of sums", "statement": "After committing any sequence of histories, each bin of an estimator holds the sum over histories of the history's total score in that bin and the sum over histories of the square of that total; bins not scored by a history are unchanged by it; nothing is visible before the commit.", "quantifier": "all sequences of histories of scores, any number of bins", "why_tests_cant": "Unbounded histories and scores.", "anchors": ["src/Scorable.cpp:ScorableProxy::Score", "src/Scorable.cpp:ScorableProxy::CommitHistory"]}
{"id": "C52", "title": "Reported mean and standard deviation", "statement": "With N histories run the printed mean of a bin is the sample mean of the history totals and the printed deviation is the population standard deviation divided by sqrt(N); the radicand is never negative in exact arithmetic.", "quantifier": "all N>=1 and all score sequences", "why_tests_cant": "Inequality over unboundedly many histories.", "anchors": ["src/Scorable.cpp:Scorable::GetScoreAsString", "src/Scorable.cpp:Scorable::GetScore"]}
{"id": "C53", "title": "Merging estimator sets adds matching estimators", "statement": "Merging set B into A adds to every estimator (and sensitivity) of A bin by bin the scores and squares of B's estimator of the same name, whatever the order in B; an error is raised iff a name of A is missing in B.", "quantifier": "all estimator sets with unique names, any order", "why_tests_cant": "Unbounded sets and orders.", "anchors": ["src/Estimator.cpp:EstimatorSet::operator+=", "src/Estimator.cpp:Estimator::operator+=", "src/Scorable.cpp:Scorable::operator+="]}
{"id": "C54", "title": "Sensitivity scores are the indirect effect times the estimator score", "statement": "A sensitivity scores, in the same bin as its estimator, the particle's accumulated indirect effect times the estimator's score.", "quantifier": "all particle states and bins", "why_tests_cant": "All states.", "anchors": ["src/Sensitivity.cpp:CurrentTotalCrossSectionSensitivity::GetScore", "src/Estimator.cpp:EstimatorProxy::Score"]}
{"id": "C55", "title": "Indirect effect is the logarithmic derivative of the walk's density", "statement": "The indirect effect accumulated for a total-cross-section perturbation is the derivative of the log density of the flights actually taken: 1/Sigma minus distance for a flight ending in a collision, minus distance for a flight ending on a surface, zero in materials without the nuclide.", "quantifier": "all walks", "why_tests_cant": "Derivative identity over unbounded walks.", "anchors": ["src/Perturbation.cpp:TotalCrossSectionPerturbation::Stream", "src/Particle.cpp:Particle::Stream"]}
{"id": "C56", "title": "Every history runs exactly once under every schedule", "statement": "For any number of worker threads and any interleaving of their steps, when all workers have finished, the histories started are exactly 0..N-1, each once, and no worker starts a history with index >= N.", "quantifier": "all thread counts >=1, all batch sizes, all interleavings", "why_tests_cant": "Interleavings are exponentially many and chosen by the OS.", "anchors": ["src/FixedSource.cpp:FixedSource::StartWorker", "src/FixedSource.cpp:FixedSource::Solve"]}
{"id": "C57", "title": "Results do not depend on threads or schedule", "statement": "For any thread count and interleaving the merged estimator set equals, in exact arithmetic, the initial set plus the contributions of histories 0..N-1.", "quantifier": "all thread counts, interleavings and batch sizes", "why_tests_cant": "Interleavings are exponentially many and chosen by the OS.", "anchors": ["src/FixedSource.cpp:FixedSource::Solve", "src/FixedSource.cpp:FixedSource::StartWorker"]}
{"id": "C58", "title": "A history is reproducible from its seed", "statement": "The contribution of history i depends only on the input and on seed+i: not on the thread that runs it, on other histories, or on when it is run.", "quantifier": "all inputs, seeds, schedules", "why_tests_cant": "Would need all schedules.", "anchors": ["src/FixedSource.cpp:FixedSource::StartWorker", "src/Source.cpp:Source::Sample", "src/Particle.hpp:Particle::rng"]}
{"id": "C59", "title": "Different histories get different random streams", "statement": "Any two histories of one run start their random generator in different states.", "quantifier": "all seeds 1 <= seed, all pairs of history indices below the batch size", "why_tests_cant": "The collision needs specific seed values near the modulus.", "anchors": ["src/FixedSource.cpp:FixedSource::StartWorker", "src/Source.cpp:Source::Sample", "src/BasicTypes.hpp:RNG"]}
{"id": "C60", "title": "The random generator never degenerates", "statement": "From any seed the generator's state stays in 1..2147483646, distinct states have distinct successors, and every uniform number it yields is in [0,1).", "quantifier": "all seeds and all numbers of draws", "why_tests_cant": "2^31 states and unbounded draws.", "anchors": ["src/BasicTypes.hpp:RNG", "src/Particle.cpp:Particle::Sample"]}
{"id": "C61", "title": "Every family member is transported exactly once", "statement": "Processing a history transports the source particle and every secondary ever banked exactly once, never transports anything else, and ends exactly when no banked particle remains, with the bank empty.", "quantifier": "all (finite) family trees of any shape", "why_tests_cant": "Unbounded trees.", "anchors": ["src/FixedSource.cpp:FixedSource::StartWorker", "src/Bank.cpp", "src/Particle.cpp:Particle::MoveSecondariesTo"]}
{"id": "C62", "title": "Solving again gives the same answer", "statement": "Calling Solve twice on the same driver returns equal results.", "quantifier": "all fixed-source inputs", "why_tests_cant": "Property of call histories.", "anchors": ["src/FixedSource.cpp:FixedSource::Solve", "src/FixedSource.hpp:histories_elapsed"]}
{"id": "C63", "title": "The k-eigenvalue driver transports its source bank", "statement": "Solving a k-eigenvalue problem performs the requested cycles by transporting the source bank.", "quantifier": "all k-eigenvalue inputs", "why_tests_cant": "Property of every input.", "anchors": ["src/KEigenvalue.cpp:KEigenvalue::Solve", "src/KEigenvalue.hpp"]}
{"id": "C64", "title": "Next source particle: each exactly once", "statement": "Concurrent requests for the next source particle hand out each particle of the source bank exactly once, under any interleaving, and nothing once it is empty.", "quantifier": "all banks, thread counts and interleavings", "why_tests_cant": "Interleavings.", "anchors": ["src/KEigenvalue.cpp:KEigenvalue::NextParticle"]}
{"id": "C65", "title": "Source particles follow the input", "statement": "A sampled source particle is alive with the input's position, energy and type and no cell; a constant direction is the normalised written one; an isotropic-flux direction is a unit vector with cosine sqrt(u) in [0,1) to the reference.", "quantifier": "all seeds and source inputs", "why_tests_cant": "All seeds.", "anchors": ["src/Source.cpp:Source::Sample", "src/Source.cpp:IsotropicFlux::Sample"]}
{"id": "C66", "title": "Worlds share surfaces, nuclides and materials", "statement": "Building a world creates exactly one object per surface name used by a cell (likewise nuclide and material), every cell refers to the object of the name it lists with the written sense, and building fails with an error iff some referenced name is missing.", "quantifier": "all input documents", "why_tests_cant": "Documents are unbounded.", "anchors": ["src/World.cpp:World::CreateCSGSurfaces", "src/World.cpp:World::CreateNuclides", "src/World.cpp:World::CreateMaterials", "src/Cell.cpp:Cell::AssignSurfaceSenses"]}
{"id": "C67", "title": "A source in void is handled", "statement": "A source particle born in a void cell or outside all cells does not cause undefined behaviour or an abort.", "quantifier": "all worlds and source positions", "why_tests_cant": "Depends on geometry and position.", "anchors": ["src/TransportMethod.cpp:SurfaceTracking::Transport", "src/World.cpp:World::FindCellContaining"]}
{"id": "C68", "title": "Thermal tables are interpolated in temperature", "statement": "The tabulated beta and alpha quantiles are interpolated linearly between the two neighbouring temperatures and take the nearest tabulated value outside them.", "quantifier": "all tables, grid points and temperatures", "why_tests_cant": "Every real value is a distinct input; a unit test samples finitely many and the boundary cases are a measure-zero set it has to guess.", "anchors": ["src/ThermalScattering.cpp:ThermalScattering::BetaPartition::Evaluate", "src/ThermalScattering.cpp:ThermalScattering::AlphaPartition::Evaluate"]}
{"id": "C69", "title": "Thermal energy transfer interpolates between neighbouring energies", "statement": "For a neutron energy between two tabulated energies the upper one's tables are used with probability (E-E_lo)/(E_hi-E_lo); below the lowest energy the lowest is used.", "quantifier": "all energy grids, neutron energies and random streams", "why_tests_cant": "The probability is a function on a continuum.", "anchors": ["src/ThermalScattering.cpp:ThermalScattering::SampleBeta"]}
{"id": "C70", "title": "Isotropic directions are isotropic", "statement": "An isotropic direction has a cosine to the x axis uniform on [-1,1) and an independent azimuth uniform on a full turn, each a linear function of one uniform number; a scattered particle is turned about its old direction by an angle uniform on a full turn.", "quantifier": "all generator states", "why_tests_cant": "All generator states: a sample mean cannot tell a full turn from a slightly smaller one.", "anchors": ["src/Point.cpp:Direction::Direction", "src/Particle.cpp:Particle::Scatter"]}
{"id": "C71", "title": "A well-posed multigroup problem runs without failing", "statement": "With sensible multigroup data, a geometry that covers all space and a source neutron in a material, transport never ends in undefined behaviour, an exception or an abort: it either reaches the death of the particle or goes on; with surface tracking, disjoint cells and no flight ending exactly on a surface the same holds for the whole history with all its secondaries.", "quantifier": "all worlds of that kind, both tracking methods, all source neutrons, all random streams, all walk lengths and family sizes", "why_tests_cant": "Every random stream and every family tree: a failing dereference may sit behind a rare sequence of events.", "anchors": ["src/TransportMethod.cpp:SurfaceTracking::Transport", "src/TransportMethod.cpp:CellDeltaTracking::Transport", "src/FixedSource.cpp:FixedSource::StartWorker"]}
{"id": "C72", "title": "Partitioned thermal tables act as one table", "statement": "The partitions of a thermal data set are used in the order listed; every energy of the joined energy grid and every transfer of the joined beta grid is looked up in the partition, and at the place in it, where it is stored.", "quantifier": "all thermal data nodes that load, all numbers and sizes of partitions and all indices", "why_tests_cant": "The number and sizes of partitions are unbounded; an off-by-one at one boundary between partitions silently uses the wrong table.", "anchors": ["src/ThermalScattering.cpp:ThermalScattering::ThermalScattering", "src/ThermalScattering.cpp:ThermalScattering::SampleBeta", "src/ThermalScattering.cpp:ThermalScattering::SampleAlpha"]}
{"id": "C73", "title": "Thermal transfers follow the tabulated distributions", "statement": "A candidate beta is the value of the tabulated quantile curve, completed by the lowest possible beta at probability 0 and the cutoff at 1 and joined by straight lines, at a uniform random number; alpha has the tabulated distribution of the chosen beta restricted to its kinematic limits, moved in proportion to the limits at the actual beta.", "quantifier": "all tables with increasing probabilities and values, all temperatures within the tabulated ones, all energies, transfers and random numbers", "why_tests_cant": "A continuous distribution: a histogram of samples cannot tell a table read backwards in one interval from a correct one.", "anchors": ["src/ThermalScattering.cpp:ThermalScattering::SampleBeta", "src/ThermalScattering.cpp:ThermalScattering::SampleAlpha"]}
{"id": "C74", "title": "Flight lengths follow the exponential law", "statement": "The first random number of a transport step alone fixes the flight length; the particle collides if that length is less than the distance to the nearest surface of the cell and crosses otherwise; the probability that the length exceeds y is exp(-rate*y), where the rate is density times the total cross section (surface tracking) or majorant (cell delta tracking); with a zero rate every step crosses.", "quantifier": "all worlds, both tracking methods, all particle states, all generators and all y >= 0", "why_tests_cant": "A law of probability on a continuum; a missing density is invisible in a material of density one.", "anchors": ["src/TransportMethod.cpp:SurfaceTracking::Transport", "src/TransportMethod.cpp:CellDeltaTracking::Transport", "src/TransportMethod.cpp:SurfaceTracking::GetCollisionProbabilityDensity"]}
{"id": "C75", "title": "A schema-valid document builds a problem or an error is reported", "statement": "Constructing the problem from a document that follows the schema never has undefined behaviour, provided the tables in the data files it names have no empty axis; if the document is also usable (every file can be read, every named nuclide, surface and cell exists, grids increase) the call returns a problem or throws an exception its caller can catch. The numbers of histories and threads of a built problem are positive and fit their types, and with named sensitivities all estimator names are unique.", "quantifier": "all XML documents accepted by the schema, all contents of data files, any arithmetic and generator", "why_tests_cant": "Ranges over every document the schema accepts; tests read a handful of files.", "anchors": ["test/minimc.xsd", "src/minimc.cpp:main", "src/Driver.cpp:Driver::Create", "src/XMLDocument.cpp:XMLDocument::XMLDocument"]}
{"id": "C76", "title": "The output file has the documented layout", "statement": "A successful run leaves a file named as the document with its extension replaced by .out, whose lines are the number of histories followed, for every estimator in the order of the document, by its name underlined, its cosine and energy bins, a row of means and a row of standard deviations, and the same rows for each of its sensitivities named estimator::perturbation; every row has one number per bin, in bin order, and means are sums divided by the number of histories.", "quantifier": "all documents, all results, all formats of numbers without line feeds, all schedules", "why_tests_cant": "Numbers and lengths of rows depend on bins, estimators and sensitivities of arbitrary documents.", "anchors": ["src/minimc.cpp:main", "src/Estimator.cpp:EstimatorSet::to_string", "src/Estimator.cpp:Estimator::to_string", "src/Sensitivity.cpp:Sensitivity::to_string", "src/Scorable.cpp:Scorable::GetScoreAsString", "src/Bins.cpp:ParticleBins::to_string"]}
{"id": "C77", "title": "Output files under every schedule and crash point", "statement": "Every successful run on a document makes the same changes to files, whatever the interleaving of its threads, namely those of a single thread running the histories in order. At every crash point all files other than the output file are untouched, the output file is as before, empty, or a start of the complete one, and nothing is touched before the document is read and the problem built. Earlier results are not preserved when a run crashes, an unwritable output file is not reported, and a document named *.out is overwritten.", "quantifier": "all documents, schedules, crash points and earlier contents of files", "why_tests_cant": "Quantifies over all interleavings and all crash points.", "anchors": ["src/minimc.cpp:main", "src/FixedSource.cpp:FixedSource::Solve", "src/FixedSource.cpp:FixedSource::StartWorker", "src/Estimator.cpp:EstimatorSet::operator+="]}
{"id": "C78", "title": "Results in double precision are the same to the last bit under every schedule", "statement": "In IEEE double precision, as long as the squares of the numbers of crossings of a surface sum to at most 2^53, every run that succeeds leaves in every bin of every estimator exactly the number of crossings in the histories and exactly the sum of the squares of the numbers per history, for every number of threads and every interleaving; so two runs of a document without sensitivities write the same output file. With sensitivities they need not: sums of rounded effects depend on the order in which workers take histories and are merged.", "quantifier": "all problems, numbers of threads, schedules, generators, documents; all implementations of the elementary functions", "why_tests_cant": "Rounding differences show only under rare interleavings and only in the last bits.", "anchors": ["src/FixedSource.cpp:FixedSource::Solve", "src/FixedSource.cpp:FixedSource::StartWorker", "src/Scorable.cpp:Scorable::operator+=", "src/Scorable.cpp:ScorableProxy::CommitHistory", "src/Estimator.cpp:EstimatorSet::operator+=", "src/minimc.cpp:main"]}
{"id": "C79", "title": "Bins in double precision", "statement": "In IEEE double precision, a linspace or logspace element with 1 to 2^48 bins, finite bounds, a bin width of at least 2^-1021 and a span of at most 2^1023 sorts every value that is not NaN into one of its bins plus the two outer ones: the first gets exactly the values below the lower bound, the last gets every value of at least the upper bound, a greater value never gets a lower bin, and a finite value is at most one bin from the bin exact arithmetic gives. It does not hold that the last bin gets only values of at least the upper bound, nor that an index stays inside the array when the width is subnormal, nor that the index is defined when the span overflows or the value is NaN.", "quantifier": "all bounds, numbers of bins and values that are doubles; all implementations of the logarithm", "why_tests_cant": "Rounding moves only the few values next to a boundary; no set of chosen values covers the others.", "anchors": ["src/Bins.cpp:LinspaceBins::LinspaceBins", "src/Bins.cpp:LinspaceBins::GetIndex", "src/Bins.cpp:LogspaceBins::LogspaceBins", "src/Bins.cpp:LogspaceBins::GetIndex"]}
{"id": "C80", "title": "Random numbers, flight lengths and directions in double precision", "statement": "In IEEE double precision every uniform number drawn is a double between 2^-32 and 1 - 2^-32 and at most 2^-51 from the number exact arithmetic gives for the same generator state. With a logarithm accurate to one part in 1024, a sampled flight length is never NaN and never negative for any positive cross section, and for cross sections between 2^-900 and 2^900 it is finite and between 2^-34 and 24 mean free paths long; in exact arithmetic it is between 2^-32 and 23. With a cosine and sine of size at most one, an isotropic direction has finite components, is never along the x axis, and has unit length up to 2^-49 plus the error of the cosine and sine.", "quantifier": "all generator states, all positive cross sections, all implementations of the elementary functions that meet the stated accuracy", "why_tests_cant": "A state that makes the uniform number round to zero or one would be one in 2^31 and give an infinite flight or a NaN direction only then.", "anchors": ["src/BasicTypes.hpp:RNG", "src/TransportMethod.cpp:SurfaceTracking::Transport", "src/TransportMethod.cpp:CellDeltaTracking::Transport", "src/Point.cpp:Direction::Direction"]}
{"id": "C81", "title": "Printed statistics in double precision", "statement": "In IEEE double precision, for a bin whose histories cross the surface S times in all, with squares summing to Q at most 2^53 and S squared at most 2^53, the printed mean and standard deviation are finite, the deviation is not negative, the mean is within one rounding of S/n and the deviation within 2^-24 of sqrt(Q)/n of the exact sqrt(Q - S^2/n)/n. Beyond that the printed deviation can be NaN.", "quantifier": "all numbers of histories up to 2^53 and all numbers of crossings per history", "why_tests_cant": "Whether the radicand rounds below zero depends on every count; the first total that fails for equal counts is near 4 * 10^8 histories.", "anchors": ["src/Scorable.cpp:Scorable::GetScoreAsString"]}
{"id": "C82", "title": "Every point has the temperature the document gives", "statement": "In a world built from a document, the temperature at every point of a cell is the cell's own temperature if it has one, otherwise the value at that point of the document's constant or linear field, otherwise 293.6 kelvins; it lies between the written bounds of the field and is not negative.", "quantifier": "all documents, cells and points", "why_tests_cant": "All documents and all points of space.", "anchors": ["src/World.cpp:World::CreateTemperature", "src/Cell.cpp:Cell::AssignTemperature", "src/ScalarField.cpp:LinearField::at"]}
{"id": "C83", "title": "A run uses the settings written in the document", "statement": "A problem built from a document has the written number of histories, threads and seed (1 if none), the written tracking method (surface if none), one perturbation per written one, of the nuclide named, in order, and one estimator per written one, with its name, bins and surface and all scores zero, in order; scores are averaged over the number of histories.", "quantifier": "all documents that are accepted", "why_tests_cant": "All documents; a swapped or dropped setting is invisible in tests that use default values.", "anchors": ["src/Driver.cpp:Driver::Driver", "src/Perturbation.cpp:PerturbationSet::PerturbationSet", "src/Estimator.cpp:EstimatorSet::EstimatorSet"]}
{"id": "C84", "title": "Choices happen as often as their probabilities say", "statement": "Over the whole cycle of the generator, and over as many histories of a run with any seed, every interval of [0,1) receives its share of the k-th random numbers, flights longer than y make up the share exp(-rate*y), and the reactions of a collision and the nuclides collided with make up the shares their cross sections give them, each up to two or three cases out of 2147483646.", "quantifier": "all intervals, positions in the stream, seeds, sources, rates, lengths, cross sections and mixtures", "why_tests_cant": "A test samples a few of the 2147483646 states and can only bound a deviation statistically.", "anchors": ["src/BasicTypes.hpp:RNG", "src/TransportMethod.cpp:SurfaceTracking", "src/Multigroup.cpp:Multigroup::Interact", "src/Particle.cpp:Particle::SampleNuclide", "src/FixedSource.cpp:FixedSource::StartWorker"]}
{"id": "C85", "title": "Every choice uses random numbers of its own", "statement": "A flight, the acceptance of a virtual collision, the nuclide collided with, the reaction, the outgoing group, each direction, the number of secondaries and the generator of each secondary are decided by different numbers of the particle's stream: each choice starts where the one before it stopped, and the stream does not come back to an earlier state before 2147483646 raw numbers have been used.", "quantifier": "all particles, generator states, cross sections, geometries, both tracking methods", "why_tests_cant": "A number used twice correlates two choices without changing how often each of them occurs; a test that looks at one choice at a time passes.", "anchors": ["src/TransportMethod.cpp:SurfaceTracking", "src/TransportMethod.cpp:CellDeltaTracking", "src/Multigroup.cpp:Multigroup::Interact", "src/Particle.cpp:Particle::SetDirectionIsotropic", "src/Particle.cpp:Particle::BankSecondaries"]}
{"id": "C86", "title": "A beam through an absorber is attenuated by exp(-rate times thickness)", "statement": "A beam that meets void behind an absorber is counted there exactly by the histories whose first random number lets them fly so far; the printed mean is their share x of all histories and the printed deviation is sqrt(x(1-x)/N). A run of 2147483646 histories prints exp(-rate*thickness) up to 2/2147483646 in the bin of the beam, and zero in all other bins, whatever the seed, the number of threads, the interleaving and the tracking method. Such runs do not fail.", "quantifier": "all absorber mixtures, densities, geometries, beam positions and directions, bins, seeds, numbers of threads, interleavings, both tracking methods", "why_tests_cant": "A test compares one statistical sample with the analytic answer and cannot tell a small bias from noise.", "anchors": ["src/FixedSource.cpp:FixedSource::Solve", "src/TransportMethod.cpp:SurfaceTracking", "src/TransportMethod.cpp:CellDeltaTracking", "src/Estimator.cpp:EstimatorSet", "src/Scorable.cpp:Scorable::GetScoreAsString"]}
{"id": "C87", "title": "Problems in one process do not influence each other", "statement": "A program that links the library may read several input files and solve their problems in any order. Solving a problem gives the result that its own file describes, whatever other problems were read or solved before it in the same process.", "quantifier": "all sequences of reading and solving, all input files, generators, schedules", "why_tests_cant": "The effect of another problem shows only for some order of calls and some pair of files; each problem passes its tests when it is alone.", "anchors": ["src/Particle.hpp:Particle::transport_method", "src/Driver.cpp:Driver::Driver", "src/FixedSource.cpp:FixedSource::Solve", "src/Driver.cpp:Driver::Create"]}
{"id": "C88", "title": "The printed sensitivity is the derivative of the printed count", "statement": "For a beam through an absorber, the sensitivity printed for an estimator behind it, with respect to the total cross section of a nuclide, is the derivative of the counted part of the beam with respect to that cross section (to the accuracy of the run), and zero for a nuclide that is not in the absorber; its printed deviation follows from that of the count.", "quantifier": "all beams, absorbers of any thickness, density and composition, surfaces, bins, perturbations, both tracking methods, thread counts and schedules", "why_tests_cant": "A test runs one problem and compares with a reference within a statistical error; a wrong term proportional to the count shows only for other thicknesses and densities, and the derivative is a limit no run computes.", "anchors": ["src/Perturbation.cpp:TotalCrossSectionPerturbation::Stream", "src/Sensitivity.cpp:CurrentTotalCrossSectionSensitivity::GetScore", "src/FixedSource.cpp:FixedSource::Solve", "src/Particle.cpp:Particle::Stream", "src/Scorable.cpp:Scorable"]}
{"id": "C89", "title": "A run stops early only for a reason in the problem", "statement": "When a run is stopped by an error, a crash or an operation without a defined result, the problem has one of these defects: a particle begins or arrives at a point that is in no cell, or begins in a void; the total cross section where it collides, or the number of neutrons per fission of a nuclide there, is not a proper positive number; or an estimator has no bin for it. Rounding, the random numbers, the number of threads and their schedule alone never stop a run.", "quantifier": "all geometries, materials, multigroup and continuous-energy data (without thermal scattering tables), sources, estimators and perturbations, seeds, numbers of histories and threads, schedules, both tracking methods, in double precision and in exact arithmetic", "why_tests_cant": "The failures hide in rare draws: a random number next to one, a sum of cross sections that rounds below the sampled threshold, an index one past a table. A test run meets none of them; the claim is about every draw of every history.", "anchors": ["src/FixedSource.cpp:FixedSource::StartWorker", "src/TransportMethod.cpp:SurfaceTracking::Transport", "src/TransportMethod.cpp:CellDeltaTracking::Transport", "src/Particle.cpp:Particle::SampleNuclide", "src/Multigroup.cpp:Multigroup::Interact", "src/Continuous.cpp:Continuous::Interact", "src/World.cpp:World::FindCellContaining", "src/Scorable.cpp:ScorableProxy"]}
{"id": "C90", "title": "Multigroup collisions are decided correctly in double precision", "statement": "With the program's random numbers and double precision arithmetic, a multigroup collision always has an outcome: it is a capture, a scatter or a fission whose cross section is positive, and each happens exactly for the random numbers in its share of the total, up to one part in 2^34. A scattered neutron always gets a group between 1 and G whose entry in the scattering matrix is positive, again within its share up to one part in 2^34. A fission emits the average number of neutrons rounded down or up, and each of them gets a group with a positive entry in the spectrum, so none is lost to rounding; a column of zeros in the spectrum loses all of them.", "quantifier": "all non-negative double precision data of up to 65536 groups with entries up to 2^900, totals of at least 2^-900, all incoming groups and all states of the random number generator", "why_tests_cant": "The selection loops compare rounded sums of rounded quotients with a random number; a sum that rounds below the largest random number would make a loop select nothing and leave the neutron unchanged, once in billions of collisions and only for particular data.", "anchors": ["src/Multigroup.cpp:Multigroup::Interact", "src/Multigroup.cpp:Multigroup::Scatter", "src/Multigroup.cpp:Multigroup::Fission", "src/Multigroup.cpp:Multigroup::NormalizedTwoDimensional"]}
{"id": "C91", "title": "Nuclides and continuous-energy reactions are chosen correctly in double precision", "statement": "With the program's random numbers and double precision arithmetic, a collision in a mixture always finds a nuclide, never one without atoms or without cross section, and each nuclide is hit for the random numbers in its share of the mixture's cross section, up to one part in 2^34. A reaction given by energy is likewise chosen for the random numbers in its share of the nuclide's total. When the total comes from a table of its own and exceeds the sum of the reactions, the remaining random numbers lead to another draw; when the total is added up from the reactions, or agrees with their sum up to one part in 2^34, the first random number always decides.", "quantifier": "all mixtures of up to 65536 nuclides and nuclides of up to 65536 reactions, all atom fractions and cross sections that are non-negative doubles within the stated range, all states of the random number generator", "why_tests_cant": "The choices compare a rounded product of a random number and a rounded sum with rounded partial sums; whether the last partial sum can stay below the threshold, which would throw or draw again, depends on the rounding of every addition for the particular data.", "anchors": ["src/Material.cpp:Material::GetMicroscopicTotal", "src/Continuous.cpp:Continuous::Interact", "src/Continuous.cpp:Continuous::GetTotal", "src/Particle.cpp:Particle::SampleNuclide"]}
{"id": "C92", "title": "Crossing a plane in double precision", "statement": "In double precision, a particle that crosses a plane is on the other side of it afterwards, is in the cell behind it, and is counted once. (True if four times the distance in x, plus the size of the plane's coordinate when flying towards smaller x, is at most 19 times the x component of the direction. False otherwise: a particle flying towards smaller x can come to rest exactly at the plane, stays in the old cell and never meets the plane again, and one flying towards larger x can stop short of it and be counted twice.)", "quantifier": "all planes, positions and directions in double precision", "why_tests_cant": "The step beyond a surface is a fixed 2.2e-15, so whether it survives rounding depends on every bit of the position, the plane and the direction; the unit tests use distances of one or two.", "anchors": ["src/TransportMethod.cpp:SurfaceTracking::Transport", "src/TransportMethod.cpp:CellDeltaTracking::Transport", "src/CSGSurface.cpp:PlaneX::Distance", "src/CSGSurface.cpp:PlaneX::Contains", "src/Constants.hpp:nudge"]}
{"id": "C93", "title": "Crossing a sphere in double precision", "statement": "In double precision, a particle that crosses a sphere is on the other side of it afterwards and is counted once. (True for a particle that leaves a sphere about the origin from its centre, if the radius is at most 5/4 and the direction has length one up to 2^-50. False in general: a particle flying inwards that comes to rest where its computed distance from the centre equals the radius is still outside, and is next said to meet the sphere at the far side, so it flies through the body as if it were not there; and a particle flying outwards can stop short of the sphere and be counted twice.)", "quantifier": "all spheres, positions and directions in double precision", "why_tests_cant": "The step beyond a surface is a fixed 2.2e-15, so whether it survives rounding depends on every bit of the position, the centre, the radius and the direction; the unit tests use spheres of radius around one.", "anchors": ["src/TransportMethod.cpp:SurfaceTracking::Transport", "src/CSGSurface.cpp:Sphere::Distance", "src/CSGSurface.cpp:Sphere::Contains", "src/CSGSurface.cpp:SolveQuadratic", "src/Constants.hpp:nudge"]}
{"id": "C94", "title": "Table lookups in double precision", "statement": "In double precision, looking up a key in a table gives the first or the last entry outside the table, the stored value at a stored key, and between two keys the straight line between the two entries, to within 2^-49 of the larger of them plus 2^-600. (It need not lie between the two entries: it can be above both, and it can be negative although no entry is. If two keys are so close that the slope overflows, the value at a stored key can be not a number.)", "quantifier": "all tables of doubles with increasing keys at least 2^-400 apart and keys and entries of at most 2^400 in size, and all finite keys", "why_tests_cant": "Five operations round one after the other, and what they do depends on every bit of both keys, both entries and the key looked up; the unit tests look up nothing in double precision that is not exact.", "anchors": ["src/ContinuousMap.hpp:ContinuousMap::at", "src/Continuous.cpp:Continuous::GetTotal", "src/ContinuousReaction.cpp:ContinuousReaction::GetCrossSection"]}
{"id": "C95", "title": "Directions in double precision", "statement": "In double precision, normalising a vector gives a unit vector along it: the squared length differs from one by at most 2^-50 and each component from the exact one by at most one part in 2^51. Scattering a particle by a cosine mu gives a direction of squared length within 2^-50 of one whose cosine with the old direction differs from mu by at most 2^-43, plus twice what the library's sine and cosine miss of cos^2 + sin^2 = 1. So after any number of collisions the direction is still a unit vector. (The computed cosine between two directions can be above one; scattering by such a cosine gives a direction that is not a number.)", "quantifier": "all vectors of doubles whose largest component lies between 2^-400 and 2^400, all directions that normalising or an isotropic source gives, all scattering cosines between -1 and 1, all azimuths, all lists of collisions, and all sine and cosine functions with cos^2 + sin^2 within 1/4 of one", "why_tests_cant": "About forty roundings lie between the old direction and the new one; the unit test turns one direction along an axis by a right angle, where nothing rounds, and none follows a history long enough to show a drift.", "anchors": ["src/Point.cpp:Direction::Direction", "src/Point.cpp:Point::Normalize", "src/Particle.cpp:Particle::Scatter", "src/Constants.hpp:on_axis_tolerance"]}
{"id": "C96", "title": "Cell delta tracking accepts collisions correctly in double precision", "statement": "With the program's random numbers and double precision arithmetic, the majorant of a mixture is never smaller than its total because of rounding, and their quotient is a number between zero and one that differs from the exact quotient by at most one part in 2^34. A tentative collision of cell delta tracking is a collision when its random number is below the exact quotient and a virtual collision when it is above, up to that difference. If every nuclide's majorant is its total, no tentative collision is virtual.", "quantifier": "all particles, all materials of up to 65536 nuclides whose atom fractions, totals and majorants are non-negative doubles up to 2^400 with each total at most its majorant, all random states, for every mathematical library", "why_tests_cant": "Whether rounding ever makes the accepted share exceed one, or differ visibly from the quotient, depends on all mixtures and the order in which they are summed; a test sees a few mixtures and few random numbers.", "anchors": ["src/TransportMethod.cpp:CellDeltaTracking::Transport", "src/Material.cpp:Material::GetMicroscopicTotal", "src/Material.cpp:Material::GetMicroscopicMajorant", "src/Nuclide.cpp:Nuclide::GetMajorant"]}
{"id": "C97", "title": "Results do not depend on where objects lie in memory", "statement": "The same document, seed, number of histories and schedule give the same output file wherever the allocator puts the surfaces and nuclides. (False when a material has two nuclides or a cell two surfaces: they are kept in the order of their addresses, and that order decides which random numbers choose which nuclide and which of two equally near surfaces is crossed. It is true that nothing but the order of the addresses matters; that with at most one nuclide per material and one surface per cell the output is the same; and that for every document the worlds built differ in nothing but those orders and the rounding of the fractions.)", "quantifier": "all documents, memory layouts, generators, seeds, schedules", "why_tests_cant": "A test process sees one layout, usually the one in which objects were made; other allocators, address-space randomisation or threads give others.", "anchors": ["src/Cell.hpp:Cell::SurfaceSenses", "src/Material.hpp:Material::AtomFractions", "src/Cell.cpp:Cell::AssignSurfaceSenses", "src/Material.cpp:Material::AssignNuclides", "src/Particle.cpp:Particle::SampleNuclide", "src/Cell.cpp:Cell::NearestSurface"]}
{"id": "C98", "title": "Particles reach the surface ahead as often as the exponential law says", "statement": "With independent uniform random numbers, a particle at distance D from the next surface of its cell reaches it without a real collision with probability exp of minus the integral over the flight of density times total cross section, with surface tracking and with delta tracking alike, whatever the majorant. (Proved when the total cross section is the same all along the flight: surface tracking in one step, delta tracking in the limit of arbitrarily many virtual collisions. False of delta tracking when the total varies along the flight, because a collision is accepted with the total at the point where the flight began.)", "quantifier": "all worlds, materials, densities, total cross sections and majorants, positions and directions; all sequences of random numbers, in probability", "why_tests_cant": "The claim is about a limit over arbitrarily long chains of virtual collisions and the whole distribution of random numbers; a test compares averages of finitely many histories with a tolerance.", "anchors": ["src/TransportMethod.cpp:CellDeltaTracking::Transport", "src/TransportMethod.cpp:SurfaceTracking::Transport", "src/Material.cpp:Material::GetMicroscopicMajorant", "src/Material.cpp:Material::GetMicroscopicTotal"]}
{"id": "C99", "title": "Sampling by rejection ends", "statement": "With independent uniform random numbers, a collision of a neutron with a nuclide ends with probability one: the chance that the loop which samples the speed and direction of a free-gas target has rejected k times is at most (3/4)^k, and the chance that the whole collision, which also draws a number again when it exceeds the sum of the reactions' cross sections, has not ended after k rounds is at most 2 q^k with q = max(3/4, 1 - sum / (2 total)) < 1, provided some reaction has a positive cross section.", "quantifier": "all nuclides, tables, reactions with and without thermal data, energies, temperatures and mass ratios above zero; all sequences of random numbers, in probability; all numbers of rounds", "why_tests_cant": "A loop without a bound that ends in every test may still run on for some input with positive probability; only a bound on the probability of every number of rounds excludes it.", "anchors": ["src/ContinuousReaction.cpp:ContinuousScatter::Interact", "src/Continuous.cpp:Continuous::Interact"]}
{"id": "C100", "title": "The transport of a particle ends", "statement": "With independent uniform random numbers, the transport of a neutron born in a material ends, in capture, fission or leakage, with probability one, under both tracking methods: in a world of sensible multigroup data made of planes, spheres and cylinders in which every collision absorbs with probability at least b > 0, the chance that it has not returned after F steps is at most (1-b)^(F/(2S+1)), where S is the number of surfaces of the cells. In a world of sensible multigroup data in which every cell that is not void lies within one of its own spheres the same holds without any absorption: the chance is at most q^(F/(2S)) for a q < 1 that depends on the world only. Where nothing is born by fission the whole history of a source neutron ends in the same way.", "quantifier": "all worlds of planes, spheres and cylinders that cover space, multigroup data, starting points in a material, directions, tracking methods and scoring functions that do not fail; all sequences of random numbers, in probability; all numbers of steps", "why_tests_cant": "The loop over events has no bound; tests see finitely many histories that ended.", "anchors": ["src/TransportMethod.cpp:SurfaceTracking::Transport", "src/TransportMethod.cpp:CellDeltaTracking::Transport", "src/Multigroup.cpp:Multigroup::Interact", "src/Cell.cpp:Cell::NearestSurface"]}
{"id": "C101", "title": "The printed statistics estimate the mean and its error", "statement": "Over N independent histories, the mean printed for a bin of an estimator, or of a sensitivity, is on the average the expected score of one history (it is unbiased); the average of its squared error is the variance of one history's score divided by N; the square of the printed deviation is on the average (N-1)/N of that (so it understates the error, by one part in N, and a single history prints zero); and the chance that the mean is off by some distance or more is at most that variance over N times the squared distance, so that it converges.", "quantifier": "all estimators, sensitivities and bins; all finite distributions of histories; all numbers of histories above zero", "why_tests_cant": "The claim is about the average over all outcomes of a run; a test sees one outcome and cannot tell bias from noise.", "anchors": ["src/Scorable.cpp:Scorable::GetScoreAsString", "src/Scorable.cpp:ScorableProxy::CommitHistory", "src/Estimator.cpp:EstimatorProxy::CommitHistory"]}
{"id": "C102", "title": "Collisions come to what the data say, as often as the data say", "statement": "With independent uniform random numbers, a collision of a neutron of group g in a mixture of multigroup nuclides ends in capture with probability sum(a_i capture_i(g)) / sum(a_i total_i(g)); in scattering into group h with a cosine to the x axis below c with probability sum(a_i S_i(g->h)) / sum(a_i total_i(g)) times (1+c)/2, so that group and direction are independent and the direction is isotropic; and in fission with j neutrons with probability sum(a_i fission_i(g) max(0, 1-|nubar_i(g)-j|)) / sum(a_i total_i(g)), which has mean nubar. The a_i are the atom fractions.", "quantifier": "all mixtures of any number of nuclides with sensible multigroup data, all groups, tracking methods, flights before the collision, bounds c and yields j; all sequences of random numbers, in probability", "why_tests_cant": "Joint probabilities on a continuum; a test can only compare frequencies with a tolerance, on the mixtures it tries.", "anchors": ["src/TransportMethod.cpp:SurfaceTracking::Transport", "src/Particle.cpp:Particle::SampleNuclide", "src/Multigroup.cpp:Multigroup::Interact", "src/Multigroup.cpp:Multigroup::Scatter", "src/Multigroup.cpp:Multigroup::Fission"]}
{"id": "C103", "title": "The neutrons of fission come as the data say", "statement": "With independent uniform random numbers, a collision of a neutron of group g in a mixture of multigroup nuclides is a fission that brings exactly j neutrons, the k-th of them in group h_k and with a cosine to the x axis below c_k, with probability sum(a_i fission_i(g) max(0, 1-|nubar_i(g)-j|) prod_k chi_i(g->h_k) (1+c_k)/2) / sum(a_i total_i(g)): their groups are independent of each other, of their number and of their directions, and follow the normalised spectrum of the group that caused the fission; their directions are isotropic.", "quantifier": "all mixtures of any number of nuclides with sensible multigroup data, all groups, tracking methods, flights before the collision, numbers of neutrons, groups and bounds; all sequences of random numbers, in probability", "why_tests_cant": "Joint probabilities of any number of neutrons on a continuum; a test can only compare frequencies with a tolerance.", "anchors": ["src/Multigroup.cpp:Multigroup::Fission", "src/Particle.cpp:Particle::BankSecondaries", "src/Particle.cpp:Particle::SampleNuclide", "src/Multigroup.cpp:Multigroup::Interact"]}
{"id": "C104", "title": "Directions are spread over the sphere as their names say", "statement": "With independent uniform random numbers, a direction of an isotropic source, and the direction after a multigroup scatter, falls on the patch of the sphere with cosine to the x axis in [a,b) and azimuth in [f,t) with probability (b-a)(t-f)/(4 pi), the patch's share of the area. A direction of an isotropic-flux source falls on the patch about its reference with cosine in [a,b), 0<=a<=b<=1, and azimuth in [f,t) with probability (b^2-a^2)(t-f)/(2 pi), so never backwards and in proportion to the cosine. After continuous-energy scattering with a given cosine the azimuth about the old direction is uniform on a full turn.", "quantifier": "all patches, all reference directions, particles, old directions and cosines; all sequences of random numbers, in probability", "why_tests_cant": "Probabilities on a continuum of directions; a test can only compare frequencies with a tolerance for the references it tries.", "anchors": ["src/Point.cpp:Direction::Direction", "src/Source.cpp:IsotropicFlux", "src/Particle.cpp:Particle::SetDirectionIsotropic", "src/Particle.cpp:Particle::Scatter"]}
{"id": "C105", "title": "A step ends where, and as, the data say", "statement": "With independent uniform random numbers, a neutron with multigroup data in a mixture of total cross section S (density included) whose way to the surface of its cell is D passes the surface in its next step with probability exp(-S D). For x<=D it is captured before x with probability (1-exp(-S x)) times the share of capture in S; scattered before x into a group and below a cosine with probability (1-exp(-S x)) times the share of that transfer and of that cosine; and splits a nucleus before x with just the neutrons asked for with probability (1-exp(-S x)) times their share. So the place and the kind of a collision are independent, and surface tracking and cell delta tracking agree.", "quantifier": "all mixtures, groups, positions, directions, distances x up to the surface, outcomes of the collision and both tracking methods; all sequences of random numbers, in probability", "why_tests_cant": "A joint probability over a continuum of places and outcomes; a test can only compare frequencies with a tolerance for the problems it tries.", "anchors": ["src/TransportMethod.cpp:SurfaceTracking::Transport", "src/TransportMethod.cpp:CellDeltaTracking::Transport", "src/Particle.cpp:Particle::SampleNuclide", "src/Multigroup.cpp:Multigroup::Interact"]}
{"id": "C106", "title": "A beam in an absorber is attenuated exponentially", "statement": "With independent uniform random numbers, a whole walk of a neutron that starts in a mixture whose multigroup data, in its group, have only capture, with macroscopic cross section S, and that meets the void at distance D, ends in leakage with probability exp(-S D) and in capture before x<=D with probability 1-exp(-S x). This holds for surface tracking and for cell delta tracking, and whatever estimators score the walk.", "quantifier": "all absorbing mixtures, groups, positions, directions, distances x up to the void, scores and both tracking methods; all sequences of random numbers, in probability", "why_tests_cant": "A probability over a continuum of flights; a test of leakage can only compare a frequency with a tolerance for the slab it tries.", "anchors": ["src/TransportMethod.cpp:SurfaceTracking::Transport", "src/TransportMethod.cpp:CellDeltaTracking::Transport", "src/Particle.cpp:Particle::Transport", "src/Multigroup.cpp:Multigroup::Interact", "test/point_source_leakage.xml"]}
{"id": "C107", "title": "Layers of absorbers attenuate a beam by their total thickness", "statement": "With independent uniform random numbers, a neutron whose way leads through n cells filled with mixtures that only absorb in its group, and then into the void, leaks with probability exp(-x), where x is the sum over the cells of macroscopic cross section times the distance to the cell's surface from where the neutron enters. Crossing a surface restarts the flight without changing the law. The same holds for both tracking methods and whatever is scored.", "quantifier": "all numbers of layers, absorbing mixtures, geometries of the cells along the way, scores and both tracking methods; all sequences of random numbers, in probability", "why_tests_cant": "A probability over a continuum of flights and any number of layers; tests compare frequencies for a few slabs.", "anchors": ["src/TransportMethod.cpp:SurfaceTracking::Transport", "src/TransportMethod.cpp:CellDeltaTracking::Transport", "src/Particle.cpp:Particle::Transport", "src/World.cpp:World::FindCellContaining", "test/point_source_leakage.xml"]}
{"id": "C108", "title": "A point source in an absorbing ball leaks as the analytic solution says", "statement": "With independent uniform random numbers, a neutron of an isotropic point source in the middle of a ball of radius r, filled with a mixture of which the data in its group have only capture with macroscopic cross section S, and surrounded by void, leaks with probability exp(-S r), with both tracking methods and whatever is scored. Of the states scored in its history exactly one is a crossing of the ball's surface with that probability, and none with the remaining probability, so a current estimator there counts leaks. For the problem in test/point_source_leakage.xml this is exp(-1), the value its unit test compares a frequency of 1000 histories with.", "quantifier": "all radii, centres, absorbing mixtures, groups, scores and both tracking methods; all sequences of random numbers, in probability", "why_tests_cant": "The unit test compares one frequency with a tolerance for one ball; the claim is the exact probability for every ball and mixture.", "anchors": ["src/Point.cpp:Direction::Direction", "src/CSGSurface.cpp:Sphere::Distance", "src/TransportMethod.cpp:SurfaceTracking::Transport", "src/TransportMethod.cpp:CellDeltaTracking::Transport", "test/point_source_leakage.xml", "test/test_FixedSource.cpp"]}
{"id": "C109", "title": "A source in an absorbing plate leaks through each face as the exponential integral says", "statement": "With independent uniform random numbers, a neutron of an isotropic point source inside a plate between two planes, filled with a mixture of which the data in its group have only capture with macroscopic cross section S, and with void on both sides, is counted exactly once by a current estimator on a face at distance h with probability one half of the integral of exp(-S h / mu) over mu from 0 to 1, with both tracking methods. It is captured in the plate with the remaining probability. The integral exists.", "quantifier": "all plates, source points in them, absorbing mixtures, groups and both tracking methods; both faces; all sequences of random numbers, in probability", "why_tests_cant": "A test compares a frequency with a tolerance for one plate; the claim is the exact probability for every plate, over a continuum of directions of which grazing ones have arbitrarily long flights.", "anchors": ["src/Point.cpp:Direction::Direction", "src/CSGSurface.cpp:PlaneX::Distance", "src/Cell.cpp:Cell::NearestSurface", "src/TransportMethod.cpp:SurfaceTracking::Transport", "src/TransportMethod.cpp:CellDeltaTracking::Transport", "src/Estimator.cpp:CurrentEstimator::GetScore"]}
{"id": "C110", "title": "A point source in nested absorbing shells leaks with the product of the attenuations", "statement": "With independent uniform random numbers, a neutron of an isotropic point source in the middle of any number of concentric spherical shells, each filled with a mixture that only absorbs in the neutron's group and surrounded by void, leaks with probability exp(-x), where x is the sum over the shells of macroscopic cross section times thickness, less the small distance by which the program puts a particle behind each surface it crosses; with both tracking methods and whatever is scored.", "quantifier": "all numbers of shells, radii and centres, absorbing mixtures, groups, scores and both tracking methods; all sequences of random numbers, in probability", "why_tests_cant": "A test has one set of shells and compares a frequency with a tolerance; the claim is the exact probability for any number of shells.", "anchors": ["src/Point.cpp:Direction::Direction", "src/CSGSurface.cpp:Sphere::Distance", "src/Cell.cpp:Cell::NearestSurface", "src/World.cpp:World::FindCellContaining", "src/TransportMethod.cpp:SurfaceTracking::Transport", "src/TransportMethod.cpp:CellDeltaTracking::Transport"]}
{"id": "C111", "title": "A neutron is captured at the depth the exponential law says", "statement": "With independent uniform random numbers, a neutron that flies through any number of different cells of absorbers up to the void is captured in a given one of them with probability exp(-y) (1 - exp(-x)), where y is the thickness in mean free paths of the cells before it and x that of the cell itself; with both tracking methods and whatever is scored.", "quantifier": "all sequences of absorbing cells, of any number, material and thickness; every one of them; all groups, scores and both tracking methods; all sequences of random numbers, in probability", "why_tests_cant": "A test observes a frequency in one arrangement of cells; the claim is the exact distribution for every arrangement of any length.", "anchors": ["src/TransportMethod.cpp:SurfaceTracking::Transport", "src/TransportMethod.cpp:CellDeltaTracking::Transport", "src/Cell.cpp:Cell::NearestSurface", "src/World.cpp:World::FindCellContaining", "src/Multigroup.cpp:Multigroup::Capture"]}
{"id": "C112", "title": "The number of histories counted has the binomial distribution", "statement": "If a history has some property with probability p, and each of n histories has independent uniform random numbers of its own, then exactly j of them have it with probability (n choose j) p^j (1-p)^(n-j). In particular, of n neutrons of an isotropic point source in the middle of an absorbing ball of radius r and macroscopic cross section S, exactly j are counted by a current estimator on its surface with that probability for p = exp(-S r), with both tracking methods.", "quantifier": "all numbers of histories and counts, all properties of a history that have a probability; all balls, absorbing mixtures, groups and both tracking methods; all sequences of random numbers, in probability", "why_tests_cant": "A test sees one count of one run and accepts a range of them; the claim gives the exact probability of every count for every number of histories, which is what such a range rests on.", "anchors": ["src/FixedSource.cpp:FixedSource::StartWorker", "src/TransportMethod.cpp:SurfaceTracking::Transport", "src/TransportMethod.cpp:CellDeltaTracking::Transport", "src/Estimator.cpp:CurrentEstimator::GetScore", "test/test_FixedSource.cpp", "test/point_source_leakage.xml"]}

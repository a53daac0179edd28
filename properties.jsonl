{"id": "C01", "title": "Array indexing is a row-major bijection", "statement": "For an array of any rank and extents, the chained form a[i][j]... and the container form a[{i,j,...}] name the same element, an in-range index tuple always names an element inside the storage, two different in-range tuples never name the same element, and every element is named by some tuple.", "quantifier": "every rank, every extent vector, every in-range index tuple", "why_tests_cant": "Ranks, extents and tuples are unbounded; a test only visits a few shapes.", "anchors": ["include/nuSQuIDS/marray.h: operator[] (836-912), subscript_proxy (254-297)"]}
{"id": "C02", "title": "Iterator position and coordinates agree", "statement": "Asking an array for the coordinates of an iterator position gives an in-range index tuple that addresses exactly that position, and the coordinates of the element addressed by a tuple are that tuple.", "quantifier": "every rank, every non-empty extent vector, every position", "why_tests_cant": "Needs all shapes and positions.", "anchors": ["include/nuSQuIDS/marray.h: getCoordinate (1308-1315)"]}
{"id": "C03", "title": "Array constructors accept exactly the right amount of data", "statement": "Constructing an array from extents plus a data range, or from nested braces, succeeds exactly when the number of extents is the rank and the data match the extents, and the result then holds the data in order; every other input is rejected with an exception.", "quantifier": "every rank, extent list and data range", "why_tests_cant": "Rejection must hold for all wrong counts and all nestings.", "anchors": ["include/nuSQuIDS/marray.h: constructors (649-798), initializer_list checks (313-359), compute_total_size (1326-1330)"]}
{"id": "C04", "title": "Resizing keeps the elements both shapes share", "statement": "After resizing one dimension or all dimensions, every index tuple valid in both the old and the new shape still holds its old value, and the reported shape is the requested one.", "quantifier": "every array, every dimension, every new size", "why_tests_cant": "All shapes/dimensions/sizes; growth and shrinkage mix.", "anchors": ["include/nuSQuIDS/marray.h: resize (930-945)"]}
{"id": "C05", "title": "Insert and erase shift exactly one dimension", "statement": "Inserting n entries of value v before position p along a dimension puts v at positions p..p+n-1, leaves tuples below p untouched and shifts tuples at or above p by n; erase drops exactly the named positions; erasing what was just inserted restores the array; if copying v throws while inserting, the array is left as it was and no partly built element is leaked or destroyed twice.", "quantifier": "every array, dimension, position, slab, and every point at which a copy may throw", "why_tests_cant": "All shapes and all failure points of element copying.", "anchors": ["include/nuSQuIDS/marray.h: insert (948-1056), erase (1059-1163)"]}
{"id": "C06", "title": "Reshape preserves contents and only accepts equal sizes", "statement": "Reshaping succeeds exactly when the new extents have the same number of elements as the old and then leaves the flattened contents unchanged; otherwise it throws and leaves the array unchanged.", "quantifier": "every array, every new extent list, including extents whose product exceeds 32 bits", "why_tests_cant": "Overflowing products are not hit by ordinary tests.", "anchors": ["include/nuSQuIDS/marray.h: reshape (1169-1177), compute_total_size (1326-1330)"]}
{"id": "C07", "title": "Reductions sum exactly the eliminated dimension", "statement": "sum(dim) gives, at each remaining tuple, the sum over the eliminated index; summing all dimensions in any order gives the same as sum(); sum_same_rank gives the same numbers with extent 1 kept.", "quantifier": "every array, every dimension", "why_tests_cant": "All shapes and dimensions.", "anchors": ["include/nuSQuIDS/marray.h: sum (1184-1228), sum_same_rank (1235-1272)"]}
{"id": "C08", "title": "Array arithmetic is elementwise with broadcasting", "statement": "A binary operation on two arrays gives, at each tuple of the broadcast shape, the operation on the two elements selected by broadcasting (extent 1 repeats, missing leading dimensions repeat); shapes that are not compatible are rejected; in each dimension the result has the extent that is not 1.", "quantifier": "every pair of shapes, every contents, every operation", "why_tests_cant": "All pairs of shapes.", "anchors": ["include/nuSQuIDS/marray.h: applyOp (1607-1736), operators (1738-1849)"]}
{"id": "C09", "title": "Scalar-array arithmetic is elementwise in the written order", "statement": "f op a and a op f give the array whose element at each tuple is f op a[i] respectively a[i] op f.", "quantifier": "every scalar, every array, each of + - * /", "why_tests_cant": "Needs non-commuting operations over all values.", "anchors": ["include/nuSQuIDS/marray.h: scalar operators (1391-1593)"]}
{"id": "C10", "title": "Arrays are values", "statement": "After copying, later changes to the copy or the original are never visible through the other; after move construction the destination holds the source's value and the source is empty; move assignment with equal allocators and swap exchange the two; no buffer is leaked or freed twice; swapping twice restores both; self-assignment changes nothing.", "quantifier": "every history of copy/move/assign/swap/write operations on any number of arrays", "why_tests_cant": "Aliasing shows only for particular histories.", "anchors": ["include/nuSQuIDS/marray.h: copy/move constructors and assignments (483-538, 778-834), swap (916)"]}
{"id": "C11", "title": "Aligned allocation is aligned, in bounds and freed correctly", "statement": "A successful allocation returns an address that is a multiple of the requested alignment, the requested bytes plus the bookkeeping byte lie inside the block obtained from the system, deallocation hands back exactly the address obtained from the system, and requests whose byte count would overflow are refused.", "quantifier": "every alignment power, every element size and count, every address the system may return", "why_tests_cant": "Depends on addresses returned by the system allocator.", "anchors": ["include/nuSQuIDS/aligned_alloc.h: allocate (107-133), deallocate (135-145), max_size"]}
{"id": "C12", "title": "The thread pool runs every accepted task exactly once, in order", "statement": "For any number of workers and any interleaving, each task accepted by the pool is started at most once, tasks start in the order they were accepted, and with at least one worker every accepted task has been started once by the time the destructor returns.", "quantifier": "every schedule, every number of workers, every enqueue history", "why_tests_cant": "Quantifies over thread schedules.", "anchors": ["include/nuSQuIDS/ThreadPool.h: worker loop (59-84), enqueue (87-109), destructor (112-121)"]}
{"id": "C13", "title": "The thread pool neither loses wakeups nor deadlocks on shutdown", "statement": "After shutdown begins no task is accepted, and from every reachable state in which shutdown has begun some worker can make progress until all workers have exited.", "quantifier": "every reachable interleaving", "why_tests_cant": "Deadlock freedom over all schedules.", "anchors": ["include/nuSQuIDS/ThreadPool.h: worker loop (59-84), enqueue (87-109), destructor (112-121)"]}
{"id": "C14", "title": "linspace and logspace give ordered grids with the requested ends", "statement": "For n>=2 nodes and Emin<Emax the grid has n nodes, starts at Emin, ends at Emax, is strictly increasing and evenly spaced (in value or in logarithm).", "quantifier": "every real range and every node count", "why_tests_cant": "All counts and ranges.", "anchors": ["src/tools.cpp: linspace (105-117), logspace (119-135)"]}
{"id": "C15", "title": "Tables written as text read back unchanged", "statement": "A rectangular table written with quickwrite and read with quickread gives the same rows and columns; files with ragged rows are rejected; comment lines and blank lines do not change the result.", "quantifier": "every rectangular table, every placement of comment and blank lines", "why_tests_cant": "All layouts of files.", "anchors": ["src/tools.cpp: quickread (44-86), quickwrite (88-103)"]}
{"id": "C16", "title": "Akima spline interpolates and is continuous", "statement": "The spline returns the tabulated value at every abscissa, reproduces straight-line data exactly everywhere between nodes, is continuous with continuous derivative across interior nodes, and its constructor rejects tables that are too short or not strictly increasing.", "quantifier": "every table of reals, every evaluation point", "why_tests_cant": "All tables and all real points.", "anchors": ["src/tools.cpp: AkimaSpline (212-340)", "include/nuSQuIDS/tools.h: AkimaSpline (145-186)"]}
{"id": "C17", "title": "Bicubic interpolation matches the table at its nodes", "statement": "The two-dimensional interpolator returns the tabulated value at each node and is continuous across cell edges.", "quantifier": "every grid and every node", "why_tests_cant": "All tables.", "anchors": ["src/tools.cpp: BiCubicInterpolator (342-477)"]}
{"id": "C18", "title": "Tricubic interpolation matches the table at its nodes", "statement": "The three-dimensional interpolator returns the tabulated value at each node, and its cross derivative estimates with respect to (y,z) are taken along y.", "quantifier": "every grid and every node", "why_tests_cant": "All tables.", "anchors": ["src/tools.cpp: TriCubicInterpolator (479-802)"]}
{"id": "C19", "title": "Adaptive quadrature covers the interval once, with the right sign", "statement": "The accepted sub-intervals partition the requested interval; integrating from b to a gives minus the integral from a to b; polynomials up to the rule's degree are integrated exactly; a tolerance below machine epsilon is rejected; supplying precomputed endpoint values does not change the result.", "quantifier": "every integrand, every interval, every sequence of accept/split decisions", "why_tests_cant": "All integrands.", "anchors": ["include/nuSQuIDS/AdaptiveQuad.h: Interval (56-140), integrate (179-280)"]}
{"id": "C20", "title": "The fast bin-average quadrature is exact where it claims to be", "statement": "The quick integration used for bin-averaged cross sections is exact for affine integrands and for every integrand returns one of its documented rules' values.", "quantifier": "every integrand and bin", "why_tests_cant": "All integrands.", "anchors": ["src/xsections.cpp: fastInt (50-91)"]}
{"id": "C21", "title": "HDF5 handles are closed exactly once", "statement": "For any history of opening, moving, assigning and destroying handles, every identifier obtained from the library is closed exactly once, never used after closing, and negative identifiers are never kept.", "quantifier": "every history of handle operations", "why_tests_cant": "Histories are unbounded.", "anchors": ["include/nuSQuIDS/tools.h: H5File (257-266), H5Handle (269-306)"]}
{"id": "C22", "title": "Arrays written to HDF5 read back unchanged", "statement": "Writing an array of any rank as a dataset and reading it back gives the same shape and contents; reading with the wrong rank is rejected; the chunk shape requested from the library is always valid.", "quantifier": "every rank, shape and contents", "why_tests_cant": "All shapes.", "anchors": ["include/nuSQuIDS/tools.h: writeArrayH5 (318-359), readArrayH5 (361-381)"]}
{"id": "C23", "title": "Earth trajectories never leave the model and are symmetric", "statement": "For every baseline from 0 to the Earth's diameter and every position on it the radius looked up is inside the table's range, so density and composition are defined, and they are the same at x and at baseline-x.", "quantifier": "every baseline and position (reals)", "why_tests_cant": "All positions on all chords.", "anchors": ["src/body.cpp: Earth::density/ye, Earth::Track", "include/nuSQuIDS/body.h: Earth (302-439)"]}
{"id": "C24", "title": "Atmospheric trajectories connect production height to detector", "statement": "For every zenith angle and atmosphere height the path length is non-negative, the trajectory starts at the top of the atmosphere, ends at the surface detector, never leaves the shell, and the cosine round trip is consistent.", "quantifier": "every angle and height", "why_tests_cant": "All angles.", "anchors": ["src/body.cpp: EarthAtm", "include/nuSQuIDS/body.h: EarthAtm (682-903)"]}
{"id": "C25", "title": "Simple media give the density they were built with", "statement": "Vacuum is zero everywhere, constant density returns its parameters everywhere, variable density returns its table inside its range and zero outside.", "quantifier": "every parameter and position", "why_tests_cant": "All positions.", "anchors": ["include/nuSQuIDS/body.h: Vacuum, ConstantDensity, VariableDensity"]}
{"id": "C26", "title": "Bodies and trajectories survive serialization", "statement": "Writing a medium or trajectory and reading it back gives an object with the same densities, compositions, positions and lengths.", "quantifier": "every medium and trajectory", "why_tests_cant": "All parameter values.", "anchors": ["src/body.cpp: Serialize/Deserialize of every Body and Track"]}
{"id": "C27", "title": "The medium registry resolves names consistently", "statement": "A registered name always resolves to its first registration regardless of later registrations, and an unknown name is rejected.", "quantifier": "every registration history", "why_tests_cant": "All histories.", "anchors": ["src/body.cpp: registry (GetBodyDeserialize, RegisterBody)", "include/nuSQuIDS/body.h (907-947)"]}
{"id": "C28", "title": "Tau decay spectra are normalised", "statement": "Each channel's neutrino spectrum integrates to one over the energy fraction, so the branching-weighted total spectrum integrates to one.", "quantifier": "the whole energy-fraction interval (real integral)", "why_tests_cant": "An integral over a continuum with exact equality.", "anchors": ["src/taudecay.cpp: TauDecayToLepton..All (39-126)"]}
{"id": "C29", "title": "Tau decay spectra are non-negative and bounded in range", "statement": "All decay spectra are non-negative for energy fractions in [0,1], and table lookups with an energy index out of range are rejected.", "quantifier": "every energy fraction, every index", "why_tests_cant": "All real fractions.", "anchors": ["src/taudecay.cpp: TauDecay* (39-184)"]}
{"id": "C30", "title": "Glashow resonance differential and total cross sections agree", "statement": "The differential cross section integrated over outgoing energy equals the leptonic branching fraction times the total; both vanish for every channel other than electron antineutrinos.", "quantifier": "every energy and every channel", "why_tests_cant": "All energies; continuum integral.", "anchors": ["src/xsections.cpp: GlashowResonanceCrossSection (849-898)"]}
{"id": "C31", "title": "Cross-section table lookups stay inside the table", "statement": "For every energy accepted by the range check, the table cell used for interpolation is inside the table, including both ends of the range.", "quantifier": "every table and every accepted energy", "why_tests_cant": "Boundary energies depend on rounding and table sizes.", "anchors": ["src/xsections.cpp: NeutrinoDISCrossSectionsFromTables_V1 (588-757)"]}
{"id": "C32", "title": "Cross sections outside the table are handled as documented", "statement": "Sterile flavours have zero cross section, energies above the table are rejected, energies below are extrapolated proportionally, continuous at the lower edge.", "quantifier": "every energy and flavour", "why_tests_cant": "All energies.", "anchors": ["src/xsections.cpp: TotalCrossSection (199-220), SingleDifferentialCrossSection (222-245)"]}
{"id": "C33", "title": "Cross-section tables survive a write/read cycle", "statement": "Writing cross-section tables to HDF5 or text and reading them back gives the same total and differential cross sections for every flavour.", "quantifier": "every set of tables", "why_tests_cant": "All combinations of equal/different flavour tables.", "anchors": ["src/xsections.cpp: WriteHDF (541-586), ReadHDF (471-527), ReadText (308-335), WriteText"]}
{"id": "C34", "title": "The cross-section library never redefines a target", "statement": "After any history of additions, looking up a target gives the first definition added, redefinition is rejected and leaves the library unchanged, unknown targets give nothing.", "quantifier": "every history", "why_tests_cant": "All histories.", "anchors": ["include/nuSQuIDS/xsections.h: CrossSectionLibrary (580-640)", "src/xsections.cpp: lookup (900-910)"]}
{"id": "C35", "title": "Target number densities reproduce density and composition", "statement": "The electron, proton and neutron densities computed for a medium add up to its mass density, their ratio gives its electron fraction, and the per-target fractions are the densities divided by their sum and add up to one.", "quantifier": "every density, every electron fraction in [0,1]", "why_tests_cant": "All real inputs.", "anchors": ["src/nuSQuIDS.cpp: GetTargetNumberFractions (441-446), GetTargetNumberDensities (448-489)"]}
{"id": "C36", "title": "The evolution cache is aligned and large enough", "statement": "For any number of flavours, energies and densities the buffer set up for evolved projectors holds every vector, each aligned, without overlap, and the internal consistency error is never raised.", "quantifier": "every flavour count, node count, base address", "why_tests_cant": "Depends on addresses and sizes.", "anchors": ["src/nuSQuIDS.cpp: SetUpInteractionCache (491-583)"]}
{"id": "C37", "title": "Padding rounds up to the least aligned size", "statement": "The padded node count is the least multiple of the preferred alignment that is at least the requested one, and padding never changes values reported for real nodes.", "quantifier": "every node count", "why_tests_cant": "All counts.", "anchors": ["include/nuSQuIDS/nuSQuIDS.h: round_up_to_aligned (132-134)"]}
{"id": "C38", "title": "Interaction terms agree with and without oscillations", "statement": "For states without coherence the interaction source terms computed in the no-oscillation shortcut equal those of the general path.", "quantifier": "every flux, every cross-section set, both neutrino types, with and without external sources", "why_tests_cant": "All inputs; modes are never compared in tests.", "anchors": ["src/nuSQuIDS.cpp: UpdateInteractions (585-968), InteractionsRho (374-431)"]}
{"id": "C39", "title": "Interactions only feed energy downwards", "statement": "The interaction source at an energy node depends only on fluxes at strictly higher nodes; the highest node receives none; changing fluxes at lower nodes never changes it.", "quantifier": "every flux pair, every node", "why_tests_cant": "All nodes and fluxes.", "anchors": ["src/nuSQuIDS.cpp: UpdateInteractions (585-968)"]}
{"id": "C40", "title": "Regeneration never creates negative flux", "statement": "With non-negative fluxes, cross sections and decay spectra, every regeneration source term is non-negative, and scaling all fluxes scales all of them.", "quantifier": "every non-negative input", "why_tests_cant": "All inputs.", "anchors": ["src/nuSQuIDS.cpp: UpdateInteractions (585-968)"]}
{"id": "C41", "title": "Neutral-current regeneration weights each target by its own interactions", "statement": "The neutral-current source equals the sum over targets of density times differential cross section times flux, for any mixture of targets.", "quantifier": "every mixture of targets and cross sections", "why_tests_cant": "Tests use one isoscalar target.", "anchors": ["src/nuSQuIDS.cpp: UpdateInteractions (666-760)"]}
{"id": "C42", "title": "The matter potential depends correctly on composition", "statement": "The potential has opposite sign for antineutrinos, vanishes for sterile flavours and in vacuum, differs between electron and muon flavours by the electron density term, and is a continuous function of electron fraction down to zero.", "quantifier": "every density, electron fraction and flavour", "why_tests_cant": "All real inputs.", "anchors": ["src/nuSQuIDS.cpp: HI (334-361)"]}
{"id": "C43", "title": "Evolution runs only on a complete setup", "statement": "For every history of calls, evolving either throws and leaves state and clock unchanged, or the medium, trajectory, energy and initial state were all set since they were last invalidated.", "quantifier": "every call history", "why_tests_cant": "All histories.", "anchors": ["src/nuSQuIDS.cpp: EvolveState (1233-1305), Set_Body, Set_Track, Set_initial_state, Set_E"]}
{"id": "C44", "title": "Changing mixing parameters invalidates the state", "statement": "After any change of masses, mixing angles, phases, or energy, the previously set state can not be evolved until an initial state is set again.", "quantifier": "every call history", "why_tests_cant": "All histories.", "anchors": ["src/nuSQuIDS.cpp: Set_MixingAngle/Set_CPPhase/Set_SquareMassDifference/Set_E (142-153, 2844-2894)"]}
{"id": "C45", "title": "Enabling tau regeneration or Glashow resonance takes effect safely at any time", "statement": "The switches can be turned on at any point of a history in which the documented preconditions hold, and evolution afterwards only uses buffers that were sized for them.", "quantifier": "every call history", "why_tests_cant": "Only particular orders of calls fail.", "anchors": ["src/nuSQuIDS.cpp: InitializeInteractions (970-1044), Set_TauRegeneration (2801-2809), Set_GlashowResonance (2811-2815)"]}
{"id": "C46", "title": "New cross sections are used after they are set", "statement": "After supplying a new cross-section library, the next evolution uses it.", "quantifier": "every call history", "why_tests_cant": "Only particular orders fail.", "anchors": ["include/nuSQuIDS/nuSQuIDS.h: SetNeutrinoCrossSections (1041)", "src/nuSQuIDS.cpp: InitializeInteractions (970-1044)"]}
{"id": "C47", "title": "Positivity enforcement does not change the distance propagated", "statement": "With positivity enforcement on, evolving a trajectory advances the clock by exactly its length, for every step scale.", "quantifier": "every trajectory and scale", "why_tests_cant": "All lengths and starting points.", "anchors": ["src/nuSQuIDS.cpp: EvolveState (1233-1305)"]}
{"id": "C48", "title": "The trajectory position follows the evolution clock", "statement": "At every point of every evolution the medium is queried at the position initial + (time since the trajectory was set), the state can be continued over consecutive trajectories, and after a successful evolution the position is the end of the trajectory.", "quantifier": "every sequence of trajectories", "why_tests_cant": "All histories.", "anchors": ["src/nuSQuIDS.cpp: PreDerive (278-297), Set_Track (1201-1209), EvolveState (1233-1305)"]}
{"id": "C49", "title": "Reversed trajectories always integrate with the right step sign", "statement": "A trajectory whose end lies before its start is integrated with a negative step on every call, and a forward one with a positive step.", "quantifier": "every history of evolutions", "why_tests_cant": "Only repeated calls show it.", "anchors": ["src/nuSQuIDS.cpp: EvolveState (1233-1305)"]}
{"id": "C50", "title": "Antineutrino CP flip is undone exactly", "statement": "The temporary sign change of CP phases used to set up antineutrinos leaves the user-visible parameters unchanged.", "quantifier": "every parameter set", "why_tests_cant": "All parameters.", "anchors": ["src/nuSQuIDS.cpp: AntineutrinoCPFix (1617-1625), init, iniProjectors"]}
{"id": "C51", "title": "Mixing setters reject out-of-range indices", "statement": "Setting a mixing angle, phase or mass difference with an index not smaller than the number of flavours is rejected and changes nothing; so are indices which are equal or in the wrong order, and the mass difference of the first mass.", "quantifier": "every index and flavour count", "why_tests_cant": "All indices.", "anchors": ["src/nuSQuIDS.cpp: Set_MixingAngle.. (2844-2881)"]}
{"id": "C52", "title": "Moving an evolution object preserves it", "statement": "After move construction or assignment the destination behaves like the source did: all settings, buffers and offsets are carried over.", "quantifier": "every object state", "why_tests_cant": "All settings combinations.", "anchors": ["src/nuSQuIDS.cpp: move constructor (2904-2943), move assignment (2945-2993)"]}
{"id": "C53", "title": "Copying an interaction structure copies all of it", "statement": "A copied or assigned interaction table is equal to the original in all its data, and equality implies equal shapes and contents.", "quantifier": "every table", "why_tests_cant": "All tables.", "anchors": ["include/nuSQuIDS/nuSQuIDS.h: InteractionStructure (138-293)"]}
{"id": "C54", "title": "Saved states read back to the same state", "statement": "Writing the state to file and reading it back restores flavour content, clock, trajectory, mixing parameters and interaction tables (without padding) of every node.", "quantifier": "every state", "why_tests_cant": "All sizes and types.", "anchors": ["src/nuSQuIDS.cpp: WriteStateHDF5 (1688-2068), ReadStateHDF5 (2285-2715)"]}
{"id": "C55", "title": "Initial flavour content reads back and total flux is conserved", "statement": "Reading the flavour content right after setting it gives the values that were set, for any unitary mixing, and without interactions the sum over flavours is conserved.", "quantifier": "every mixing matrix, every flux, every node", "why_tests_cant": "All mixing matrices (continuum).", "anchors": ["src/nuSQuIDS.cpp: Set_initial_state (1307-1444), EvalFlavor (1454-1600), iniProjectors (1627-1660)"]}
{"id": "C56", "title": "Parallel atmospheric evolution equals serial evolution", "statement": "Evolving the zenith nodes on any number of threads in any interleaving gives the same final states as evolving them one after the other.", "quantifier": "every schedule, thread count and node count", "why_tests_cant": "Quantifies over schedules.", "anchors": ["include/nuSQuIDS/nuSQuIDS.h: nuSQUIDSAtm::EvolveState (1277-1322)"]}
{"id": "C57", "title": "Failures in parallel evolution are reported", "statement": "If evolving some zenith node throws, the call throws, whatever the number of threads.", "quantifier": "every set of failing nodes, every thread count", "why_tests_cant": "All failure patterns.", "anchors": ["include/nuSQuIDS/nuSQuIDS.h: nuSQUIDSAtm::EvolveState (1277-1322)"]}
{"id": "C58", "title": "Zenith interpolation stays inside the grid and between the nodes", "statement": "For every zenith angle in range the two nodes used are neighbours in the grid that bracket it, the result at a node is the node's value, and in between it lies between the two node values; angles out of range are rejected.", "quantifier": "every grid and angle", "why_tests_cant": "All grids and angles.", "anchors": ["include/nuSQuIDS/nuSQuIDS.h: nuSQUIDSAtm::EvalFlavor (1332-1505), LinInter (1083-1087)"]}
{"id": "C59", "title": "Every zenith node gets its own place in the saved file", "statement": "Different zenith nodes are stored under different names, so any atmospheric state can be saved and read back.", "quantifier": "every grid of zenith nodes", "why_tests_cant": "Depends on decimal formatting of arbitrary reals.", "anchors": ["include/nuSQuIDS/nuSQuIDS.h: nuSQUIDSAtm::WriteStateHDF5 (1511-1544), ReadStateHDF5 (1550-1604)"]}
{"id": "C60", "title": "The evaluation thread count is never zero", "statement": "After any request for a number of evaluation threads the number used is at least one.", "quantifier": "every request and every hardware report", "why_tests_cant": "Depends on hardware report.", "anchors": ["include/nuSQuIDS/nuSQuIDS.h: Set_EvalThreads (1876-1883)"]}
{"id": "C61", "title": "The constant-density shortcut does not outlive its medium", "statement": "After evolving through a constant-density medium with the shortcut, evolving through a varying medium uses the numerical path again.", "quantifier": "every sequence of media", "why_tests_cant": "Only particular sequences show it.", "anchors": ["src/nuSQuIDS.cpp: EvolveState (1233-1305)"]}
{"id": "C62", "title": "Atmospheric settings apply to every zenith node", "statement": "After any history of setter calls on an atmospheric object all nodes have the same settings.", "quantifier": "every history", "why_tests_cant": "All histories.", "anchors": ["include/nuSQuIDS/nuSQuIDS.h: nuSQUIDSAtm setters (1607-1870)"]}
{"id": "C63", "title": "Failed calls do not half-apply", "statement": "Setters and initialisers that throw because of a bad argument leave the object as it was.", "quantifier": "every history and bad argument", "why_tests_cant": "All failing inputs.", "anchors": ["src/nuSQuIDS.cpp: Set_initial_state (1307-1444), Set_TauRegeneration (2801-2809), Set_Basis (2896)"]}
{"id": "C64", "title": "Solar trajectories are chords of the Sun", "statement": "A trajectory with any impact parameter up to the Sun's radius begins and ends on the Sun's surface, stays inside it, comes as near to the centre as the impact parameter says, and the density is the table's at the distance to the centre and zero outside.", "quantifier": "every impact parameter and position", "why_tests_cant": "All chords and positions.", "anchors": ["src/body.cpp: Sun (448-545), SunASnu (554-671)"]}
{"id": "C65", "title": "Absorption is the sum of all interactions", "statement": "The attenuation of each active flavour is half the sum over targets of density times total (charged plus neutral) cross section, plus for electron antineutrinos the electron density times the Glashow cross section; sterile flavours are not attenuated.", "quantifier": "every composition, cross-section set, neutrino type and node, whatever the buffers held before", "why_tests_cant": "All tables and compositions; the stale buffer contents are never varied in tests.", "anchors": ["src/nuSQuIDS.cpp: UpdateInteractions (585-653), GammaRho (363-372)"]}
{"id": "C66", "title": "The oscillation switch takes effect at the next evolution", "statement": "After switching oscillations on or off, the vacuum Hamiltonian used by the next evolution is that of the new setting.", "quantifier": "every history", "why_tests_cant": "Depends on the order of calls; all histories.", "anchors": ["src/nuSQuIDS.cpp: iniH0 (1602-1615), Set_initial_state (1307-1444)", "include/nuSQuIDS/nuSQuIDS.h: Set_IncludeOscillations"]}
{"id": "C67", "title": "Queries on incomplete objects are rejected", "statement": "Asking an object for the Hamiltonian before the medium, trajectory and interaction tables exist is answered with an exception, and is answered normally afterwards; never undefined behaviour.", "quantifier": "every history", "why_tests_cant": "All histories.", "anchors": ["src/nuSQuIDS.cpp: GetHamiltonian (1681-1686), PreDerive (278-297)"]}
{"id": "C68", "title": "Losses and gains reach exactly the flavour they are meant for", "statement": "In the evolution equation the loss term takes from each active flavour its interaction rate times its own content and nothing from the others; the gain term and the sources add to each flavour exactly the amount computed for it; the total changes at the sum of these rates whatever the oscillations; with oscillations off each flavour follows its own rates.", "quantifier": "every mixing, energy, rate, number of flavours and state", "why_tests_cant": "Continuum of mixings and states.", "anchors": ["src/nuSQuIDS.cpp: GammaRho (362-371), InteractionsRho (373-432), EvolveProjectors (299-327)"]}
{"id": "C69", "title": "Mass and interaction basis give the same flavour content", "statement": "Evolving in the mass basis, evolving in the interaction basis and the shortcut for constant density describe the same evolution: a solution of one, seen from the other, solves the other's equation, starts from the same state and shows the same content of every flavour at all times.", "quantifier": "every mixing, energy, medium, rates and solution", "why_tests_cant": "Continuum of solutions.", "anchors": ["src/nuSQuIDS.cpp: HI (335-360), PreDerive (278-297), EvolveState (1258-1285), EvalFlavorAtNode (1522-1530)"]}
{"id": "C70", "title": "Layers crossed one after the other add up", "statement": "Crossing layers one after the other without setting the state again gives the flavour content of the whole path: through layers of constant density, of vacuum or matter, the shortcut shows what the equation of the whole path says and what integration shows; dividing a layer changes nothing; the contents still add up to what was put in.", "quantifier": "every list of layers, every history of the object before", "why_tests_cant": "All sequences of media.", "anchors": ["src/nuSQuIDS.cpp: EvolveState (1233-1305), EvalFlavor (1580-1600)"]}
{"id": "C71", "title": "Antineutrinos mirror neutrinos in vacuum", "statement": "In vacuum an antineutrino set as flavour j is seen as flavour k with the probability with which a neutrino set as flavour k is seen as flavour j, in objects for one kind and for both.", "quantifier": "every mixing with phases, energy, path and pair of flavours", "why_tests_cant": "Continuum of mixings.", "anchors": ["src/nuSQuIDS.cpp: AntineutrinoCPFix (1617-1625), iniProjectors (1627-1660)"]}
{"id": "C72", "title": "Rows of the interaction work arrays keep the promised alignment", "statement": "Whenever an object holds interaction tables, every row of the work arrays it sums into starts on a multiple of the promised number of doubles from the start of the array, and holds every energy node.", "quantifier": "every number of energies, types and ways of getting the tables (computed, read, shared)", "why_tests_cant": "Wrong promises are undefined behaviour that a compiler may or may not exploit; depends on the number of nodes modulo four.", "anchors": ["src/nuSQuIDS.cpp: InitializeInteractions (1033-1041), ReadStateHDF5 (2690-2696), ReadStateHDF5Internal (2250-2266), UpdateInteractions (878-879)"]}
{"id": "C73", "title": "An atmospheric object is evolved only with a state", "statement": "EvolveState refuses an atmospheric object whose nodes have no valid state; setting a state gives every node one or is refused without effect, and changing a mixing parameter takes the state away from every node.", "quantifier": "every history of calls, grid and array extents", "why_tests_cant": "Reading an uninitialised flag may or may not be noticed; partial updates depend on the history.", "anchors": ["include/nuSQuIDS/nuSQuIDS.h: nuSQUIDSAtm::Set_initial_state (1224-1274), EvolveState (1277-1322)"]}
{"id": "C74", "title": "All zenith nodes use one set of interaction tables", "statement": "After an evolution with interactions every zenith node uses the interaction tables made by the first node, and the ensemble refers to the same tables.", "quantifier": "every history of calls on an atmospheric object", "why_tests_cant": "Every history; a stale table is silent.", "anchors": ["include/nuSQuIDS/nuSQuIDS.h: nuSQUIDSAtm::EvolveState (1283-1291)"]}
{"id": "C75", "title": "Interaction tables hold the averages of the supplied cross sections", "statement": "When the interaction tables are made, every total cross section is the library's average over the bin ending at its node (at the first node the value there), every spectrum entry below the diagonal is the averaged differential cross section over that total, all for the right target, flavour and particle; values of active flavours are finite and not negative; nothing else is written, nothing undefined happens, and no spectrum makes more neutrinos come out than went in.", "quantifier": "every cross-section library, grid, number of flavours, particle type and contents of the arrays before", "why_tests_cant": "Every library and grid; a wrong index or bin changes results smoothly.", "anchors": ["src/nuSQuIDS.cpp: InitializeInteractions (995-1012), GetCrossSections (1046-1194)"]}
{"id": "C76", "title": "Positivity correction", "statement": "With the positivity constraint, after each correction no flavour content at a node is negative: a content that was negative is zero and every other content, every coherence and every other node is as it was; the number of neutrinos grows by exactly what was lacking and correcting twice is correcting once.", "quantifier": "every number of flavours, mixing, grid, basis, clock, filter setting and state", "why_tests_cant": "Negative contents appear only through integration error, so tests rarely reach the correction, and never with every mixing, basis and filter.", "anchors": ["src/nuSQuIDS.cpp: PositivizeFlavors (1211-1223), PreDerive (278-297), EvolveProjectors (299-327)"]}
{"id": "C77", "title": "Decoherence extension", "statement": "With the decoherence extension the rates a program sets are the rates used, in SQuIDS's basis or in the standard Gell-Mann order for three flavours; RandomizeState drives every flavour content to the mean and keeps the number of neutrinos, NeutrinoLoss damps the whole state, RandomizePhase damps every coherence and no population, at the rate gamma*(E/E0)^n; what is damped does not depend on the time at which the interaction picture is looked at, and the damping acts whenever it is switched on.", "quantifier": "every number of flavours (three for the standard order), rate matrix, model, rate, energy, scale, power and state", "why_tests_cant": "The example prints one set of curves for one model; wrong indices in the rate matrix damp a population instead of a coherence and still give smooth curves.", "anchors": ["examples/Decoherence/nuSQUIDSDecoh.cpp", "examples/Decoherence/nuSQUIDSDecoh.h", "src/nuSQuIDS.cpp: 246-249, 1258-1286", "include/nuSQuIDS/nuSQuIDS.h: 1047-1056"]}
{"id": "C78", "title": "Non-standard interactions extension", "statement": "With the extension for non-standard interactions the interaction added between muon and tau flavours, as flavours are read, is 3 V_cc epsilon at every energy node and time (with the opposite sign for antineutrinos), for the epsilon last set or read from a file and the mixing in use; it leaves the electron flavour and the total alone.", "quantifier": "every epsilon, mixing, phases, grid, vacuum hamiltonian, time, density, type of neutrino, basis and state", "why_tests_cant": "The example runs one epsilon with the default mixing and no CP phase in one medium; the rotation of the operator cancels against the basis only for all angles and times at once.", "anchors": ["examples/NSI/NSI.h", "examples/Atm_BSM/NSI.h", "src/nuSQuIDS.cpp: PreDerive (278-297), HI (335-360), EvolveState (1258-1286)"]}
{"id": "C79", "title": "Lorentz violation extension", "statement": "With the extension for Lorentz violation, after any history of calls the term used is the operator last given times E^n for the power last given, as flavours are read with the angles in use; if an angle or phase was set after the operator, evolution is refused; setting an initial state changes neither parameters nor operator; parameters written to a file are read back.", "quantifier": "every history of calls, operator, power, mixing, grid, time, type of neutrino and basis", "why_tests_cant": "The stale-operator protection depends on the order of calls, and setting an initial state itself sets phases through the overridden setter; no finite list of orders covers it.", "anchors": ["examples/LV/LV.h", "src/nuSQuIDS.cpp: AntineutrinoCPFix (1617-1625), iniProjectors (1645-1679), Set_MixingParametersToDefault (2883-2894)"]}
{"id": "C80", "title": "Read-outs answer only about what exists", "statement": "A nuSQUIDS object answers a read-out of flavours or masses only after energies are set, only for the kinds of neutrinos it holds, and only for energies within its grid; an existing flavour, kind and node or energy always gets the content of the right projector in the right state; averaging flags must be as many as the flavours; the forms for one energy refuse grids and flavours that do not exist.", "quantifier": "every object made by the initialisers and Set_E, in any basis, every flavour, kind, node and energy asked for", "why_tests_cant": "Whether an index is refused, answered or read outside of the arrays depends on all of the number of flavours, kinds, nodes and the basis; tests use existing indices.", "anchors": ["src/nuSQuIDS.cpp: init (78-140), Set_E (142-153), init (155-257), EvalMass, EvalFlavor, EvalMassAtNode, EvalFlavorAtNode (1446-1600)"]}
{"id": "C81", "title": "Arrays and sequences keep their elements between Python and C++", "statement": "A numpy array passed where an array of some rank is expected arrives with the same shape and elements whatever its memory layout, or is refused when its rank or type is not supported; an array given to Python and back is unchanged; a list, tuple or range of numbers arrives as the vector of these numbers, and a sequence with anything else in it is refused.", "quantifier": "every shape, strides (negative, zero, permuted), base, type, content of memory, splitting of the iteration in chunks, and every sequence", "why_tests_cant": "Layouts are unlimited (slices, transposes, broadcasts, byte orders, empty extents) and the way numpy splits the iteration is its own choice.", "anchors": ["resources/python/src/nuSQUIDSpy.h (54-196)", "resources/python/inc/container_conversions.h (84-254)"]}
{"id": "C82", "title": "The example media and cross sections do what they say", "statement": "EarthMod multiplies the density of each table row by the factor of its layer, leaves composition, trajectories and the air alone, equals the factor times the standard Earth wherever all rows around the point share a layer, and calls of Mod do not accumulate; it can be saved and read back. The linear cross section's differential form integrates to its total, and its currents share a total proportional to the energy.", "quantifier": "every table, every factors, every sequence of Mod calls, every point of a trajectory, every energy", "why_tests_cant": "The interpolation mixes rows of neighbouring layers, tables may have any length, and the saved form depends on the length of another file.", "anchors": ["examples/Bodies/exBody.cpp:15-83", "examples/Bodies/exBody.h", "examples/Xsections/exCross.cpp:4-21", "examples/Xsections/exCross.h"]}
{"id": "C83", "title": "Neutrinos emitted by a medium reach the state, and only those of the current medium", "statement": "With sources enabled every evaluation of the evolution equation adds exactly what the current medium emits at the current position, for each energy, kind and flavour; with sources disabled or a medium that does not emit nothing is added; without interactions the sum over flavours grows by the amount emitted on the way.", "quantifier": "every sequence of enabling, disabling, changing the medium, evolving and reading from a file; every medium, position and number of flavours", "why_tests_cant": "The buffer of the emitted flux persists between calls; its contents and size depend on the whole history.", "anchors": ["include/nuSQuIDS/nuSQuIDS.h:1046-1061", "src/nuSQuIDS.cpp:278-285", "src/nuSQuIDS.cpp:374-428", "src/nuSQuIDS.cpp:1258-1291", "include/nuSQuIDS/body.h:133", "examples/Extended_Source/nu_source.h:23-40"]}
{"id": "C84", "title": "Python methods reach the C++ members they name", "statement": "Every method of the Python classes calls the C++ member of the same name; an array given as initial state reaches the member of its rank whatever the order of registration, other ranks and types are refused; each stepper constant selects the stepper of its name, for single objects and ensembles alike; a sequence of truth values arrives as these values, anything else is refused, and the flags an evaluation sets reach the caller.", "quantifier": "every class and method, every array, every enumeration value, every sequence", "why_tests_cant": "The bindings are a long hand-written table, and the overloads depend on order, rank and type.", "anchors": ["resources/python/src/nuSQUIDSpy.h:199-440", "resources/python/src/nuSQUIDSpy.cpp:27-66", "resources/python/src/nuSQUIDSpy.cpp:438-449"]}
{"id": "C85", "title": "Matrix tools of the library change bases and conjugate as named", "statement": "Changing the basis of M with U replaces M by U M U^dagger (UMUC) or U^dagger M U (UCMU), whether or not U and M are the same matrix; with unitary U each undoes the other and trace and hermiticity are kept; conjugation conjugates every entry once. No other matrix changes and nothing allocated stays behind; matrices whose sizes do not fit are refused.", "quantifier": "every heap, every pair of pointers including equal ones, every size and contents", "why_tests_cant": "Aliasing, sizes and contents of the uninitialised work matrix are unbounded.", "anchors": ["src/tools.cpp:137-207", "include/nuSQuIDS/tools.h:74-90"]}
{"id": "C86", "title": "Solar neutrino fluxes and survival probabilities are what the tables and the mixing imply", "statement": "The flux of a component at a radius and energy is the product of its two interpolated tables inside its limits and zero outside, never negative; radii outside the unit interval are refused and those inside are usable; the tables used are those of the files. The survival probability lies between the smallest and largest |U_ei|^2, does not depend on the choice of eigenvectors, and is the sum of |U_ei|^4 without matter. Its flux-weighted average lies between the bounds of the probability.", "quantifier": "every table, radius, energy, component, number of flavours, unitary mixing matrix, mass differences, eigensystem and integration rule that keeps inequalities", "why_tests_cant": "Eigenvectors are only determined up to phases and order; tables, mixings and densities are continuous.", "anchors": ["resources/user_contributions/SolarTransitions/SolarModel.cpp:6-78", "resources/user_contributions/SolarTransitions/SolarModel.h:18-80", "resources/user_contributions/SolarTransitions/SolarProbabilities.cpp:6-73"]}
{"id": "C87", "title": "Averaged oscillations", "statement": "With a scale below every oscillation phase the flavour read-out equals the textbook average over the masses, which is also what the example's own loop computes; with a scale above every phase it equals the ordinary read-out; for every scale the flavours add up to the total of the state and the masses are unchanged. Fully averaged fluxes lie between the smallest and largest initial ones, are the same for neutrinos and antineutrinos, and are the long-path mean of the oscillating read-out. For every scale a read-out of a flux that is nowhere negative is not negative, and the scale is respected in every basis.", "quantifier": "every number of flavours, mixing, phases, mass differences, energy, path length, scale, state and initial flux", "why_tests_cant": "Mixing, splittings, lengths and scale are continuous; partial averaging goes wrong only for particular ratios of mass splittings.", "anchors": ["src/nuSQuIDS.cpp:1526-1563", "include/nuSQuIDS/nuSQuIDS.h:774-801", "examples/Astrophysical_neutrino_flavor_ratio/main.cpp:96-171"]}
{"id": "C88", "title": "Python tools: SU(N) basis, printing and plotting", "statement": "The matrices of SUBasis are n*n hermitian matrices orthogonal in the trace, the first the identity and the others traceless with squares of trace two, so that every hermitian matrix is their sum with one set of real weights. The printing functions return the matrix of the vector they are given, at existing nodes only. GetStates returns the state of every node. Plots ask only for points the object covers.", "quantifier": "every number of flavours, vector, node, grid and number of points", "why_tests_cant": "The number of flavours and the vectors are unbounded; completeness of the basis is a statement about all matrices.", "anchors": ["resources/python/bindings/nuSQUIDSTools.py:19-73", "resources/python/bindings/nuSQUIDSTools.py:116-205", "resources/python/bindings/nuSQUIDSTools.py:207-307", "resources/python/src/nuSQUIDSpy.h:312-314", "include/nuSQuIDS/nuSQuIDS.h:1793-1802"]}
{"id": "C89", "title": "Files of old versions", "statement": "Reading a file written before bodies had names gives back the body, the path (forward or reversed) and the present position that were written, for every kind of body. Files with too few parameters or an unknown kind are refused with an exception. The old polarization-averaged tau spectra are given to neutrinos and antineutrinos below the diagonal, with zeros elsewhere, for tables of the size of the grid.", "quantifier": "every body, path, position, parameter list and table", "why_tests_cant": "No old files are part of the test suite, and the parameters are unbounded reals and lists.", "anchors": ["src/nuSQuIDS.cpp:2140-2166", "src/nuSQuIDS.cpp:2352-2374", "src/nuSQuIDS.cpp:2661-2683", "src/nuSQuIDS.cpp:2718-2777", "include/nuSQuIDS/body.h:105-121"]}
{"id": "C90", "title": "Evolutions are determined by their start, and fluxes evolve independently", "statement": "For non-negative cross sections and densities at most one evolution of all nodes starts from given states, whatever the work buffers of the object held before. Combinations of evolutions are evolutions of the combined states under the combined sources, so every read-out of a weighted sum of fluxes is the weighted sum of the read-outs. Without interactions and sources the purity of every state is kept in any medium; at the highest node without sources it never grows.", "quantifier": "every number of nodes and flavours, hermitian Hamiltonian, medium along the way, tables, states, weights and interaction flags", "why_tests_cant": "The claim is about all solutions of the equation and all states; a numerical solver only gives one approximate evolution at a time.", "anchors": ["src/nuSQuIDS.cpp:278-297", "src/nuSQuIDS.cpp:363-431", "src/nuSQuIDS.cpp:586-972"]}
{"id": "C91", "title": "Fluxes that are not negative stay so", "statement": "Set a state with no negative content (in any combination of flavours, not only the flavours and mass states) and evolve it through any medium, with oscillations, absorption, neutral-current, charged-current, tau-regeneration and Glashow interactions and sources that add nothing negative: no content read out later, of any flavour, mass state or combination of them, is ever negative, and the state stays hermitian. So the sign test that leaves out taus with no flux leaves out only zeros, non-negative fluxes add (evolving the sum gives the sum of the evolutions) without the condition on signs that general fluxes need, larger initial fluxes and sources give larger read-outs, and with the bin widths as weights the number of neutrinos never grows through neutral- and charged-current scattering when the spectra of secondaries weigh no more than one.", "quantifier": "for all numbers of flavours and nodes, mixing angles, phases, splittings, density profiles, interaction coefficients that are not negative, solutions of the equation on any interval, projectors", "why_tests_cant": "Positivity of a matrix for every projector and time under every medium is a statement about all solutions of a differential equation; runs sample a few media and read out only flavours.", "anchors": ["src/nuSQuIDS.cpp:278-297", "src/nuSQuIDS.cpp:363-431", "src/nuSQuIDS.cpp:586-972", "src/nuSQuIDS.cpp:1307-1440"]}
{"id": "C92", "title": "Transition probabilities in matter", "statement": "Without interactions, set fluxes by flavour, evolve through any density profile and read flavours: the result does not depend on the basis of the integration and is the sum over the initial flavours of flux times transition probability. The probabilities lie between 0 and 1, sum to one over the final and over the initial flavours (so equal fluxes stay equal). Going through the medium from the other end with the phases changed in sign gives the transposed probabilities; with no CP phases and a symmetric profile the probabilities are symmetric. Changing the sign of splittings, potentials and phases together changes nothing; dividing energy and path by x and multiplying the potentials with x changes nothing; with three flavours the neutral-current potential shows nowhere.", "quantifier": "for all numbers of flavours, mixing angles, phases, splittings, energies, density profiles, paths and solutions of the equation, in both bases", "why_tests_cant": "Identities between evolutions through arbitrary profiles; a run compares single profiles within integration error.", "anchors": ["src/nuSQuIDS.cpp:299-361", "src/nuSQuIDS.cpp:1307-1444", "src/nuSQuIDS.cpp:1512-1530", "src/nuSQuIDS.cpp:1602-1686"]}
{"id": "C93", "title": "A way in pieces", "statement": "Evolve over several bodies and tracks one after the other without setting the state again: on each leg the medium is met at the positions of that leg's track however late the clock is, the clock shows the total length, where the way ends is determined by where it began, any leg can be cut at any positions (or pieces joined) without changing any later state, with interactions and sources, also when the densities jump between legs, and positions of a body and its track can be shifted together. Fluxes that are not negative stay so over all legs.", "quantifier": "for all lists of legs, bodies, cuts, start clocks and states, numbers of nodes and kinds, with and without interactions", "why_tests_cant": "All divisions of all paths, with jumps of the medium, and exact equality of the states; runs compare a few divisions within integration error.", "anchors": ["src/nuSQuIDS.cpp:278-297", "src/nuSQuIDS.cpp:1196-1209", "src/nuSQuIDS.cpp:1233-1305"]}
{"id": "C94", "title": "What is read after any life of an object", "statement": "Take an object made without interactions and do anything to it: set bodies, tracks, parameters, switches, states, evolve, in any order, with calls that fail in between. After a state has been set and evolved along any legs, every flavour and mass content read at a node is the content of the solution of the von Neumann equation for the settings the object has now, the fluxes given, and the media along the legs at the right positions; nothing else of the past shows. So two objects with equal settings, fluxes and legs read the same numbers whatever their pasts and whatever basis each computes in, stopping on the way changes nothing, the contents add up to what was put in, are not negative and do not exceed it, before any leg they are those put in, and through vacuum they are those of the textbook formula. Changing the basis with Set_Basis while a state is set must not change what is read.", "quantifier": "for all histories of calls with their outcomes, all settings, media, fluxes, legs, nodes, kinds and flavours, both solution bases", "why_tests_cant": "All histories of an object, all media and legs, exact equality of what is read with the solution of the equation; runs compare a few prepared objects within integration error.", "anchors": ["src/nuSQuIDS.cpp:278-360", "src/nuSQuIDS.cpp:1233-1305", "src/nuSQuIDS.cpp:1325-1470", "src/nuSQuIDS.cpp:1510-1528", "src/nuSQuIDS.cpp:1602-1679", "src/nuSQuIDS.cpp:2896-2900"]}
{"id": "C95", "title": "What is read after any life of an object with interactions", "statement": "Take an object made with or without interactions and do anything to it: set bodies, tracks, parameters, switches, libraries, states, evolve, in any order, with calls that fail in between. After a state has been set and evolved along any legs, every flavour and mass content read at any node and kind is that of the solution of the coupled equation of all nodes and kinds: oscillation with the present parameters, loss at the inverse lengths of the media along the legs, gain from higher nodes by neutral-current scattering, tau decay and the resonance when switched on, and emission by the body when switched on; nothing else of the past shows. So two objects with equal settings and journeys read the same at a node and all above whatever was put in below; nothing read is negative if nothing put in or emitted is; stopping on the way changes nothing; without taus and sources what is read is linear in what is put in; without interactions and sources the answer is that of C94; and in steady matter without taus the answer exists and is unique.", "quantifier": "for all histories of calls with their outcomes, all settings, media, tables, emissions, fluxes, legs, nodes, kinds and flavours", "why_tests_cant": "All histories of an object, all media, tables and legs, and exact equality with the solution of a coupled equation; runs compare a few prepared objects within integration error.", "anchors": ["src/nuSQuIDS.cpp:278-431", "src/nuSQuIDS.cpp:441-489", "src/nuSQuIDS.cpp:586-972", "src/nuSQuIDS.cpp:1233-1305", "src/nuSQuIDS.cpp:1325-1470", "src/nuSQuIDS.cpp:1510-1528"]}
{"id": "C96", "title": "What is read from an ensemble of angles after any life", "statement": "Take a nuSQUIDSAtm made for any angles and energies and do anything to it through its own calls: parameters, switches, media, libraries, step sizes, threads, states, evolutions, in any order, failed calls in between. After a state has been set and the ensemble evolved any number of times, each node shows the solution of the coupled equation (C95) along the trajectory of its own angle, once per evolution, with the present parameters; and EvalFlavor anywhere inside the grids is the bilinear interpolation, in cosine and energy, of the four neighbouring solutions, each with the vacuum oscillation over its own trajectory and energy undone and that over the trajectory and energy asked for put in, times the number of evolutions. On the grid it is what the node itself reports, nothing read is negative if nothing put in or emitted is, and the equation settles the reading: an ensemble reads on its grid as a lone object of the same settings would.", "quantifier": "for all histories of calls of an ensemble with their outcomes, all angles, energies, media, trajectories, tables, emissions, fluxes, flavours, kinds and points inside the grids", "why_tests_cant": "All histories, grids and media, and exact equality with the interpolated solution of a coupled equation; runs compare a few ensembles at a few points within integration error.", "anchors": ["include/nuSQuIDS/nuSQuIDS.h: nuSQUIDSAtm::Set_initial_state (1224-1274)", "include/nuSQuIDS/nuSQuIDS.h: nuSQUIDSAtm::EvolveState (1277-1322)", "include/nuSQuIDS/nuSQuIDS.h: nuSQUIDSAtm::EvalFlavor (1332-1413)", "src/nuSQuIDS.cpp:278-431", "src/nuSQuIDS.cpp:586-972", "src/nuSQuIDS.cpp:1233-1305"]}
{"id": "C97", "title": "The progress bar", "statement": "With the bar off nothing is printed. With it on, a call prints one line at every hundredth look at the medium since construction, and a successful EvolveState one more at the end. Each line shows the part of the trajectory done: 70 places, as many signs of equality as whole seventieths, then the head if there is room, then blanks, and the whole percents, never less than at an earlier place of the way, empty at the start and full at the end. During an evolution that starts where its trajectory was set every line is between 0 and 100 percent, and the last is 100 percent. Get_DebugCounter is the number of looks since construction, in whatever way the object was used, shown or not.", "quantifier": "for all trajectories of non-zero length in either direction, positions on them, histories of calls, switchings of the bar, solvers that look between the ends of the step, up to the largest count an int holds", "why_tests_cant": "A test sees the lines of a few runs; that the lines are true at every place, monotone, and independent of what was called before, and that the count neither misses a look nor starts again, is about all histories. The count only overflows after two thousand million looks.", "anchors": ["src/nuSQuIDS.cpp:292-295", "src/nuSQuIDS.cpp:1287-1304", "src/nuSQuIDS.cpp:2787-2819", "include/nuSQuIDS/nuSQuIDS.h:484-489", "include/nuSQuIDS/nuSQuIDS.h:1028"]}
{"id": "C98", "title": "Saves and loads give the file back", "statement": "Whatever the HDF5 library answers, a save of an object or of an ensemble, succeeding or failing at any point, leaves open no file, group, dataset or attribute it opened, closes everything once, and closes nothing it did not open; so do the writers of cross-section files, and, when they succeed, all loads and readers. A load that fails does the same if the media read with checked attributes and the user's hook does not throw. A program that saves and loads any number of times, going on after failed saves, holds afterwards only the files it held before and can write over any of them. What a successful save does leave open is one datatype for each name and description written: 2, and 11 with the tables.", "quantifier": "for all answers of the library to all calls, all media, trajectories and user hooks that give back what they take, all numbers of flavours and nodes, file layouts, and sequences of saves, loads, table reads and writes", "why_tests_cant": "A test makes calls fail at a few places; here any subset of the calls may fail, at any point of any sequence, and the media and hooks are arbitrary code.", "anchors": ["include/nuSQuIDS/tools.h:257-418", "src/tools.cpp:804-842", "src/body.cpp:53-117", "src/body.cpp:138-765", "src/nuSQuIDS.cpp:52-73", "src/nuSQuIDS.cpp:1685-2068", "src/nuSQuIDS.cpp:2078-2712", "include/nuSQuIDS/nuSQuIDS.h:1511-1603", "src/xsections.cpp:381-587", "src/xsections.cpp:767-806"]}
{"id": "C99", "title": "Questions with any double", "statement": "Whatever double is asked for - also infinities and NaN - and whatever the tables hold, splines, interpolators and the atmospheric evaluation read inside their tables; a number gets the interval it belongs to, with the first and last standing for all beyond; a number outside of an evaluation's range is refused; a spline returns the tabulated values at its nodes to the bit; and what is not a number is never answered by a number.", "quantifier": "every binary64 double, every table of doubles, sorted or not, with at least two nodes", "why_tests_cant": "Comparisons with NaN are false, so a range check written with < and > lets it pass; tests use numbers and sorted tables, and compare spline values with a tolerance.", "anchors": ["include/nuSQuIDS/tools.h: AkimaSpline (145-186)", "src/tools.cpp: AkimaSpline::initialize (212-304), BiCubicInterpolator (393-477), TriCubicInterpolator (774-800)", "include/nuSQuIDS/nuSQuIDS.h: nuSQUIDSAtm::EvalFlavor (1332-1503)", "src/nuSQuIDS.cpp: EvalMass, EvalFlavor (1455-1508)", "src/body.cpp: density and ye of VariableDensity, Earth, Sun, SunASnu, EarthAtm", "src/xsections.cpp: TotalCrossSection, SingleDifferentialCrossSection (199-246), V1 (605-633)"]}
{"id": "C100", "title": "Cross sections of files of every version", "statement": "A state file with interactions is read whatever version wrote it: every total and differential cross section is afterwards found in memory, padded or not, under the indices it has in the file; a file from before there were several targets gives the isoscalar nucleon as the only target, and its spectra of the tau, stored once, serve neutrinos and antineutrinos, below the diagonal. A file that lacks a table, whose spectra of the tau have another rank, or whose tables have another number of items than the grid asks for, is refused.", "quantifier": "for all numbers of targets, kinds, flavours and energies, with and without padding, all contents of the tables and all files, complete or not", "why_tests_cant": "Old files are not written any more, tests have none; whether a table that does not fit is noticed depends on the number of energies modulo four, and a write past the end of an array need not show.", "anchors": ["src/nuSQuIDS.cpp:259-276", "src/nuSQuIDS.cpp:2467-2688"]}
{"id": "C101", "title": "Which data files are read", "statement": "Data is looked for under NUSQUIDS_DATA_PATH if it is set, else under the installed or the source directory. Given a path, NeutrinoDISCrossSectionsFromTables reads an HDF5 file of that name; otherwise a complete set of eight text files with that prefix serves all flavours; otherwise the three complete sets of the flavours; otherwise it throws. All tables read cover exactly the energy range the object reports. What WriteText writes is what a new object constructed with the same prefix reads, whatever other files there are. The old class does likewise with its four files. The default library has protons, neutrons and electrons and nothing else.", "quantifier": "all file systems, prefixes, tables, orders of the flavours, settings of the environment", "why_tests_cant": "Tests use one directory with one layout; other files under the same prefix, directories, incomplete sets and tables of other ranges are never there.", "anchors": ["src/xsections.cpp:169-197", "src/xsections.cpp:269-378", "src/xsections.cpp:471-527", "src/xsections.cpp:698-725", "src/xsections.cpp:759-795", "src/xsections.cpp:811-845", "src/xsections.cpp:911-925", "src/resources.cpp:8-15", "src/tools.cpp:38-42"]}
{"id": "C102", "title": "Valid cross-section tables make valid tables of interactions", "statement": "If the proton and neutron tables have data for the three flavours and cover the energy grid of a nuSQUIDS object, initializing the interactions succeeds, whatever the library holds for other targets. Every total of an active flavour is then positive: the cross section itself at the first node, elsewhere between the least and the greatest cross section in the bin ending there (to one part in 10^15). Every spectrum entry below the diagonal is positive and is such a mean of the differential cross section over the outgoing bin, divided by the total of the incoming node. With the default library this holds for neutrinos, antineutrinos or both and with the resonance on electrons or without, and the spectra of the resonance are numbers. If an energy lies beyond the tables of either nucleon, initialization fails.", "quantifier": "all tables, energy grids, numbers of flavours, kinds of neutrinos, previous contents of the arrays; all sufficiently large bounds on the turns of the adaptive integration", "why_tests_cant": "Tests use the shipped tables with a few grids; that the adaptive averages end, are never refused and never give zero or negative totals to divide by is a claim about all tables and grids.", "anchors": ["src/nuSQuIDS.cpp:991-1194", "src/xsections.cpp:50-108", "src/xsections.cpp:190-267", "src/xsections.cpp:912-924"]}
{"id": "C103", "title": "Attenuation and neutral-current feeding in matter from the cross-section tables", "statement": "With interaction tables made from valid proton and neutron cross-section tables, the attenuation of every active flavour in the evolution is positive in matter of positive density, whatever its electron fraction. At the first node it is half the densities times the cross sections there, plus the resonance on electrons. At every other node, without the part of the resonance on electrons, it lies between half the densities of protons and neutrons times any lower bounds and times any upper bounds of their charged- and neutral-current cross sections over the bin ending there (to one part in 10^15). So without the resonance it is at most in proportion to the mass density, over the mass of the lighter nucleon, and to the largest cross section in the bin. Without matter it is zero, and in matter of a given composition it is proportional to the mass density. In matter of positive density, without tau decays, resonance and sources, with oscillations or without, neutral currents feed a flavour at a node exactly if there is some of it at a higher node, and never take any away.", "quantifier": "all cross-section tables, energy grids, kinds of neutrinos, flavours, nodes, mass densities, electron fractions between 0 and 1, previous contents of the buffers", "why_tests_cant": "Tests propagate through a few bodies with the shipped tables; that no density, composition, flavour or energy gives a vanishing, negative or too large attenuation is a claim about all of them.", "anchors": ["src/nuSQuIDS.cpp:363-372", "src/nuSQuIDS.cpp:586-653", "src/nuSQuIDS.cpp:991-1194", "src/xsections.cpp:190-267"]}
{"id": "C104", "title": "Neutral-current interactions do not create neutrinos", "statement": "If the neutral-current cross sections are such that every interaction gives one neutrino (the spectrum integrates to the total cross section at every energy, and the averages are exact), then with the tables of interactions made from them, for each interacting neutrino of a node at most one comes out in the bins ending at the lower nodes. What does hold: at most the cross section at the node over its mean in the bin ending there, hence at most one where the cross section at the upper end is not above the mean.", "quantifier": "all such cross sections, energy grids, targets, flavours, particles and nodes", "why_tests_cant": "Tests compare fluxes with stored results for one set of cross sections and fine grids; the number coming out depends on the grid and the growth of the cross section and exceeds one by an amount that fine grids hide.", "anchors": ["src/nuSQuIDS.cpp:1045-1194", "src/nuSQuIDS.cpp:675-707"]}

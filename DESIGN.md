# Formal model of nuSQuIDS: design

Everything is in Rocq (Coq 8.16.1) under `rocq/theories`. The code in /repo was read as text; it was never built or run.

## Trusted base

* Coq's kernel (and `coqchk`).
* Axioms: only those of Coq's standard library, listed per theorem by the `Print Assumptions` lines in the
  `*Props.v` files. Theorems over integers and lists are closed under the global context. Theorems over the real
  numbers use the standard library's construction of the reals
  (`ClassicalDedekindReals.sig_forall_dec`, `ClassicalDedekindReals.sig_not_dec`,
  `FunctionalExtensionality.functional_extensionality_dep`), and those that use derivatives or integrals may also
  list `Classical_Prop.classic`.
* Flocq (rounding to nearest and its error) is imported by `DblReal.v` to give doubles a value. It adds no axiom of its own.
* The reading of the C++ code: each definition cites the file and lines it models and says what it leaves out.

## Conventions

* `Err.v` has the outcome type: `Ok v`, `Throw e` (a C++ exception) and `UB` (undefined behaviour). UB is never
  identified with a result.
* Sizes and indices are `nat` or `Z`. Wrap-around (`mod 2^32`, `mod 2^64`, conversion to `int`) is written out where the
  property is about it and left out elsewhere; each definition says which.
* `double` is modelled by the real numbers `R` where the property is about values. Rounding, NaN and infinities are not modelled
  unless a definition says so (`DblModel.v`, C99, is about them). Theorems on floating point code are therefore theorems about the exact arithmetic the code
  approximates.
* External libraries (SQuIDS, GSL, HDF5, the system allocator, libstdc++) are modelled by their contract: a parameter of
  the definition (a section variable that is generalised when the section closes), or a small abstract store.
* File layout per area: `XModel.v` (definitions only), `XProofs.v` (lemmas), `XProps.v` (the property theorems, each
  `exact lemma`, with a non-vacuity `Example` and `Print Assumptions`).
* A property that is false of the code as written gets a theorem `..._refuted` with a witness, and a theorem under the extra
  hypothesis that makes it true.

## Plan by property

| id | what is modelled | how |
|----|------------------|-----|
| C01 | marray subscript chain and index container loops | induction on extents; container form needs trailing strides < 2^31 (the accumulator is an `int`), refuted without |
| C02 | `getCoordinate` div/mod loop | induction, inverse of row-major offset |
| C03 | constructors as functions to an outcome | induction on nesting |
| C04-C05 | insert/erase as the three segment loop over a flat list; resize on top; the exception path on a memory of constructed/moved/raw cells | list segment lemmas, induction on iterations |
| C06 | `reshape` with the 32-bit accumulator written out | proof below 2^32, refutation above |
| C07 | odometer loops of `sum(dim)` and `sum_same_rank` | loop invariant over the odometer |
| C08 | `applyOp` odometer | loop invariant; spec by index functions |
| C09 | scalar operators | elementwise; division scalar/array refuted |
| C10 | heap of buffers, variables own buffers | refinement to a map of values, induction on histories |
| C11 | address arithmetic, 8-bit offset byte | `mod`/`land` arithmetic; refuted for alignment 2^8 |
| C12-C13 | transition system of workers, queue, lock | invariants over all executions; progress measure |
| C14 | the loops, over R | induction |
| C15 | reader on token lists | induction; blank-line clause refuted |
| C16 | coefficients and evaluation over R | field/derivative reasoning |
| C17-C18 | cell lookup and cubic patches over R | node values; refuted cross derivative of TriCubic |
| C19-C20 | interval rules, work stack, sign handling | algebra; invariants on the stack |
| C21 | handle histories | ownership invariant |
| C22 | flat writer/reader, chunk shape loop | list lemmas |
| C23-C25 | chord geometry over R | nonlinear real arithmetic |
| C26-C27 | serialization as attribute lists; registry as association list | round-trip lemmas, refutations |
| C28-C30 | spectra, resonance formula | antiderivatives and the fundamental theorem |
| C31-C32 | table lookup arithmetic | floor arithmetic; refuted at the upper edge |
| C33-C34 | writer/reader with flavour aliasing; library map | round trip; refutation |
| C35 | `GetTargetNumberDensities` | field |
| C36-C37 | pointer arithmetic of the cache | arithmetic mod 4/8 |
| C38-C42 | the sums of `UpdateInteractions`, `InteractionsRho`, `HI` | sums over finite ranges; refutations |
| C43-C49, C51, C52, C61, C63, C66, C67 | object as a record of flags, settings, buffers sizes; every public call as a transition with an outcome and events (questions to the medium, tables used, integrator calls); the integrator and the density-matrix algebra are parameters | invariants on histories; refutations |
| C50 | CP sign loop | involution |
| C54, C72 | file as a list of groups with attributes, data sets and the stored body and track; the object as a record of everything the writer and reader touch; bodies and tracks through their own codec (C21, C64) | label decoding, round trip of rows with padding, refutations by running the model |
| C53 | tables as extents and items of any type with any comparison | case analysis, induction over the items |
| C55, C68-C71 | complex matrices of any dimension; mixing as a product of rotations; read-out as traces; the evolution equation through derivatives of its solutions | finite sums, unitarity, mean value theorem, change of basis under the derivative, induction over layers |
| C56-C57 | the main thread, the pool (C12) and node tasks split into any small steps; every interleaving | erasure to the pool, invariant on the nodes, progress and step bound; refuted for exceptions |
| C58 | the bisection of libstdc++, the lookup and the interpolation, on matrices | sorted list lemmas; bilinear form; equality with EvalFlavorAtNode at nodes; exactness in vacuum |
| C59 | six-decimal names, the writing and reading loops over the files of C54 | injectivity of the names when nodes differ by more than 1e-6, frame of every write, induction over the nodes; refuted for closer nodes |
| C60, C62, C73, C74 | the ensemble as a list of the objects of C43 with its own flags; every public call as a transition | nodes kept alike by induction over histories; refutations |
| C64 | solar chords over R | nonlinear real arithmetic; refutation |
| C65 | interaction lengths, `GammaRho` | sums over finite ranges |
| C75 | the arrays as a store in which every entry is written or not; the library as a map from targets to functions with an outcome | what each loop writes and leaves, composed over the loops; exact row sums by telescoping; refutations |
| C76 | `PosModel.v`: the loop over matrices, nodes and flavours, the stored projectors (basis, oscillations, filter) | the content of each flavour after the loop by linearity and orthonormality of the projectors, induction over the flavours; other nodes by a frame lemma |
| C77 | `DecohModel.v`: the rate matrix and its setters, the map from the Gell-Mann order, the three models, `DRho`, `InteractionsRho`, when SQuIDS asks for it; components of a state in SQuIDS's generators with any normalisation | rates set are rates read by a loop invariant; a damping diagonal in the components as an operation on matrix elements; contents through a unitary frame |
| C78, C79 | `ExtModel.v`: constructors, setters, `AddToPreDerive`, the term of `HI`, reading and writing of parameters of the two extensions; calls of the second as a history | the operator between the flavour states as read: rotation and evolution cancel by unitarity for every angle and time; invariant over all histories of calls (operator = last one given, rotated with the angles in use, while the flag is set) |
| C80 | `QueryModel.v`: read-outs and initialisers | Outcome of each read-out by cases (value, exception, element outside of the arrays read), over objects built by the initialisers; SQuIDS's own expectation values are parameters. |
| C81 | `PyModel.v`: conversions of arrays, vectors and sequences | numpy arrays as shape, strides and memory; the C-contiguous flag proved to give row-major addresses; the iterator by its contract; sequences by what iterating them gives. |
| C82 | `ExampleModel.v`: EarthMod (table weighted by row number, Mod, saved form with the array size of the PREM) and LinearCrossSections, over reals | `ExampleProps.v`: node property and locality/linearity of Akima splines (C16), induction over Mod calls, C26 for the saved form, integrals by antiderivative |
| C83 | `SourceModel.v`: Set_NeutrinoSources, the buffer of the emitted flux, PreDerive, what InteractionsRho adds, reading from a file, the shortcut; EmittingVacuum | `SourceProps.v`: invariants over all histories; growth of the contents from the rates of C68 |
| C84 | `PyBindModel.v`: the table of bindings of all classes outside SQuIDS, resolution of overloads by boost.python's rule, stepper wrappers, sequences to vectors of bool, wrappers of EvalFlavor | `PyBindProps.v`: computation over the whole table, induction over lists of overloads and sequences |
| C85 | `MatToolsModel.v`: the complex matrix tools of tools.cpp over a heap of matrices; GSL's copy and product by their manual, error handler ends the program | `MatToolsProps.v`: execution of the calls on symbolic heaps, loop invariants for the conjugation, matrix algebra of `CMatrix.v` |
| C86 | `SolarModel.v`: the tables (GSL linear interpolation), nuFlux, densities, Hamiltonian, sorting of the eigensystem (GSL's selection sort), probability and averages; GetEigenSystem and the quadrature are parameters, eigenvectors only required to be orthonormal eigenvectors | `SolarProofs.v`: selection sort by invariant, uniqueness of sorted eigensystems up to phases; `SolarProps.v` |
| C87 | `AvgModel.v`: averaged evolution by SQuIDS' documented contract, EvalFlavor/EvalMass with a scale, the loop of the example | `AvgProofs.v`: element-wise value, weighted means, primitive of the oscillating terms; `AvgProps.v` |
| C88 | `ToolsModel.v`: the array functions of nuSQUIDSTools.py with numpy shapes and types, printing, method table, casts of the bindings, GetStates, sample points of the plots | `ToolsProofs.v`: closed form of the matrices by induction on the dimension, traces, a matrix orthogonal to all is zero; `ToolsProps.v` |
| C89 | `LegacyModel.v`: numbers and parameters of bodies and paths, SetBodyTrack, old tau spectra, with reads past the end as undefined behaviour | `LegacyProps.v`: round trips per kind; block reads by induction |
| C90 | `SuperModel.v`: the equation of all nodes together, from the terms of `IntModel.v` and the equation of `FlavorModel.v`; SQuIDS's vectors by a contract (components, sum, multiple, scalar product) | `SuperProofs.v`: the size of a difference of solutions cannot grow (hermitian Hamiltonian, positive absorption); `SuperProps.v`: uniqueness by induction from the highest node down, linearity of all loops, superposition |
| C91 | The equation of all nodes of `SuperModel.v`/`IntModel.v`, nothing new | `PosProofs.v`: induction along an interval; a matrix equation with a hermitian Hamiltonian, positive absorption and positive gain keeps positive matrices positive (shifted by a growing multiple of the identity, the first time it fails would be a contradiction); `PosProps.v`: by induction from the highest node down every node stays positive; tau skip test, superposition, monotonicity and the weighted number follow |
| C92 | The equation and read-out of `FlavorModel.v`, nothing new | `TransProofs.v`: coherent evolutions transposed, conjugated, rescaled; the trace of the product of two solutions is constant; `TransProps.v`: all bases reduced to the mass basis, then reversal, reciprocity, sums and scaling |
| C93 | `LegModel.v`: legs (body and track), time_offset, the clock; the equation of `SuperModel.v` on each leg | `LegProps.v`: uniqueness of C90 leg by leg, induction over the legs and over the cuts |
| C94 | `EndModel.v`: the stored numbers of `StateModel.v` read as density matrices, what Set_initial_state makes of fluxes, the equation handed to SQuIDS with the stored projectors and H0, the read-out; contract `exact`: SQuIDS solves that equation exactly (oscillations on; no interactions, sources, positivity or constant-density shortcut) | `EndProps.v`: invariant `on_way` over all histories (stored quantities belong to the settings, state in the mass basis is where the journey leads), uniqueness of the journey's end |
| C70 | `ShortModel.v`: the constant-density shortcut on the objects of `EndModel.v`; contract `exact_const`: UTransform takes each matrix along von Neumann's equation of the Hamiltonian asked at the end of the leg | `ShortProps.v`: invariant over all histories (`layers_on`), `ExpProofs.v`/`FlowProofs.v`: existence of the solution for a constant Hamiltonian (exponential series), used also to build an exact surrounding in matter (`rock_env`) |
| C95 | `FullModel.v`: the object of `StateModel.v` with the whole right-hand side of `SuperModel.v` (absorption, regeneration, sources, all nodes and kinds together); numbers of the interaction structure (`tab`), emission of a body (`emission`) and SQuIDS's vectors (`mat_of`, `dot`) are parameters; contract `exact_all`: SQuIDS solves the equation it is given exactly, oscillations on, no positivity enforcement or constant-density shortcut; that a body's emission may look at the object is left out | `FullSpec.v` states the coupled equation by hand (loss, gain, medium, stages) without the code's buffers; `FullProofs.v`: the equation handed over is that one in the basis in use (`slope_terms`, `slope_home`), invariant over all histories (`passed_on`); `FullProps.v`: reading, same answer from a node up, non-negative, agreement with C94; `FullExist.v`, `FullExistProps.v`: a solution exists in steady matter without taus (power series of a bounded linear map), uniqueness, stopping, superposition, an exact integrator and a life with interactions and resonance |
| C96 | `AtmLifeModel.v`: EvalFlavor of `AtmEvalModel.v` asked of the ensemble of `AtmModel.v`, whose nodes are the objects of C95; the trajectory a medium gives an angle (`tracks`) is a parameter; contract `exact_all` as in C95; no random production height, no node changed behind the ensemble's back | `AtmLifeSpec.v`: crossings told by the calls, the equation along each angle, the interpolation; `AtmLifeProofs.v`, `AtmLifeProofs2.v`: what each call does to each node, invariant over all histories; `AtmLifeProps.v`: nodes, reading, settled by the equation, on the grid, non-negative, as a lone object; `AtmLifeCase.v`: an ensemble with interactions, set and evolved |
| C97 | `ProgModel.v`: ProgressBar, when PreDerive and EvolveState draw it, its counter, over the events of `StateModel.v`; the characters between the brackets and the number, not the stream; conversions to int undefined outside int | `c97_line`, `c97_advance`, `c97_ends` for one line, induction over `session` (history with switchings) for the counter, over the events of a call for what is printed; where an evolution looks comes from C48 and a contract that the solver stays in its step (`asks_inside`) | refuted: a second evolution without a new trajectory passes 100 %, a trajectory of no length is undefined, the counter overflows even when off. With positivity enforced what an evolution prints is not stated |
| C98 | `HidModel.v`: which identifiers are open, through every H5 call of saves, loads, table files and their helpers; an oracle answers every library call (and stands for throwing constructors and setters), H5LT calls are plain questions (they close what they open); a file is held while it or an object in it is open, and cannot be truncated while held; values read and written are in C49-C59, not here | an invariant `bal` (open as before plus new identifiers of other kinds, nothing closed wrongly) closed under the combinators, a list of identifiers still owed (`owns`) for the helpers written by hand, induction over nodes and sessions; exact number left by `adds` | refuted: datatypes of strings are never closed, a throwing Serialize, a throwing AddToReadHDF5, an unreadable attribute and a table of another rank keep the file open |
| C99 | `DblModel.v`: searches, splines, interpolation cells, checks of ranges, media and tables with binary64 doubles (`spec_float` of Coq's library, IEEE operations rounded to nearest even); log, pow, exp, cell coefficients and SQuIDS's traces are parameters | `DblSpec.v`: order of doubles, the interval a number belongs to; `DblProofs.v`: the order by sign, exponent and mantissa, the bisection of libstdc++ by induction, what NaN does in each place; `DblProps.v` |
| C100 | `OldXsModel.v`: the reading of cross sections and tau spectra (nuSQuIDS.cpp:2467-2688), old and new layout, with what HDF5 does when buffer, array and dataset do not fit (taken from its documentation: extents written however short the buffer, whole reads however short the array, selections of different size refused) | indices by hand (`offset`); `c100_old`, `c100_new` place every item, `c100_file`: on files `FileModel.v` reads both models agree; files that do not fit one by one | refuted: without padding (number of energies divisible by four) short tables are read and long ones overrun the array; a table with targets in a file that says it is old overruns the buffer of extents |
| C101 | `XsChooseModel.v`: a file system as a map from names to contents, getResourcePath and default paths, isHDF, ReadText/WriteText and constructors of both classes of tables, the default library; on top of the tables of C33 | names by particle, quantity and interaction (`file`), complete sets (`whole_set`), a table and the range of its file by rows (`total_of`, `diff_of`); layout and range by inversion of the reader, writing and reading back with any other files present by a frame argument over names, in any order of the flavours |
| C102 | `DisTabModel.v`: the four functions of tabulated DIS cross sections (C31, C32) with averages by fastInt (C20), and the resonance on electrons (C30) with those of the base class, as the library from which the tables of interactions (C75) are made; integrands that throw count as zero, the theorems are about energies where none does | conditions on tables and grid (`tabulated`, `grid`), bounds of the cross sections over a bin; quadrature of positive functions is positive, finitely many integrations end in finitely many turns, the tables depend on the values at the nodes only |
| C103 | no new model: the tables of C102 read by UpdateInteractions and GammaRho (`IntModel.v`, C65) with target densities from mass density and electron fraction (C35); two targets, that is without the isoscalar averaging | `reads` and `same_setting` say that both halves mean the same arrays; the attenuation is the component of GammaRho along one flavour, bounded by densities times bounds of the cross sections; the neutral-current source (C38) is positive exactly below some flux |
| C104 | no new model: the tables of `XsTabModel.v` (C75) for an abstract object of cross sections | `one_for_one`: spectrum and total have antiderivatives which agree, averages are exact; `coming_out`: entries of a row times the widths of their bins, which C41 shows is the yield of an interaction; sums telescope, mean value theorem; a grid of three nodes refutes the claim itself |

Nothing is planned as "not applicable". What is not modelled: performance, rounding error, numerical integrator accuracy
(GSL/SQuIDS), Python bindings other than the conversion of arrays and sequences (C81) and the table of bound functions (C84), build system.

## Findings

Properties that the code does not have. Each has a `..._refuted` theorem with a concrete witness.

| theorem | file | what happens |
|---------|------|--------------|
| `c01_container_large_refuted` | marray.h | index containers accumulate strides in an `int`; past 2^31 two tuples no longer map as specified |
| `c03_wrap_refuted` | marray.h | the size check multiplies extents modulo 2^64, so an empty range is accepted for a 2^32 x 2^32 array |
| `c05_insert_large_refuted` | marray.h | insert computes its iteration count in 32 bits |
| `c06_large_refuted` | marray.h | reshape compares totals in 32 bits |
| `c09_scalar_div_refuted`, `c09_alias_refuted`, `c09_compound_shapes_refuted` | marray.h | `scalar / array` computes `array / scalar`; `a += a[i]` reads a value it has just overwritten |
| `c10_mixed_allocators_refuted` | marray.h | move assignment takes the storage of an array whose allocator cannot free it |
| `c11_large_alignment_refuted` | aligned_alloc.h | the offset byte wraps from alignment 2^8 on; `deallocate` then frees a wrong address |
| `c12_zero_workers_refuted` | ThreadPool.h | a pool of size 0 accepts tasks and never runs them |
| `c15_blank_between_refuted`, `c15_blank_last_refuted`, `c15_precision_refuted` | tools.cpp | quickread: a blank line between rows throws, trailing blank lines give an N x 0 array; 15 digits do not round-trip |
| `c16_kink_refuted` | tools.cpp | the Akima spline can have a kink at a node |
| `c18_tall_refuted` | tools.cpp | TriCubicInterpolator reads past a slice when there are more y than x coordinates |
| `c18_dydz_refuted`, `c18_product_refuted` | tools.cpp | the mixed y-z derivative is not the derivative of the patch, products of lines are not reproduced |
| `c19_supplied_ends_reversed_refuted` | AdaptiveQuad.h | end values given in argument order are attached to the wrong ends when a > b |
| `c20_sign_ignored_refuted` | xsections.cpp | the agreement check of fastInt compares magnitudes, so -2 agrees with 2 |
| `c21_files_refuted` | tools.h | H5File keeps negative identifiers and closes identifiers 0 and -1 |
| `c22_empty_refuted` | tools.h | writing a compressed array with an empty dimension divides by zero |
| `c22_rank_leak_refuted` | tools.h | readArrayH5 leaves two identifiers open when the rank is wrong |
| `c22_empty_string_refuted` | tools.cpp | an empty string attribute reads back as one NUL character |
| `c24_surface_refuted` | body.cpp | EarthAtm looks its table up at the fraction of radius plus atmosphere, so the documented surface value 1 is not reached at the detector |
| `c24_reported_cosine_refuted`, `c26_atm_track_refuted` | body.cpp | MakeWithCosine does not store radius and height: wrong parameters reported and serialized, lengths change on re-reading |
| `c26_atm_reversed_refuted` | body.cpp | a reversed atmospheric trajectory is read back forwards |
| `c26_sunasnu_refuted`, `c64_vector_sun_refuted` | body.cpp | SunASnu has radius 694439 km from a file and 695980 km from vectors (also on re-reading); trajectories always use the first |
| `c26_sunasnu_track_refuted` | body.cpp | SunASnu trajectories lose the impact parameter: the final position is read as one |
| `c27_empty_refuted` | body.cpp | the registry is a null pointer until the first registration |
| `c29_above_refuted` | taudecay.cpp | leptonic table entries above the tau's energy are negative (the propagation only uses those below) |
| `c29_type_refuted` | taudecay.cpp | the particle type argument of the table accessors is not checked |
| `c31_total_top_refuted` | xsections.cpp | V1 total cross section at exactly Emax passes the range check and reads one element past the table |
| `c31_single_low_refuted` | xsections.cpp | V1 differential cross section with an outgoing energy a cell or more below the table converts a negative number to an unsigned index |
| `c33_hdf_muon_refuted`, `c33_hdf_tau_refuted` | xsections.cpp | WriteHDF never writes muon tables (`if(true \|\| ...)`): muon, and tau when shared with muon, come back as electron |
| `c33_hdf_shape_refuted` | xsections.cpp | tables with different numbers of energies and fractions can be written but not read: the reader wants the dimensions in the other order than the interpolator |
| `c33_hdf_rounded_refuted` | xsections.cpp | all numbers, the energies included, are stored in single precision |
| `c33_text_transposed_refuted`, `c33_text_bounds_refuted` | xsections.cpp | WriteText indexes the differential tables [energy][fraction] while they are [fraction][energy]: transposed, or read past the end |
| `c33_v1_hdf_grid_refuted` | xsections.cpp | the V1 HDF5 format does not store the energies; other than log-uniform ones are replaced |
| `c35_vacuum_refuted` | nuSQuIDS.cpp | with isoscalar cross sections a vacuum (or any density below the floor) is given Na*1e-10 targets per cm^3 |
| `c35_isoscalar_mass_refuted` | nuSQuIDS.cpp | with isoscalar cross sections the number of nucleons ignores the electron fraction |
| `c36_reuse_refuted` | nuSQuIDS.cpp | the interaction cache is kept when only the number of flavours changed (by reading a state file); it is then too small |
| `c38_sources_twice_refuted` | nuSQuIDS.cpp | without oscillations and with both neutrino types external sources are added twice (the loop sits inside the loop over types) |
| `c38_stale_projectors_refuted` | nuSQuIDS.cpp | switching oscillations off after an evolution leaves energy-dependent projectors; those of node 0 are used for all energies |
| `c41_mixture_refuted` | nuSQuIDS.cpp | regeneration multiplies the summed interaction length by the target's number fraction, not by its own share: wrong for targets with different cross sections |
| `c42_neutron_matter_refuted`, `c42_continuity_refuted` | nuSQuIDS.cpp | below electron fraction 1e-10 the neutral-current potential has the wrong sign and twice the size |
| `c42_hamiltonian_mass_basis_refuted` | nuSQuIDS.cpp | GetHamiltonian contains the vacuum part twice in the mass basis |
| `c45_late_tau_refuted`, `c45_late_glashow_refuted` | nuSQuIDS.cpp | switching tau regeneration or the Glashow resonance on after interactions were initialised leaves their buffers unsized: the next evolution writes out of bounds |
| `c46_tables_stay_refuted`, `c46_new_library_refuted` | nuSQuIDS.h/.cpp | a new cross-section library is ignored once the tables exist |
| `c47_offset_refuted` | nuSQuIDS.cpp | with positivity on the evolution runs for the end position instead of the length of the trajectory (last step is `fin - scale*n`) |
| `c47_single_unset_refuted` | nuSQuIDS.h/.cpp | positivization_scale is never initialised for objects with one energy |
| `c48_again_refuted` | nuSQuIDS.cpp | evolving again without a new trajectory asks the medium beyond the trajectory's end |
| `c49_second_refuted`, `c49_forward_refuted` | nuSQuIDS.cpp | the step sign is flipped at each evolution of a reversed trajectory and not restored |
| `c51_boundary_refuted` | nuSQuIDS.cpp | parameter setters accept an index equal to the number of flavours |
| `c52_ctor_refuted`, `c52_ctor_evolve_refuted`, `c52_assign_refuted` | nuSQuIDS.cpp | moves do not carry time_offset: uninitialised after construction, the destination's old one after assignment |
| `c61_sticky_refuted` | nuSQuIDS.cpp | after the constant-density shortcut numerics stay off: later evolutions in varying media do nothing |
| `c63_interactions_refuted` | nuSQuIDS.cpp | a failed interaction initialisation leaves an empty structure that the next one takes for complete: out-of-bounds read |
| `c66_late_refuted` | nuSQuIDS.h/.cpp | switching oscillations after setting the state leaves the old vacuum Hamiltonian in use |
| `c67_new_refuted`, `c67_interactions_refuted` | nuSQuIDS.cpp | GetHamiltonian on an object without trajectory or interaction tables dereferences null |
| C53 | Copies, moves and assignments of an interaction structure lose the list of targets (nuSQuIDS.h:210-232, 280-292): a copied structure makes every loop over targets empty, so all interactions vanish. `operator==` ignores targets and extents. | `c53_targets_refuted`, `c53_equal_blind_refuted` |
| C70 | Crossing a layer of varying density and then one of constant density (or the other way round) without setting the state again gives wrong flavour contents: the shortcut takes the matrix of the interaction picture for one in the mass basis, and it leaves the numerics switched off. Half an oscillation in each layer should return all the flux; none is seen. | `c70_effective_length`, `c70_layers_refuted` |
| C54 | Writing the tables of any object with interactions evaluates `dNdE_GR.extent(4)` on an array of rank 2 (nuSQuIDS.cpp:1945): undefined behaviour. If the value found is the number of energies while rows are padded, the differential tables are written with the padding and come back shifted. | `c54_tables_refuted`, `c54_scrambled_tables_refuted` |
| C54 | The basis in which the density matrix is kept is not stored. After the constant-density shortcut (mass basis) a saved electron neutrino is read as having no electron content. | `c54_basis_refuted` |
| C54 | A state with one energy and both types, and a state with interactions saved without tables, can be written but not read. | `c54_one_energy_both_refuted`, `c54_unsaved_tables_refuted` |
| C54 | Reading a single-energy state into an object already initialised with fewer flavours writes past its density matrices. | `c54_reused_object_refuted` |
| C72 | After ReadStateHDF5 the rows of `nc_factors` have the length of the energy grid, not rounded up, yet their alignment is promised to the compiler (nuSQuIDS.cpp:2690 and 878-879). | `c72_read_aligned_refuted` |
| `c56_failing_refuted` | nuSQuIDS.h | when a node's evolution throws, one thread leaves the later nodes alone, several threads evolve them |
| `c57_parallel_refuted`, `c57_parallel_silent` | nuSQuIDS.h | with more than one thread exceptions of the nodes end in futures that are only waited for: EvolveState returns normally with nodes not evolved |
| `c60_from_file_refuted` | nuSQuIDS.h | the constructor from a file never sets the number of threads; EvolveState reads an indeterminate value |
| `c62_default_library_refuted` | nuSQuIDS.h | default cross sections are loaded by node 0 only; the other nodes and the ensemble keep none |
| `c62_earth_tracks_refuted` | nuSQuIDS.h | Set_EarthModel keeps the trajectories made for the old Earth |
| `c62_step_at_refuted` | nuSQuIDS.h | `Set_h(h, idx)` is documented as taking an energy index, uses it as a zenith index, unchecked |
| `c73_new_object_refuted` | nuSQuIDS.h | `iinistate` is not initialised by the main constructor, so EvolveState without a state tests an indeterminate value |
| `c58_log_energy_refuted` | `AtmEvalProps.v` | EvalFlavor of an ensemble is documented to interpolate "in the logarithm of the energy"; the weights are linear in the energy itself, so between 1 and 4 the value at 2 has weight 1/3 and not 1/2 |
| `c58_one_angle_refuted`, `c58_one_energy_refuted` | `AtmEvalProps.v` | an ensemble with one zenith node, or with one energy, accepts EvalFlavor at that angle and energy and reads the node (energy) after the last |
| `c58_index_refuted` | `AtmEvalProps.v` | EvalFlavor of an ensemble checks `rho` only against 0 and 1 and the flavour not at all: `rho = 1` for an object with one matrix per energy, or a flavour beyond the last, reads outside the projectors |
| `c58_decreasing_refuted` | `AtmEvalProps.v` | zenith nodes given in decreasing order are accepted by the constructor, evolved, and then every EvalFlavor is refused as out of bounds |
| `c58_unequal_travel_refuted` | `AtmEvalProps.v` | at a zenith node the value is the node's own only if its neighbour has travelled the same part of its trajectory: the projector is evolved over the mean of the two parts, although the weight of the neighbour is zero |
| `c59_collision_refuted`, `c59_close_angles_refuted` | AtmFileProps.v | zenith nodes that agree to six decimals get the same group name; writing the ensemble throws, after the file has been truncated (nuSQuIDS.h:1538) |
| `c59_no_overwrite_refuted` | AtmFileProps.v | `WriteStateHDF5(name, false)` always fails: H5Fcreate is called with H5F_ACC_RDWR, which it does not accept (nuSQuIDS.h:1522) |
| `c59_failed_read_refuted` | AtmFileProps.v | a read that fails on a missing node has already replaced the nodes by empty ones; an object that had a state still claims it (nuSQuIDS.h:1550-1604) |
| `c75_number_refuted` | nuSQuIDS.cpp:1095-1135 | the differential cross section is taken at the incoming node but divided by the total averaged over the bin below it; with a rising total more neutrinos come out of neutral-current scattering than go in, even for exact averages |
| `c75_resonance_nan_refuted` | nuSQuIDS.cpp:1160-1164 | the Glashow spectra are neither guarded against a zero total nor validated: 0/0 enters the table |
| `c75_sterile_infinite_refuted` | nuSQuIDS.cpp:1068 | for flavours from the fourth on nothing is validated; infinite spectra are accepted |
| `c75_fifth_flavour_refuted` | nuSQuIDS.cpp:1095-1111 | with five or six flavours the index is cast to an enumeration of four values |
| `c76_filter_refuted` | nuSQuIDS.cpp | with the low-pass filter on, the correction adds filtered projectors; a negative content can stay negative |
| `c76_stale_refuted` | nuSQuIDS.cpp | in the mass basis the correction uses the projectors left by the last evolution in the interaction basis: the negative content stays and another flavour gains |
| `c76_between_refuted` | nuSQuIDS.cpp | the correction works at the nodes; between two nodes without negative content EvalFlavor can still be negative |
| `c77_randomize_phase_refuted` | `examples/Decoherence/nuSQUIDSDecoh.cpp` | The model RandomizePhase leaves out components 0, 3 and 8, the diagonal Gell-Mann matrices in the standard order, but the rates are in SQuIDS's order, where component 3 is a coherence and 4 a population: a difference of populations is damped and one coherence is not. |
| `c77_phase_picture_refuted` | same | Because only one of the two components of that coherence is damped, the damping depends on the time at which the interaction picture is looked at: a coherence not damped now is damped a quarter turn later. |
| `c77_signs_refuted` | same | The map from the standard Gell-Mann matrices ignores that SQuIDS's antisymmetric generators may have the other sign (the code comments call the signs unimportant), so an off-diagonal rate between a symmetric and an antisymmetric matrix acts with the wrong sign. |
| `c77_without_interactions_refuted` | same, `src/nuSQuIDS.cpp:246-249` | Without interactions and sources SQuIDS never asks for the other terms, so decoherence that is switched on does nothing, silently. |
| `c77_constant_refuted` | same, `src/nuSQuIDS.cpp:1258-1286` | With the shortcut for media of constant density allowed and no interactions the state is turned in one step; decoherence is skipped even when the other terms are on. |
| `c78_antineutrino_refuted`, `c79_antineutrino_refuted` | `examples/NSI/NSI.h`, `examples/LV/LV.h` | The operator is rotated once, with the phases of neutrinos; the flavours of antineutrinos are rotated with the opposite phases. With a CP phase antineutrinos feel another operator than the one given (in the witness its sign is turned). |
| `c78_stale_refuted` | `examples/NSI/NSI.h` | Setting a mixing angle or phase after construction leaves the operator rotated with the old ones, without any error (LV.h refuses to evolve in this case). |
| `c78_mass_basis_refuted`, `c79_mass_basis_refuted` | both, `src/nuSQuIDS.cpp:1258-1286` | In the mass basis, which the shortcut for media of constant density (when allowed) also uses, the flavours are not turned with time but the operator is: the term has a wrong phase. |
| `c78_read_refuted`, `c78_read_outside_refuted` | `examples/NSI/NSI.h` | Reading a state brings its epsilon but keeps the operator of the reader; and a file with more energies than the reader was built for makes AddToPreDerive write outside its vector. |
| `c79_file_refuted` | `examples/LV/LV.h` | The parameters are attached to an object that nothing creates, so they are never written; reading then uses indeterminate values as parameters. |
| `c79_dump_refuted` | `examples/LV/LV.h` | dump_probabilities tests for neutrinos twice: for antineutrinos it prints no contents. |
| `c80_flavor_outside_refuted` | src/nuSQuIDS.cpp 1454-1528 | Only the forms for one energy check the flavour; with an energy or node given, a flavour that does not exist reads outside the projectors. |
| `c80_node_outside_refuted`, `c80_kind_outside_refuted` | src/nuSQuIDS.cpp 1467-1528 | EvalFlavorAtNode and EvalMassAtNode do not check the node; with both kinds of neutrinos a third kind is not refused. |
| `c80_not_a_number_refuted` | src/nuSQuIDS.cpp 1457-1507 | An energy that is not a number passes the range check and is given to SQuIDS. |
| `c80_mass_range_refuted` | src/nuSQuIDS.cpp 1454-1465 | In the mass basis EvalMass does not check that the energy is in the grid; EvalFlavor does. |
| `c80_flags_refuted` | src/nuSQuIDS.cpp 1530-1563 | The averaged forms for one energy do not check the length of the flags; those for grids do. |
| `c80_one_node_refuted` | src/nuSQuIDS.cpp 155-257, 1565-1600 | An object made with a grid of one energy never answers the forms for one energy (inusquids is not set), though it is in single energy mode by ne. |
| `c80_unsorted_refuted` | src/nuSQuIDS.cpp 155-257 | Grids need not increase; with a decreasing one every energy is refused by the read-outs. |
| `c81_byte_order_refuted` | resources/python/src/nuSQUIDSpy.h 92-196 | Arrays in the other byte order are accepted and read with their bytes in the wrong order. |
| `c81_empty_refuted` | resources/python/src/nuSQUIDSpy.h 130-196 | An array without elements passes the check; NpyIter_New then fails and its null result is used. |
| `c81_iterator_refuted` | resources/python/inc/container_conversions.h 153-250 | An iterator that has a length is used up by the check for convertibility and always arrives as an empty vector. |
| `c82_mod_file_refuted` | `examples/Bodies/exBody.cpp:15-45` | EarthMod::Mod reads the PREM again instead of the file given to the constructor: a medium made from another file silently becomes the PREM. |
| `c82_rows_refuted` | same, 22-28, 66-72 | The layers are row numbers (39, 110, 201) of the PREM file. Rows from 201 on of a longer file keep their density whatever the factors. |
| `c82_saved_refuted` | same, 17 and 56; `src/body.cpp:736-745` | A local variable hides the member arraysize, which stays that of the PREM. Saving a medium from a file with fewer rows reads after the end of its vectors; with more rows the saved table is cut. |
| `c83_stale_refuted` | `src/nuSQuIDS.cpp:282-285`, `include/nuSQuIDS/body.h:133` | The emitted flux is only zeroed by Set_NeutrinoSources(true). After an emitting medium is replaced by one that does not emit, the last emission stays and is added along the whole new track. |
| `c83_reread_refuted` | `include/nuSQuIDS/nuSQuIDS.h:1047-1055`, ReadStateHDF5 | Reading a file with other sizes into an object with sources leaves the buffer with the old extents: the next derivative writes and reads outside it. |
| `c83_shortcut_refuted` | `src/nuSQuIDS.cpp:1258-1291` | With the shortcut for media of constant density allowed and no interactions the emission is skipped, though EmittingVacuum is such a medium. |
| `c83_no_flavour_refuted` | `examples/Extended_Source/nu_source.h:30-39` | A flavour the object does not have is accepted and emits nothing. |
| `c84_height_refuted` | `resources/python/src/nuSQUIDSpy.cpp:445` | EarthAtm.SetAtmosphereHeight in Python is bound to the getter: a call with a height is refused, one without returns the height; no Python method changes it. |
| `c84_bool_error_refuted`, `c84_bool_missing_refuted` | same, 37-55 | The conversion to vectors of bool ignores errors: an item without truth value becomes true, an item that cannot be taken is a null pointer that is read. |
| `c84_mask_refuted` | same, 57-66 | The wrappers of EvalFlavor take the flags by value: which oscillations were averaged never reaches the Python caller. |
| `c86_first_radius_refuted`, `c86_two_suns_refuted` | SolarTransitions/SolarModel.cpp:13-15 | The loop that copies the radii starts with 1; element 0 is read uninitialised. Depending on what memory holds the program ends or the density near the centre is arbitrary. |
| `c86_edges_refuted` | SolarModel.cpp:43-68 | Radii 0 and 1 pass the check but lie outside of the shipped table (first radius 1.0 cm, last below Rsun): GSL ends the program. |
| `c86_line_energy_refuted` | SolarModel.cpp:50-51 | A line component gives its flux at every energy, not only at the line. |
| `c86_negative_energy_refuted` | SolarProbabilities.cpp:49,66 | Closeness to a line is a difference divided by the energy; at negative energies every line is close. |
| `c86_inverted_refuted` | SolarProbabilities.cpp:16-25 | Eigenvectors are sorted by eigenvalue, the columns of the mixing matrix are not: with inverted mass ordering unlike states are paired, e.g. survival 0 instead of 1 in vacuum without mixing. |
| `c86_no_flux_refuted` | SolarProbabilities.cpp:42 | At an energy without flux the average is 0/0. |
| `c86_no_model_refuted` | SolarProbabilities.cpp:41-73 | Without a solar model the averages follow a null pointer where the probability throws. |
| `c87_mass_basis_refuted` | nuSQuIDS.cpp:1510, 1541, 1558 | in the mass basis — where the shortcut for constant density leaves the object — the scale of EvalFlavor is ignored: full averaging returns the content at that very distance |
| `c87_partial_average_refuted` | nuSQuIDS.cpp:1563 with SQuIDS' thresholds | when only some phases exceed the scale the averaged flavour content can be negative (−3/32 of a unit flux for equally spaced masses, where the true content is 0) |
| `c88_print_refuted`, `c88_print_state_refuted` | nuSQUIDSTools.py:162-167, 197-205 | complex matrices are added in place to a real array: numpy raises for every vector of two flavours or more, so PrintState never returns; its range check lets the node one past the end pass and only prints for later ones, so the state is read out of bounds first |
| `c88_print_hamiltonians_refuted` | nuSQUIDSTools.py:169-183 | PrintH0 and PrintHI call members H0 and HI that are not bound: they always raise |
| `c88_print_status_refuted` | nuSQUIDSTools.py:129, 151 | PrintStatus(filepath) is replaced by a later definition without arguments |
| `c88_get_state_refuted` | nuSQUIDSpy.h:313 | GetState(ei) is bound by casting a const member of two arguments to a type with one: calling it is undefined |
| `c88_other_energies_refuted` | nuSQuIDS.h:1797 | GetStates of the atmospheric object returns only the state at the first energy |
| `c88_ratio_disjoint_refuted` | nuSQUIDSTools.py:222-242 | a ratio plot of objects with disjoint cosines asks for points neither covers in common instead of saying so |
| `c89_other_tables_refuted` | nuSQuIDS.cpp:2744-2757 | An Earth or Sun made from another table is restored from an old file as the library's own. |
| `c89_height_refuted`, `c89_reversed_refuted` | nuSQuIDS.cpp:2764-2769 | An atmospheric path of an old file is made again from its angle: another height of the atmosphere and a reversed direction are forgotten. |
| `c89_sunasnu_refuted` | nuSQuIDS.cpp:2758-2763 | The end of a path past the centre of the Sun is passed as its impact parameter. |
| `c89_short_refuted` | nuSQuIDS.cpp:2718-2777 | The number of parameters in an old file is never looked at; short lists are read past their end. |
| `c89_unknown_refuted` | nuSQuIDS.cpp:2770-2775 | An unknown number of a body ends the process instead of throwing. |
| `c89_tau_size_refuted` | nuSQuIDS.cpp:2668-2683 | The size of an old tau table is not compared with the grid: rows are mixed up, or the table is read past its end. |
| `c90_negative_refuted` | nuSQuIDS.cpp:716, 898 | With tau regeneration the source of a sum of states is not the sum of the sources once a tau flux is negative: nodes where neither tau flux is positive are skipped. |
| `c19_unbounded_refuted` | `AdaptiveQuad.h:123-135` | canSubdivide compares the width with the size of the ends, so a piece that begins at zero can always be split: over the reals the integration of 1/x² from 0 never finishes (with doubles only when the width underflows). |
| `c47_backwards_refuted` | src/nuSQuIDS.cpp:1292-1300 | With positivity on and a positive step a trajectory run backwards moves the clock forward: the loop runs zero times and the last step is fin − step·n with n negative. |
| `c94_basis_refuted` | `EndProps.v` | `Set_Basis` (nuSQuIDS.cpp:2896-2900) may be called with a state set; it neither converts the state nor marks it invalid. After half an oscillation in vacuum the electron content read is 0; after `Set_Basis(mass)` it is 1, what was put in at the start, and the object still says its state is valid |
| `c97_again_refuted` | `ProgProps.v` | the progress bar of a second EvolveState without a new Set_Track goes from 100 % to 200 % |
| `c97_zero_length_refuted` | `ProgProps.v` | with the bar on and a trajectory of no length, ProgressBar converts 0/0 to int: undefined behaviour |
| `c97_overflow_refuted` | `ProgProps.v` | progressbar_count is an int increased at every derivative, bar on or off, never reset: undefined behaviour after 2147483647 evaluations in the life of an object |
| `c98_types_left_refuted` | HidProps.v | every string attribute written leaves its datatype open (tools.cpp:809-818, body.cpp:53-62): 2 identifiers per save, 11 with the tables, without bound over a run |
| `c98_serialize_throws_refuted` | HidProps.v | when Serialize of a user's medium throws, its group is not closed (nuSQuIDS.cpp:1814-1820); the file stays open and the next save over it fails |
| `c98_hook_throws_refuted` | HidProps.v | when AddToReadHDF5 throws, its group is not closed (nuSQuIDS.cpp:2270-2274, 2702-2706); the file cannot be written over any more |
| `c98_unreadable_refuted` | HidProps.v | readDoubleAttribute and readUIntAttribute leave the attribute open when it cannot be read (body.cpp:90-117); after the failed load the file cannot be written over |
| `c98_rank_refuted` | HidProps.v | a table file with a table of another rank stays open after the failed read |
| `c01_container_negative_refuted` | marray.h | a container of indices into an array whose trailing extents multiply to 2^31 gets a negative stride: the element is looked for 2^31 places before the data |
| `c99_last_node_refuted` | tools.cpp | the spline is exact at every node but the last: the table 0, 3, 4 -> 1, 2, 4 gives 3.9999999999999996 at 4 |
| `c99_abscissas_refuted` | tools.cpp:242-245 | abscissas that are NaN or twice infinite pass the check of their order |
| `c99_atm_nan_refuted` | nuSQuIDS.h:1341 | a zenith that is NaN is not refused; the answer is NaN, made from the first nodes |
| `c99_energy_nan_refuted` | nuSQuIDS.cpp:1461-1500 | an energy that is NaN passes the check of the range and is handed to SQuIDS |
| `c99_air_refuted`, `c99_air_infinite_refuted` | body.cpp:800-846 | EarthAtm asked at a place that is NaN, or infinitely far, answers with the density of the centre of the Earth |
| `c99_v1_refuted` | xsections.cpp:605-633 | the old tables convert NaN to an index: undefined behaviour |
| `c19_nan_refuted` | `AdaptiveQuad.h:238-274` | an integrand which is NaN on the interval is not reported: no piece ever meets the tolerance, so every one is split down to 32·eps of its ends; on [1,2] this takes more than 10^13 turns |
| `c20_nan_refuted` | `xsections.cpp:50-91`, `nuSQuIDS.cpp:1067-1068` | a cross section which is NaN over an energy bin hangs the averaging, so the check for NaN that follows is never reached |
| `c15_empty_file_refuted` | `tools.cpp:54,75` | a file without lines is read as a table of no rows and 2^64-1 columns (the initial value of the count) |
| `c14_doubles_refuted` | DblGridProps.v | linspace adds a rounded step again and again (tools.cpp 105-117): in doubles 9 points from 1 to 1+6/2^52 go past the upper end and the last point is below the one before it. |
| `c14_infinite_refuted` | DblGridProps.v | linspace accepts an infinite upper end and returns a grid with repeated infinities. |
| `c99_constant_refuted` | DblConstProps.v | AkimaSpline divides by the square of the distance of two abscissas (tools.cpp 241-299); if that square underflows, a table of equal finite values answers NaN. |
| `c99_chord_refuted` | body.cpp 653-673 | A neutrino crossing the centre of the Sun (SunASnu with impact parameter 0): just before the centre the rounded square of the radius is negative, its root is NaN, and so are density and electron fraction. |
| `c26_long_array_refuted` | body.cpp 249-258, 361-368, 489-497, 618-626 | A file whose table of a medium is longer than its attribute arraysize is read past the end of the vector made for it. |
| `c100_short_refuted`, `c100_long_refuted` | nuSQuIDS.cpp:2512-2529 | the number of items of a cross-section table of a file is compared with the grid only when the arrays are padded; with a number of energies divisible by four a shorter table is read and the rest is zero (no interaction), a longer one is written past the end of the array |
| `c100_rank_refuted` | nuSQuIDS.cpp:2479, 2501 | the rank of a table is not looked at: a table with targets in a file of a version before 1.11 has its four extents written into a vector of three |
| `c100_lep_refuted` | nuSQuIDS.cpp:2665-2671 | old leptonic tau spectra are read into a buffer of the size of those of all decays; longer ones overrun it |
| `c33_v1_empty_refuted` | xsections.cpp:717-731 | V1 reads the energies of the first and last row of its tables also when there are none |
| `c101_first_table_refuted` | xsections.cpp:275-281 | ReadText compares the energy range of every table with that of the object, except `nu_sigma_CC.dat` of the muon and tau flavours: a table ending lower or higher is accepted. |
| `c101_left_over_refuted` | xsections.cpp:192-197, 307-335, 362-379 | WriteText always writes a set of files per flavour, but reading prefers an HDF5 file of the name of the prefix or a set common to all flavours: if there is one, what was written is silently not what is read. |
| `c101_v1_directory_refuted` | xsections.cpp:763-768 | The old class takes any path that opens for an HDF5 file; a prefix that is a directory opens, so text files in it are never found. |
| `c101_v1_silent_refuted` | xsections.cpp:811-860 | WriteText of the old class does not look whether its files could be opened. |
| `c101_empty_variable_refuted` | resources.cpp:8-12 | NUSQUIDS_DATA_PATH set to nothing makes the library look for data in the root directory. |
| `c104_created_refuted` | nuSQuIDS.cpp:1086-1130 | The neutral-current spectrum is taken at the energy of a node, the upper end of its bin, but divided by the mean of the total cross section over the bin. Where the cross section grows, more than one neutrino comes out of an interaction although the cross sections give exactly one: 1.118 for nodes 1, 10, 20, a cross section growing as the square and a linearly falling spectrum. |
| `c19_one_nan_refuted` | `AdaptiveQuad.h:238-274` | one NaN at any of the eleven inner points looked at first makes the tolerance NaN: no piece of the interval meets it, so all of it is split down to 32·eps of its ends, also where the integrand is a number |

Smaller observations (no theorem): `copy_assign` frees with the wrong size on its exception path; const `back()` reads one past
the end; `tgmama` is misspelt; the out-of-tolerance flag of AdaptiveQuad is also raised for a narrow piece that met the
tolerance (visible in `c19_partition`); the averaging EvalFlavor of an ensemble takes its flags by value, so the caller never
learns which scales were averaged; both versions of it keep a static buffer of the dimension of the first call; the decoherence
extension owns a gsl matrix through `std::unique_ptr` without gsl's own release, and its range check of the Gell-Mann map is off by one.

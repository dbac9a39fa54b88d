# Design
First plan, written before the proofs (see the later sections for the final state).

## Per-property plan
- **C01** One- and two-atom states are strictly totally ordered, consistently with == and != — StateModel.v: StateOne/StateTwo as records (species as byte list, 2j,2m as Z). Order laws by case analysis + lexicographic lemmas.
- **C02** States that compare equal have equal hashes — StateModel.v: hash_combine on N mod 2^64 with arbitrary base hashes; equality of fields implies equal hash by construction invariant.
- **C03** Reflection is an involution that only flips the magnetic quantum numbers — StateModel.v: getReflected in an exception monad.
- **C04** Wildcard matching accepts exactly the states agreeing on all non-ARB quantum numbers — StateModel.v: operator^ characterised by a Prop spec.
- **C05** Artificial states reveal only their label; Rydberg states reveal only quantum numbers — StateModel.v: getters in an exception monad.
- **C06** A wildcard on either atom of a pair state selects all matching pair states — SystemBase lookups modelled on lists; `_refuted` with a pair pattern with one generalized atom, plus the positive theorem for 0 or 2.
- **C07** Symmetry is strictly totally ordered — StateModel.v: Symmetry as 4 ints, loop modelled literally.
- **C08** The thread-safe cache behaves like an insert-once map under every interleaving — CacheModel.v: interleaving semantics of locked operations, refinement to a finite map, history invariant.
- **C09** Clearing the cache never races with a concurrent access — CacheModel.v: lock-set / happens-before model; `_refuted` trace.
- **C10** Quantum-defect data always come from the database asked for (sequential use) — QDModel.v: process-wide memo + name of used database, abstract per-database oracle; invariant over histories.
- **C11** Concurrent construction of quantum defects is safe — QDModel.v: small-step threads; `_refuted` schedules (smash, wrong database).
- **C12** Quantum defects of high angular momentum fall back to the largest tabulated one — QDModel.v: SQL queries as list functions over tables.
- **C13** Selection rules are symmetric and sound — MEModel.v: selection rules literal; symmetric by lia.
- **C14** Canonicalised cache keys carry the right sign — MEModel.v: keys and signs; spec = abstract 3j/6j functions with their symmetry laws as hypotheses of the theorem.
- **C15** The matrix element cache is transparent — MEModel.v: cache + DB state, invariant 'every stored value is the direct value'.
- **C16** Changing the quantum-defect database takes effect for all later matrix elements — MEModel.v: `_refuted` history + positive theorem for histories without setDefectDB after a query.
- **C17** A failed matrix element request does not affect later requests — MEModel.v: missing set retained; `_refuted` history.
- **C18** An interrupted cache update never leaves wrong rows in the database — MEModel.v: SQLite transaction as atomic commit; crash at every point; invariant on committed rows; a commit torn in the middle (C18_torn_commit_partial: whichever subset of the pages reached the disk, every row that can still be read is right).
- **C19** Statement protocol: stepping is only possible on prepared, unfinished statements — SqliteModel.v: statement automaton over a result set.
- **C20** Iterating over a statement visits every result row exactly once — SqliteModel.v: iterator as code; `_refuted`.
- **C21** Restricting a quantum number to [min,max] keeps exactly the states inside — RangeModel.v: range + validity checks; theorem for min<=max, `_refuted` for empty ranges.
- **C22** SystemOne builds exactly the fine-structure states allowed by the restrictions — RangeModel.v: loops literal over sorted sets, membership and NoDup.
- **C23** State indices are always consecutive, unique and aligned with the rows of the basis matrix — SystemModel.v: invariant through operations.
- **C24** Applying restrictions to an existing system keeps exactly the admissible part — SystemModel.v: row/column selection on matrices over an abstract *-ring.
- **C25** Building the basis is idempotent and never silently ignores late requests — SystemModel.v: build automaton.
- **C26** The Hamiltonian depends only on the current parameters, not on the history — SystemModel.v, HamProofs*.v: automaton with abstract unperturbed data and interaction oracle.
- **C27** Precomputing the interaction does not change results — SystemModel.v, HamProofs*.v: `_refuted`.
- **C28** Constraining a diagonalised system keeps the chosen basis vectors — SystemModel.v, HamProofs*.v: `_refuted`.
- **C29** Parameters cannot be changed once the data needed for it has been discarded — SystemModel.v, HamProofs*.v: invariant.
- **C30** Rejected setter calls leave the system unchanged — FieldModel.v: setters; `_refuted`, positive theorems for non-throwing ones.
- **C31** The one-atom Hamiltonian is Hermitian — FieldModel.v, Matrix.v: matrices over any commutative ring with involution.
- **C32** Hamiltonian entries are read and written in the product basis — SystemModel.v, EntryProofs.v: real case proved, complex case refuted.
- **C33** constrainBasisvectors keeps exactly the chosen vectors, or fails without effect — SystemModel.v: column selection, all-or-nothing.
- **C34** Overlaps are the squared projections and sum up to at most one — OverlapModel.v.
- **C35** getConnections pairs basis vectors one-to-one — OverlapModel.v.
- **C36** getBasisvectorIndex(states) assigns distinct basis vectors — OverlapModel.v.
- **C37** add() forms the direct sum on the union of states — SystemModel.v, AddProofs.v; exception safety refuted.
- **C38** Saving and loading a system preserves its observable behaviour — ArchiveModel.v, PickleModel.v: byte-level codecs with inverse and truncation laws, members saved and not saved, lifetime of the cache; `_refuted`.
- **C39** unitarize replaces the basis by an orthonormal labelled one without changing H — SystemModel.v.
- **C40** Pair bases cover every pair exactly once under exchange symmetry — PairModel.v.
- **C41** Selecting one-atom basis vector pairs by index is checked — PairModel.v; `_refuted`.
- **C42** C6 of a pair state sums over all dipole-coupled intermediate states — PerturbModel.v: enumeration loops over half-integers; s<=1/2 proved, s=1 refuted.
- **C43** The C6 matrix includes every intermediate state coupled to both row and column — PerturbModel.v: `_refuted` for |Delta l|=2; positive for equal l and s<=1/2.
- **C44** Effective C3 and C6 matrices are symmetric and angle terms are consistent — PerturbModel.v.
- **C45** Vacuum Green tensors are derivatives of the Coulomb potential — GreenModel.v over R with Coquelicot derivatives.
- **C46** Plate Green tensors are derivatives of the image potential — GreenModel.v: gradient in x,z proved; divergence `_refuted`.
- **C47** Green tensors always reflect the current geometry — GreenModel.v: lazy flags automaton; exception path refuted.
- **C48** Binary serialisation of values round-trips — SerModel.v: byte level.
- **C49** Corrupted byte streams are rejected — SerModel.v: every byte read lies in the string (machine addresses).
- **C50** Saved matrices load back unchanged — SparseModel.v: CSC arrays; `_refuted` for leading empty columns, cereal version proved.
- **C51** The on-disk matrix cache survives crashes — FileCacheModel.v: crash semantics of DB row, .json and .mat files.
- **C52** The on-disk matrix cache never mixes up parameters — FileCacheModel.v: 6-digit formatting; `_refuted`.
- **C53** The cache table exists before it is queried, for every schedule of worker threads — FileCacheModel.v: threads; `_refuted` for HamiltonianOne, proved for HamiltonianTwo's order.
- **C54** A negative delta means an unlimited quantum number range — BasisnamesModel.v: l,j proved; m refuted for negative m, proved for non-negative.
- **C55** Basis state indices equal list positions after state removal — BasisnamesModel.v.
- **C56** Configurations behave like maps and survive a JSON round trip — ConfModel.v.
- **C57** Radial grid search finds the grid point or reports failure — WaveModel.v.

- **C58** x — SystemModel.v: matrices carry their dimensions and a product of non-matching ones is UB; invariant over histories.
- **C59** x — RangeModel.v, ReflSpec.v: initializeBasis with conserved reflection parity; columns, inner products and reflection computed in closed form.
- **C60** x — TwoModel.v over R: all setter sequences, invariant by induction.
- **C61** x — OverlapProofs2.v: forgetStatemixing on orthonormal matrices over R.
- **C62** x — FieldModel.v: the sum of the stored operators is compared with -d.E + mu.B + diamagnetic term in Cartesian coordinates.
- **C63** x — SystemModel.v: `_refuted`; for every system and entry.
- **C64** x — OverlapModel.v: columns as lists of stored entries.
- **C65** x — TwoModel.v, TwoSpec.v: both approaches compared with the physical dipole-dipole energy for arbitrary dipole vectors.
- **C66** x — as C65, with the quadrupole table.
- **C67** x — NumModel.v: ostringstream's six digits and stod/stoi as exact decimal arithmetic.
- **C68** x — FileCacheModel.v: `_refuted` schedule.
- **C69** x — WaveModel.v with Flocq: error bounds of the grid values, then the indices are determined exactly.
- **C70** x — WaveModel.v: exact arithmetic, and every operation rounded to binary64 (Flocq): products and sums of nonnegative numbers agree with the exact ones up to factors (1-2^-53)^k.
- **C71** x — ArchiveModel.v: truncation law of every codec; `_refuted` for a changed byte and for non-bytes.
- **C72** Wigner's rotation matrices — WignerD.cpp modelled over R (WignerModel.v); the sum over binomials for pi/2 is identified with coefficients of (x+y)^(j+m')(x-y)^(j-m'), the Fourier sum over m'' with a substitution in polynomials in two variables; Wigner's formula (WignerSpec.v) is then read off, addition of angles is composition of substitutions.
- **C73** Rotated states — addRotated and buildStaterotator of both systems produce a matrix with known entries (RotTable.v), products and adjoints reduce to C72. Missing levels: refuted (norm lost).
- **C74** Fields in another coordinate system — buildRotator, rotateVector over R; algebra. Zero axis: refuted.
- **C75** Schrieffer-Wolff transformation — SchriefferModel.v follows applySchriefferWolffTransformation; the eigensolver, std::nth_element and Eigen's matrix square root are oracles with specifications (SchriefferSpec.v). Proof over the complex numbers: direct rotation as principal root of a product of reflections, Sylvester's equation, uniqueness of the polar decomposition. Later changes of a field and too many vectors: refuted.
- **C76** Pair basis of the command line program — CombineModel.v follows combine() entry by entry (mapping of the reflection, skipped pairs, signs, factors 1/sqrt 2); scalars in any commutative ring with conjugation that contains 1/sqrt 2. The columns are compared with projections of Kronecker products (CombineSpec.v). States of mixed parity / mixed m, missing partners, reflection with permutation: refuted by computed examples.
- **C77** Necessary pair states — NecessaryModel.v: energycutoff, the loop over the states, the set of symmetries; the threads as an interleaving of loads and stores of words of a vector<bool>. Threads and magnetic fields: refuted.
- **C78** Restriction of the one-atom states — NecessaryModel.v: the two loops, removal from the list and from the matrices; rank of a position in the mask.
- **C79** Interaction in the command line program — InteractModel.v: the loops over states and multipole orders; the specification is the coefficient of the bipolar expansion with factorials; sums of triplets, projection on the necessary states.
- **C80** Atom in fields in the command line program — OneFieldModel.v: spherical components, flags, the else-if chains, assembly, the triangle read by the solver; case distinction on q, linearity in the position.
- **C81** Matrix elements of the command line program — MatCacheModel.v: the five caches, the marks of unset values, loading, computing and storing with six digits (Flocq rounding in radix 10), histories of calls with arbitrary files; invariant of the memory; spin other than 1/2 is not covered (the program's bases contain none).
- **C82** Reproducible runs — the same model; sessions on a file; later runs give exactly the product of the rounded factors, the first run does not (1/9 is no decimal number), two runs at once collide in the UNIQUE constraint.
- **C83** Values passed between C++ and Python — NumpyModel.v: memory blocks, arrays with shape and strides, Eigen's column-major storage, the checks of NumpyUtils.hpp with int arithmetic; reading through int pointers. Empty objects, 0-dimensional arrays, 64 bit indices, 2^32+1 elements: refuted.
- **C84** Lifetime of returned matrices — the same model with histories of calls, assignments and destruction; references are returned as views. Invariant: which blocks belong to whom. Views after recomputation or destruction: refuted.
- **C85** Invalid arguments — collected counterexamples from the models of the individual classes (State, Overlap, Wave, Two, Wigner, Numpy, Pickle, Pair): all refuted.
- **C86** Sizes — the length fields of SerModel.v and NumpyModel.v: refuted (also the empty case).
- **C87** Order below three — TwoModel.v: refuted off the z axis.
- **C88** Rotated states are not lost — WignerModel.v, an incomplete set of levels: refuted.
- **C89** add() and the system with both — AddModel: refuted by two systems coupled by a field.
- **C90** Parameters after rotate/unitarize — SystemModel.v: refuted by computed histories.
- **C91** Use after a refused request — SystemModel.v, SqliteModel.v: refuted.
- **C92** Matrix elements without precalculation — MatCacheModel.v: refuted.
- **C93** Damaged pickles — PickleModel.v: refuted by one changed byte.
- **C94** Impossible symmetries — PairModel.v: refuted by computed bases.
- **C95** Assignment of basis vectors — OverlapModel.v: refuted (greedy search).
- **C96** Blocks of different symmetry are not coupled — the interaction matrix of InteractModel.v (C79) between the blocks of CombineModel.v (C76); symmetries of the multipole coefficients under exchange, parity and m -> -m; inversion, reflection, rotation proved for every order, permutation for odd powers of 1/R.
- **C97** Symmetries that the interaction breaks are refused — same models: refuted (dipole-quadrupole terms couple the permutation blocks, nothing checks it).
- **C98** The interaction of two atoms is Hermitian — TwoMatModel.v (loops of initializeInteraction over rows and columns, lower triangle, selfadjointView) on top of TwoModel.v; the transposed entry is shown to be the conjugate one for the matrix elements of MEModel.v (arbitrary radial parts), every geometry, order and surface.
- **C99** The interaction of two atoms has the symmetries the user asks SystemTwo to conserve — same model with the bases of PairModel.v (C40): inversion for every vacuum geometry and order, permutation for order 3, reflection for y = 0, rotation on the z axis; refuted: permutation at order 4, rotation off the axis, rotation at order 4 with a surface (nothing is refused).
- **C100** A warning is printed when the distance is below the Le Roy radius — LeRoyModel.v: the stored radius, the search for the state to take, restrictions, added systems, unitarize, exceptions, over an arbitrary state type with arbitrary energies and radii. Proved: printed warnings are true, the exact condition when the radii are ordered like the hydrogen formula, the formula; refuted: states with larger radii, radius taken from an added system, a half-set radius after an exception.
- **C101** Loaded dipole elements are used — DipoleModel.v: the lines of the file as fields with oracles for stoi/stof/stod, the pending keys, update(), the division by the angular factors, histories with any number of loads; values over the reals with the Racah formula. Proved by an invariant over histories (angular rows right, rows only added): the value of listed transitions at once and later, the other elements and the database; refuted: the transition listed in the other order (sign), forbidden transitions (not a number), numbers out of range, short lines.
- **C102** Added pair states — PairModel `check_user`, `user_step` (SystemTwo.cpp 464-567). The run with added states is compared with the run without (simulation: a longer sqnorm_list makes no difference; successful calls keep the invariant of PairProofs), the added columns use fresh rows, and `finish` therefore yields a block form (PairProofs7-9, statement in UserSpec.v). Reflection symmetry is not applied to added states by the code and not by the specification.
- **C103** Window and threshold — BoundsModel.v (SystemBase.cpp 564-746): estimate m0 of the number of eigenvalues, in-place conversion of the CSC arrays to one-based indices, FEAST as an oracle with its documented contract (BoundsSpec.v), pruning. Proved: the threshold error bound (sum over the coefficients), the window theorem by w = B†v, and that the estimate suffices if the window covers the diagonal. Refuted: the estimate can be too low (5×5 example), bounds ignored for a diagonal Hamiltonian, after a failure the arrays stay one-based (reading them is undefined), no renormalization after pruning, operators keep the old dimension (C58).
- **C104** Command line program — MainModel.v (main.cpp 36-106, Interface.cpp 42-104): the option loop by recursion on the arguments, the configuration as in ConfModel.v, the calculations as an oracle that may throw (which nobody catches). Proved by induction on the list of options and case analysis on the keys; refuted: with "samebasis" and one described atom nothing is calculated although >>END is printed.
- **C105** Key of a stored matrix — KeyModel.v: reading of the input configuration, entries copied and written by Basisnames, HamiltonianOne and HamiltonianTwo, together with the record of everything the calculation starts from; statement in KeySpec.v. Proved by reading every component of the record back from the key (exact for ints and half-integers up to 10000, five digits for doubles) and combined with the histories of C51.
- **C106** Steps of a scan — ScanModel.v: number of steps, interpolation of fields and distance, choice of the one-atom Hamiltonian, static schedule of the parallel loop and arbitrary interleavings of the threads. Proved by permutation arguments over the schedule, for all numbers of steps and threads; without steps and with changing fields an empty vector is read (refuted). Rounding of the interpolation is not modelled.
- **C107** Stored eigenvectors — DiagModel.v: Hamiltonianmatrix::diagonalize with the eigensolver as an oracle that satisfies its documented contract for the matrix it is given, and both removals of small coefficients. Proved with the triangle and Cauchy-Schwarz inequalities for columns and the fact that isometries keep distances; an example shows that the deviation occurs.
- **C108** Settings of a pair — SettingsModel.v: the setters of SystemTwo, onSymmetryChange and the comparison of reflection and momenta on top of the life cycle of a system (SystemModel.v) and of initializeBasis (PairModel.v); any other method enters as an arbitrary function that does not assign these settings. Proved by induction on the history; refuted: a refused reflection or set of momenta stays in force, a choice of pairs after the build is accepted and ignored, an object whose build failed cannot be used any more.
- **C109** Radial equation — RadialModel.v: model_potential::V and g and the power kernels as real functions (no rounding); Numerov::integrate is WaveModel.v. Proved: the change of variables with derivatives and integrals (Coquelicot), a bound of the local error with Taylor's formula, its growth with a discrete Gronwall argument, limits of the potential, the sum over a multiplet in closed form. The Whittaker functions (GSL) are not modelled.
- **C110** Combined parameters and symmetries — `IncorporateModel.v` models `incorporate` of SystemOne and SystemTwo (every comparison, std::set of momenta as increasing list) and is used as the parameter `v_compat` of `add` (SystemModel.v); proved by cases over the comparisons and induction over the sets. The parameters of the ion, the surface, the Green tensor and the one-atom systems are not compared by the code: refuted by concrete systems.
- **C111** Reported sizes — `getNumStates`, `getNumBasisvectors` on top of the life cycle (SystemModel.v); proved with the invariant of C23 over all histories; after an exception of add() or unitarize() they throw: refuted.
- **C112** Locked database — `LockModel.v`: the loop of SQLite around `busy_handler` as a transition system, with an arbitrary function of time that says when the lock is free and arbitrary sleeps within the bounds of `randint`; invariant over the steps. Starvation is possible: refuted. Not modelled: locking inside SQLite, deadlock avoidance of SQLite (it then reports SQLITE_BUSY without calling the handler; cannot occur for the statements of the library, which hold no read lock when they begin to write).

## Modelling conventions
- double/float arithmetic is not modelled: real numbers are exact (an arbitrary commutative ring / ordered ring, or R), half-integers j, m are stored as 2j, 2m in Z. NaN, infinities, rounding are out of scope unless a property is about formatting.
- C++ exceptions become `Throw` results carrying the (possibly changed) object, undefined behaviour a distinct outcome `UB`.
- External code (Eigen, SQLite, boost, cereal, GSL, the C++ library) is represented by functions of the model written from its documentation, or by universally quantified oracles.

{"id": "C01", "title": "One- and two-atom states are strictly totally ordered, consistently with == and !=", "statement": "For StateOne and StateTwo, operator< is irreflexive and transitive, exactly one of a<b, a==b, b<a holds for every pair, a!=b is the negation of a==b, a<=b is (a<b or a==b), and a==b holds exactly when species and all quantum numbers of both atoms coincide. Hence states may be used as keys of ordered containers.", "quantifier": "all pairs and triples of states (quantum-number and artificial), all species strings", "why_tests_cant": "Order laws quantify over all triples of states; a test only samples a few.", "anchors": ["pairinteraction/State.cpp: StateOne::operator==, !=, <, <=", "pairinteraction/State.cpp: StateTwo::operator==, !=, <, <="]}
{"id": "C02", "title": "States that compare equal have equal hashes", "statement": "Whenever two states that were built with the public constructors compare equal, their hash values are equal, for any string/int/float hash functions of the standard library, so unordered containers never hold two equal states.", "quantifier": "all pairs of constructed states, all base hash functions", "why_tests_cant": "Needs all pairs and all platform hash functions.", "anchors": ["pairinteraction/State.cpp: StateOne::StateOne, StateTwo::StateTwo", "pairinteraction/utils.hpp: hash_combine"]}
{"id": "C03", "title": "Reflection is an involution that only flips the magnetic quantum numbers", "statement": "For every state with quantum numbers, getReflected() yields the state with the same species, n, l, j and negated m (for both atoms of a pair); applying it twice yields a state equal to the original with the same hash; on an artificial state it throws instead of returning something.", "quantifier": "all one- and two-atom states", "why_tests_cant": "All quantum numbers, including artificial atoms inside a pair.", "anchors": ["pairinteraction/State.cpp: StateOne::getReflected, StateTwo::getReflected"]}
{"id": "C04", "title": "Wildcard matching accepts exactly the states agreeing on all non-ARB quantum numbers", "statement": "s ^ g holds iff the species agree and every quantum number of g that is not ARB equals the one of s; in particular for g without any ARB it coincides with s == g, and it is monotone: replacing a quantum number of g with ARB never removes matches.", "quantifier": "all states s and all patterns g", "why_tests_cant": "Quantifies over every pattern and state.", "anchors": ["pairinteraction/State.cpp: StateOne::operator^, StateTwo::operator^, isGeneralized"]}
{"id": "C05", "title": "Artificial states reveal only their label; Rydberg states reveal only quantum numbers", "statement": "A state made from a label returns exactly this label and every quantum number getter throws; a state made from a (non-empty) species name and quantum numbers (principal quantum number not 0) returns exactly the values passed to the constructor and getLabel throws; constructing with principal quantum number 0 throws.", "quantifier": "all labels, all quantum numbers", "why_tests_cant": "All labels/quantum numbers and all getters.", "anchors": ["pairinteraction/State.cpp: StateOne getters, shouldBeArtificial, isArtificial"]}
{"id": "C06", "title": "A wildcard on either atom of a pair state selects all matching pair states", "statement": "getOverlap with a pair pattern that contains ARB in the quantum numbers of at least one atom considers every stored pair state that matches the pattern; getStateIndex returns the index of the stored state equal to its argument, or throws.", "quantifier": "all pair-state lists and all patterns with one or two generalized atoms", "why_tests_cant": "Needs every pattern shape; tests only use patterns where both atoms are generalized.", "anchors": ["pairinteraction/SystemBase.cpp: getOverlap, getStateIndex", "pairinteraction/utils.hpp: is_true", "pairinteraction/State.cpp: StateTwo::isGeneralized"]}
{"id": "C07", "title": "Symmetry is strictly totally ordered", "statement": "operator< on Symmetry is irreflexive, transitive and total modulo equality of the four members, so Symmetry is usable as a key of std::set / std::map.", "quantifier": "all symmetries (any int rotation)", "why_tests_cant": "Order laws range over all triples.", "anchors": ["pairinteraction/Symmetry.hpp: operator<"]}
{"id": "C08", "title": "The thread-safe cache behaves like an insert-once map under every interleaving", "statement": "For any number of threads issuing save/restore in any interleaving, restore(k) returns a value v iff some save(k,v) completed successfully before it (and no clear since), at most one save per key succeeds between clears, a save on an existing key throws and changes nothing.", "quantifier": "all programs of all threads, all interleavings, all keys/values", "why_tests_cant": "Schedules cannot be enumerated by tests.", "anchors": ["pairinteraction/Cache.hpp: Cache::save, Cache::restore, Cache::clear"]}
{"id": "C09", "title": "Clearing the cache never races with a concurrent access", "statement": "Every pair of conflicting accesses (one of them a write) to the cache's storage that different threads perform through save/restore/clear is ordered by the cache's lock.", "quantifier": "all interleavings of two threads", "why_tests_cant": "A data race is a property of all schedules and does not show in a test run.", "anchors": ["pairinteraction/Cache.hpp: Cache::clear"]}
{"id": "C10", "title": "Quantum-defect data always come from the database asked for (sequential use)", "statement": "In a single thread, for every history of constructions, QuantumDefect(species,n,l,j,db) yields the parameters a fresh computation from database db would yield, or throws exactly when that computation would, regardless of which databases and states were used before.", "quantifier": "all histories of constructor calls with arbitrary databases", "why_tests_cant": "Histories are unbounded; the process-wide memo is only exercised in trivial ways by tests.", "anchors": ["pairinteraction/QuantumDefect.cpp: QuantumDefect::setup"]}
{"id": "C11", "title": "Concurrent construction of quantum defects is safe", "statement": "Two threads may construct QuantumDefect (or query energies) for the same state or for different databases at the same time; each gets the value a sequential run would give and none of them throws.", "quantifier": "all interleavings", "why_tests_cant": "Only specific schedules violate it.", "anchors": ["pairinteraction/QuantumDefect.cpp: QuantumDefect::setup", "pairinteraction/Cache.hpp: Cache::save"]}
{"id": "C12", "title": "Quantum defects of high angular momentum fall back to the largest tabulated one", "statement": "For a species with tabulated values, the Rydberg-Ritz row used for (l,j) is the one tabulated for min(l, max tabulated l) and min(j, max tabulated j for that l); a request for an exactly tabulated (l,j) uses this row.", "quantifier": "all tables and all l,j", "why_tests_cant": "All tables, including sparse ones.", "anchors": ["pairinteraction/QuantumDefect.cpp: QuantumDefect::setup"]}
{"id": "C13", "title": "Selection rules are symmetric and sound", "statement": "selectionRulesMultipole / Momentum for (row,col,q) hold iff they hold for (col,row,-q); they reject artificial states; whenever a rule set rejects, the angular factor is zero by the triangle / m-sum rule.", "quantifier": "all pairs of states, all kappa, q", "why_tests_cant": "All combinations of quantum numbers.", "anchors": ["pairinteraction/MatrixElementCache.cpp: selectionRulesMomentum, selectionRulesMultipoleNew, selectionRulesMultipole"]}
{"id": "C14", "title": "Canonicalised cache keys carry the right sign", "statement": "For every pair of states, (canonical matrix element stored in the cache) x (sign attached to the key) equals the matrix element computed directly for the ordered pair asked for, given the symmetry relations of Wigner 3j and 6j symbols.", "quantifier": "all pairs of fine-structure states, all kappa, all conjugate orderings", "why_tests_cant": "Sign errors only show for particular orderings/quantum numbers.", "anchors": ["pairinteraction/MatrixElementCache.cpp: CacheKey_cache_angular, CacheKey_cache_reduced_commutes, CacheKey_cache_reduced_multipole, CacheKey_cache_radial"]}
{"id": "C15", "title": "The matrix element cache is transparent", "statement": "For every history of getRadial / getElectricMultipole / getMagneticDipole / precalculate calls, with or without a database file and with any pre-filled consistent database, each returned value equals the value a fresh cache computes for the same method and quantum-defect database.", "quantifier": "all call histories, all consistent database contents", "why_tests_cant": "Histories and database contents are unbounded.", "anchors": ["pairinteraction/MatrixElementCache.cpp: getRadial, getElectricMultipole, getMagneticDipole, precalculate, update"]}
{"id": "C16", "title": "Changing the quantum-defect database takes effect for all later matrix elements", "statement": "After setDefectDB(path), every matrix element returned equals the one a fresh cache configured with this database would return.", "quantifier": "all call histories", "why_tests_cant": "Depends on what was cached before the call.", "anchors": ["pairinteraction/MatrixElementCache.cpp: setDefectDB, getRadial"]}
{"id": "C17", "title": "A failed matrix element request does not affect later requests", "statement": "If a request throws (e.g. unknown species), later requests that do not involve the failing states return the same values as if the failed request had not happened.", "quantifier": "all histories with failing requests", "why_tests_cant": "Needs failure injection at every point of the history.", "anchors": ["pairinteraction/MatrixElementCache.cpp: update, getRadial"]}
{"id": "C18", "title": "An interrupted cache update never leaves wrong rows in the database", "statement": "If the process stops at any point during an update of the database, a later process that opens the database reads, for each key, either no row or the correct value.", "quantifier": "all crash points, all batches of missing elements", "why_tests_cant": "Crash points.", "anchors": ["pairinteraction/MatrixElementCache.cpp: update", "pairinteraction/SQLite.hpp: transaction"]}
{"id": "C19", "title": "Statement protocol: stepping is only possible on prepared, unfinished statements", "statement": "For every history of set/prepare/step/reset/exec on a statement: step returns rows in the order SQLite delivers them, throws (instead of silently restarting) when the statement has not been prepared or already has delivered its last row, and works again after reset.", "quantifier": "all call histories, all result sets", "why_tests_cant": "Histories unbounded.", "anchors": ["pairinteraction/SQLite.hpp: statement::step, prepare, reset, exec, set"]}
{"id": "C20", "title": "Iterating over a statement visits every result row exactly once", "statement": "A range-for over a prepared statement yields exactly the rows of the result set, in order, and then ends.", "quantifier": "all result sets (any number of rows)", "why_tests_cant": "Depends on the number of rows.", "anchors": ["pairinteraction/SQLite.hpp: statement::iterator"]}
{"id": "C21", "title": "Restricting a quantum number to [min,max] keeps exactly the states inside", "statement": "After restrictN/L/J/M(min,max) (or the set variants) and buildBasis, a state with quantum numbers is kept iff each restricted quantum number lies in its range (and the energy lies in the energy window); artificial states are always kept.", "quantifier": "all ranges, all states", "why_tests_cant": "All ranges including empty ones.", "anchors": ["pairinteraction/SystemBase.cpp: restrictN, restrictL, restrictJ, restrictM, checkIsQuantumstateValid", "pairinteraction/SystemBase.hpp: range, checkIsQuantumnumberValid"]}
{"id": "C22", "title": "SystemOne builds exactly the fine-structure states allowed by the restrictions", "statement": "With restrictions on n and no user-provided states, the basis of SystemOne contains exactly the states with 0<=l<n, |l-s|<=j<=l+s, -j<=m<=j in integer steps that satisfy all restrictions, the energy window and the m-symmetry, each exactly once.", "quantifier": "all restriction sets, all spins s, all energy functions", "why_tests_cant": "Loop boundaries over unbounded ranges.", "anchors": ["pairinteraction/SystemOne.cpp: initializeBasis"]}
{"id": "C23", "title": "State indices are always consecutive, unique and aligned with the rows of the basis matrix", "statement": "After every history of building, restricting, adding states or systems, unitarising and rotating, the i-th listed state has index i, no state is listed twice, and the basis matrix has as many rows as there are states.", "quantifier": "all API histories", "why_tests_cant": "Invariant over all histories.", "anchors": ["pairinteraction/SystemBase.cpp: removeRestrictedStates, add, unitarize, updateEverything, buildBasis"]}
{"id": "C24", "title": "Applying restrictions to an existing system keeps exactly the admissible part", "statement": "Restricting an already built system removes exactly the states whose quantum numbers are excluded, keeps the basis vectors with admissible energy and remaining norm above the threshold, then drops states with no more than the threshold weight in these vectors, and leaves order and coefficients of what remains unchanged.", "quantifier": "all systems, all restrictions", "why_tests_cant": "All matrices and thresholds.", "anchors": ["pairinteraction/SystemBase.cpp: updateEverything, removeRestrictedStates, applyRightsideTransformator, applyLeftsideTransformator"]}
{"id": "C25", "title": "Building the basis is idempotent and late states are reported", "statement": "buildBasis after a successful buildBasis changes nothing; states added to an already built system are reported by an exception at the next access.", "quantifier": "all histories", "why_tests_cant": "Histories.", "anchors": ["pairinteraction/SystemBase.cpp: buildBasis, updateEverything, addStates"]}
{"id": "C26", "title": "The Hamiltonian depends only on the current parameters, not on the history", "statement": "For every history of setting parameters, building the Hamiltonian and diagonalising, the Hamiltonian returned for a parameter set is unitarily the unperturbed energy plus the interaction for the current parameters (as if the system had been set up freshly with them).", "quantifier": "all histories of set/build/diagonalize calls", "why_tests_cant": "Histories.", "anchors": ["pairinteraction/SystemBase.cpp: buildHamiltonian, onParameterChange, diagonalize"]}
{"id": "C27", "title": "Precomputing the interaction does not change results", "statement": "Calling buildInteraction at any time does not change the Hamiltonian obtained later.", "quantifier": "all histories", "why_tests_cant": "Only shows for particular histories (diagonalise, change parameter, buildInteraction).", "anchors": ["pairinteraction/SystemBase.cpp: buildInteraction, buildHamiltonian"]}
{"id": "C28", "title": "Constraining a diagonalised system keeps the chosen basis vectors", "statement": "constrainBasisvectors(indices) on a diagonalised system, followed by a parameter change, yields the Hamiltonian restricted to the chosen vectors.", "quantifier": "all systems, all index lists", "why_tests_cant": "Depends on the unperturbed cache.", "anchors": ["pairinteraction/SystemBase.cpp: constrainBasisvectors"]}
{"id": "C29", "title": "Parameters cannot be changed once the data needed for it has been discarded", "statement": "After the unperturbed data has been discarded (memory saving mode, unitarize, rotate, ...), any parameter change on a system whose Hamiltonian contains the interaction throws instead of producing a wrong Hamiltonian.", "quantifier": "all histories", "why_tests_cant": "Histories.", "anchors": ["pairinteraction/SystemBase.cpp: onParameterChange, buildHamiltonian, unitarize"]}
{"id": "C30", "title": "Rejected setter calls leave the system unchanged", "statement": "If a setter (fields, symmetries) throws, the system behaves as if the call had not been made.", "quantifier": "all histories and all arguments", "why_tests_cant": "Exception paths combined with later calls.", "anchors": ["pairinteraction/SystemOne.cpp: setEfield, setBfield, setConservedParityUnderReflection, setConservedMomentaUnderRotation", "pairinteraction/SystemTwo.cpp: setters"]}
{"id": "C31", "title": "The one-atom Hamiltonian is Hermitian", "statement": "For every basis, all matrix elements with the library's symmetry and all real electric/magnetic field vectors (and diamagnetism, ion), the assembled Hamiltonian is Hermitian.", "quantifier": "all field vectors, all sizes, all matrix elements", "why_tests_cant": "All complex values of spherical components.", "anchors": ["pairinteraction/SystemOne.cpp: initializeInteraction, addInteraction, changeToSphericalbasis"]}
{"id": "C32", "title": "Hamiltonian entries are read and written in the product basis", "statement": "getHamiltonianEntry(a,b) returns <a|H|b>; after setHamiltonianEntry(a,b,v) on a complete orthonormal basis getHamiltonianEntry(a,b)=v, getHamiltonianEntry(b,a)=conj(v), all other entries are unchanged and H stays Hermitian; addHamiltonianEntry adds v.", "quantifier": "all Hamiltonians, bases, states and values", "why_tests_cant": "All complex values; tests use real values.", "anchors": ["pairinteraction/SystemBase.cpp: getHamiltonianEntry, setHamiltonianEntry, addHamiltonianEntry"]}
{"id": "C33", "title": "constrainBasisvectors keeps exactly the chosen vectors, or fails without effect", "statement": "constrainBasisvectors(idx) yields a system whose k-th basis vector is the idx[k]-th old one with the corresponding block of H; with a duplicate or out-of-range index it throws and changes nothing.", "quantifier": "all systems and index lists", "why_tests_cant": "All index lists.", "anchors": ["pairinteraction/SystemBase.cpp: constrainBasisvectors, applyRightsideTransformator"]}
{"id": "C34", "title": "Overlaps are the squared projections and sum up to at most one", "statement": "getOverlap(s)[k] is |<s|b_k>|^2 (summed over the stored states matching a wildcard); for an orthonormal complete basis the overlaps of one state add up to one.", "quantifier": "all bases and states", "why_tests_cant": "All matrices.", "anchors": ["pairinteraction/SystemBase.cpp: getOverlap"]}
{"id": "C35", "title": "getConnections pairs basis vectors one-to-one", "statement": "getConnections(other, threshold) returns pairs of basis vector indices in which no index of either system occurs twice, and every returned pair overlaps by more than the threshold and is mutually maximal.", "quantifier": "all pairs of systems, all thresholds", "why_tests_cant": "All matrices incl. ties and empty columns.", "anchors": ["pairinteraction/SystemBase.cpp: getConnections"]}
{"id": "C36", "title": "getBasisvectorIndex(states) assigns distinct basis vectors", "statement": "For every list of states that is not longer than the number of basis vectors, no two returned indices are equal, each is a valid index, they are the basis vectors with the largest total overlap, and each state overlaps with its basis vector.", "quantifier": "all bases and lists of states", "why_tests_cant": "All overlap matrices.", "anchors": ["pairinteraction/SystemBase.cpp: getBasisvectorIndex(std::vector)"]}
{"id": "C37", "title": "add() forms the direct sum on the union of states", "statement": "a.add(b) yields a system whose states are a's states followed by b's new ones, whose basis vectors are a's followed by b's with unchanged coefficients and block-diagonal H.", "quantifier": "all pairs of systems", "why_tests_cant": "All overlapping state lists; exception path.", "anchors": ["pairinteraction/SystemBase.cpp: add"]}
{"id": "C38", "title": "Saving and loading a system preserves its observable behaviour", "statement": "A system that is serialised and loaded again behaves like the original for all later calls.", "quantifier": "all systems, all later call sequences", "why_tests_cant": "Later behaviour depends on every stored member.", "anchors": ["pairinteraction/SystemOne.hpp: serialize", "pairinteraction/SystemTwo.hpp: serialize", "pairinteraction/MatrixElementCache.hpp: serialize", "pairinteraction/SystemBase.hpp: serialize"]}
{"id": "C39", "title": "unitarize replaces the basis by an orthonormal labelled one without changing H", "statement": "unitarize() leaves the Hamiltonian unchanged, makes the basis matrix the identity and gives the k-th artificial state a label determined by the k-th old basis vector; different vectors get different labels.", "quantifier": "all systems", "why_tests_cant": "Hash labels over all vectors.", "anchors": ["pairinteraction/SystemBase.cpp: unitarize"]}
{"id": "C40", "title": "Pair bases cover every pair exactly once under exchange symmetry", "statement": "For two atoms with the same one-atom basis (of definite parity if inversion symmetry is asked for, of definite m if a total m is asked for): with permutation (or inversion) symmetry the pair (a,b) and (b,a) are represented by exactly one symmetrised vector, pairs (a,a) only in the sector that contains them; the union of both sectors is a basis of the product space; each vector is normalised and has the declared exchange symmetry.", "quantifier": "all numbers of one-atom basis vectors", "why_tests_cant": "Index-pair enumeration for every size.", "anchors": ["pairinteraction/SystemTwo.cpp: initializeBasis, addBasisvectors"]}
{"id": "C41", "title": "Selecting one-atom basis vector pairs by index is checked", "statement": "setOneAtomBasisvectors(pairs) with valid indices either uses exactly the given pairs (without symmetries) or throws.", "quantifier": "all index pairs", "why_tests_cant": "All index values.", "anchors": ["pairinteraction/SystemTwo.cpp: setOneAtomBasisvectors, initializeBasis"]}
{"id": "C42", "title": "C6 of a pair state sums over all dipole-coupled intermediate states", "statement": "getC6(state, deltaN) visits exactly the pair states with n within deltaN and l,j,m satisfying the E1 selection rules for both atoms, each once, and only physically valid ones.", "quantifier": "all states, all deltaN", "why_tests_cant": "Case analysis in l, j, m, s.", "anchors": ["pairinteraction/PerturbativeInteraction.cpp: getC6(StateTwo)"]}
{"id": "C43", "title": "The C6 matrix includes every intermediate state coupled to both row and column", "statement": "For every pair (row,col) of states the C6 matrix element sums over all intermediate pair states dipole-coupled to both row and column (except those in the subspace).", "quantifier": "all pairs of states", "why_tests_cant": "Case analysis in l (equal or differing by two) and j.", "anchors": ["pairinteraction/PerturbativeInteraction.cpp: getC6(vector)"]}
{"id": "C44", "title": "Effective C3 and C6 matrices are symmetric and angle terms are consistent", "statement": "The matrices returned are symmetric for every list of states; the angle-dependent coefficients at angle 0 equal the dedicated angle-0 coefficients and are symmetric under exchange of the atoms.", "quantifier": "all state lists, all angles", "why_tests_cant": "All angles, sizes.", "anchors": ["pairinteraction/PerturbativeInteraction.cpp: getC3, getC6, initializeAngleTerms"]}
{"id": "C45", "title": "Vacuum Green tensors are derivatives of the Coulomb potential", "statement": "For every non-zero separation, the dipole-dipole tensor is the Hessian of 1/r (symmetric, traceless), the quadrupole-dipole tensor is its gradient (fully symmetric, traceless) and the dipole-quadrupole tensor is the negative of it.", "quantifier": "all separations", "why_tests_cant": "Identity over the reals.", "anchors": ["pairinteraction/GreenTensor.cpp: getDDTensorVacuum, getDQTensorVacuum, getQDTensorVacuum"]}
{"id": "C46", "title": "Plate Green tensors are derivatives of the image potential", "statement": "With a surface the additional dipole-dipole tensor and its quadrupole counterparts are the derivatives of the image dipole field; in particular the divergence of the quadrupole-dipole tensor vanishes.", "quantifier": "all positions above the plate", "why_tests_cant": "Identity over the reals.", "anchors": ["pairinteraction/GreenTensor.cpp: getDDTensorPlate, getQDTensorPlate, getDQTensorPlate"]}
{"id": "C47", "title": "Green tensors always reflect the current geometry", "statement": "For every history of addSurface and get*Tensor calls, the tensors returned are those of the geometry set by the last successful addSurface.", "quantifier": "all call histories", "why_tests_cant": "Lazy evaluation flags and exception path.", "anchors": ["pairinteraction/GreenTensor.cpp: addSurface, getDDTensor, getDQTensor, getQDTensor"]}
{"id": "C48", "title": "Binary serialisation of values round-trips", "statement": "Writing any sequence of scalars and vectors (of fewer than 2^31 elements) with Serializer and reading it with the same types yields the same values (a vector variable that already has elements keeps them in front of the ones that are read); a truncated stream always raises an error.", "quantifier": "all sequences of typed values, all truncation points", "why_tests_cant": "All byte sequences.", "anchors": ["pairinteraction/Serializable.hpp: Serializer"]}
{"id": "C49", "title": "Corrupted byte streams are rejected", "statement": "Reading any byte string either raises an error or only accesses bytes of this string.", "quantifier": "all byte strings", "why_tests_cant": "All byte strings incl. negative lengths.", "anchors": ["pairinteraction/Serializable.hpp: Serializer::deserialize"]}
{"id": "C50", "title": "Saved matrices load back unchanged", "statement": "Storing any sparse matrix (Hamiltonianmatrix::serialize / cereal) and loading it yields the same matrix.", "quantifier": "all sparse matrices", "why_tests_cant": "Depends on the position of empty columns.", "anchors": ["pairinteraction/Hamiltonianmatrix.cpp: doSerialization, doDeserialization", "pairinteraction/serialization_eigen.hpp"]}
{"id": "C51", "title": "The on-disk matrix cache survives crashes", "statement": "If runs of the calculation are killed at arbitrary points, a later run with the same configuration that finishes returns the matrix for that configuration.", "quantifier": "all crash points, any number of crashed runs", "why_tests_cant": "Crash points.", "anchors": ["pairinteraction/HamiltonianOne.cpp: build", "pairinteraction/HamiltonianTwo.cpp: calculate", "pairinteraction/Hamiltonianmatrix.cpp: save, load"]}
{"id": "C52", "title": "The on-disk matrix cache never mixes up parameters", "statement": "A matrix stored for one set of field/distance values is never returned for a different one.", "quantifier": "all parameter values", "why_tests_cant": "Needs two nearby parameter values.", "anchors": ["pairinteraction/HamiltonianOne.cpp: build", "pairinteraction/ConfParser.hpp: Configuration::value::operator<<"]}
{"id": "C53", "title": "The cache table exists before it is queried, for every schedule of worker threads", "statement": "No worker thread queries the table before it has been created.", "quantifier": "all schedules", "why_tests_cant": "Schedules.", "anchors": ["pairinteraction/HamiltonianOne.cpp: build", "pairinteraction/HamiltonianTwo.cpp: calculate"]}
{"id": "C54", "title": "A negative delta means an unlimited quantum number range", "statement": "With deltaL/J/MSingle < 0 the one-atom basis contains all l, j, m values allowed by n.", "quantifier": "all start states", "why_tests_cant": "Depends on the sign of the start state's m.", "anchors": ["pairinteraction/Basisnames.cpp: BasisnamesOne::build"]}
{"id": "C55", "title": "Basis state indices equal list positions after state removal", "statement": "After removeUnnecessaryStates the remaining states keep their order and the i-th has index i; the pair basis lists pairs in row-major order of the one-atom bases.", "quantifier": "all masks, all bases", "why_tests_cant": "All masks.", "anchors": ["pairinteraction/Basisnames.cpp: removeUnnecessaryStates, BasisnamesTwo::build"]}
{"id": "C56", "title": "Configurations behave like maps and survive a JSON round trip", "statement": "operator+= overrides with the right-hand side and keeps other keys, == compares all entries, const access throws on missing keys, loading a saved configuration yields an equal one.", "quantifier": "all configurations", "why_tests_cant": "All key sets.", "anchors": ["pairinteraction/ConfParser.hpp: Configuration", "pairinteraction/ConfParser.cpp"]}
{"id": "C57", "title": "Radial grid search finds the grid point or reports failure", "statement": "findidx(x, value) with a positive tolerance returns an index whose grid value equals the requested one within the tolerance, terminates, and finds every grid value of a strictly increasing grid.", "quantifier": "all strictly increasing grids", "why_tests_cant": "All grids.", "anchors": ["pairinteraction/Wavefunction.hpp: findidx"]}
{"id": "C58", "title": "Matrix dimensions always match", "statement": "In every history of calls on a system, every matrix product and sum performed by the library has matching dimensions (otherwise Eigen's behaviour is undefined); in particular data kept for later parameter changes always fit the current basis.", "quantifier": "all histories of public calls", "why_tests_cant": "All histories.", "anchors": ["pairinteraction/SystemBase.cpp: applyRightsideTransformator, canonicalize, add, constrainBasisvectors"]}
{"id": "C59", "title": "Reflection-symmetrised one-atom bases are orthonormal", "statement": "With a conserved parity under reflection the basis vectors built from the quantum number ranges are orthonormal, and every pair of mirrored states contributes exactly one vector of the requested parity.", "quantifier": "all ranges, parities and momentum restrictions", "why_tests_cant": "All ranges.", "anchors": ["pairinteraction/SystemOne.cpp: initializeBasis, addSymmetrizedBasisvectors"]}
{"id": "C60", "title": "The pair geometry is consistent", "statement": "After any sequence of setDistance/setDistanceVector/setAngle calls with positive distances and non-zero vectors, the stored distance is the length of the stored distance vector, setDistance keeps the direction and setAngle gives the vector d(sin a, 0, cos a).", "quantifier": "all sequences of setters, all real arguments", "why_tests_cant": "All histories and all reals.", "anchors": ["pairinteraction/SystemTwo.cpp: setDistance, setAngle, setDistanceVector"]}
{"id": "C61", "title": "Forgetting the state mixing gives one-to-one labels", "statement": "forgetStatemixing succeeds exactly if every basis vector is dominated by one state; afterwards the basis vectors are unit vectors of pairwise distinct states, still orthonormal.", "quantifier": "all square or rectangular bases", "why_tests_cant": "All matrices.", "anchors": ["pairinteraction/SystemBase.cpp: forgetStatemixing, getMainStates"]}
{"id": "C62", "title": "The one-atom Hamiltonian is the physical one", "statement": "The matrix built for a single atom equals the field-free energies minus E.d minus B.mu plus the diamagnetic term (B x r)^2 q^2/8m plus the ion multipole terms, where the spherical components are those of the user's Cartesian field vectors.", "quantifier": "all field vectors, all states", "why_tests_cant": "Holds for every field direction, tests sample a few.", "anchors": ["pairinteraction/SystemOne.cpp: setEfield, setBfield, initializeInteraction, addInteraction, changeToSphericalbasis"]}
{"id": "C63", "title": "Manually written Hamiltonian entries persist", "statement": "Entries written with setHamiltonianEntry/addHamiltonianEntry remain part of the Hamiltonian when fields or distances are changed later.", "quantifier": "all systems, all entries, all later parameter changes", "why_tests_cant": "Depends on the order of calls.", "anchors": ["pairinteraction/SystemBase.cpp: setHamiltonianEntry, addHamiltonianEntry, buildHamiltonian"]}
{"id": "C64", "title": "getMainStates labels each basis vector with its largest contribution", "statement": "If every basis vector has a stored coefficient, for every basis vector the returned state is the one with the largest coefficient, and there is one state per basis vector.", "quantifier": "all bases", "why_tests_cant": "All matrices, including empty columns.", "anchors": ["pairinteraction/SystemBase.cpp: getMainStates"]}
{"id": "C65", "title": "The dipole-dipole interaction does not depend on the calculation method", "statement": "At order 3 the interaction matrix elements equal kC (a.b/r^3 - 3(a.R)(b.R)/r^5), up to the tolerance below which tensor elements are dropped, whether they are calculated with the Green tensor, the angle-dependent formula or the multipole expansion, and whichever sequence of setters led to the geometry; real-valued systems give the same numbers in the xz plane.", "quantifier": "all setter sequences, all distance vectors, all one-atom matrix elements obeying the selection rules", "why_tests_cant": "Three code paths and all geometries; tests sample a few distances.", "anchors": ["pairinteraction/SystemTwo.cpp: initializeInteraction, addInteraction, setDistance, setAngle, setDistanceVector, enableGreenTensor"]}
{"id": "C66", "title": "The dipole-quadrupole interaction does not depend on the calculation method", "statement": "At order 4 the Green tensor approach and the multipole expansion yield the same matrix elements for atoms on the z axis; the quadrupole table used by the Green tensor approach is the Cartesian quadrupole tensor.", "quantifier": "all z, all one-atom matrix elements obeying the selection rules", "why_tests_cant": "All matrix elements and both orientations.", "anchors": ["pairinteraction/SystemTwo.cpp: initializeInteraction, addInteraction", "pairinteraction/GreenTensor.cpp"]}
{"id": "C67", "title": "Numbers written to a Configuration are read back", "statement": "A number stored in a Configuration with operator<< is the number obtained with operator>>.", "quantifier": "all integers, all doubles", "why_tests_cant": "Holds for every number or not.", "anchors": ["pairinteraction/ConfParser.hpp: value::operator<<, value::operator>>"]}
{"id": "C68", "title": "Steps whose parameters are written equally can be processed concurrently", "statement": "Several threads may process steps of a scan whose parameters are written with the same strings; the scan completes.", "quantifier": "all schedules, all parameters", "why_tests_cant": "Depends on the schedule.", "anchors": ["pairinteraction/HamiltonianOne.cpp: build", "pairinteraction/HamiltonianTwo.cpp: calculate"]}
{"id": "C69", "title": "Radial matrix elements use every common grid point", "statement": "For every pair of states the search for the common part of the two radial grids succeeds despite rounding, the sum runs over exactly the grid points at common radii except the last one, each once, and exchanging the two states uses the same points.", "quantifier": "all pairs of radial grids (inner ends, numbers of points)", "why_tests_cant": "Rounding errors differ for every pair of grids.", "anchors": ["pairinteraction/Wavefunction.hpp: IntegrateRadialElement, findidx", "pairinteraction/Wavefunction.cpp: Numerov::Numerov, Whittaker::Whittaker"]}
{"id": "C70", "title": "Numerov wavefunctions are normalised", "statement": "With Numerov's method the radial matrix element of r^0 of a state with itself is one, up to rounding: with n grid points the error is at most (2n + 16) 2^-52, unless intermediate values overflow or underflow.", "quantifier": "all states, all potentials, all grids with at least two points", "why_tests_cant": "All potentials, and rounding errors add up over grids of any length.", "anchors": ["pairinteraction/Wavefunction.cpp: Numerov::integrate", "pairinteraction/Wavefunction.hpp: IntegrateRadialElement"]}
{"id": "C71", "title": "Truncated pickles are refused", "statement": "Loading a pickled system from a truncated string raises an exception, wherever it was cut, and never reads outside the string; bytes behind the object are ignored.", "quantifier": "all systems, all cut positions, all damaged bytes", "why_tests_cant": "There are as many damaged inputs as byte strings.", "anchors": ["pairinteraction/Interface.i: __getstate__, __setstate_internal, __setstate__", "pairinteraction/serialization_eigen.hpp", "pairinteraction/SystemBase.hpp: serialize"]}
{"id": "C72", "title": "Wigner's rotation matrices", "statement": "For all j, m, m' and all angles WignerD evaluates Wigner's formula d^j_{m'm}(beta), multiplied by the phases of the other two angles (in exact arithmetic; the shortcut for pi/2 is consistent with the general case); the matrices are unitary, angles of rotations about y add up, the inverse rotation has the transposed matrix.", "quantifier": "all quantum numbers, all angles", "why_tests_cant": "All j and all real angles.", "anchors": ["pairinteraction/WignerD.cpp", "pairinteraction/WignerD.hpp"]}
{"id": "C73", "title": "Rotated states", "statement": "The matrix with which a system rotates its states has the Wigner D-matrix elements between states that differ only in m, for one atom and for pairs. If all Zeeman levels are present rotated states are orthonormal, consecutive rotations compose, and the inverse rotation is the adjoint; no rotation is the identity. The norm of a rotated state never exceeds one. Artificial states, and angles that real scalars cannot represent, are refused.", "quantifier": "all lists of states, all angles, real and complex scalars", "why_tests_cant": "All bases and all angles.", "anchors": ["pairinteraction/SystemOne.cpp: buildStaterotator", "pairinteraction/SystemOne.hpp: addRotated", "pairinteraction/SystemTwo.cpp: buildStaterotator", "pairinteraction/SystemTwo.hpp: addRotated"]}
{"id": "C74", "title": "Fields given in another coordinate system", "statement": "setEfield and setBfield with axes (not zero) or Euler angles store the components of the field along the rotated axes: length and angles between fields are kept, no component is lost, axes that are not orthogonal are refused, axes and angles agree, and fields are rotated in the same way as states.", "quantifier": "all fields, all axes, all Euler angles", "why_tests_cant": "All real vectors and angles.", "anchors": ["pairinteraction/SystemOne.cpp: setEfield, setBfield, rotateVector", "pairinteraction/SystemBase.cpp: buildRotator"]}
{"id": "C75", "title": "The Schrieffer-Wolff transformation gives the effective Hamiltonian", "statement": "After applySchriefferWolffTransformation(system0) the system consists of orthonormal vectors that span the space of the eigenvectors with the largest overlap with system0 and that are as close as possible to the vectors of system0 (overlap matrix Hermitian and positive definite, which determines them); its Hamiltonian is the old one between these vectors and has exactly the selected energies. Systems that do not fit are refused. The result stays consistent when fields are changed afterwards.", "quantifier": "all systems, all perturbations, all later calls", "why_tests_cant": "All Hamiltonians and all dimensions.", "anchors": ["pairinteraction/SystemBase.cpp: applySchriefferWolffTransformation, applyRightsideTransformator"]}
{"id": "C76", "title": "The pair basis of the command line program has the requested symmetries", "statement": "The pair basis that the command line program builds for a block (inversion, reflection, permutation, total magnetic quantum number) consists of the (anti)symmetrized products of the one-atom basis vectors whose energies are within the cutoff: each exactly once, normalized, orthogonal to the others, with the sum of the energies, and an eigenvector of the requested symmetry; the blocks together contain every product. No amplitude is written outside of the matrix.", "quantifier": "all one-atom bases, all symmetries, all cutoffs", "why_tests_cant": "All bases and all dimensions.", "anchors": ["pairinteraction/Hamiltonianmatrix.cpp: combine", "pairinteraction/HamiltonianTwo.cpp: calculate"]}
{"id": "C77", "title": "No pair state is left out of the interaction", "statement": "The interaction is computed for exactly those pair states that occur in a product of basis vectors within the energy cutoff at some step and that fit to a requested symmetry; this list contains every state with an amplitude in a basis vector of any block, it does not depend on the schedule of the threads, and blocks that are left out do not contain the initial state.", "quantifier": "all one-atom bases, all steps, all symmetries, all schedules of the threads", "why_tests_cant": "All bases and all interleavings.", "anchors": ["pairinteraction/Hamiltonianmatrix.cpp: energycutoff", "pairinteraction/HamiltonianTwo.cpp: calculate"]}
{"id": "C78", "title": "Restricting the one-atom states keeps names and matrices aligned", "statement": "After the states of one atom were restricted by energy or by quantum numbers the list of the states contains exactly those within the limits, numbered consecutively, and in the matrices of all steps the amplitude of every remaining state in every basis vector, and its energy, is that of the same state before.", "quantifier": "all lists of states, all limits, all matrices", "why_tests_cant": "All bases and all restrictions.", "anchors": ["pairinteraction/HamiltonianTwo.cpp: calculate", "pairinteraction/HamiltonianOne.cpp: build", "pairinteraction/Hamiltonian.hpp: removeUnnecessaryStates", "pairinteraction/Basisnames.cpp: removeUnnecessaryStates", "pairinteraction/Hamiltonianmatrix.cpp: removeUnnecessaryStates"]}
{"id": "C79", "title": "The interaction of the command line program is the multipole expansion", "statement": "Between the pair states used in the calculation the matrix for 1/R^p contains the coefficient of the multipole expansion of the Coulomb interaction of two atoms on the z axis (the same number as in the library), apart from values below the tolerance, for every p from 3 to the configured exponent; the Hamiltonian of a step is the energies plus these matrices between the basis vectors, divided by the powers of the distance, and Hermitian.", "quantifier": "all one-atom bases, all matrix elements, all exponents, all distances", "why_tests_cant": "All bases, all orders and all distances.", "anchors": ["pairinteraction/HamiltonianTwo.cpp: calculate", "pairinteraction/Hamiltonianmatrix.cpp: changeBasis, compress", "pairinteraction/MatrixElements.cpp: selectionRulesMultipole"]}
{"id": "C80", "title": "The atom in fields in the command line program", "statement": "At every step the matrix that is diagonalized is Hermitian and contains the energies and the interaction with the electric and magnetic field of the step, including diamagnetism if requested; the fields go linearly from the minimal to the maximal ones; with real numbers a field along y is refused.", "quantifier": "all fields, all one-atom bases, all matrix elements, all steps", "why_tests_cant": "All fields and all bases.", "anchors": ["pairinteraction/HamiltonianOne.cpp: build, changeToSpherical, configure", "pairinteraction/Hamiltonianmatrix.cpp: diagonalize", "pairinteraction/MatrixElements.cpp: selectionRulesMomentum, selectionRulesMultipole"]}
{"id": "C81", "title": "Matrix elements of the command line program", "statement": "For spin 1/2 states, whatever precalculations and queries an object has seen and whatever other processes have written into the cache file, a query that comes after its precalculation returns the product of the factors, each exact or rounded to six digits, so that the result deviates by at most 2.1e-5 of its value; the program asks only for elements it has precalculated; the file contains only correct values.", "quantifier": "all histories of calls, all states, all contents of the cache file, all interleavings with other processes", "why_tests_cant": "All histories and all files.", "anchors": ["pairinteraction/MatrixElements.cpp: precalculate, getMultipole, getDiamagnetism, getMagneticMomentum, getRadial", "pairinteraction/HamiltonianOne.cpp: build", "pairinteraction/HamiltonianTwo.cpp: calculate"]}
{"id": "C82", "title": "Runs of the command line program are reproducible", "statement": "The same calculation gives the same matrix elements in every run, whatever the cache file contained before; runs at the same time do not disturb each other; values that are in the file are used.", "quantifier": "all histories of runs on the same cache file", "why_tests_cant": "All histories and all interleavings.", "anchors": ["pairinteraction/MatrixElements.cpp: precalculate, MatrixElements", "pairinteraction/SQLite.hpp: handle::exec"]}
{"id": "C83", "title": "Matrices and vectors passed between C++ and Python keep their values", "statement": "A vector, a dense or a sparse matrix returned to Python and having 1 to 2^31-1 (stored) elements has there the shape and the elements it has in C++, copied or viewed; an array with at least one dimension (a sparse matrix with 32 bit indices) passed from Python has in C++ the elements it has in Python or is rejected with an exception; what Python gets and gives back is unchanged.", "quantifier": "all vectors and matrices, all memory layouts of Python's arrays, all element types", "why_tests_cant": "All sizes (also none), strides and index types.", "anchors": ["pairinteraction/NumpyUtils.hpp: convert, check_array_sanity, sparse_impl, as, as_dense_impl, check_order_and_alignment", "pairinteraction/Interface.i: typemaps"]}
{"id": "C84", "title": "A matrix that Python has got stays valid", "statement": "A vector or matrix that a method returned to Python can be read at any later time and shows the values it had when it was returned, unless Python itself changes it; changing it does not change the system.", "quantifier": "all histories of getting, changing, recomputing, destroying", "why_tests_cant": "All histories; reading freed memory often goes unnoticed in tests.", "anchors": ["pairinteraction/NumpyUtils.hpp: convert, sparse_impl", "pairinteraction/Interface.i: typemaps", "pairinteraction/SystemBase.hpp: getHamiltonian, getBasisvectors"]}
{"id": "C85", "title": "Invalid arguments are refused", "statement": "A call with an argument that makes no sense - an empty species name, an index outside of the list, more states than basis vectors, a tolerance of zero, a zero or negative distance, a zero vector as an axis, an array without dimensions or with indices of another integer type, something else than bytes as a pickle - throws an exception; it never leads to undefined behaviour, endless recursion or a silently wrong result.", "quantifier": "all arguments of the listed methods", "why_tests_cant": "All invalid values; undefined behaviour often goes unnoticed in tests.", "anchors": ["pairinteraction/State.cpp: StateOne", "pairinteraction/SystemBase.cpp: getOverlap, getBasisvectorIndex, getMainStates", "pairinteraction/Wavefunction.cpp: findidx", "pairinteraction/SystemTwo.cpp: setDistance, setDistanceVector, setOneAtomBasisvectors", "pairinteraction/SystemOne.cpp: rotateVector", "pairinteraction/NumpyUtils.hpp: as", "pairinteraction/Interface.i: __setstate__"]}
{"id": "C86", "title": "Objects of every size can be stored and passed to Python", "statement": "Vectors and matrices of any size, including empty ones and those with 2^31 or more elements, are stored in archives and returned to Python unchanged.", "quantifier": "all sizes", "why_tests_cant": "Sizes beyond 2^32 cannot be tested; the empty case is easily forgotten.", "anchors": ["pairinteraction/Serializable.hpp: Serializer", "pairinteraction/NumpyUtils.hpp: convert, check_array_sanity"]}
{"id": "C87", "title": "An interaction order below three switches the multipole interaction off", "statement": "setOrder(2) gives no dipole-dipole interaction, whatever the geometry, since it is of order three.", "quantifier": "all geometries", "why_tests_cant": "All geometries and states.", "anchors": ["pairinteraction/SystemTwo.cpp: initializeInteraction, setOrder"]}
{"id": "C88", "title": "Rotated states are not lost", "statement": "Rotating a state whose Zeeman levels are not all in the basis is refused or keeps its norm.", "quantifier": "all states, all sets of levels, all angles", "why_tests_cant": "All bases.", "anchors": ["pairinteraction/SystemOne.cpp: rotateStates, buildStaterotator"]}
{"id": "C89", "title": "add() gives the system with the states of both", "statement": "The system obtained by a.add(b) with fields has the Hamiltonian of the system constructed with the states of both.", "quantifier": "all pairs of systems", "why_tests_cant": "All systems and fields.", "anchors": ["pairinteraction/SystemBase.cpp: add"]}
{"id": "C90", "title": "Transformed systems react correctly to new parameters", "statement": "After rotate() or unitarize() a later change of the fields gives the Hamiltonian of the new fields between the transformed vectors, or throws.", "quantifier": "all histories", "why_tests_cant": "All histories.", "anchors": ["pairinteraction/SystemBase.cpp: rotate, unitarize, buildHamiltonian, diagonalize"]}
{"id": "C91", "title": "Objects can be used after a refused or finished request", "statement": "After an exception caused by states added too late a system can be used again once the cause is removed; a statement whose rows have all been delivered can be used for another query.", "quantifier": "all histories of calls", "why_tests_cant": "All histories.", "anchors": ["pairinteraction/SystemBase.cpp: buildBasis", "pairinteraction/SQLite.hpp: statement"]}
{"id": "C92", "title": "Matrix elements that were not precalculated are not guessed", "statement": "A query of the matrix elements of the command line program without the precalculation it needs throws, or returns the correct value.", "quantifier": "all histories of precalculations and queries", "why_tests_cant": "All histories.", "anchors": ["pairinteraction/MatrixElements.cpp: getMultipole, getRadial, getMagneticMomentum, getDiamagnetism"]}
{"id": "C93", "title": "Damaged pickles are refused", "statement": "Loading a pickle in which bytes were changed throws, or gives a well-formed system.", "quantifier": "all byte strings", "why_tests_cant": "All damages.", "anchors": ["pairinteraction/Serializable.hpp", "pairinteraction/serialization_eigen.hpp: load", "pairinteraction/Interface.i: __setstate__"]}
{"id": "C94", "title": "Symmetries that the one-atom bases do not have are refused", "statement": "If symmetries of the pair basis are requested that its one-atom bases do not allow (basis vectors of mixed parity, different atoms, vectors without mirror image, artificial states, a choice of pairs that is not symmetric), the request throws; it never gives vectors that are not normalised, repeated vectors, missing pairs or undefined behaviour.", "quantifier": "all one-atom bases, all requested symmetries", "why_tests_cant": "All combinations.", "anchors": ["pairinteraction/SystemTwo.cpp: initializeBasis, addBasisvectors"]}
{"id": "C95", "title": "An assignment of basis vectors is found if there is one", "statement": "If the searched states can be assigned to different basis vectors with which they overlap, getBasisvectorIndex(states) returns an assignment.", "quantifier": "all bases, all lists of states", "why_tests_cant": "All overlap matrices.", "anchors": ["pairinteraction/SystemBase.cpp: getBasisvectorIndex"]}
{"id": "C96", "title": "Blocks of different symmetry are not coupled", "statement": "The command line program diagonalises the blocks of a pair Hamiltonian that belong to different symmetries (gerade/ungerade, symmetric/antisymmetric, reflection +/-, total magnetic quantum number) separately: the interaction has no matrix element between basis vectors of different blocks (permutation: the odd powers of 1/R, i.e. the dipole-dipole and quadrupole-quadrupole interaction).", "quantifier": "all atoms, states, orders of the multipole expansion, one-atom basis vectors with the required quantum numbers", "why_tests_cant": "All bases and orders; a wrong sign in the expansion or in the symmetrisation shows up only between certain states.", "anchors": ["pairinteraction/HamiltonianTwo.cpp: build", "pairinteraction/Hamiltonianmatrix.cpp: combine", "pairinteraction/MatrixElements.cpp: getMultipole"]}
{"id": "C97", "title": "Symmetries that the interaction breaks are refused", "statement": "If the requested order of the multipole expansion contains terms that couple the permutation blocks (dipole-quadrupole), the command line program does not diagonalise these blocks separately.", "quantifier": "all atoms, states, orders of the multipole expansion", "why_tests_cant": "All bases and orders.", "anchors": ["pairinteraction/HamiltonianTwo.cpp: build", "pairinteraction/Hamiltonianmatrix.cpp: combine"]}
{"id": "C98", "title": "The interaction of two atoms is Hermitian", "statement": "The matrix that SystemTwo builds for the interaction of two atoms is Hermitian, and each of its entries, those above the diagonal too, is the interaction calculated for the two states of this row and this column: completing the computed triangle by conjugation gives what the formula for the other entry would have given. It throws only if some entry cannot be calculated.", "quantifier": "all pairs of states, distance vectors, surfaces, orders of the multipole expansion, radial matrix elements, real and complex scalars", "why_tests_cant": "All states, geometries and values of matrix elements.", "anchors": ["pairinteraction/SystemTwo.cpp: initializeInteraction, addInteraction"]}
{"id": "C99", "title": "The interaction of two atoms has the symmetries the user asks SystemTwo to conserve", "statement": "If a symmetry is set in SystemTwo (inversion, permutation, reflection, rotation), the basis vectors of different symmetry are not coupled by the interaction at the geometry and order that were set, so that the sectors can be treated separately.", "quantifier": "all one-atom systems, restrictions, distance vectors, surfaces, orders, radial matrix elements", "why_tests_cant": "All states, geometries, orders and bases.", "anchors": ["pairinteraction/SystemTwo.cpp: initializeBasis, initializeInteraction, setConservedParityUnderInversion, setConservedParityUnderPermutation, setConservedMomentaUnderRotation", "pairinteraction/GreenTensor.cpp: getDQTensorPlate"]}
{"id": "C100", "title": "Warning about distances below the Le Roy radius", "statement": "Computing the interaction at a distance that is smaller than the Le Roy radius 2(sqrt<r1^2>+sqrt<r2^2>) of a pair state of the basis prints a warning; every warning names the radius of a pair state of the basis and is true.", "quantifier": "all systems of two atoms, all histories of restricting, adding, building and exceptions, all distances", "why_tests_cant": "All histories: the radius is remembered from earlier calculations.", "anchors": ["pairinteraction/SystemTwo.cpp: checkDistance, initializeInteraction, onStatesChange", "pairinteraction/State.cpp: StateTwo::getLeRoyRadius", "pairinteraction/SystemBase.cpp: updateEverything, add"]}
{"id": "C101", "title": "Dipole elements loaded from a file are the ones used", "statement": "After loadElectricDipoleDB(file, species) has returned, getElectricDipole of every transition the file lists is the Wigner-Eckart value for the reduced element on its last line, for the states in the order listed, whatever was calculated or failed before, and stays so through all later requests with the same method; all other elements, and the shared database, are as if nothing had been loaded; lines that are not numbers are skipped.", "quantifier": "all files, all states, all histories of requests, precalculations, settings, failures and loads before and after", "why_tests_cant": "All histories and files; the sign of the exchanged transition and the interplay with cached, pending and stored rows depend on what happened before.", "anchors": ["pairinteraction/MatrixElementCache.cpp: loadElectricDipoleDB, getElectricDipole, update"]}
{"id": "C102", "title": "Pair states added by hand extend the pair basis and change nothing else", "statement": "If a SystemTwo can be built without and with states added by addStates, then the second basis is the first one, unchanged, followed by one basis vector for each added pair state: the pair itself, or (under inversion or permutation symmetry) its normalised combination with the exchanged pair with the sign of the sector, used once per unordered pair; its energy is the sum of the energies of its atoms (zero for artificial ones), and neither couples to the old part. Energy restrictions do not remove added states. A state that is already in the basis or belongs to another species makes the construction throw; states that are different from all pairs of one-atom states, of the right species, with energies and with the exchanged partners that the symmetries need are accepted.", "quantifier": "all one-atom systems, symmetries, chosen pairs, restrictions and sets of added states", "why_tests_cant": "tests add one or two states to one basis; the claim is that nothing else changes, for every combination of symmetries, artificial and atomic states and partners", "anchors": ["pairinteraction/SystemTwo.cpp: initializeBasis", "pairinteraction/SystemTwo.cpp: addBasisvectors", "pairinteraction/SystemBase.cpp: addStates"]}
{"id": "C103", "title": "Diagonalization in an energy window and with a threshold", "statement": "diagonalize(lower, upper) leaves exactly the eigenvectors of the Hamiltonian with energies between the bounds: they are orthonormal, the new Hamiltonian is diagonal with their energies, and no eigenvector with an energy between the bounds is lost. diagonalize(threshold) stores the eigenvalues, and eigenvectors in which only coefficients not larger than the threshold are replaced by zero, so that the norm of each differs from one by at most the number of states times the squared threshold. A failure is reported and leaves a usable system.", "quantifier": "all systems, Hamiltonians, windows and thresholds, all answers of the eigensolver within its contract", "why_tests_cant": "All Hamiltonians and windows: the number of eigenvalues in the window is estimated from the diagonal before the solver is called.", "anchors": ["pairinteraction/SystemBase.cpp: diagonalize"]}
{"id": "C104", "title": "What the command line program computes and how it ends", "statement": "The program accepts its three options in any order and in both spellings; of several options of the same kind the last one counts. Without one of them, with an empty value or with an unknown word it calculates nothing and exits with status 1. It calculates each atom whose species and quantum numbers are given exactly once (both at once if they share the basis), and the pair exactly if both atoms and a distance are given; atoms of different species that are to share a basis are refused. The line >>END is printed exactly by runs that have finished all calculations and end with status 0, as the last line.", "quantifier": "all command lines, configuration files and failures of the calculations", "why_tests_cant": "all sequences of options and all sets of keys in the file, and a failure of any of the calculations; the program has no unit tests", "anchors": ["pairinteraction/main.cpp: main", "pairinteraction/Interface.cpp: compute"]}
{"id": "C105", "title": "The key of a stored matrix determines the calculation", "statement": "The command line program stores each diagonalized matrix under a configuration. Two calculations stored under the same configuration, in whatever runs and with whatever input files, are the same calculation: the same species, start states, ranges of quantum numbers, method for the radial matrix elements, energy windows and diamagnetism, for pairs also the same restrictions of pair states, order of the multipole expansion, sharing of the basis and symmetry; electric and magnetic fields and the distance agree to five digits. So after any history of runs a calculation ends with the matrix of the calculation that was asked for, up to this rounding.", "quantifier": "all input files, atoms, fields, distances and symmetries, all histories of runs", "why_tests_cant": "the key has up to 35 entries and a missing entry shows only when two runs differ in nothing else; tests use one input file", "anchors": ["pairinteraction/HamiltonianOne.cpp: configure, build", "pairinteraction/HamiltonianTwo.cpp: calculate", "pairinteraction/Basisnames.cpp: fromFirst, fromSecond, fromBoth, build, BasisnamesTwo", "pairinteraction/Basisnames.hpp: configure"]}
{"id": "C106", "title": "The steps of a scan of fields and distance", "statement": "The command line program calculates one Hamiltonian per atom for each step, or a single one if minimal and maximal fields agree; the fields are equally spaced, from the minimum at the first step to the maximum at the last. For pairs each step and symmetry is calculated exactly once, by whichever thread; it combines the one-atom Hamiltonians that belong to the fields of this step with the distance of this step, also equally spaced; and the number of results announced by >>TOT is the number of >>OUT lines.", "quantifier": "all fields, distances, numbers of steps, symmetries and threads, all interleavings of the threads", "why_tests_cant": "all numbers of steps and threads and all schedules; whether fields or distance are constant changes which one-atom Hamiltonian is used", "anchors": ["pairinteraction/HamiltonianOne.cpp: configure, build", "pairinteraction/HamiltonianTwo.cpp: calculate"]}
{"id": "C107", "title": "Eigenvalues and eigenvectors stored by the command line program", "statement": "Whenever the command line program diagonalizes the Hamiltonian of an atom or a pair, of which only the lower triangle has been assembled, it stores all eigenvalues of the whole Hermitian matrix in increasing order, and basis vectors that differ from exact orthonormal eigenvectors spanning the same space by at most sqrt(2(N+n))/20000 (N states, n basis vectors); their norms and overlaps deviate from those of an orthonormal basis only correspondingly. A Hamiltonian with at most one basis vector is stored unchanged.", "quantifier": "all Hamiltonians, bases, numbers of states and basis vectors, all answers of the eigensolver within its contract", "why_tests_cant": "all matrices: coefficients are removed twice, before and after the product with the basis, so that the deviation accumulates over all states and basis vectors", "anchors": ["pairinteraction/Hamiltonianmatrix.cpp: diagonalize", "pairinteraction/HamiltonianOne.cpp: build", "pairinteraction/HamiltonianTwo.cpp: calculate"]}
{"id": "C108", "title": "Settings that determine the basis of a pair", "statement": "The basis of a pair is built with the conserved parities, the conserved momenta and the chosen pairs of one-atom basis vectors that are in force when it is first needed. As long as the basis exists, the setters of the symmetries are refused and change nothing, so that at any later time, whatever has been called in between, the symmetries in force are those of the basis. Before that, each setter stores its value and leaves the rest alone, and it is accepted unless a reflection symmetry is combined with momenta that do not come in pairs M, -M. A refused setting is not in force, a choice of pairs made too late is refused, and after a failed build the settings can be corrected.", "quantifier": "all settings, histories of calls, requests and one-atom systems", "why_tests_cant": "all interleavings of setters, restrictions, builds and other methods on one object, including failed ones", "anchors": ["pairinteraction/SystemTwo.cpp: setConservedParityUnderPermutation, setConservedParityUnderInversion, setConservedParityUnderReflection, setConservedMomentaUnderRotation, setOneAtomBasisvectors, isRefelectionAndRotationCompatible", "pairinteraction/SystemBase.cpp: onSymmetryChange, buildBasis"]}
{"id": "C109", "title": "The radial equation and its integration", "statement": "The radial wavefunctions are solutions of the radial Schroedinger equation with the model potential and the energy of the state, in the variable sqrt(r): the equation integrated for x = sqrt(r) holds for u(x^2)/sqrt(x) exactly where the radial Schroedinger equation holds for u, and the powers of x in matrix elements are those of this substitution. Before rounding, the integration reproduces any solution with the same starting values up to an error of fourth order in the step, and has the conventional sign in the outer region; radial matrix elements approximate the integral over r with an error proportional to the step and to the error of the summands. The potential is that of the nuclear charge near the nucleus and of one charge far away; the spin-orbit term is the only one that depends on j, and averages to zero over a multiplet.", "quantifier": "all parameters of the model potential, quantum numbers, energies, wavefunctions, radii, lengths of the grid", "why_tests_cant": "all potentials and lengths: errors of each step are amplified over thousands of steps, and the substitution is a statement about functions", "anchors": ["pairinteraction/Wavefunction.cpp: model_potential::V, model_potential::g, Numerov::integrate", "pairinteraction/Wavefunction.hpp: power_kernel, IntegrateRadialElement"]}
{"id": "C110", "title": "Adding a system combines the parameters and the symmetries of both", "statement": "add() combines two systems only if they describe the same atoms in the same surroundings (species, fields, diamagnetism, ion; species, distance vector, order, Green tensor, surface, one-atom systems) and throws otherwise, leaving the system as it was. The combined system conserves a parity exactly if both systems did and allows the momenta of both; momenta and parity under reflection stay compatible; the order of the two systems does not matter.", "quantifier": "all pairs of systems of one or of two atoms, with all parameters, symmetries and built bases", "why_tests_cant": "the parameters, the symmetries and the histories of the two systems vary independently", "anchors": ["pairinteraction/SystemOne.cpp: SystemOne::incorporate", "pairinteraction/SystemTwo.cpp: SystemTwo::incorporate", "pairinteraction/SystemBase.cpp: SystemBase::add"]}
{"id": "C111", "title": "The sizes a system reports are those of what it returns", "statement": "getNumStates returns the number of states of getStates and of rows of getBasisvectors; getNumBasisvectors the number of columns of getBasisvectors, which is the number of rows and columns of getHamiltonian, whatever was done to the system before; neither complains about inconsistent variables.", "quantifier": "all histories of calls of a system, including calls that threw", "why_tests_cant": "any sequence of building, restricting, constraining, rotating, combining and failing calls may precede", "anchors": ["pairinteraction/SystemBase.cpp: SystemBase::getNumStates", "pairinteraction/SystemBase.cpp: SystemBase::getNumBasisvectors"]}
{"id": "C112", "title": "A locked cache file is waited for", "statement": "If another process holds the lock on a database file, an access waits for it: it never hangs, it succeeds if the lock is released for good within 200 seconds, and otherwise ends with an exception, after at most 2000 seconds (plus the delays of the operating system). A process that waits while the lock is free again and again gets it.", "quantifier": "all behaviours of the other processes over time and all random sleeps", "why_tests_cant": "the times at which other processes take and release the lock, and the random sleeps, range over all schedules", "anchors": ["pairinteraction/SQLite.hpp: sqlite::handle::busy_handler", "pairinteraction/SQLite.hpp: sqlite::handle::install_busy_handler"]}

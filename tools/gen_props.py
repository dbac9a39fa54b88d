#!/usr/bin/env python3
# Generates properties.jsonl (one object per line). Edit here, rerun, commit both.
import json
P=[]
def p(title,statement,quantifier,why,anchors):
    P.append(dict(id="C%02d"%(len(P)+1),title=title,statement=statement,quantifier=quantifier,why_tests_cant=why,anchors=anchors))
S="pairinteraction/"
p("One- and two-atom states are strictly totally ordered, consistently with == and !=",
  "For StateOne and StateTwo, operator< is irreflexive and transitive, exactly one of a<b, a==b, b<a holds for every pair, a!=b is the negation of a==b, a<=b is (a<b or a==b), and a==b holds exactly when species and all quantum numbers of both atoms coincide. Hence states may be used as keys of ordered containers.",
  "all pairs and triples of states (quantum-number and artificial), all species strings",
  "Order laws quantify over all triples of states; a test only samples a few.",
  [S+"State.cpp: StateOne::operator==, !=, <, <=",S+"State.cpp: StateTwo::operator==, !=, <, <="])
p("States that compare equal have equal hashes",
  "Whenever two states that were built with the public constructors compare equal, their hash values are equal, for any string/int/float hash functions of the standard library, so unordered containers never hold two equal states.",
  "all pairs of constructed states, all base hash functions",
  "Needs all pairs and all platform hash functions.",
  [S+"State.cpp: StateOne::StateOne, StateTwo::StateTwo",S+"utils.hpp: hash_combine"])
p("Reflection is an involution that only flips the magnetic quantum numbers",
  "For every state with quantum numbers, getReflected() yields the state with the same species, n, l, j and negated m (for both atoms of a pair); applying it twice yields a state equal to the original with the same hash; on an artificial state it throws instead of returning something.",
  "all one- and two-atom states",
  "All quantum numbers, including artificial atoms inside a pair.",
  [S+"State.cpp: StateOne::getReflected, StateTwo::getReflected"])
p("Wildcard matching accepts exactly the states agreeing on all non-ARB quantum numbers",
  "s ^ g holds iff the species agree and every quantum number of g that is not ARB equals the one of s; in particular for g without any ARB it coincides with s == g, and it is monotone: replacing a quantum number of g with ARB never removes matches.",
  "all states s and all patterns g",
  "Quantifies over every pattern and state.",
  [S+"State.cpp: StateOne::operator^, StateTwo::operator^, isGeneralized"])
p("Artificial states reveal only their label; Rydberg states reveal only quantum numbers",
  "A state made from a label returns exactly this label and every quantum number getter throws; a state made from a (non-empty) species name and quantum numbers (principal quantum number not 0) returns exactly the values passed to the constructor and getLabel throws; constructing with principal quantum number 0 throws.",
  "all labels, all quantum numbers",
  "All labels/quantum numbers and all getters.",
  [S+"State.cpp: StateOne getters, shouldBeArtificial, isArtificial"])
p("A wildcard on either atom of a pair state selects all matching pair states",
  "getOverlap with a pair pattern that contains ARB in the quantum numbers of at least one atom considers every stored pair state that matches the pattern; getStateIndex returns the index of the stored state equal to its argument, or throws.",
  "all pair-state lists and all patterns with one or two generalized atoms",
  "Needs every pattern shape; tests only use patterns where both atoms are generalized.",
  [S+"SystemBase.cpp: getOverlap, getStateIndex",S+"utils.hpp: is_true",S+"State.cpp: StateTwo::isGeneralized"])
p("Symmetry is strictly totally ordered",
  "operator< on Symmetry is irreflexive, transitive and total modulo equality of the four members, so Symmetry is usable as a key of std::set / std::map.",
  "all symmetries (any int rotation)",
  "Order laws range over all triples.",
  [S+"Symmetry.hpp: operator<"])
p("The thread-safe cache behaves like an insert-once map under every interleaving",
  "For any number of threads issuing save/restore in any interleaving, restore(k) returns a value v iff some save(k,v) completed successfully before it (and no clear since), at most one save per key succeeds between clears, a save on an existing key throws and changes nothing.",
  "all programs of all threads, all interleavings, all keys/values",
  "Schedules cannot be enumerated by tests.",
  [S+"Cache.hpp: Cache::save, Cache::restore, Cache::clear"])
p("Clearing the cache never races with a concurrent access",
  "Every pair of conflicting accesses (one of them a write) to the cache's storage that different threads perform through save/restore/clear is ordered by the cache's lock.",
  "all interleavings of two threads",
  "A data race is a property of all schedules and does not show in a test run.",
  [S+"Cache.hpp: Cache::clear"])
p("Quantum-defect data always come from the database asked for (sequential use)",
  "In a single thread, for every history of constructions, QuantumDefect(species,n,l,j,db) yields the parameters a fresh computation from database db would yield, or throws exactly when that computation would, regardless of which databases and states were used before.",
  "all histories of constructor calls with arbitrary databases",
  "Histories are unbounded; the process-wide memo is only exercised in trivial ways by tests.",
  [S+"QuantumDefect.cpp: QuantumDefect::setup"])
p("Concurrent construction of quantum defects is safe",
  "Two threads may construct QuantumDefect (or query energies) for the same state or for different databases at the same time; each gets the value a sequential run would give and none of them throws.",
  "all interleavings",
  "Only specific schedules violate it.",
  [S+"QuantumDefect.cpp: QuantumDefect::setup",S+"Cache.hpp: Cache::save"])
p("Quantum defects of high angular momentum fall back to the largest tabulated one",
  "For a species with tabulated values, the Rydberg-Ritz row used for (l,j) is the one tabulated for min(l, max tabulated l) and min(j, max tabulated j for that l); a request for an exactly tabulated (l,j) uses this row.",
  "all tables and all l,j",
  "All tables, including sparse ones.",
  [S+"QuantumDefect.cpp: QuantumDefect::setup"])
p("Selection rules are symmetric and sound",
  "selectionRulesMultipole / Momentum for (row,col,q) hold iff they hold for (col,row,-q); they reject artificial states; whenever a rule set rejects, the angular factor is zero by the triangle / m-sum rule.",
  "all pairs of states, all kappa, q",
  "All combinations of quantum numbers.",
  [S+"MatrixElementCache.cpp: selectionRulesMomentum, selectionRulesMultipoleNew, selectionRulesMultipole"])
p("Canonicalised cache keys carry the right sign",
  "For every pair of states, (canonical matrix element stored in the cache) x (sign attached to the key) equals the matrix element computed directly for the ordered pair asked for, given the symmetry relations of Wigner 3j and 6j symbols.",
  "all pairs of fine-structure states, all kappa, all conjugate orderings",
  "Sign errors only show for particular orderings/quantum numbers.",
  [S+"MatrixElementCache.cpp: CacheKey_cache_angular, CacheKey_cache_reduced_commutes, CacheKey_cache_reduced_multipole, CacheKey_cache_radial"])
p("The matrix element cache is transparent",
  "For every history of getRadial / getElectricMultipole / getMagneticDipole / precalculate calls, with or without a database file and with any pre-filled consistent database, each returned value equals the value a fresh cache computes for the same method and quantum-defect database.",
  "all call histories, all consistent database contents",
  "Histories and database contents are unbounded.",
  [S+"MatrixElementCache.cpp: getRadial, getElectricMultipole, getMagneticDipole, precalculate, update"])
p("Changing the quantum-defect database takes effect for all later matrix elements",
  "After setDefectDB(path), every matrix element returned equals the one a fresh cache configured with this database would return.",
  "all call histories",
  "Depends on what was cached before the call.",
  [S+"MatrixElementCache.cpp: setDefectDB, getRadial"])
p("A failed matrix element request does not affect later requests",
  "If a request throws (e.g. unknown species), later requests that do not involve the failing states return the same values as if the failed request had not happened.",
  "all histories with failing requests",
  "Needs failure injection at every point of the history.",
  [S+"MatrixElementCache.cpp: update, getRadial"])
p("An interrupted cache update never leaves wrong rows in the database",
  "If the process stops at any point during an update of the database, a later process that opens the database reads, for each key, either no row or the correct value.",
  "all crash points, all batches of missing elements",
  "Crash points.",
  [S+"MatrixElementCache.cpp: update",S+"SQLite.hpp: transaction"])
p("Statement protocol: stepping is only possible on prepared, unfinished statements",
  "For every history of set/prepare/step/reset/exec on a statement: step returns rows in the order SQLite delivers them, throws (instead of silently restarting) when the statement has not been prepared or already has delivered its last row, and works again after reset.",
  "all call histories, all result sets",
  "Histories unbounded.",
  [S+"SQLite.hpp: statement::step, prepare, reset, exec, set"])
p("Iterating over a statement visits every result row exactly once",
  "A range-for over a prepared statement yields exactly the rows of the result set, in order, and then ends.",
  "all result sets (any number of rows)",
  "Depends on the number of rows.",
  [S+"SQLite.hpp: statement::iterator"])
p("Restricting a quantum number to [min,max] keeps exactly the states inside",
  "After restrictN/L/J/M(min,max) (or the set variants) and buildBasis, a state with quantum numbers is kept iff each restricted quantum number lies in its range (and the energy lies in the energy window); artificial states are always kept.",
  "all ranges, all states",
  "All ranges including empty ones.",
  [S+"SystemBase.cpp: restrictN, restrictL, restrictJ, restrictM, checkIsQuantumstateValid",S+"SystemBase.hpp: range, checkIsQuantumnumberValid"])
p("SystemOne builds exactly the fine-structure states allowed by the restrictions",
  "With restrictions on n and no user-provided states, the basis of SystemOne contains exactly the states with 0<=l<n, |l-s|<=j<=l+s, -j<=m<=j in integer steps that satisfy all restrictions, the energy window and the m-symmetry, each exactly once.",
  "all restriction sets, all spins s, all energy functions",
  "Loop boundaries over unbounded ranges.",
  [S+"SystemOne.cpp: initializeBasis"])
p("State indices are always consecutive, unique and aligned with the rows of the basis matrix",
  "After every history of building, restricting, adding states or systems, unitarising and rotating, the i-th listed state has index i, no state is listed twice, and the basis matrix has as many rows as there are states.",
  "all API histories",
  "Invariant over all histories.",
  [S+"SystemBase.cpp: removeRestrictedStates, add, unitarize, updateEverything, buildBasis"])
p("Applying restrictions to an existing system keeps exactly the admissible part",
  "Restricting an already built system removes exactly the states whose quantum numbers are excluded, keeps the basis vectors with admissible energy and remaining norm above the threshold, then drops states with no more than the threshold weight in these vectors, and leaves order and coefficients of what remains unchanged.",
  "all systems, all restrictions",
  "All matrices and thresholds.",
  [S+"SystemBase.cpp: updateEverything, removeRestrictedStates, applyRightsideTransformator, applyLeftsideTransformator"])
p("Building the basis is idempotent and late states are reported",
  "buildBasis after a successful buildBasis changes nothing; states added to an already built system are reported by an exception at the next access.",
  "all histories",
  "Histories.",
  [S+"SystemBase.cpp: buildBasis, updateEverything, addStates"])
p("The Hamiltonian depends only on the current parameters, not on the history",
  "For every history of setting parameters, building the Hamiltonian and diagonalising, the Hamiltonian returned for a parameter set is unitarily the unperturbed energy plus the interaction for the current parameters (as if the system had been set up freshly with them).",
  "all histories of set/build/diagonalize calls",
  "Histories.",
  [S+"SystemBase.cpp: buildHamiltonian, onParameterChange, diagonalize"])
p("Precomputing the interaction does not change results",
  "Calling buildInteraction at any time does not change the Hamiltonian obtained later.",
  "all histories",
  "Only shows for particular histories (diagonalise, change parameter, buildInteraction).",
  [S+"SystemBase.cpp: buildInteraction, buildHamiltonian"])
p("Constraining a diagonalised system keeps the chosen basis vectors",
  "constrainBasisvectors(indices) on a diagonalised system, followed by a parameter change, yields the Hamiltonian restricted to the chosen vectors.",
  "all systems, all index lists",
  "Depends on the unperturbed cache.",
  [S+"SystemBase.cpp: constrainBasisvectors"])
p("Parameters cannot be changed once the data needed for it has been discarded",
  "After the unperturbed data has been discarded (memory saving mode, unitarize, rotate, ...), any parameter change on a system whose Hamiltonian contains the interaction throws instead of producing a wrong Hamiltonian.",
  "all histories",
  "Histories.",
  [S+"SystemBase.cpp: onParameterChange, buildHamiltonian, unitarize"])
p("Rejected setter calls leave the system unchanged",
  "If a setter (fields, symmetries) throws, the system behaves as if the call had not been made.",
  "all histories and all arguments",
  "Exception paths combined with later calls.",
  [S+"SystemOne.cpp: setEfield, setBfield, setConservedParityUnderReflection, setConservedMomentaUnderRotation",S+"SystemTwo.cpp: setters"])
p("The one-atom Hamiltonian is Hermitian",
  "For every basis, all matrix elements with the library's symmetry and all real electric/magnetic field vectors (and diamagnetism, ion), the assembled Hamiltonian is Hermitian.",
  "all field vectors, all sizes, all matrix elements",
  "All complex values of spherical components.",
  [S+"SystemOne.cpp: initializeInteraction, addInteraction, changeToSphericalbasis"])
p("Hamiltonian entries are read and written in the product basis",
  "getHamiltonianEntry(a,b) returns <a|H|b>; after setHamiltonianEntry(a,b,v) on a complete orthonormal basis getHamiltonianEntry(a,b)=v, getHamiltonianEntry(b,a)=conj(v), all other entries are unchanged and H stays Hermitian; addHamiltonianEntry adds v.",
  "all Hamiltonians, bases, states and values",
  "All complex values; tests use real values.",
  [S+"SystemBase.cpp: getHamiltonianEntry, setHamiltonianEntry, addHamiltonianEntry"])
p("constrainBasisvectors keeps exactly the chosen vectors, or fails without effect",
  "constrainBasisvectors(idx) yields a system whose k-th basis vector is the idx[k]-th old one with the corresponding block of H; with a duplicate or out-of-range index it throws and changes nothing.",
  "all systems and index lists",
  "All index lists.",
  [S+"SystemBase.cpp: constrainBasisvectors, applyRightsideTransformator"])
p("Overlaps are the squared projections and sum up to at most one",
  "getOverlap(s)[k] is |<s|b_k>|^2 (summed over the stored states matching a wildcard); for an orthonormal complete basis the overlaps of one state add up to one.",
  "all bases and states",
  "All matrices.",
  [S+"SystemBase.cpp: getOverlap"])
p("getConnections pairs basis vectors one-to-one",
  "getConnections(other, threshold) returns pairs of basis vector indices in which no index of either system occurs twice, and every returned pair overlaps by more than the threshold and is mutually maximal.",
  "all pairs of systems, all thresholds",
  "All matrices incl. ties and empty columns.",
  [S+"SystemBase.cpp: getConnections"])
p("getBasisvectorIndex(states) assigns distinct basis vectors",
  "For every list of states that is not longer than the number of basis vectors, no two returned indices are equal, each is a valid index, they are the basis vectors with the largest total overlap, and each state overlaps with its basis vector.",
  "all bases and lists of states",
  "All overlap matrices.",
  [S+"SystemBase.cpp: getBasisvectorIndex(std::vector)"])
p("add() forms the direct sum on the union of states",
  "a.add(b) yields a system whose states are a's states followed by b's new ones, whose basis vectors are a's followed by b's with unchanged coefficients and block-diagonal H.",
  "all pairs of systems",
  "All overlapping state lists; exception path.",
  [S+"SystemBase.cpp: add"])
p("Saving and loading a system preserves its observable behaviour",
  "A system that is serialised and loaded again behaves like the original for all later calls.",
  "all systems, all later call sequences",
  "Later behaviour depends on every stored member.",
  [S+"SystemOne.hpp: serialize",S+"SystemTwo.hpp: serialize",S+"MatrixElementCache.hpp: serialize",S+"SystemBase.hpp: serialize"])
p("unitarize replaces the basis by an orthonormal labelled one without changing H",
  "unitarize() leaves the Hamiltonian unchanged, makes the basis matrix the identity and gives the k-th artificial state a label determined by the k-th old basis vector; different vectors get different labels.",
  "all systems",
  "Hash labels over all vectors.",
  [S+"SystemBase.cpp: unitarize"])
p("Pair bases cover every pair exactly once under exchange symmetry",
  "For two atoms with the same one-atom basis (of definite parity if inversion symmetry is asked for, of definite m if a total m is asked for): with permutation (or inversion) symmetry the pair (a,b) and (b,a) are represented by exactly one symmetrised vector, pairs (a,a) only in the sector that contains them; the union of both sectors is a basis of the product space; each vector is normalised and has the declared exchange symmetry.",
  "all numbers of one-atom basis vectors",
  "Index-pair enumeration for every size.",
  [S+"SystemTwo.cpp: initializeBasis, addBasisvectors"])
p("Selecting one-atom basis vector pairs by index is checked",
  "setOneAtomBasisvectors(pairs) with valid indices either uses exactly the given pairs (without symmetries) or throws.",
  "all index pairs",
  "All index values.",
  [S+"SystemTwo.cpp: setOneAtomBasisvectors, initializeBasis"])
p("C6 of a pair state sums over all dipole-coupled intermediate states",
  "getC6(state, deltaN) visits exactly the pair states with n within deltaN and l,j,m satisfying the E1 selection rules for both atoms, each once, and only physically valid ones.",
  "all states, all deltaN",
  "Case analysis in l, j, m, s.",
  [S+"PerturbativeInteraction.cpp: getC6(StateTwo)"])
p("The C6 matrix includes every intermediate state coupled to both row and column",
  "For every pair (row,col) of states the C6 matrix element sums over all intermediate pair states dipole-coupled to both row and column (except those in the subspace).",
  "all pairs of states",
  "Case analysis in l (equal or differing by two) and j.",
  [S+"PerturbativeInteraction.cpp: getC6(vector)"])
p("Effective C3 and C6 matrices are symmetric and angle terms are consistent",
  "The matrices returned are symmetric for every list of states; the angle-dependent coefficients at angle 0 equal the dedicated angle-0 coefficients and are symmetric under exchange of the atoms.",
  "all state lists, all angles",
  "All angles, sizes.",
  [S+"PerturbativeInteraction.cpp: getC3, getC6, initializeAngleTerms"])
p("Vacuum Green tensors are derivatives of the Coulomb potential",
  "For every non-zero separation, the dipole-dipole tensor is the Hessian of 1/r (symmetric, traceless), the quadrupole-dipole tensor is its gradient (fully symmetric, traceless) and the dipole-quadrupole tensor is the negative of it.",
  "all separations",
  "Identity over the reals.",
  [S+"GreenTensor.cpp: getDDTensorVacuum, getDQTensorVacuum, getQDTensorVacuum"])
p("Plate Green tensors are derivatives of the image potential",
  "With a surface the additional dipole-dipole tensor and its quadrupole counterparts are the derivatives of the image dipole field; in particular the divergence of the quadrupole-dipole tensor vanishes.",
  "all positions above the plate",
  "Identity over the reals.",
  [S+"GreenTensor.cpp: getDDTensorPlate, getQDTensorPlate, getDQTensorPlate"])
p("Green tensors always reflect the current geometry",
  "For every history of addSurface and get*Tensor calls, the tensors returned are those of the geometry set by the last successful addSurface.",
  "all call histories",
  "Lazy evaluation flags and exception path.",
  [S+"GreenTensor.cpp: addSurface, getDDTensor, getDQTensor, getQDTensor"])
p("Binary serialisation of values round-trips",
  "Writing any sequence of scalars and vectors (of fewer than 2^31 elements) with Serializer and reading it with the same types yields the same values (a vector variable that already has elements keeps them in front of the ones that are read); a truncated stream always raises an error.",
  "all sequences of typed values, all truncation points",
  "All byte sequences.",
  [S+"Serializable.hpp: Serializer"])
p("Corrupted byte streams are rejected",
  "Reading any byte string either raises an error or only accesses bytes of this string.",
  "all byte strings",
  "All byte strings incl. negative lengths.",
  [S+"Serializable.hpp: Serializer::deserialize"])
p("Saved matrices load back unchanged",
  "Storing any sparse matrix (Hamiltonianmatrix::serialize / cereal) and loading it yields the same matrix.",
  "all sparse matrices",
  "Depends on the position of empty columns.",
  [S+"Hamiltonianmatrix.cpp: doSerialization, doDeserialization",S+"serialization_eigen.hpp"])
p("The on-disk matrix cache survives crashes",
  "If runs of the calculation are killed at arbitrary points, a later run with the same configuration that finishes returns the matrix for that configuration.",
  "all crash points, any number of crashed runs",
  "Crash points.",
  [S+"HamiltonianOne.cpp: build",S+"HamiltonianTwo.cpp: calculate",S+"Hamiltonianmatrix.cpp: save, load"])
p("The on-disk matrix cache never mixes up parameters",
  "A matrix stored for one set of field/distance values is never returned for a different one.",
  "all parameter values",
  "Needs two nearby parameter values.",
  [S+"HamiltonianOne.cpp: build",S+"ConfParser.hpp: Configuration::value::operator<<"])
p("The cache table exists before it is queried, for every schedule of worker threads",
  "No worker thread queries the table before it has been created.",
  "all schedules",
  "Schedules.",
  [S+"HamiltonianOne.cpp: build",S+"HamiltonianTwo.cpp: calculate"])
p("A negative delta means an unlimited quantum number range",
  "With deltaL/J/MSingle < 0 the one-atom basis contains all l, j, m values allowed by n.",
  "all start states",
  "Depends on the sign of the start state's m.",
  [S+"Basisnames.cpp: BasisnamesOne::build"])
p("Basis state indices equal list positions after state removal",
  "After removeUnnecessaryStates the remaining states keep their order and the i-th has index i; the pair basis lists pairs in row-major order of the one-atom bases.",
  "all masks, all bases",
  "All masks.",
  [S+"Basisnames.cpp: removeUnnecessaryStates, BasisnamesTwo::build"])
p("Configurations behave like maps and survive a JSON round trip",
  "operator+= overrides with the right-hand side and keeps other keys, == compares all entries, const access throws on missing keys, loading a saved configuration yields an equal one.",
  "all configurations",
  "All key sets.",
  [S+"ConfParser.hpp: Configuration",S+"ConfParser.cpp"])
p("Radial grid search finds the grid point or reports failure",
  "findidx(x, value) with a positive tolerance returns an index whose grid value equals the requested one within the tolerance, terminates, and finds every grid value of a strictly increasing grid.",
  "all strictly increasing grids",
  "All grids.",
  [S+"Wavefunction.hpp: findidx"])
p("Matrix dimensions always match",
  "In every history of calls on a system, every matrix product and sum performed by the library has matching dimensions (otherwise Eigen's behaviour is undefined); in particular data kept for later parameter changes always fit the current basis.",
  "all histories of public calls",
  "All histories.",
  [S+"SystemBase.cpp: applyRightsideTransformator, canonicalize, add, constrainBasisvectors"])
p("Reflection-symmetrised one-atom bases are orthonormal",
  "With a conserved parity under reflection the basis vectors built from the quantum number ranges are orthonormal, and every pair of mirrored states contributes exactly one vector of the requested parity.",
  "all ranges, parities and momentum restrictions",
  "All ranges.",
  [S+"SystemOne.cpp: initializeBasis, addSymmetrizedBasisvectors"])
p("The pair geometry is consistent",
  "After any sequence of setDistance/setDistanceVector/setAngle calls with positive distances and non-zero vectors, the stored distance is the length of the stored distance vector, setDistance keeps the direction and setAngle gives the vector d(sin a, 0, cos a).",
  "all sequences of setters, all real arguments",
  "All histories and all reals.",
  [S+"SystemTwo.cpp: setDistance, setAngle, setDistanceVector"])
p("Forgetting the state mixing gives one-to-one labels",
  "forgetStatemixing succeeds exactly if every basis vector is dominated by one state; afterwards the basis vectors are unit vectors of pairwise distinct states, still orthonormal.",
  "all square or rectangular bases",
  "All matrices.",
  [S+"SystemBase.cpp: forgetStatemixing, getMainStates"])
p("The one-atom Hamiltonian is the physical one",
  "The matrix built for a single atom equals the field-free energies minus E.d minus B.mu plus the diamagnetic term (B x r)^2 q^2/8m plus the ion multipole terms, where the spherical components are those of the user's Cartesian field vectors.",
  "all field vectors, all states",
  "Holds for every field direction, tests sample a few.",
  [S+"SystemOne.cpp: setEfield, setBfield, initializeInteraction, addInteraction, changeToSphericalbasis"])
p("Manually written Hamiltonian entries persist",
  "Entries written with setHamiltonianEntry/addHamiltonianEntry remain part of the Hamiltonian when fields or distances are changed later.",
  "all systems, all entries, all later parameter changes",
  "Depends on the order of calls.",
  [S+"SystemBase.cpp: setHamiltonianEntry, addHamiltonianEntry, buildHamiltonian"])
p("getMainStates labels each basis vector with its largest contribution",
  "If every basis vector has a stored coefficient, for every basis vector the returned state is the one with the largest coefficient, and there is one state per basis vector.",
  "all bases",
  "All matrices, including empty columns.",
  [S+"SystemBase.cpp: getMainStates"])
p("The dipole-dipole interaction does not depend on the calculation method",
  "At order 3 the interaction matrix elements equal kC (a.b/r^3 - 3(a.R)(b.R)/r^5), up to the tolerance below which tensor elements are dropped, whether they are calculated with the Green tensor, the angle-dependent formula or the multipole expansion, and whichever sequence of setters led to the geometry; real-valued systems give the same numbers in the xz plane.",
  "all setter sequences, all distance vectors, all one-atom matrix elements obeying the selection rules",
  "Three code paths and all geometries; tests sample a few distances.",
  [S+"SystemTwo.cpp: initializeInteraction, addInteraction, setDistance, setAngle, setDistanceVector, enableGreenTensor"])
p("The dipole-quadrupole interaction does not depend on the calculation method",
  "At order 4 the Green tensor approach and the multipole expansion yield the same matrix elements for atoms on the z axis; the quadrupole table used by the Green tensor approach is the Cartesian quadrupole tensor.",
  "all z, all one-atom matrix elements obeying the selection rules",
  "All matrix elements and both orientations.",
  [S+"SystemTwo.cpp: initializeInteraction, addInteraction",S+"GreenTensor.cpp"])
p("Numbers written to a Configuration are read back",
  "A number stored in a Configuration with operator<< is the number obtained with operator>>.",
  "all integers, all doubles",
  "Holds for every number or not.",
  [S+"ConfParser.hpp: value::operator<<, value::operator>>"])
p("Steps whose parameters are written equally can be processed concurrently",
  "Several threads may process steps of a scan whose parameters are written with the same strings; the scan completes.",
  "all schedules, all parameters",
  "Depends on the schedule.",
  [S+"HamiltonianOne.cpp: build",S+"HamiltonianTwo.cpp: calculate"])
p("Radial matrix elements use every common grid point",
  "For every pair of states the search for the common part of the two radial grids succeeds despite rounding, the sum runs over exactly the grid points at common radii except the last one, each once, and exchanging the two states uses the same points.",
  "all pairs of radial grids (inner ends, numbers of points)",
  "Rounding errors differ for every pair of grids.",
  [S+"Wavefunction.hpp: IntegrateRadialElement, findidx",S+"Wavefunction.cpp: Numerov::Numerov, Whittaker::Whittaker"])
p("Numerov wavefunctions are normalised",
  "With Numerov's method the radial matrix element of r^0 of a state with itself is one, up to rounding: with n grid points the error is at most (2n + 16) 2^-52, unless intermediate values overflow or underflow.",
  "all states, all potentials, all grids with at least two points",
  "All potentials, and rounding errors add up over grids of any length.",
  [S+"Wavefunction.cpp: Numerov::integrate",S+"Wavefunction.hpp: IntegrateRadialElement"])
p("Truncated pickles are refused",
  "Loading a pickled system from a truncated string raises an exception, wherever it was cut, and never reads outside the string; bytes behind the object are ignored.",
  "all systems, all cut positions, all damaged bytes",
  "There are as many damaged inputs as byte strings.",
  [S+"Interface.i: __getstate__, __setstate_internal, __setstate__",S+"serialization_eigen.hpp",S+"SystemBase.hpp: serialize"])
p("Wigner's rotation matrices",
  "For all j, m, m' and all angles WignerD evaluates Wigner's formula d^j_{m'm}(beta), multiplied by the phases of the other two angles (in exact arithmetic; the shortcut for pi/2 is consistent with the general case); the matrices are unitary, angles of rotations about y add up, the inverse rotation has the transposed matrix.",
  "all quantum numbers, all angles",
  "All j and all real angles.",
  [S+"WignerD.cpp",S+"WignerD.hpp"])
p("Rotated states",
  "The matrix with which a system rotates its states has the Wigner D-matrix elements between states that differ only in m, for one atom and for pairs. If all Zeeman levels are present rotated states are orthonormal, consecutive rotations compose, and the inverse rotation is the adjoint; no rotation is the identity. The norm of a rotated state never exceeds one. Artificial states, and angles that real scalars cannot represent, are refused.",
  "all lists of states, all angles, real and complex scalars",
  "All bases and all angles.",
  [S+"SystemOne.cpp: buildStaterotator",S+"SystemOne.hpp: addRotated",S+"SystemTwo.cpp: buildStaterotator",S+"SystemTwo.hpp: addRotated"])
p("Fields given in another coordinate system",
  "setEfield and setBfield with axes (not zero) or Euler angles store the components of the field along the rotated axes: length and angles between fields are kept, no component is lost, axes that are not orthogonal are refused, axes and angles agree, and fields are rotated in the same way as states.",
  "all fields, all axes, all Euler angles",
  "All real vectors and angles.",
  [S+"SystemOne.cpp: setEfield, setBfield, rotateVector",S+"SystemBase.cpp: buildRotator"])
p("The Schrieffer-Wolff transformation gives the effective Hamiltonian",
  "After applySchriefferWolffTransformation(system0) the system consists of orthonormal vectors that span the space of the eigenvectors with the largest overlap with system0 and that are as close as possible to the vectors of system0 (overlap matrix Hermitian and positive definite, which determines them); its Hamiltonian is the old one between these vectors and has exactly the selected energies. Systems that do not fit are refused. The result stays consistent when fields are changed afterwards.",
  "all systems, all perturbations, all later calls",
  "All Hamiltonians and all dimensions.",
  [S+"SystemBase.cpp: applySchriefferWolffTransformation, applyRightsideTransformator"])
p("The pair basis of the command line program has the requested symmetries",
  "The pair basis that the command line program builds for a block (inversion, reflection, permutation, total magnetic quantum number) consists of the (anti)symmetrized products of the one-atom basis vectors whose energies are within the cutoff: each exactly once, normalized, orthogonal to the others, with the sum of the energies, and an eigenvector of the requested symmetry; the blocks together contain every product. No amplitude is written outside of the matrix.",
  "all one-atom bases, all symmetries, all cutoffs",
  "All bases and all dimensions.",
  [S+"Hamiltonianmatrix.cpp: combine",S+"HamiltonianTwo.cpp: calculate"])
p("No pair state is left out of the interaction",
  "The interaction is computed for exactly those pair states that occur in a product of basis vectors within the energy cutoff at some step and that fit to a requested symmetry; this list contains every state with an amplitude in a basis vector of any block, it does not depend on the schedule of the threads, and blocks that are left out do not contain the initial state.",
  "all one-atom bases, all steps, all symmetries, all schedules of the threads",
  "All bases and all interleavings.",
  [S+"Hamiltonianmatrix.cpp: energycutoff",S+"HamiltonianTwo.cpp: calculate"])
p("Restricting the one-atom states keeps names and matrices aligned",
  "After the states of one atom were restricted by energy or by quantum numbers the list of the states contains exactly those within the limits, numbered consecutively, and in the matrices of all steps the amplitude of every remaining state in every basis vector, and its energy, is that of the same state before.",
  "all lists of states, all limits, all matrices",
  "All bases and all restrictions.",
  [S+"HamiltonianTwo.cpp: calculate",S+"HamiltonianOne.cpp: build",S+"Hamiltonian.hpp: removeUnnecessaryStates",S+"Basisnames.cpp: removeUnnecessaryStates",S+"Hamiltonianmatrix.cpp: removeUnnecessaryStates"])
p("The interaction of the command line program is the multipole expansion",
  "Between the pair states used in the calculation the matrix for 1/R^p contains the coefficient of the multipole expansion of the Coulomb interaction of two atoms on the z axis (the same number as in the library), apart from values below the tolerance, for every p from 3 to the configured exponent; the Hamiltonian of a step is the energies plus these matrices between the basis vectors, divided by the powers of the distance, and Hermitian.",
  "all one-atom bases, all matrix elements, all exponents, all distances",
  "All bases, all orders and all distances.",
  [S+"HamiltonianTwo.cpp: calculate",S+"Hamiltonianmatrix.cpp: changeBasis, compress",S+"MatrixElements.cpp: selectionRulesMultipole"])
p("The atom in fields in the command line program",
  "At every step the matrix that is diagonalized is Hermitian and contains the energies and the interaction with the electric and magnetic field of the step, including diamagnetism if requested; the fields go linearly from the minimal to the maximal ones; with real numbers a field along y is refused.",
  "all fields, all one-atom bases, all matrix elements, all steps",
  "All fields and all bases.",
  [S+"HamiltonianOne.cpp: build, changeToSpherical, configure",S+"Hamiltonianmatrix.cpp: diagonalize",S+"MatrixElements.cpp: selectionRulesMomentum, selectionRulesMultipole"])
p("Matrix elements of the command line program",
  "For spin 1/2 states, whatever precalculations and queries an object has seen and whatever other processes have written into the cache file, a query that comes after its precalculation returns the product of the factors, each exact or rounded to six digits, so that the result deviates by at most 2.1e-5 of its value; the program asks only for elements it has precalculated; the file contains only correct values.",
  "all histories of calls, all states, all contents of the cache file, all interleavings with other processes",
  "All histories and all files.",
  [S+"MatrixElements.cpp: precalculate, getMultipole, getDiamagnetism, getMagneticMomentum, getRadial",S+"HamiltonianOne.cpp: build",S+"HamiltonianTwo.cpp: calculate"])
p("Runs of the command line program are reproducible",
  "The same calculation gives the same matrix elements in every run, whatever the cache file contained before; runs at the same time do not disturb each other; values that are in the file are used.",
  "all histories of runs on the same cache file",
  "All histories and all interleavings.",
  [S+"MatrixElements.cpp: precalculate, MatrixElements",S+"SQLite.hpp: handle::exec"])
p("Matrices and vectors passed between C++ and Python keep their values",
  "A vector, a dense or a sparse matrix returned to Python and having 1 to 2^31-1 (stored) elements has there the shape and the elements it has in C++, copied or viewed; an array with at least one dimension (a sparse matrix with 32 bit indices) passed from Python has in C++ the elements it has in Python or is rejected with an exception; what Python gets and gives back is unchanged.",
  "all vectors and matrices, all memory layouts of Python's arrays, all element types",
  "All sizes (also none), strides and index types.",
  [S+"NumpyUtils.hpp: convert, check_array_sanity, sparse_impl, as, as_dense_impl, check_order_and_alignment",S+"Interface.i: typemaps"])
p("A matrix that Python has got stays valid",
  "A vector or matrix that a method returned to Python can be read at any later time and shows the values it had when it was returned, unless Python itself changes it; changing it does not change the system.",
  "all histories of getting, changing, recomputing, destroying",
  "All histories; reading freed memory often goes unnoticed in tests.",
  [S+"NumpyUtils.hpp: convert, sparse_impl",S+"Interface.i: typemaps",S+"SystemBase.hpp: getHamiltonian, getBasisvectors"])
p("Invalid arguments are refused",
  "A call with an argument that makes no sense - an empty species name, an index outside of the list, more states than basis vectors, a tolerance of zero, a zero or negative distance, a zero vector as an axis, an array without dimensions or with indices of another integer type, something else than bytes as a pickle - throws an exception; it never leads to undefined behaviour, endless recursion or a silently wrong result.",
  "all arguments of the listed methods", "All invalid values; undefined behaviour often goes unnoticed in tests.",
  [S+"State.cpp: StateOne",S+"SystemBase.cpp: getOverlap, getBasisvectorIndex, getMainStates",S+"Wavefunction.cpp: findidx",S+"SystemTwo.cpp: setDistance, setDistanceVector, setOneAtomBasisvectors",S+"SystemOne.cpp: rotateVector",S+"NumpyUtils.hpp: as",S+"Interface.i: __setstate__"])
p("Objects of every size can be stored and passed to Python",
  "Vectors and matrices of any size, including empty ones and those with 2^31 or more elements, are stored in archives and returned to Python unchanged.",
  "all sizes", "Sizes beyond 2^32 cannot be tested; the empty case is easily forgotten.",
  [S+"Serializable.hpp: Serializer",S+"NumpyUtils.hpp: convert, check_array_sanity"])
p("An interaction order below three switches the multipole interaction off",
  "setOrder(2) gives no dipole-dipole interaction, whatever the geometry, since it is of order three.",
  "all geometries", "All geometries and states.",
  [S+"SystemTwo.cpp: initializeInteraction, setOrder"])
p("Rotated states are not lost",
  "Rotating a state whose Zeeman levels are not all in the basis is refused or keeps its norm.",
  "all states, all sets of levels, all angles", "All bases.",
  [S+"SystemOne.cpp: rotateStates, buildStaterotator"])
p("add() gives the system with the states of both",
  "The system obtained by a.add(b) with fields has the Hamiltonian of the system constructed with the states of both.",
  "all pairs of systems", "All systems and fields.",
  [S+"SystemBase.cpp: add"])
p("Transformed systems react correctly to new parameters",
  "After rotate() or unitarize() a later change of the fields gives the Hamiltonian of the new fields between the transformed vectors, or throws.",
  "all histories", "All histories.",
  [S+"SystemBase.cpp: rotate, unitarize, buildHamiltonian, diagonalize"])
p("Objects can be used after a refused or finished request",
  "After an exception caused by states added too late a system can be used again once the cause is removed; a statement whose rows have all been delivered can be used for another query.",
  "all histories of calls", "All histories.",
  [S+"SystemBase.cpp: buildBasis",S+"SQLite.hpp: statement"])
p("Matrix elements that were not precalculated are not guessed",
  "A query of the matrix elements of the command line program without the precalculation it needs throws, or returns the correct value.",
  "all histories of precalculations and queries", "All histories.",
  [S+"MatrixElements.cpp: getMultipole, getRadial, getMagneticMomentum, getDiamagnetism"])
p("Damaged pickles are refused",
  "Loading a pickle in which bytes were changed throws, or gives a well-formed system.",
  "all byte strings", "All damages.",
  [S+"Serializable.hpp",S+"serialization_eigen.hpp: load",S+"Interface.i: __setstate__"])
p("Symmetries that the one-atom bases do not have are refused",
  "If symmetries of the pair basis are requested that its one-atom bases do not allow (basis vectors of mixed parity, different atoms, vectors without mirror image, artificial states, a choice of pairs that is not symmetric), the request throws; it never gives vectors that are not normalised, repeated vectors, missing pairs or undefined behaviour.",
  "all one-atom bases, all requested symmetries", "All combinations.",
  [S+"SystemTwo.cpp: initializeBasis, addBasisvectors"])
p("An assignment of basis vectors is found if there is one",
  "If the searched states can be assigned to different basis vectors with which they overlap, getBasisvectorIndex(states) returns an assignment.",
  "all bases, all lists of states", "All overlap matrices.",
  [S+"SystemBase.cpp: getBasisvectorIndex"])
p("Blocks of different symmetry are not coupled",
  "The command line program diagonalises the blocks of a pair Hamiltonian that belong to different symmetries (gerade/ungerade, symmetric/antisymmetric, reflection +/-, total magnetic quantum number) separately: the interaction has no matrix element between basis vectors of different blocks (permutation: the odd powers of 1/R, i.e. the dipole-dipole and quadrupole-quadrupole interaction).",
  "all atoms, states, orders of the multipole expansion, one-atom basis vectors with the required quantum numbers", "All bases and orders; a wrong sign in the expansion or in the symmetrisation shows up only between certain states.",
  [S+"HamiltonianTwo.cpp: build", S+"Hamiltonianmatrix.cpp: combine", S+"MatrixElements.cpp: getMultipole"])
p("Symmetries that the interaction breaks are refused",
  "If the requested order of the multipole expansion contains terms that couple the permutation blocks (dipole-quadrupole), the command line program does not diagonalise these blocks separately.",
  "all atoms, states, orders of the multipole expansion", "All bases and orders.",
  [S+"HamiltonianTwo.cpp: build", S+"Hamiltonianmatrix.cpp: combine"])
p("The interaction of two atoms is Hermitian",
  "The matrix that SystemTwo builds for the interaction of two atoms is Hermitian, and each of its entries, those above the diagonal too, is the interaction calculated for the two states of this row and this column: completing the computed triangle by conjugation gives what the formula for the other entry would have given. It throws only if some entry cannot be calculated.",
  "all pairs of states, distance vectors, surfaces, orders of the multipole expansion, radial matrix elements, real and complex scalars", "All states, geometries and values of matrix elements.",
  [S+"SystemTwo.cpp: initializeInteraction, addInteraction"])
p("The interaction of two atoms has the symmetries the user asks SystemTwo to conserve",
  "If a symmetry is set in SystemTwo (inversion, permutation, reflection, rotation), the basis vectors of different symmetry are not coupled by the interaction at the geometry and order that were set, so that the sectors can be treated separately.",
  "all one-atom systems, restrictions, distance vectors, surfaces, orders, radial matrix elements", "All states, geometries, orders and bases.",
  [S+"SystemTwo.cpp: initializeBasis, initializeInteraction, setConservedParityUnderInversion, setConservedParityUnderPermutation, setConservedMomentaUnderRotation", S+"GreenTensor.cpp: getDQTensorPlate"])
p("Warning about distances below the Le Roy radius",
  "Computing the interaction at a distance that is smaller than the Le Roy radius 2(sqrt<r1^2>+sqrt<r2^2>) of a pair state of the basis prints a warning; every warning names the radius of a pair state of the basis and is true.",
  "all systems of two atoms, all histories of restricting, adding, building and exceptions, all distances", "All histories: the radius is remembered from earlier calculations.",
  [S+"SystemTwo.cpp: checkDistance, initializeInteraction, onStatesChange", S+"State.cpp: StateTwo::getLeRoyRadius", S+"SystemBase.cpp: updateEverything, add"])
p("Dipole elements loaded from a file are the ones used",
  "After loadElectricDipoleDB(file, species) has returned, getElectricDipole of every transition the file lists is the Wigner-Eckart value for the reduced element on its last line, for the states in the order listed, whatever was calculated or failed before, and stays so through all later requests with the same method; all other elements, and the shared database, are as if nothing had been loaded; lines that are not numbers are skipped.",
  "all files, all states, all histories of requests, precalculations, settings, failures and loads before and after", "All histories and files; the sign of the exchanged transition and the interplay with cached, pending and stored rows depend on what happened before.",
  [S+"MatrixElementCache.cpp: loadElectricDipoleDB, getElectricDipole, update"])
p("Pair states added by hand extend the pair basis and change nothing else",
  "If a SystemTwo can be built without and with states added by addStates, then the second basis is the first one, unchanged, followed by one basis vector for each added pair state: the pair itself, or (under inversion or permutation symmetry) its normalised combination with the exchanged pair with the sign of the sector, used once per unordered pair; its energy is the sum of the energies of its atoms (zero for artificial ones), and neither couples to the old part. Energy restrictions do not remove added states. A state that is already in the basis or belongs to another species makes the construction throw; states that are different from all pairs of one-atom states, of the right species, with energies and with the exchanged partners that the symmetries need are accepted.",
  "all one-atom systems, symmetries, chosen pairs, restrictions and sets of added states",
  "tests add one or two states to one basis; the claim is that nothing else changes, for every combination of symmetries, artificial and atomic states and partners",
  [S+"SystemTwo.cpp: initializeBasis", S+"SystemTwo.cpp: addBasisvectors", S+"SystemBase.cpp: addStates"])
p("Diagonalization in an energy window and with a threshold",
  "diagonalize(lower, upper) leaves exactly the eigenvectors of the Hamiltonian with energies between the bounds: they are orthonormal, the new Hamiltonian is diagonal with their energies, and no eigenvector with an energy between the bounds is lost. diagonalize(threshold) stores the eigenvalues, and eigenvectors in which only coefficients not larger than the threshold are replaced by zero, so that the norm of each differs from one by at most the number of states times the squared threshold. A failure is reported and leaves a usable system.",
  "all systems, Hamiltonians, windows and thresholds, all answers of the eigensolver within its contract",
  "All Hamiltonians and windows: the number of eigenvalues in the window is estimated from the diagonal before the solver is called.",
  [S+"SystemBase.cpp: diagonalize"])
p("What the command line program computes and how it ends",
  "The program accepts its three options in any order and in both spellings; of several options of the same kind the last one counts. Without one of them, with an empty value or with an unknown word it calculates nothing and exits with status 1. It calculates each atom whose species and quantum numbers are given exactly once (both at once if they share the basis), and the pair exactly if both atoms and a distance are given; atoms of different species that are to share a basis are refused. The line >>END is printed exactly by runs that have finished all calculations and end with status 0, as the last line.",
  "all command lines, configuration files and failures of the calculations",
  "all sequences of options and all sets of keys in the file, and a failure of any of the calculations; the program has no unit tests",
  [S+"main.cpp: main", S+"Interface.cpp: compute"])
p("The key of a stored matrix determines the calculation",
  "The command line program stores each diagonalized matrix under a configuration. Two calculations stored under the same configuration, in whatever runs and with whatever input files, are the same calculation: the same species, start states, ranges of quantum numbers, method for the radial matrix elements, energy windows and diamagnetism, for pairs also the same restrictions of pair states, order of the multipole expansion, sharing of the basis and symmetry; electric and magnetic fields and the distance agree to five digits. So after any history of runs a calculation ends with the matrix of the calculation that was asked for, up to this rounding.",
  "all input files, atoms, fields, distances and symmetries, all histories of runs",
  "the key has up to 35 entries and a missing entry shows only when two runs differ in nothing else; tests use one input file",
  [S+"HamiltonianOne.cpp: configure, build", S+"HamiltonianTwo.cpp: calculate", S+"Basisnames.cpp: fromFirst, fromSecond, fromBoth, build, BasisnamesTwo", S+"Basisnames.hpp: configure"])
p("The steps of a scan of fields and distance",
  "The command line program calculates one Hamiltonian per atom for each step, or a single one if minimal and maximal fields agree; the fields are equally spaced, from the minimum at the first step to the maximum at the last. For pairs each step and symmetry is calculated exactly once, by whichever thread; it combines the one-atom Hamiltonians that belong to the fields of this step with the distance of this step, also equally spaced; and the number of results announced by >>TOT is the number of >>OUT lines.",
  "all fields, distances, numbers of steps, symmetries and threads, all interleavings of the threads",
  "all numbers of steps and threads and all schedules; whether fields or distance are constant changes which one-atom Hamiltonian is used",
  [S+"HamiltonianOne.cpp: configure, build", S+"HamiltonianTwo.cpp: calculate"])
p("Eigenvalues and eigenvectors stored by the command line program",
  "Whenever the command line program diagonalizes the Hamiltonian of an atom or a pair, of which only the lower triangle has been assembled, it stores all eigenvalues of the whole Hermitian matrix in increasing order, and basis vectors that differ from exact orthonormal eigenvectors spanning the same space by at most sqrt(2(N+n))/20000 (N states, n basis vectors); their norms and overlaps deviate from those of an orthonormal basis only correspondingly. A Hamiltonian with at most one basis vector is stored unchanged.",
  "all Hamiltonians, bases, numbers of states and basis vectors, all answers of the eigensolver within its contract",
  "all matrices: coefficients are removed twice, before and after the product with the basis, so that the deviation accumulates over all states and basis vectors",
  [S+"Hamiltonianmatrix.cpp: diagonalize", S+"HamiltonianOne.cpp: build", S+"HamiltonianTwo.cpp: calculate"])
p("Settings that determine the basis of a pair",
  "The basis of a pair is built with the conserved parities, the conserved momenta and the chosen pairs of one-atom basis vectors that are in force when it is first needed. As long as the basis exists, the setters of the symmetries are refused and change nothing, so that at any later time, whatever has been called in between, the symmetries in force are those of the basis. Before that, each setter stores its value and leaves the rest alone, and it is accepted unless a reflection symmetry is combined with momenta that do not come in pairs M, -M. A refused setting is not in force, a choice of pairs made too late is refused, and after a failed build the settings can be corrected.",
  "all settings, histories of calls, requests and one-atom systems",
  "all interleavings of setters, restrictions, builds and other methods on one object, including failed ones",
  [S+"SystemTwo.cpp: setConservedParityUnderPermutation, setConservedParityUnderInversion, setConservedParityUnderReflection, setConservedMomentaUnderRotation, setOneAtomBasisvectors, isRefelectionAndRotationCompatible", S+"SystemBase.cpp: onSymmetryChange, buildBasis"])
p("The radial equation and its integration",
  "The radial wavefunctions are solutions of the radial Schroedinger equation with the model potential and the energy of the state, in the variable sqrt(r): the equation integrated for x = sqrt(r) holds for u(x^2)/sqrt(x) exactly where the radial Schroedinger equation holds for u, and the powers of x in matrix elements are those of this substitution. Before rounding, the integration reproduces any solution with the same starting values up to an error of fourth order in the step, and has the conventional sign in the outer region; radial matrix elements approximate the integral over r with an error proportional to the step and to the error of the summands. The potential is that of the nuclear charge near the nucleus and of one charge far away; the spin-orbit term is the only one that depends on j, and averages to zero over a multiplet.",
  "all parameters of the model potential, quantum numbers, energies, wavefunctions, radii, lengths of the grid",
  "all potentials and lengths: errors of each step are amplified over thousands of steps, and the substitution is a statement about functions",
  [S+"Wavefunction.cpp: model_potential::V, model_potential::g, Numerov::integrate", S+"Wavefunction.hpp: power_kernel, IntegrateRadialElement"])
p("Adding a system combines the parameters and the symmetries of both",
  "add() combines two systems only if they describe the same atoms in the same surroundings (species, fields, diamagnetism, ion; species, distance vector, order, Green tensor, surface, one-atom systems) and throws otherwise, leaving the system as it was. The combined system conserves a parity exactly if both systems did and allows the momenta of both; momenta and parity under reflection stay compatible; the order of the two systems does not matter.",
  "all pairs of systems of one or of two atoms, with all parameters, symmetries and built bases",
  "the parameters, the symmetries and the histories of the two systems vary independently",
  [S+"SystemOne.cpp: SystemOne::incorporate", S+"SystemTwo.cpp: SystemTwo::incorporate", S+"SystemBase.cpp: SystemBase::add"])
p("The sizes a system reports are those of what it returns",
  "getNumStates returns the number of states of getStates and of rows of getBasisvectors; getNumBasisvectors the number of columns of getBasisvectors, which is the number of rows and columns of getHamiltonian, whatever was done to the system before; neither complains about inconsistent variables.",
  "all histories of calls of a system, including calls that threw",
  "any sequence of building, restricting, constraining, rotating, combining and failing calls may precede",
  [S+"SystemBase.cpp: SystemBase::getNumStates", S+"SystemBase.cpp: SystemBase::getNumBasisvectors"])
p("A locked cache file is waited for",
  "If another process holds the lock on a database file, an access waits for it: it never hangs, it succeeds if the lock is released for good within 200 seconds, and otherwise ends with an exception, after at most 2000 seconds (plus the delays of the operating system). A process that waits while the lock is free again and again gets it.",
  "all behaviours of the other processes over time and all random sleeps",
  "the times at which other processes take and release the lock, and the random sleeps, range over all schedules",
  [S+"SQLite.hpp: sqlite::handle::busy_handler", S+"SQLite.hpp: sqlite::handle::install_busy_handler"])
open("/verif/properties.jsonl","w").write("".join(json.dumps(x)+"\n" for x in P))
print(len(P))

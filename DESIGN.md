# Design

A model of the C++ code of pairinteraction in Rocq (Coq 8.16.1), in `rocq/theories`.

- `*Model.v`: the model, function by function; no proofs.  Every definition cites the lines of /repo/pairinteraction it stands for and says
  where it simplifies.
- `*Spec.v`: small specifications used by theorem statements (physical potentials, the second-order sum, pair symmetry, ...).
- `*Proofs*.v`, `*Inv.v`, `*Exact.v`: lemmas. `*Demo.v`: concrete systems for the non-vacuity examples and refutations.
- `Prop*.v`: the theorems `Cxx_*`, each with examples that meet its hypotheses, and `Print Assumptions`.

Names: `Cxx_..._partial`: a part of the property, the comment in front says what is missing; `Cxx_..._refuted`: the code does not have the
property, the theorem is (the negation or) a concrete counterexample in the model.  A property with such a theorem has the status "partial" in
MANIFEST.json.  Refutations describe real behaviour of the code; they were cross-checked by reading the code, not by running it.

## Trusted base

1. Coq's kernel (and coqchk, run by vcheck).
2. Axioms of the standard library, through its real numbers: `ClassicalDedekindReals.sig_forall_dec` (R1), `ClassicalDedekindReals.sig_not_dec`
   (R2), `FunctionalExtensionality.functional_extensionality_dep` (FE), and `Classical_Prop.classic` (CL; through Coquelicot and Flocq, whose
   lemmas use the standard library's axiom).  Which theorem uses which is listed below with each property; everything that does not involve real
   numbers is closed under the global context.  No axiom of any other library and none of our own.
3. That the model is what the code does.  The C++ text was translated by hand; nothing was extracted or executed.
4. Behaviour of code outside /repo, written into the model from its documentation: Eigen's sparse matrices (storage scheme, `finalize`, products,
   selfadjoint views), the eigenvalue solver (an arbitrary unitary that diagonalises; an argument of the call), SQLite (statements, transactions,
   UNIQUE), cereal (binary archives), Boost (multi_index, JSON property trees are assumed to round-trip, uuids never repeat), OpenMP (critical
   sections), the C++ library (streams, unordered containers, `nth_element`'s guarantee), GSL (Wigner symbols, with their orthogonality/symmetry
   where used), CPython's reference counting for pickles.

## What is modelled, and how

- **Numbers.**  j, m, s are floats holding half-integers; the model stores 2j, 2m, 2s in Z.  Matrix algebra is over an arbitrary commutative ring with
  involution (`StarRing`, Matrix.v), instantiated with Z, Q, Q(sqrt 2), C.  Fields, Green tensors, C3/C6 and geometry are over R.  Rounding is
  modelled only where a property is about it: radial grids (Flocq binary64, without overflow and NaN), numbers written to text (exact decimal
  arithmetic), floats/doubles in archives (bit patterns).  `std::numeric_limits<double>::max()` as "no distance" is `None` or the number itself.
- **Outcomes.**  `Ok`, `Throw` (the object may have changed; its state after the exception is part of the result), `UB` (out-of-bounds access,
  uninitialised variable, dangling pointer, data race).  A theorem promising `Ok`/`Throw` excludes `UB`.
- **Concurrency.**  Interleaving of atomic actions (Cache.hpp: lock, begin and end of the access, unlock; QuantumDefect: each memo access; the on-disk
  cache: SQL statement, flag access, file operation, one written byte).  The unsynchronised flag of the table creation is treated as sequentially
  consistent.
- **Crashes.**  A process may be killed between any two atomic actions; written bytes survive.  Power failure (fsync order) is not modelled.
- **Addresses in Serializer** are integers modulo 2^64: forming an out-of-range pointer, formally undefined in C++, is taken to do what the machine
  does; reading outside the buffer is `UB`.

Modelled files: State.{hpp,cpp}, Symmetry.hpp, utils.hpp (hash_combine), Cache.hpp, QuantumDefect.cpp, SQLite.hpp, MatrixElementCache.{hpp,cpp} (without
getDefectDB plumbing), SystemBase.{hpp,cpp}, SystemOne.{hpp,cpp}, SystemTwo.{hpp,cpp}
(geometry, interaction, symmetries, initializeBasis, serialisation), GreenTensor.{hpp,cpp}, PerturbativeInteraction.cpp, Serializable.hpp, serialization_eigen.hpp,
WignerD.cpp, Hamiltonianmatrix.cpp (save, load, addition of entries, combine, energycutoff, removal of states and basis vectors), ConfParser.{hpp,cpp}, HamiltonianOne.cpp and HamiltonianTwo.cpp (cache protocol, restriction of the states, symmetries, necessary states, interaction, atom in fields), Basisnames.{hpp,cpp}, MatrixElements.cpp 35-582 (cache of the command line program),
StateOld.hpp, Wavefunction.{hpp,cpp} (grids, Numerov integration, radial integrals), Interface.i (pickling, typemaps), NumpyUtils.hpp (memory blocks, shapes, strides, flags; numpy and scipy as far as the conversion uses them).

Not modelled: the Python GUI and command line, MatrixElements.cpp 584ff (overloads for a vector of states, without caller), Whittaker functions' values, rounding in linear algebra, memory
exhaustion, `int` overflow of quantum numbers, locale settings, warnings on stderr, restrictN(a, INT_MAX) (endless loop in the code).

Reduction of generality worth knowing: SystemModel.v treats the virtual methods of the derived classes as parameters, so theorems about life cycles (C23-C29,
C33, C37, C39, C58) hold for any derived class meeting the stated hypotheses; PropBasis/PropField instantiate them with SystemOne.  In PairModel.v the one-atom
systems enter after their diagonalisation.  In FieldModel.v matrix elements are arbitrary functions with the selection rules as hypotheses, discharged from
MEModel.v where stated.

## Tests against wrong programs

`seeded/LOG.jsonl`: edits of the model in a scratch copy, the theorems that no longer compile, and what was tightened where none failed.  `tools/mutate.py`
runs them.


## Properties

For each property: how it is modelled and proved, and the theorems with the axioms that `Print Assumptions` lists for them (none: closed under the global context; R1, R2, FE, CL: see the trusted base).

- **C01** One- and two-atom states are strictly totally ordered, consistently with == and != (proved). StateModel.v: StateOne/StateTwo as records (species as byte list, 2j,2m as Z). Order laws by case analysis + lexicographic lemmas.
  Theorems (PropState.v): `C01_one_atom_order` [none]; `C01_two_atom_order` [none].
- **C02** States that compare equal have equal hashes (proved). StateModel.v: hash_combine on N mod 2^64 with arbitrary base hashes; equality of fields implies equal hash by construction invariant.
  Theorems (PropState.v): `C02_one_atom_hash` [none]; `C02_two_atom_hash` [none].
- **C03** Reflection is an involution that only flips the magnetic quantum numbers (proved). StateModel.v: getReflected in an exception monad.
  Theorems (PropState.v): `C03_one_atom_reflection` [none]; `C03_two_atom_reflection` [none].
- **C04** Wildcard matching accepts exactly the states agreeing on all non-ARB quantum numbers (proved). StateModel.v: operator^ characterised by a Prop spec.
  Theorems (PropState.v): `C04_match_iff` [none]; `C04_match_two_iff` [none]; `C04_match_exact` [none]; `C04_match_monotone` [none].
- **C05** Artificial states reveal only their label; Rydberg states reveal only quantum numbers (proved). StateModel.v: getters in an exception monad.
  Theorems (PropState.v): `C05_label_state` [none]; `C05_number_state` [none].
- **C06** A wildcard on either atom of a pair state selects all matching pair states (partial). SystemBase lookups modelled on lists; `_refuted` with a pair pattern with one generalized atom, plus the positive theorem for 0 or 2.
  Theorems (PropState.v): `C06_one_atom_pattern` [none]; `C06_pair_pattern_partial` [none]; `C06_pair_pattern_refuted` [none]; `C06_state_index_one` [none]; `C06_state_index_two` [none].
- **C07** Symmetry is strictly totally ordered (proved). StateModel.v: Symmetry as 4 ints, loop modelled literally.
  Theorems (PropState.v): `C07_symmetry_order` [none].
- **C08** The thread-safe cache behaves like an insert-once map under every interleaving (proved). CacheModel.v: interleaving semantics of locked operations, refinement to a finite map, history invariant.
  Theorems (PropCache.v): `C08_linearizable` [none]; `C08_progress` [none].
- **C09** Clearing the cache never races with a concurrent access (partial). CacheModel.v: lock-set / happens-before model; `_refuted` trace.
  Theorems (PropCache.v): `C09_no_race_partial` [none]; `C09_clear_races_refuted` [none].
- **C10** Quantum-defect data always come from the database asked for (sequential use) (partial). QDModel.v: process-wide memo + name of used database, abstract per-database oracle; invariant over histories.
  Theorems (PropQD.v): `C10_sequential_partial` [none]; `C10_missing_file_refuted` [none]; `C10_modified_file_refuted` [none].
- **C11** Concurrent construction of quantum defects is safe (partial). QDModel.v: small-step threads; `_refuted` schedules (smash, wrong database).
  Theorems (PropQD.v): `C11_same_database_partial` [none]; `C11_smash_refuted` [none]; `C11_wrong_database_refuted` [none].
- **C12** Quantum defects of high angular momentum fall back to the largest tabulated one (proved). QDModel.v: SQL queries as list functions over tables.
  Theorems (PropQD.v): `C12_fallback` [none]; `C12_exact` [none].
- **C13** Selection rules are symmetric and sound (partial). MEModel.v: selection rules literal; symmetric by lia.
  Theorems (PropME.v): `C13_multipole_forbidden` [R1, R2, FE]; `C13_rules_symmetric` [none]; `C13_rules_q` [none]; `C13_magnetic_forbidden_partial` [R1, R2, FE]; `C13_magnetic_refuted` [R1, R2, FE].
- **C14** Canonicalised cache keys carry the right sign (proved). MEModel.v: keys and signs; spec = abstract 3j/6j functions with their symmetry laws as hypotheses of the theorem.
  Theorems (PropME.v): `C14_multipole_value` [R1, R2, FE]; `C14_magnetic_value` [R1, R2, FE]; `C14_multipole_adjoint` [R1, R2, FE]; `C14_magnetic_adjoint` [R1, R2, FE].
- **C15** The matrix element cache is transparent (partial). MEModel.v: cache + DB state, invariant 'every stored value is the direct value'.
  Theorems (PropME.v): `C15_sound_partial` [none]; `C15_complete_partial` [none]; `C15_method_refuted` [none]; `C15_getRadial_refuted` [none].
- **C16** Changing the quantum-defect database takes effect for all later matrix elements (partial). MEModel.v: `_refuted` history + positive theorem for histories without setDefectDB after a query.
  Theorems (PropME.v): `C16_before_use_partial` [R1, R2, FE]; `C16_after_use_refuted` [none].
- **C17** A failed matrix element request does not affect later requests (partial). MEModel.v: missing set retained; `_refuted` history.
  Theorems (PropME.v): `C17_failure_poisons_refuted` [none].
- **C18** An interrupted cache update never leaves wrong rows in the database (partial). MEModel.v: SQLite transaction as atomic commit; crash at every point; invariant on committed rows; a commit torn in the middle (C18_torn_commit_partial: whichever subset of the pages reached the disk, every row that can still be read is right).
  Theorems (PropME.v): `C18_file_correct_partial` [none]; `C18_nothing_before_commit_partial` [none]; `C18_torn_commit_partial` [none].
- **C19** Statement protocol: stepping is only possible on prepared, unfinished statements (proved). SqliteModel.v: statement automaton over a result set.
  Theorems (PropSqlite.v): `C19_steps_deliver_rows` [none]; `C19_unprepared_throws` [none]; `C19_reset_restarts` [none].
- **C20** Iterating over a statement visits every result row exactly once (partial). SqliteModel.v: iterator as code; `_refuted`.
  Theorems (PropSqlite.v): `C20_range_for_outcome` [none]; `C20_refuted` [none]; `C20_correct_iff_two_rows` [none].
- **C21** Restricting a quantum number to [min,max] keeps exactly the states inside (partial). RangeModel.v: range + validity checks; theorem for min<=max, `_refuted` for empty ranges.
  Theorems (PropBasis.v): `C21_sets` [none]; `C21_sets_two` [none]; `C21_intervals_partial` [none]; `C21_inverted_refuted` [none]; `C21_half_integer_refuted` [none].
- **C22** SystemOne builds exactly the fine-structure states allowed by the restrictions (partial). RangeModel.v: loops literal over sorted sets, membership and NoDup.
  Theorems (PropBasis.v): `C22_exact_partial` [none]; `C22_duplicate_throws` [none]; `C22_parity_refuted` [none]; `C22_parity_m_refuted` [none]; `C22_triplet_refuted` [none].
- **C23** State indices are always consecutive, unique and aligned with the rows of the basis matrix (partial). SystemModel.v: invariant through operations.
  Theorems (PropSystem.v): `C23_aligned_partial` [none]; `C23_one_atom_partial` [none]; `C23_add_refuted` [none]; `C23_unitarize_refuted` [none].
- **C24** Applying restrictions to an existing system keeps exactly the admissible part (proved). SystemModel.v: row/column selection on matrices over an abstract *-ring.
  Theorems (PropSystem.v): `C24_late_restriction` [none]; `C24_nothing_left` [none]; `C24_never_empty` [none]; `C24_any_order` [none].
- **C25** Building the basis is idempotent and late states are reported (proved). SystemModel.v: build automaton.
  Theorems (PropSystem.v): `C25_idempotent` [none]; `C25_late_states_reported` [none].
- **C26** The Hamiltonian depends only on the current parameters, not on the history (proved). SystemModel.v, HamProofs*.v: automaton with abstract unperturbed data and interaction oracle.
  Theorems (PropHam.v): `C26_value` [none]; `C26_history_independent` [none]; `C26_eigenvectors` [none]; `C26_operator_entries` [none].
- **C27** Precomputing the interaction does not change results (partial). SystemModel.v, HamProofs*.v: `_refuted`.
  Theorems (PropHam.v): `C27_buildInteraction_partial` [none]; `C27_refuted` [none].
- **C28** Constraining a diagonalised system keeps the chosen basis vectors (partial). SystemModel.v, HamProofs*.v: `_refuted`.
  Theorems (PropHam.v): `C28_constrain_partial` [none]; `C28_refuted` [none].
- **C29** Parameters cannot be changed once the data needed for it has been discarded (proved). SystemModel.v, HamProofs*.v: invariant.
  Theorems (PropHam.v): `C29_refused_forever` [none]; `C29_memory_saving` [none]; `C29_unitarize` [none].
- **C30** Rejected setter calls leave the system unchanged (partial). FieldModel.v: setters; `_refuted`, positive theorems for non-throwing ones.
  Theorems (PropField.v, PropTwo.v): `C30_rejected_partial` [R1, R2, FE]; `C30_field_refuted` [R1, R2, FE]; `C30_symmetry_refuted` [R1, R2, FE]; `C30_surface_refuted` [R1, R2, CL, FE].
- **C31** The one-atom Hamiltonian is Hermitian (proved). FieldModel.v, Matrix.v: matrices over any commutative ring with involution.
  Theorems (PropField.v): `C31_hermitian` [R1, R2, FE]; `C31_any_history` [R1, R2, FE].
- **C32** Hamiltonian entries are read and written in the product basis (partial). SystemModel.v, EntryProofs.v: real case proved, complex case refuted.
  Theorems (PropEntry.v): `C32_get` [none]; `C32_get_real_partial` [none]; `C32_add` [none]; `C32_set_partial` [none]; `C32_get_refuted` [none]; `C32_set_refuted` [none]; `C32_add_refuted` [none].
- **C33** constrainBasisvectors keeps exactly the chosen vectors, or fails without effect (proved). SystemModel.v: column selection, all-or-nothing.
  Theorems (PropSystem.v): `C33_constrain_exact` [none]; `C33_constrain_throws` [none].
- **C34** Overlaps are the squared projections and sum up to at most one (proved). OverlapModel.v.
  Theorems (PropOverlap.v): `C34_value` [none]; `C34_total` [none]; `C34_at_most_one` [R1, FE].
- **C35** getConnections pairs basis vectors one-to-one (proved). OverlapModel.v.
  Theorems (PropOverlap.v): `C35_value` [none]; `C35_one_to_one` [none]; `C35_systems` [none].
- **C36** getBasisvectorIndex(states) assigns distinct basis vectors (proved). OverlapModel.v.
  Theorems (PropOverlap.v): `C36_distinct` [none]; `C36_systems` [none].
- **C37** add() forms the direct sum on the union of states (proved). SystemModel.v, AddProofs.v; exception safety refuted.
  Theorems (PropSystem.v): `C37_add_direct_sum` [none].
- **C38** Saving and loading a system preserves its observable behaviour (partial). ArchiveModel.v, PickleModel.v: byte-level codecs with inverse and truncation laws, members saved and not saved, lifetime of the cache; `_refuted`.
  Theorems (PropPickle.v): `C38_one_real_partial` [none]; `C38_one_complex_partial` [none]; `C38_two_real_partial` [none]; `C38_two_complex_partial` [none]; `C38_cache_partial` [none]; `C38_ion_refuted` [none]; `C38_greentensor_refuted` [none]; `C38_defectdb_refuted` [none]; `C38_caches_refuted` [none]; `C38_dangling_refuted` [none]; `C38_leroy_refuted` [none].
- **C39** unitarize replaces the basis by an orthonormal labelled one without changing H (proved). SystemModel.v.
  Theorems (PropSystem.v): `C39_unitarize` [none]; `C39_unitarize_iff` [none].
- **C40** Pair bases cover every pair exactly once under exchange symmetry (proved). PairModel.v.
  Theorems (PropPair.v): `C40_permutation` [none]; `C40_inversion` [none]; `C40_combined` [none]; `C40_orthonormal` [none]; `C40_sectors` [none]; `C40_exchange` [none]; `C40_union` [none]; `C40_permutation_union` [none]; `C40_inversion_union` [none]; `C40_user_partner` [none].
- **C41** Selecting one-atom basis vector pairs by index is checked (partial). PairModel.v; `_refuted`.
  Theorems (PropPair.v): `C41_accepted` [none]; `C41_exact` [none]; `C41_default` [none]; `C41_empty_refuted` [none].
- **C42** C6 of a pair state sums over all dipole-coupled intermediate states (partial). PerturbModel.v: enumeration loops over half-integers; s<=1/2 proved, s=1 refuted.
  Theorems (PropPerturb.v): `C42_sum_partial` [R1, R2, FE]; `C42_triplet_refuted` [R1, R2, FE]; `C42_fractional_refuted` [R1, R2, FE]; `C42_below_ground_refuted` [R1, R2, FE]; `C42_unbound_refuted` [R1, R2, FE].
- **C43** The C6 matrix includes every intermediate state coupled to both row and column (partial). PerturbModel.v: `_refuted` for |Delta l|=2; positive for equal l and s<=1/2.
  Theorems (PropPerturb.v): `C43_equal_l_partial` [R1, R2, FE]; `C43_different_l_refuted` [R1, R2, FE]; `C43_different_l_coupled_refuted` [R1, R2, FE].
- **C44** Effective C3 and C6 matrices are symmetric and angle terms are consistent (proved). PerturbModel.v.
  Theorems (PropPerturb.v): `C44_matrices_symmetric` [R1, FE]; `C44_angle_terms` [R1, R2, FE]; `C44_angle_symmetry` [R1, R2, FE]; `C44_C3_value` [R1, R2, FE]; `C44_C6_single` [R1, R2, FE]; `C44_C6_order` [R1, R2, FE]; `C44_dipoles_hermitian` [R1, R2, FE].
- **C45** Vacuum Green tensors are derivatives of the Coulomb potential (proved). GreenModel.v over R with Coquelicot derivatives.
  Theorems (PropGreen.v): `C45_hessian` [R1, R2, CL, FE]; `C45_gradient` [R1, R2, CL, FE]; `C45_symmetric_traceless` [R1, R2, FE].
- **C46** Plate Green tensors are derivatives of the image potential (partial). GreenModel.v: gradient in x,z proved; divergence `_refuted`.
  Theorems (PropGreen.v): `C46_dipole_image` [R1, R2, FE]; `C46_gradients_partial` [R1, R2, CL, FE]; `C46_y_derivative_refuted` [R1, R2, CL, FE]; `C46_divergence_refuted` [R1, R2, FE].
- **C47** Green tensors always reflect the current geometry (partial). GreenModel.v: lazy flags automaton; exception path refuted.
  Theorems (PropGreen.v): `C47_tensors_current_partial` [R1, R2, CL, FE]; `C47_failed_surface_refuted` [R1, R2, CL, FE]; `C47_inside_plate_refuted` [R1, R2, CL, FE]; `C47_rejection_sound` [R1, R2, CL, FE].
- **C48** Binary serialisation of values round-trips (proved). SerModel.v: byte level.
  Theorems (PropSer.v): `C48_roundtrip` [none]; `C48_writes` [none]; `C48_truncated` [none]; `C48_appends` [none].
- **C49** Corrupted byte streams are rejected (proved). SerModel.v: every byte read lies in the string (machine addresses).
  Theorems (PropSer.v): `C49_safe` [none].
- **C50** Saved matrices load back unchanged (partial). SparseModel.v: CSC arrays; `_refuted` for leading empty columns, cereal version proved.
  Theorems (PropSer.v): `C50_roundtrip_partial` [none]; `C50_truncated` [none]; `C50_writes` [none]; `C50_last_column_refuted` [none]; `C50_other_scalar` [none]; `C50_cereal` [none].
- **C51** The on-disk matrix cache survives crashes (partial). FileCacheModel.v: crash semantics of DB row, .json and .mat files.
  Theorems (PropFile.v): `C51_two_partial` [none]; `C51_one_partial` [none]; `C51_unstorable_refuted` [none].
- **C52** The on-disk matrix cache never mixes up parameters (partial). FileCacheModel.v: 6-digit formatting; `_refuted`.
  Theorems (PropFile.v): `C52_partial` [none]; `C52_refuted` [none].
- **C53** The cache table exists before it is queried, for every schedule of worker threads (partial). FileCacheModel.v: threads; `_refuted` for HamiltonianOne, proved for HamiltonianTwo's order.
  Theorems (PropFile.v): `C53_two` [none]; `C53_one_partial` [none]; `C53_one_refuted` [none].
- **C54** A negative delta means an unlimited quantum number range (partial). BasisnamesModel.v: l,j proved; m refuted for negative m, proved for non-negative.
  Theorems (PropNames.v): `C54_one_partial` [none]; `C54_m_refuted` [none]; `C54_both_partial` [none]; `C54_both_m_refuted` [none]; `C54_once` [none]; `C54_both_once` [none].
- **C55** Basis state indices equal list positions after state removal (proved). BasisnamesModel.v.
  Theorems (PropNames.v): `C55_indices` [none]; `C55_both_indices` [none]; `C55_one` [none]; `C55_again` [none]; `C55_short_mask` [none]; `C55_rowmajor` [none]; `C55_two` [none]; `C55_keep` [none]; `C55_initial` [none]; `C55_from_two` [none].
- **C56** Configurations behave like maps and survive a JSON round trip (partial). ConfModel.v.
  Theorems (PropFile.v): `C56_append` [none]; `C56_equal` [none]; `C56_const_access` [none]; `C56_access` [none]; `C56_write` [none]; `C56_json_partial` [none]; `C56_json_dot_refuted` [none]; `C56_json_written` [none]; `C56_json_empty_key` [none]; `C56_count` [none].
- **C57** Radial grid search finds the grid point or reports failure (proved). WaveModel.v.
  Theorems (PropWave.v): `C57_result` [R1, R2, CL, FE]; `C57_found` [R1, R2, CL, FE]; `C57_grid` [R1, R2, CL, FE].
- **C58** Matrix dimensions always match (partial). SystemModel.v: matrices carry their dimensions and a product of non-matching ones is UB; invariant over histories.
  Theorems (PropBounds.v, PropSystem.v): `C58_dimensions_partial` [none]; `C58_canonicalize_refuted` [none]; `C58_window_refuted` [R1, R2, FE].
- **C59** Reflection-symmetrised one-atom bases are orthonormal (partial). RangeModel.v, ReflSpec.v: initializeBasis with conserved reflection parity; columns, inner products and reflection computed in closed form.
  Theorems (PropRefl.v): `C59_columns` [none]; `C59_orthonormal` [none]; `C59_real_scalars` [none]; `C59_parity_partial` [none]; `C59_integer_refuted` [none]; `C59_m0_refuted` [none]; `C59_opposite` [none].
- **C60** The pair geometry is consistent (proved). TwoModel.v over R: all setter sequences, invariant by induction.
  Theorems (PropTwo.v): `C60_length` [R1, R2, FE]; `C60_setters` [R1, R2, FE]; `C60_commute` [R1, R2, FE].
- **C61** Forgetting the state mixing gives one-to-one labels (proved). OverlapProofs2.v: forgetStatemixing on orthonormal matrices over R.
  Theorems (PropOverlap.v): `C61_labels` [R1, FE].
- **C62** The one-atom Hamiltonian is the physical one (proved). FieldModel.v: the sum of the stored operators is compared with -d.E + mu.B + diamagnetic term in Cartesian coordinates.
  Theorems (PropField.v): `C62_setters` [R1, R2, FE]; `C62_new` [R1]; `C62_value` [R1, R2, FE]; `C62_dipole_cartesian` [R1, R2, FE]; `C62_diamagnetic_cartesian` [R1, R2, FE].
- **C63** Manually written Hamiltonian entries persist (partial). SystemModel.v: `_refuted`; for every system and entry.
  Theorems (PropEntry.v): `C63_lost_refuted` [none].
- **C64** getMainStates labels each basis vector with its largest contribution (proved). OverlapModel.v: columns as lists of stored entries.
  Theorems (PropOverlap.v): `C64_main_states` [none].
- **C65** The dipole-dipole interaction does not depend on the calculation method (proved). TwoModel.v, TwoSpec.v: both approaches compared with the physical dipole-dipole energy for arbitrary dipole vectors.
  Theorems (PropTwo.v): `C65_physics` [R1, R2, CL, FE]; `C65_switch` [R1, R2, CL, FE]; `C65_approaches_agree` [R1, R2, CL, FE]; `C65_real_scalar` [R1, R2, CL, FE]; `C65_errors` [R1, R2, CL, FE].
- **C66** The dipole-quadrupole interaction does not depend on the calculation method (partial). as C65, with the quadrupole table.
  Theorems (PropTwo.v): `C66_table` [R1, R2, FE]; `C66_axis_agree_partial` [R1, R2, CL, FE]; `C66_axis_refuted` [R1, R2, CL, FE]; `C66_contraction` [R1, R2, FE]; `C66_trace_free` [R1, R2, FE].
- **C67** Numbers written to a Configuration are read back (partial). NumModel.v: ostringstream's six digits and stod/stoi as exact decimal arithmetic.
  Theorems (PropFile.v): `C67_int` [none]; `C67_double_partial` [none]; `C67_double_refuted` [none].
- **C68** Steps whose parameters are written equally can be processed concurrently (partial). FileCacheModel.v: `_refuted` schedule.
  Theorems (PropFile.v): `C68_same_conf_refuted` [none].
- **C69** Radial matrix elements use every common grid point (proved). WaveModel.v with Flocq: error bounds of the grid values, then the indices are determined exactly.
  Theorems (PropWave.v): `C69_rows` [R1, R2, CL, FE]; `C69_radius` [R1, R2, CL, FE]; `C69_symmetric` [R1, R2, CL, FE]; `C69_value` [R1, R2, CL, FE].
- **C70** Numerov wavefunctions are normalised (proved). WaveModel.v: exact arithmetic, and every operation rounded to binary64 (Flocq): products and sums of nonnegative numbers agree with the exact ones up to factors (1-2^-53)^k.
  Theorems (PropWave.v): `C70_norm` [R1, R2, CL, FE]; `C70_rounded` [R1, R2, CL, FE].
- **C71** Truncated pickles are refused (proved). ArchiveModel.v: truncation law of every codec; `_refuted` for a changed byte and for non-bytes.
  Theorems (PropPickle.v): `C71_truncated_one` [none]; `C71_truncated_one_complex` [none]; `C71_truncated_two` [none]; `C71_truncated_two_complex` [none]; `C71_trailing` [none].
- **C72** Wigner's rotation matrices (proved). WignerD.cpp modelled over R (WignerModel.v); the sum over binomials for pi/2 is identified with coefficients of (x+y)^(j+m')(x-y)^(j-m'), the Fourier sum over m'' with a substitution in polynomials in two variables; Wigner's formula (WignerSpec.v) is then read off, addition of angles is composition of substitutions.
  Theorems (PropWigner.v): `C72_formula` [R1, R2, CL, FE]; `C72_three_angles` [R1, R2, CL, FE]; `C72_levels` [none]; `C72_unitary` [R1, R2, CL, FE]; `C72_addition` [R1, R2, CL, FE]; `C72_inverse` [R1, R2, CL, FE]; `C72_identity` [R1, R2, CL, FE].
- **C73** Rotated states (proved). addRotated and buildStaterotator of both systems produce a matrix with known entries (RotTable.v), products and adjoints reduce to C72. Missing levels: refuted (norm lost).
  Theorems (PropWigner.v): `C73_entries` [R1, R2, CL, FE]; `C73_orthonormal` [R1, R2, CL, FE]; `C73_orthonormal_pairs` [R1, R2, CL, FE]; `C73_inverse` [R1, R2, CL, FE]; `C73_inverse_pairs` [R1, R2, CL, FE]; `C73_identity` [R1, R2, CL, FE]; `C73_identity_pairs` [R1, R2, CL, FE]; `C73_composition` [R1, R2, CL, FE]; `C73_composition_pairs` [R1, R2, CL, FE]; `C73_norm` [R1, R2, CL, FE]; `C73_norm_pairs` [R1, R2, CL, FE]; `C73_unit` [R1, R2, CL, FE]; `C73_unit_pairs` [R1, R2, CL, FE]; `C73_artificial` [R1, R2, CL, FE]; `C73_real` [R1, R2, CL, FE].
- **C74** Fields given in another coordinate system (proved). buildRotator, rotateVector over R; algebra. Zero axis: refuted.
  Theorems (PropWigner.v): `C74_axes` [R1, R2, FE]; `C74_refused` [R1, R2, FE]; `C74_angles` [R1, R2, FE]; `C74_angles_axes` [R1, R2, FE]; `C74_states` [R1, R2, CL, FE]; `C74_zero_field` [R1, R2, FE].
- **C75** The Schrieffer-Wolff transformation gives the effective Hamiltonian (partial). SchriefferModel.v follows applySchriefferWolffTransformation; the eigensolver, std::nth_element and Eigen's matrix square root are oracles with specifications (SchriefferSpec.v). Proof over the complex numbers: direct rotation as principal root of a product of reflections, Sylvester's equation, uniqueness of the polar decomposition. Later changes of a field and too many vectors: refuted.
  Theorems (PropSchrieffer.v): `C75_effective_partial` [R1, FE]; `C75_unique` [R1, FE]; `C75_refuses` [R1, FE]; `C75_more_vectors_refuted` [R1, FE]; `C75_later_refuted` [none].
- **C76** The pair basis of the command line program has the requested symmetries (partial). CombineModel.v follows combine() entry by entry (mapping of the reflection, skipped pairs, signs, factors 1/sqrt 2); scalars in any commutative ring with conjugation that contains 1/sqrt 2. The columns are compared with projections of Kronecker products (CombineSpec.v). States of mixed parity / mixed m, missing partners, reflection with permutation: refuted by computed examples.
  Theorems (PropCombine.v, PropCombine2.v): `C76_product` [none]; `C76_rotation_partial` [none]; `C76_permutation` [none]; `C76_inversion_partial` [none]; `C76_inversion_permutation_partial` [none]; `C76_permutation_complete` [none]; `C76_inversion_complete_partial` [none]; `C76_reflection_partial` [none]; `C76_inversion_mixed_refuted` [none]; `C76_rotation_mixed_refuted` [none]; `C76_reflection_open_refuted` [none]; `C76_reflection_permutation_refuted` [none].
- **C77** No pair state is left out of the interaction (partial). NecessaryModel.v: energycutoff, the loop over the states, the set of symmetries; the threads as an interleaving of loads and stores of words of a vector<bool>. Threads and magnetic fields: refuted.
  Theorems (PropNecessary.v): `C77_exact` [none]; `C77_covers` [none]; `C77_covers_reflection_partial` [none]; `C77_covers_magnetic_refuted` [none]; `C77_threads_partial` [none]; `C77_threads_refuted` [none]; `C77_blocks_partial` [none]; `C77_symmetries` [none]; `C77_all_states` [none].
- **C78** Restricting the one-atom states keeps names and matrices aligned (partial). NecessaryModel.v: the two loops, removal from the list and from the matrices; rank of a position in the mask.
  Theorems (PropRestrict.v): `C78_restrict` [none]; `C78_valid` [none]; `C78_near_partial` [none]; `C78_near_kept` [none]; `C78_initial_kept` [none]; `C78_near_refuted` [none]; `C78_energies` [none]; `C78_short_vectors` [none]; `C78_orthonormal_refuted` [none].
- **C79** The interaction of the command line program is the multipole expansion (proved). InteractModel.v: the loops over states and multipole orders; the specification is the coefficient of the bipolar expansion with factorials; sums of triplets, projection on the necessary states.
  Theorems (PropElements.v, PropInteract.v): `C79_entries` [R1, R2, FE]; `C79_library` [R1, R2, FE]; `C79_total` [R1, R2, FE]; `C79_elements` [R1, R2, CL, FE].
- **C80** The atom in fields in the command line program (partial). OneFieldModel.v: spherical components, flags, the else-if chains, assembly, the triangle read by the solver; case distinction on q, linearity in the position.
  Theorems (PropElements.v, PropOneField.v): `C80_value_partial` [R1, R2, FE]; `C80_value_exact` [R1, R2, FE]; `C80_steps` [R1, FE]; `C80_real` [R1, R2, FE]; `C80_quadrupole_refuted` [R1, R2, FE]; `C80_elements` [R1, R2, CL, FE].
- **C81** Matrix elements of the command line program (proved). MatCacheModel.v: the five caches, the marks of unset values, loading, computing and storing with six digits (Flocq rounding in radix 10), histories of calls with arbitrary files; invariant of the memory; spin other than 1/2 is not covered (the program's bases contain none).
  Theorems (PropMatCache.v): `C81_value` [R1, R2, CL, FE]; `C81_options` [R1, R2, CL, FE]; `C81_error` [R1, R2, CL, FE]; `C81_file` [R1, R2, CL, FE]; `C81_program` [none]; `C81_pairs` [none]; `C81_library` [R1, R2, FE].
- **C82** Runs of the command line program are reproducible (partial). the same model; sessions on a file; later runs give exactly the product of the rounded factors, the first run does not (1/9 is no decimal number), two runs at once collide in the UNIQUE constraint.
  Theorems (PropMatCache.v): `C82_later_runs` [R1, R2, CL, FE]; `C82_failed_run` [R1, R2, CL, FE]; `C82_first_run_refuted` [R1, R2, CL, FE]; `C82_two_processes_refuted` [R1, R2, CL, FE]; `C82_switched_off_refuted` [R1, R2, CL, FE].
- **C83** Matrices and vectors passed between C++ and Python keep their values (proved). NumpyModel.v: memory blocks, arrays with shape and strides, Eigen's column-major storage, the checks of NumpyUtils.hpp with int arithmetic; reading through int pointers. Empty objects, 0-dimensional arrays, 64 bit indices, 2^32+1 elements: refuted.
  Theorems (PropNumpy.v): `C83_vector` [none]; `C83_dense` [none]; `C83_sparse` [none]; `C83_accepted` [none]; `C83_as_dense` [none]; `C83_as_vector` [none]; `C83_as_sparse` [none]; `C83_roundtrip_dense` [none]; `C83_roundtrip_sparse` [none].
- **C84** A matrix that Python has got stays valid (partial). the same model with histories of calls, assignments and destruction; references are returned as views. Invariant: which blocks belong to whom. Views after recomputation or destruction: refuted.
  Theorems (PropNumpy.v): `C84_value` [none]; `C84_view` [none]; `C84_stale_refuted` [none]; `C84_temporary_refuted` [none]; `C84_write_refuted` [none].
- **C85** Invalid arguments are refused (partial). collected counterexamples from the models of the individual classes (State, Overlap, Wave, Two, Wigner, Numpy, Pickle, Pair): all refuted.
  Theorems (PropNumpy.v, PropOverlap.v, PropPair.v, PropPickle.v, PropState.v, PropTwo.v, PropWave.v, PropWigner.v): `C85_species_refuted` [none]; `C85_overlap_index_refuted` [none]; `C85_too_many_refuted` [none]; `C85_empty_vector_refuted` [none]; `C85_negative_distance_refuted` [R1, R2, CL, FE]; `C85_zero_distance_refuted` [R1, R2, CL, FE]; `C85_tolerance_refuted` [R1, R2, CL, FE]; `C85_pair_index_refuted` [none]; `C85_nonbytes_refuted` [none]; `C85_axis_refuted` [R1, R2, FE]; `C85_scalar_array_refuted` [none]; `C85_index_type_refuted` [none].
- **C86** Objects of every size can be stored and passed to Python (partial). the length fields of SerModel.v and NumpyModel.v: refuted (also the empty case).
  Theorems (PropNumpy.v, PropSer.v): `C86_archive_refuted` [none]; `C86_archive_half_refuted` [none]; `C86_empty_refuted` [none]; `C86_python_refuted` [none].
- **C87** An interaction order below three switches the multipole interaction off (partial). TwoModel.v: refuted off the z axis.
  Theorems (PropTwo.v): `C87_low_order_refuted` [R1, R2, CL, FE].
- **C88** Rotated states are not lost (partial). WignerModel.v, an incomplete set of levels: refuted.
  Theorems (PropWigner.v): `C88_missing_refuted` [R1, R2, CL, FE].
- **C89** add() gives the system with the states of both (partial). AddModel: refuted by two systems coupled by a field.
  Theorems (PropSystem.v): `C89_coupling_refuted` [none].
- **C90** Transformed systems react correctly to new parameters (partial). SystemModel.v: refuted by computed histories.
  Theorems (PropHam.v): `C90_rotate_refuted` [none]; `C90_unitarize_refuted` [none].
- **C91** Objects can be used after a refused or finished request (partial). SystemModel.v, SqliteModel.v: refuted.
  Theorems (PropBounds.v, PropSqlite.v, PropSystem.v): `C91_statement_refuted` [none]; `C91_basis_refuted` [none]; `C91_window_refuted` [R1, R2, FE].
- **C92** Matrix elements that were not precalculated are not guessed (partial). MatCacheModel.v: refuted.
  Theorems (PropMatCache.v): `C92_early_refuted` [R1, R2, CL, FE].
- **C93** Damaged pickles are refused (partial). PickleModel.v: refuted by one changed byte.
  Theorems (PropPickle.v): `C93_sizes_partial` [none]; `C93_damaged_refuted` [none].
- **C94** Symmetries that the one-atom bases do not have are refused (partial). PairModel.v: refuted by computed bases.
  Theorems (PropPair.v): `C94_mixed_parity_refuted` [none]; `C94_different_systems_refuted` [none]; `C94_reflection_refuted` [none]; `C94_artificial_refuted` [none]; `C94_half_integer_refuted` [none]; `C94_dropped_refuted` [none].
- **C95** An assignment of basis vectors is found if there is one (partial). OverlapModel.v: refuted (greedy search).
  Theorems (PropOverlap.v): `C95_greedy_refuted` [none].
- **C96** Blocks of different symmetry are not coupled (proved). the interaction matrix of InteractModel.v (C79) between the blocks of CombineModel.v (C76); symmetries of the multipole coefficients under exchange, parity and m -> -m; inversion, reflection, rotation proved for every order, permutation for odd powers of 1/R.
  Theorems (PropSymmetry.v): `C96_inversion` [R1, R2, FE]; `C96_permutation` [R1, R2, FE]; `C96_reflection` [R1, R2, FE]; `C96_rotation` [R1, R2, FE].
- **C97** Symmetries that the interaction breaks are refused (partial). same models: refuted (dipole-quadrupole terms couple the permutation blocks, nothing checks it).
  Theorems (PropSymmetry.v): `C97_permutation_refuted` [R1, R2, FE].
- **C98** The interaction of two atoms is Hermitian (proved). TwoMatModel.v (loops of initializeInteraction over rows and columns, lower triangle, selfadjointView) on top of TwoModel.v; the transposed entry is shown to be the conjugate one for the matrix elements of MEModel.v (arbitrary radial parts), every geometry, order and surface.
  Theorems (PropTwoSym.v): `C98_hermitian` [R1, R2, CL, FE]; `C98_matrix` [R1, R2, CL, FE]; `C98_entry_exact` [R1, R2, CL, FE].
- **C99** The interaction of two atoms has the symmetries the user asks SystemTwo to conserve (partial). same model with the bases of PairModel.v (C40): inversion for every vacuum geometry and order, permutation for order 3, reflection for y = 0, rotation on the z axis; refuted: permutation at order 4, rotation off the axis, rotation at order 4 with a surface (nothing is refused).
  Theorems (PropTwoSym.v): `C99_reflection` [R1, R2, CL, FE]; `C99_rotation` [R1, R2, CL, FE]; `C99_rotation_sectors` [R1, R2, CL, FE]; `C99_reflection_sectors` [R1, R2, CL, FE]; `C99_inversion` [R1, R2, CL, FE]; `C99_permutation` [R1, R2, CL, FE]; `C99_inversion_sectors` [R1, R2, CL, FE]; `C99_permutation_sectors` [R1, R2, CL, FE]; `C99_permutation_refuted` [R1, R2, CL, FE]; `C99_offaxis_refuted` [R1, R2, CL, FE]; `C99_surface_rotation_refuted` [R1, R2, CL, FE].
- **C100** Warning about distances below the Le Roy radius (partial). LeRoyModel.v: the stored radius, the search for the state to take, restrictions, added systems, unitarize, exceptions, over an arbitrary state type with arbitrary energies and radii. Proved: printed warnings are true, the exact condition when the radii are ordered like the hydrogen formula, the formula; refuted: states with larger radii, radius taken from an added system, a half-set radius after an exception.
  Theorems (PropLeRoy.v): `C100_true_partial` [R1, R2, FE]; `C100_exact_partial` [R1, R2, FE]; `C100_hydrogen` [R1, R2, FE]; `C100_formula` [R1, FE]; `C100_larger_states_refuted` [R1, R2, FE]; `C100_added_refuted` [R1, R2, FE]; `C100_exception_refuted` [R1, R2, FE].
- **C101** Dipole elements loaded from a file are the ones used (partial). DipoleModel.v: the lines of the file as fields with oracles for stoi/stof/stod, the pending keys, update(), the division by the angular factors, histories with any number of loads; values over the reals with the Racah formula. Proved by an invariant over histories (angular rows right, rows only added): the value of listed transitions at once and later, the other elements and the database; refuted: the transition listed in the other order (sign), forbidden transitions (not a number), numbers out of range, short lines.
  Theorems (PropDipole.v): `C101_value_partial` [R1, R2, FE]; `C101_other_order_partial` [R1, R2, FE]; `C101_others` [none]; `C101_returns` [none]; `C101_bad_line_refuted` [none]; `C101_other_order_refuted` [R1, R2, FE]; `C101_forbidden_refuted` [R1, R2, FE].
- **C102** Pair states added by hand extend the pair basis and change nothing else (proved). PairModel `check_user`, `user_step` (SystemTwo.cpp 464-567). The run with added states is compared with the run without (simulation: a longer sqnorm_list makes no difference; successful calls keep the invariant of PairProofs), the added columns use fresh rows, and `finish` therefore yields a block form (PairProofs7-9, statement in UserSpec.v). Reflection symmetry is not applied to added states by the code and not by the specification.
  Theorems (PropUser.v): `C102_extends` [none]; `C102_refused` [none]; `C102_accepted` [none].
- **C103** Diagonalization in an energy window and with a threshold (partial). BoundsModel.v (SystemBase.cpp 564-746): estimate m0 of the number of eigenvalues, in-place conversion of the CSC arrays to one-based indices, FEAST as an oracle with its documented contract (BoundsSpec.v), pruning. Proved: the threshold error bound (sum over the coefficients), the window theorem by w = B†v, and that the estimate suffices if the window covers the diagonal. Refuted: the estimate can be too low (5×5 example), bounds ignored for a diagonal Hamiltonian, after a failure the arrays stay one-based (reading them is undefined), no renormalization after pruning, operators keep the old dimension (C58).
  Theorems (PropBounds.v): `C103_threshold` [R1, R2, FE]; `C103_window_partial` [R1, R2, FE]; `C103_wide_window` [R1, R2, FE]; `C103_diagonal_refuted` [R1, R2, FE]; `C103_without_mkl_refuted` [R1, FE]; `C103_empty_refuted` [R1, R2, FE]; `C103_estimate_refuted` [R1, R2, FE]; `C103_normalized_refuted` [R1, FE].
- **C104** What the command line program computes and how it ends (partial). MainModel.v (main.cpp 36-106, Interface.cpp 42-104): the option loop by recursion on the arguments, the configuration as in ConfModel.v, the calculations as an oracle that may throw (which nobody catches). Proved by induction on the list of options and case analysis on the keys; refuted: with "samebasis" and one described atom nothing is calculated although >>END is printed.
  Theorems (PropMain.v): `C104_options` [none]; `C104_refused` [none]; `C104_unknown` [none]; `C104_end` [none]; `C104_calculations_partial` [none]; `C104_samebasis_refuted` [none]; `C104_species` [none].
- **C105** The key of a stored matrix determines the calculation (partial). KeyModel.v: reading of the input configuration, entries copied and written by Basisnames, HamiltonianOne and HamiltonianTwo, together with the record of everything the calculation starts from; statement in KeySpec.v. Proved by reading every component of the record back from the key (exact for ints and half-integers up to 10000, five digits for doubles) and combined with the histories of C51.
  Theorems (PropKey.v): `C105_one` [none]; `C105_two` [none]; `C105_pair_atoms` [none]; `C105_cache_one_partial` [none]; `C105_cache_two_partial` [none]; `C105_shared` [none].
- **C106** The steps of a scan of fields and distance (partial). ScanModel.v: number of steps, interpolation of fields and distance, choice of the one-atom Hamiltonian, static schedule of the parallel loop and arbitrary interleavings of the threads. Proved by permutation arguments over the schedule, for all numbers of steps and threads; without steps and with changing fields an empty vector is read (refuted). Rounding of the interpolation is not modelled.
  Theorems (PropScan.v): `C106_one` [none]; `C106_two_partial` [none]; `C106_zero_refuted` [none].
- **C107** Eigenvalues and eigenvectors stored by the command line program (proved). DiagModel.v: Hamiltonianmatrix::diagonalize with the eigensolver as an oracle that satisfies its documented contract for the matrix it is given, and both removals of small coefficients. Proved with the triangle and Cauchy-Schwarz inequalities for columns and the fact that isometries keep distances; an example shows that the deviation occurs.
  Theorems (PropDiag.v): `C107_eigen` [R1, R2, FE].
- **C108** Settings that determine the basis of a pair (partial). SettingsModel.v: the setters of SystemTwo, onSymmetryChange and the comparison of reflection and momenta on top of the life cycle of a system (SystemModel.v) and of initializeBasis (PairModel.v); any other method enters as an arbitrary function that does not assign these settings. Proved by induction on the history; refuted: a refused reflection or set of momenta stays in force, a choice of pairs after the build is accepted and ignored, an object whose build failed cannot be used any more.
  Theorems (PropSettings.v): `C108_locked` [none]; `C108_kept` [none]; `C108_build` [none]; `C108_consistent` [none]; `C108_accepted` [none]; `C108_when` [none]; `C108_refused_refuted` [none]; `C108_still` [none]; `C108_choice_refuted` [none]; `C108_failed_refuted` [none].
- **C109** The radial equation and its integration (proved). RadialModel.v: model_potential::V and g and the power kernels as real functions (no rounding); Numerov::integrate is WaveModel.v. Proved: the change of variables with derivatives and integrals (Coquelicot), a bound of the local error with Taylor's formula, its growth with a discrete Gronwall argument, limits of the potential, the sum over a multiplet in closed form. The Whittaker functions (GSL) are not modelled.
  Theorems (PropRadial.v): `C109_equation` [R1, R2, CL, FE]; `C109_weights` [R1, R2, CL, FE]; `C109_elements` [R1, R2, CL, FE]; `C109_convergence` [R1, R2, CL, FE]; `C109_sign` [R1, FE]; `C109_step` [R1, R2, CL, FE]; `C109_hydrogen` [R1, R2, FE]; `C109_near` [R1, R2, CL, FE]; `C109_far` [R1, R2, CL, FE]; `C109_multiplet` [R1, FE]; `C109_spin` [R1, FE]; `C109_fine_structure` [R1, R2, FE].
- **C110** Adding a system combines the parameters and the symmetries of both (partial). `IncorporateModel.v` models `incorporate` of SystemOne and SystemTwo (every comparison, std::set of momenta as increasing list) and is used as the parameter `v_compat` of `add` (SystemModel.v); proved by cases over the comparisons and induction over the sets. The parameters of the ion, the surface, the Green tensor and the one-atom systems are not compared by the code: refuted by concrete systems.
  Theorems (PropIncorporate.v): `C110_one_accepted` [none]; `C110_two_accepted` [none]; `C110_one_partial` [none]; `C110_two_partial` [none]; `C110_one_symmetries` [none]; `C110_two_symmetries` [none]; `C110_reflection` [none]; `C110_reflection_checked` [none]; `C110_either_order` [none]; `C110_refused` [none]; `C110_combined` [none]; `C110_ion_refuted` [none]; `C110_surface_refuted` [none]; `C110_failed_refuted` [none].
- **C111** The sizes a system reports are those of what it returns (partial). `getNumStates`, `getNumBasisvectors` on top of the life cycle (SystemModel.v); proved with the invariant of C23 over all histories; after an exception of add() or unitarize() they throw: refuted.
  Theorems (PropIncorporate.v): `C111_numbers_partial` [none]; `C111_returned` [none]; `C111_failed_add_refuted` [none]; `C111_failed_unitarize_refuted` [none].
- **C112** A locked cache file is waited for (partial). `LockModel.v`: the loop of SQLite around `busy_handler` as a transition system, with an arbitrary function of time that says when the lock is free and arbitrary sleeps within the bounds of `randint`; invariant over the steps. Starvation is possible: refuted. Not modelled: locking inside SQLite, deadlock avoidance of SQLite (it then reports SQLITE_BUSY without calling the handler; cannot occur for the statements of the library, which hold no read lock when they begin to write).
  Theorems (PropLock.v): `C112_never_hangs` [none]; `C112_progress` [none]; `C112_outcome` [none]; `C112_released` [none]; `C112_held` [none]; `C112_200_seconds` [none]; `C112_2000_seconds` [none]; `C112_starvation_refuted` [none].

{
 "claims": [
  {
   "property": "C01",
   "status": "proved",
   "theorems": [
    "C01_one_atom_order",
    "C01_two_atom_order"
   ],
   "note": "C01_one_atom_order: Two one-atom (two-atom) states are the same iff species and all quantum numbers agree: specification [same1] / [same2] (StateProofs.v)."
  },
  {
   "property": "C02",
   "status": "proved",
   "theorems": [
    "C02_one_atom_hash",
    "C02_two_atom_hash"
   ],
   "note": "C02_one_atom_hash: for every choice of std::hash on strings, ints and floats, states built with the public constructors that compare equal have equal hashes."
  },
  {
   "property": "C03",
   "status": "proved",
   "theorems": [
    "C03_one_atom_reflection",
    "C03_two_atom_reflection"
   ],
   "note": ""
  },
  {
   "property": "C04",
   "status": "proved",
   "theorems": [
    "C04_match_iff",
    "C04_match_two_iff",
    "C04_match_exact",
    "C04_match_monotone"
   ],
   "note": "C04_match_monotone: Replacing any quantum numbers of the pattern with ARB never removes matches."
  },
  {
   "property": "C05",
   "status": "proved",
   "theorems": [
    "C05_label_state",
    "C05_number_state"
   ],
   "note": "C05_number_state: The spin and the element follow from the species: trailing digit d means spin (d-1)/2."
  },
  {
   "property": "C06",
   "status": "partial",
   "theorems": [
    "C06_one_atom_pattern",
    "C06_pair_pattern_partial",
    "C06_pair_pattern_refuted",
    "C06_state_index_one",
    "C06_state_index_two"
   ],
   "note": "C06_one_atom_pattern: One-atom patterns: the rows used by getOverlap are exactly the stored states matching the pattern. | Part, C06_pair_pattern_partial: Pair patterns in which both atoms or no atom carries a wildcard. Missing: a wildcard on one atom only, for which the claim is false ([C06_pair_pattern_refuted]). | False in the code, proved: C06_pair_pattern_refuted: with a wildcard on one atom only, matching pair states are not selected | C06_state_index_one: getStateIndex: the index of the stored equal state, an exception if there is none."
  },
  {
   "property": "C07",
   "status": "proved",
   "theorems": [
    "C07_symmetry_order"
   ],
   "note": ""
  },
  {
   "property": "C08",
   "status": "proved",
   "theorems": [
    "C08_linearizable",
    "C08_progress"
   ],
   "note": "C08_linearizable: [log c] lists the completed calls in the order of their accesses; it contains the calls of every thread in program order, and ([log_ok], CacheProofs.v) each logged call returned what an insert-once map would return: restore(k) yields v iff a successful save(k,v) precedes it with no clear in between, save succeeds iff no value is held and otherwise throws without effect. | C08_progress: No deadlock: while a call is pending and no data race has happened, some thread can move."
  },
  {
   "property": "C09",
   "status": "partial",
   "theorems": [
    "C09_no_race_partial",
    "C09_clear_races_refuted"
   ],
   "note": "Part, C09_no_race_partial: threads using only save and restore never race ... | False in the code, proved: C09_clear_races_refuted: ... but clear() does not take the lock."
  },
  {
   "property": "C10",
   "status": "partial",
   "theorems": [
    "C10_sequential_partial",
    "C10_missing_file_refuted",
    "C10_modified_file_refuted"
   ],
   "note": "Part, C10_sequential_partial: Every history of constructions in one thread yields what fresh processes would yield, provided each database file replaces the tables whatever they were before (as the shipped script does: DROP TABLE IF EXISTS, CREATE, INSERT) and files do not change on disk. Missing: other files, for which the claim is false (see the two [_refuted] theorems). | False in the code, proved: C10_missing_file_refuted: A path that cannot be opened silently yields the data of the previously used database. | False in the code, proved: C10_modified_file_refuted: A file changed between two constructions is not noticed."
  },
  {
   "property": "C11",
   "status": "partial",
   "theorems": [
    "C11_same_database_partial",
    "C11_smash_refuted",
    "C11_wrong_database_refuted"
   ],
   "note": "Part, C11_same_database_partial: Any number of threads, any schedule. With all threads using the embedded database every construction yields the sequential value, or throws while another thread asks for the same state. Missing: that it never throws, and different databases (both false). | False in the code, proved: C11_smash_refuted: Two threads asking for the same state: one of them throws \"Cache smashing detected!\". | False in the code, proved: C11_wrong_database_refuted: Two threads using different databases: one gets the value of the other's database."
  },
  {
   "property": "C12",
   "status": "proved",
   "theorems": [
    "C12_fallback",
    "C12_exact"
   ],
   "note": "C12_fallback: [is_max xs m]: m is the largest element of xs; [tab_pL], [tab_rL], [tab_rJ]: the tabulated L values of the species in the two tables and the tabulated J for given L."
  },
  {
   "property": "C13",
   "status": "partial",
   "theorems": [
    "C13_multipole_forbidden",
    "C13_rules_symmetric",
    "C13_rules_q",
    "C13_magnetic_forbidden_partial",
    "C13_magnetic_refuted"
   ],
   "note": "C13_multipole_forbidden: Forbidden electric transitions have matrix element zero, for every pair of physical states, every multipole order and every radial function; the rules are symmetric; the form with q is the form without q restricted to m1 - m2 = q. | Part, C13_magnetic_forbidden_partial: Magnetic transitions: proved for equal l. Missing: different l, where it is false. | False in the code, proved: C13_magnetic_refuted: getMagneticDipole of an S and a P state is not zero although the rule forbids it."
  },
  {
   "property": "C14",
   "status": "proved",
   "theorems": [
    "C14_multipole_value",
    "C14_magnetic_value",
    "C14_multipole_adjoint",
    "C14_magnetic_adjoint"
   ],
   "note": "C14_multipole_value: Whatever order the states are given in, the element is the textbook one for that order, and exchanging the states gives the adjoint: the factor (-1)^(m1 - m2)."
  },
  {
   "property": "C15",
   "status": "partial",
   "theorems": [
    "C15_sound_partial",
    "C15_complete_partial",
    "C15_method_refuted",
    "C15_getRadial_refuted"
   ],
   "note": "Part, C15_sound_partial: every history of requests, precalculations, setMethod and setDefectDB calls within the guard `track` (settings changed only while nothing is pending or cached) returns what an object without cache would return. Missing: the histories of the refutations | Part, C15_complete_partial: If the radial integrals can always be computed, requests also never fail where an unused object would answer; getRadial only when nothing is pending (see the refutation). | False in the code, proved: C15_method_refuted: Keys precalculated under one method are computed with the method of a later setMethod and stored (also in the database) as if they belonged to the first. | False in the code, proved: C15_getRadial_refuted: getRadial dereferences an iterator found before the update that may rehash the map."
  },
  {
   "property": "C16",
   "status": "partial",
   "theorems": [
    "C16_before_use_partial",
    "C16_after_use_refuted"
   ],
   "note": "Part, C16_before_use_partial: setDefectDB before first use takes effect on every later value: this is the case [ESetDefect] of C15_sound_partial / C15_complete_partial ([track] admits it while Virgin, and [settings] then names the given path). From the call on the shared file is left alone. | False in the code, proved: C16_after_use_refuted: After a request, setDefectDB has no effect on values already cached."
  },
  {
   "property": "C17",
   "status": "partial",
   "theorems": [
    "C17_failure_poisons_refuted"
   ],
   "note": "False in the code, proved: C17_failure_poisons_refuted: A failed request poisons later, unrelated ones, without and with a database file."
  },
  {
   "property": "C18",
   "status": "partial",
   "theorems": [
    "C18_file_correct_partial",
    "C18_nothing_before_commit_partial",
    "C18_torn_commit_partial"
   ],
   "note": "Part, C18_file_correct_partial: After any such history, including restarts at any point between steps, what the file holds is correct; within one update the committed rows do not change before the commit. Missing: the commit itself is taken to be atomic, which the PRAGMAs journal_mode=MEMORY and synchronous=OFF (lines 90-93) do not provide across a crash. | Part, C18_nothing_before_commit_partial: while an update is running the committed rows of the file do not change | Part, C18_torn_commit_partial: A commit that is not atomic: the process dies while the rows of an update are written, and any part [left] of the rows that the file would hold after the update has reached the disk (old and new rows alike). A later process that opens this file gets correct values, in every history of its own, and what the file holds afterwards is correct. Missing: damage of the structure of the file (pages of SQLite), which the PRAGMAs journal_mode=MEMORY and synchronous=OFF permit."
  },
  {
   "property": "C19",
   "status": "proved",
   "theorems": [
    "C19_steps_deliver_rows",
    "C19_unprepared_throws",
    "C19_reset_restarts"
   ],
   "note": "C19_steps_deliver_rows: [expected rows err k]: what k calls of step() must deliver. | C19_unprepared_throws: step() on a statement that was not prepared since the last set/exec throws and changes nothing. | C19_reset_restarts: reset() restarts a prepared statement (whose last step did not fail)."
  },
  {
   "property": "C20",
   "status": "partial",
   "theorems": [
    "C20_range_for_outcome",
    "C20_refuted",
    "C20_correct_iff_two_rows"
   ],
   "note": "C20_range_for_outcome: The exact behaviour of a range-for over a freshly prepared statement. | False in the code, proved: C20_refuted: It visits exactly the rows only for result sets of exactly two rows."
  },
  {
   "property": "C21",
   "status": "partial",
   "theorems": [
    "C21_sets",
    "C21_sets_two",
    "C21_intervals_partial",
    "C21_inverted_refuted",
    "C21_half_integer_refuted"
   ],
   "note": "C21_sets: The set variants of restrictN/L/J/M: a state is kept iff it is artificial or each restricted quantum number is in its set. | Part, C21_intervals_partial: The (min,max) variants. Missing for the full claim: min > max, and half-integer values of j, m that differ from min by a non-integer (both refuted below). | False in the code, proved: C21_inverted_refuted: restrictN(5,4) keeps every state instead of none. | False in the code, proved: C21_half_integer_refuted: restrictJ(0,2) removes the state with j = 1/2."
  },
  {
   "property": "C22",
   "status": "partial",
   "theorems": [
    "C22_exact_partial",
    "C22_duplicate_throws",
    "C22_parity_refuted",
    "C22_parity_m_refuted",
    "C22_triplet_refuted"
   ],
   "note": "Part, C22_exact_partial: [wanted energy species srot rq s2 n l j m] (BasisProofs.v) lists the documented conditions: 0 <= l < n, |l-s| <= j <= l+s, -j <= m <= j in integer steps, the restrictions, the energy window and the momentum symmetry (j, m, s doubled). Missing for the full claim: restrictions on j, m of the wrong parity and restrictions on j for spin above 1/2 (refuted below); reflection symmetry is treated in C59. | C22_duplicate_throws: Adding a state that the restrictions already produce is reported. | False in the code, proved: C22_parity_refuted: Integer j for a spin-1/2 atom: restrictJ(0,2) produces \"j=1\" states. | False in the code, proved: C22_parity_m_refuted: Integer m for half-integer j: restrictM(-1,1) produces m = 0. | False in the code, proved: C22_triplet_refuted: Triplet species: restrictJ(0,1) produces an S state with j = 0 although s = 1."
  },
  {
   "property": "C23",
   "status": "partial",
   "theorems": [
    "C23_aligned_partial",
    "C23_one_atom_partial",
    "C23_add_refuted",
    "C23_unitarize_refuted"
   ],
   "note": "Part, C23_aligned_partial: Whatever history of calls precedes (with exceptions caught by the caller), as soon as the basis can be accessed the i-th state has index i, all states differ, the basis matrix has one row per state, and H is square of the dimension of the basis. Missing for the full claim: histories in which add() or unitarize() threw (refuted below). | Part, C23_one_atom_partial: with the initializeBasis of SystemOne (any energies, any symmetry). | False in the code, proved: C23_add_refuted: is false after an exception of add(): states and basis vectors are already enlarged when the bases turn out not to be orthogonal, H is not. The next access reports no error. | False in the code, proved: C23_unitarize_refuted: is false after an exception of unitarize(): a collision of the labels leaves fewer states than rows of the basis matrix."
  },
  {
   "property": "C24",
   "status": "proved",
   "theorems": [
    "C24_late_restriction",
    "C24_nothing_left",
    "C24_never_empty",
    "C24_any_order"
   ],
   "note": "C24_late_restriction: [rows1]/[cols]/[rows2] (SystemExact.v) list the positions to keep: states with allowed quantum numbers; basis vectors of allowed energy whose norm on these states exceeds the threshold; of the states, those with enough weight in the kept vectors. The result consists of exactly these rows and columns, in their old order. | C24_nothing_left: The call that applies the restrictions: it reports an error exactly if no state or no basis vector is left ... | C24_never_empty: ... and a basis that was built is never empty. | C24_any_order: Restrictions and added states do not depend on the order in which they are given."
  },
  {
   "property": "C25",
   "status": "proved",
   "theorems": [
    "C25_idempotent",
    "C25_late_states_reported"
   ],
   "note": "C25_late_states_reported: States added to a system whose basis is built are reported ..."
  },
  {
   "property": "C26",
   "status": "proved",
   "theorems": [
    "C26_value",
    "C26_history_independent",
    "C26_eigenvectors",
    "C26_operator_entries"
   ],
   "note": "C26_value: [hist26] allows set, buildBasis, buildHamiltonian, diagonalize (with an exact solver), canonicalize and buildInteraction (the latter only when no diagonalisation separates the current basis from the one of the stored operators; C27). Whatever the history, the Hamiltonian for the current parameters is the same operator. | C26_eigenvectors: The basis vectors of a diagonalised system (H diagonal, orthonormal basis) are eigenvectors of this operator, H_jj the eigenvalues. | C26_operator_entries: The entries of M_k are the matrix elements between the states."
  },
  {
   "property": "C27",
   "status": "partial",
   "theorems": [
    "C27_buildInteraction_partial",
    "C27_refuted"
   ],
   "note": "Part, C27_buildInteraction_partial: Inserting buildInteraction() (under the guard of [allowed]) changes no outcome and no matrix of any later call. | False in the code, proved: C27_refuted: a diagonalisation precedes: the stored operator refers to the eigenvectors but is added to the unperturbed Hamiltonian in the old basis"
  },
  {
   "property": "C28",
   "status": "partial",
   "theorems": [
    "C28_constrain_partial",
    "C28_refuted"
   ],
   "note": "Part, C28_constrain_partial: constrainBasisvectors() before a diagonalisation (the basis is still the unperturbed one): along every later history the Hamiltonian is P1 H(p) P1, P1 the projector on the chosen vectors. | False in the code, proved: C28_refuted: fails after a diagonalisation: the vector of energy 0 is chosen; setting the same field again turns it into the unperturbed first vector, with energy 16."
  },
  {
   "property": "C29",
   "status": "proved",
   "theorems": [
    "C29_refused_forever",
    "C29_memory_saving",
    "C29_unitarize"
   ],
   "note": "C29_refused_forever: Once a system contains the interaction and the unperturbed data are gone, every later attempt to change the parameters is refused and leaves the system as it is. | C29_memory_saving: Such states arise from building in memory saving mode and from unitarize()."
  },
  {
   "property": "C30",
   "status": "partial",
   "theorems": [
    "C30_rejected_partial",
    "C30_field_refuted",
    "C30_symmetry_refuted",
    "C30_surface_refuted"
   ],
   "note": "Part, C30_rejected_partial: A setter that throws leaves the object as it was, except in two situations (refuted below): a field with y-component for the real scalar type, and conserved momenta that do not fit to the conserved parity. | False in the code, proved: C30_field_refuted: setEfield with a y-component on a real system throws, but the stored Cartesian field is the rejected one, the spherical components used for the Hamiltonian are the old ones, and the system is marked for a rebuild. | False in the code, proved: C30_symmetry_refuted: setConservedParityUnderReflection / setConservedMomentaUnderRotation report the incompatible combination but keep it. | False in the code, proved: C30_surface_refuted: enableGreenTensor(false) in the presence of a surface throws, but has switched it off: the following calculation fails for every pair of atoms at a finite distance."
  },
  {
   "property": "C31",
   "status": "proved",
   "theorems": [
    "C31_hermitian",
    "C31_any_history"
   ],
   "note": "C31_hermitian: Whatever setters were called (successfully or not) and however often operators were computed before, the Hamiltonian assembled for the current fields is Hermitian."
  },
  {
   "property": "C32",
   "status": "partial",
   "theorems": [
    "C32_get",
    "C32_get_real_partial",
    "C32_add",
    "C32_set_partial",
    "C32_get_refuted",
    "C32_set_refuted",
    "C32_add_refuted"
   ],
   "note": "C32_get: getHamiltonianEntry(a, b) returns <b|H|a> for a Hermitian Hamiltonian ... | Part, C32_get_real_partial: ... which is <a|H|b> if that is real. | C32_add: addHamiltonianEntry: exactly the two entries change, and the Hamiltonian stays Hermitian unless a non-real value is added to a diagonal entry. | Part, C32_set_partial: setHamiltonianEntry with a real value, the present entry being real: afterwards the two entries have the value, the others are unchanged, and reading returns the value. Missing: complex values or entries, where it is false (below). | False in the code, proved: C32_get_refuted: <0|H|1> = i is read as -i. | False in the code, proved: C32_set_refuted: Setting <0|H|1> (which is i) to i yields 3i, and a later read -3i. | False in the code, proved: C32_add_refuted: Adding i to a diagonal entry makes the Hamiltonian non-Hermitian."
  },
  {
   "property": "C33",
   "status": "proved",
   "theorems": [
    "C33_constrain_exact",
    "C33_constrain_throws"
   ],
   "note": "C33_constrain_throws: A duplicate or an index out of range is refused, and the system is the one after buildHamiltonian()."
  },
  {
   "property": "C34",
   "status": "proved",
   "theorems": [
    "C34_value",
    "C34_total",
    "C34_at_most_one"
   ],
   "note": "C34_value: The overlap with a list of searched states: the k-th number is the sum, over the searched states g and the stored states x that g stands for ([selects]: equal to g, or matching the wildcards of g), of |<x|b_k>|^2. The system is unchanged. | C34_total: In a complete orthonormal basis (B B\u2020 = 1) the overlaps of stored states add up to their number; for one state this is 1. Also for states rotated by a norm-preserving rotator. | C34_at_most_one: Bessel's inequality: in an orthonormal basis (also an incomplete one) the overlaps of one state add up to at most one."
  },
  {
   "property": "C35",
   "status": "proved",
   "theorems": [
    "C35_value",
    "C35_one_to_one",
    "C35_systems"
   ],
   "note": "C35_value: The coefficient of the overlap matrix is the inner product of the two basis vectors over the common states. | C35_one_to_one: For every sparse matrix of overlaps (increasing rows in every column, stored values not negative) the call succeeds, reads no uninitialised index, and returns exactly the pairs of basis vectors whose overlap exceeds the threshold and is the first largest of its row and of its column ([connected]); no index of either system occurs twice. | C35_systems: The call on two systems: every pair overlaps by more than the threshold, and no other basis vector of either system overlaps more with the partner."
  },
  {
   "property": "C36",
   "status": "proved",
   "theorems": [
    "C36_distinct",
    "C36_systems"
   ],
   "note": "C36_distinct: [perm] is the order in which std::nth_element leaves the columns ([nth_element_ok] is its guarantee). If the call returns, it returns one index per searched state, all different and all valid; they are the columns of largest total overlap with the searched states, and every state overlaps with its basis vector. More states than basis vectors: C85_too_many_refuted. | C36_systems: The same for the call on a system."
  },
  {
   "property": "C37",
   "status": "proved",
   "theorems": [
    "C37_add_direct_sum"
   ],
   "note": "C37_add_direct_sum: add() gives the direct sum. The states are those of the first system followed by the unknown ones of the second; the basis vectors of both keep their coefficients (a state a system does not have gets 0); H is block-diagonal."
  },
  {
   "property": "C38",
   "status": "partial",
   "theorems": [
    "C38_one_real_partial",
    "C38_one_complex_partial",
    "C38_two_real_partial",
    "C38_two_complex_partial",
    "C38_cache_partial",
    "C38_ion_refuted",
    "C38_greentensor_refuted",
    "C38_defectdb_refuted",
    "C38_caches_refuted",
    "C38_dangling_refuted",
    "C38_leroy_refuted"
   ],
   "note": "Part, C38_one_real_partial: Pickling a one-atom system and loading it gives a system with the same members; the parameters of the ion are those of a new system, so that a system without ion is the same after loading. Missing: systems with an ion (C38_ion_refuted), and the pointer to the cache (C38_dangling_refuted). | Part, C38_one_complex_partial: the same with complex scalars | Part, C38_two_real_partial: The same for two-atom systems. | Part, C38_two_complex_partial: the same with complex scalars | Part, C38_cache_partial: The cache as an archive member: all entries come back, the path of the defect database does not. | False in the code, proved: C38_ion_refuted: A system with an ion of charge 1 and multipole order 2: after loading there is no interaction with the ion any more. | False in the code, proved: C38_greentensor_refuted: A pair system with the Green tensor approach switched on: it is switched off after loading. | False in the code, proved: C38_defectdb_refuted: A cache with its own defect database: after loading the built-in one is used. | False in the code, proved: C38_caches_refuted: A pair system that shares no cache with its one-atom systems: after loading they share the last one, so that matrix elements are computed with another method (here WHITTAKER = 1 instead of NUMEROV = 0). | False in the code, proved: C38_dangling_refuted: In Python every loaded system refers to a cache that no longer exists: pickling it again is undefined, for every system, ... | False in the code, proved: C38_leroy_refuted: ... and so is checking the distance of a loaded pair system against the Le Roy radius, even if the saved one knew it already."
  },
  {
   "property": "C39",
   "status": "proved",
   "theorems": [
    "C39_unitarize",
    "C39_unitarize_iff"
   ],
   "note": "C39_unitarize_iff: unitarize() succeeds exactly if the labels are pairwise different."
  },
  {
   "property": "C40",
   "status": "proved",
   "theorems": [
    "C40_permutation",
    "C40_inversion",
    "C40_combined",
    "C40_orthonormal",
    "C40_sectors",
    "C40_exchange",
    "C40_union",
    "C40_permutation_union",
    "C40_inversion_union",
    "C40_user_partner"
   ],
   "note": "C40_permutation: Permutation symmetry, whatever the one-atom basis vectors are. | C40_inversion: Inversion symmetry, basis vectors of definite parity. | C40_combined: Inversion, permutation and rotation symmetry combined; basis vectors of definite parity and momentum (as far as the symmetry asks for it). | C40_orthonormal: The vectors of a sector are orthonormal. | C40_sectors: The vectors of the two sectors are orthogonal, and the products of the one-atom vectors are combinations of the vectors of both sectors. | C40_exchange: The vectors have the declared symmetry under exchange of the atoms."
  },
  {
   "property": "C41",
   "status": "partial",
   "theorems": [
    "C41_accepted",
    "C41_exact",
    "C41_default",
    "C41_empty_refuted"
   ],
   "note": "C41_accepted: A list with a repeated pair is rejected and the old list is kept; any other list is stored. | C41_exact: Without symmetries, the basis vectors are exactly the products of the chosen pairs, in the given order, that the energy restriction admits. | C41_default: Without a choice and without symmetries, all products. | False in the code, proved: C41_empty_refuted: An empty list means all pairs."
  },
  {
   "property": "C42",
   "status": "partial",
   "theorems": [
    "C42_sum_partial",
    "C42_triplet_refuted",
    "C42_fractional_refuted",
    "C42_below_ground_refuted",
    "C42_unbound_refuted"
   ],
   "note": "Part, C42_sum_partial: For singlets and doublets, a whole number deltaN = D, and n - D >= l for both atoms: getC6(state, D) is the second-order sum over exactly the intermediate pair states, each once, whatever the energies and dipole matrix elements are. Missing: higher spins, fractional deltaN, deltaN reaching below the lowest bound state (all false, see below); an intermediate state exactly degenerate with the given one, where the code divides by zero. | False in the code, proved: C42_triplet_refuted: strontium triplets: from (60 3P1, 60 3S1) the pair (60 3D2, 60 3P1) is an intermediate state with non-zero interaction, but nothing about the state 60 3D2 m=1 enters the result | False in the code, proved: C42_fractional_refuted: deltaN = 1/2: a state with n smaller by one is asked for (here the dipole call fails for it). | False in the code, proved: C42_below_ground_refuted: deltaN = n for a state with l > 0: n = 0 is tried and the call throws, whatever the data. | False in the code, proved: C42_unbound_refuted: With n - deltaN < l, states with n <= l are asked for: here 5 G -> 3 F."
  },
  {
   "property": "C43",
   "status": "partial",
   "theorems": [
    "C43_equal_l_partial",
    "C43_different_l_refuted",
    "C43_different_l_coupled_refuted"
   ],
   "note": "Part, C43_equal_l_partial: For singlets and doublets and states of equal l, the matrix element between row and column is the second-order sum over exactly the pair states outside the model space coupled to both. Missing: different l (false, see below), higher spins, as for C42. | False in the code, proved: C43_different_l_refuted: Whenever l differs in one of the atoms, the element is zero ... | False in the code, proved: C43_different_l_coupled_refuted: the element is zero although an intermediate pair state is coupled to row and column"
  },
  {
   "property": "C44",
   "status": "proved",
   "theorems": [
    "C44_matrices_symmetric",
    "C44_angle_terms",
    "C44_angle_symmetry",
    "C44_C3_value",
    "C44_C6_single",
    "C44_C6_order",
    "C44_dipoles_hermitian"
   ],
   "note": "C44_matrices_symmetric: Both matrices are square, symmetric, and their upper triangle holds the elements. | C44_angle_terms: The angle terms: whatever is read from the table has been set, and it is the coefficient of the dipole-dipole interaction along (sin angle, 0, cos angle); transitions not in the table do not contribute. | C44_angle_symmetry: Exchanging the atoms or reversing the transition. | C44_C3_value: Every element of the C3 matrix, in both triangles and on the diagonal, is the dipole-dipole matrix element at unit distance between the two pair states. | C44_C6_single: The C6 matrix of one state is the C6 coefficient of that state (spins up to 1/2). | C44_C6_order: Giving the states in another order does not change the element of a pair of states. | C44_dipoles_hermitian: The matrix elements returned by getElectricDipole satisfy the hypothesis [hermitian_dipole]."
  },
  {
   "property": "C45",
   "status": "proved",
   "theorems": [
    "C45_hessian",
    "C45_gradient",
    "C45_symmetric_traceless"
   ],
   "note": "C45_hessian: The dipole-dipole tensor is the Hessian of 1/r ... | C45_gradient: ... the quadrupole tensors are plus and minus its gradient ... | C45_symmetric_traceless: ... symmetric in all indices and traceless."
  },
  {
   "property": "C46",
   "status": "partial",
   "theorems": [
    "C46_dipole_image",
    "C46_gradients_partial",
    "C46_y_derivative_refuted",
    "C46_divergence_refuted"
   ],
   "note": "C46_dipole_image: With a plate the dipole of the second atom sees the mirror image of the dipole of the first one; (x, 0) is the horizontal position of the first atom relative to the second. | Part, C46_gradients_partial: The quadrupole tensors contain the derivatives with respect to x and to the heights of the first (QD) and second (DQ) atom. Missing in the code: the derivatives with respect to y, see [C46_y_derivative_refuted]. | False in the code, proved: C46_y_derivative_refuted: The component of the quadrupole-dipole tensor that belongs to the y direction is not the derivative of the image tensor, whenever x is not zero. | False in the code, proved: C46_divergence_refuted: As a consequence the tensor is not divergence-free although no charge is present."
  },
  {
   "property": "C47",
   "status": "partial",
   "theorems": [
    "C47_tensors_current_partial",
    "C47_failed_surface_refuted",
    "C47_inside_plate_refuted",
    "C47_rejection_sound"
   ],
   "note": "Part, C47_tensors_current_partial: Lazy evaluation: every tensor returned belongs to the separation and to the plate of the last successful addSurface, provided every height is at least half the distance of the atoms along z (then addSurface does not throw), or the atoms are not in the xz-plane (then every addSurface throws). Missing: the histories of [C47_failed_surface_refuted]. | False in the code, proved: C47_failed_surface_refuted: An addSurface that throws is remembered nevertheless. | False in the code, proved: C47_inside_plate_refuted: The heights of the atoms above the plate are d - z/2 and d + z/2, but an atom inside the plate is not detected: one atom above the other at distance 10, the middle at height 1. | C47_rejection_sound: The check is too lax but never too strict: if addSurface throws for atoms in the xz-plane then one of them is inside the plate."
  },
  {
   "property": "C48",
   "status": "proved",
   "theorems": [
    "C48_roundtrip",
    "C48_writes",
    "C48_truncated",
    "C48_appends"
   ],
   "note": "C48_roundtrip: Whatever is written is read back; the reader stops exactly behind it. [pre] and [post] are other bytes of the string. | C48_writes: Such values can always be written. | C48_truncated: Every proper prefix is rejected. | C48_appends: To a vector variable that already has elements the saved ones are appended."
  },
  {
   "property": "C49",
   "status": "proved",
   "theorems": [
    "C49_safe"
   ],
   "note": "C49_safe: Reading any byte string, into any variables, from any position: an exception, or every byte that was looked at belongs to the string ([UB] is an access outside)."
  },
  {
   "property": "C50",
   "status": "partial",
   "theorems": [
    "C50_roundtrip_partial",
    "C50_truncated",
    "C50_writes",
    "C50_last_column_refuted",
    "C50_other_scalar",
    "C50_cereal"
   ],
   "note": "Part, C50_roundtrip_partial: Hamiltonianmatrix: what is stored and loaded again is the same pair of matrices, if in each matrix something is stored before the last column, or nothing at all ([storable]). [fits]: sizes below 2^31, values are doubles. Missing: the other matrices; they are lost (next theorem). | C50_truncated: A file that was only partly written is rejected, whatever the matrices (also those the previous theorem excludes). | C50_writes: It can always be written. | False in the code, proved: C50_last_column_refuted: A nonzero matrix whose entries are all in the last column (e.g. every matrix with one column) is loaded as zero, without an error. | C50_other_scalar: A file whose matrices (one of them suffices) have the other scalar type, real instead of complex or complex instead of real, is refused; it is not read as a matrix with missing or invented imaginary parts. | C50_cereal: The cereal archive stores all outer indices and is exact."
  },
  {
   "property": "C51",
   "status": "partial",
   "theorems": [
    "C51_two_partial",
    "C51_one_partial",
    "C51_unstorable_refuted"
   ],
   "note": "Part, C51_two_partial: The history [es] is arbitrary: any number of runs, killed at any points. Then a process is started with the parameter sets [ps]; if thread i gets enough turns, it has finished with a matrix calculated for parameters that are written like its own (equal to its own, if different parameters are written differently). [good]: no uuid is drawn twice, and no process works on the same configuration in two threads at once. Missing: matrices that cannot be stored (C51_unstorable_refuted), several threads in HamiltonianOne (C53), the same configuration in two threads (C68), parameters that are written equally (C52). | Part, C51_one_partial: HamiltonianOne with one thread. Missing: more threads (C53_one_refuted), and matrices that cannot be stored | False in the code, proved: C51_unstorable_refuted: A matrix that cannot be stored: whoever asks for it a second time gets another matrix."
  },
  {
   "property": "C52",
   "status": "partial",
   "theorems": [
    "C52_partial",
    "C52_refuted"
   ],
   "note": "Part, C52_partial: The matrix that is returned belongs to fields that agree with the requested ones to about five digits. Missing: agreement of the fields, see the next theorem. | False in the code, proved: C52_refuted: Two fields that differ, are written equally; who asks for the second one after somebody asked for the first one gets the matrix of the first one."
  },
  {
   "property": "C53",
   "status": "partial",
   "theorems": [
    "C53_two",
    "C53_one_partial",
    "C53_one_refuted"
   ],
   "note": "C53_two: HamiltonianTwo: for every schedule of every number of threads the table is there. | Part, C53_one_partial: HamiltonianOne: with one thread. Missing: more threads. | False in the code, proved: C53_one_refuted: With two threads: the first clears the flag, the second sees that and queries the table before the first creates it."
  },
  {
   "property": "C54",
   "status": "partial",
   "theorems": [
    "C54_one_partial",
    "C54_m_refuted",
    "C54_both_partial",
    "C54_both_m_refuted",
    "C54_once",
    "C54_both_once"
   ],
   "note": "Part, C54_one_partial: One start state. Missing: delta_m < 0 and a start state with negative m, see the next theorem. | False in the code, proved: C54_m_refuted: The basis stops short of the largest m. | Part, C54_both_partial: Two start states. Missing: delta_m < 0 and m1 + m2 < 0. | False in the code, proved: C54_both_m_refuted: two start states with negative total m: the basis stops short of the largest m | C54_once: Every state is listed once; the lists are ordered by n, l, j, m."
  },
  {
   "property": "C55",
   "status": "proved",
   "theorems": [
    "C55_indices",
    "C55_both_indices",
    "C55_one",
    "C55_again",
    "C55_short_mask",
    "C55_rowmajor",
    "C55_two",
    "C55_keep",
    "C55_initial",
    "C55_from_two"
   ],
   "note": "C55_one: removeUnnecessaryStates: the states whose index is marked remain in their order, the i-th gets index i. | C55_again: Removing again is possible (with a mask of the new size). | C55_short_mask: A mask that is too short is read out of bounds. | C55_rowmajor: The pair basis is in row-major order, the index is the position. | C55_initial: The pair state the calculation starts from: after the basis is built initial() is that state, and its index is the position where it is listed (first), if it is listed. | C55_from_two: The basis of one of the atoms of a pair basis: exactly the states this atom has in the pairs, each once, in order; its indices are complete. [second]: which atom."
  },
  {
   "property": "C56",
   "status": "partial",
   "theorems": [
    "C56_append",
    "C56_equal",
    "C56_const_access",
    "C56_access",
    "C56_write",
    "C56_json_partial",
    "C56_json_dot_refuted",
    "C56_json_written",
    "C56_json_empty_key",
    "C56_count"
   ],
   "note": "C56_access: operator[] of a configuration that is not const: a missing key is inserted with an empty value, nothing else changes | Part, C56_json_partial: Saving and loading again; the keys must not be empty nor contain a dot. Loading into a nonempty configuration merges. Missing: keys with a dot, see the next theorem. | False in the code, proved: C56_json_dot_refuted: A key with a dot gets lost without an error. | C56_json_written: The file contains every entry: the parts of the key between the dots are the path to the value. | C56_json_empty_key: An empty key with a value cannot be saved: this throws. | C56_count: count"
  },
  {
   "property": "C57",
   "status": "proved",
   "theorems": [
    "C57_result",
    "C57_found",
    "C57_grid"
   ],
   "note": "C57_result: Whatever the column: the search ends, with an exception or with a row that has the value. | C57_found: In an increasing column every value that occurs is found; it is the right row unless other rows are as close. | C57_grid: The radial grids: row k of one grid is found in every other grid that has a row at the same place ([key a i] = 100 a + i, the place in units of 0.01); it is exactly that row."
  },
  {
   "property": "C58",
   "status": "partial",
   "theorems": [
    "C58_dimensions_partial",
    "C58_canonicalize_refuted",
    "C58_window_refuted"
   ],
   "note": "Part, C58_dimensions_partial: Matrix products and sums of the library always have matching dimensions, up to the first exception, in every history without canonicalize() (whose cached data keep the old dimension, refuted below). | False in the code, proved: C58_canonicalize_refuted: is false with canonicalize(): the data kept for the next change of the fields have the old dimension. Here a basis with 2 states and 1 vector is canonicalised and then constrained. | False in the code, proved: C58_window_refuted: fails: the diagonalization in a window shrinks the basis, but not the stored operators; a later constrainBasisvectors multiplies matrices whose dimensions do not fit."
  },
  {
   "property": "C59",
   "status": "partial",
   "theorems": [
    "C59_columns",
    "C59_orthonormal",
    "C59_real_scalars",
    "C59_parity_partial",
    "C59_integer_refuted",
    "C59_m0_refuted",
    "C59_opposite"
   ],
   "note": "C59_columns: What a successful call has built: one basis vector for every asked-for state with m >= 0 (and every artificial state), and nothing else; its coefficients; the states are the represented states and their mirror images; the Hamiltonian is diagonal with the energies of the represented states; nothing that the restrictions ask for is lost, as the mirror image of an asked-for state is asked for. Restrictions of the wrong parity are excluded as in C22 (C22_parity_refuted). | C59_orthonormal: The basis vectors are orthonormal. | C59_real_scalars: With a real scalar type a basis with a state of m <> 0 cannot be built. | Part, C59_parity_partial: Half-integer j: the vector of a state with m <> 0 is an eigenvector of the reflection, with eigenvalue +1 (EVEN) or -1 (ODD). Missing: integer j and m = 0, where it is false (below). | False in the code, proved: C59_integer_refuted: Integer j: the two coefficients are reflected with opposite signs, so the vector has no parity. | False in the code, proved: C59_m0_refuted: m = 0: the bases of both parities contain the same vector. | C59_opposite: The vectors of opposite parity of a state with m <> 0 are orthogonal."
  },
  {
   "property": "C60",
   "status": "proved",
   "theorems": [
    "C60_length",
    "C60_setters",
    "C60_commute"
   ],
   "note": "C60_length: The stored distance is positive and is the length of the stored vector. | C60_setters: setDistance(d) scales the vector, i.e. keeps the direction; setAngle(a) gives d (sin a, 0, cos a); setDistanceVector stores the vector. | C60_commute: The order of setDistance and setAngle does not matter, and the last setDistance wins."
  },
  {
   "property": "C61",
   "status": "proved",
   "theorems": [
    "C61_labels"
   ],
   "note": "C61_labels: forgetStatemixing on an orthonormal diagonalized basis: it throws iff some basis vector has no component with |.|^2 > 1/2; otherwise the basis vectors become unit vectors of distinct states, each the state dominating the old basis vector; they are orthonormal."
  },
  {
   "property": "C62",
   "status": "proved",
   "theorems": [
    "C62_setters",
    "C62_new",
    "C62_value",
    "C62_dipole_cartesian",
    "C62_diamagnetic_cartesian"
   ],
   "note": "C62_setters: The parameters are what the setters say: an accepted call stores its argument and changes no other parameter; a new system has no fields and no ion, and diamagnetism is considered. | C62_dipole_cartesian: The coefficients are those of the scalar products: for a position vector r, the sum of field components times spherical components of r is -F.r, and the diamagnetic combination is |F x r|^2."
  },
  {
   "property": "C63",
   "status": "partial",
   "theorems": [
    "C63_lost_refuted"
   ],
   "note": "False in the code, proved: C63_lost_refuted: An entry written after the Hamiltonian contains fields is lost at the next change of the fields: the system continues as if the entry had not been written (the Hamiltonian is rebuilt from the data saved when the fields were first set, SystemBase.cpp:484-492)."
  },
  {
   "property": "C64",
   "status": "proved",
   "theorems": [
    "C64_main_states"
   ],
   "note": "C64_main_states: If every basis vector has a stored coefficient, getMainStates returns for every basis vector the state of its (first) largest coefficient."
  },
  {
   "property": "C65",
   "status": "proved",
   "theorems": [
    "C65_physics",
    "C65_switch",
    "C65_approaches_agree",
    "C65_real_scalar",
    "C65_errors"
   ],
   "note": "C65_physics: At order 3 without a surface, whatever setters were called before (Green tensor enabled or not, angle or no angle), the matrix element is the physical dipole-dipole energy kC (a.b/r^3 - 3 (a.R)(b.R)/r^5) up to the cut-off [tol] of tensor elements. | C65_switch: A y component switches the Green tensor approach on, so that the interaction is computed for every vector unless the user has called enableGreenTensor(false). | C65_approaches_agree: Hence the approaches agree exactly if no cut-off is applied (tol = 0). | C65_real_scalar: The real-valued system gives the same numbers, and does not throw for the sake of a complex number, if the atoms lie in the xz plane. | C65_errors: The only error of the Green tensor approach in vacuum is the announced one: orders of 5 and above."
  },
  {
   "property": "C66",
   "status": "partial",
   "theorems": [
    "C66_table",
    "C66_axis_agree_partial",
    "C66_axis_refuted",
    "C66_contraction",
    "C66_trace_free"
   ],
   "note": "C66_table: The matrices that the code fills with quadrupole matrix elements are the spherical components of the Cartesian tensor x_j x_k / 2 - delta_jk (r^2 - m0)/6: contracted with the solid harmonics of any point they give the coordinates back. | Part, C66_axis_agree_partial: Order 4 on the z axis: Green tensor approach and multipole expansion give the dipole-dipole term plus the dipole-quadrupole terms; they agree if the second atom is above the first. | False in the code, proved: C66_axis_refuted: Missing in the partial theorem: z < 0. The multipole expansion only uses |z|, so the dipole-quadrupole energy has the wrong sign if the second atom is below the first: the two approaches differ by twice this energy. | C66_contraction: Without a plate the dipole-quadrupole part is the full contraction of the tensors of C45 with the dipole vector and the quadrupole table ... | C66_trace_free: ... and the rank-0 matrix element that the code puts on the diagonal (getElectricMultipole(..., 0), which is not <r^2>) has no influence."
  },
  {
   "property": "C67",
   "status": "partial",
   "theorems": [
    "C67_int",
    "C67_double_partial",
    "C67_double_refuted"
   ],
   "note": "Part, C67_double_partial: A double is read back with a relative deviation of at most 5e-6 (before stod rounds to the nearest double). Missing: the exact value, see the next theorem. | False in the code, proved: C67_double_refuted: a double with more than six digits is not read back"
  },
  {
   "property": "C68",
   "status": "partial",
   "theorems": [
    "C68_same_conf_refuted"
   ],
   "note": "False in the code, proved: C68_same_conf_refuted: Two steps whose parameters are written in the same way: both threads find no entry, the second INSERT violates the UNIQUE constraint and ends the program."
  },
  {
   "property": "C69",
   "status": "proved",
   "theorems": [
    "C69_rows",
    "C69_radius",
    "C69_symmetric",
    "C69_value"
   ],
   "note": "C69_rows: The search never fails; the sum runs over all rows at common places except the last one, each once. | C69_radius: Rows that are multiplied are at the same radius up to 2 epsilon. | C69_symmetric: Exchanging the states exchanges the rows. | C69_value: The value: the integrand is summed over all common places s, s+1, ... except the last one (place t is row t - 100 a of the grid that begins at 100 a), with the radius of the first state; no row is left out, counted twice or paired with a row at another place."
  },
  {
   "property": "C70",
   "status": "proved",
   "theorems": [
    "C70_norm",
    "C70_rounded"
   ],
   "note": "C70_norm: Numerov: a state has norm one. power_kernel(0) = 2. In exact arithmetic, for every potential [g]. | C70_rounded: The same with every operation rounded to binary64, where std::pow is right up to 2^-52: the norm is 1 up to (2n + 16) 2^-52, n the number of grid points. The potential [g] is arbitrary; no row may underflow or overflow (2^-200 <= |y| <= 2^200 or y = 0) and no denominator vanish."
  },
  {
   "property": "C71",
   "status": "proved",
   "theorems": [
    "C71_truncated_one",
    "C71_truncated_one_complex",
    "C71_truncated_two",
    "C71_truncated_two_complex",
    "C71_trailing"
   ],
   "note": "C71_truncated_one: A pickle that has been cut off is refused with an exception, wherever it was cut. | C71_trailing: The bytes that come after the object are ignored."
  },
  {
   "property": "C72",
   "status": "proved",
   "theorems": [
    "C72_formula",
    "C72_three_angles",
    "C72_levels",
    "C72_unitary",
    "C72_addition",
    "C72_inverse",
    "C72_identity"
   ],
   "note": "C72_formula: For all quantum numbers and angles, WignerD computes Wigner's formula (in exact arithmetic). | C72_three_angles: The three-angle matrix: e^{-i m alpha} d(beta) e^{-i m' gamma}. | C72_unitary: The matrices are unitary. | C72_addition: Rotations about the y axis: angles add. | C72_inverse: The inverse rotation has the transposed matrix; no rotation is the identity."
  },
  {
   "property": "C73",
   "status": "proved",
   "theorems": [
    "C73_entries",
    "C73_orthonormal",
    "C73_orthonormal_pairs",
    "C73_inverse",
    "C73_inverse_pairs",
    "C73_identity",
    "C73_identity_pairs",
    "C73_composition",
    "C73_composition_pairs",
    "C73_norm",
    "C73_norm_pairs",
    "C73_unit",
    "C73_unit_pairs",
    "C73_artificial",
    "C73_real"
   ],
   "note": "C73_entries: The entry of the rotator between two states is the matrix element of the inverse rotation, if they differ only in m. | C73_orthonormal: Rotated states are orthonormal if all Zeeman levels are there. | C73_inverse: The rotator of the inverse rotation is the adjoint matrix (also if levels are missing). | C73_norm: Whatever levels are there, the norm of a rotated state is at most one. | C73_unit: In a complete set of levels the columns have norm one: the condition of C34 for rotated states is met. | C73_real: Real scalars: rotations about the z axis (by anything but full turns) are refused."
  },
  {
   "property": "C74",
   "status": "proved",
   "theorems": [
    "C74_axes",
    "C74_refused",
    "C74_angles",
    "C74_angles_axes",
    "C74_states",
    "C74_zero_field"
   ],
   "note": "C74_axes: The stored components are the components along the axes y x z, y, z (of length one); nothing is lost. | C74_refused: Axes that are not orthogonal (cosine of the angle above 1e-16) are refused, others are not. | C74_angles: Euler angles: the rotation keeps lengths and angles between fields, no rotation is the identity, the inverse angles undo it. | C74_angles_axes: Angles and axes agree: for the axes with polar angles (beta, alpha) of z, both give the same field. | C74_zero_field: A zero field is stored with any axes, orthogonal or not."
  },
  {
   "property": "C75",
   "status": "partial",
   "theorems": [
    "C75_effective_partial",
    "C75_unique",
    "C75_refuses",
    "C75_more_vectors_refuted",
    "C75_later_refuted"
   ],
   "note": "Part, C75_effective_partial: A call that returns: with [sb] the system as it was built before the call and [sd] its eigenvectors, [B0] the vectors of system0 written over the states of the system and [idx] the eigenvectors with the largest weight in the space of B0, the new basis consists of orthonormal vectors that span the same space as the selected eigenvectors and whose overlap matrix with B0 is Hermitian and positive definite; the new Hamiltonian is the old one between these vectors, and is unitarily equivalent to the diagonal matrix of the selected energies. The states and the parameters are those of the built system. [transversal]: no combination of selected vectors is orthogonal to the space of B0, nor the other way round. | C75_unique: The new basis is determined by this description, whatever square root and whatever eigenvectors the libraries return: there is only one orthonormal basis of a space with as many vectors as B0 whose overlap matrix with B0 is Hermitian and positive definite. | C75_refuses: If it does not return, one of the checks failed: a basis that is not orthonormal, an unperturbed Hamiltonian that is not diagonal, a state of system0 that is not a state of the system. | False in the code, proved: C75_more_vectors_refuted: The claim is false if system0 has more basis vectors than the system: nothing checks it, and std::nth_element and the loop behind it leave the vector of indices. | False in the code, proved: C75_later_refuted: After the transformation, setting the same field again turns the effective vector (4/5, -3/5) of energy 25 into minus the second state, of energy 9."
  },
  {
   "property": "C76",
   "status": "partial",
   "theorems": [
    "C76_product",
    "C76_rotation_partial",
    "C76_permutation",
    "C76_inversion_partial",
    "C76_inversion_permutation_partial",
    "C76_permutation_complete",
    "C76_inversion_complete_partial",
    "C76_reflection_partial",
    "C76_inversion_mixed_refuted",
    "C76_rotation_mixed_refuted",
    "C76_reflection_open_refuted",
    "C76_reflection_permutation_refuted"
   ],
   "note": "C76_product: No symmetry: the basis vectors are the products of the one-atom basis vectors, in lexicographic order, those outside of the energy cutoff are left out; the energies are the sums; an orthonormal basis results from orthonormal bases. | Part, C76_rotation_partial: Total magnetic quantum number R: if every one-atom basis vector has a definite magnetic quantum number, exactly the products with total magnetic quantum number R remain. (Quantum numbers are doubled: mm is 2m. | C76_permutation: Permutation symmetry of two atoms in the same states: the basis vectors are (u v - v u)/sqrt(2) (EVEN) and (u v + v u)/sqrt(2), u u (ODD); they are orthonormal eigenvectors of the exchange of the atoms. | Part, C76_inversion_partial: Inversion symmetry of two atoms in the same states, if every one-atom basis vector has a definite parity q (no electric field): the basis vectors are orthonormal eigenvectors of the inversion. The eigenvalue of EVEN (gerade) is -1, of ODD +1. | Part, C76_inversion_permutation_partial: Inversion and permutation symmetry together: each block contains the symmetrised products with the matching parity. | C76_permutation_complete: Nothing is lost: the two sectors together have as many basis vectors as there are products within the energy cutoff, and every such product is a combination of one basis vector of each sector with the same energy. | Part, C76_inversion_complete_partial: every product of basis vectors is a combination of vectors of the even and the odd block; missing: one-atom basis vectors of mixed parity (refuted) | Part, C76_reflection_partial: Reflection symmetry (with or without a total magnetic quantum number R), if the states of both atoms are closed under m -> -m and every one-atom basis vector has a definite m (no field in x, y): the basis vectors are (u v + s R(u v))/sqrt(2) where u has m > 0; s = 1 for EVEN, -1 for ODD; they are orthonormal eigenvectors of the reflection. Missing: combinations with the other symmetries. | False in the code, proved: C76_inversion_mixed_refuted: Inversion symmetry and one-atom states of mixed parity (an electric field): the vectors of the one-atom basis are orthonormal, but EVEN yields a zero vector as basis vector with an energy, and ODD a vector of squared length 2. | False in the code, proved: C76_rotation_mixed_refuted: Total magnetic quantum number and one-atom states of mixed m: the pair states are truncated and not normalised (nor orthogonal | False in the code, proved: C76_reflection_open_refuted: Reflection symmetry and states without partner of opposite m: an entry of the table of mirrored states that was never written (-1) is used as a row of the matrix. | False in the code, proved: C76_reflection_permutation_refuted: Reflection and permutation symmetry together and one-atom states of mixed parity and definite m (an electric field in z direction, which both symmetries allow): basis vectors of squared length 1/2; without the field the lengths are 1."
  },
  {
   "property": "C77",
   "status": "partial",
   "theorems": [
    "C77_exact",
    "C77_covers",
    "C77_covers_reflection_partial",
    "C77_covers_magnetic_refuted",
    "C77_threads_partial",
    "C77_threads_refuted",
    "C77_blocks_partial",
    "C77_symmetries",
    "C77_all_states"
   ],
   "note": "C77_exact: A pair state is on the list exactly if it has an entry in a product of basis vectors within the energy cutoff, at some step, and fits to one of the symmetries. | C77_covers: Every pair state that has an amplitude in a basis vector of a block without reflection symmetry is on the list. (Inversion and permutation are symmetries of equal atoms. If both are used and the initial state is to be kept, the blocks are those of the parity of the initial state, see C77_blocks, and the one-atom basis vectors must have a parity. | Part, C77_covers_reflection_partial: Blocks with reflection symmetry: if every one-atom basis vector has a partner with opposite m and the same energy (no magnetic field), every pair state that has an amplitude in a basis vector is on the list. | False in the code, proved: C77_covers_magnetic_refuted: with a magnetic field (no partner of the same energy) a state of a reflection block is missing on the list | Part, C77_threads_partial: The steps are distributed over threads which write to the same std::vector<bool> (#pragma omp parallel for). Whatever the order of the loads and stores of the threads, no state is marked that no thread wants to mark; with one step all states are marked. Missing: several steps, see the next theorem. | False in the code, proved: C77_threads_refuted: two steps in two threads: the mark of one of them is lost | Part, C77_blocks_partial: blocks left out do not contain the initial state; missing: reflection and total magnetic quantum number | C77_symmetries: The list of the blocks, exactly. | C77_all_states: If the atoms are not to be found in the initial state, no pair state is left out because of the symmetries (total magnetic quantum numbers are integers)."
  },
  {
   "property": "C78",
   "status": "partial",
   "theorems": [
    "C78_restrict",
    "C78_valid",
    "C78_near_partial",
    "C78_near_kept",
    "C78_initial_kept",
    "C78_near_refuted",
    "C78_energies",
    "C78_short_vectors",
    "C78_orthonormal_refuted"
   ],
   "note": "C78_restrict: The restricted list contains exactly the valid states, in their order, with the indices 0, 1, ...; the matrix of every step has one coordinate for each of them, and the amplitude of a state in a basis vector is the same as before. | C78_valid: Which states are valid: each quantum number is within the limit of some initial state ... | Part, C78_near_partial: ... with one initial state: exactly the states near to it. | C78_near_kept: With two: the states near to one of them are kept ... | C78_initial_kept: ... and the initial states themselves (limits that are not negative or absent). | False in the code, proved: C78_near_refuted: ... but also states near to none of them: 10 D 3/2 with the initial states 10 S 1/2 and 20 D 3/2, all limits 0. | C78_energies: The one-atom Hamiltonian: exactly the states within the energy cutoff remain, in the order of the list (which before need not be the order of the indices: C55_both_indices); the i-th name has the index i, and the i-th diagonal entry is the energy of the i-th name relative to [e0]; the basis vectors are the states. | False in the code, proved: C78_orthonormal_refuted: states mixed by a field, restricted by l: four equal pair basis vectors of squared length 1/4 remain"
  },
  {
   "property": "C79",
   "status": "proved",
   "theorems": [
    "C79_entries",
    "C79_library",
    "C79_total",
    "C79_elements"
   ],
   "note": "C79_entries: Between necessary pair states the matrix for 1/R^p contains the coefficient of the multipole expansion, unless its absolute value is at most the tolerance; all other entries are 0. There is a matrix for every p from 3 to the configured exponent, it is Hermitian, its basis are the necessary states, and the calculation never fails. | C79_library: The coefficient is the one of the library (SystemTwo, atoms on the z axis), from the same matrix elements and selection rules. | C79_total: The Hamiltonian of a step: energies of the pair basis vectors on the diagonal, plus for every p the interaction between the basis vectors divided by the p-th power of the distance, if the basis vectors consist of necessary states (C77_covers). It is Hermitian. | C79_elements: The multipole elements of C81 between the states of a spin 1/2 atom, exact or with every factor rounded to six digits, obey the selection rules, are Hermitian and behave as Wigner-Eckart demands under m -> -m, if the radial elements are symmetric."
  },
  {
   "property": "C80",
   "status": "partial",
   "theorems": [
    "C80_value_partial",
    "C80_value_exact",
    "C80_steps",
    "C80_real",
    "C80_quadrupole_refuted",
    "C80_elements"
   ],
   "note": "Part, C80_value_partial: The matrix given to the eigensolver at a step is Hermitian and contains the energies and - E.d + B.mu + diamagnetism in the fields of the step, with the matrix elements of the states (values up to the tolerance become 0). Missing from the full statement: the diamagnetic elements of rank 2 between states with equal l, j and m are left out, see C80_quadrupole_refuted. | C80_value_exact: Without diamagnetism, or if all states have j < 1, nothing is left out. | C80_steps: The first step has the minimal fields, the last one the maximal fields; a single step the minimal ones. | C80_real: Real numbers: a field with a y-component is refused. | False in the code, proved: C80_quadrupole_refuted: a magnetic field and the states with equal l, j and m: the q = 0 diamagnetic elements of rank 2 are left out of the Hamiltonian, because the rank 0 branch of the same if chain is taken first"
  },
  {
   "property": "C81",
   "status": "proved",
   "theorems": [
    "C81_value",
    "C81_options",
    "C81_error",
    "C81_file",
    "C81_program",
    "C81_pairs",
    "C81_library"
   ],
   "note": "C81_value: Spin 1/2: whatever precalculations and queries an object has seen, with whatever other processes have written into the file before and in between, a query for which the precalculation has been called is answered with the product of the factors, each exact or rounded to six digits; never with 0 for a missing value or with the mark of an unset value. If nobody writes between reading and writing, no precalculation fails. | C81_options: The options of the configuration: with missingCalc the radial elements are those of the model potentials, whatever missingWhittaker says; without it and with missingWhittaker they are those of the Coulomb approximation. | C81_error: The rounding changes the result by at most 2.1e-5 of its value (5e-6 for radial elements). | C81_file: The file stays correct: a successful precalculation adds correct rows with six digits and keeps those that are there. | C81_program: The atom in fields and the pair of atoms ask only for what they have precalculated: the queries for the entries of all matrices of C80 come after the precalculation (so that C81_value applies), and so do those of C79. | C81_library: For spin 1/2 states the factors are those of the library (C14)."
  },
  {
   "property": "C82",
   "status": "partial",
   "theorems": [
    "C82_later_runs",
    "C82_failed_run",
    "C82_first_run_refuted",
    "C82_two_processes_refuted",
    "C82_switched_off_refuted"
   ],
   "note": "C82_later_runs: A run that nobody disturbs succeeds, and afterwards the file contains all it needs: every later run with the same options on a file that still contains these rows (whatever else has been added) succeeds, writes nothing and gives exactly the product of the factors rounded to six digits, so that all later runs agree. | C82_failed_run: A run that throws has finished some of its precalculations: the file is then what a run of only these leaves, nothing they have written is lost. | False in the code, proved: C82_first_run_refuted: A run on an empty file gives a different value than every run after it. | False in the code, proved: C82_two_processes_refuted: Two runs that read the empty file before one of them has written: the other one throws, although each of them alone succeeds. | False in the code, proved: C82_switched_off_refuted: With both ways of calculating missing elements switched off the program throws whatever is in the file: a value that an earlier run has written there is not used."
  },
  {
   "property": "C83",
   "status": "proved",
   "theorems": [
    "C83_vector",
    "C83_dense",
    "C83_sparse",
    "C83_accepted",
    "C83_as_dense",
    "C83_as_vector",
    "C83_as_sparse",
    "C83_roundtrip_dense",
    "C83_roundtrip_sparse"
   ],
   "note": "C83_vector: a vector of 1 to 2^31-1 elements arrives in Python with its length, its type and all its elements, copied or viewed | C83_dense: a dense matrix arrives with its shape; the element in row i and column j is the one that Eigen stores at i + j*rows | C83_sparse: a sparse matrix with at least one stored element arrives with its shape and exactly its entries | C83_accepted: an array of Python (with a stride per dimension) is accepted exactly if it is in Fortran order, aligned, of the scalar's type and has one or two dimensions; everything else but an array without dimensions is rejected with an exception | C83_as_dense: a matrix of Python that is accepted has the same shape and elements in C++ | C83_as_vector: the same for a vector | C83_as_sparse: a sparse matrix of Python with 32 bit indices that is accepted has the same shape and entries in C++ | C83_roundtrip_dense: a dense or sparse matrix that Python gets and gives back is accepted and has the same elements"
  },
  {
   "property": "C84",
   "status": "partial",
   "theorems": [
    "C84_value",
    "C84_view",
    "C84_stale_refuted",
    "C84_temporary_refuted",
    "C84_write_refuted"
   ],
   "note": "C84_value: a vector that was returned by value keeps its elements whatever happens to the system, as long as Python does not assign to it | C84_view: as long as the system is not recomputed or destroyed, the matrix that Python has got is the one of the system: at any later time Python sees the same entries as C++ | False in the code, proved: C84_stale_refuted: after a change of the system the matrix that Python still has is invalid memory, or shows the new values although Python asked for the old ones | False in the code, proved: C84_temporary_refuted: the matrix of a system that no longer exists (H = System(...).getHamiltonian()) is invalid memory | False in the code, proved: C84_write_refuted: assigning to the matrix in Python changes the Hamiltonian of the system"
  },
  {
   "property": "C85",
   "status": "partial",
   "theorems": [
    "C85_species_refuted",
    "C85_overlap_index_refuted",
    "C85_too_many_refuted",
    "C85_empty_vector_refuted",
    "C85_negative_distance_refuted",
    "C85_zero_distance_refuted",
    "C85_tolerance_refuted",
    "C85_pair_index_refuted",
    "C85_nonbytes_refuted",
    "C85_axis_refuted",
    "C85_scalar_array_refuted",
    "C85_index_type_refuted"
   ],
   "note": "False in the code, proved: C85_species_refuted: An empty species name is undefined behaviour (std::string::back on an empty string). | False in the code, proved: C85_overlap_index_refuted: The variant with indices does not check them: outside the list of states it is undefined behaviour. | False in the code, proved: C85_too_many_refuted: More searched states than basis vectors: undefined behaviour instead of an exception. | False in the code, proved: C85_empty_vector_refuted: A basis vector without stored coefficient: an uninitialised variable is used as index. | False in the code, proved: C85_negative_distance_refuted: A negative distance is accepted; the stored distance is then not the length of the vector and the interaction has the wrong sign. | False in the code, proved: C85_zero_distance_refuted: The zero vector is accepted; a later setDistance cannot restore a direction: the coordinates are NaN, and with the Green tensor approach the atoms silently do not interact. | False in the code, proved: C85_tolerance_refuted: A tolerance of zero may be given explicitly; then a missing value leads to endless recursion. | False in the code, proved: C85_pair_index_refuted: An index that does not exist is not noticed. | False in the code, proved: C85_nonbytes_refuted: Anything but bytes: an uninitialised buffer is read. | False in the code, proved: C85_axis_refuted: The zero vector is accepted as the z axis: only the component along y survives, the rest of the field is lost without notice. | False in the code, proved: C85_scalar_array_refuted: an array without dimensions (numpy.array(1.)) is not rejected; its shape is read although there is none | False in the code, proved: C85_index_type_refuted: a sparse matrix with 64 bit indices is not rejected but its indices are misread: the identity matrix with two rows loses one diagonal element"
  },
  {
   "property": "C86",
   "status": "partial",
   "theorems": [
    "C86_archive_refuted",
    "C86_archive_half_refuted",
    "C86_empty_refuted",
    "C86_python_refuted"
   ],
   "note": "False in the code, proved: C86_archive_refuted: A vector of 2^32 elements is silently written as an empty one: the length is kept in 32 bits. | False in the code, proved: C86_archive_half_refuted: With 2^31 to 2^32 - 1 elements the length is negative: more bytes are copied than the vector has. | False in the code, proved: C86_empty_refuted: without elements there is an exception that nobody catches: an empty vector, an empty matrix and a sparse matrix that stores no element (such as a Hamiltonian that is zero | False in the code, proved: C86_python_refuted: of a vector of 2^32+1 elements only the first arrives; the others are unset memory"
  },
  {
   "property": "C87",
   "status": "partial",
   "theorems": [
    "C87_low_order_refuted"
   ],
   "note": "False in the code, proved: C87_low_order_refuted: Order 2, which asks for no multipole interaction, still gives the full dipole-dipole interaction if the atoms are not on the z axis - while on the z axis it gives none."
  },
  {
   "property": "C88",
   "status": "partial",
   "theorems": [
    "C88_missing_refuted"
   ],
   "note": "False in the code, proved: C88_missing_refuted: If levels are missing, a rotated state can vanish: no exception, the column of the rotator is zero."
  },
  {
   "property": "C89",
   "status": "partial",
   "theorems": [
    "C89_coupling_refuted"
   ],
   "note": "False in the code, proved: C89_coupling_refuted: the sum of two built systems lacks the coupling of the field between them, which the system with both states has."
  },
  {
   "property": "C90",
   "status": "partial",
   "theorems": [
    "C90_rotate_refuted",
    "C90_unitarize_refuted"
   ],
   "note": "False in the code, proved: C90_rotate_refuted: rotate() after a diagonalisation: the same rotation and the same final field give different operators on the space of states | False in the code, proved: C90_unitarize_refuted: fails for a unitarised system without interaction: a field can be set without an exception, but it has no effect since the new states have no matrix elements."
  },
  {
   "property": "C91",
   "status": "partial",
   "theorems": [
    "C91_statement_refuted",
    "C91_basis_refuted",
    "C91_window_refuted"
   ],
   "note": "False in the code, proved: C91_statement_refuted: Preparing a new query on an exhausted statement is not enough: without reset() the first step of the new query throws. | False in the code, proved: C91_basis_refuted: ... but the request is never dropped, so that the system can never be used again: every call that needs the basis throws. Also after an exception during the first build. | False in the code, proved: C91_window_refuted: fails: if the solver reports an error, the exception leaves the Hamiltonian with one-based indices: Eigen's invariants do not hold and the next use, which reads its columns, is undefined."
  },
  {
   "property": "C92",
   "status": "partial",
   "theorems": [
    "C92_early_refuted"
   ],
   "note": "False in the code, proved: C92_early_refuted: A query before the precalculation is answered with 0, and so is the same query after it; the element is +-1/3."
  },
  {
   "property": "C93",
   "status": "partial",
   "theorems": [
    "C93_sizes_partial",
    "C93_damaged_refuted"
   ],
   "note": "Part, C93_sizes_partial: Whatever the bytes: in every matrix of a loaded system the arrays have the lengths that the numbers of columns and entries ask for. Missing: the indices in the arrays (next theorem). | False in the code, proved: C93_damaged_refuted: one changed byte: the Hamiltonian of the loaded system has an entry in row 201 of 2, and no exception"
  },
  {
   "property": "C94",
   "status": "partial",
   "theorems": [
    "C94_mixed_parity_refuted",
    "C94_different_systems_refuted",
    "C94_reflection_refuted",
    "C94_artificial_refuted",
    "C94_half_integer_refuted",
    "C94_dropped_refuted"
   ],
   "note": "False in the code, proved: C94_mixed_parity_refuted: Inversion symmetry of basis vectors without definite parity (Stark effect), nothing throws: the basis vector of the pair (1,0) has squared length 2 in the ODD sector and is missing in the EVEN sector. | False in the code, proved: C94_different_systems_refuted: Permutation symmetry of two different one-atom systems is not rejected: exchanged states do not fit into the list of weights, which is written out of bounds. | False in the code, proved: C94_reflection_refuted: Reflection symmetry of pairs of basis vectors that are not reflection symmetric: four vectors of squared length 1/2 in each sector, of which two are repeated; out of bounds if the mirror images are not in the one-atom basis. | False in the code, proved: C94_artificial_refuted: Inversion symmetry and artificial states: every pair is in both sectors. | False in the code, proved: C94_half_integer_refuted: an atom with half-integer and one with integer j: pow(-1, 1/2) is converted to int (undefined), with or without symmetries | False in the code, proved: C94_dropped_refuted: With permutation symmetry a chosen pair (i, j), i < j, is dropped."
  },
  {
   "property": "C95",
   "status": "partial",
   "theorems": [
    "C95_greedy_refuted"
   ],
   "note": "False in the code, proved: C95_greedy_refuted: The greedy assignment can throw although an assignment exists: two basis vectors, the first overlapping with both states, the second only with the first state."
  },
  {
   "property": "C96",
   "status": "proved",
   "theorems": [
    "C96_inversion",
    "C96_permutation",
    "C96_reflection",
    "C96_rotation"
   ],
   "note": "C96_inversion: Inversion (gerade/ungerade): the blocks are not coupled, whatever the order of the multipole expansion. | C96_permutation: Permutation (symmetric/antisymmetric): the blocks are not coupled by the odd powers p of 1/R (p = 3: dipole-dipole, p = 5: quadrupole-quadrupole and dipole-octupole). | C96_reflection: Reflection: the blocks are not coupled. | C96_rotation: Total magnetic quantum number: blocks with different R are not coupled."
  },
  {
   "property": "C97",
   "status": "partial",
   "theorems": [
    "C97_permutation_refuted"
   ],
   "note": "False in the code, proved: C97_permutation_refuted: The dipole-quadrupole interaction (p = 4) couples the two permutation blocks; the program computes them separately nevertheless (it only looks at the symmetries that were asked for, HamiltonianTwo.cpp:137-170)."
  },
  {
   "property": "C98",
   "status": "proved",
   "theorems": [
    "C98_hermitian",
    "C98_matrix",
    "C98_entry_exact"
   ],
   "note": "C98_hermitian: Exchanging row and column conjugates the entry (and throws if and only if the entry throws), for all pairs of states, geometries, orders, with and without a surface. | C98_matrix: The matrix that is built from the entries with column <= row is Hermitian, and all its entries, those above the diagonal too, are those of the interaction; if it is not built, some entry cannot be calculated. | C98_entry_exact: For states that are not artificial the entries above the diagonal, too, are what the interaction of C30, C60 and C65 says for the matrix elements of the two states."
  },
  {
   "property": "C99",
   "status": "partial",
   "theorems": [
    "C99_reflection",
    "C99_rotation",
    "C99_rotation_sectors",
    "C99_reflection_sectors",
    "C99_inversion",
    "C99_permutation",
    "C99_inversion_sectors",
    "C99_permutation_sectors",
    "C99_permutation_refuted",
    "C99_offaxis_refuted",
    "C99_surface_rotation_refuted"
   ],
   "note": "C99_reflection: Reflection of both atoms at the xz plane, the interatomic axis lying in this plane | C99_rotation: Rotation around the interatomic axis: the total magnetic quantum number is conserved if the axis is the z axis and there is no surface, or only dipole-dipole interaction. | C99_rotation_sectors: Vectors of different total momentum are not coupled. | C99_reflection_sectors: Vectors of different reflection character are not coupled: [iota] maps every state to its mirror image. | C99_inversion: Inversion: exchange of two atoms of one kind together with their parities, without a surface, any distance vector and any order | C99_permutation: Permutation: exchange of two atoms of one kind, only for dipole-dipole interaction | C99_inversion_sectors: The bases SystemTwo builds for opposite inversion symmetries are not coupled by the interaction it builds, whatever the restrictions, the distance vector and the order are. | C99_permutation_sectors: The same for opposite permutation symmetries, for dipole-dipole interaction. | False in the code, proved: C99_permutation_refuted: Order 4: the exchange of the atoms alone changes the sign of the dipole-quadrupole interaction, so that the permutation sectors are coupled although setConservedParityUnderPermutation accepts every order: <SS|V|PD> = - <SS|V|DP> <> 0. | False in the code, proved: C99_offaxis_refuted: The atoms next to each other on the x axis: states of different total momentum are coupled although setConservedMomentaUnderRotation is accepted (the basis does not depend on the geometry). | False in the code, proved: C99_surface_rotation_refuted: Order 4 with a surface perpendicular to the axis: the total momentum is not conserved, since the derivatives with respect to y are missing in the tensor of the surface."
  },
  {
   "property": "C100",
   "status": "partial",
   "theorems": [
    "C100_true_partial",
    "C100_exact_partial",
    "C100_hydrogen",
    "C100_formula",
    "C100_larger_states_refuted",
    "C100_added_refuted",
    "C100_exception_refuted"
   ],
   "note": "Part, C100_true_partial: Warnings are true: whatever a program without exceptions has done (restrictions, other systems added, other distances), a warning names the radius of a pair state that is in the basis, and the distance is smaller. Missing: unitarize (it renames the states). | Part, C100_exact_partial: Exactly when: if the hydrogen formula orders the states like their radii and nothing has been added from another system, then a warning is printed if and only if the distance is smaller than the radius of every real pair state of the basis (and there is one). Missing: other orders; add; and the warning that is due if it is smaller than the radius of some state, see the next theorems. | C100_hydrogen: For states whose <r^2> is given by the hydrogen formula the order is right. | C100_formula: A state of positive n* and 0 <= l < n* has a positive hydrogenic <r^2> (so that the theorem applies to it). | False in the code, proved: C100_larger_states_refuted: Only the smallest radius counts: below the radius of a state, but above that of another one, nothing is printed. | False in the code, proved: C100_added_refuted: States that come from another system are not looked at: at a distance below the radius of all real states nothing is printed. | False in the code, proved: C100_exception_refuted: If the radial matrix element cannot be computed the first call throws; the next one goes on with the estimate as if it were the radius."
  },
  {
   "property": "C101",
   "status": "partial",
   "theorems": [
    "C101_value_partial",
    "C101_other_order_partial",
    "C101_others",
    "C101_returns",
    "C101_bad_line_refuted",
    "C101_other_order_refuted",
    "C101_forbidden_refuted"
   ],
   "note": "Part, C101_value_partial: Whatever happened before, once loadElectricDipoleDB has returned, getElectricDipole of a transition the file lists is the Wigner-Eckart value for the listed reduced element of the last line about it, at once and through every later history of requests, failures, precalculations, setDefectDB and changes of the method and back, until a file with a line about the same transition is loaded or the process ends. Proved for transitions listed with the state of smaller (n, l, j) in front; the exchanged element is the adjoint. Missing: the other order, for which it is false. | Part, C101_other_order_partial: The other order: the factor (-1)^(j1 - j2) of the exchange is missing. | C101_returns: When nothing is pending, loading returns for every file whose lines are all read or skipped (text in place of a number: skipped). | False in the code, proved: C101_bad_line_refuted: A number out of the range of int, float or double: the exception leaves the function and none of the lines, also of those in front, has taken effect; a line with too few fields, such as an empty one, has no defined behaviour. | False in the code, proved: C101_other_order_refuted: The same transition listed with P in front: getElectricDipole(P, S) has the wrong sign. | False in the code, proved: C101_forbidden_refuted: a listed transition that the selection rules forbid is stored as 0/0: the element is NaN instead of zero"
  },
  {
   "property": "C102",
   "status": "proved",
   "theorems": [
    "C102_extends",
    "C102_refused",
    "C102_accepted"
   ],
   "note": "C102_extends: Whatever the symmetries and the pairs: if the pair basis can be built without the added states and with them, then the second is the first, extended by one basis vector (with its energy) for each added state that stands for one. | C102_accepted: Added states of the right species, different from the pairs of one-atom states (in both orders), with energies, and with their partners if a symmetry is used, are accepted."
  },
  {
   "property": "C103",
   "status": "partial",
   "theorems": [
    "C103_threshold",
    "C103_window_partial",
    "C103_wide_window",
    "C103_diagonal_refuted",
    "C103_without_mkl_refuted",
    "C103_empty_refuted",
    "C103_estimate_refuted",
    "C103_normalized_refuted"
   ],
   "note": "C103_threshold: diagonalize(threshold) stores the eigenvalues and, up to the removed coefficients, the eigenvectors [B U]: every coefficient of the new basis vectors is exact, or it is zero and the exact one is at most the threshold; the squared norm of a basis vector is at most one and at least one minus the number of states times the squared threshold; a threshold of zero removes nothing. | Part, C103_window_partial: the diagonalization in a window returns orthonormal eigenvectors of the whole Hamiltonian with energies inside of the window, and all of them: an eigenvector in the space of the old basis with an energy in the window that is orthogonal to the new basis is zero. Hypotheses: the solver does what is documented, and the window contains at most as many eigenvalues as the code estimates. Partial: the estimate can be too low (C103_estimate_refuted), the bounds are ignored if the Hamiltonian is diagonal (C103_diagonal_refuted). | C103_wide_window: if all diagonal elements of the Hamiltonian lie in the window, the estimate is the dimension and always suffices. | False in the code, proved: C103_diagonal_refuted: fails: the bounds have no effect on a Hamiltonian that is already diagonal; all energies remain. | False in the code, proved: C103_without_mkl_refuted: fails: without Intel MKL the method always throws; the system is unchanged. | False in the code, proved: C103_empty_refuted: an empty estimate reads the address of the first element of an empty vector. | False in the code, proved: C103_estimate_refuted: fails: two orthonormal eigenvectors have the energy three, in the middle of the window from 2.5 to 3.5, but the code asks for one. A solver that reports that there are more makes the call throw and leave a Hamiltonian that cannot be used. | False in the code, proved: C103_normalized_refuted: fails: the basis vectors are not normalized again after small coefficients have been removed; here the threshold 7/10 turns orthonormal eigenvectors into vectors of squared norm 16/25, and 9/10 turns all of them into zero."
  },
  {
   "property": "C104",
   "status": "partial",
   "theorems": [
    "C104_options",
    "C104_refused",
    "C104_unknown",
    "C104_end",
    "C104_calculations_partial",
    "C104_samebasis_refuted",
    "C104_species"
   ],
   "note": "C104_options: options may be given in any order and spelling, the last one of a kind counts, and the calculation is the one for these values. | C104_refused: without one of the three options, with an empty value or with an unknown word nothing is calculated and the exit status is 1. | C104_end: \">>END\" is printed exactly by the runs that end with status 0 after the calculations, as the last line and once. | Part, C104_calculations_partial: a run that ends well has calculated exactly what the configuration describes: each atom whose species and quantum numbers are given, once, and the pair if both are given and there is a distance. Partial: with \"samebasis\" both atoms have to be described (C104_samebasis_refuted). | False in the code, proved: C104_samebasis_refuted: fails: with \"samebasis\" an atom that is described alone is not calculated; the run ends as if everything were fine. | C104_species: different species cannot share a basis: nothing is calculated and the exit status is 1."
  },
  {
   "property": "C105",
   "status": "partial",
   "theorems": [
    "C105_one",
    "C105_two",
    "C105_pair_atoms",
    "C105_cache_one_partial",
    "C105_cache_two_partial",
    "C105_shared"
   ],
   "note": "C105_one: two one-atom matrices with the same key are the same calculation: species, start states, ranges of the quantum numbers, method, energy window and diamagnetism are equal, the fields agree to five digits. | C105_two: the same for the matrices of a pair, where also restrictions, order of the multipole expansion and symmetry are equal, and the distance agrees to five digits. | C105_pair_atoms: the atoms of a pair are the ones the configuration describes: the pair is built from the start states of the one-atom matrices. | Part, C105_cache_one_partial: after any history of runs (with any configurations, killed at any point), a one-atom calculation ends with the matrix of the calculation asked for, up to the rounding of the fields. Missing: what C51 misses (matrices that cannot be stored, several threads, see C53) and exact fields (C52). | Part, C105_cache_two_partial: the same for pairs, with any number of threads. Missing: matrices that cannot be stored (C51), exact distances (C52). | C105_shared: atom 1 and atom 2 in the same state, in the same run, have the same key: the matrix is calculated once."
  },
  {
   "property": "C106",
   "status": "partial",
   "theorems": [
    "C106_one",
    "C106_two_partial",
    "C106_zero_refuted"
   ],
   "note": "C106_one: the number of one-atom Hamiltonians is the number of steps (one, if no field changes), and their fields are equally spaced from the minimum to the maximum. | Part, C106_two_partial: for every number of threads and every interleaving, each point and symmetry is calculated exactly once; the number of \">>OUT\" lines is the one announced by \">>TOT\"; the pair Hamiltonian of a point is made of the one-atom Hamiltonians with the fields of this point, and its distance is the one of this point. Partial: at least one step (C106_zero_refuted). | False in the code, proved: C106_zero_refuted: fails without steps: if the fields change, an element of an empty vector is used."
  },
  {
   "property": "C107",
   "status": "proved",
   "theorems": [
    "C107_eigen"
   ],
   "note": "C107_eigen: for the Hamiltonian [H] of which the lower triangle has been assembled, in an orthonormal basis, the program stores all eigenvalues, in increasing order, and basis vectors whose distance to exact orthonormal eigenvectors spanning the same space is at most sqrt(2 (N + n)) / 20000 (N states, n basis vectors); they are orthonormal up to the corresponding deviation."
  },
  {
   "property": "C108",
   "status": "partial",
   "theorems": [
    "C108_locked",
    "C108_kept",
    "C108_build",
    "C108_consistent",
    "C108_accepted",
    "C108_when",
    "C108_refused_refuted",
    "C108_still",
    "C108_choice_refuted",
    "C108_failed_refuted"
   ],
   "note": "C108_locked: As long as the basis exists, the setters of the symmetries are refused and change nothing. | C108_kept: The symmetries in force stay those the basis was built with, whatever is called while it exists. | C108_build: A basis that is built is the one of the settings and restrictions in force at that moment, and these restrictions are then used up. | C108_consistent: Both together: after a first build, the basis was made with the symmetries that are in force at any later time while it exists. | False in the code, proved: C108_refused_refuted: REFUTED: \"a setter that throws changes nothing\". The reflection and the momenta are assigned before they are compared; after the exception the refused value is in force, and the next basis is built with it. | C108_still: Without a new request, getting the basis returns the present one. | False in the code, proved: C108_choice_refuted: REFUTED: \"the basis is the one of the chosen pairs\". setOneAtomBasisvectors is accepted also when the basis exists, and then has no effect: getting the basis returns the old one. | False in the code, proved: C108_failed_refuted: REFUTED: \"after a failed build one can correct the settings and build again\". If initializeBasis throws after it has filled the table of states, the object cannot be used any more: every later build throws, and so does every setter of a symmetry."
  },
  {
   "property": "C109",
   "status": "proved",
   "theorems": [
    "C109_equation",
    "C109_weights",
    "C109_elements",
    "C109_convergence",
    "C109_sign",
    "C109_step",
    "C109_hydrogen",
    "C109_near",
    "C109_far",
    "C109_multiplet",
    "C109_spin",
    "C109_fine_structure"
   ],
   "note": "C109_equation: The equation that is integrated is the radial Schroedinger equation for the scaled radius: a function u satisfies the one at r = x^2 exactly if u(x^2)/sqrt x satisfies the other one, X'' = g(x^2) X, at x. | C109_weights: Matrix elements: the integral of u v r^k over the radius is twice the integral of the scaled functions with the power the code uses; for the unscaled functions of the Whittaker method it is the other power. | C109_elements: Accuracy of radial matrix elements: if each summand differs by at most [eta] from the exact integrand at its place, whose derivative is bounded by [B], the returned value differs from the integral of u v r^kappa over the common range by at most (b - a) (B dx + 2 eta). | C109_convergence: The error of the whole integration is of fourth order in the step: if X solves X'' = g(x^2) X and has the two starting values of the code, then the computed rows differ from it by at most the local errors 7/720 M dx^6, amplified exponentially with the distance from the outer end. [G] bounds |g| on the grid, [M] the sixth derivative of X; steps are small enough. | C109_sign: The sign convention: as long as g is not negative on the way from the outer end (the classically forbidden region), every row below the last one has the sign of the starting value, + if n - l is odd and - if it is even, and (1 - dx^2/12 g) |X| grows inwards. | C109_step: The local error of one step: with exact values in two neighbouring rows, the next one, times 1 - dx^2/12 g, is wrong by at most 7/720 M dx^6. | C109_hydrogen: Without model potential parameters, beyond l = 3: the Coulomb potential of a unit charge. | C109_near: The electron sees the whole charge of the nucleus at small distances (beyond l = 3, where there is no spin-orbit term): r V(r) approaches -Z ... | C109_far: ... and one charge at large distances, for all l: r V(r) differs from -1 by at most K/r; here the screening parameters a1, a2 are positive. | C109_spin: The spin is read off the last character of the name: (d - 1)/2 for a digit d, 1/2 for any other character. | C109_fine_structure: Only the spin-orbit term depends on j, so that potentials of a doublet or triplet differ by a 1/r^3 term below l = 4, and agree from there on."
  },
  {
   "property": "C110",
   "status": "partial",
   "theorems": [
    "C110_one_accepted",
    "C110_two_accepted",
    "C110_one_partial",
    "C110_two_partial",
    "C110_one_symmetries",
    "C110_two_symmetries",
    "C110_reflection",
    "C110_reflection_checked",
    "C110_either_order",
    "C110_refused",
    "C110_combined",
    "C110_ion_refuted",
    "C110_surface_refuted",
    "C110_failed_refuted"
   ],
   "note": "C110_one_accepted: Two systems of one atom are combined if, and only if, species, electric field, magnetic field and diamagnetism agree; otherwise the user gets an exception. | C110_two_accepted: ... and of two atoms: species, distance vector and order. | Part, C110_one_partial: The combined system of one atom has the parameters both systems had. Missing for the full claim: charge, distance and order of the ion, which are not compared (refuted below). | Part, C110_two_partial: ... and of two atoms. Missing: whether the Green tensor is used, the distance of the surface, and the fields and bases of the one-atom systems (refuted below). | C110_one_symmetries: The combined system conserves a parity if, and only if, both systems conserve this parity; its momenta are those of the one together with those of the other. | C110_reflection: If in both systems the momenta are compatible with the parity under reflection, they are in the combined one: what the setters enforce (C108) holds after add() too. | C110_reflection_checked: [reflects] is what the setters check. | C110_either_order: Which of the two systems add() is called for matters for nothing that is compared, nor for the symmetries. | C110_refused: If the parameters of the two systems do not agree, add() throws and the system is what it was: the basis the user would have got otherwise, with the same parameters, states, basis vectors, Hamiltonian and interaction. | C110_combined: If add() succeeds, the parameters agreed and the new system has the combined ones; memory saving, and what the Hamiltonians contain, agreed too; operators of the interaction are calculated anew for the enlarged basis. | False in the code, proved: C110_ion_refuted: The parameters of the ion are not compared: a system calculated with a charge 1 at distance 5 and one with a charge 2 at distance 8 are combined without complaint into one whose Hamiltonian belongs to no position of an ion. The result claims charge 1, distance 5. | False in the code, proved: C110_surface_refuted: Nor are the distance of the surface, the use of the Green tensor, and the one-atom systems of two systems of two atoms. | False in the code, proved: C110_failed_refuted: An add() that throws has changed the system nevertheless: memory_saving is compared only after the symmetries were combined and the operators of the interaction were thrown away."
  },
  {
   "property": "C111",
   "status": "partial",
   "theorems": [
    "C111_numbers_partial",
    "C111_returned",
    "C111_failed_add_refuted",
    "C111_failed_unitarize_refuted"
   ],
   "note": "Part, C111_numbers_partial: After any history of calls, getNumStates and getNumBasisvectors return - whenever the basis exists - the number of states getStates returns, which is the number of rows of getBasisvectors, and the number of its columns, which is the number of rows and of columns of getHamiltonian. They never complain about inconsistent variables. Missing for the full claim: histories in which add() or unitarize() threw (refuted below). | C111_returned: In whatever state the system is: a number that is returned is the right one. | False in the code, proved: C111_failed_add_refuted: after an exception of add(): getNumBasisvectors throws, now and at every later call, although getBasisvectors and getStates go on to return something. | False in the code, proved: C111_failed_unitarize_refuted: After an exception of unitarize() getNumStates throws instead."
  },
  {
   "property": "C112",
   "status": "partial",
   "theorems": [
    "C112_never_hangs",
    "C112_progress",
    "C112_outcome",
    "C112_released",
    "C112_held",
    "C112_200_seconds",
    "C112_2000_seconds",
    "C112_starvation_refuted"
   ],
   "note": "C112_never_hangs: A call never hangs: it makes at most threshold + 1 attempts, whatever the other processes do, ... | C112_progress: ... and it is always either over or can go on. | C112_outcome: It succeeds only when the lock is free, and throws only after it found the lock taken for threshold sleeps of at least 2 ms. | C112_released: If the other processes have released the lock for good at time s, within 2 ms * threshold, the call succeeds, at most one sleep later. | C112_held: If the lock is never released, the user gets an exception, not a wrong result. | C112_200_seconds: With the threshold of the library: a lock held for less than 200 s is waited for; after at most 2000 s there is a result or an exception. | False in the code, proved: C112_starvation_refuted: Waiting is not fair: the lock may be free most of the time - here in 1999 of 2000 microseconds - and the call throws nevertheless, because there is no queue and the handler happens to look when other processes hold the lock."
  }
 ]
}
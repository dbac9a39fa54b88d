{
 "C06_pair_pattern_refuted": "with a wildcard on one atom only, matching pair states are not selected",
 "C15_sound_partial": "every history of requests, precalculations, setMethod and setDefectDB calls within the guard `track` (settings changed only while nothing is pending or cached) returns what an object without cache would return. Missing: the histories of the refutations",
 "C18_nothing_before_commit_partial": "while an update is running the committed rows of the file do not change",
 "C90_rotate_refuted": "rotate() after a diagonalisation: the same rotation and the same final field give different operators on the space of states",
 "C27_refuted": "a diagonalisation precedes: the stored operator refers to the eigenvectors but is added to the unperturbed Hamiltonian in the old basis",
 "C38_one_complex_partial": "the same with complex scalars",
 "C38_two_complex_partial": "the same with complex scalars",
 "C94_half_integer_refuted": "an atom with half-integer and one with integer j: pow(-1, 1/2) is converted to int (undefined), with or without symmetries",
 "C42_triplet_refuted": "strontium triplets: from (60 3P1, 60 3S1) the pair (60 3D2, 60 3P1) is an intermediate state with non-zero interaction, but nothing about the state 60 3D2 m=1 enters the result",
 "C43_different_l_coupled_refuted": "the element is zero although an intermediate pair state is coupled to row and column",
 "C51_one_partial": "HamiltonianOne with one thread. Missing: more threads (C53_one_refuted), and matrices that cannot be stored",
 "C54_both_m_refuted": "two start states with negative total m: the basis stops short of the largest m",
 "C67_double_refuted": "a double with more than six digits is not read back",
 "C93_damaged_refuted": "one changed byte: the Hamiltonian of the loaded system has an entry in row 201 of 2, and no exception",
 "C76_inversion_complete_partial": "every product of basis vectors is a combination of vectors of the even and the odd block; missing: one-atom basis vectors of mixed parity (refuted)",
 "C77_covers_magnetic_refuted": "with a magnetic field (no partner of the same energy) a state of a reflection block is missing on the list",
 "C77_threads_refuted": "two steps in two threads: the mark of one of them is lost",
 "C77_blocks_partial": "blocks left out do not contain the initial state; missing: reflection and total magnetic quantum number",
 "C78_orthonormal_refuted": "states mixed by a field, restricted by l: four equal pair basis vectors of squared length 1/4 remain",
 "C80_quadrupole_refuted": "a magnetic field and the states with equal l, j and m: the q = 0 diamagnetic elements of rank 2 are left out of the Hamiltonian, because the rank 0 branch of the same if chain is taken first",
 "C92_early_refuted": "A query before the precalculation is answered with 0, and so is the same query after it; the element is +-1/3.",
 "C101_forbidden_refuted": "a listed transition that the selection rules forbid is stored as 0/0: the element is NaN instead of zero"
}
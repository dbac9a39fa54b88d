# Design

A model of the C++ code of pairinteraction in Rocq (Coq 8.16.1), in `rocq/theories`.

- `*Model.v`: the model, function by function; no proofs.  Every definition cites the lines of /repo/pairinteraction it stands for and says
  where it simplifies.
- `*Spec.v`: small specifications used by theorem statements (physical potentials, the second-order sum, pair symmetry, ...).
- `*Proofs*.v`, `*Inv.v`, `*Exact.v`: lemmas. `*Demo.v`: concrete systems for the non-vacuity examples and refutations.
- `Prop*.v`: the theorems `Cxx_*`, each with examples that meet its hypotheses, and `Print Assumptions`.

Names: `Cxx_..._partial`: a part of the property, the comment in front says what is missing; `Cxx_..._refuted`: the code does not have the
property, the theorem is (the negation or) a concrete counterexample in the model.  A property with such a theorem has the status "partial" in
MANIFEST.json.  Refutations describe real behaviour of the code; they were cross-checked by reading the code, not by running it.

## Trusted base

1. Coq's kernel (and coqchk, run by vcheck).
2. Axioms of the standard library, through its real numbers: `ClassicalDedekindReals.sig_forall_dec` (R1), `ClassicalDedekindReals.sig_not_dec`
   (R2), `FunctionalExtensionality.functional_extensionality_dep` (FE), and `Classical_Prop.classic` (CL; through Coquelicot and Flocq, whose
   lemmas use the standard library's axiom).  Which theorem uses which is listed below with each property; everything that does not involve real
   numbers is closed under the global context.  No axiom of any other library and none of our own.
3. That the model is what the code does.  The C++ text was translated by hand; nothing was extracted or executed.
4. Behaviour of code outside /repo, written into the model from its documentation: Eigen's sparse matrices (storage scheme, `finalize`, products,
   selfadjoint views), the eigenvalue solver (an arbitrary unitary that diagonalises; an argument of the call), SQLite (statements, transactions,
   UNIQUE), cereal (binary archives), Boost (multi_index, JSON property trees are assumed to round-trip, uuids never repeat), OpenMP (critical
   sections), the C++ library (streams, unordered containers, `nth_element`'s guarantee), GSL (Wigner symbols, with their orthogonality/symmetry
   where used), CPython's reference counting for pickles.

## What is modelled, and how

- **Numbers.**  j, m, s are floats holding half-integers; the model stores 2j, 2m, 2s in Z.  Matrix algebra is over an arbitrary commutative ring with
  involution (`StarRing`, Matrix.v), instantiated with Z, Q, Q(sqrt 2), C.  Fields, Green tensors, C3/C6 and geometry are over R.  Rounding is
  modelled only where a property is about it: radial grids (Flocq binary64, without overflow and NaN), numbers written to text (exact decimal
  arithmetic), floats/doubles in archives (bit patterns).  `std::numeric_limits<double>::max()` as "no distance" is `None` or the number itself.
- **Outcomes.**  `Ok`, `Throw` (the object may have changed; its state after the exception is part of the result), `UB` (out-of-bounds access,
  uninitialised variable, dangling pointer, data race).  A theorem promising `Ok`/`Throw` excludes `UB`.
- **Concurrency.**  Interleaving of atomic actions (Cache.hpp: lock, begin and end of the access, unlock; QuantumDefect: each memo access; the on-disk
  cache: SQL statement, flag access, file operation, one written byte).  The unsynchronised flag of the table creation is treated as sequentially
  consistent.
- **Crashes.**  A process may be killed between any two atomic actions; written bytes survive.  Power failure (fsync order) is not modelled.
- **Addresses in Serializer** are integers modulo 2^64: forming an out-of-range pointer, formally undefined in C++, is taken to do what the machine
  does; reading outside the buffer is `UB`.

Modelled files: State.{hpp,cpp}, Symmetry.hpp, utils.hpp (hash_combine), Cache.hpp, QuantumDefect.cpp, SQLite.hpp, MatrixElementCache.{hpp,cpp} (without
getDefectDB plumbing), SystemBase.{hpp,cpp}, SystemOne.{hpp,cpp}, SystemTwo.{hpp,cpp}
(geometry, interaction, symmetries, initializeBasis, serialisation), GreenTensor.{hpp,cpp}, PerturbativeInteraction.cpp, Serializable.hpp, serialization_eigen.hpp,
WignerD.cpp, Hamiltonianmatrix.cpp (save, load, addition of entries, combine, energycutoff, removal of states and basis vectors), ConfParser.{hpp,cpp}, HamiltonianOne.cpp and HamiltonianTwo.cpp (cache protocol, restriction of the states, symmetries, necessary states, interaction, atom in fields), Basisnames.{hpp,cpp}, MatrixElements.cpp 35-582 (cache of the command line program),
StateOld.hpp, Wavefunction.{hpp,cpp} (grids, Numerov integration, radial integrals), Interface.i (pickling, typemaps), NumpyUtils.hpp (memory blocks, shapes, strides, flags; numpy and scipy as far as the conversion uses them).

Not modelled: the Python GUI and command line, MatrixElements.cpp 584ff (overloads for a vector of states, without caller), Whittaker functions' values, rounding in linear algebra, memory
exhaustion, `int` overflow of quantum numbers, locale settings, warnings on stderr, restrictN(a, INT_MAX) (endless loop in the code).

Reduction of generality worth knowing: SystemModel.v treats the virtual methods of the derived classes as parameters, so theorems about life cycles (C23-C29,
C33, C37, C39, C58) hold for any derived class meeting the stated hypotheses; PropBasis/PropField instantiate them with SystemOne.  In PairModel.v the one-atom
systems enter after their diagonalisation.  In FieldModel.v matrix elements are arbitrary functions with the selection rules as hypotheses, discharged from
MEModel.v where stated.

## Tests against wrong programs

`seeded/LOG.jsonl`: edits of the model in a scratch copy, the theorems that no longer compile, and what was tightened where none failed.  `tools/mutate.py`
runs them.

# Formal model of SymbolicMath.go: design

The Go package `symbolic` (with `smErrors` and `get`) is modelled in Rocq/Coq 8.16.1 under
`rocq/theories`. `/repo` is read as text only; nothing of it is compiled or run.

## 1. What the model is

* **Values.** `K`, `Variable`, `Monomial`, `Polynomial`, the four vector and the four matrix types are inductive
  data (`Syntax.v`). A slice is a list, a nil slice is the empty list. `interface{}` arguments are a sum type
  (`goval`) with the Go types that the type switches mention plus one "anything else" case.
* **Panics.** Every modelled function returns `res A = Ok a | Panic reason`. The reason distinguishes the smErrors
  kinds from Go run-time panics (index out of range, failed type assertion) and gonum panics.
* **Numbers.** The model is parametrised by a record `Num` of operations (the Go float64 operators used by the code).
  It has three instances: IEEE-754 binary64 (`SpecFloat`, 53/1024, axiom free, executable), canonical rationals `Qc`
  (executable) and the reals `R`. Theorems about shape (dimensions, panics, normal forms, IDs) hold for every `Num`. Theorems about values
  need the laws of an ordered field (`ExactNum`), satisfied by `Qc` and `R`: there the simplification is that float64
  rounding, overflow and NaN are replaced by exact arithmetic. Refutations are given at binary64 where possible.
* **Meaning.** `Spec.v` defines, independently of the code, the value of an expression at an assignment
  (variable ID -> number), the satisfaction of a constraint, and the validity of an expression.
* **Go map order** is an arbitrary list order of the map's entries, universally quantified.
* **Memory.** The pure model has no aliasing. A second, heap-level model (`Heap*.v`) has arrays, slice headers
  (array, offset, length, capacity) and Go's `append`; it covers the functions that write through
  slices (DerivativeWrt, Multiply, Copy, Plus).
* **Goroutines** are small-step interleavings over the environment or the heap.
* `int` is `Z`, `uint64` IDs are `N`, both without wrap-around (exponents or lengths of 2^63 are out of scope).

## 2. Plan per property

The identifiers are those of `properties.jsonl`.

| id | model | proof |
|----|-------|-------|
| C01 Plus | scalar arithmetic, all 16 type pairs | general claim refuted (x*x*y + y*y*x); proved under the exact side condition that no two terms list the same variables in conflicting orders; corollaries for degree <= 2, one variable, common variable order; for all operands the exact effect (`SpecEffect.v`: each term is read as the first one that looks like it) and the exact condition under which the sum is right |
| C02 Minus | via Plus and Multiply(-1) | as C01 |
| C03 Multiply | scalar arithmetic | refuted in general; proved under the side condition on products; corollaries degree sum <= 2, one variable; for all operands the product itself, term by term (`SpecCollect.v`, `PropertiesCollect.v`, also for C01, C02, C04, C05), and the exact condition under which it is right |
| C04 Power | ScalarPowerTemplate | induction on the exponent; (x+y)^3 refutes the general claim; exact result and exact condition as for C03 |
| C05, C06 simplification | Simplify, AsSimplifiedExpression | induction over the term list; exact effect on all expressions in `Effect.v` (also C01, C02 and one-term products of C03) |
| C07 derivative | DerivativeWrt as a pure function | calculus derivative over R (`derivable_pt_lim`) |
| C08-C10 derivative and memory | heap model | refuted by execution; positive frame theorems under the condition that makes them true; for vectors and matrices the exact effect for all exponents when no two terms share exponents (SpecSweep.v, HeapSweep.v, PropertiesSweep.v) |
| C11 degree, C12-C14 lists | pure | induction |
| C15, C16 substitution | scalar Substitute(AccordingTo) | as C01, numeric substitution unconditional; for all expressions the result itself, term by term (`SpecSub.v`), and the exact condition under which it is right |
| C17 map order | vector/matrix SubstituteAccordingTo with an explicit order | refuted; proved for numeric maps by induction over permutations |
| C18, C19 LinearCoeff | pure | induction; refutations for Monomial |
| C20-C28 scalar constraints | ScalarConstraint methods | ordered-field reasoning on top of C01-C03; refutations of Implies / IsNonnegativity / Simplify |
| C29-C31 vector and matrix constraints | constraint model | induction over entries; refutation at length one |
| C32-C37, C50 vectors and matrices | templates, Concretize, stacks, transpose | entrywise induction; for Plus and simplification the exact effect on every entry (`SpecEffectArr.v`, `EffectArr.v`); for products of matrices every entry term by term (`SpecMat.v`, `CollectMat.v`), monomial matrices times vectors exactly when they panic (`CollectMono.v`), powers one factor after the other (`PowStep.v`) |
| C38 indexing | At, AtVec, pure and heap | case analysis over Z; with memory, by unfolding: only reads are used, and reading commutes with indexing |
| C39-C41 environments | state machine and interleavings | invariant by induction over histories |
| C42 validity | closure over operation histories | invariant |
| C43, C44 memory | heap model | frame theorem; refutations with spare capacity |
| C45-C49 | pure | case analysis, induction |
| C51-C53 | pure and heap model | induction; C52 on the heap, C53 from C11 and C18 |
| C54 new variables | state machine of C39 | invariant over histories; order of the integers embedded in an ordered field |
| C55-C57 derivatives of simple arrays, conversions, types | pure | induction over rows, case analysis over the interface value |
| C59 copies | heap model | frame lemmas for allocations; `HeapEffect.v`: the exact effect of DerivativeWrt on any heap, by an invariant of its loop; refuted for Polynomial.Copy by execution |
| C08, C43 programs | heap model | `HeapTrack.v`: an invariant of every method (terms share exponents only as a whole, spare capacity is private), so that side conditions about memory become conditions on values |
| C58, C60 constants, equal functions | pure | a polynomial that vanishes everywhere has zero coefficients (`PolyZero.v`, induction over the variables) |
| C61 printing | pure (`ModelString.v`), fmt's rendering of numbers is a parameter | the printed characters are parsed back: words are delimited by separators, so equal strings have equal terms; induction over terms, entries and rows |
| C62 exact float64 | pure model at binary64 and at `Qc` | simulation: `FloatExact.v` proves addition, subtraction and multiplication of `SpecFloat` exact on a grid 2^-k, `FloatSim.v` to `FloatLin.v` carry it through every scalar function, with the sum of the absolute values of the coefficients as the invariant |
| C63 array programs | pure; `ModelAProg.v` runs the text of a program | induction over the program with one invariant (`AProgProofs.v`): shape, scalar type exactly for 1 x 1, terms within a graded family of exponents, values; the families are instantiated by degree and by a single variable |
| C64 quadratic forms, affine maps | pure | totality from the tables of supported types and the shape of intermediate results; coefficients are unique because the assignment 0 and the unit assignments separate them (`AffineProofs.v`) |
| C65 exact float64 matrices | pure model at binary64 and at `Qc` | the simulation of C62 lifted entry by entry through every vector and matrix method (`FloatArr.v` to `FloatATop.v`); `FloatOrder.v`: every tree of additions of short products has the same exact value |
| C66 constraints between programs | pure model, `ExactNum` and binary64 | `AProgCon.v`: variables and degree of the result bounded by those of the program, simplified results are collected, then the representation theorem of C30; `FloatLinProg.v`: the simulation of C65 carries it to binary64 |
| C67, C68 error messages | pure (`ModelErrors.v`) | as for C61 from both ends of the text, so that the name of an operation may be any text; the numbers in a text are read by a function of the specification; induction over rows and entries for the first fault |
| C69 vectors and matrices in memory | heap model with entries in memory (`ModelHeapArr.v`) | each method is shown to refine its counterpart on values (a relation between memory and values that later writes preserve), as for C43; then induction over histories of calls and over nested programs |
| C70 constraints in memory | heap model (`ModelHeapCon.v`): the sides of a constraint are expressions in memory | the refinement of C69 continued through the constraint methods (`HeapCon.v`), then induction over sessions; composed with C66 for the way from two programs to solver matrices |
| C71 tests and searches | pure | case analysis on the list of factors; the equivalence with functions uses that a polynomial that vanishes everywhere has zero coefficients (`PolyZero.v`); induction over the terms for the searches |
| C72 dimensions and Checks | pure | case analysis on the shapes; NumVariables and VariableIDs (`ModelMeasure.v`) from the facts on Variables (C12); induction over the map for CheckSubstitutionMap |
| C73 kinds of results | pure | every path of the operations ends in ConcretizeExpression, a scalar or a tested dimension; loops by an invariant; together with the shapes of C32, C33, C36 |
| C74 one rounding per coefficient | pure, F64Num | the coefficients of one product of powers through the collecting loop: at most one on each side, so one addition; the zero that the loop starts with disappears; multiplying a canonical mantissa by -1 or 1 is exact; for arrays, every Plus, Minus and multiple by a number is followed entry by entry through the templates and loops |
| C75 entries of sums | pure, all Num | the loops and templates of Plus are followed with the predicate "same terms as the scalar sum of the entries", which further simplification preserves; products of matrices likewise, with the scalar products added one after the other; refuted for MonomialMatrix |
| C76 accuracy of float64 results | pure, F64Num | a float64 is read as the real m * 2^e; Flocq's theorems on rounding to nearest give one relative error per addition (additions are exact when they underflow) and one relative plus one tiny absolute error per multiplication; C74 says how many operations each coefficient takes; the values of the terms are then regrouped by product of powers; a product of expressions rounds once per product of terms and then collects, by an invariant carried through every simplification and sum; the derivative of the value is computed with the standard library's derivable_pt_lim, and a derivative rounds twice, once for the exponent as a float64 and once for the product |
| C77 malformed expressions are rejected | pure, any Num | for each method, case analysis on the twelve types: the test of Check comes before anything that could return or panic otherwise; a map is faulty exactly if some key or value is (induction on the map); the methods that do not test are named and refuted; which expressions pass is stated by well_formed (SpecReject.v), with quantifiers instead of the loops |
| C78 malformed constraints are rejected | pure and heap, any Num, any Runtime | the error p of Check is a variable: each method is shown to panic with the same p, by unfolding up to the call of Check; induction on the list for CompileConstraintsIntoScalarConstraints; the methods that do not test are named and refuted; which constraints pass is stated by well_formed_con (SpecRejectCon.v) |

## 3. What is modelled and what is not

Every function and method of `symbolic`, `get` and `smErrors` is cited by a comment of the model. A panic carries its kind, not its text; the
texts of `smErrors` and of the Check methods are modelled separately in `ModelErrors.v`.

| Go source | model |
|---|---|
| constant.go, variable.go, monomial.go, polynomial.go, scalar_expression.go, expression.go, utils.go | `ModelScalar.v` |
| scalar_constraint.go, constr_sense.go | `ModelSC.v` |
| constant_vector.go, variable_vector.go, monomial_vector.go, polynomial_vector.go, vector_expression.go, constant_matrix.go, variable_matrix.go, monomial_matrix.go, polynomial_matrix.go, matrix_expression.go | `ModelShape.v` (checks, dimensions, indexing, stacking, simplification, substitution), `ModelArith.v` (Plus, Minus, Multiply, Power) |
| vector_constraint.go, matrix_constraint.go, constraint.go, the Comparison methods | `ModelConstr.v` |
| basic_environment.go, environment.go, the constructors of variables | `ModelEnv.v` |
| get/KVector, get/KMatrix, polynomial_like*.go, the Is.../To... functions | `ModelConv.v` |
| the String methods | `ModelString.v` |
| smErrors, the errors of the Check methods | `ModelErrors.v` |
| the scalar methods again, with arrays, slices and append; DerivativeWrt of vectors and matrices | `ModelHeap.v` |
| the vector and matrix methods again, on entries in that memory: Plus, Minus, Multiply, Power, Transpose, AsSimplifiedExpression, Substitute, At, HStack, VStack, ConcretizeExpression (the slices holding the entries are lists: these methods write only into ones they have made) | `ModelHeapArr.v` |
| Comparison and the methods of the three constraint types, SubstituteAccordingTo and CompileConstraintsIntoScalarConstraints again, on sides in that memory | `ModelHeapCon.v` |
| the same, split at its accesses to memory, for goroutines | `ModelConc.v` |

Simplifications, each repeated in the comment of the definition it concerns:

* Message texts of panics are dropped from the arithmetic model (C67 and C68 model the texts of smErrors and of Check); so are the errors FindInSlice returns for mismatched types, which no caller in the package triggers.
* `int` and `uint64` do not wrap around.
* Value theorems about real-valued meaning use exact arithmetic; C62 and C65 say when they transfer to binary64. Theorems quantified over all `Num` include binary64. NaN is a value of the
  binary64 instance like any other.
* Products of two gonum matrices are summed from left to right; within the bound of C65 the order is immaterial (C65_any_order). The rendering of a float64 by fmt is a parameter of the printing model.
* gonum's `mat.Dense` and `mat.VecDense` are lists of rows and lists; a dense matrix has rows of equal length where a theorem says so.
* In the heap model, code that only reads is the pure function applied to the contents read at that moment; the growth policy of `append` is an
  arbitrary function (`Runtime`, universally quantified); memory is never reclaimed.
* In the heap model of vectors and matrices the slices that hold the entries are lists; only DerivativeWrt of a vector, which writes into its receiver, has them in memory.
* Goroutines are sequentially consistent. One read-only method and one append are a single step.
* Two fields are outside the model: the Name that a user may assign to a variable after its creation is a parameter (C61 says what follows from
  renaming), the Name of an environment is not represented.

## 4. How the theorems are organised

`Spec*.v` hold the vocabulary of the statements and refer only to the data types and to the modelled methods. `Properties*.v` hold the theorems,
each with `Print Assumptions` and an example that meets its hypotheses. All other files are models and proofs. A name `Cnn_..._partial` marks a
theorem with a side condition that the property does not have; the comment above it says what is missing. A name `Cnn_..._refuted` is a proof that
the unrestricted property is false of the modelled code, for binary64 and for exact numbers, by executing the model on inputs that the
public API can build.

## 5. What was found in the code

Each item is a theorem; the property's entry in `MANIFEST.json` names it.

* MatchesFormOf compares exponents by position. x*x*y and y*y*x are taken for like terms, so that Plus, Multiply, Power, Simplify, Substitute and
  everything built on them can return a wrong expression from degree 3 in two variables on (C01-C05, C15, C28, C32-C34, C60, C63).
* Monomial.DerivativeWrt decrements the exponents of its receiver in place (C08), MonomialVector.DerivativeWrt differentiates every entry twice
  (C09), PolynomialVector.DerivativeWrt overwrites the receiver and panics on entries without the variable (C10, C52).
* Polynomial.Copy is shallow (C59). Monomial.Multiply appends into the spare capacity of its receiver: a data race between goroutines that only
  read (C44).
* Monomial.LinearCoeff is wrong (C19); coefficients and constants of sums that were not collected are wrong (C18, C20, C46).
* ScalarConstraint.Simplify leaves a constant on the left; Implies and IsNonnegativityConstraint are unsound (C23, C25, C26).
* Vector constraints of length one and rows without variables panic in the linear representations (C30, C31, C64). 1x1 matrices panic in Power with a positive exponent (C34);
  x.Transpose().Multiply(Q).Multiply(x) panics for vectors of length one (C64).
  VariableMatrix plus zero panics (C32).
* SubstituteAccordingTo on vectors depends on Go's map order (C17). Variables of two environments may share an ID and are confused (C41).
* Adding variables to one environment from several goroutines may assign an ID twice (C40).
* Monomial and Polynomial reject int operands that the other types accept (C45); constructors given two environments silently use the default one (C54).
* Renamed variables and variables of two environments print alike; KMatrix prints unbalanced brackets (C61).
* smErrors.CheckDimensionsInComparison panics with a failed type assertion for a one-column matrix and a vector of another length (C67).
* VectorConstraint.Check accepts sides of lengths 1 and 2, after which AtVec panics (C72). A map that fails CheckSubstitutionMap is not noticed by constants (C72).
* Sums of three float64 expressions depend on the order in which they are added, although sums of two do not (C74). How far a result can be from the exact one is C76.

## 6. Wrong programs

`seeded/LOG.jsonl` has one line for each edited model. The edit is made in a copy of `rocq`, everything is rebuilt, and the theorems that no longer prove are
listed. Edits that left every theorem provable, and the theorems tightened because of them, are in the field `tightened`.

## 7. Trusted base

* Coq 8.16.1's kernel, including `vm_compute`, which evaluates the examples and refutations.
* Axioms. `Print Assumptions` answers "Closed under the global context" for every theorem in the `Properties*.v` files except those of `PropertiesAccuracy.v` (below) and the following nine, which
  speak about derivatives of real functions: C07_derivative_correct, C09_entries_partial, C10_entries_partial, C52_monomials_partial,
  C52_polynomials_partial, C09_exactly_when, C10_any_exponents_real_partial, C52_monomials_any_real_partial, C52_polynomials_any_real_partial. These list `ClassicalDedekindReals.sig_forall_dec` and `FunctionalExtensionality.functional_extensionality_dep`,
  both from the standard library. The theorems of C76, which speak about real numbers through Flocq, list these two and
  `ClassicalDedekindReals.sig_not_dec` and `Classical_Prop.classic`, also from the standard library (C76_exact_refuted lists only the first two).
  Flocq itself declares no axiom. The development declares no axiom.
* The reading of the Go source recorded in the comments of the model files, and the documented behaviour of Go's slices and maps and of gonum's `mat`
  package where the code calls it.

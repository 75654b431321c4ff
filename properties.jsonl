{"id": "C01", "title": "Plus on scalar expressions is pointwise addition", "statement": "For every two valid scalar expressions a, b (constant, variable, monomial or polynomial), a.Plus(b) does not panic and, at every assignment of numbers to variables, its value is the value of a plus the value of b.", "quantifier": "all pairs of valid scalar expressions of any size and degree, all assignments", "why_tests_cant": "There are infinitely many expressions and assignments; a unit test fixes a handful of small ones and compares coefficients. The merging of like terms depends on the order in which each monomial lists its variables, which tests rarely vary.", "anchors": ["symbolic/monomial.go: Monomial.Plus, Monomial.MatchesFormOf", "symbolic/polynomial.go: Polynomial.Plus, Polynomial.Simplify", "symbolic/variable.go: Variable.Plus", "symbolic/constant.go: K.Plus"]}
{"id": "C02", "title": "Minus on scalar expressions is pointwise subtraction", "statement": "For every two valid scalar expressions a, b, a.Minus(b) does not panic and its value at every assignment is the value of a minus the value of b.", "quantifier": "all pairs of valid scalar expressions, all assignments", "why_tests_cant": "There are infinitely many expressions and assignments; a unit test fixes a handful of small ones and compares coefficients.", "anchors": ["symbolic/expression.go: Minus", "symbolic/monomial.go: Monomial.Minus", "symbolic/polynomial.go: Polynomial.Minus", "symbolic/variable.go: Variable.Minus", "symbolic/constant.go: K.Minus"]}
{"id": "C03", "title": "Multiply on scalar expressions is pointwise multiplication", "statement": "For every two valid scalar expressions a, b, a.Multiply(b) does not panic and its value at every assignment is the product of the values of a and b.", "quantifier": "all pairs of valid scalar expressions, all assignments", "why_tests_cant": "There are infinitely many expressions and assignments; a unit test fixes a handful of small ones and compares coefficients.", "anchors": ["symbolic/monomial.go: Monomial.Multiply", "symbolic/polynomial.go: Polynomial.Multiply", "symbolic/variable.go: Variable.Multiply", "symbolic/constant.go: K.Multiply"]}
{"id": "C04", "title": "Power on scalar expressions is repeated multiplication", "statement": "For every valid scalar expression a and every int n >= 0, a.Power(n) evaluates to (value of a)^n, with a.Power(0) equal to the constant 1; for n < 0 it panics with the negative-exponent error.", "quantifier": "all valid scalar expressions, all integer exponents, all assignments", "why_tests_cant": "The exponent is unbounded; (x+y)^3 already exercises interactions between terms that squares do not.", "anchors": ["symbolic/scalar_expression.go: ScalarPowerTemplate", "symbolic/polynomial.go: Polynomial.Power"]}
{"id": "C05", "title": "AsSimplifiedExpression never changes the value", "statement": "Simplifying any valid monomial or polynomial yields an expression that has the same value at every assignment.", "quantifier": "all valid monomials and polynomials, all assignments", "why_tests_cant": "There are infinitely many expressions and assignments; a unit test fixes a handful of small ones and compares coefficients.", "anchors": ["symbolic/polynomial.go: Polynomial.Simplify, Polynomial.AsSimplifiedExpression", "symbolic/monomial.go: Monomial.AsSimplifiedExpression"]}
{"id": "C06", "title": "Simplified expressions are in normal form and simplification is idempotent", "statement": "The result of simplification holds no zero-coefficient term (except the lone constant 0), at most one constant term, no two terms that the library regards as like terms, is represented by the smallest applicable type (constant, variable, monomial, polynomial), and simplifying it again returns it unchanged.", "quantifier": "all valid scalar expressions", "why_tests_cant": "Normal-form claims range over all inputs; tests look at single outputs.", "anchors": ["symbolic/polynomial.go: Polynomial.Simplify, Polynomial.AsSimplifiedExpression", "symbolic/monomial.go: Monomial.AsSimplifiedExpression"]}
{"id": "C07", "title": "DerivativeWrt returns the partial derivative", "statement": "For every valid scalar expression p and variable v, the expression returned by p.DerivativeWrt(v) evaluates, at every real assignment, to the partial derivative of p's value with respect to v.", "quantifier": "all valid scalar expressions, all variables, all real assignments", "why_tests_cant": "A derivative statement quantifies over a continuum; tests compare a few coefficients.", "anchors": ["symbolic/monomial.go: Monomial.DerivativeWrt", "symbolic/polynomial.go: Polynomial.DerivativeWrt", "symbolic/variable.go: Variable.DerivativeWrt", "symbolic/constant.go: K.DerivativeWrt"]}
{"id": "C08", "title": "DerivativeWrt leaves its receiver (and every other expression) unchanged", "statement": "After p.DerivativeWrt(v) the value of p, and of every other expression that exists in memory, is what it was before; hence a second call returns the same derivative.", "quantifier": "all heaps, all monomials and polynomials stored in them, all variables, all call histories", "why_tests_cant": "Requires reasoning about every possible sharing of backing arrays, and about repeated calls.", "anchors": ["symbolic/monomial.go: Monomial.DerivativeWrt", "symbolic/polynomial.go: Polynomial.DerivativeWrt"]}
{"id": "C09", "title": "MonomialVector.DerivativeWrt differentiates entry by entry", "statement": "Entry i of mv.DerivativeWrt(v) is the partial derivative of entry i of mv.", "quantifier": "all monomial vectors, all variables, all heaps", "why_tests_cant": "The defect, if any, depends on exponents and on hidden sharing of slices.", "anchors": ["symbolic/monomial_vector.go: MonomialVector.DerivativeWrt"]}
{"id": "C10", "title": "PolynomialVector.DerivativeWrt is total, correct and does not overwrite its receiver", "statement": "For every polynomial vector pv, pv.DerivativeWrt(v) does not panic, entry i of the result is the derivative of entry i, and pv is unchanged afterwards.", "quantifier": "all polynomial vectors, all variables, all heaps", "why_tests_cant": "Requires reasoning about slice aliasing and about every combination of entries (including those not containing v).", "anchors": ["symbolic/polynomial_vector.go: PolynomialVector.DerivativeWrt", "symbolic/polynomial_matrix.go: PolynomialMatrix.DerivativeWrt"]}
{"id": "C11", "title": "Degree obeys the degree laws", "statement": "Degree is the maximum total exponent over the terms; the degree of a.Multiply(b) is at most (for monomials exactly) the sum of degrees, the degree of a.Plus(b) at most the maximum; IsLinear holds iff Degree is at most 1.", "quantifier": "all valid scalar expressions", "why_tests_cant": "Infinitely many expressions.", "anchors": ["symbolic/monomial.go: Monomial.Degree", "symbolic/polynomial.go: Polynomial.Degree", "symbolic/expression.go: IsLinear, IsQuadratic"]}
{"id": "C12", "title": "Variables lists exactly the occurring variables, once each", "statement": "p.Variables() contains a variable with ID i iff some term of p has a factor with ID i, and no ID is listed twice; the value of p depends only on those variables.", "quantifier": "all valid scalar, vector and matrix expressions", "why_tests_cant": "Infinitely many expressions.", "anchors": ["symbolic/polynomial.go: Polynomial.Variables", "symbolic/variable.go: UniqueVars, UnionOfVariables", "symbolic/monomial_vector.go: MonomialVector.Variables"]}
{"id": "C13", "title": "UniqueVars, Unique and UnionOfVariables deduplicate and keep first-occurrence order", "statement": "The output has no duplicate, has the same set of IDs as the input, and is the input with every later duplicate deleted; applying it twice changes nothing.", "quantifier": "all variable (and uint64) lists", "why_tests_cant": "Unbounded list lengths and duplicate patterns.", "anchors": ["symbolic/variable.go: UniqueVars, UnionOfVariables", "symbolic/utils.go: Unique"]}
{"id": "C14", "title": "FindInSlice finds", "statement": "FindInSlice(x, s) returns -1 iff no element of s equals x, and otherwise a valid index of an element equal to x.", "quantifier": "all elements and slices", "why_tests_cant": "Unbounded lists.", "anchors": ["symbolic/utils.go: FindInSlice"]}
{"id": "C15", "title": "Substitute replaces a variable by an expression", "statement": "For every valid scalar p, variable v and scalar expression e, p.Substitute(v,e) does not panic and its value at an assignment r equals the value of p at r with v reassigned to the value of e at r.", "quantifier": "all valid scalar expressions p and e, variables v, assignments r", "why_tests_cant": "There are infinitely many expressions and assignments; a unit test fixes a handful of small ones and compares coefficients.", "anchors": ["symbolic/monomial.go: Monomial.Substitute", "symbolic/polynomial.go: Polynomial.Substitute", "symbolic/variable.go: Variable.Substitute"]}
{"id": "C16", "title": "SubstituteAccordingTo on scalars is simultaneous, and total numeric substitution evaluates", "statement": "Substituting numbers for all variables of p yields exactly the constant that is the value of p at these numbers; in general scalar SubstituteAccordingTo replaces all mapped variables simultaneously.", "quantifier": "all valid scalar expressions, all substitution maps", "why_tests_cant": "There are infinitely many expressions and assignments; a unit test fixes a handful of small ones and compares coefficients.", "anchors": ["symbolic/monomial.go: Monomial.SubstituteAccordingTo", "symbolic/polynomial.go: Polynomial.SubstituteAccordingTo", "symbolic/variable.go: Variable.SubstituteAccordingTo", "symbolic/utils.go: CheckSubstitutionMap"]}
{"id": "C17", "title": "Vector and matrix SubstituteAccordingTo do not depend on map iteration order", "statement": "For every vector or matrix expression and every substitution map, the result denotes the simultaneous substitution whatever order the runtime iterates the map in.", "quantifier": "all vector and matrix expressions, maps and iteration orders", "why_tests_cant": "Go randomises map iteration, so a test observes one order per run.", "anchors": ["symbolic/variable_vector.go: VariableVector.SubstituteAccordingTo", "symbolic/monomial_vector.go: MonomialVector.SubstituteAccordingTo", "symbolic/polynomial_vector.go: PolynomialVector.SubstituteAccordingTo", "symbolic/variable_matrix.go: VariableMatrix.SubstituteAccordingTo"]}
{"id": "C18", "title": "LinearCoeff and Constant decompose linear expressions", "statement": "For every valid linear scalar expression p and every list of distinct variables wrt containing those of p, p's value at every assignment equals the dot product of p.LinearCoeff(wrt) with the values of wrt plus p.Constant().", "quantifier": "all valid linear scalar expressions, all wrt lists, all assignments", "why_tests_cant": "There are infinitely many expressions and assignments; a unit test fixes a handful of small ones and compares coefficients.", "anchors": ["symbolic/monomial.go: Monomial.LinearCoeff, Monomial.Constant", "symbolic/polynomial.go: Polynomial.LinearCoeff, Polynomial.Constant", "symbolic/variable.go: Variable.LinearCoeff", "symbolic/constant.go: K.LinearCoeff"]}
{"id": "C19", "title": "LinearCoeff is total for any wrt list", "statement": "For every valid scalar expression and every non-empty wrt list, LinearCoeff(wrt) of a degree <= 1 expression returns one coefficient per listed variable, 0 for those that do not occur, without panicking.", "quantifier": "all valid linear scalar expressions, all non-empty wrt lists", "why_tests_cant": "Panics depend on the relation between two unbounded lists.", "anchors": ["symbolic/monomial.go: Monomial.LinearCoeff", "symbolic/constant.go: K.LinearCoeff"]}
{"id": "C20", "title": "Scalar linear inequality representation is equivalent to the constraint", "statement": "If LinearInequalityConstraintRepresentation(wrt) returns (A,b) for a linear <= or >= constraint and wrt lists the variables, then for every assignment A.x <= b iff the constraint holds.", "quantifier": "all valid linear scalar inequality constraints, both senses, all assignments", "why_tests_cant": "There are infinitely many expressions and assignments; a unit test fixes a handful of small ones and compares coefficients.", "anchors": ["symbolic/scalar_constraint.go: ScalarConstraint.LinearInequalityConstraintRepresentation"]}
{"id": "C21", "title": "Linear inequality representation rejects equalities and nonlinear constraints", "statement": "LinearInequalityConstraintRepresentation panics on every equality constraint and on every constraint with a side of degree > 1; LinearEqualityConstraintRepresentation panics on every non-equality and nonlinear constraint.", "quantifier": "all valid scalar and vector constraints", "why_tests_cant": "Ranges over all constraints.", "anchors": ["symbolic/scalar_constraint.go: LinearInequalityConstraintRepresentation, LinearEqualityConstraintRepresentation", "symbolic/vector_constraint.go: LinearInequalityConstraintRepresentation, LinearEqualityConstraintRepresentation"]}
{"id": "C22", "title": "Scalar linear equality representation is equivalent to the constraint", "statement": "If LinearEqualityConstraintRepresentation(wrt) returns (C,d) then for every assignment C.x = d iff the constraint holds.", "quantifier": "all valid linear scalar equality constraints, all assignments", "why_tests_cant": "There are infinitely many expressions and assignments; a unit test fixes a handful of small ones and compares coefficients.", "anchors": ["symbolic/scalar_constraint.go: ScalarConstraint.LinearEqualityConstraintRepresentation"]}
{"id": "C23", "title": "ScalarConstraint.AsSimplifiedConstraint keeps the feasible set and separates variables from constants", "statement": "AsSimplifiedConstraint of a scalar constraint is satisfied by the same assignments, has the same sense, a constant right hand side, and (as documented) a left hand side without constant part.", "quantifier": "all valid scalar constraints, all assignments", "why_tests_cant": "There are infinitely many expressions and assignments; a unit test fixes a handful of small ones and compares coefficients.", "anchors": ["symbolic/scalar_constraint.go: ScalarConstraint.Simplify, ScalarConstraint.AsSimplifiedConstraint"]}
{"id": "C24", "title": "ScaleBy keeps the feasible set and flips the sense for negative factors", "statement": "For every nonzero factor f, sc.ScaleBy(f) is satisfied by exactly the assignments that satisfy sc.", "quantifier": "all valid scalar constraints, all nonzero factors, all assignments", "why_tests_cant": "There are infinitely many expressions and assignments; a unit test fixes a handful of small ones and compares coefficients.", "anchors": ["symbolic/scalar_constraint.go: ScalarConstraint.ScaleBy"]}
{"id": "C25", "title": "ImpliesThisIsAlsoSatisfied is sound", "statement": "If c1.ImpliesThisIsAlsoSatisfied(c2) returns true, then every assignment satisfying c1 satisfies c2.", "quantifier": "all pairs of valid constraints, all assignments", "why_tests_cant": "Soundness quantifies over all assignments; a boolean test cannot tell an unsound yes from a sound one.", "anchors": ["symbolic/scalar_constraint.go: ScalarConstraint.ImpliesThisIsAlsoSatisfied", "symbolic/vector_constraint.go: VectorConstraint.ImpliesThisIsAlsoSatisfied", "symbolic/matrix_constraint.go: MatrixConstraint.ImpliesThisIsAlsoSatisfied"]}
{"id": "C26", "title": "IsNonnegativityConstraint recognises only x >= 0", "statement": "If IsNonnegativityConstraint returns true then the constraint holds exactly when its single variable is >= 0.", "quantifier": "all valid scalar constraints, all assignments", "why_tests_cant": "There are infinitely many expressions and assignments; a unit test fixes a handful of small ones and compares coefficients.", "anchors": ["symbolic/scalar_constraint.go: ScalarConstraint.IsNonnegativityConstraint"]}
{"id": "C27", "title": "Comparisons record exactly what was written", "statement": "a.LessEq(b), a.GreaterEq(b), a.Eq(b) and Comparison return a constraint that is satisfied by an assignment iff the corresponding relation holds between the values of a and b (componentwise, with scalars broadcast).", "quantifier": "all valid expression pairs, all senses, all assignments", "why_tests_cant": "There are infinitely many expressions and assignments; a unit test fixes a handful of small ones and compares coefficients.", "anchors": ["symbolic/constant.go: K.Comparison", "symbolic/variable.go: Variable.Comparison", "symbolic/monomial.go: Monomial.Comparison", "symbolic/polynomial.go: Polynomial.Comparison", "symbolic/constant_vector.go: KVector.Comparison", "symbolic/polynomial_matrix.go: PolynomialMatrix.Comparison"]}
{"id": "C28", "title": "Substituting into a constraint commutes with satisfaction", "statement": "sc.Substitute(v,e) is satisfied at assignment r iff sc is satisfied at r with v reassigned to the value of e.", "quantifier": "all valid scalar constraints, variables, expressions, assignments", "why_tests_cant": "There are infinitely many expressions and assignments; a unit test fixes a handful of small ones and compares coefficients.", "anchors": ["symbolic/scalar_constraint.go: ScalarConstraint.Substitute", "symbolic/vector_constraint.go: VectorConstraint.Substitute"]}
{"id": "C29", "title": "CompileConstraintsIntoScalarConstraints is the exact conjunction", "statement": "The scalar constraints returned for a list of constraints are all satisfied at an assignment iff all the given constraints are; one scalar constraint is produced per entry.", "quantifier": "all lists of valid scalar, vector and matrix constraints of any size, all assignments", "why_tests_cant": "Unbounded lists and dimensions.", "anchors": ["symbolic/constraint.go: CompileConstraintsIntoScalarConstraints", "symbolic/vector_constraint.go: VectorConstraint.AtVec", "symbolic/matrix_constraint.go: MatrixConstraint.At"]}
{"id": "C30", "title": "Vector linear representations are equivalent to the constraint", "statement": "For every valid linear vector constraint and every variable list wrt covering it, the returned (A,b) satisfies: A x <= b (or C x = d) componentwise iff the constraint holds.", "quantifier": "all valid linear vector constraints of any length, all assignments", "why_tests_cant": "Unbounded lengths; length one behaves differently.", "anchors": ["symbolic/vector_constraint.go: VectorConstraint.LinearInequalityConstraintRepresentation, LinearEqualityConstraintRepresentation", "symbolic/polynomial_like_vector.go: PolynomialLikeVector_SharedLinearCoeffCalc"]}
{"id": "C31", "title": "Vector and matrix AsSimplifiedConstraint keep the feasible set", "statement": "AsSimplifiedConstraint on vector and matrix constraints does not panic and keeps the set of satisfying assignments.", "quantifier": "all valid vector and matrix constraints, all assignments", "why_tests_cant": "Unbounded sizes and all type combinations.", "anchors": ["symbolic/vector_constraint.go: VectorConstraint.AsSimplifiedConstraint", "symbolic/matrix_constraint.go: MatrixConstraint.AsSimplifiedConstraint"]}
{"id": "C32", "title": "Vector and matrix Plus is entrywise addition with scalar broadcast", "statement": "When Plus on vectors/matrices returns, the result has the broadcast dimensions and entry (i,j) evaluates to the sum of the corresponding entries; mismatching dimensions panic with the dimension error.", "quantifier": "all vector/matrix/scalar operand pairs of any size, all assignments", "why_tests_cant": "Unbounded sizes.", "anchors": ["symbolic/vector_expression.go: VectorPlusTemplate", "symbolic/matrix_expression.go: MatrixPlusTemplate", "smErrors/matrix_dimension_error.go: CheckDimensionsInAddition"]}
{"id": "C33", "title": "Matrix multiplication computes row-by-column sums", "statement": "Entry (i,j) of the product of an m x k by a k x n expression evaluates to the sum over l of left(i,l)*right(l,j); scalar factors scale every entry; mismatched inner dimensions panic with the dimension error.", "quantifier": "all matrix operand pairs of any size, all assignments", "why_tests_cant": "Unbounded sizes.", "anchors": ["symbolic/matrix_expression.go: MatrixMultiplyTemplate", "symbolic/constant_matrix.go: KMatrix.Multiply", "smErrors/matrix_dimension_error.go: CheckDimensionsInMultiplication"]}
{"id": "C34", "title": "Matrix Power is repeated matrix multiplication", "statement": "For a square matrix M and n >= 0, M.Power(n) does not panic and evaluates to M^n (identity for n = 0); non-square matrices and negative exponents panic.", "quantifier": "all square matrices of any size, all exponents", "why_tests_cant": "Unbounded exponent and size.", "anchors": ["symbolic/matrix_expression.go: MatrixPowerTemplate"]}
{"id": "C35", "title": "Transpose swaps indices and is an involution", "statement": "e.Transpose() has swapped dimensions, entry (i,j) of the result is entry (j,i) of e, and transposing twice gives an expression with the original entries. Transposing writes nothing.", "quantifier": "all vector and matrix expressions", "why_tests_cant": "Unbounded sizes.", "anchors": ["symbolic/constant_matrix.go: KMatrix.Transpose", "symbolic/variable_matrix.go: VariableMatrix.Transpose", "symbolic/monomial_matrix.go: MonomialMatrix.Transpose", "symbolic/polynomial_matrix.go: PolynomialMatrix.Transpose", "symbolic/constant_vector.go: KVector.Transpose"]}
{"id": "C36", "title": "HStack and VStack concatenate", "statement": "HStack/VStack of expressions with agreeing row/column counts has the summed dimension and the entries of the arguments side by side; disagreeing counts panic with the dimension error.", "quantifier": "all argument lists of any length and size", "why_tests_cant": "Unbounded sizes.", "anchors": ["symbolic/expression.go: HStack, VStack, ConcretizeExpression"]}
{"id": "C37", "title": "Concretize keeps entries and picks the smallest type", "statement": "ConcretizeVectorExpression, ConcretizeMatrixExpression and ConcretizeExpression return an expression with the same dimensions and, at every assignment, the same entry values.", "quantifier": "all slices of scalar expressions of any length, all assignments", "why_tests_cant": "Unbounded sizes and type mixtures.", "anchors": ["symbolic/vector_expression.go: ConcretizeVectorExpression", "symbolic/matrix_expression.go: ConcretizeMatrixExpression", "symbolic/expression.go: ConcretizeExpression"]}
{"id": "C38", "title": "Indexing is exact and out-of-range indices never return a value", "statement": "At/AtVec return the addressed entry for every valid index and panic for every index outside the dimensions. The panic is the library's index error, except for KMatrix (gonum's) and for VariableMatrix, MonomialMatrix and MonomialVector.AtVec (Go's own). Indexing writes nothing, whether it returns or panics.", "quantifier": "all expressions, all integer indices (including negative)", "why_tests_cant": "All integers.", "anchors": ["smErrors/out_of_bounds_error.go: CheckIndexOnMatrix, CheckIndexOnVector", "symbolic/constant_vector.go: KVector.AtVec", "symbolic/monomial_vector.go: MonomialVector.AtVec", "symbolic/monomial.go: Monomial.At"]}
{"id": "C39", "title": "Variables created in an environment have pairwise distinct IDs", "statement": "After any sequence of NewVariable/NewContinuousVariable/NewBinaryVariable/NewVariableVector/NewVariableMatrix (and TrackVariable) calls on one environment, all variables handed out have distinct IDs and are tracked.", "quantifier": "all histories of operations on an environment", "why_tests_cant": "Histories are unbounded.", "anchors": ["symbolic/variable.go: NewContinuousVariable, NewBinaryVariable", "symbolic/basic_environment.go: BasicEnvironment.TrackVariable", "symbolic/variable_vector.go: NewVariableVector", "symbolic/variable_matrix.go: NewVariableMatrix"]}
{"id": "C40", "title": "Concurrent variable creation yields distinct IDs", "statement": "When several goroutines create variables in the same (default) environment, all variables obtained have distinct IDs for every interleaving.", "quantifier": "all interleavings of any number of goroutines", "why_tests_cant": "Schedules cannot be enumerated by tests.", "anchors": ["symbolic/variable.go: NewContinuousVariable", "symbolic/basic_environment.go: BasicEnvironment.TrackVariable"]}
{"id": "C41", "title": "Variables of different environments are different variables", "statement": "Arithmetic never confuses variables created in different environments: the value of x.Plus(y) is the sum of the values of x and y for x, y from different environments.", "quantifier": "all pairs of environments and histories", "why_tests_cant": "Ranges over pairs of histories.", "anchors": ["symbolic/variable.go: Variable.Plus, UniqueVars", "symbolic/utils.go: FindInSlice"]}
{"id": "C42", "title": "Results of the API are valid", "statement": "Every scalar expression reachable from variables and constants by any sequence of Plus, Minus, Multiply, Power, Substitute, DerivativeWrt and simplification passes Check, has distinct variables in each term, positive exponents, and no operation in the sequence panics.", "quantifier": "all finite operation histories", "why_tests_cant": "Unbounded histories.", "anchors": ["symbolic/monomial.go: Monomial.Check", "symbolic/polynomial.go: Polynomial.Check", "symbolic/variable.go: Variable.Check"]}
{"id": "C43", "title": "Arithmetic does not modify its operands", "statement": "Plus, Minus, Multiply, Simplify and Substitute leave the observable value of every existing expression unchanged, for every sharing pattern of the underlying slices.", "quantifier": "all heaps, all aliasing patterns, all operand expressions", "why_tests_cant": "Aliasing patterns (spare capacity, shared arrays) are unbounded.", "anchors": ["symbolic/monomial.go: Monomial.Multiply, Monomial.Copy", "symbolic/polynomial.go: Polynomial.Copy, Polynomial.Plus, Polynomial.Simplify"]}
{"id": "C44", "title": "Concurrent multiplications of a shared monomial are independent", "statement": "Two goroutines that both multiply the same monomial by other monomials obtain the same results as when run one after the other.", "quantifier": "all interleavings", "why_tests_cant": "Schedules cannot be enumerated by tests.", "anchors": ["symbolic/monomial.go: Monomial.Multiply"]}
{"id": "C45", "title": "int operands behave like the corresponding constants", "statement": "For every expression e and int n accepted by Multiply, e.Multiply(n) equals e.Multiply(K(n)); for Plus, e.Plus(n) equals e.Plus(K(n)).", "quantifier": "all scalar expressions, all ints", "why_tests_cant": "All expressions.", "anchors": ["symbolic/monomial.go: Monomial.Plus, Monomial.Multiply", "symbolic/variable.go: Variable.Plus, Variable.Multiply", "symbolic/constant.go: K.Plus, K.Multiply", "symbolic/polynomial.go: Polynomial.Plus, Polynomial.Multiply"]}
{"id": "C46", "title": "Constant is the value with all variables at zero", "statement": "p.Constant() equals the value of p at the all-zero assignment.", "quantifier": "all valid scalar, vector and matrix expressions", "why_tests_cant": "Infinitely many expressions.", "anchors": ["symbolic/monomial.go: Monomial.Constant", "symbolic/polynomial.go: Polynomial.Constant", "symbolic/monomial_matrix.go: MonomialMatrix.Plus, MonomialMatrix.Constant"]}
{"id": "C47", "title": "Invalid operands are rejected", "statement": "Every arithmetic or comparison call with an operand that fails Check, or of an unsupported type, panics instead of returning an expression.", "quantifier": "all operand pairs", "why_tests_cant": "All malformed values.", "anchors": ["symbolic/monomial.go: Monomial.Plus", "symbolic/variable.go: Variable.Plus", "symbolic/polynomial.go: Polynomial.Plus"]}
{"id": "C48", "title": "From conversions are faithful", "statement": "The getKVector.From / getKMatrix.From helpers return a constant vector/matrix with exactly the given entries for every supported input type and panic otherwise.", "quantifier": "all inputs of any size", "why_tests_cant": "Unbounded sizes.", "anchors": ["get/KVector/from.go: From", "get/KMatrix/from.go: From", "symbolic/constant_matrix.go: DenseToKMatrix, KMatrix.ToDense", "symbolic/constant_vector.go: VecDenseToKVector"]}
{"id": "C49", "title": "VariablesInThisConstraint lists each variable of the constraint once, in any iteration order", "statement": "For every constraint and every map iteration order the result has no duplicates and contains exactly the variables occurring on either side.", "quantifier": "all constraints, all iteration orders", "why_tests_cant": "Map order is random.", "anchors": ["symbolic/constraint.go: VariablesInThisConstraint"]}
{"id": "C50", "title": "Identity, Zeros and Ones are what they say", "statement": "Identity(n), ZerosMatrix, OnesMatrix, ZerosVector, OnesVector have the stated dimensions and entries; Identity is neutral for matrix multiplication and zeros for addition.", "quantifier": "all dimensions", "why_tests_cant": "All sizes.", "anchors": ["symbolic/constant_matrix.go: Identity, ZerosMatrix, OnesMatrix", "symbolic/constant_vector.go: ZerosVector, OnesVector"]}
{"id": "C51", "title": "Simplifying vectors and matrices keeps their meaning and is idempotent", "statement": "AsSimplifiedExpression on every vector or matrix does not panic, keeps the dimensions and, at every assignment, the value of every entry; simplifying again changes nothing; no new variable appears.", "quantifier": "all valid vector and matrix expressions and all assignments", "why_tests_cant": "The claim ranges over all entry types, dimensions, terms and assignments.", "anchors": ["symbolic/vector_expression.go: ConcretizeVectorExpression", "symbolic/polynomial_vector.go: AsSimplifiedExpression, Simplify", "symbolic/polynomial_matrix.go: AsSimplifiedExpression", "symbolic/monomial_vector.go", "symbolic/variable_matrix.go"]}
{"id": "C52", "title": "DerivativeWrt of matrices differentiates entry by entry and leaves the matrix unchanged", "statement": "For every monomial or polynomial matrix m, m.DerivativeWrt(v) does not panic, entry (i,j) of the result is the partial derivative of entry (i,j) of m, and m and every other expression are unchanged afterwards.", "quantifier": "all monomial and polynomial matrices, all variables, all heaps (all sharing of slices between entries)", "why_tests_cant": "Depends on which entries share exponents in memory and on every combination of entries, including those not containing v.", "anchors": ["symbolic/monomial_matrix.go: MonomialMatrix.DerivativeWrt", "symbolic/polynomial_matrix.go: PolynomialMatrix.DerivativeWrt"]}
{"id": "C53", "title": "LinearCoeff and Constant give the linear part of any expression", "statement": "For every valid scalar expression of any degree and every list of distinct variables wrt that contains those of its linear terms, the value at every assignment equals the dot product of LinearCoeff(wrt) with the values of wrt, plus Constant(), plus the value of the terms of degree 2 and more.", "quantifier": "all valid scalar expressions, all wrt lists, all assignments", "why_tests_cant": "Infinitely many expressions and assignments.", "anchors": ["symbolic/monomial.go: Monomial.LinearCoeff", "symbolic/polynomial.go: Polynomial.LinearCoeff, Polynomial.Constant"]}
{"id": "C54", "title": "New variables have the requested kind and environment", "statement": "NewVariable and NewContinuousVariable return a variable with bounds -1e100 and 1e100 and type continuous, NewBinaryVariable one with bounds 0 and 1 and type binary; both belong to the environment passed (the default environment if none), which afterwards tracks the new ID and loses nothing, and no other environment changes. Every variable of NewVariableVector and NewVariableMatrix is continuous and belongs to that environment. Every variable created in any history passes Check.", "quantifier": "all environment states, all environment arguments, all histories of creation calls", "why_tests_cant": "Ranges over all histories and environment contents.", "anchors": ["symbolic/variable.go: NewVariable, NewContinuousVariable, NewBinaryVariable", "symbolic/variable_vector.go: NewVariableVector", "symbolic/variable_matrix.go: NewVariableMatrix"]}
{"id": "C55", "title": "DerivativeWrt of constant and variable vectors and matrices", "statement": "For every constant or variable vector or matrix e and every valid variable x, e.DerivativeWrt(x) does not panic and has the dimensions of e, 1 in the entries equal to x and 0 in all others; its entries are the rates of change of the entries of e with respect to x.", "quantifier": "all valid constant/variable vectors and matrices, all variables, all assignments", "why_tests_cant": "Ranges over all dimensions and all positions of the variable.", "anchors": ["symbolic/constant_vector.go: DerivativeWrt", "symbolic/variable_vector.go: DerivativeWrt", "symbolic/constant_matrix.go: DerivativeWrt", "symbolic/variable_matrix.go: DerivativeWrt"]}
{"id": "C56", "title": "Conversions between types keep every entry", "statement": "ToMonomialVector, ToPolynomialVector, ToMonomialMatrix, ToPolynomialMatrix, ToVecDense, VecDenseToKVector, DenseToKMatrix and VariableVector.Copy return, for every value that passes Check, an array of the same dimensions with the same terms in every entry, and IsSquare compares the dimensions.", "quantifier": "all vectors and matrices, all entries, all assignments", "why_tests_cant": "Ranges over all dimensions and contents.", "anchors": ["symbolic/constant_vector.go", "symbolic/variable_vector.go", "symbolic/monomial_vector.go", "symbolic/constant_matrix.go", "symbolic/variable_matrix.go", "symbolic/matrix_expression.go: IsSquare"]}
{"id": "C57", "title": "Type recognition agrees with the conversions and with what arithmetic accepts", "statement": "IsScalarExpression, IsVectorExpression, IsMatrixExpression and IsPolynomialLike return true exactly if the corresponding To function returns the expression without an error, which is the case exactly for the Go values that the arithmetic accepts as such operands; on other values the To functions return an error.", "quantifier": "all Go values of the types the switches mention, and any other", "why_tests_cant": "Ranges over every value of an interface type.", "anchors": ["symbolic/scalar_expression.go: IsScalarExpression, ToScalarExpression", "symbolic/vector_expression.go", "symbolic/matrix_expression.go", "symbolic/polynomial_like.go: IsPolynomialLike, ToPolynomialLike"]}
{"id": "C58", "title": "IsConstant reports exactly the constant functions", "statement": "Monomial.IsConstant, Polynomial.IsConstant, MonomialVector.IsConstant and PolynomialVector.IsConstantVector do not panic on valid receivers and return true exactly if the value of the expression does not depend on any variable; an expression is a constant function exactly if its simplified form is a constant.", "quantifier": "all valid expressions, all assignments", "why_tests_cant": "Being a constant function is a statement about all assignments.", "anchors": ["symbolic/monomial.go: IsConstant", "symbolic/polynomial.go: IsConstant, AsSimplifiedExpression", "symbolic/monomial_vector.go: IsConstant", "symbolic/polynomial_vector.go: IsConstantVector"]}
{"id": "C59", "title": "Copies are independent of the original", "statement": "Monomial.Copy and Polynomial.Copy return an expression with the value of the receiver and change no expression. Whatever is written afterwards through the fields of the original, or of any expression that existed before, or by DerivativeWrt on them, the copy keeps its value, and whatever is written through the copy or by DerivativeWrt on the copy, every expression that existed before keeps its value.", "quantifier": "all states of memory with any sharing of slices, all monomials and polynomials in them, all later writes", "why_tests_cant": "Sharing of backing arrays shows only for particular later writes; the claim ranges over all memories and all writes.", "anchors": ["symbolic/monomial.go: Copy, DerivativeWrt", "symbolic/polynomial.go: Copy, DerivativeWrt, AsSimplifiedExpression"]}
{"id": "C60", "title": "Expressions that are equal as functions have equal simplified forms and difference zero", "statement": "For all valid expressions a and b: a and b have the same value at every assignment exactly if a.AsSimplifiedExpression() and b.AsSimplifiedExpression() consist of the same multiples of the same products of powers, and exactly if a.Minus(b) is the constant 0.", "quantifier": "all pairs of valid scalar expressions, all assignments", "why_tests_cant": "Equality of functions quantifies over all assignments, and the claim over all pairs of expressions.", "anchors": ["symbolic/expression.go: Minus", "symbolic/polynomial.go: AsSimplifiedExpression, Simplify", "symbolic/monomial.go: AsSimplifiedExpression"]}
{"id": "C61", "title": "Printed expressions and constraints determine what they print", "statement": "String does not panic on a valid expression or scalar constraint. Two expressions (scalars, vectors or matrices of any of the types) whose String results are equal have the same dimensions and the same coefficients, variables and exponents in every entry, and so the same value at every assignment; two constraints with equal String results have the same sides and the same sense. Brackets in a printed matrix are balanced.", "quantifier": "all pairs of valid expressions and constraints, all ways of printing numbers that tell different numbers apart, all histories of variable creation", "why_tests_cant": "A test compares a few strings with expected literals; that no two different expressions share a string is a statement about all pairs.", "anchors": ["symbolic/monomial.go: String", "symbolic/polynomial.go: String", "symbolic/variable.go: String, NewContinuousVariable", "symbolic/constant_matrix.go: String", "symbolic/polynomial_vector.go: String", "symbolic/scalar_constraint.go: String", "symbolic/constr_sense.go: String"]}
{"id": "C62", "title": "float64 arithmetic is exact while coefficients fit 53 bits", "statement": "If the coefficients of the operands are multiples of 2^-k and the weight (the sum of the absolute values of the coefficients in units of 2^-k, which adds up under Plus and Minus and multiplies under Multiply, Power and Substitute) of every intermediate result is at most 2^53, then every scalar call (Plus, Minus, Multiply, Power, AsSimplifiedExpression, DerivativeWrt, Substitute), every program of such calls, LinearCoeff, Constant and the linear constraint representations give in float64 exactly what they give in rational arithmetic: the same terms with the same coefficients, the same panics. So linear rows handed to a solver describe the constraint that was written, with no rounding. The bound cannot be raised.", "quantifier": "all programs of scalar calls over float64 constants and variables, all assignments of rational numbers", "why_tests_cant": "A test samples a few coefficients; that no intermediate rounding occurs for any program below the bound is a statement about all of them.", "anchors": ["symbolic/expression.go: Plus, Minus, Multiply", "symbolic/scalar_expression.go: ScalarPowerTemplate", "symbolic/polynomial.go: Plus, Multiply, Simplify, DerivativeWrt, Substitute, LinearCoeff, Constant", "symbolic/monomial.go: Multiply, DerivativeWrt, Substitute", "symbolic/scalar_constraint.go: LinearInequalityConstraintRepresentation, LinearEqualityConstraintRepresentation"]}
{"id": "C63", "title": "Programs over vectors and matrices follow matrix algebra", "statement": "For any program that applies Plus, Minus, Multiply, Power, Transpose, AsSimplifiedExpression, HStack and VStack, nested in any way, to valid scalars, vectors and matrices: if it returns, the result has the dimensions that matrix algebra gives (a scalar operand of Plus, Minus or Multiply applies to every entry), it is valid, its entries have at most the degree that can be read off the text, and at every assignment of the variables its entries are those of matrix algebra; if dimensions do not fit, it panics; if they fit, it returns.", "quantifier": "all programs, all expressions at the leaves, all dimensions, all assignments", "why_tests_cant": "Tests run single calls on small matrices; nesting of calls and dimensions are unbounded, and intermediate results take any of twelve types.", "anchors": ["symbolic/expression.go: Expression, HStack, VStack", "symbolic/matrix_expression.go: MatrixMultiplyTemplate, MatrixPowerTemplate, ConcretizeExpression", "symbolic/vector_expression.go: VectorPlusTemplate, VectorMultiplyTemplate", "symbolic/variable_matrix.go: Multiply", "symbolic/polynomial_matrix.go: Plus, Multiply", "symbolic/constant_matrix.go: Multiply"]}
{"id": "C64", "title": "Quadratic forms, affine maps and linear constraints round-trip", "statement": "For numbers A, Q, b, c and a vector x of variables: x.Transpose().Multiply(Q).Multiply(x) returns the sum of Q_ij x_i x_j, A.Multiply(x) and A.Multiply(x).Plus(b) return vectors with entries sum_j A_ij x_j (+ b_i); and the constraint A x <= b (=, >=), built with Multiply and a comparison, is handed to a solver as exactly the matrix A and the vector b that were put in (negated for >=); A x + b <= c as A and c - b.", "quantifier": "all dimensions, all matrices and vectors of numbers, all lists of variables", "why_tests_cant": "A test checks a few matrices; that the coefficients come back unchanged for every matrix, including those with zeros and cancellations, is universal.", "anchors": ["symbolic/constant_matrix.go: Multiply", "symbolic/variable_matrix.go: Multiply", "symbolic/variable_vector.go: Transpose", "symbolic/vector_constraint.go: LinearInequalityConstraintRepresentation, LinearEqualityConstraintRepresentation", "symbolic/polynomial_vector.go: Plus, LinearCoeff, Constant, Comparison"]}
{"id": "C65", "title": "Matrix programs in float64 are exact within 53 bits", "statement": "If the coefficients of every entry of every intermediate result are multiples of 2^-k (k <= 1000) whose absolute values add up to at most 2^53 * 2^-k - a bound that can be read off the program text - then Plus, Minus, Multiply, Power, Transpose, HStack, VStack and AsSimplifiedExpression on scalars, vectors and matrices make no rounding error: the float64 result, read as rational numbers, is the result of the same calls in rational arithmetic, and x'Qx, A x <= b and the linear systems extracted from vector constraints are exact, in whatever order products are added up.", "quantifier": "all programs, all matrices, vectors and dimensions within the bound, all orders of summation, all rational assignments", "why_tests_cant": "Rounding depends on all coefficients of all intermediate results; a test compares a few sums.", "anchors": ["symbolic/matrix_expression.go: MatrixMultiplyTemplate, MatrixPowerTemplate", "symbolic/constant_matrix.go: Plus, Multiply", "symbolic/polynomial_matrix.go: Plus, Multiply", "symbolic/vector_constraint.go: LinearInequalityConstraintRepresentation, LinearEqualityConstraintRepresentation", "symbolic/polynomial_matrix.go: AsSimplifiedExpression"]}
{"id": "C66", "title": "Constraints between computed linear vectors reach the solver unchanged", "statement": "Let two vectors of the same length (at least 2) be computed by any sequence of Plus, Minus, Multiply, Power, Transpose, HStack, VStack and AsSimplifiedExpression calls whose result is linear, then simplified and compared with LessEq, GreaterEq or Eq. If LinearInequalityConstraintRepresentation or LinearEqualityConstraintRepresentation returns a system A, b for a list of variables that contains all variables used, then the solutions of A x <= b (A x = b) are exactly the assignments at which the two sequences of calls, read as matrix algebra, satisfy the comparison in every row; and it does return one if in no row the variables cancel. With float64 coefficients this holds without rounding as long as the coefficients of the intermediate results fit into 53 bits.", "quantifier": "all pairs of programs of any size, all dimensions, all lists of variables, all assignments", "why_tests_cant": "The claim composes every arithmetic method with simplification, comparison and extraction; a test checks one composition on one assignment.", "anchors": ["symbolic/vector_constraint.go: LinearInequalityConstraintRepresentation, LinearEqualityConstraintRepresentation", "symbolic/polynomial_vector.go: Comparison, LinearCoeff, Constant, AsSimplifiedExpression", "symbolic/constant_matrix.go: Multiply", "symbolic/polynomial_matrix.go: Plus, Multiply", "symbolic/expression.go: HStack, VStack"]}
{"id": "C67", "title": "Error messages identify the failure", "statement": "Two error values of package smErrors with the same message have the same type and agree in the operation, the numbers, the types and the object they report. The whole numbers in the message are the dimensions, indices, lengths or exponents of the error in the order of its fields. Plus, Minus, Multiply, HStack, VStack and comparisons of operands whose dimensions do not fit panic with a message that names the call and the dimensions of both operands (for stacks: of the first two neighbours that do not fit), and the exported checks of dimensions and indices return nil exactly if the operands fit.", "quantifier": "all error values, operation names, dimensions and indices; all pairs and lists of valid expressions", "why_tests_cant": "That two different failures never print alike is a statement about all pairs of messages; a test compares a few.", "anchors": ["smErrors/matrix_dimension_error.go: Error, ArgDimsAsStrings, CheckDimensionsInAddition, CheckDimensionsInSubtraction, CheckDimensionsInMultiplication, CheckDimensionsInHStack, CheckDimensionsInVStack, CheckDimensionsInComparison", "smErrors/out_of_bounds_error.go: Error, CheckIndexOnVector, CheckIndexOnMatrix", "smErrors/vector_dimension_error.go: Error", "smErrors/matrix_column_mismatch.go: Error", "symbolic/utils.go: CheckDimensionsInComparison"]}
{"id": "C68", "title": "Check locates the first fault", "statement": "If Check of a scalar, vector or matrix returns an error, the numbers in its message are: for a matrix with rows of different lengths the length of row 0, the length of the first row that differs and its index; otherwise the indices of the first faulty row and of the first faulty entry in it (for a vector the index of the entry), the index of the first faulty term of that entry if it is a polynomial with terms, and the two lengths or bounds that disagree there. It returns nil exactly if there is no fault.", "quantifier": "all scalars, vectors and matrices, valid or not", "why_tests_cant": "A test has faults in a few positions; that the reported position is the first fault for every arrangement of faults is universal.", "anchors": ["symbolic/variable.go: Check", "symbolic/monomial.go: Check", "symbolic/polynomial.go: Check", "symbolic/variable_vector.go: Check", "symbolic/monomial_vector.go: Check", "symbolic/polynomial_vector.go: Check", "symbolic/variable_matrix.go: Check", "symbolic/monomial_matrix.go: Check", "symbolic/polynomial_matrix.go: Check"]}
{"id": "C69", "title": "Calls on vectors and matrices leave every expression in use unchanged", "statement": "Plus, Minus, Multiply (with an expression, a float64, an int, a VecDense or a Dense), Power, Transpose, AsSimplifiedExpression, Substitute, At, HStack, VStack and ConcretizeExpression never change the value of a scalar, vector or matrix the caller holds, although their results share memory with the operands; and after any sequence of such calls every result has the value the same calls have when expressions are immutable values. So a nested program run in memory has the values of matrix algebra where C63 says so, and its operands still have theirs. Calling DerivativeWrt on an entry of a result changes neither operands nor results.", "quantifier": "all sequences of calls, all expressions and dimensions, all growth policies of append, all heaps reachable by such calls", "why_tests_cant": "Whether a write is visible through another expression depends on the whole history of shared slices and spare capacity; a test looks at one history with one runtime.", "anchors": ["symbolic/monomial_matrix.go: Plus, Multiply, Transpose, At", "symbolic/polynomial_matrix.go: Plus, Multiply, Transpose, At, Power", "symbolic/variable_matrix.go: Plus, Multiply", "symbolic/constant_matrix.go: Plus, Multiply", "symbolic/monomial_vector.go: Plus, Multiply, Transpose", "symbolic/polynomial_vector.go: Plus, Multiply, Transpose", "symbolic/vector_expression.go: ConcretizeVectorExpression", "symbolic/expression.go: HStack, VStack", "symbolic/monomial.go: DerivativeWrt"]}
{"id": "C70", "title": "Working with constraints leaves every expression and constraint in use unchanged", "statement": "Making constraints (Comparison, LessEq, GreaterEq, Eq), Left, Right, AsSimplifiedConstraint, ScaleBy, Substitute, SubstituteAccordingTo, AtVec, At, CompileConstraintsIntoScalarConstraints, LinearInequalityConstraintRepresentation, LinearEqualityConstraintRepresentation, ImpliesThisIsAlsoSatisfied, IsNonnegativityConstraint, Variables, IsLinear and Check, in any order and mixed with the arithmetic of C69, never change the value of an expression or of a constraint the caller holds, although a constraint shares memory with the expressions it was made from; and every result, matrix, answer and panic is the one the same calls have when expressions and constraints are immutable values. So the matrices that reach the solver in memory have the solutions C66 states, and the expressions are unchanged afterwards. DerivativeWrt of an expression does not change the constraints made from it.", "quantifier": "all sequences of calls, all expressions, constraints and dimensions, all growth policies of append, all iteration orders of maps, all heaps reachable by such calls", "why_tests_cant": "A constraint made early is used after many other calls; whether one of them writes into the slices it shares depends on the whole history.", "anchors": ["symbolic/scalar_constraint.go: ScalarConstraint.Simplify, ScaleBy, Substitute, SubstituteAccordingTo, LinearInequalityConstraintRepresentation, LinearEqualityConstraintRepresentation, ImpliesThisIsAlsoSatisfied", "symbolic/vector_constraint.go: AtVec, LinearInequalityConstraintRepresentation, LinearEqualityConstraintRepresentation, AsSimplifiedConstraint, Substitute, SubstituteAccordingTo, ImpliesThisIsAlsoSatisfied", "symbolic/matrix_constraint.go: At, AsSimplifiedConstraint, Substitute, SubstituteAccordingTo, ImpliesThisIsAlsoSatisfied", "symbolic/constraint.go: CompileConstraintsIntoScalarConstraints", "symbolic/monomial.go: DerivativeWrt"]}
{"id": "C71", "title": "Tests on terms and searches for terms say what they say", "statement": "IsZero, IsVariable(v), IsDegreeOneContainingVariable(v) and MatchesFormOf(m) return true exactly if the term is the zero function, the variable v, a multiple of v, or has the same powers of the same variables as m; ConstantMonomialIndex, VariableMonomialIndex and MonomialIndex return the position of the first such term, and -1 only if there is none; ToVariable returns v for the term v and panics on every other term; ToMonomial and ToPolynomial keep the value; and all of them panic on terms that fail Check.", "quantifier": "all terms, polynomials and variables, all assignments", "why_tests_cant": "Equality as functions ranges over all assignments, and the lists of factors and terms are unbounded.", "anchors": ["symbolic/monomial.go: IsZero, IsVariable, IsDegreeOneContainingVariable, MatchesFormOf, ToVariable, ToPolynomial", "symbolic/polynomial.go: ConstantMonomialIndex, VariableMonomialIndex, MonomialIndex", "symbolic/constant.go: ToMonomial, ToPolynomial", "symbolic/variable.go: ToMonomial, ToPolynomial"]}
{"id": "C72", "title": "Dims, Len, NumVariables, VariableIDs and the Checks of constraints and maps agree with what the object contains", "statement": "Dims and Len return the numbers of rows and columns of every valid array; VariableIDs lists the IDs that occur in it, once each, and NumVariables is their number; Check of a constraint accepts every constraint between two valid arrays of the same dimensions with one of the three senses, and no other, and Len and Dims of the constraint are those dimensions; CheckSubstitutionMap accepts exactly the maps from valid variables to valid scalars, and SubstituteAccordingTo panics on every other map.", "quantifier": "all arrays, constraints and substitution maps", "why_tests_cant": "Arrays, constraints and maps are unbounded, and the claims hold in both directions.", "anchors": ["symbolic/expression.go: NumVariables, VariableIDs", "symbolic/vector_constraint.go: Check, Len, Dims", "symbolic/matrix_constraint.go: Check, Dims", "symbolic/utils.go: CheckSubstitutionMap", "symbolic/*_vector.go, *_matrix.go: Dims, Len, SubstituteAccordingTo"]}
{"id": "C73", "title": "The kind of a result goes with its dimensions", "statement": "Every result of Plus, Minus, Multiply, Transpose, HStack, VStack and the Concretize functions is a scalar if it is 1 x 1, a vector if it has one column and several rows, and a matrix otherwise.", "quantifier": "all operands of any type and dimensions", "why_tests_cant": "All type pairs and unbounded dimensions.", "anchors": ["symbolic/expression.go: ConcretizeExpression, HStack, VStack", "symbolic/constant_matrix.go: KMatrix.Multiply, Plus, Transpose", "symbolic/variable_matrix.go, monomial_matrix.go, polynomial_matrix.go: Multiply, Plus, Transpose", "symbolic/vector_expression.go: VectorPlusTemplate, VectorMultiplyTemplate"]}
{"id": "C74", "title": "With float64 coefficients, sums, differences and multiples round each coefficient once", "statement": "The coefficient of a product of powers in a + b is the IEEE sum of its coefficients in a and in b, the one present if only one has it, and the term is absent if that number is zero; the same with the IEEE difference for a - b and the IEEE product for a number times a; a + b and b + a have the same coefficients to the last bit; Simplify adds the coefficients of like terms from left to right. The same holds for every entry of sums, differences, multiples and simplifications of vectors and matrices, except sums and differences computed by a MonomialMatrix, which lists the terms and adds nothing.", "quantifier": "all expressions in which like terms have been collected, with any float64 coefficients, including infinities and NaN, all shapes of operands, and all products of powers", "why_tests_cant": "Rounding differs for every pair of float64 values, and the code reaches the addition by sixteen different routes, some of which add a zero first or simplify twice.", "anchors": ["symbolic/polynomial.go: Polynomial.Plus, Simplify, AsSimplifiedExpression", "symbolic/monomial.go: Monomial.Plus", "symbolic/variable.go: Variable.Plus, Multiply", "symbolic/constant.go: K.Plus, Multiply", "symbolic/expression.go: Minus", "symbolic/vector_expression.go: VectorPlusTemplate, VectorMultiplyTemplate", "symbolic/*_vector.go, *_matrix.go: Plus, Minus, Multiply, AsSimplifiedExpression"]}
{"id": "C75", "title": "Sums, products and simplifications of arrays are those of their entries", "statement": "Every entry of the sum of two vectors or matrices, or of a vector or matrix and a scalar, consists of the same terms in the same order, with bit for bit the same coefficients, as the sum of the two entries computed as scalars; every entry of a product of two matrices, likewise, as the products of the entries of the row and of the column, computed as scalars and added one after the other from 0; and every entry of a simplified array is the simplified entry. (The constants 0 and -0 are not told apart.)", "quantifier": "all pairs of operands of every type and shape, with exact and with float64 coefficients", "why_tests_cant": "Twelve types on each side, each with its own loop over unbounded shapes, some of which simplify once more, convert the entries to another type, or let the other operand do the addition.", "anchors": ["symbolic/vector_expression.go: VectorPlusTemplate", "symbolic/*_vector.go: Plus, AsSimplifiedExpression", "symbolic/*_matrix.go: Plus, AsSimplifiedExpression", "symbolic/constant.go, variable.go, monomial.go, polynomial.go: Plus", "symbolic/matrix_expression.go: MatrixMultiplyTemplate; symbolic/*_matrix.go: Multiply"]}
{"id": "C76", "title": "Float64 results are close to the exact ones", "statement": "At every point with real coordinates, the value of the sum, difference or multiple by a number of float64 expressions differs from the sum, difference or multiple of the values by at most 2^-53 times the total size of the terms of the operands (the absolute values of the terms at that point), plus, for multiples, 2^-1075 for each unit of the powers; simplifying an expression of n terms by at most (1+2^-53)^(n-1)-1 times that size, and adding n more expressions one after the other by at most (1+2^-53)^n-1 times that size. The product of two expressions with m and n terms differs from the product of the values by at most (1+2^-53)^(m+n)-1 times the product of the sizes, plus the same tiny absolute error for each product of powers. The derivative with respect to a variable, evaluated at the point, differs from the derivative of the value there by at most (1+2^-53)^2-1 times the sum of the sizes of the derivatives of the terms, plus 2^-1075 for each unit of the derivatives of the powers. Sums, differences, multiples and simplifications of vectors and matrices satisfy the same for each entry. An entry of the product of two matrices with n columns and rows differs from the sum of the products of the values by at most the sum over these products of (1+2^-53)^(n+p+q)-1 times the product of the sizes, where p and q are the numbers of terms, plus the tiny absolute error. Overflow to infinity is the only exception.", "quantifier": "all expressions with float64 coefficients, of every size and degree, whose results are finite; all real values of the variables", "why_tests_cant": "The bound must hold for every combination of 64-bit coefficients, every number of terms and every real point.", "anchors": ["symbolic/constant.go, variable.go, monomial.go, polynomial.go: Plus, Minus, Multiply", "symbolic/polynomial.go: Simplify", "symbolic/*_vector.go, *_matrix.go: Plus, Minus, Multiply, AsSimplifiedExpression", "symbolic/constant.go, variable.go, monomial.go, polynomial.go: DerivativeWrt"]}
{"id": "C77", "title": "Malformed expressions are rejected, not processed", "statement": "Substitute, SubstituteAccordingTo, DerivativeWrt, At, LinearCoeff, Transpose, AsSimplifiedExpression, Degree, IsLinear, Constant and Variables panic with the error of Check, whatever the other arguments, when called on an expression that fails Check; Substitute, SubstituteAccordingTo and DerivativeWrt also do so when the variable, the replacement, or a key or value of the map fails Check, unless the receiver is a constant, which is returned without looking at the arguments (its derivative is 0). The tests and searches on terms (IsConstant, IsZero, IsVariable, IsDegreeOneContainingVariable, MatchesFormOf, ToVariable, the index methods) and AtVec also reject receivers and arguments that fail Check, and a rejected DerivativeWrt, Substitute, Plus, Minus, Multiply, Power or Comparison leaves all memory as it was. Plus, Minus, Multiply, Power and Comparison, which never return on such values (C47), panic with the error of Check too, before they look at types and dimensions. Check accepts exactly the expressions whose variables have bounds in order, whose terms have one exponent for each variable, whose polynomials, vectors of terms or polynomials and matrices are not empty and whose rows have one length; constants always pass.", "quantifier": "all expressions of the twelve types that fail Check, of any shape, all arguments", "why_tests_cant": "A missing test shows only on malformed values of one type given to one method; there are more than a hundred such pairs, and each has unboundedly many malformed values.", "anchors": ["symbolic/variable.go, monomial.go, polynomial.go: Substitute, SubstituteAccordingTo, DerivativeWrt, At, LinearCoeff, Transpose, AsSimplifiedExpression, Degree, IsLinear, Constant", "symbolic/*_vector.go, *_matrix.go: the same methods, Variables"]}
{"id": "C78", "title": "Malformed constraints are rejected, not processed", "statement": "When Check of a constraint reports an error (a side that fails Check, sides of different dimensions, an unknown sense), its methods Variables, Substitute, SubstituteAccordingTo, ImpliesThisIsAlsoSatisfied, Dims, Len, At and AtVec, AsSimplifiedConstraint, ScaleBy, IsNonnegativityConstraint and the two linear representations panic with that error whatever the other arguments; ImpliesThisIsAlsoSatisfied does so also for its argument, and CompileConstraintsIntoScalarConstraints for a list with such a constraint anywhere in it. Check accepts exactly the constraints with two sides that pass Check, one of the three senses and sides of equal dimensions (one side of a vector constraint may also have length 1). A rejected call leaves all memory as it was.", "quantifier": "all scalar, vector and matrix constraints that fail Check, of any shape, all arguments, all iteration orders of maps", "why_tests_cant": "A missing test shows only on a malformed value given to one method; each method has unboundedly many malformed receivers and arguments.", "anchors": ["symbolic/scalar_constraint.go, vector_constraint.go, matrix_constraint.go: Check and the methods named", "symbolic/constraint.go: VariablesInThisConstraint, CompileConstraintsIntoScalarConstraints"]}

{"id": "C01", "title": "Row-major addressing is a bijection", "statement": "For every shape with at least one axis, converting a multi-index that lies inside the shape to a flat position and back returns the same multi-index; the flat positions are exactly 0..size-1; and stepping an index vector with the array odometer enumerates those multi-indexes in flat order, wrapping to all zeros after the last one.", "quantifier": "all ranks >= 1, all axis lengths, all in-range indexes and all flat positions", "why_tests_cant": "Ranks and axis lengths are unbounded; tests only exercise a handful of small matrices.", "anchors": ["apl/array.go: NewIdxConverter, IdxConverter.Index, IdxConverter.Indexes, IncArrayIndex, Prod"]}
{"id": "C02", "title": "Reshape repeats the source cyclically", "statement": "S⍴A for a non-empty array A and a non-empty shape vector S of non-negative lengths is an array whose shape is S and whose k-th element in ravel order is element k mod size(A) of A. (⍴A)⍴A and (⍴A)⍴,A give A back. For an empty S the result is the empty array.", "quantifier": "all element types, all shapes S with fewer than 2*63 elements, all non-empty arrays A, every position k", "why_tests_cant": "The cyclic fill depends on two unbounded sizes; a test fixes both.", "anchors": ["apl/array.go: MixedArray.Reshape, IntArray.Reshape, EmptyArray.Reshape", "apl/bool.go: BoolArray.Reshape", "apl/string.go: StringArray.Reshape", "apl/primitives/rho.go: rho1, rho2"]}
{"id": "C03", "title": "Shape reports what reshape built", "statement": "⍴S⍴A is S for every non-empty array A and every non-empty shape vector S; ⍴ of a scalar is the empty vector and ⍴ of the empty array is the one-element vector 0; the rank ⍴⍴A is the number of axes.", "quantifier": "all shapes and arrays", "why_tests_cant": "unbounded rank and axis lengths", "anchors": ["apl/primitives/rho.go: rho1, rho2"]}
{"id": "C04", "title": "Element stores are bounds-checked", "statement": "Storing to a flat position outside 0..size-1 of an array is rejected with an error and changes nothing; storing inside the range changes exactly that position.", "quantifier": "all array types (mixed, int, bool, string), all sizes, all positions including size itself", "why_tests_cant": "The one-past-the-end position of every size and every array type must be tried.", "anchors": ["apl/array.go: MixedArray.Set, IntArray.Set", "apl/bool.go: BoolArray.Set", "apl/string.go: StringArray.Set"]}
{"id": "C05", "title": "Reverse mirrors one axis and is an involution", "statement": "Reversing A along an existing axis keeps the shape, moves the element at index (..i..) to (..n-1-i..) on that axis and nothing else; reversing twice gives A; an axis outside the rank is an error; a scalar is returned unchanged.", "quantifier": "all arrays of any rank, every axis", "why_tests_cant": "unbounded rank and lengths", "anchors": ["apl/primitives/reverse.go: reverse, revLast, revFirst"]}
{"id": "C06", "title": "Rotate of a vector is a cyclic shift", "statement": "N⌽V has element (i+N) mod n of V at position i for every integer N (negative and larger than n included); rotating by N then M equals rotating by N+M; rotating by N then -N gives V; rotating by a multiple of n gives V.", "quantifier": "all vectors, all integers N, M within the non-overflowing range", "why_tests_cant": "N ranges over all integers, n over all lengths", "anchors": ["apl/primitives/reverse.go: rotate"]}
{"id": "C07", "title": "Rotate of a higher-rank array", "statement": "With a left argument of R's shape minus the rotated axis, L⌽R keeps the shape of R and rotates every line along the axis by its own count. A single-element left argument is repeated to conform (documented).", "quantifier": "all ranks >= 2, all axes, all conforming left arguments within the non-overflowing range", "why_tests_cant": "unbounded ranks, shapes and counts", "anchors": ["apl/primitives/reverse.go: rotate"]}
{"id": "C08", "title": "Monadic transpose reverses the axes", "statement": "⍉A has the reversed shape of A and the element at index I of ⍉A is the element of A at the reversed I; ⍉⍉A is A.", "quantifier": "all arrays of rank >= 1", "why_tests_cant": "unbounded rank", "anchors": ["apl/primitives/transpose.go: transpose, transposeIndexes"]}
{"id": "C09", "title": "Dyadic transpose permutes axes and takes diagonals", "statement": "L⍉A requires a left vector of length ⍴⍴A whose values are exactly 1..max (all present); otherwise it is an error. The result has one axis per value of L whose length is the minimum of the lengths of the axes of A mapped to it, and its element at index I is the element of A whose k-th coordinate is I[L[k]].", "quantifier": "all arrays, all left vectors, both index origins", "why_tests_cant": "the number of admissible left vectors grows super-exponentially with rank", "anchors": ["apl/primitives/transpose.go: transposeIndexes"]}
{"id": "C10", "title": "Take: shape, origin side and fill", "statement": "L↑A (one entry per axis, axes in order or given explicitly) has axis lengths |L|; for a non-negative entry the kept cells are the leading ones, for a negative entry the trailing ones; positions outside A are filled with the zero element of the array type.", "quantifier": "all arrays, all signed left vectors including overtake, all axis selections", "why_tests_cant": "sizes, signs and overtake combine without bound", "anchors": ["apl/primitives/take.go: takedrop, take", "apl/operators/rank.go: Take"]}
{"id": "C11", "title": "Drop removes exactly what take would keep", "statement": "L↓A removes the |L| leading (positive) or trailing (negative) cells on each axis, and an axis over-dropped becomes length 0; for a vector (N↑V),(N↓V) is V for 0<=N<=size.", "quantifier": "all arrays, all signed left vectors of integers above -2*63", "why_tests_cant": "sizes and signs unbounded", "anchors": ["apl/primitives/take.go: takedrop, drop"]}
{"id": "C12", "title": "Primitives do not modify their arguments", "statement": "Evaluating a primitive function such as take, drop or transpose on variables leaves the values and the shape of those variables unchanged.", "quantifier": "all left and right arguments, every shape, both index origins", "why_tests_cant": "the damage appears only for particular length/rank relations and only on a later use of the variable", "anchors": ["apl/primitives/take.go: takedrop", "apl/primitives/transpose.go: transposeIndexes", "apl/domain/array.go: ToIndexArray"]}
{"id": "C13", "title": "Catenate joins along one axis", "statement": "L,[X]R for arrays of equal rank whose other axes agree has length sum on axis X, and its element at index I is L's when I[X] is below L's length and R's (shifted) otherwise. Non-conforming shapes are an error. For vectors catenation is the list append, hence associative, and catenating with the empty array is the identity.", "quantifier": "all ranks, all axes, all shapes", "why_tests_cant": "unbounded rank and lengths", "anchors": ["apl/primitives/comma.go: catenate"]}
{"id": "C14", "title": "Catenate of different ranks", "statement": "When the ranks differ by exactly one the lower-rank argument is treated as having length 1 on the join axis; a scalar is repeated along the join axis; when the ranks differ by two or more the call is rejected with an error.", "quantifier": "all pairs of arrays", "why_tests_cant": "rank pairs are unbounded", "anchors": ["apl/primitives/comma.go: catenate"]}
{"id": "C15", "title": "Laminate adds an axis of length two", "statement": "L,[X.5]R for equal shapes has one more axis, of length 2 at the new position; the cell with coordinate 0 there is L and the cell with coordinate 1 is R.", "quantifier": "all equal-shape pairs, every insertion position", "why_tests_cant": "unbounded rank", "anchors": ["apl/primitives/comma.go: laminate"]}
{"id": "C16", "title": "Ravel keeps the elements in order", "statement": ",A is the vector of all elements of A in row-major order; ravelling axes X1..Xk (consecutive) merges them into one axis of their product and keeps the ravel order; ∊ of a nested list lists its leaves depth first, left to right, and the result contains no lists.", "quantifier": "all arrays; all nested lists of any depth", "why_tests_cant": "nesting depth unbounded", "anchors": ["apl/primitives/comma.go: ravel, ravelWithAxis, enlist, table"]}
{"id": "C17", "title": "Bracket indexing selects exactly the addressed cells", "statement": "A[I1;..;Ik] with one index vector (or an elided axis) per axis selects the cross product in row-major order, honouring ⎕IO; any index out of range, or a wrong number of axes, is an error and never reads outside the array.", "quantifier": "all arrays, all index vectors, both origins", "why_tests_cant": "index combinations unbounded", "anchors": ["apl/primitives/index.go: index, indexArray, spec2ints"]}
{"id": "C18", "title": "Index vectors yield the shape of the index", "statement": "The result of A[I1;..;Ik] has the concatenated lengths of the index vectors as its shape, except that axes selected with a single index disappear; when every axis is selected with a single index the result is the scalar element.", "quantifier": "all arrays and index vectors", "why_tests_cant": "unbounded", "anchors": ["apl/primitives/index.go: indexArray"]}
{"id": "C19", "title": "Indexed assignment changes exactly the selected positions", "statement": "A[..]←X replaces the addressed elements by X (a scalar X everywhere; a conforming X element by element) and leaves every other element and the shape of A unchanged; an out-of-range index is an error.", "quantifier": "all arrays, index sets, values", "why_tests_cant": "all index sets", "anchors": ["apl/operators/assign.go: assignArray, assignValue"]}
{"id": "C20", "title": "Assignment copies", "statement": "After B←A, changing elements of B by indexed assignment never changes A.", "quantifier": "all values, all subsequent indexed assignments", "why_tests_cant": "all later histories of updates", "anchors": ["apl/operators/assign.go", "apl/var.go", "apl/lambda.go: lambda.Call"]}
{"id": "C21", "title": "Lambda arguments are passed by value", "statement": "Evaluating F A for a lambda F whose body assigns into parts of ⍵ leaves the variable A of the caller unchanged.", "quantifier": "all lambdas and arguments", "why_tests_cant": "all bodies", "anchors": ["apl/lambda.go: lambda.Call", "apl/operators/assign.go: assignValue"]}
{"id": "C22", "title": "Interval counts from the index origin", "statement": "⍳N for a non-negative N is the vector ⎕IO, ⎕IO+1, ... with N elements (the empty array for 0); a negative N is an error.", "quantifier": "all N, both origins", "why_tests_cant": "all N", "anchors": ["apl/primitives/iota.go: interval"]}
{"id": "C23", "title": "Index-of returns the first occurrence", "statement": "Each element of L⍳R is the smallest index (counted from ⎕IO) at which the element of R occurs in the vector L, or ⎕IO+⍴L if it does not occur; the result has the shape of R.", "quantifier": "all vectors L, all arrays R", "why_tests_cant": "position and duplicates arbitrary", "anchors": ["apl/primitives/iota.go: indexof, isEqual"]}
{"id": "C24", "title": "Membership is exact", "statement": "Each element of L∊R is 1 exactly when the element of L occurs somewhere in R; the result has the shape of L.", "quantifier": "all arrays L and R", "why_tests_cant": "arbitrary contents", "anchors": ["apl/primitives/iota.go: membership"]}
{"id": "C25", "title": "Unique and union keep first occurrences in order", "statement": "∪R contains each distinct element of R once, in order of first occurrence; L∪R is the unique list of L catenated with R; ∪ is idempotent.", "quantifier": "all vectors", "why_tests_cant": "arbitrary duplicates", "anchors": ["apl/primitives/unique.go"]}
{"id": "C26", "title": "Without removes exactly the members", "statement": "L~R is the subsequence of the elements of L that do not occur in R, in their order in L.", "quantifier": "all vectors", "why_tests_cant": "arbitrary contents", "anchors": ["apl/primitives/boolean.go: without"]}
{"id": "C27", "title": "Where lists the positions of ones", "statement": "⍸B of a boolean vector is the increasing list of the positions (from ⎕IO) at which B is 1; its length is the number of ones.", "quantifier": "all boolean vectors, both origins", "why_tests_cant": "all vectors", "anchors": ["apl/primitives/iota.go: where"]}
{"id": "C28", "title": "Interval index locates the interval", "statement": "For a strictly increasing vector L the element of L⍸R for y is the number of elements of L that are <= y (adjusted by the origin).", "quantifier": "all increasing vectors, all values", "why_tests_cant": "all vectors", "anchors": ["apl/primitives/iota.go: intervalindex"]}
{"id": "C29", "title": "Grade returns a sorting permutation", "statement": "⍋A (⍒A) is a permutation of the indexes of the major cells of A, and indexing A with it lists the cells in non-decreasing (non-increasing) lexicographic order.", "quantifier": "all non-empty arrays of comparable elements, whatever order the sort routine gives to equal cells, both origins", "why_tests_cant": "all permutations of all sizes", "anchors": ["apl/primitives/grade.go: grade, gradeSetup"]}
{"id": "C30", "title": "Match is structural equality", "statement": "L≡R is 1 exactly when both sides have the same shape and pairwise equal elements; it is reflexive, symmetric and (for same-typed values) transitive, and ≢ is its negation.", "quantifier": "all values", "why_tests_cant": "all pairs of values", "anchors": ["apl/primitives/match.go"]}
{"id": "C31", "title": "Find marks exactly the occurrences", "statement": "L⍷R has the shape of R and is 1 exactly at the positions where a sub-array equal to L begins inside R.", "quantifier": "all patterns and arrays of any rank", "why_tests_cant": "all alignments incl. row ends", "anchors": ["apl/primitives/find.go: find"]}
{"id": "C32", "title": "Reduce folds from the right", "statement": "F/A along an axis has that axis removed and each result element is the right-to-left fold x1 F (x2 F (... F xn)) of the corresponding line, for any function F, with the first error of F (in that order) reported; a scalar and a single element are returned without calling F.", "quantifier": "every function F (also non-associative, failing), every array, every axis", "why_tests_cant": "F is arbitrary", "anchors": ["apl/operators/reduce.go: reduce, reduct"]}
{"id": "C33", "title": "Reduce of nothing gives the identity element", "statement": "Reducing an empty vector with + - gives 0, with × ÷ * gives 1, with ∧ 1 and ∨ 0, with ⌊ the largest and with ⌈ the smallest number, i.e. a left or right identity of the function; functions without an identity give an error.", "quantifier": "all primitive functions with identity, all numbers x", "why_tests_cant": "an identity law quantifies over all numbers", "anchors": ["apl/operators/reduce.go: identityItem"]}
{"id": "C34", "title": "Scan lists the reductions of the prefixes", "statement": "Element i of F\\V is F/ of the first i elements of V; the shape is unchanged; this holds on every axis.", "quantifier": "every F, every array", "why_tests_cant": "F is arbitrary", "anchors": ["apl/operators/reduce.go: scan, scanArray"]}
{"id": "C35", "title": "N-wise reduction reduces each window", "statement": "N F/V for 1<=N<=size is the vector of size-N+1 elements whose i-th element is F/ of the window of N elements starting at i; a negative N reverses each window; N larger than size+1 is an error.", "quantifier": "every F, every V and N", "why_tests_cant": "F arbitrary", "anchors": ["apl/operators/reduce.go: nwise"]}
{"id": "C36", "title": "Replicate and compress repeat each element in order", "statement": "L/R with one count per element gives each element of R repeated count times in order; a negative count inserts that many zeros; the length is the sum of absolute counts; a single count applies to all elements; for a boolean L the result is the subsequence selected by L.", "quantifier": "all count vectors and arrays, every axis", "why_tests_cant": "all counts", "anchors": ["apl/operators/reduce.go: Replicate, compress"]}
{"id": "C37", "title": "Expand inserts zeros", "statement": "L\\R for a boolean L with as many ones as R has elements on the axis gives an array that has R's elements in order at the ones and zeros elsewhere; a different number of ones is an error.", "quantifier": "all L and R", "why_tests_cant": "all lengths", "anchors": ["apl/operators/reduce.go: Expand"]}
{"id": "C38", "title": "Inner product", "statement": "L F.G R has the shape of L without its last and R without its first axis; every element is the right-to-left F-fold of the G-products of the row of L and the column of R; a length mismatch is an error.", "quantifier": "every F, G, all arrays", "why_tests_cant": "F, G arbitrary", "anchors": ["apl/operators/dot.go: inner"]}
{"id": "C39", "title": "Outer product", "statement": "L ∘.F R has the shape of L followed by the shape of R and the element at (I,J) is L[I] F R[J]; F is called once per pair in row-major order.", "quantifier": "every F, all arrays", "why_tests_cant": "F arbitrary", "anchors": ["apl/operators/dot.go: outer"]}
{"id": "C40", "title": "Each applies element-wise and keeps the shape", "statement": "F¨R has the shape of R with F applied to every element; L F¨R pairs equal-shaped arguments or extends a scalar; different shapes are an error.", "quantifier": "every F, all arrays", "why_tests_cant": "F arbitrary", "anchors": ["apl/operators/each.go"]}
{"id": "C41", "title": "Power iterates exactly n times", "statement": "(F⍣N)R applies F N times; (F⍣0)R is R; (F⍣M)(F⍣N)R is (F⍣(M+N))R; F⍣G stops at the first iterate at which G returns 1 for the new and the previous value; non-termination is cut off with an error after a fixed number of iterations.", "quantifier": "every F, G, N", "why_tests_cant": "F arbitrary", "anchors": ["apl/operators/power.go"]}
{"id": "C42", "title": "Commute and compose", "statement": "L F⍨R is R F L, F⍨R is R F R; F∘G R is F G R, L F∘G R is L F (G R), A∘F R is A F R, F∘B R is R F B.", "quantifier": "every F, G and argument", "why_tests_cant": "F arbitrary", "anchors": ["apl/operators/commute.go", "apl/operators/jot.go"]}
{"id": "C43", "title": "At replaces only the selected items", "statement": "F@I R gives R with the items at the index list I replaced by the result of F on those items (in the order of I); all other items stay.", "quantifier": "all index lists incl. unordered and duplicates", "why_tests_cant": "all index lists", "anchors": ["apl/operators/at.go"]}
{"id": "C44", "title": "Rank applies the function to each cell", "statement": "(F⍤k)R applies F once to each rank-k cell of R in order, also when k is the full rank (one application to R) and for frames of any rank; the results are assembled in frame order.", "quantifier": "every F, all arrays and k", "why_tests_cant": "F arbitrary", "anchors": ["apl/operators/rank.go: rank"]}
{"id": "C45", "title": "Scalar extension", "statement": "A scalar function applied between two arrays of equal shape acts element-wise; a scalar or one-element argument is extended to the other's shape; different shapes are an error; the result has the common shape.", "quantifier": "all element functions, all arrays", "why_tests_cant": "unbounded shapes", "anchors": ["apl/primitives/array.go: arrays, array2"]}
{"id": "C46", "title": "Axis form of scalar functions", "statement": "L F[X]R with a lower-rank L extends L along the axes of R not in X and applies F elementwise; the result has R's shape.", "quantifier": "all element functions, arrays and axis lists", "why_tests_cant": "unbounded", "anchors": ["apl/primitives/array.go: arrayAxis"]}
{"id": "C47", "title": "Integer arithmetic is exact or wraps at 64 bits", "statement": "+ - × on integers give the mathematical result whenever it fits in 64 bits, and its value modulo 2^64 otherwise; ÷ on integers stays an integer exactly when the division is exact and the divisor is non-zero, and is otherwise passed to the next number type.", "quantifier": "all pairs of 64-bit integers", "why_tests_cant": "2^128 pairs", "anchors": ["apl/int.go: Add2, Sub2, Mul2, Div2"]}
{"id": "C48", "title": "Factorial, binomial and gcd", "statement": "!N is the product 1..N for 0<=N<=20 and is passed to the next number type otherwise; K!N for non-negative K<=N<=20 is the binomial coefficient (Pascal's rule), 0 for K>N; gcd divides both arguments and is divisible by every common divisor; L∧R of integers is their least common multiple.", "quantifier": "all integers in range", "why_tests_cant": "all pairs", "anchors": ["apl/int.go: Gamma, Gamma2, Gcd"]}
{"id": "C49", "title": "Residue", "statement": "L|R on integers with L non-zero is the unique number with the same remainder class as R modulo L that lies between 0 and L (sign of L); 0|R is R.", "quantifier": "all integer pairs", "why_tests_cant": "all pairs", "anchors": ["apl/primitives/elementary.go: abs2"]}
{"id": "C50", "title": "Comparisons form a total order", "statement": "For numbers of one ordered type exactly one of <, =, > holds, ≤ is the negation of >, ≥ of <, ≠ of =; ⌊ and ⌈ return one of their arguments, the smaller and the larger one.", "quantifier": "all pairs of ordered numbers", "why_tests_cant": "all pairs", "anchors": ["apl/primitives/compare.go", "apl/primitives/elementary.go: min2, max2"]}
{"id": "C51", "title": "Number types are unified upwards", "statement": "Combining two numbers first converts the one of the lower class step by step to the class of the higher one; the higher one is unchanged; the result does not depend on the order of the two arguments; unknown types or a failing conversion are errors.", "quantifier": "every tower of contiguous classes, every pair of numbers", "why_tests_cant": "towers are pluggable", "anchors": ["apl/tower.go: SetTower, SameType", "apl/primitives/elementary.go: arith2"]}
{"id": "C52", "title": "Only 0 and 1 are truth values", "statement": "A number is accepted as a truth value exactly if it converts to the index 0 or 1; everything else is rejected.", "quantifier": "all numbers", "why_tests_cant": "all numbers", "anchors": ["apl/tower.go: ToBool, IsZero"]}
{"id": "C53", "title": "Compact arrays hold the same data", "statement": "Converting an array to a compact uniform representation never changes its shape or its elements when no uptyping is requested, and reports failure leaving the array as it was when the elements have different types.", "quantifier": "all arrays", "why_tests_cant": "all arrays", "anchors": ["apl/uniform.go: Unify"]}
{"id": "C54", "title": "Encode and decode are inverse", "statement": "For a radix vector of positive integers and 0<=N<product, L⊥L⊤N is N; L⊤ gives digits with 0<=digit<radix; L⊥V is the positional value of V.", "quantifier": "all positive radix vectors, all N", "why_tests_cant": "unbounded", "anchors": ["apl/primitives/decode.go: encode, decode"]}
{"id": "C55", "title": "Dictionaries keep keys in insertion order without duplicates", "statement": "A dictionary built by any sequence of key assignments lists every key once in the order of first assignment and returns for each key the value assigned last.", "quantifier": "all histories of assignments", "why_tests_cant": "all histories", "anchors": ["apl/object.go: Dict.Set, Dict.At, Dict.Keys", "apl/primitives/dict.go"]}
{"id": "C56", "title": "Lists: get after set", "statement": "After assigning to a deep index of a list, reading that index gives the assigned value and every other (non-overlapping) index is unchanged; an index outside the list or too deep is an error and changes nothing.", "quantifier": "all nested lists and index paths", "why_tests_cant": "depth unbounded", "anchors": ["apl/list.go: GetDeep, SetDeep, getset, Depth"]}
{"id": "C57", "title": "Cut splits a list", "statement": "I↓L with increasing indexes I splits the list L into consecutive pieces beginning at these indexes; joined they give the list from the first index on.", "quantifier": "all lists and index vectors", "why_tests_cant": "all", "anchors": ["apl/primitives/take.go: cut"]}
{"id": "C58", "title": "Tables and dictionaries convert into each other", "statement": "⍉ of a dictionary with equal-length columns is a table with the same keys and that number of rows; ⍉ of the table gives back an equal dictionary; unequal column lengths are an error.", "quantifier": "all dictionaries", "why_tests_cant": "all", "anchors": ["apl/primitives/transpose.go: transposeObject, transposeTable"]}
{"id": "C59", "title": "Evaluation is right to left", "statement": "In L F R the right argument is evaluated before the left one, before F is applied; an error in the right argument prevents evaluation of the left.", "quantifier": "all expressions", "why_tests_cant": "all expressions and side effects", "anchors": ["apl/function.go: function.Eval"]}
{"id": "C60", "title": "Handlers are tried from the last registered", "statement": "A primitive call runs the most recently registered handler whose domain accepts the arguments, and reports an error if none does; a handler rejecting the arguments does not influence what later handlers see.", "quantifier": "all registration histories and arguments", "why_tests_cant": "all histories", "anchors": ["apl/function.go: Primitive.Call", "apl/register.go: RegisterPrimitive", "apl/domain/domain.go", "apl/domain.go: Domain"]}
{"id": "C61", "title": "Variables: lookup returns the latest assignment", "statement": "After X←V the variable X has value V until it is assigned again; other variables are unaffected; a name that was never assigned is not found.", "quantifier": "all histories of assignments and lookups", "why_tests_cant": "all histories", "anchors": ["apl/var.go: AssignEnv, LookupEnv"]}
{"id": "C62", "title": "Lambda locals do not leak", "statement": "Calling a lambda adds no variable to the caller's environments; a call that executes no modified (X f←V) or indexed (X[I]←V) assignment leaves the values of the caller's variables unchanged as well; the caller's environment is restored also when the body fails.", "quantifier": "all lambda bodies, success or failure", "why_tests_cant": "all bodies", "anchors": ["apl/lambda.go: lambda.Call", "apl/function.go: EnvCall"]}
{"id": "C63", "title": "Guards select the first true branch", "statement": "In a lambda body c1:e1 ⋄ c2:e2 ⋄ e3 the value is that of the first e whose condition is 1, conditions after it are not evaluated, and a condition that is not 0 or 1 is an error; assignments, with or without a condition, are executed on the way and do not end the body. (Branches that are a call of ∇ are the subject of C64.)", "quantifier": "all guard lists", "why_tests_cant": "all bodies", "anchors": ["apl/lambda.go: guardList.Eval, guardExpr.Eval"]}
{"id": "C64", "title": "Tail calls behave like calls", "statement": "A recursive call in tail position gives the same result as an ordinary recursive call.", "quantifier": "all lambdas with tail calls, all arguments", "why_tests_cant": "recursion depth unbounded", "anchors": ["apl/lambda.go: lambda.Call, tail"]}
{"id": "C65", "title": "Trains", "statement": "(f g h)R is (f R)g(h R), L(f g h)R is (L f R)g(L h R), (f g)R is f(g R), L(f g)R is f(L g R), and longer trains group from the right.", "quantifier": "all trains of any length and all functions", "why_tests_cant": "train length unbounded", "anchors": ["apl/train.go"]}
{"id": "C66", "title": "Packages load atomically", "statement": "Loading a package leaves the interpreter's current variables untouched whether it succeeds or fails, and the package becomes visible only on success, with the variables that its file has assigned; other packages are unchanged.", "quantifier": "all package files, all failure points", "why_tests_cant": "all failure points", "anchors": ["apl/apl.go: LoadPkg"]}
{"id": "C67", "title": "Quoted strings round-trip", "statement": "A string without line breaks written in single quotes with embedded quotes doubled is read back exactly; an unterminated string is an error.", "quantifier": "all strings", "why_tests_cant": "all strings", "anchors": ["apl/scan/scan.go: ReadString"]}
{"id": "C68", "title": "Multi-line input is complete exactly when braces balance", "statement": "Adding a line with tokens to the line buffer reports completion exactly when all opened braces are closed, a line without tokens is ignored; a surplus closing brace is an error and resets the buffer; lines are joined with a statement separator except after an opening brace.", "quantifier": "all line sequences", "why_tests_cant": "all histories", "anchors": ["apl/multiline.go"]}
{"id": "C69", "title": "Bracket structure is validated", "statement": "Parsing a statement succeeds only if (), [] and {} are properly nested.", "quantifier": "all token sequences", "why_tests_cant": "all", "anchors": ["apl/parse.go"]}
{"id": "C70", "title": "Sending a list over a channel delivers it in order", "statement": "SendAll delivers all values in order exactly once and then closes the output; if the consumer closes the channel earlier, the sender stops and no further value is delivered.", "quantifier": "all value lists, all schedules, all close times", "why_tests_cant": "all interleavings", "anchors": ["apl/channel.go: SendAll, Close"]}
{"id": "C71", "title": "Applying a function to a channel maps the stream", "statement": "F applied to a channel yields the stream of F applied to every value in order; closing the result closes the source.", "quantifier": "all streams, F, schedules", "why_tests_cant": "all interleavings", "anchors": ["apl/channel.go: Apply"]}
{"id": "C72", "title": "Closing a channel terminates its producer", "statement": "For every built-in producer (repeat source, line reader, copy, reshape), closing the channel makes the producer stop after finitely many steps, without sending more values.", "quantifier": "all schedules and close points", "why_tests_cant": "all interleavings", "anchors": ["apl/channel.go: LineReader, Close", "apl/primitives/channel.go", "apl/primitives/rho.go: rhoChannel"]}
{"id": "C73", "title": "Channel text readers concatenate", "statement": "Reading a channel of strings as text yields the strings joined by newlines (ChannelReader) respectively all runes in order (RuneScanner), independent of the read buffer sizes.", "quantifier": "all streams, all read sizes", "why_tests_cant": "all chunkings", "anchors": ["apl/channel.go: ChannelReader.Read, RuneScanner"]}
{"id": "C74", "title": "Reshaping a channel chunks the stream", "statement": "S⍴C emits arrays of shape S filled with consecutive scalars of the stream in order; no value is lost or duplicated among complete chunks.", "quantifier": "all streams and shapes, all schedules", "why_tests_cant": "all interleavings", "anchors": ["apl/primitives/rho.go: rhoChannel"]}
{"id": "C75", "title": "Equality of elements is an equivalence", "statement": "The equality that decides membership, index-of, unique, without and match is reflexive, symmetric and transitive on numbers and agrees with equality of values.", "quantifier": "all pairs and triples of numbers of the tower", "why_tests_cant": "triples of mixed types, values near the precision limit", "anchors": ["apl/primitives/iota.go: isEqual", "apl/tower.go: SameType"]}
{"id": "C76", "title": "Assignment through a predicate changes exactly the elements that satisfy it", "statement": "A[f]←X calls f once per element in row-major order with the element's index and the element, and replaces exactly the elements for which f answers 1, provided f always answers a boolean number; another answer is an error.", "quantifier": "all arrays, predicates, values, both origins", "why_tests_cant": "all arrays and predicates", "anchors": ["apl/primitives/index.go: funcArrayIndex", "apl/operators/assign.go: assignValue"]}
{"id": "C77", "title": "Selective assignment: put then get", "statement": "After (F A)←X for F one of reverse, rotate, transpose, take, drop and ravel and X of the shape of F A, evaluating F A gives X, and the elements of A that F does not select are unchanged; a take beyond an axis is an error that changes nothing.", "quantifier": "all arrays, all shapes, all arguments of F", "why_tests_cant": "unbounded", "anchors": ["apl/primitives/selection.go: selection", "apl/primitives/take.go: takeDropSelection", "apl/primitives/comma.go: ravelSelection", "apl/operators/assign.go: assignValue"]}
{"id": "C78", "title": "A failed indexed assignment leaves the variable as it was", "statement": "A plain indexed assignment A[..]←X either succeeds, or reports an error and leaves A unchanged; it never panics.", "quantifier": "all arrays, index specifications, values", "why_tests_cant": "all failing inputs", "anchors": ["apl/operators/assign.go: assignScalar, assignValue"]}
{"id": "C79", "title": "Depth of a list", "statement": "≡L is the greatest number of lists nested in each other; it is 1 for other arrays and 0 for scalars.", "quantifier": "all nested lists of any depth", "why_tests_cant": "unbounded nesting", "anchors": ["apl/list.go: Depth", "apl/primitives/match.go: depth"]}
{"id": "C80", "title": "List catenation joins element sequences", "statement": "L,R where at least one argument is a list is the list of the elements of L followed by those of R (a simple value counts as one element); it is associative, cutting it at the length of L gives R back, and ∊ distributes over it.", "quantifier": "all lists and values", "why_tests_cant": "all lengths and nestings", "anchors": ["apl/primitives/comma.go: catenateLists, enlist", "apl/primitives/take.go: cut"]}
{"id": "C81", "title": "Each on lists visits the elements in order", "statement": "F¨L calls F once per element from first to last and lists the results, L F¨R pairs lists of equal length; the first failure ends it, lists of unequal length are an error.", "quantifier": "all lists, all functions with side effects", "why_tests_cant": "all functions, effects and failures", "anchors": ["apl/operators/each.go: eachList, eachList2"]}
{"id": "C82", "title": "Creating a dictionary from keys and values", "statement": "K#V with a vector K of distinct keys makes the dictionary whose keys are K in this order and where each key has the value of V at its position (a scalar V is the value of all keys); K and V of different lengths are an error; D[K] with a vector of keys is the dictionary of these keys, a missing key is an error.", "quantifier": "all dictionaries, all vectors of keys", "why_tests_cant": "all lengths, keys and values", "anchors": ["apl/primitives/dict.go: dict", "apl/primitives/index.go: objIndex"]}
{"id": "C83", "title": "Nested dictionaries are addressed by a path of keys", "statement": "D[k1;k2;..] is the value found by following the keys one after the other; D[k1;k2;..]←v changes the value at this path only, keeps all key orders, and a path with a missing key is an error that leaves D as it was.", "quantifier": "all nested dictionaries, all paths of any length", "why_tests_cant": "unbounded nesting", "anchors": ["apl/primitives/index.go: objDepthIndex, objDepthSelection", "apl/operators/assign.go: assignObjectDepth"]}
{"id": "C84", "title": "Scalar functions on dictionaries work by key", "statement": "F D applies F to every value and keeps the keys and their order; D F E has the keys of D followed by the new ones of E, with F of both values for common keys and F of the value and the neutral value else; X F D and D F X combine X with every value. If one value fails there is no result.", "quantifier": "all dictionaries and all functions", "why_tests_cant": "all key sets, overlaps and functions", "anchors": ["apl/primitives/table.go: table1, tableBoth, tableAny"]}
{"id": "C85", "title": "Catenation of dictionaries", "statement": "D⍪E has the entries of D and E where E wins for common keys; D,E catenates the values of common keys; in both cases the keys of D come first, followed by the new keys of E in order.", "quantifier": "all pairs of dictionaries", "why_tests_cant": "all key sets and overlaps", "anchors": ["apl/primitives/table.go: catenateTwoTables"]}
{"id": "C86", "title": "Tack reductions pick the ends of the last axis", "statement": "⊣/A and ⊢/A drop the last axis and keep the first and the last element along it; for a vector this is a scalar, a scalar is unchanged.", "quantifier": "all arrays of all ranks", "why_tests_cant": "all shapes", "anchors": ["apl/operators/reduce.go: reduceTack"]}
{"id": "C87", "title": "Negation, magnitude and sign of integers", "statement": "-N, |N and ×N are the exact negative, magnitude and sign of every 64 bit integer N except for - and | of the smallest one, which give it back; (×N)×|N is always N.", "quantifier": "all 64 bit integers, all towers", "why_tests_cant": "all 64 bit values", "anchors": ["apl/int.go: Sub, Abs, Mul", "apl/primitives/elementary.go: sub, abs, mul"]}
{"id": "C88", "title": "Spacing and comments do not change the meaning of a line", "statement": "Writing the same words with any number of blanks, tabs or carriage returns between them, and with or without a trailing comment, gives the same tokens.", "quantifier": "all lines, all words, all spacings", "why_tests_cant": "The spacing between words is unbounded and interacts with every kind of word.", "anchors": ["apl/scan/scan.go: nextToken"]}
{"id": "C89", "title": "A line is read completely and in exactly one way", "statement": "Scanning a line succeeds exactly if the line is a sequence of words, each as long as possible, with blanks between them and an optional comment; nothing else of the line is skipped; scanning always ends.", "quantifier": "all lines", "why_tests_cant": "All lines and all sets of registered symbols.", "anchors": ["apl/scan/scan.go: Scan, nextToken"]}
{"id": "C90", "title": "Statements are read right to left with long-left-scope operators", "statement": "A program is split at diamonds outside of braces, and each statement is parsed to the expression that the documented grammar assigns to it: adjacent numbers, strings and variables form one array; operators bind to everything to their left within a word and dyadic operators take one operand from the right; a function applies to everything on its right; a sequence of functions without an argument on the right is a train (or a fork with a leading array); brackets index the noun or set the axis of the function before them; braces form lambdas from guarded expressions. The grammar gives at most one meaning to a program. The words the parser is known to read differently (three consecutive monadic operators, an operator directly following a word that ends in a monadic operator with another operator, a parenthesised train at the right end) are excluded.", "quantifier": "every token sequence generated by the grammar, at any depth and length, for every set of registered primitives and operators", "why_tests_cant": "the parser is a shift-reduce loop with special cases; tests show single sentences but not that the tree is right for all of them", "anchors": ["apl/parse.go: parse, nextStatement, parseStatement, reduce, resolveArrays, resolveOperators, resolveBrackets, collectArray, subStatement, parseList, parseBrackets, parseLambda, guardExpr, splitTokens"]}
{"id": "C91", "title": "Channel results do not depend on the schedule", "statement": "A channel expression built from sends, repeats, files, each, zips, scopes and reshapes, followed by any sequence of operations on its channel (take, take n, print, close, reduce, scan), returns the same values under every interleaving of its goroutines and every choice among ready select cases; no goroutine panics and no schedule runs for ever.", "quantifier": "all channel expressions, all operation sequences that close at most once, all schedules and select choices", "why_tests_cant": "the Go scheduler and select choose among many interleavings; a test observes one of them", "anchors": ["apl/channel.go: Apply, SendAll, Scope, LineReader", "apl/primitives/channel.go", "apl/primitives/take.go: takeChannel1, takeChannel2, closeChannel", "apl/primitives/rho.go: rhoChannel", "apl/operators/reduce.go: reduceChannel, scanChannel", "apl/operators/each.go"]}
{"id": "C92", "title": "Zipping two channels pairs their values in order", "statement": "C f¨ D delivers f applied to the i-th value of C and the i-th value of D, for every i for which D has a value; when D is exhausted the result channel ends, and the goroutines of both sides end when f never fails.", "quantifier": "all pairs of channel expressions, all functions, all schedules", "why_tests_cant": "depends on the interleaving of three or more goroutines and on stream lengths", "anchors": ["apl/channel.go: Apply", "apl/operators/each.go"]}
{"id": "C93", "title": "Reducing and scanning a channel", "statement": "f/C returns the left fold of f over all values delivered by C, f\\C the list of the folds of all prefixes, whatever the schedule; both close the channel and leave no goroutine behind.", "quantifier": "all functions, all channel expressions, all schedules", "why_tests_cant": "depends on stream length and interleaving", "anchors": ["apl/operators/reduce.go: reduceChannel, scanChannel"]}
{"id": "C94", "title": "No value contains itself", "statement": "Whatever is assigned, in whole or in parts, no array, list or dictionary comes to contain itself: every value can be printed, compared and copied in finite time.", "quantifier": "all histories of assignments, modified assignments and function calls", "why_tests_cant": "all histories", "anchors": ["apl/operators/assign.go: assign, modAssign, assignList, assignObject", "apl/list.go: Copy, SetDeep", "apl/object.go: Copy"]}
{"id": "C95", "title": "Operands keep the value they were evaluated to", "statement": "Once an operand of an expression has been evaluated, evaluating the rest of the expression does not change it, whatever the rest assigns.", "quantifier": "all values and all assignments that are made before the operand is used", "why_tests_cant": "all histories", "anchors": ["apl/var.go: numVar.Eval", "apl/operators/assign.go: assign"]}
{"id": "C96", "title": "The first letter of a name decides what it holds, and names are kept apart", "statement": "A name whose first letter is upper case can be assigned values only, any other name functions only; an assignment of the other kind fails and changes nothing. Different spellings are different variables: assigning one never changes what another spelling reads. A name with an arrow refers to the variable of that name in that package.", "quantifier": "all names, values and environments", "why_tests_cant": "there are infinitely many names, and the interaction of two of them", "anchors": ["apl/var.go: isVarname, AssignEnv, LookupEnv", "apl/scan/scan.go: AllowedInVarname"]}
{"id": "C97", "title": "The statements of a program run in order", "statement": "The statements of a program are evaluated one after the other, each in the state left by the one before; the value of every statement that is not an assignment is printed, in order; evaluation stops at the first statement that fails, keeping the effects of the earlier ones; an evaluation never panics; and running two programs one after the other is the same as running their concatenation.", "quantifier": "all programs and states", "why_tests_cant": "unbounded sequences of statements with arbitrary effects", "anchors": ["apl/eval.go: Eval"]}
{"id": "C98", "title": "The index origin and the print variable", "statement": "⎕IO←n sets the index origin that is used from then on if n is a single whole number 0 or 1 and fails without a change otherwise; ⎕IO reads it back. ⎕←x prints x after all that was printed before and changes no variable.", "quantifier": "all values and states", "why_tests_cant": "needs every value on the right and every state", "anchors": ["apl/var.go: AssignEnv, LookupEnv"]}
{"id": "C99", "title": "Assignment to several variables", "statement": "(A B C)←e evaluates e once and assigns the i-th element of its value to the i-th name; a single value is assigned to all of the names; a value with another number of elements than there are names is an error.", "quantifier": "all lists of names, all values and states", "why_tests_cant": "unbounded number of names", "anchors": ["apl/operators/assign.go: assignVector"]}
{"id": "C100", "title": "Printing a channel shows every value once and in order", "statement": "⎕←C is a channel that delivers the values of C; every value is printed when it arrives and before it is passed on. At every moment, under every schedule, what has been printed is a beginning of the values of C in their order; when the printing has ended and the channel was not closed early, all of them have been printed and passed on.", "quantifier": "all channel expressions, all operations on the result, all schedules", "why_tests_cant": "depends on the interleaving of the sender, the printer and the reader", "anchors": ["apl/channel.go: Scope", "apl/var.go: AssignEnv"]}
{"id": "C101", "title": "Assignment in place has the meaning of assignment of values", "statement": "A program of assignments (K←X, K[..]←X, K[..]f←X, new dictionary keys) leaves every variable with the value that is computed with values alone, without references: the indexed elements of an array (upgraded to mixed values if needed), the element at a path of a list, the entries of a dictionary are replaced and everything else is unchanged; an assignment that has no meaning (index out of range, wrong number of values) fails. X must not be (part of) the variable that is assigned to.", "quantifier": "every program of assignments, every value (nested arrays, lists, dictionaries), every index path, every modifying function that computes its result in new cells", "why_tests_cant": "The implementation updates Go slices, maps and pointers in place and copies in some places only; tests look at a few values, not at all nestings and histories.", "anchors": ["apl/operators/assign.go: assignScalar, assignValue, modAssign, assignArray, assignObject, assignObjectDepth, assignList", "apl/list.go: GetDeep, SetDeep", "apl/object.go: Set", "apl/array.go: Set, Copy"]}
{"id": "C102", "title": "Indexing a table selects rows and columns", "statement": "T[R], T[R;C] for a table T: R is a row number (from ⎕IO), numbers, a function over the columns that gives booleans, or column names; C is a key or keys. If an index is an array or a function, the result is a table whose row i is the i-th selected row of T, in the selected columns; one row and one column give the value, one column gives the vector, one row gives a dictionary. A row or a column that does not exist is an error.", "quantifier": "all proper tables, row and column indexes", "why_tests_cant": "quantifies over all tables, keys and index vectors", "anchors": ["apl/primitives/index.go: tableSelection, tableIndex"]}
{"id": "C103", "title": "A table as an array", "statement": "T[] is the matrix with a row for every row of the table and a column for every key, in order; numbers of different types are raised to one type.", "quantifier": "all proper tables", "why_tests_cant": "all sizes and types", "anchors": ["apl/primitives/table.go: table2array"]}
{"id": "C104", "title": "Assignment to the cells of a table", "statement": "T[R;C]←X and T[R;C]f←X with a scalar, a dictionary of scalars, a table or an array X change exactly the selected cells: the table keeps its keys and its number of rows, other columns and rows are unchanged, a row that is selected twice keeps the last value. Values of the type of the column are stored unchanged; otherwise the numbers of the column are raised to one type. With f, the new values are those of f applied to the selected part of the column and the values of X.", "quantifier": "all proper tables, indexes, right arguments and functions f", "why_tests_cant": "all tables, index vectors and types", "anchors": ["apl/operators/assign.go: assignTable"]}
{"id": "C105", "title": "An assignment to a table that fails leaves it unchanged", "statement": "If T[R;C]←X fails, the table is as before.", "quantifier": "all tables, indexes, right arguments", "why_tests_cant": "all failure points in the loop over the columns", "anchors": ["apl/operators/assign.go: assignTable"]}
{"id": "C106", "title": "Catenation of tables", "statement": "T⍪U for tables with the same keys (in any order) and column types has the rows of T followed by those of U; different keys are an error. T,U for tables with the same number of rows has the columns of both, those of U if a key occurs in both. T,X and X,T with a scalar or vector X add its values to every column.", "quantifier": "all proper tables", "why_tests_cant": "all tables and key orders", "anchors": ["apl/primitives/table.go: catenateTables, catenateTwoTables"]}
{"id": "C107", "title": "The catenation of tables is a proper table", "statement": "If the catenation of two tables succeeds, every column of the result is a compact vector with as many values as the table has rows.", "quantifier": "all pairs of proper tables", "why_tests_cant": "all pairs of tables", "anchors": ["apl/primitives/table.go: catenateTwoTables, dict2table"]}
{"id": "C108", "title": "Queries group and aggregate", "statement": "T[;;F;G] groups the rows by the values of the column G, in the order of their first occurrence, and applies each function of F, for each group, to the values of its column in the rows of the group, in order. The results follow each other in the column named by F (or by the column); the column G has the value of the group for each of them. Without G the functions are applied to the whole columns. A group that does not exist and numbers of functions and columns that do not match are errors.", "quantifier": "all proper tables, groups and functions", "why_tests_cant": "all tables, groupings and functions", "anchors": ["apl/primitives/table.go: tableQuery"]}
{"id": "C109", "title": "The rows of a query belong to their group", "statement": "In the result of T[;;F;G], each row holds the value of one group and results of the functions for this group.", "quantifier": "all proper tables, groups and functions", "why_tests_cant": "all tables and functions", "anchors": ["apl/primitives/table.go: tableQuery"]}
{"id": "C110", "title": "Joining and splitting strings", "statement": "S⊂V is the strings of V with S in between, and ⊂V their catenation, for an array of strings of any shape; another element is an error. S⊃R, S not empty, is the parts of R between the occurrences of S, searched from the left without overlap. S⊂S⊃R is R; S⊃S⊂V is V exactly if S occurs in no string of V and not across the end of one; for a single character S: if it is in no string of V.", "quantifier": "all byte strings, separators and vectors of strings", "why_tests_cant": "all strings and separators; overlaps of the separator with the parts", "anchors": ["apl/primitives/enclose.go: strcat, strjoin, strsplit, strvec"]}
{"id": "C111", "title": "Runes and words of a string", "statement": "⊃S is the vector of the runes of S, and ⊂⊃S is S exactly if S is valid UTF-8. \"\"⊃S is the vector of the words of S: the longest runs of runes that are not spaces, in order.", "quantifier": "all strings", "why_tests_cant": "all sequences of runes and of bytes, valid and invalid", "anchors": ["apl/primitives/enclose.go: runesplit, strsplit"]}
{"id": "C112", "title": "The text of an array is read back as the array", "statement": "Formatting an array with the print precisions ¯2 (JSON), ¯1 (table) or ¯3 (matrix) and reading the text with the array parser gives an array with the same shape and the same elements, for every array whose elements are numbers or strings.", "quantifier": "every non-empty array of any rank and shape, every alignment of the columns, integers in the 64 bit range, booleans, strings, and any other number whose text is read back by the tower", "why_tests_cant": "the ranks, shapes, elements and alignments are unbounded; the shape is reconstructed from runs of closing runes, which depends on every axis", "anchors": ["apl/fmt.go: ArrayString, jsonArray, matArray, ParseArray, ScanRankArray", "apl/int.go: String, ParseInt", "apl/bool.go: String", "apl/string.go: String", "apl/tower.go: Parse"]}
{"id": "C113", "title": "Reading text by cells of a rank", "statement": "<⍤k C on a channel that delivers the text of an array sends the k-cells of the array in order, each with its shape, and ends; for k=0 it sends the elements.", "quantifier": "every non-empty array, every k from 0 to its rank, the table and the JSON text", "why_tests_cant": "the number of axes and cells is unbounded and the shape of a cell is found from the text that has been read so far", "anchors": ["apl/fmt.go: ScanRankArray", "apl/operators/rank.go: sendParseSubArray"]}
{"id": "C114", "title": "⌹ solves linear systems and inverts matrices", "statement": "For a square matrix R with exact numbers, L⌹R is the only X with R+.×X equal to L, for a vector or a matrix L; it is an error exactly if the columns of R are dependent; ⌹R is the inverse on both sides; other shapes are rejected, and for a single number R, L⌹R is L÷R.", "quantifier": "every size n, every matrix over any exact field (the rational tower is an instance), every right hand side with any number of columns, every choice of pivots that the absolute values determine", "why_tests_cant": "the sizes and numbers are unbounded; the result depends on the row exchanges of every elimination step", "anchors": ["apl/primitives/domino.go: domino, domino2, lu, luSolve"]}
{"id": "C115", "title": "⌹ of a tall matrix is the least squares solution", "statement": "If R has more rows than columns, L⌹R solves the normal equations; for real exact numbers it minimizes the sum of the squares of (R+.×X)-L over all X, for every column of L, and it is an error exactly if the columns of R are dependent.", "quantifier": "all matrices with more rows than columns over an exact (ordered) field, all left arguments, all competing vectors", "why_tests_cant": "the minimum is over all vectors; sizes are unbounded", "anchors": ["apl/primitives/domino.go: domino2"]}
{"id": "C116", "title": "A name is opened in the most recently mounted matching file system", "statement": "After any sequence of mounts and unmounts, opening a name hands it to the file system of the most recent mount that is still there and whose mount point the name starts with, with the mount point cut off (so a later mount on / hides an earlier longer mount point); it is an error exactly if there is none. Creating a file chooses the same file system and rest of the name, and is an error if that file system is read only.", "quantifier": "all histories of Mount and Umount calls, all names", "why_tests_cant": "an unbounded history of calls with arbitrary, overlapping, repeated and rejected mount points", "anchors": ["apl/io/fs.go:Open", "apl/io/fs.go:Create", "apl/io/fs.go:lookup"]}
{"id": "C117", "title": "Mount and Umount keep an exact table", "statement": "A mount succeeds exactly if the mount point starts and ends with a slash and is not in use; a failed mount changes nothing. After an unmount everything is as if the mount point had never been used, in particular what it had hidden is visible again. The list given by io→mount has each live mount once, in the order of mounting, with its file system.", "quantifier": "all histories of Mount and Umount calls", "why_tests_cant": "a statement about every history, including repeated, failed and unknown mount points", "anchors": ["apl/io/fs.go:Mount", "apl/io/fs.go:Umount", "apl/io/mount.go:mount"]}
{"id": "C118", "title": "Files of variables and of the environment can be read back after writing", "statement": "Writing to the file of a variable is possible exactly if the variable holds a string (and is not in a package), and writing to an environment variable exactly if the os accepts name and value. After the writer is closed, opening the same name gives the bytes that were written, in whatever pieces, and no other variable or environment entry has changed.", "quantifier": "all mount tables, scopes, variables, names, contents and divisions of the content into writes", "why_tests_cant": "arbitrary contents, chunkings, scopes and shadowed names", "anchors": ["apl/io/var.go:Write", "apl/io/var.go:Close", "apl/io/var.go:Open", "apl/io/env.go:Write", "apl/io/env.go:Close", "apl/io/env.go:Open"]}
{"id": "C119", "title": "A directory listing gives names that can be opened", "statement": "Opening a directory of an os file system (the root of the mount or a name that ends with a slash) gives one full name for each entry, with a slash after directories. Opening such a name gives this file's content or this directory's listing, unless another file system is mounted over it.", "quantifier": "all trees of files, mount tables, directories and entries", "why_tests_cant": "arbitrary directory trees, mount roots and relative paths with dots", "anchors": ["apl/io/fs.go:fs.Open", "apl/io/fs.go:fs.path"]}
{"id": "C120", "title": "Times and durations add and subtract exactly", "statement": "A time stamp plus a duration is the stamp that much later, the difference of two stamps is the duration between them, subtracting what was added gives the stamp back, and adding the difference of two stamps to the earlier one gives the later one. Durations add, subtract, negate and have absolute value and sign like the integers they are. Two stamps cannot be added, a stamp cannot be negated or subtracted from a duration. The order of times is that of the nanoseconds.", "quantifier": "all time stamps after the year 1000 and all durations of nanoseconds", "why_tests_cant": "all pairs of 64 bit nanosecond counts; saturation at 292 years and the boundary between stamps and durations", "anchors": ["apl/numbers/time.go:Time.Add2", "apl/numbers/time.go:Time.Sub2", "apl/numbers/time.go:Time.Sub", "apl/numbers/time.go:Time.Less", "apl/numbers/time.go:Time.Abs"]}
{"id": "C121", "title": "Rounding a time stamp gives the start of its period", "statement": "Rounding a time stamp down to the year, quarter, month, ISO week, day, hour, minute or second gives the latest start of such a period in the Gregorian calendar that is not after it; ⌊ gives the start of its second, and ⌈ the end of it.", "quantifier": "all time stamps after the year 1000 and all calendars periods", "why_tests_cant": "every instant of an unbounded calendar, leap years and weeks that cross years", "anchors": ["apl/numbers/time.go:Time.Round", "apl/numbers/time.go:roundQuarter", "apl/numbers/time.go:roundWeek", "apl/numbers/time.go:Time.Floor", "apl/numbers/time.go:Time.Ceil"]}
{"id": "C122", "title": "Rounding a duration gives the nearest multiple", "statement": "Rounding a duration to hours, minutes, seconds, milli-, micro- or nanoseconds gives the nearest multiple of the unit, with half a unit rounded away from zero; a duration cannot be rounded to calendar periods, and a stamp not to fractions of a second.", "quantifier": "all durations up to one unit from the 64 bit limit and all units", "why_tests_cant": "all 64 bit nanosecond counts", "anchors": ["apl/numbers/time.go:roundDuration", "apl/numbers/time.go:Time.Round"]}
{"id": "C123", "title": "Stencil applies its function to the window around each element", "statement": "f⌺w of an array calls f once for each element in row-major order, with the window of the axes w centered at the element as right argument, where cells outside of the array are zero, and the number of these fill elements on each axis as the left argument; the scalar results form an array of the same shape, and the first error ends it. The second row of w is the movement of the window.", "quantifier": "all arrays, window shapes, functions with side effects and errors", "why_tests_cant": "arbitrary rank, window sizes larger than the array and functions with effects", "anchors": ["apl/operators/stencil.go:stencil"]}
{"id": "C124", "title": "Deal and roll stay in range and deal never repeats", "statement": "L?R gives L distinct numbers of ⍳R, any such selection in any order is possible, and it is an error if L is not positive or exceeds R; ?R gives for each positive whole number n of R one of ⍳n in the same shape, and for 0 a number of the uniform generator.", "quantifier": "all L and R, all permutations and random numbers of the generator, both index origins", "why_tests_cant": "all outcomes of a random generator and all sizes", "anchors": ["apl/primitives/query.go:deal", "apl/primitives/query.go:roll", "apl/primitives/query.go:rollNumber"]}
{"id": "C125", "title": "Running a file", "statement": "Running a file evaluates its statements one after the other, from the first line to the last: blank lines are skipped, a statement with open braces goes on until the line that closes them, and the first error (of the scanner, of the parser, of the evaluation, of a brace that is closed but not opened, or of braces that are still open at the end) stops the file with the number of its line, keeping the effects of the statements before it. The line ends may be newlines or carriage returns with newlines. A file that follows another one starts in the state the first one left, and several files given on the command line are run one after the other.", "quantifier": "for every list of lines, every scanner and parser table, every evaluation function that recovers from panics, every state; for every text whose lines fit the line buffer", "why_tests_cant": "every sequence of lines with every interleaving of open braces, blank lines and failing statements; no finite set of files covers it", "anchors": ["apl/eval.go: EvalFile", "apl/multiline.go: LineBuffer.Add, Parse", "cmd/apl.go: Apl"]}
{"id": "C126", "title": "An interactive session survives every error", "statement": "In the interactive loop each line is read, parsed and evaluated on its own: an error is reported and the session goes on in the state reached by then; a line that cannot be read or parsed changes nothing, neither the state nor the lines before or after it. Lines that are complete on their own have the same effect typed one by one as in a file, as long as there is no error.", "quantifier": "for every sequence of lines, every parser table, every evaluation function and state", "why_tests_cant": "the claim is about all sessions, of any length, with errors anywhere", "anchors": ["cmd/apl.go: Apl", "apl/apl.go: ParseAndEval"]}
{"id": "C127", "title": "An image shows the pixels it is made of", "statement": "`img⌶A turns a matrix of 24 bit colours into an image of the same height and width; turning the image back into numbers (which is what any primitive does with an image) gives the same matrix. An array whose rank is not 2 is an error. The fourth byte of a colour is its transparency.", "quantifier": "for every matrix of integers of any height and width, every pixel and every four bytes of a colour", "why_tests_cant": "the round trip must hold for every shape and every one of 2^32 colours in every pixel", "anchors": ["apl/image.go: Image, ImageValue", "apl/domain/image.go", "apl/primitives/type.go"]}
{"id": "C128", "title": "Pixels can be written and read one by one", "statement": "Assigning a colour to the pixel in row i and column j of an image changes this pixel and no other; reading the pixel in row i and column j returns its colour.", "quantifier": "for every image, every row and column and every colour", "why_tests_cant": "row and column arithmetic must be right for all widths and heights, in particular those which are not square", "anchors": ["apl/image.go: Image.At, Image.Set"]}
{"id": "C129", "title": "APL values and Go values round trip", "statement": "A value that is exported to a Go type and converted back is the same value, and a Go value that is converted to APL and exported to its own type is the same Go value: booleans, integers, floats, complex numbers, strings and slices nested to any depth. A value that does not fit the Go type is an error.", "quantifier": "for every Go type built of the scalars and slices, every Go value of the type and every APL value", "why_tests_cant": "the types nest to any depth, a finite list of types says nothing about the others", "anchors": ["apl/xgo/convert.go: export, Convert, exporter"]}
{"id": "C130", "title": "Calling a Go function from APL", "statement": "A Go function is called with the exported values: none of the value for a function without arguments, the right argument for a function of one argument, with the elements of a vector for a function of more, or with the right and the left argument. A wrong number of arguments is an error and the function is not called. Its results are converted back, many results form a list, and a Go error is an APL error.", "quantifier": "for every Go function (any number and types of arguments and results), every left and right argument", "why_tests_cant": "every signature is a different code path through reflection", "anchors": ["apl/xgo/function.go: Function.Call"]}
{"id": "C131", "title": "Fields of a Go structure", "statement": "Assigning to a field of a Go structure exports the value to the type of the field, is seen by the next reading of the field, keeps all other fields and changes the type of no field. Unknown fields and values of other types are errors and change nothing. Names with a lower-case first letter stand for the exported names.", "quantifier": "for every structure, every field and every value", "why_tests_cant": "the claim is about all fields other than the one assigned, for all structures", "anchors": ["apl/xgo/type.go: Value.At, Value.Set"]}
{"id": "C132", "title": "A remote call is a local call", "statement": "A sequence of calls over one connection has the results and the effects which the same calls have in the server's own session, in order; an error of a call is returned to the caller and the connection stays usable; a value that cannot be sent is an error and the server does not see the call; after closing, every call is an error and the server is not changed.", "quantifier": "for every sequence of calls, every function set, values, server state", "why_tests_cant": "histories of calls of any length: what one call leaves in the decoder shows up in a later one", "anchors": ["apl/rpc/rpc.go: Call, Conn", "apl/rpc/server.go: ListenAndServe, exec", "apl/rpc/register.go: call"]}
{"id": "C133", "title": "Commands stand for programs", "statement": "A line that starts with a slash or a backslash and the name of a command is rewritten before it is parsed: /p X, /cd X, /l X apply a function to the value of the rest of the line, /q, /h, /cd and /m alone call it with 0, /l `f `p loads a file with a package, /m a b mounts, /t P runs the program P between the start and the stop of a timer. Commands may follow each other: the last is applied first. Lines that do not start with a command are not changed.", "quantifier": "for every line of tokens, every set of commands and every program", "why_tests_cant": "the rest of the line is an arbitrary program, its reading as a whole must not be changed by the rewriting", "anchors": ["apl/scan/scan.go: applyCmds", "apl/a/commands.go", "apl/io/mount.go: mCmd, cdCmd", "apl/io/read.go: lCmd"]}
{"id": "C134", "title": "Rank with two arguments and results of any shape", "statement": "L (F⍤q r) R calls F with the cells of rank q of L and of rank r of R, pair by pair in order; a cell of full rank is the whole argument and is used with every cell of the other side; negative ranks count from the rank of the argument; a single value of F may have any shape: the results are brought to the longest shape, a scalar is repeated and a smaller array is placed at the start and filled with zeros. Different numbers of cells, and ranks out of range are errors before any call.", "quantifier": "every function F with any effects, all arrays, all ranks, all shapes of results", "why_tests_cant": "F is arbitrary, and the results may differ in rank and length from cell to cell", "anchors": ["apl/operators/rank.go: rank"]}
{"id": "C135", "title": "Arithmetic does not change its arguments", "statement": "In the towers of exact and of precise numbers a value is held behind a pointer. A scalar function of one or two arguments (¯ × ÷ * ⍟ | ⌊ ⌈ ! + - ∨ < = on integers, fractions, floats and complex numbers) changes no number that existed before the call: variables and array elements keep their values, also when the call fails. The result consists of new objects or is one of the arguments.", "quantifier": "every state of the memory, every pair of numbers (also the same number twice), every function, every rounding", "why_tests_cant": "a method that writes to its receiver gives the right result and changes another variable; whether two numbers share an object depends on the whole history", "anchors": ["apl/big/int.go", "apl/big/rat.go", "apl/big/float.go", "apl/big/complex.go", "apl/big/register.go", "apl/primitives/elementary.go: arith1, arith2", "apl/tower.go: SameType"]}
{"id": "C136", "title": "Exact numbers are exact", "statement": "In the tower of exact numbers + - × ÷ and powers with integer exponent of booleans, machine integers, big integers and fractions, in any mixture, give the exact rational result; so do negation, magnitude, sign, reciprocal, factorial and the greatest common divisor of numbers other than zero; < and = compare the exact values. Nothing else changes. Results of two machine integers have to fit 64 bits. A number is accepted as an index exactly when its value is an integer of 64 bits.", "quantifier": "all rational numbers in every representation, every state of the memory", "why_tests_cant": "the result depends on the representation of both arguments, on the conversions between them and on the attempts that fail before", "anchors": ["apl/big/int.go", "apl/big/rat.go", "apl/tower.go: SameType", "apl/primitives/elementary.go: arith1, arith2"]}
{"id": "C137", "title": "Floats of any precision are rounded once", "statement": "In the tower of precise numbers the sum, difference, product and quotient of two floats, or of a float and an integer, is the exact result rounded once to the precision of the left argument; comparison is exact. Sums of complex numbers are rounded part by part, the error of a complex product is bounded by the sizes of its terms, a complex quotient or reciprocal is the exact one up to rounding. Negation, conjugation, magnitude and sign are exact. The result is a new number, nothing else changes.", "quantifier": "all numbers, all precisions, every rounding function", "why_tests_cant": "values and precisions are unbounded; a method that works in place or with a fixed precision agrees on short numbers", "anchors": ["apl/big/float.go", "apl/big/complex.go", "apl/big/register.go", "apl/tower.go: SameType", "apl/primitives/elementary.go: arith2"]}
{"id": "C138", "title": "The arguments choose the function", "statement": "For + - × ÷ * ⍟ | ⌊ ⌈ ! ○ the dynamic types and shapes of the arguments decide which implementation runs, and for all of them the decision is: a channel on the right is mapped over; otherwise dicts and tables (both, or one with anything else) are handled by key; otherwise an axis of integers selects the array-with-axis form; otherwise two arrays need equal shapes, or one with a single element, or one without elements, and arrays of other shapes are refused; an array and a scalar pair each element; two scalars go to the number system. With one argument: channel, dict/table, array, scalar. A string before a time rounds it; when the package io is registered a string or array of strings before ! is a command.", "quantifier": "every elementary function, every pair of arguments of any types and shapes, with and without io, compact or exact numbers", "why_tests_cant": "the handlers are registered in many files and asked in reverse order of registration; which of them accepts first depends on all of them and on every combination of types and shapes", "anchors": ["apl/domain/*.go", "apl/function.go: Primitive.Call", "apl/register.go", "apl/primitives/elementary.go", "apl/primitives/array.go: arrays, arraysWithAxis", "apl/io/register.go"]}
{"id": "C139", "title": "No call fails a type assertion", "statement": "The function that the domains select for some arguments finds them in the types it asserts, so that a call of any primitive or derived function gives a value or an error, never a crash by a failed type assertion. (The code violates this; the theorem lists exactly the calls that do, for all symbols and arguments.)", "quantifier": "every symbol, every left and right argument (or none), every operand; all registered functions and operators", "why_tests_cant": "unchecked assertions rely on what the domain conversions promise; the counterexamples are particular combinations (⍬⌽X, ⍬/X, ⍸⍬, ~'a')", "anchors": ["apl/domain/*.go", "apl/primitives/*.go: register calls and first assertions", "apl/operators/*.go", "apl/function.go: Primitive.Call", "apl/op.go"]}
{"id": "C140", "title": "A registered function only takes the arguments its domain accepts", "statement": "Registering one more function for a symbol (Apl.RegisterPrimitive) makes it the first to be asked: it serves exactly the arguments its domain accepts, all other arguments and all other symbols are served as before. The function that serves a call is the last registered one whose domain accepts.", "quantifier": "every registry, every function, domain and symbol, all arguments", "why_tests_cant": "extensions register functions the tests do not know", "anchors": ["apl/register.go", "apl/function.go: Primitive.Call", "apl/domain/domain.go"]}
{"id": "C141", "title": "Conversions keep the elements", "statement": "The conversions that domains apply to arguments give the function the same elements in the same order: a scalar becomes a one-element vector, numbers become the integers they are equal to in the same shape, an array becomes a vector in ravel order and is accepted exactly when at most one axis is longer than one. Arguments that cannot be converted are refused.", "quantifier": "every value of any type and shape", "why_tests_cant": "all element types, shapes and values", "anchors": ["apl/domain/array.go", "apl/domain/numeric.go"]}
{"id": "C142", "title": "Selective assignment through operators", "statement": "(cs/A)←X gives every element of A with a positive count the last element of X that stands for one of its copies and leaves the elements with count zero or a negative count unchanged; for a boolean cs, cs/A is X afterwards. (cs\\A)←X gives every element the last element of X that stands for it, elements of X at fill places are ignored. For a function with an axis that selects distinct elements, F[x]A is X after (F[x]A)←X and all other elements are unchanged; a take with an axis that goes beyond the axis ignores the elements of X there, although the take without an axis is an error. ⌿ and ⍀ are errors that change nothing.", "quantifier": "all arrays of any rank, all counts, all X of the shape of the selection", "why_tests_cant": "all counts, shapes and values; repeated positions in a selection", "anchors": ["apl/operators/select.go: selectSimple, selection", "apl/operators/reduce.go: register calls", "apl/operators/axis.go: axis", "apl/operators/register.go: Select", "apl/operators/assign.go: assignValue"]}
{"id": "C143", "title": "Csv output can be read back", "statement": "\"csv\"⍕A of a matrix A with at least one column is text from which a csv reader (RFC 4180) gets one record per row, whose fields are the printed elements, whatever characters these contain; for an array that is no matrix it is an error.", "quantifier": "all matrices, all texts of the elements (including quotes, commas, newlines)", "why_tests_cant": "all texts", "anchors": ["apl/primitives/format.go: formatCsv", "apl/table.go: Csv, csvTable.writeRow"]}
{"id": "C144", "title": "Formats of the cells of a table", "statement": "The csv text of a table (D⍕T with a key CSV in D, or \"csv\"⍕T) reads back as a header with the keys and one record per row; the cell in column k is printed with the format string D has for k and with no format if it has none. A key of D that is an array or list panics. Finding: formats set with ⎕PP are lost inside tables; the elements of arrays in cells use the format of the column before.", "quantifier": "all tables, all format objects, all formats set with ⎕PP, any way of printing values by their own type's format", "why_tests_cant": "all combinations of columns, types and formats; the format map is shared by all cells", "anchors": ["apl/table.go: write, Csv", "apl/primitives/format.go: formatTable, formatCsv"]}
{"id": "C145", "title": "Print precision and formats", "statement": "⎕PP←n sets the precision and keeps the formats; ⎕PP←⍬ restores the initial state after any history; ⎕PP←D sets, for each key of D with a string, the format of the type of the key and nothing else, and succeeds; any other value is an error that changes nothing. Finding: ⎕PP←D always reports an error although the formats are set.", "quantifier": "all histories of assignments to ⎕PP", "why_tests_cant": "all histories", "anchors": ["apl/fmt.go: SetPP", "apl/var.go: AssignEnv"]}
{"id": "C146", "title": "Evaluation does not depend on what has been printed", "statement": "What an expression or a program computes, assigns and prints does not depend on what has been printed before; printing only appends to the output.", "quantifier": "all expressions, programs, states and earlier outputs, including those that end in an error", "why_tests_cant": "a dependency on the output could hide in any of the evaluator's paths and histories", "anchors": ["apl/eval.go Eval", "apl/var.go AssignEnv", "apl/function.go", "apl/lambda.go", "apl/op.go", "apl/operators/assign.go"]}
{"id": "C147", "title": "Execute compared with a program", "statement": "⍎T evaluates the statements of T in order, with the effects they have as a program, and is the value of the last one; the values of all others, of assignments too, are printed after everything the statements print by themselves. If a statement fails ⍎T fails and prints none of the values. An empty text gives an empty array.", "quantifier": "all lists of statements, all states", "why_tests_cant": "ranges over all programs and their effects", "anchors": ["apl/primitives/format.go execute", "apl/eval.go EvalProgram, Eval"]}
{"id": "C148", "title": "Operators choose the derived function by their operands", "statement": "/ ⌿ \\ ⍀ reduce or scan if the left operand is a function and replicate or expand if it is an index array or a number that is an index (converted to integers); any other operand is an error. ¨ is each, except for < which is the channel each; . is the inner product, and the scalar product for +.×; ⍤ and ⌺ take a function and indices; ⍨ and ⍣ take a function; ∘, @ and ⍂ take any operands. No other symbol is an operator.", "quantifier": "all symbols and all operand values", "why_tests_cant": "ranges over every combination of operand types and the order of all registrations", "anchors": ["apl/op.go", "apl/operators/*.go", "apl/domain/operator.go"]}
{"id": "C149", "title": "Complex arithmetic", "statement": "For complex numbers + and × are commutative, z-w is z+(-w), conjugation (monadic +) and negation are their own inverses, and conjugation and negation distribute over + and × (negation over one factor). For finite numbers the complex operations extend the real ones: with a real argument taken as the complex number with imaginary part 0, +, -, × give the complex number of the real result, and x×z and x+z act on the parts of z. z=w compares the numbers; zeros of both signs are the same number.", "quantifier": "all complex numbers whose parts are doubles (finite ones where stated), and Int and Float arguments mixed with them in the tower", "why_tests_cant": "There are 2^256 pairs of complex numbers, with signed zeros, infinities and NaN among the parts; tests multiply a few.", "anchors": ["apl/numbers/complex.go: Add, Add2, Sub, Sub2, Mul2, Equals", "apl/numbers/float.go: floatToComplex", "apl/primitives/elementary.go: arith1, arith2"]}
{"id": "C150", "title": "Floor and ceiling of complex numbers", "statement": "For a finite complex number z, both parts of ⌊z are integers, each is the floor of the part of z or one more, and not both are raised. If the fractions of the parts add up without rounding (in particular for parts that are multiples of 1/2*k for the same k up to 52, such as halves and quarters), ⌊z is McDonnell's floor and z is less than 1 away from it. Gaussian integers are fixed. ⌈z is the negative of ⌊-z. The function fails exactly for NaN and infinite parts.", "quantifier": "all pairs of doubles", "why_tests_cant": "The three cases depend on rounded sums of fractions; whether a double near an integer is handled is a matter of all exponents.", "anchors": ["apl/numbers/complex.go: Floor, Ceil", "apl/primitives/elementary.go: arith1"]}
{"id": "C151", "title": "Parts of complex numbers", "statement": "9○z is the real part and 11○z the imaginary part of z, ¯9○z is z, ¯10○z its conjugate and ¯11○z is z times i. For finite z, (9○z)+¯11○11○z is z again. For real numbers, as Int or Float, 9○x is x, 10○x is the magnitude, and 11○x should be 0 and 12○x the angle.", "quantifier": "all complex, Float and Int arguments", "why_tests_cant": "The left argument is converted up the tower and each step may fail and be repeated with wider types; tests use one value per code.", "anchors": ["apl/numbers/complex.go: Trig", "apl/numbers/float.go: Trig", "apl/primitives/elementary.go: circular, arith2"]}
{"id": "C152", "title": "Complex literals", "statement": "XJY (or XjY) is a complex number exactly if X and Y are numbers, and they are its parts; XaD with D one of 0, 90, 180, 270 is X multiplied exactly by i, D/90 times; a literal without J and a is the real number. What is printed with full precision is read back as the same number, with ¯ or - for the sign.", "quantifier": "all literals and all complex numbers", "why_tests_cant": "The claim is over all texts, and over all pairs of doubles for the way back.", "anchors": ["apl/numbers/complex.go: ParseComplex, String", "apl/numbers/float.go: ParseFloat"]}
{"id": "C153", "title": "Time stamps are read and printed as dates", "statement": "A literal yyyy.mm.dd, optionally followed by Thh.mm, Thh.mm.ss or Thh.mm.ss.f, is the moment it names if that day exists in the Gregorian calendar and that time on the clock, and no number otherwise; no other text is a time stamp. A printed time stamp is such a text, of the moment rounded down to the millisecond, and reading it gives that moment back.", "quantifier": "All years, months, days and times of day in the text, and all time stamps up to the year 9999, with every print precision.", "why_tests_cant": "There are millions of dates and 10^20 moments; the exceptions (leap centuries, months of 30 days, milliseconds) are few among them.", "anchors": ["apl/numbers/time.go ParseTime", "apl/numbers/time.go Time.String", "apl/numbers/register.go getformat"]}
{"id": "C154", "title": "Durations are read back from their text", "statement": "The printed text of a duration is a number literal of the scanner, and reading it gives the same duration.", "quantifier": "All durations that fit into 64 bits of nanoseconds.", "why_tests_cant": "There are 2^64 durations and the printed unit and number of digits depend on the magnitude.", "anchors": ["apl/numbers/time.go Time.String", "apl/numbers/time.go ParseTime", "apl/scan/scan.go ScanNumber", "apl/numbers/register.go getformat"]}
{"id": "C155", "title": "A line of text runs its sentences", "statement": "For every line of text made of sentences separated by diamonds - rows of literals, variables, sentences in parentheses, primitive or derived functions applied monadically or dyadically, assignments - however the line is spaced and whatever the primitives do, parsing and evaluating the line runs the sentences from the first to the last; in each sentence the right argument is evaluated before the left one and functions take everything to their right; the values of sentences that are not assignments are printed in order, an error ends the line, and the effect is determined. Execute of such a text has the meaning of the sentence.", "quantifier": "every line of sentences of any length and nesting, every registered language, every state", "why_tests_cant": "It ties scanner, parser and interpreter together for sentences of unbounded length and nesting and for any set of primitives; tests run a few lines.", "anchors": ["apl/apl.go:Parse,ParseAndEval", "apl/scan/scan.go:Scan", "apl/parse.go:parse", "apl/eval.go:Eval,EvalProgram", "apl/primitives/format.go:execute"]}
{"id": "C156", "title": "Executing the text of a value gives the value", "statement": "For every vector of two or more integers, booleans and strings V, and every such scalar, executing the text made by format with precision minus one gives V back and changes nothing; a text with a newline outside of quotes cannot be executed.", "quantifier": "every vector and scalar of integers, booleans and strings, every scanner with proper symbols and quoting", "why_tests_cant": "It ties format, scanner, parser, tower and evaluation together for all values; refuted for vectors of one element, which come back as scalars, and for matrices, which fail.", "anchors": ["apl/fmt.go:ArrayString", "apl/int.go:String", "apl/tower.go:Parse", "apl/primitives/format.go:format,execute"]}
{"id": "C157", "title": "Idioms of the primitives", "statement": "V[⍋V] is V sorted upwards and V[⍒V] downwards; for a permutation P, ⍋P is its inverse: P[⍋P]≡⍳⍴P; V~W is (~V∊W)/V; V∊W is (W⍳V)<⎕IO+⍴W; m/V is V[⍸m]; ∪V is ((V⍳V)=⍳⍴V)/V; ⌽V is V[⌽⍳⍴V]; the last element of F\\V is F/V.", "quantifier": "all vectors, element types with an ordering or equivalence, index origins, every sort algorithm that sorts", "why_tests_cant": "the identities combine independent implementations (sorting, searching, indexing, replication, scan); each ranges over all vectors and orderings", "anchors": ["apl/primitives/grade.go:grade", "apl/primitives/index.go:index", "apl/operators/reduce.go:Replicate", "apl/primitives/iota.go:membership", "apl/primitives/boolean.go:without", "apl/primitives/unique.go:unique", "apl/operators/reduce.go:scanfunc"]}
{"id": "C158", "title": "Laws of the matrix product", "statement": "A+.×B has at (i,j) the sum of the products of row i of A and column j of B; it is associative, it distributes over +, ⍉(A+.×B) ≡ (⍉B)+.×⍉A, and (⍳n)∘.=⍳n is its unit on both sides; this holds for every pair of functions with the laws of + and × and arrays of any rank, in particular for 64-bit integers with overflow.", "quantifier": "all arrays of agreeing shapes with a shared axis of positive length, all pure F and G with the ring laws used, both index origins", "why_tests_cant": "algebraic laws over all shapes, ranks and element values; tests compare a few products", "anchors": ["apl/operators/dot.go:inner", "apl/operators/dot.go:outer", "apl/primitives/transpose.go:transpose", "apl/int.go:Add2", "apl/int.go:Mul2"]}
{"id": "C159", "title": "Interchange texts are JSON", "statement": "\"json\"⍕V (¯2⍕V) is a JSON text that denotes V: numbers as numbers, strings as strings, an array as nested lists along its axes, a list as a list, a dictionary with strings as keys as an object in the order of its keys, at any nesting.", "quantifier": "all values built from integers, other numbers with a JSON text, strings of any runes, arrays of any shape (also with empty axes), lists and dictionaries, nested to any depth", "why_tests_cant": "JSON validity must hold for every nested value and every rune of every string; tests compare a few texts and never parse them", "anchors": ["apl/fmt.go:jsonArray", "apl/list.go:jsonString", "apl/object.go:jsonString", "apl/string.go:String", "apl/int.go:String", "apl/bool.go:String", "apl/primitives/format.go:format"]}
{"id": "C160", "title": "Strings survive their text", "statement": "The text of a string for interchange (quoted, PP below 0) is read back by the scanner as the same string, whatever text follows, and so are arrays of such strings by the array parser; this holds for every string of Unicode runes, with quotes, backslashes, newlines and control characters.", "quantifier": "all strings of runes, all following texts, all arrays of strings, integers and booleans, every table of printable runes that agrees with ASCII", "why_tests_cant": "escape sequences depend on each rune and its neighbours; a test covers a handful of characters", "anchors": ["apl/string.go:String", "apl/scan/scan.go:ReadString", "apl/fmt.go:ParseArray", "apl/fmt.go:ScanRankArray"]}
{"id": "C161", "title": "Modified, selective and vector assignment", "statement": "X f← e evaluates e, calls f with the value X has then and the value of e, and stores the result in the environment where X was found, the caller's if X is not local; (t)←e and A[I]←e evaluate e first, then the selection t, in which only the function next to the variable selects and the functions further to the left work on the indexes, and store the value that indexed assignment computes; A B C←v assigns the elements in order, or a scalar to all. If there is no such variable, or a call fails, nothing is stored, and the value of the expression is that of e.", "quantifier": "all expressions, functions, selections, environments and values", "why_tests_cant": "the environment in which the variable lives, the state changes of the called functions and the nesting of selections are unbounded", "anchors": ["apl/assign.go:evalAssign", "apl/function.go:function.Eval", "apl/operators/assign.go:assignScalar,assignVector", "apl/op.go:derived.Call,derived.Select"]}
{"id": "C162", "title": "Reading a line does not end the process", "statement": "Parsing any line of words in which no bracket directly follows a bracket and none starts a parenthesis returns a program or an error, never a panic; so an interactive session goes on after every such line, whatever it contains, and running a file of such lines ends normally or with an error.", "quantifier": "all lines, all texts of files, all grammars (sets of primitives and operators, number parsers), all evaluators that recover", "why_tests_cant": "the parser is a stack machine with type assertions on what earlier reductions left on the stack; which assertion is reached depends on arbitrarily long contexts", "anchors": ["apl/parse.go: parseStatement, subStatement, reduce, resolveBrackets, mopReduce, dopReduce, reducefA, reduceAfA", "apl/multiline.go: Add", "apl/eval.go: EvalFile", "cmd/apl.go: Apl"]}
{"id": "C163", "title": "The documented programs compute primes and Conway's game of life", "statement": "Of the programs the documentation shows: {(2=+⌿0=X∘.|X)⌿X←⍳⍵} n (⎕IO 1) and {(~X∊X∘.×X)⌿X←2↓⍳⍵} n (⎕IO 0) list exactly the primes up to n (below n for the second), ascending; l←{3=S-⍵∧4=S←({+/,⍵}⌺3 3)⍵} takes a board of zeros and ones of any size to the next generation by Conway's rule with dead cells outside of the board, and (l⍣k) is k generations.", "quantifier": "every n, every board of any size, every number of generations, whichever form (boolean or integer) the cells have", "why_tests_cant": "the test suite runs f 42 and one glider on a 5 by 5 board; an error for other sizes, for cells at the border or for other patterns of neighbours is not seen", "anchors": ["TESTS.md:Primes", "TESTS.md:Conway-completeness", "apl/operators/stencil.go", "apl/operators/dot.go", "apl/operators/reduce.go", "apl/operators/power.go", "apl/primitives/compare.go", "apl/primitives/boolean.go", "apl/primitives/iota.go"]}
{"id": "C164", "title": "The stream processor shows the cells of its input in order", "statement": "iv 'r k' shows exactly the arrays of rank k of the standard input, in order, whatever the scheduling of the goroutines is and however the scanner splits the work between the lines; f¨r k shows f of each of them and s shape shows arrays of that shape filled with the scalars of the input. At any time what has been shown is a beginning of that, nothing crashes, the program ends and all its goroutines end. The text of an array that was printed is read back cell by cell. All lines of the input are delivered.", "quantifier": "all inputs, ranks, shapes, functions that do not fail, scanners that keep what they have found, and all interleavings of the goroutines", "why_tests_cant": "the number of interleavings of the line reader, the scanner, the mapped function and the main program is unbounded, and so are the inputs", "anchors": ["cmd/iv.go: Iv", "cmd/iv/main.go: readfd", "cmd/iv/README.md", "apl/operators/rank.go: sendParseSubArray", "apl/channel.go: LineReader, RuneScanner", "apl/fmt.go: ScanRankArray"]}
{"id": "C165", "title": "Reading data from text", "statement": "L⍎S reads the text S: with an array of one element type as L the result has exactly that type or there is an error, with \"A\" or a mixed array it is the array the text denotes, and an array is read back, with itself as L, from the texts the formatter writes for it (JSON, aligned, matrix): same shape, elements and type. No text makes it panic.", "quantifier": "all prototypes L, all texts S, all non-empty arrays whose elements can be read back one by one", "why_tests_cant": "the texts and element types are unbounded; a test reads a few literals", "anchors": ["apl/primitives/format.go:parseData", "apl/fmt.go:ParseArray", "apl/object.go:ParseDict", "apl/table.go:ParseTable"]}
{"id": "C166", "title": "Demonstration channels", "statement": "go→source N delivers 0 1 … N-1 in order and then ends the channel; closing it earlier ends its goroutine; every schedule terminates and nothing panics. go→echo P returns the values that were sent to it in the order they were sent, each as a string with the prefix P, and a fixed text when there is nothing to return.", "quantifier": "all N, all prefixes, all sequences of operations of the main program, all schedules", "why_tests_cant": "the interleavings of two goroutines and the choices of select cannot be enumerated by a test", "anchors": ["apl/xgo/register.go:source", "apl/xgo/register.go:echo", "apl/channel.go:Close", "apl/primitives/take.go:takeChannel1", "apl/primitives/take.go:sendChannel"]}
{"id": "C167", "title": "Tally and depth", "statement": "Monadic ≢ gives 1 for a scalar, 0 for the empty array and the length of the first axis for every other array (the number of elements of a vector); monadic ≡ gives 0 for a value that is no array and 1 for an array.", "quantifier": "all values and shapes", "why_tests_cant": "all shapes, with empty axes", "anchors": ["apl/primitives/match.go: tally, depth"]}
{"id": "C168", "title": "io→mount attaches the file system that its source names", "statement": "mpt io→mount src with a source protocol://rest mounts the file system which that registered protocol gives for rest, without regard to the order in which protocols are kept, provided no protocol name contains ://; with the source . it mounts the working directory and with any other source the directory of that name if there is one. The mount succeeds exactly if the source is valid, the mount point is a valid one and not in use, and then adds just this point; a failing mount changes nothing. A newly started interpreter has the working directory at /, its own variables at /v/ and the environment at /e/.", "quantifier": "all mount points, sources, registered protocols, orders of visiting them, mount tables, working directories and file trees", "why_tests_cant": "the order in which protocols are visited is random, and the state is shared by all interpreters of the process", "anchors": ["apl/io/mount.go:mount", "apl/io/fs.go:RegisterProtocol,Mount", "apl/io/register.go:Register"]}
{"id": "C169", "title": "Running a program: which one, with which arguments and input", "statement": "! argv and argv ! x start the program argv[0] with the other strings as its arguments; x is its input. If argv[0] starts with a slash the program is the file at that place in the mounted file system. It is refused without a change of anything if argv is not a list of at least one string or if that place is not in a mounted directory of the os. The values which the caller passes are not changed.", "quantifier": "all argument values, mount tables and programs", "why_tests_cant": "depends on sharing of the argument with all other values that refer to the same array, over all histories of calls", "anchors": ["apl/io/read.go:exec", "apl/io/fs.go:lookup,path", "apl/domain/string.go:ToStringArray"]}
{"id": "C170", "title": "Changing the working directory", "statement": "io→cd name follows the parts of the name from the working directory, or from the root if it starts with a slash, . and .. having their usual meaning, and succeeds exactly if there is a directory. io→cd 0 returns a name which leads back to the present directory from any other one. Files below a mount of . are those of the new working directory after a change, files below a mount of another directory remain those of the directory at the time of the mount.", "quantifier": "all names, working directories, mount tables, and file trees without symbolic links", "why_tests_cant": "a history property: what a mounted name refers to after any later change of directory", "anchors": ["apl/io/mount.go:cd,mount", "apl/io/fs.go:fs.Open,fs.path,Open"]}
{"id": "C171", "title": "Values side by side, lists and indexes: their members are evaluated from left to right", "statement": "Two or more expressions side by side evaluate from left to right, once each, and give the array of their values if every value is a scalar or an object; an array, a list, a function or a name without a value among them is an error, and what stands to its right is not evaluated. A single one is that value, none is the empty array. The members of a list (a;b;c) and of an index [a;b;c] evaluate in the same order and may be any value; an empty place in a list is the empty array.", "quantifier": "all expressions as members, all states and all outcomes of the members, including errors, panics and changes of the state", "why_tests_cant": "the order matters only through effects of the members on each other, over all programs", "anchors": ["apl/array.go:array.Eval,isScalar", "apl/list.go:list.Eval", "apl/index.go:idxSpec.Eval"]}
{"id": "C172", "title": "The runner of the example programs accepts a directory exactly if every program behaves as its files say", "statement": "The tests of cmd/apl pass exactly if each *.apl file of the directory either runs without an error and writes exactly the bytes of its .out file or fails with exactly the text of its .err file, whatever else is in the directory and in whatever order the os gives the names; those of cmd/iv exactly if each *.iv file has a first line with a program that writes its .out file when it reads the other lines. They never crash. If the outputs differ the message gives the line and the number of the first byte that is different.", "quantifier": "all directories, contents, orders of the names and behaviours of the interpreter", "why_tests_cant": "the tests run the runner only on a directory which passes", "anchors": ["cmd/testing.go:AplTest,IvTest,testAplFile,testIvFile,readline,compareError,compareOut"]}
{"id": "C173", "title": "Printed columns are aligned", "statement": "The text of a matrix has one line for each row; all lines have the same length and the texts of a column end at the same place, one blank behind the widest element of the column before. The planes of an array of higher rank are aligned each for itself; every element has at least one blank before it, so the printed text reads back as the array. A dictionary prints a line for each key, with the values starting one blank behind the longest key and its colon, and a table a line for the keys and for each row, with every column but the last filled to its widest text.", "quantifier": "all matrices, arrays of any rank, dictionaries and tables of any size, for all texts of elements without tabs and newlines", "why_tests_cant": "The width of a column depends on all the rows of it and only on the adjacent ones; tests show a few matrices of small numbers.", "anchors": ["apl/fmt.go:ArrayString", "apl/object.go:Dict.String", "apl/table.go:Table.WriteFormatted", "apl/table.go:Table.write"]}
{"id": "C174", "title": "The directories of variables and of the environment name their files", "statement": "Opening /v/ lists each package once, with a slash behind it, and each variable of the environment once; opening /v/PACKAGE/ lists each variable of the package with the package and an arrow before it, and fails for a package that is not registered. The names are in ascending order, behind the mount point, with the description of the value in a second column. The listing does not depend on the order in which Go walks its maps. Every file that is listed can be opened, and has the text of its variable. Opening /e/ lists the variables of the system's environment with their values, each of which can be opened by its name.", "quantifier": "all sets of packages, variables and environment variables with all values, all mount points, and every order of the iteration over the maps", "why_tests_cant": "The order of a map is random at every run, the sets of variables are unbounded and the width of the columns depends on all of them.", "anchors": ["apl/var.go:Vars", "apl/var.go:packageVar", "apl/io/var.go:varfs.Open", "apl/io/env.go:envfs.Open"]}
{"id": "C175", "title": "Integers shown in octal and hexadecimal", "statement": "¯16⍕N (\"x\"⍕N) is 0x and the upper case hexadecimal digits of N, ¯8⍕N is 0 and its octal digits, without superfluous zeros; different integers have different texts; a text is one number token of a program, and is read back as N. The same for arrays of integers with ⍎. A number that is written with leading zeros means what its decimal digits say.", "quantifier": "all 64-bit integers, all non-empty arrays of them", "why_tests_cant": "there are 2^64 integers and the signs and digits of every one must survive", "anchors": ["apl/int.go: Int.String, ParseInt", "apl/fmt.go: ArrayString, ScanRankArray", "apl/scan/scan.go: ScanNumber", "apl/tower.go: Parse"]}
{"id": "C176", "title": "Exact numbers are written and read back", "statement": "In the tower of exact numbers, the text of an integer of any size is its sign and its decimal digits, that of a fraction has the numerator and, after r, the denominator in lowest terms. It is one number token, different numbers have different texts, and reading the text gives the same number, an integer if it is one. Any other way to write a fraction NrD without leading zeros is read as the exact quotient; the denominator 0 is refused.", "quantifier": "all integers and all fractions, of any size", "why_tests_cant": "numerators and denominators are unbounded", "anchors": ["apl/big/int.go: Int.String, ParseInt", "apl/big/rat.go: Rat.String, ParseRat", "apl/tower.go: Parse", "apl/big/register.go: SetBigTower"]}

# A machine-checked model of ktye/iv

## Method

The Go code under `/repo/apl` and `/repo/cmd` is transcribed, function by function, into total
Gallina functions (Coq 8.16.1).  Every definition cites the file and lines it models, and says what
it leaves out.  Conventions:

* `outcome A := Ok a | Err | Panic` (`Base.v`): a normal result, a Go `error` and a Go run-time
  panic (index out of range, nil dereference, failed type assertion, division by zero) are three
  different things.  Error texts are not modelled.  `let* x := e in k` is the sequence.
* Effects (`Eff.v`): `eff S A := S -> outcome A * S` for code that calls user functions or changes
  a state; `let! x := e in k`.  The order of calls is then part of the statement, and a failed run
  keeps the state it has reached.
* An array is a shape (`dims : list Z`) and its elements in row-major order, over any element type.
  Lists are indexed by `Z` (`znth`, `zupd`, `zlen`), an index out of range is a panic in the model
  where it is one in Go.  Where Go aliases a slice and writes through it, the model function returns
  the new contents, or works on an explicit heap (`M_Heap`).
* Go `int` is `Z` (unbounded) for the lengths and indexes of arrays in memory; 64-bit wrap-around is
  modelled for the arithmetic of `apl.Int` (`int.go`), for durations (`time.go`), for colours, and for
  the counts and shapes the user gives to reshape, rotate and drop (`wrap64`).  Exhaustion of memory
  is outside the model, and so are results (of take, replicate, outer product, …) with 2*63 or more elements.
* Loops driven by the odometer (`IncArrayIndex`) are loops that carry the same index vector, not
  comprehensions; that they visit all indexes in row-major order is a theorem.
* User functions passed to operators, number towers, sort routines, Unicode tables, file systems
  and the network are parameters (any function, or any that meets the contract stated in the
  theorem).  Each contract is shown to be satisfiable by a concrete instance in an `Example`.
* Recursive evaluation (`M_Eval`) is a fuelled interpreter; the theorems are about the runs that
  end (`S_Eval.ends`, independent of the fuel), with no bound on their length.
* Goroutines and channels are state machines (`M_Chan`): each send, receive, close and select is a
  step; schedules are arbitrary interleavings, of any length.

Files: `Base.v`, `Eff.v` helper definitions; `M_*.v` the model; `S_*.v` small specifications that do
not refer to the model's functions; `P_*.v` lemmas; `Prop_*.v` the property theorems `Cnn_name`,
with `Print Assumptions` beneath and an `Example` that meets the hypotheses in a non-trivial case.

## When the code violates a property

The property keeps the wording of the user; the model stays faithful to the code; a theorem
`Cnn_..._refuted` states a run of the model (often a whole class of runs) that contradicts the
property, the other theorems of the property state what does hold, and the manifest status is
`partial` with the finding in the note.  Theorems with the suffix `_partial` prove a part of the
English statement.  All other theorems of such a property hold in full.

## Per-property plan

| property | modelled (file: Go code) | proof |
|---|---|---|
| C01 row-major addressing | M_Array: array.go, NewIdxConverter, IncArrayIndex | induction on the shape; the loop enumerates all indexes |
| C02, C03 reshape, shape | M_Array, M_Structural: the four Reshape methods, rho.go | position law `k mod n`, loop invariant |
| C04 element stores | M_Array: the four Set methods | case analysis; off-by-one of BoolArray and StringArray refuted |
| C05–C07 reverse, rotate | M_Structural: reverse.go | odometer law, modular arithmetic |
| C08, C09 transpose | M_Structural: transpose.go | odometer law; diagonal minimum |
| C10–C12 take, drop, arguments unchanged | M_Structural: take.go with the aliasing of L | index law; in-place update of L refutes C12 |
| C13–C16 catenate, laminate, ravel, enlist | M_Structural, M_List: comma.go, axis.go | index laws; induction on nesting |
| C17–C19, C76–C78 index, assignment | M_Index: index.go, selection.go, assign.go | index laws, frame property, predicates, put-get |
| C20, C21, C94, C95, C101 sharing | M_Heap: values with addresses, Copy (by reference for the types given by ByRef: ComplexArray, Image), assignment in place, lambda.go | reachability invariants; simulation between heap and values (C101), for values without arrays that are copied by reference; refuted for these |
| C22–C31 search, sets, sorting | M_Search: iota.go, unique.go, grade.go, match.go, find.go | list induction; sort is any permutation that meets sort.Sort's contract |
| C32–C37, C86 reduce, scan, replicate, expand | M_Reduce, M_Identity: reduce.go | for every function, with its effects in order |
| C38–C44 operators | M_Operators: dot.go, each.go, power.go, commute.go, jot.go, at.go, rank.go | for every function argument, with effects |
| C45, C46, C53 scalar functions on arrays | M_Scalar: primitives/array.go, uniform.go | elementwise law; the compact array holds the same values |
| C47–C52, C75, C87 numbers | M_Number: int.go, bool.go, tower.go, float.go, rat.go, elementary.go, compare.go, boolean.go | Z arithmetic with wrap; Flocq for doubles; abstract tower |
| C54 encode, decode | M_Decode, M_DecodeNum: decode.go | abstract exact arithmetic; the default tower up to 2^52 by Flocq |
| C55, C82–C85 dictionaries | M_Dict: object.go, dict.go, table.go | histories by induction, for every key equality |
| C56, C57, C79–C81 lists | M_List: list.go, take.go cut, match.go depth, each.go | induction on depth and length |
| C58, C102–C109 tables | M_Table: table.go, transpose.go, index.go, comma.go, assign.go, query | view of a table as rows and columns; grouping by induction |
| C59–C66, C96–C99 evaluation | M_Syntax, M_Eval: eval.go, op.go, function.go, register.go, var.go, lambda.go, train.go, apl.go | fuelled interpreter; monotonicity in fuel; simulation for tail calls |
| C67, C88, C89 scanner | M_Scan: scan.go | unique decomposition, invariance under blanks and comments |
| C68, C69, C90 parser | M_Parse: multiline.go, parse.go | automaton on braces; grammar S_Grammar is exactly what the parser accepts |
| C70–C74, C91–C93, C100 channels | M_Chan, M_ChanText: channel.go, primitives/channel.go, rho.go, each.go, reduce.go, rank.go, eval.go | invariant of the network of goroutines for all schedules; confluence |
| C110, C111 strings | M_Strings: enclose.go, strings/register.go | list induction |
| C112, C113 text of arrays | M_Format: fmt.go, format.go, rank.go | printer and reader are inverse, induction on the rank |
| C114, C115 domino | M_Domino: domino.go | LU with pivoting as loop invariants over any field; normal equations |
| C116–C119 file systems | M_Mount: mount.go, fs.go, var.go, env.go | longest and latest match; histories of mounts |
| C120–C122 time | M_Time: numbers/time.go with Go's calendar | calendar arithmetic on Z, rounding laws |
| C123, C124 stencil, roll, deal | M_Stencil: stencil.go, query.go | odometer law; every random source |
| C125, C126 files, session | M_File: eval.go EvalFile, cmd/apl.go | induction on the lines; spec S_File reads statements |
| C127, C128 images | M_Image: image.go, domain/image.go | bit arithmetic by Z.testbit; loop invariant on pixels |
| C129–C131 Go interface | M_Xgo: xgo/convert.go, function.go, type.go | induction on the Go type |
| C132 rpc | M_Rpc: rpc/*.go with gob's decoding | histories of calls by induction |
| C133 commands | M_Commands: a/commands.go, io/mount.go, io/read.go, scan.go applyCmds | rewriting relation; grammar of C90 |
| C134 rank with two arguments | M_Rank: rank.go | common shape law by aligned axes; every function with effects |
| C135 arguments keep their values | M_Big: big/int.go, rat.go, float.go, complex.go, elementary.go arith1/arith2, tower.go SameType on a heap of mutable cells | "keeps" logic: a write only above the old end of the heap; two exceptions refuted |
| C136 exact numbers | M_Big, tower Exact | value relation `stands`; every mixture of representations by one generic lemma; gcd of fractions against a divisibility specification (Prop_Big3), use as an index (Prop_Big4) |
| C137 precise floats | M_Big, tower Precise | symbolic run of the methods on old cells ++ new cells; functions of one argument and ToIndex in Prop_Big4 |
| C138 choice of functions | M_Dispatch: domains, all register calls in order, the search of Primitive.Call; values as far as domains look at them | computation of the handler list per symbol, case analysis on the types of the arguments |
| C139 type assertions | M_Dispatch: the first assertions of each registered function and operator; S_Dispatch.ill lists the calls | soundness of every domain with respect to the assertion of its function, exact characterization for the symbols where it fails |
| C140 registering | M_Dispatch: handlesOf, firstOf over any registry | induction on the registry from the right |
| C141 conversions | M_Dispatch: ToArray, ToVector, ToIndexArray, ToIndex | case analysis; product of the axes against the longest axis |
| C142 selective assignment through operators | M_Select (select.go) with M_Reduce, M_Index | replicated and expanded lines as blocks of copies; last-writer lemma over the assignment loop |
| C143 csv output | M_Csv: the csv Writer of the Go library (its documented quoting, Comma, no CRLF) and formatCsv; S_Csv: a reader | induction over fields and rows with the reader's state |
| C144 formats of table cells | M_Csv: Table.write with its shared format map; how a value is printed is a parameter that depends on the format of its own type only | invariant: only PP is kept from cell to cell |
| C145 ⎕PP | M_Csv: SetPP | folds |
| C146 output is write-only | M_Eval; P_EvalOut | a frame property of every action of the interpreter, by induction over its runs |
| C147 ⍎ (execute) | M_Execute (EvalProgram, execute) over M_Eval; the parser's result is the argument | statement histories, C146 to relate runs with different outputs |
| C148 choice of derived functions | M_Dispatch: operator registrations and domains in order | case analysis on the operands |
| C149 complex arithmetic | M_Complex: complex.go on pairs of specification floats, in the tower of M_Number | sign lemmas for SpecFloat, Flocq for x×1 and finiteness |
| C150 complex floor | M_Complex c_floor, c_ceil | Flocq: exactness of the difference, monotone rounding |
| C151 circle functions of the parts | M_Complex trig_c, trig_f, circular through arith2 | computation, zero lemmas; sine etc. are parameters |
| C152 complex literals | M_Complex ParseComplex, ComplexString; strconv a parameter | splitting lemmas |
| C153 time stamp texts | M_TimeText ParseTime, StampString (Go's time.Parse/Format for the layouts used) | numerals, inversion of the layouts, calendar of S_Time |
| C154 duration texts | M_TimeText DurationString, ParseDuration; M_Scan ScanNumber | induction over the digits of the fraction |
| C155 lines of sentences | M_Session (Parse, ParseAndEval, execute) over M_Scan, M_Parse, M_Eval | S_Session.v gives sentences their words and a big-step meaning without parser and fuel; induction over the sentence with the grammar theorem C90 and the program theorem C97 |
| C156 executing the text of a value | M_Format ArrayString, M_Session execute | the text reads as one literal per element (C88, C112), whose meaning is the row (C155) |
| C157 idioms | existing models of grade, index, replicate, membership, index-of, unique, where, reverse, scan, reduce | composition of the theorems about the single primitives (C05, C17, C18, C22-C26, C29, C32, C34, C36); sortedness plus permutation determine the vector |
| C158 matrix product | M_Operators inner, outer, M_Structural transpose | the elements are totals over the shared axis (C38); sums over non-empty index ranges may be exchanged for associative commutative F; wrapped 64-bit + and × form a ring |
| C159 JSON texts | M_Json jsonText, Quote (strconv.Quote) on top of json_vector of M_Format | S_Json.v is the RFC 8259 grammar with its meaning; induction over the derivation of what a value denotes; strings are characterised exactly (iff) |
| C160 strings survive their text | M_Json Quote, Unquote (strconv), M_Scan ReadString, M_Format ParseArray | every rune has one of six escape forms, each of which UnquoteChar takes back; combined with C112 for arrays. This discharges the hypothesis on quote of C112_elements for the concrete library function |
| C161 modified, selective and vector assignment | M_Eval evalAssign, mark, assignScalar, assignVector, derived_select; setidx (C22, C101) stays a parameter here | S_AssignEval describes a selection as a derivation (primitive, derived function, outer functions); the convergence lemmas of P_Eval give the run of the arrow; found/stored describe the stack of environments by a split of the list. C60_operator covers the choice of an operator |
| C162 reading does not end the process | M_Parse, M_File | an invariant of the parser's stack (what the type assertions rely on), fuel bounds for every loop; infixes of the token list |
| C163 documented programs | M_Programs (compositions of the models of ⍳ ∘.f = + \| × ∧ ~ ∊ ↓ ⌿ ⌺ ⍣) | chaining the theorems of the single primitives; two divisors ⇔ prime, no product ⇔ prime; the nine cells of a window against the eight neighbours |
| C164 the stream processor iv | M_Iv (bufio.ScanLines), M_Chan (sendParseSubArray as a goroutine), M_Format (ScanRankArray): cmd/iv.go, rank.go:290-315, channel.go:150-257 | instance of the invariants of C91 for every scanner that keeps what it has found; C113 gives the cells |
| C165 reading data L⍎S | M_ParseData over M_Format (ParseArray) and M_Scalar (Unify): the prototype is a sum type, the result a representation (rep) | a loop invariant of the array reader gives properness of what is read (no panic); lemmas about Unify give the type; C112 gives the round trips |
| C166 demo channels go→source, go→echo | M_Demo: the main program and one goroutine, a transition system of its own (the select with default of source is a step that may happen as long as the control channel is open) | an invariant: the log so far and what the rest of the operations will give is the specification; a measure for termination |
| C167 Tally and depth | `tally`, `depth` of match.go on scalars, ⍬ and arrays | direct computation from the shape; lists are C79 |
| C168 Mounting a source | M_IoFns: mount, source, by_protocol, RegisterProtocol, Register; protocols are a list in the order in which Go visits the map; the os is a function from paths to directory/file/nothing | plain_protocols and in_protocol are the specification; uniqueness of the split at :// and permutation invariance; the two refuted parts by witnesses |
| C169 Running a program | M_IoFns: exec over a heap of string slices, toStrings (sharing of a StringArray argument) | case analysis of the argument with the heap before and after; refutation by running the same call twice |
| C170 The working directory | M_IoFns: cd, Abs, resolve, opened | walk (go along the parts) is the specification; filepath.Clean is shown to be walk for all names by induction over the components |
| C171 Strands, lists, indexes | M_Eval: EArray, EList, EIdx, isScalar, mmap | the relation left_to_right is the specification; equivalence for every member relation by induction over the members, with the fuel abstracted by conv |
| C172 The runner of example programs | M_Testing: AplTest, IvTest, readline, compareError, compareOut over a directory as a function and the interpreter as a function | as_expected and iv_as_expected are the specification; induction over the names and over the two texts |
| C173 Printed columns are aligned | M_Tabs: what ArrayString, Dict.String and WriteFormatted write to the tabwriter, and the tabwriter (lines, cells, column blocks, widths) | S_Tabs says of one line, among the lines above and below, where its cells stand; induction over the column blocks with the lines above and below as context; the text of an array is the one of M_Format for some padding |
| C174 The directories of variables and of the environment name their files | M_Listing: Vars, packageVar, Lookup, varfs.Open and envfs.Open over maps given as lists in the order of an iteration, with the tabwriter of M_Tabs | the listing of names and descriptions is said of the sets of names; a sort of texts is the same for every permutation; the columns by C173; the refuted case: inside a function only the innermost environment is listed |
| C175 Integers shown in octal and hexadecimal | M_Radix: Int.String for the precisions ¯8 and ¯16 with fmt's digit loop; ParseInt, ScanNumber and ParseArray of M_Format and M_Scan | the digits are stated by a separate Horner value; reading by induction over the digits; the refuted cases: every negative integer (the sign follows the prefix), leading zeros select base 8 |
| C176 Exact numbers are written and read back | M_Ratio: Int.String and Rat.String of package big, ParseRat, big.Int.SetString, big.Rat.SetString for texts with a slash (digit scanner of math/big included), Tower.Parse for this tower; Rat.SetString without a slash is a parameter; formats are not modelled | digits as in C175 by Horner; the readers are run over the digits by induction; refuted: the texts for interchange, leading zeros |
Prop_Gaps6.v: the exponential of a float and the order of floats with infinities (C137; `C137_order` says with an order of its own what `C137_compare` says with the comparison of the model), a newline between quotes (C160), a table indexed by an empty array alone (C102).

<!-- MORE -->

Every property of `properties.jsonl` is expressed in the model; none is `not_applicable`.

## What is modelled and what is not

Modelled, completely or up to the simplifications named in the comments: the files in the table.

Not modelled:

* error texts, help texts, the panics' messages and what is printed on stderr;
* transcendental functions, powers and logarithms of floats and complex numbers
  (`numbers/complex.go`, `big/bigfloat`; the trigonometric part of `big/*.go`), printing and parsing of floats by
  strconv (the text of numbers is a parameter with a stated contract), Unicode tables (parameters);
* the tabwriter outside M_Tabs (C173): in M_Format an arbitrary positive number of blanks stands for its column widths, which C173_array justifies; M_Tabs is a model of the library function text/tabwriter, written from its documentation and known source, not from code in /repo;
* Go's memory model below the level of channel operations, garbage collection, stack depth (deep
  recursion is unbounded in the model) and memory exhaustion;
* the bodies of `io→exec` and `http`;
* `primitives/gen.go` (tools for documentation and tests).

## Trusted base

* Coq 8.16.1's kernel (including `vm_compute`); no axioms of our own, no plugins besides the
  standard library's and those of the installed libraries (Flocq, used for IEEE doubles).
* The reading of the Go code: nothing is extracted or run.  The contracts of Go's library (sort,
  bufio, image, time, reflect, gob, strconv) are transcribed as far as needed, in the comments of
  the model files.
* `Print Assumptions` is printed under every property theorem.  All theorems are closed under the
  global context, except those which speak about IEEE doubles through Flocq and the standard
  library's real numbers: `C49_default`, `C50_float_int`, `C54_default`, `C54_default_inverse`,
  `C149_reals_partial`, `C149_mixed`, `C150_next_to`, `C150_exact_partial`, `C150_grid`, `C150_gaussian`,
  `C150_fails`, `C150_ceil`, `C151_times_i`, `C151_together`, `C152_quarter_turns`, `C163_primes`
  use (all or some of) `ClassicalDedekindReals.sig_not_dec`, `ClassicalDedekindReals.sig_forall_dec`,
  `FunctionalExtensionality.functional_extensionality_dep` and `Classical_Prop.classic`, all of the
  standard library.

## How the theorems were tested

`seeded/LOG.jsonl` has one line for each wrong program that was tried: the definition that was
edited, the edit, the claim it breaks, the theorems that failed and the theorems that were added or
tightened because of it.  All edits were made in a copy outside of `/verif`.

## Findings

Where the code does not do what its documentation or its users expect.  Those with a property
number are theorems; the rest was found while modelling.

Arrays
* BoolArray, StringArray, FloatArray, ComplexArray and TimeArray accept a store at index = size and panic (C04).
* rotate with a single element for rank > 2 builds a wrong shape (C07).
* take, drop and transpose with ⎕IO 0 write into their left argument (C12); Rat.Pow2 with a negative
  exponent writes into its right argument (C12).
* catenate's default axis is wrong if the right argument has the lower rank; a left rank higher by 2
  panics (C14).
* ⍳ of a scalar gives a vector (C23); ∪ with ⍬ keeps duplicates (C25); `~` of a zero length vector
  panics (C26); interval index of a matrix looks at the first column only (C28); grade of an array
  without elements panics (C29); find wraps across rows and panics for tall patterns (C31).
* the identity items of ⌊ and ⌈ are exchanged (C33); scan of an empty axis panics (C34); N-wise
  product with zeros divides by zero (C35); expand does not check the number of ones (C37).
* inner product over an axis of length 0 panics (C38); outer product of a scalar adds an axis (C39);
  each of an array with a zero axis gives ⍬ (C40); at with unordered or duplicate indexes (C43);
  rank with full rank never applies its function (C44).
* encode: the error of powerradix is ignored; an inner zero radix works for scalars only; numbers
  beyond 2^53 go through doubles (C54).
* stencil: the left argument is compared with the window instead of the array, the movement row is
  ignored, an empty right operand panics (C123); ?3.5 is 0 × a normal number instead of an error.
* domino: L⌹5 panics for an L with several elements, a vector L gives a matrix of one column, errors
  of the triangular solver are ignored (C114).

Numbers and times
* ¯2^63÷¯1 wraps, 1b÷0b panics (C47); residue beyond 2^53 (C49); comparison with NaN (C50), equality
  is not transitive across Int and Float (C75).
* times: differences saturate at 292 years, 1000.01.01 is neither stamp nor duration (C120), ⌈ of a
  time rounds to nearest (C121); stamps print with milliseconds only.
* numbers printed with - or + (negative floats under ⎕PP ¯2) are not readable (C112); ⎕PP ¯16 prints
  0x¯FF.

Values and variables
* ComplexArray.Copy makes a copy and returns its receiver (numbers/complexs.go:19-23): after A←1J1 2J2 ⋄ B←A,
  B[1]←5J5 changes A (C20, C101).
* {⍵[1]←5}A changes A (C21); A[3 2 1]←A reads what it writes (C19); A[1]{A}←0 makes a cyclic value,
  printing it overflows the stack (C94); (A[1]←5)+A (C95).
* a tail call ignores its guard's condition (C64); indexing a list with an elided index panics; cut
  with ⍬ panics; comparing lists with ≡ can panic.
* failed assignments: D[`b`c]←1 2 3 creates the keys, T[1;]←5 changes the first columns (C105).
* tables: T,U with different numbers of rows and Bool⍪Int columns make tables whose indexing panics
  (C107); queries compare total numbers of rows only (C109); columns of times, lists and big numbers
  stay mixed, and indexing panics (C58); T[`a] of a table of one row is a scalar, T[3] of a table of
  one column is a scalar; T[⍳0] selects no columns, T[⍳0;`a] selects all rows; a row function on a
  table of 0 rows panics; assignment of a scalar to a table of 0 rows panics.

Channels
* a chained each leaks its goroutine after a close; closing a reshaped channel panics in a goroutine
  and ends the process; zip leaks its left sender after an error (C72); if the left channel is
  exhausted the function is called monadically; `<R` without axis sends 1+⎕IO times; f/C folds from
  the left; ↓C after f/C closes twice; a once-source never closes; ChannelReader starts with a
  newline, RuneScanner stops at an empty first string (C73); sendParseSubArray selects on the wrong
  channel (rank.go:290).

Programs, files, interfaces
* the parser's exceptions are listed in `Prop_Grammar.C90_excluded`.
* EvalFile ignores a scanner error: a line of more than 64 kB silently ends the file; of several
  files on the command line only the first is run (C125).
* writing to ⍺ through /v/ inside a function is accepted without effect (C118); mount examples of
  the README without trailing slash are rejected; a directory without trailing slash lists wrong
  names; `..` leaves the mounted directory (C119_escape).
* images: reading a pixel swaps row and column (C128), transparency is merged into red (C127), the
  palette argument is never accepted.
* xgo: an Int exported to a string becomes a character, other mismatches panic (C129); a Go function
  of three arguments with a left argument panics (C130); lower-case field names can be read but not
  assigned (C131).
* rpc: a monadic call after a dyadic one gets the old left argument; a panic in a function ends the
  server (C132).
* /t leaves T__ behind and a trailing diamond adds an empty statement; `/m x` with one argument is
  just `x` (C133).
* rank: a scalar left argument panics, two whole arguments never call F (C134).

Numbers behind pointers
* × of a complex number in the precise tower overwrites its argument (complex.go:136 calls abs on the
  original); a fraction that is used as negative exponent changes its sign (rat.go:143), so x*x is
  wrong for a negative fraction x (C135, C136).
* 0*¯2 panics, 0*¯1r2 gives 0 because the failed first attempt negated the exponent; ⌊ and ⌈ of a
  fraction go through float64; ¯1÷0 is +inf; machine integers wrap around in the exact tower (C136).
* ÷x in the precise tower has 53 bits; integers above 2*53 lose digits on import; ¯2*2 panics because
  float.go:142 compares f with itself; 0J0÷0J0 is +inf while 0.0÷0.0 is NaN (C137).

Choice of functions
* These calls fail a type assertion instead of giving a value or an error, and no others do so on
  entry (C139): X⌽Y, X⊖Y with X = ⍬; ⍬↑C for a channel; ⍬↓L for a list; X⍉5 for any X but ⍬; ⍸⍬; ⍪⍬;
  |'a', ~'a', 'a'|'b', 'a'∧'b' and the like for scalars that are no numbers; X+[⍬]Y for every
  elementary function; an axis that is an empty array but not ⍬ for ⌽ ⊖ , # ↑ ↓; ⍬/X and ⍬⌿X; f⍤⍬; f@⍬.
* In the program iv (io registered) ⍬!5 and !⍬ are commands: ToStringArray accepts every array without
  elements (C138).

Selective assignment through operators
* (5↑A)←X is an error when A is shorter, (5↑[1]A)←X is not: it drops the rest of X (C142). (cs⌿A)←X and
  (cs⍀A)←X are not implemented.

Formats
* ⎕PP←D reports "illegal type for PP" for every D, after having set the formats (fmt.go:28-50 falls through
  to the error) (C145). A format set for a type with ⎕PP is deleted for table cells without a format of
  their own (table.go:117-118); elements of array cells are printed with the format of the column before (C144).

Execute
* ⍎'A←1⋄B←2⋄3' prints 1 and 2, although assignments print nothing in a program, and all values are printed
  after the output the statements make by themselves (format.go:152-155) (C147).

Machine integers
* 4294967296 4294967296⍴1 is an array of that shape without elements (C02); 9223372036854775807⌽1 2 3 is
  2 2 3 (C06); the smallest integer as a drop count is taken for a take of about 2*63 elements (C11).

Complex numbers
* 11○x (the imaginary part) of a real number x is x, not 0 (float.go:228-229); 12○x (the phase) is its sign
  (float.go:232-238), while 12○ of the same complex number is the angle in radians (C151).
* ⌊¯1E¯20J0 is 0 although ⌊¯1E¯20 is ¯1: the fraction is rounded to 1 (complex.go:204-217) (C150).
* The floor of a complex number with a NaN or infinite part prints "unknown case" to the terminal (complex.go:215).

Times as text
* Durations between a microsecond and a millisecond print with the rune µ, which is no rune of a number: 1.5µs
  is scanned as 1.5 and an identifier (C154).
* With a print precision below ¯1, and for json and matlab, a duration prints as a time stamp of the year 0000:
  the text is computed and not used (time.go:51-57) (C154).
* 0500.01.01 reads as a time before the year 1000, which is a duration; it prints as 2562047h47m16.854775807s (C153).
* Floats of large magnitude print with an exponent e+21, whose + the number scanner does not take.
* io: the methods At and Set of the environment (io/env.go:48-70) have an additional argument, so the type is not
  an apl.Object and cannot be indexed or assigned.
* (A←5) prints nothing: parentheses leave no trace in the expression, so the sentence still counts as an assignment (C155).
* Executing the text of a vector of one element gives a scalar; the text of a matrix cannot be executed, since its
  newlines are not runes of the language (C156).
* V[⍋V] of a vector with one element is a scalar, as bracket indexing drops axes of length one (C157).
* JSON texts (¯2⍕V) are not JSON for negative integers (¯5, although negative floats are written -5), booleans (1b),
  the empty array (no text at all, so (⍬;) and the empty list have the same text), dictionaries with keys that are not
  strings, and strings with control characters other than backspace, tab, newline, form feed and return (C159).
* 0∨¯5 is ¯5: a zero argument returns the other one with its sign (elementary.go:495-505, C136).
* ⌊X of a float of more than 53 bits goes through float64 and can be wrong by one or more; such an integer is refused
  as an index although it fits (big/float.go:55-65, 177-184, C137).
* 1+A[1][2] and A[1][2][3] end the process: a bracket left of which something else stands is still on the parser's stack
  when mopReduce asserts that an adverb is an operator (parse.go:585), and a panic of the parser is not recovered
  (eval.go:18 covers the evaluation only); A[1][2] alone works (C162, C126).
* {(2=+⌿0=X∘.|X)⌿X←⍳⍵}0 ends in a panic instead of an empty list: the outer product of an empty array is not handled
  (dot.go:162, C38, C163).
* Closing a channel made by <⍤k C (so r k in iv) before its first line has been read ends the process: RuneScanner closes
  the control channel of the input and returns io.ErrClosedPipe, ScanRankArray looks only for io.EOF and reads again, which
  closes the same channel again; after the first line an Error value is sent instead (fmt.go:199-236, C164).
* A line of 64 kB or more ends the input of LineReader (io→r, iv) without an error: bufio.Scanner gives up and its error
  is not read (channel.go:150-169, C164).
* ,[k]A with a fraction k between ⍴⍴A+1 and ⍴⍴A+2 (index origin 1) is not refused as axis but indexes behind
  the shape: a panic instead of the axis error (comma.go:117-126, C16_ravel_axis_panic).
* L⍎S never reads a dictionary or a table: D, T and a dictionary or table as L end in a TODO error (object.go:158,
  table.go:170, C165_dict_refuted). A float array of whole numbers is refused with itself as L, because its text is
  that of integers and the types are then compared (fmt.go:168-187, C165_whole_refuted).
* A value that is sent to the channel of go→source is a race: the source polls its control channel without waiting, so
  the value either ends the channel or both goroutines block for ever (xgo/register.go:78-88, C166_source_send_refuted).
  Closing go→echo ends only by the random choice of select (C166_echo_close_refuted); before the first value it answers
  without its prefix, later with it (xgo/register.go:110,131).
* L⊥⍬ and ⍬⊥R panic, also for scalars L and R: decode indexes the shape of ⍬, which has no axes (decode.go:33-37,
  C54_decode_empty_refuted).
* ∧ computes the product first (C48_lcm_overflow_refuted): `1099511627776∧1099511627776` is 0, because lcm (elementary.go:475-495) multiplies before it divides and the product of two Ints wraps silently; whenever the product fits the result is the least common multiple (C48_lcm).
* C168: the mount table and the protocols belong to the process, not to the interpreter: a second interpreter finds the variables of the first one below /v/ (mounting /v/ again fails, and Register ignores the error; register.go:56-60), while var:// now is the second one's in both.
* C168: if the name of a protocol contains ://, two protocols can match one source, and which one is mounted depends on the order in which Go visits the map (mount.go:50-62).
* C169: ! with a program name that starts with a slash stores the name of the relocated program in the array that the caller passed (read.go:74). The same call then relocates it a second time and starts another program.
* C172: compareOut counts a newline of the expected text before it compares the byte (testing.go:137-143): if the first difference is at an expected newline, the line in the message is one too large.
* C172: testIvFile cuts the first character of the first line with prog[1:] (testing.go:87): an empty first line crashes the test.
* io→e returns an Env which is documented as an object whose keys can be assigned (io/env.go:14-18), but its At and Set take the interpreter as an additional argument (env.go:47,60), unlike the interface Object (object.go:31-36): the interpreter never treats it as an object. The file system below /e/ (C118) is the way that works. Env is not modelled.
* `Apl.Vars` (apl/var.go:123-146) says that it lists the root environment, but lists the innermost one: within a function `/v/` shows the local variables only, although every variable in scope can be opened (C174_root_refuted).
* `io.Env` (apl/io/env.go:47) has a method `At(a *apl.Apl, v apl.Value)`, not the `At(apl.Value)` of `apl.Object`: the environment cannot be indexed or assigned by key as the comment at env.go:15-16 says (seen by reading; method sets are not modelled).
* C175: Int.String writes the sign of a negative number after the prefix (int.go:29-41): ¯16⍕¯255 is `0x¯FF` and ¯8⍕¯15 is `0¯17`. Neither is accepted by ParseInt, so no negative integer is read back, and ⍎ of an array with one fails (C175_negative_refuted, C175_negative_array_refuted).
* C175: ParseInt uses base 0 (int.go:57), so 010 in a program is 8, and 019 is no integer but whatever the next number type makes of it (C175_leading_zero).
* C176: for print precisions below ¯1 a negative fraction is written with `-` (big/rat.go:28-31) and a negative big integer with `¯` (big/int.go:20-27): one of the two is wrong in every interchange format (C176_interchange_refuted).
* C176: a literal with a leading zero is octal if its digits and size allow it, and decimal otherwise: 017 is 15, 018 is 18, a 0 with 21 sevens is octal, with 22 decimal (C176_leading_zeros_refuted).
* C176: with a Go release before the fix of big.Rat.SetString, what follows the denominator is ignored: 3r4xy is 3r4 (C176_trailing_refuted).

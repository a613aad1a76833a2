# A Rocq model of libube

Subject: the C++ library in `/repo` (pgarner/libube), read as text, never built or run.
Prover: Rocq/Coq 8.16.1.  Sources in `rocq/theories`, logical root `Verif`.
Properties: `properties.jsonl`; theorem names per property: `MANIFEST.json`; mutation log:
`seeded/LOG.jsonl`, one edit of a model per line: `proofs_failed` are the proofs that no longer compile,
`theorems_failed` the theorems of the listed properties that rest on one of them, and
`theorems_tightened` those added or strengthened because the edit had gone unnoticed.

## Trusted base

* Coq's kernel, including its bytecode evaluator (`vm_compute` is used in `Example`s and in
  witnesses).
* Axioms: none.  `Print Assumptions` of every theorem named in `MANIFEST.json` answers
  "Closed under the global context".  (`vcheck` also lists seven names from
  `Coq.ssr.ssrunder`; these are the parameters of a module type that the standard library
  declares and that comes in with `Lia`/`ssreflect` plumbing; no theorem depends on them.)
* The correspondence between the C++ text and the model: each definition of a `*Model.v`
  file cites the file and lines it transcribes and says what it leaves out.
* The reading of the C++ standard and of libstdc++ that the model makes where the code calls
  library functions; see *Assumptions*.

No axioms, parameters, admitted proofs, functors, module types or plugins of our own.

## Conventions of the model

* C++ functions become total Gallina functions into an outcome type.  Pure layers use
  `Ok | Throw message | UB kind | Fuel` (`Base.v`); the memory layer a state monad with results
  `ROk | RThrow | RUB | RStuck` (`MemModel.v`).  `UB` marks undefined behaviour: null
  dereference, out of bounds, use after free, signed overflow, division by zero, reading the
  wrong member of a union, a failed `assert`.  `Fuel` is running out of the step budget of an
  unbounded loop: theorems either show it does not happen for a sufficient budget or that it
  happens for every budget (non-termination).  `RStuck` and `Throw "not modelled"` mark what
  is outside the model; no theorem counts on them as outcomes of the code.
* Files `XxxModel.v` hold definitions only, `XxxSpec.v` specifications that do not use the model's
  helpers, `XxxProof.v` and most `Mem*.v` lemmas, `XxxProps.v` the property theorems with an
  example each.
* A property that the code does not have is stated as what the code does instead; the theorem
  that shows the failure ends in `_refuted`, or says in its name what happens.

## Assumptions

* `char` is signed with 8 bits, `int` 32 bits, `long` and `intptr_t` 64 bits (x86-64 Linux).
  Integers are `Z`, with explicit range checks where the code can leave the range.
* `float` and `double` are `SpecFloat.spec_float` (standard library, no axioms) where their values
  matter (comparison, conversion).  Poly, sum and the broadcast loops are over an arbitrary type
  with arbitrary operations, or a commutative ring where the claim needs its laws; so rounding is
  either covered (`sum`) or not claimed (`poly`).
* The C locale for `isspace`, `toupper`, `tolower` and number formatting; libstdc++'s rules for
  `istream`/`ostream` state bits and `num_get`.
* Asserts are enabled; a failed one is `UB`.
* A var whose type tag is that of an array element type (`TYPE_VAR`, or `TYPE_PAIR` when read from a map) is
  `MBad`; the two are not told apart.
* Allocation never fails.  Fresh storage of a dense array is indeterminate (`MJunk`).
* Evaluation order inside one statement as in C++17 for assignment (right operand first);
  arguments are copies made by the copy constructor, destroyed at the end of the call.
* BLAS `axpy`, `scal`, `copy`, `swap`, `dot`, `asum`, `iamax` act as loops over consecutive cells, `gemm` as
  three nested loops adding from left to right; `std::sort` returns a sorted permutation (floating point: no NaN).
* Memory layer: element accesses are checked against the capacity, which is where the code really
  leaves the allocation.  Geometry layer: against the size, which is stricter.

## What is modelled

| file of /repo/lube | modelled in | what | left out |
|---|---|---|---|
| `ind.h` | `IndModel` | all | |
| `heap.cpp`, `heap.h` | `AllocModel`, `MemModel`, `ValModel` | `allocSize`, `resize`, `attach`/`detach`, `dealloc`, `append`, `shift`, `unshift`, copying, `lt`, `neq`, `at` | formatting; `cfloat`/`cdouble` elements (see `CplxModel`) |
| `var.cpp`, `var.h` | `MemModel`, `ValModel`, `NumModel`, `RangeModel` | constructors, assignment, `reference`, `dereference`, subscripts by number and key, `at`, `push`, `pop`, `insert`, `append`, `remove`, `shift`, `unshift`, `resize`, `presize`, `array`, `clear`, `copy`, `view`, `view(shape, type)`, `offset`, `advance`, `var({..}, v)`, `binary`, `sort`, `index`, comparison, `cast`, `irange`, `range`, initialiser lists, `var(n, v)`, `operator ,` | complex numbers (see `CplxModel`), `getenv`, functors as vars, assigning an array of one element to a view of one (`RStuck`) |
| `view.cpp` | `GeoModel`, `MemModel` | descriptor arithmetic, construction, offset and moving it, views of views | views of arrays of vars in the memory model |
| `func.cpp`, `math.cpp` | `GeoModel`, `ArithModel`, `RootsModel` | arithmetic of numbers, of nested arrays and maps with a number, functions of a number; on dense arrays and views `UnaryFunctor`, `BinaryFunctor`, `ArithmeticFunctor`, `NaryFunctor` broadcasting; add, sub, mul, set, sum, dot with a vector or matrix, asum, iamax, sort, swap, poly, concatenate, transpose dispatch, `roots` | transcendental functions (arbitrary element functions), complex asum, random numbers; `geev` in `roots` is an arbitrary function |
| complex numbers in `var.cpp`, `heap.cpp`, `func.cpp`, `math.cpp` | `CplxModel` | storage, `get`, `cast`, assignment, `at`, comparison, `copy`, `var(n, v)`, functions of one argument, `+`, `-`, `*`, `/` and their assigning forms | views, arrays of vars, strings, reference counts; arrays of real numbers on the left of an operator (`GeoModel`); `pow`, `sum`, `asum`, `iamax` are in `RedModel` |
| `Sum`, `ASum`, `IAMax`, `Pow` in `math.cpp` by type | `RedModel` | allocation, dispatch on the type, loops over one dimension | views (`GeoModel` has them for one type), arrays of vars, chars and longs; the numbers themselves are arbitrary |
| `dft-kiss.cpp` | `DftModel` | construction, `alloc`, `scalar`, `vector` | kiss_fft: an arbitrary function on rows, reading and writing the numbers of cells its configuration says; no configuration for odd real sizes; counting of instances; input that is not an array |
| `dft-mkl.cpp`, `transpose-mkl.cpp` | `MklModel` | construction, `alloc`, `scalar`, `vector` | the library's transforms and what it reports are arbitrary; its transpositions do what they are documented to, with a factor of one that changes no number; element types other than float and double in `transpose` |
| `clapack.cpp` | `BlasModel`, `RootsModel` | `gemm`, `tbmv`, `sbmv`, `axpy`, `scal`, `dot` over the reference BLAS | `geev` is an arbitrary function in `RootsModel`; the other LAPACK calls |
| `module.cpp`, `module.h` | `ModuleModel` | all | the dynamic loader counts openings; a library that keeps itself open is not told apart |
| `graph.cpp` | `GraphModel` | all | opening of the file |
| `transpose-adhoc.cpp` | `GeoModel` | both algorithms | element types other than float and double |
| `string.cpp`, `utf8.cpp`, `txtfile.cpp` | `StrModel` | split (both), join, strip, case, getline, len, text file | regular expressions: see the next row |
| string functors in `string.cpp` | `SfModel` | `StringFunctor` with `alloc` and `broadcast`, `Strip`, `ToUpper`, `ToLower`, `Search`, `Match`, `Replace` over strings, chars, numbers, arrays and maps | the engine (boost) is an arbitrary function; expressions it refuses, views, elements that share one string, `Search` and `Match` with an output that is the input |
| `stream.cpp` | `StreamModel` | varbuf and the unformatted istream/ostream members, `seekg` and `seekp` to a position, relative seeking, `tellg` | formatted input and output other than by characters |
| `curl.cpp` | `CurlModel` | `Curly::transfer`, `Easy::perform`, `writeCallback` on the memory model | libcurl calls the callback with arbitrary blocks and then succeeds or fails; address, options and global initialisation; `curl_easy_init` succeeds |
| `qwt.cpp` | `QwtModel` | `plot`, `curve`, `axes`: the numbers and titles given to Qwt | Qwt copies what it is given; how it draws, colours, fonts, events |
| `json.cpp` | `JsonModel`, `NumModel`, `ShowModel` | reader and writer, printing of views | printing of `double` (an arbitrary function) |
| `inifile.cpp`, `config.cpp` | `IniModel`, `OptModel` | reading, writing, `configFile`, `config`; `Option`: declaring, `parse`, `args`, `usage` | glibc's `getopt` is written from its manual (permuting, `POSIXLY_CORRECT` unset); its messages on standard error; `Option` used as a loop with an option string of its own; extra lines of help |
| `path.cpp` | `PathModel` | `dir`, `rdir`, `tree`, `bits` | the file system is a finite tree without links that does not change; `std::filesystem::path` for POSIX, where a path of several slashes counts as the root; permissions |
| `sndfile.cpp` | `SndModel` | `read`, `write` | libsndfile: sf_readf_float reads the frames left, sf_writef_float reads frames times channels values; 16 bit quantisation is an arbitrary function; attributes other than an int rate; products that do not fit an int |
| `gnuplot.cpp` | `ShowModel` | `write`, `puts` | the pipe: writing succeeds |
| `gedfile.cpp` | `GedModel` | all | messages on `std::cout`; one object reads one file; numbers of records are not bounded to `int` |
| `error::backTrace` in `var.cpp` | `BtModel` | the text and the memory left allocated | what `backtrace_symbols` and `__cxa_demangle` give is the input; `malloc` succeeds |
| `typeStr`, `atypeStr` in `var.cpp` | `TypeModel` | the names of types | the varstream used for the text is left out |
| `NaryFunctor` in `func.cpp` 301-411 | `NaryModel` | `alloc`, `operator ()`, `scalar`, `broadcast`, the array of arguments pushed part by part | the types of elements are codes; `vector` is arbitrary; an index beyond an argument or output (which would make it longer) is left out |
| `geev`, `gees` in `clapack.cpp` 235-293 | `LapackModel` | the arguments passed, and which result goes where | LAPACK itself (any routine meeting its documentation, written down in `LapackProps`); rounding; the width of Fortran's integers (`info` and `n` are `long`; a library with 32-bit integers writes half of `info`, which is not initialised); space on the stack for `work` |
| `Dot` on complex vectors in `math.cpp` 637-747, `clapack.cpp` 124-138 | `CdotModel` | `dot` of one-dimensional arrays, with `cdotc_` as a loop from left to right | views and matrices of complex numbers; the order in which BLAS adds |
| `xmlfile.cpp` | `XmlModel` | line feed, callbacks, writer | expat: its events are the input |

Not modelled at all: `throw.cpp`, which is a program that throws; the `timer` class.

## Agreement with the project's recorded test outputs

`RefTests.v` replays parts of `/repo/test/test-{var,json,ind,config,file,path,stream,math}.cpp` in the model and
compares with the lines of the corresponding `-ref.txt` files, which record what the compiled
program printed: array and map programs in the memory model printed by the JSON model, splitting and case, options,
configuration and ini files, the GEDCOM and XML samples, directory listings, tensors, sub-views, broadcasting,
transposition, products, concatenation.  There is no disagreement.  These are tests of the model on given inputs,
not proofs; the Example `var_95` is for line 95 of `test-var-ref.txt`, and so on.  Not replayed: complex numbers, regular
expressions, transcendental functions, the DFT's values, roots, sound files.

## Layers

* **Memory** (`Mem*.v`, `Arr*.v`, `Seq*.v`).  A state has the arrays (`mem`), their counts (`rc`) and the
  stack of vars (`stk`: the program's variables, above them parameters, locals and temporaries).
  Programs are lists of statements over all the methods; an exception is caught after the
  statement.  The main invariant `INV` (`MemTriple`) is: count of every allocated array = number of
  handles on it + what was lost (`e`), everything held is allocated, dense arrays hold no handles.
  It is proved for every method and lifted to programs in `MemRun`.  `MemFits` proves a second
  invariant (size within capacity), `MemDense` a third (elements have the type of their array, arrays keep
  their type).  `MemElem` … `MemSelf`, `MemText` describe each method exactly as a
  function of the state before; `ArrSpec` is the vocabulary for the properties and `ArrProps`, `ScalarProps`,
  `SeqProps` the properties.
* **Values** (`Val*.v`, `MapProof`, `EqProof`).  Immutable trees: comparison, binary search, maps,
  sort, index.  Maps refine finite maps.
* **Text** (`Str*`, `Utf8Proof`, `LineProof`, `Stream*`, `Num*`, `Json*`, `Ini*`, `Xml*`).
* **Geometry** (`Geo*`, `FunProof`, `CycleProof`, `PolyProof`).

## Properties

Every property has status *proved* in the manifest.  Many statements were amended when the model
showed the first version to be false; the last column says what the code does that one would
not expect.

| id | model and proof | remarks |
|---|---|---|
| C01 | `ind` over Z; arithmetic | negation overflows at the largest `intptr_t` |
| C02 | `allocSize` loop; invariant on the shifted size | above 2^30 the capacity is negative: a fresh array asserts, an existing one keeps its storage |
| C03 | capacity trace of resize; each reallocation doubles | |
| C04 | memory; `heap_resize_gives` | sizes below 2^30; `resize(-1)` asserts; resize of a reference to a map element replaces the variable |
| C05 | memory; `INV` | holders include the cells above the size, which keep what they held |
| C06 | memory; `INV` with `e = 0` | `unshift` after a shrink, and `a[0] = a[0]`, lose a count; the latter also leaves a var of type TYPE_VAR |
| C07 | memory; `post` allows `UseAfterFree` only under the stated conditions | witnesses: method on an element reference that is the sole owner; growing an array through an element that is the array itself |
| C08 | `SeqProps`, `edits`: any list of element operations | copy is one level deep |
| C09 | `SeqProps` | |
| C10 | `MemFits`, `SeqProps`, `MemText` | a write through what `pop` returned breaks the terminator |
| C11 | `MemArrays.exec_assign` | self assignment of a var element excluded (C06) |
| C12 | `ArrProps`, `MemThrow` | |
| C13 | `ArrProps` | `pop` returns a reference one past the end; on a string it reads NUL; the next push changes it |
| C14 | `MemList`, `ArrProps` | a reference to an own element would be read after the shift |
| C15 | `MemSelf` | overrun or overwritten spare cells |
| C16 | `MemCopy`, `ArrProps` | result is right only for arrays |
| C17 | `ArrProps` | keys and values come apart |
| C18 | `MemCopy`, `ArrProps` | |
| C19 | `ValProof`: codes ordered lexicographically | NaN and strings with NUL are no usable keys |
| C20 | `ValProps` | `Heap::lt` answers as soon as one element is smaller |
| C21 | `EqProof` | element type and map keys are ignored |
| C22 | `ValProps` | `nil == nil` and `nil == x` dereference null, `"" == nil` is true |
| C23 | `ValProps`; loop invariant | |
| C24–C26 | `MapProof`; refinement to finite maps | nil key gives a temporary |
| C27 | `ValModel.at` | nested `at` reads the outer container |
| C28, C29 | `EqProof` | |
| C30–C32 | `StrProof` | empty separator never returns |
| C33 | `StrProof` | blank string: out of bounds; out-of-place form writes freed storage |
| C34, C35 | `Utf8Proof` | |
| C36, C37 | `LineProof` | 0xFF is appended to an unterminated last line |
| C38 | refinement to a tape with a position | byte 0xFF reads as end of file; positions are kept in 32 bits; relative seeking always fails |
| C39 | fuel bounded by the text length | conversion out of range and array pushes onto numbers are the two exceptions |
| C40–C43, C59, C60 | `JsonRound`; induction on values in context | no escaping; integers read as `long`; `3.14` reads 3; `[1]` reads as the number; the number reader eats the closing bracket; truncated objects accepted |
| C44, C45, C61 | `IniProof`; fold over lines, nested maps | written files cannot be read back |
| C46, C47, C68–C70 | `XmlProof`; grammar of events and of text | lines are glued together; numbers are lost |
| C48–C50 | `GeoProof`; induction on shape | negative offsets and dimensions accepted |
| C51 | `ValProps` | views compare by descriptor only |
| C52, C53, C62–C67 | `FunProof`, `PolyProof`; loop invariants | one-element right operand read as a number; sum of two arrays asserts; longer right operand overruns; swap of matrices overruns; dot with a one-element array does not return |
| C54, C55 | `CycleProof`; the permutation's cycles | dimension 1 throws |
| C56 | over any commutative ring | |
| C71–C73 | `MemScalar`, `ScalarProps` | `presize(n)` below the size of a string overwrites character n; `pop` of an empty array asserts, `shift` of one runs out of bounds |
| C74–C79 | `MemMap`, `MemLook`, `MemMaps`, `MemMapProps` | `m[a] = m[b]` with a new `a` in front of `b` throws and leaves a broken entry; keys are shared with the variables they came from, so changing one breaks the order |
| C80–C85 | `GedModel`, `GedSpec`, `GedProof`, `GedTotal`, `GedProps` | an unknown tag ends the file; MARR without deeper lines swallows the rest of its family; a family before all persons throws; an empty file is undefined behaviour; an unopened file is read for ever |
| C86–C89 | `MatProof`, `MatProps`; loop invariants over the broadcaster | the product of a stack of matrices looks at the wrong dimensions: it throws, leaves rows unset or overruns; `sort(a)` always throws |
| C90–C92 | `OptProof`, `OptProps`; a command line is a list of groups and plain words followed by an end or a mistake, and `getopt` is shown to give their uses; every line has such a form | a flag given twice throws; mistakes end the program with status 0 |
| C93–C94 | `PathProof`, `PathProps`; induction over trees; sorted maps are determined by their entries | `tree` gives nil for files and for empty directories |
| C95–C96 | `DftSpec`, `DftProps`; rows by `unary_ok`, overruns by `for_over` | rows shorter than the transform are read past their end; odd real sizes give a null configuration |
| C97–C98 | `SndProps` | more than one channel can neither be read (throws) nor written (reads past the end) |
| C99–C100 | `ShowSpec`, `ShowProps`; loops that print as separated texts | gnuplot gets an empty line after a matrix; a bare string sends only empty lines |
| C101–C109 | `ArithSpec`, `ArithProof`, `ArithProps`; arithmetic on the tree values with what the variable holds when an operation stops half way; IEEE operations are those of `Coq.Floats.SpecFloat` | `a + 1` on an array of vars overwrites a pointer; `a += a[0]` uses the changed element; adding texts asserts; `sin` of a map loses the keys; `3 * 0.5` is 0 |
| C110–C113 | `MemOp`, `MemFind`, `OpProps`; the arithmetic, `at(var)` and `key(int)` of the memory model; numbers only, arrays are C136 | `m[k] += 1` on a missing key throws and leaves the key with no value; `a[0].at(k)` refers into `a` and not into the map |
| C114–C115 | `MemInit`, `InitProps`; the constructors from an initialiser list and from a size and a value, as statements of the memory model. The elements of a list are variables, numbers, nothing or elements of arrays; the elements are made in order before the constructor runs and live to the end of the statement. Both constructors delegate to `var()`, so an exception in them runs the destructor | `var a = {1.3f, 1.2, 45}`, the README's example, throws; `var x(1, 5)` is a number and no array |
| C116 | `MemComma`, `CommaProps`; `operator ,` appends to its left side and gives a copy of it as a temporary, which shares the array. The first number is any operand, the others are constants or other variables: an element `b[i]` as operand is a reference, and `append` makes an array of what it refers to (see C71) | `a = 1, 2.5` is `{1, 2}` |
| C117 | `RootsModel`, `RootsSpec`, `RootsProof`, `RootsProps`; `Roots::vector` for one vector, with memory access checked. The field is arbitrary (record `exact`), so rounding is not covered; `geev` is an arbitrary function of the matrix, and the theorems say what it must satisfy: results are eigenvalues, eigenvalues are results | roots of a polynomial of degree one always throws: the coefficients without the first are one number, and `var(1, x)` is a number and no array |
| C118 | `BlasModel`, `BlasProof`, `BlasProps`; the wrappers over BLAS, with xGEMM, xTBMV, xSBMV, xAXPY, xSCAL and xDOT written from the reference implementation, columns first. Any operations on any type; `C118_ring` states the product as a matrix product in a ring. XERBLA stops the program (here `Throw`) | out of place, `a * b` goes through xSBMV, which adds the product to 0: -0 becomes 0, where `a *= b` keeps it (`C118_sign_of_zero_refuted`). `GeoModel`'s out-of-place product does not show this |
| C119 | `GraphModel`, `GraphProps`; boost's adjacency_list and write_graphviz written from their sources; `limit` is the number of vertices a vector can hold. Failure to open the file is ignored by the code and the model | `addEdge(-1, v)` writes outside the vector: the number of vertices wraps to 0 |
| C120 | `ModuleModel`, `ModuleProps`; a program is a list of statements on module objects, its result the calls of dlopen, dlclose, factories, destructors and virtual functions in order. What these calls require (`allowed`) is stated on the calls alone. A throwing statement is followed by the next one | the class can be copied, and a copy deletes the instances again (`C120_copy_refuted`); a library without a factory is never closed, since the constructor throws after opening it |
| C121 | `MemDense` (invariant of every method, with what is known of an array for the rest of its life), `DenseProps` | a dense array has uninitialised elements after `resize` |
| C122 | `CurlProps`, on the memory model: the blocks are appended to a string variable that goes with the object | the total must stay below 2^31 bytes |
| C123 | `QwtProps` over the array model of `GeoModel` | neither the type of the data nor the existence of a plot is checked |
| C124 | `MklProps`: both results are the unique memory with the same cells | the block of `imatcopy` is taken to be copied back as a whole |
| C125 | `MklProps`, through the lemmas of C95 for any configuration | a failing row leaves the rows before it written |
| C126 | `CplxProps`: induction on the depth of calls | a `cdouble` cannot be compared; neither can it be a key of a map or be sorted |
| C127 | `CplxProps` | assignment from element to element loses the imaginary part of a `cdouble` |
| C128 | `CplxProps` | only the first `cdouble` of an array takes part |
| C129 | `CplxProps` | only the first `cdouble` of an array takes part |
| C130 | `CplxProps` | complex arrays cannot be copied |
| C131 | `SfProps`: induction on trees | keys are lost by the functors that return new values; numbers are not skipped but recursed on for ever |
| C132 | `SfProps` | none |
| C133 | `RedProps` | `sum` of `cdouble` arrays is wrong; `asum` and `iamax` have cases for complex numbers that cannot work |
| C134 | `RedProps` | `pow` in place shrinks an array of `cdouble` |
| C135 | `MemViewProps` | spec in `MemViewSpec`; overlapping copies repeat elements, views of int throw |
| C136 | `MemArithProps` | spec in `MemArithSpec`; in place only, on arrays and views of numbers; arrays of vars on the left, dividing by an array and `a + b` giving a new array are left out; `a -= a[0]` uses the changed element, a longer right operand writes past a view, `s += t` on an empty string divides by zero |
| C137, C138 | `MemMakeProps` | spec in `MemMakeSpec`; arrays and views of anything but vars; negative offsets, which the code accepts, are left out; `offset` moves every variable that shares the view |
| C139 | `MemMakeProps` | the type may be a number, nothing or a variable that is an array; an element of an array and a view are modelled but left out of the theorems; `view({2, 2}, a)` of an array variable resizes `a` itself, and all but the first new element are uninitialised |
| C140 | `MemMakeProps` | the value is a number; arrays are modelled but left out of the theorem |
| C141 | `BtProps` | spec in `BtSpec`; a symbol without brackets, which `throw.cpp` suggests is what crashes on mac, writes through a null pointer |
| C142 | `MemNest`, `MemNestProps` | two levels, of a map in a variable; subscripts through a reference kept in a variable are in the model but left out of the theorems (C07 has the one that is undefined behaviour) |
| C143 | `MemEntry`, `MemEntryProps` | arrays under a key of a map in a variable; subscripts inside the array; a push of a number on an undefined entry; that the keys stay in order fails for a string that is its own key: `C143_order_refuted` |
| C144 | `TypeProps` | `typeStr`, `atypeStr` (var.cpp 977-1029, model in `TypeModel`); `atypeStr` of an undefined var is undefined behaviour: `heap()` is null and `type()` says array |
| C145 | `NaryProps` | `NaryFunctor` (func.cpp 301-411, model in `NaryModel`); arguments with just the common dimensions before one with more throw or read a pointer as a number; the default `vector` names `UnaryFunctor` |
| C146 | `LapackProps` | `geev`, `gees` (clapack.cpp 235-293, model in `LapackModel`); passing rows as columns and exchanging `vl` and `vr` gives, for pairs of complex eigenvalues, the eigenvectors of the conjugate (`C146_lapack_convention_refuted`) |
| C147 | `CdotProps` | `dot` of complex vectors (model in `CdotModel`); `assert(type(iVar1) == TYPE_ARRAY)` in math.cpp 665 fails for every array of cdouble, as `type` (76-82) reports these as numbers |
| C148 | `TextNumProps` | the value of `cast<double>`, `cast<float>` of text (model `extract_float` in `NumModel`, standing for libstdc++ num_get); the grammar of numbers (`sign_text`, `frac_text`, `exp_text`) is stated on its own; "nearest" is SpecFloat's rounding of the exact decimal |
| C57, C58 | induction | empty sum divides by zero; no progress with step 0; mixed types compare by type |

## Defects found in the code

Besides those in the table:

* `a.push(a.pop())` on an array of vars runs into the self assignment of C06.
* `insert` of a reference to a scalar element of an array of vars turns that element into an array.
* `at(int)` has no upper bound check; `at(-1)` returns the array; `at(key)` on a scalar dereferences null.
* A keyed subscript of a scalar goes to the dense insert and dereferences null.
* `==`, `!=` and `<` on two variables with a `cdouble` call themselves without end: `Heap::at` makes an array of one
  for each element.
* `StringFunctor::broadcast` recurses for ever on a number (`at(0)` of a number is the number); `StringFunctor::alloc`
  drops the keys of maps; `var::is` does not see that two references to one char are the same, so changing the case of
  a char in an array empties it.
* `Heap::copy` has no case for complex numbers; `Cast` takes the real part of an element of type `cdouble` even when
  the target is `cdouble`; a `cdouble` variable cast to anything else is its heap pointer.
* `type()` in `math.cpp` takes any array of `cdouble` for a number, so functions and operators see one element.
* `join` changes elements of its argument that are not strings.
* Shifting array elements that are views of the same shape copies data instead of handles.
* `Poly::alloc` makes a `cfloat` array for `cdouble`; `Dot` uses `shape(0)`, `shape(1)` of the first operand,
  which is wrong above two dimensions; array/array and `pow` with an array always throw.
* `View`: the first index is multiplied before any bounds check, so it can overflow.
* Ini: text after a second separator is dropped; a blank value after `=` is undefined behaviour;
  section names are not stripped.
* JSON: `{:5,}` reads as `{}`; `[1 ]` reads as 1; an empty array reads as nil.
* The README's `var a = {1.3f, 1.2, 45};` throws `push(): Incompatible types`.
* An empty XML file reads as nil without an error.

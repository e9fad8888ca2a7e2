# Formal model of geoneric/fern in Coq 8.16.1

Paths and line numbers refer to files under `/repo/source/fern/`. The properties are in
`properties.jsonl`, what is proved for each in `MANIFEST.json`, the wrong programs tried
against the theorems in `seeded/LOG.jsonl`.

## 1. How the code is modelled

* **Memory and tasks** (`LangModel.v`, `LoopModel.v`). Algorithms that traverse arrays are
  programs of single memory accesses: reads and writes of value cells and mask cells of
  numbered buffers. An access outside a buffer, and everything else that is undefined
  behaviour in C++ or a failed assertion, makes the run fail (`None`, `UB`), which is distinct
  from every normal result. Values are of an arbitrary type `V`, so the theorems hold for
  integers and floating point numbers alike; no law about `V` is assumed unless a theorem
  says so. Buffers have identities, so aliasing (result = argument) can be expressed.
* **Concurrency** (`ConcModel.v`, `PoolModel.v`, `QueueModel.v`). A parallel algorithm is a list
  of tasks; a schedule is a list of choices of the thread that performs its next single memory
  access. Two accesses race if they are by different tasks, to the same cell, and one is a
  write. The thread pool (queue, condition variable with timeout, done flag, futures) and the
  queue (mutex) are transition systems with an executable step function.
* **Integers** (`IntsModel.v`, `ArithModel.v`). Fixed-width C++ integers with promotion, usual
  arithmetic conversions, modular conversions, and signed overflow that is either undefined or
  wraps, as a parameter.
* **Floating point numbers** (`FloatModel.v`). The IEEE 754 formats and operations of the standard
  library's `SpecFloat`, which are functions on integers; `IeeeProofs.v` proves that they round to the
  nearest number. NaN has no payload; exceptions leave no trace.
* **Language** (`AstModel.v` and the files on it). Syntax trees with numbered vertices, and
  visitors as Gallina functions on a state; assertions and exceptions are outcomes.

Files named `*Model.v` hold definitions that cite the code; `*Spec.v` small specifications
that do not use the model's helpers; `*Proofs.v` lemmas; `*Props.v` the property theorems, a
concrete non-trivial case of each, and `Print Assumptions`. Where the code does not do what one
would expect, the property is stated as what holds, and a theorem with the suffix `_refuted`
(or a name that says so) shows a concrete case in which the expected statement fails.

## 2. Per property: model and proof

| Property | Model | How it is proved |
|---|---|---|
| C01-C04 | `IndexModel`: `index_range(s).{h,cc}` on unbounded sizes with wrap-around of `size_t` | concatenation of blocks equals `0..n-1`; division with remainder |
| C05-C07, C09 | `LocalModel`, `PolicyModel`: the loops of the `*_local_operation.h` headers, fill and defined | loop rule by induction on the range; one specification of an element; frame |
| C08 | `LocalModel`: `n_ary_local_operation.h` | fold; witnesses |
| C10, C30 | `ConcModel` | commuting steps, induction on interleavings; blocks have disjoint footprints |
| C11, C12 | the same loops with the result's buffer as argument; conversions at the reference of the wrong type | loop rule; witnesses |
| C13-C19 | `ArithModel`: range and domain policies on fixed-width integers | case analysis, `nia`; finite sweep over the types |
| C20, C21 | `AggModel`: `unary_aggregate_operation.h` | fold over valid elements; merge homomorphism; schedules by C30 |
| C22-C25 | `AccumModel`: the accumulators as records with add and merge | induction on sequences; permutations and sortedness |
| C26 | `CountModel`: `statistic/count.h` | as C20, C21; witnesses of races |
| C27, C28 | `PoolModel` (`PoolSim`, `PoolLive`) | invariants over all schedules; simulation; decreasing measure under fairness |
| C29 | `QueueModel` | linearisation points, refinement to a FIFO |
| C31-C34 | `CoreModel`: cover, if, clamp, merge/unite/intersect_no_data | loop rules |
| C35-C37 | `CopyModel`: copy, compress, decompress | loop rules; parallel two-phase compress (`CompressProofs`, `MoveProofs`, `FrozenProofs`) |
| C38 | `CopyModel`: offset | index arithmetic (`OffsetProofs`) |
| C39 | `CastModel` | finite sweep, loop rules |
| C40-C43 | `ConvolveModel`: nine regions, policies | partition of the cells; windows; loop rules |
| C44 | `GradientModel` | loop rule with case analysis |
| C45 | `SymbolModel` | refinement to scoped environments |
| C46, C47 | `FlagModel` | finite sets; sweep over the bit sets |
| C48, C50 | `ExecModel`, `IoModel` | structural induction; denotational meaning of modules (`ExecSpec`) |
| C49, C57 | `AnnotateModel` | structural induction |
| C51 | `IdentifyModel` | structural induction; lexical scoping as a function |
| C52 | `OptimizeModel` | invariants of the two passes; equality of meanings |
| C53, C54 | `StringModel` | induction on strings |
| C55, C56 | `GuardModel`, `MaskedModel` | induction over histories |
| C58 | `InterpretModel` | invariant relating the annotation and the execution visitor |
| C59-C61 | `VectorModel`: slope, laplacian and lax as sequences of calls of convolve and local operations | composition of the proved calls, one invariant per cell; exact rational arithmetic (`VectorExact`) |
| C62, C63 | `FloatModel`: arithmetic, range and domain policies and comparisons of integers and IEEE numbers (`Coq.Floats.SpecFloat`) | rounding of `SpecFloat` proved correct in whole numbers of the smallest step (`IeeeSpec`, `IeeeProofs`) |
| C64-C66 | `MathModel`: domain and range policies of sqrt, logarithms, trigonometry, pow, tgamma and factorial on IEEE numbers; library functions are parameters except sqrt | case analysis on values in units; the root of `SpecFloat` proved correctly rounded; parity of mantissas for multiples of a half pi; hypotheses about the library in the statements |
| C67 | `ThreadModel`: the visitor that links syntax trees, with function definitions, calls and return statements; the runs of a script are an independent big-step specification (`ThreadSpec`) | paths of graph segments, composed along the tree (`ThreadRunProofs`); acceptance by induction in both directions (`ThreadAcceptProofs`, `ThreadRefuseProofs`) |
| C68 | `ScriptModel`: writing Python's tree as XML and reading that into vertices; `XmlModel` (markup of elements, attributes and text), `DecimalModel` (numbers as text); what a script denotes is an inductive relation (`ScriptSpec`) | well-formed trees survive writing and reading as text (`XmlProofs`); the writer's text is that of a tree, the reader's result is what the script denotes, by induction (`ScriptProofs`) |
| C69 | `DecimalModel`: `boost::format("%1%")` of a double (six digits) and reading `xs:double`; both library code and trusted | what a decimal number stands for is specified in whole numbers of 2^-1074 (`DecimalSpec`); rounding to even proved unique and `SpecFloat`'s correct (`RoundProofs`); six digits closest (`SixProofs`); survival by the distance of decimal numbers and the parity of ties (`DecimalProofs`) |
| C70 | `FeatureModel`: features as objects in a heap (they are shared), `std::map` as a sorted list, `filename` and `parent_path` of std::filesystem on POSIX (trusted), assertions as a switch | relations `child`, `has`, `leads` (`FeatureSpec`); maps and paths by induction on lists and texts (`FeatureProofs`) |
| C71 | `RasterModel`: rasters of the Python extension as objects in a heap, cells of all value types (`ArithModel`, `FloatModel`), policies that read the argument and write the result by reference, the switch on value types, assertions and wrapping as switches | what is read at a cell and what sums and products are is in `RasterSpec`; the loop over all indices by an invariant (`RasterProofs`), single cells from C13, C15 and C62 (`RasterCells`) |
| C72 | the same, with `static_cast` of the number | conversion specified by value (`converts`, `inconvertible`); cells as C71 |
| C73 | `in_place`: result and first argument are the same object, so the range policy reads what has been written | the loop's invariant lets the reread arguments depend on the result; integer cells recalculated (`RasterCells`) |
| C74 | comparisons and `if_cell` | as C71; comparison of floating point numbers from C63 |
| C75 | `of_sizes`, `of_lists`; Python lists have been converted to numbers of the type | induction over the list of pairs of indices |
| C76 | `FileModel`: files as records of what GDAL keeps of them; `read_raster` opens the file twice, by its name and by the database part of it (C53) | cells by the loop of `RasterProofs`; the no-data value of every type survives the conversion to a double and back (computed for each of the seven types) |
| C77 | `StoreModel`: a dataset as a map from paths to groups, scalars and arrays; what HDF5 functions do for missing objects is stated at the top | `contains_feature` characterised by induction over the path; writes keep the invariant that all above an object is a group; histories by induction from the end |
| C78 | `DriverModel`: files by their names, drivers by theirs; `can_open` returns the files it leaves behind; GDAL's drivers are parameters | induction over the drivers to try; scripts by C53 and C77; histories by induction from the end, with an invariant on the trees in new files |
| C79 | `CommandModel`: values, files and drivers as in C78; the files are part of the result also if there is an exception | decimal numbers by induction from the end; values by induction over the number of arguments and of results |
| C80 | `CompileModel`: the texts that `CompileVisitor` puts into the skeleton of the class, which itself is left out; operations by their names | text of an expression by induction; counts of parentheses; C50 for inputs and outputs; a small C++ semantics in the specification for what is compiled right |
| C81 | `FieldModel`: files as records of what GDAL keeps of them, with masks; `RasterIO` of a window row by row; boxes are calculated with doubles | cells by their row and column in concatenated rows; exact boxes by the rounding lemmas of C62 |
| C82 | `ToolModel`: a state of files, output, errors and executed scripts; parser, interpreter and visitors are parameters | options by induction over the words; frames of each way of writing composed along the commands |
| C83 | `FlowModel`: lines of the graph by the addresses of the vertices, with the links of C51; the surrounding text is left out | edges and vertices by induction over expressions and statements, with C51 for the links; clusters by induction with a depth |
| C84 | `PrintModel`: the text the visitor has printed; expressions add to it | `PrintSpec` is a grammar of texts, independent of the printer; texts are read by induction over what a script denotes (C68), and the text determines the tree by induction with what may follow an expression, a statement and a block |
| C85 | `TreeGraphModel`: lines of the graph by the addresses of the vertices, over the trees and successors of C67; types and uses are given | all vertices are made alike (own lines, children, end), then induction over trees; clusters by what leaves the open clusters as they are; order by counting addresses |
| C86 | `RefModel`: a heap of counted objects, instances with what they layer, histories of calls | invariant: counts are the references of a ledger of who holds what; freeing by induction over the size of the heap; `RefSpec` says what callers may do |
| C87 | `RefModel`: the error that is set, its tuples, the exception and the scopes of the references | each scope gives back what it took (the invariant of C86), the tuples are followed by computation |
| C88 | `ClientModel`: static counts, registries and the state of Python; histories of clients and parses | invariant by induction over histories from the end; the count of parsers modulo 2^16 |
| C89 | `MessageModel`: the table of messages, `boost::format` for positional directives, the exceptions and how the interpreter makes them | computation on the fixed texts with arbitrary arguments; places by the first colon after a number |
| C90 | `CoardsModel` (NetCDF's functions as their documentation says; texts and paths as in C53/C54, errors as in C89) | the spec of separated texts (C54) gives what is listed; case analysis over the checks gives both directions of what is read and which errors are thrown |
| C91 | `HandleModel`: what is open, the handles that exist and what they hold; libraries may give numbers again | invariant (a permutation between what is open and what is held) by induction over histories; a second invariant for what is lost |
| C92 | `NumpyModel`: blocks of bytes, rasters and arrays over them, types as widths and what their bits say | reading back what is written in little-endian bytes for each width; invariant (every object has a block of its own, of the right length) by induction over histories; frame by offsets that do not overlap |
| C93 | `UncertModel`: names in namespaces, the generated parser for normal distributions and its callbacks, on documents as in `XmlModel`; numbers are parameters | the spec (`UncertSpec`) describes documents without the parser; both directions by induction over the content; the text of a document is read by `document_good` (C68) |
| C94 | `FunctionModel`: statements with definitions and returns, all visitors but the thread visitor | structural induction (own principle for nested lists): each visitor equals its counterpart on the inlined script (`FunctionSpec.inline`); the rest from C57, C58 and a monotonicity of bound names |
| C95 | `FloatAccumModel`: the accumulators for `float` and `double` on `SpecFloat`, in the loops of `AggModel` | the first best value of an order as a fold that is associative on what is not NaN, so that merging blocks is accumulating (`mergeable`), then C20 and C21; C05 for pairs |
| C96 | `FloatAccumModel`: sum, mean, variance and standard deviation on `SpecFloat`; the square root is `SFsqrt`, as in C64 | induction over the values with C62's rounding of one sum; exact sums have one representation (`canon`), so that merging is accumulating; signs of squares, sums and quotients for the variance |
| C97 | `WholeModel`: rounding to whole numbers on mantissa and exponent, as annex F of the C standard describes it (the C library is trusted to do that) | quotient and remainder of the mantissa by a power of two; results fit in the mantissa; one result by `C97_unique`, from which the others follow; C06 and C10 for rasters |
| C98 | `FloatMedianModel`: median and mode on `SpecFloat`; `std::sort` is any function that sorts values with a weak order, the frequency table is visited in any order, its keys are compared by `==` | values as integers (`key`), so that sorted lists are unique but for zeros; double of a number is one or overflows, so that the rounded half does not pass the two in the middle; invariant of the frequency table |
| C99 | `CoreModel`'s functions with the comparison in `FloatClampModel`, and the sign of a number | C33 for the loops; comparison of floating point numbers by C63; case analysis on values as integers (`key` of C98) |
| C100 | `NanModel`: the policies by value of `PolicyModel` with the comparison of floating point numbers | comparison by C63; what a result holds after marking, by C06, is what the next operation reads |

## 3. Trusted base

* Coq's kernel (8.16.1).
* The axioms that `Print Assumptions` lists: for every theorem of the `*Props.v` files it prints
  "Closed under the global context", so there are none. The development uses the standard
  library only (`ZArith`, `List`, `String`, `Lia`, ...). Loading `Lia` loads
  `Coq.ssr.ssrunder`, whose module parameters a scan of all loaded files reports; no theorem
  depends on them.
* The reading of the C++ code: each definition cites the lines it models and names its
  simplifications.
* Assumptions about C++: sequential consistency for programs without data races (C++11);
  two's complement, 8/16/32/64-bit integers, 32-bit `int`, 64-bit `size_t`; the standard library
  behaves as its specification says.

## 4. What is not modelled

File formats and drivers (GDAL, HDF5, NetCDF; what C76 and C81 need of GDAL, C77 of HDF5 and C90 of NetCDF, is stated at the top of
`FileModel`, `FieldModel`, `StoreModel` and `CoardsModel`), Python's parser (the model of scripts starts at the tree it gives) and the conversions
of Python objects by Boost.Python (C71 to C76 model the functions that are bound), the XML library beyond `XmlModel` (which is trusted to be what
the library does with documents as fern writes them: no comments, processing instructions, CDATA
sections or character references, bytes above 127 taken as they are), the fixed skeletons of generated C++ (C80 models what is put into them),
the texts of help, the interactive prompt, the parser of documents of operations (`operation/xml`, which is unfinished: it ends in `assert(false)` for each operation), the distributions of UncertML other than the normal one (there is no code for them), expression trees (`source/fern/expression_tree`, which does not compile at this commit: its data is copied and holds masked arrays, which cannot be copied), floating point
rounding outside of C62 to C66 and C95 to C100 (elsewhere values are abstract where floating point numbers can
occur, and functions such as `sqrt` and `sin` are parameters), template overload resolution (each instantiated variant is modelled
by hand), and memory allocation. Function definitions and return statements of the language are
modelled for threading (C67), for writing and reading scripts (C68) and for annotation, validation and execution (C94).

## 5. Findings

Cases in which the code does something else than its users would expect. Each is stated by a
theorem of that property, with two exceptions that follow from reading the templates and are not
theorems: that code does not compile (C33), and why a policy is not reached (C39, where the theorem
says for which types a policy exists).

* C03: more blocks than documented (2n-1 for n threads).
* C08: n-ary operations ignore no-data in the third and later arguments, and can miss
  out-of-range steps.
* C11: in-place checked operations miss overflow.
* C12: the second argument of mixed-type 1D operations is converted to the type of the first.
* C13: for operands of mixed signedness correct sums are rejected (-1 + 5u), and wrong sums are
  accepted for a `uint64` of at least 2^63.
* C14: for a `uint64` of at least 2^63 minus a signed value every accepted result is off by 2^64,
  and correct results are rejected.
* C15: products that equal the minimum of a signed result type are rejected; products of two
  `uint16` values of at least 2^31 are undefined behaviour.
* C16: `MIN / -1` is undefined behaviour for 32 and 64 bits, and an undetected wrong result for 8
  and 16 bits; a `uint64` of at least 2^63 with a signed operand gives an undetected wrong quotient.
* C19: comparisons of mixed signedness whose common type is unsigned take a negative operand modulo
  2^32 or 2^64, so that -1 < 1u is false.
* C18: the result type does not represent both operand types for `uint64` with a signed integer, a
  32- or 64-bit integer with a 32-bit float, and a 64-bit integer with a 64-bit float.
* C20: in 2D it is ignored whether the result is within range after the first value, if there are
  other values.
* C21: parallel checked sums of signed values can be no-data where the sequential sum is not;
  partial sums are narrowed when merged.
* C24: the mean divides by a wrapped count (even by zero); a default-constructed mode counts a
  zero that was not there; range and median overflow.
* C25: merging checked counts adds one, whatever the second count is.
* C26: a raster whose first row is no-data is not counted; in parallel, a block without valid
  elements marks the result, or counts as 0 if missing data are marked by value, and two such
  blocks race.
* C28: notifications can be lost; queued tasks are dropped on destruction and their futures never
  become ready.
* C33: two shape combinations of clamp do not compile in parallel.
* C35: parallel copies of empty ranges are undefined; parallel copies within an array race.
* C37: elements behind the compressed ones differ; a small count type corrupts the result.
* C38: `int` offsets of arrays with 2^31 to 2^32-1 elements are undefined behaviour.
* C39: the policies from integers to floating point types cannot be reached.
* C41: supplied values with weight zero count, so that the divisor can be zero; boolean kernels
  treat no-data below false weights differently in the border and the inner region.
* C43: images of exactly 2*radius rows or columns are read outside; a no-data value without
  valid neighbours fails an assertion.
* C44: a single column or row fails assertions.
* C47: `int16` is missing in the inference; results of unary operations are not checked.
* C48: if and while are never executed, subscripts are ignored, the result of an operation
  without results is whatever is on the stack.
* C49: argument types are passed to operations in reversed order.
* C50: outputs are lost when two names are redefined; names the module defines itself are
  reported as inputs.
* C51: definitions in branches are not linked to uses after the branch; identifying a module
  twice fails an assertion.
* C52: inlining loses names in chains, changes values if names are reassigned, and fails an
  assertion if a temporary name is used within an expression.
* C53: names with line ends fail an assertion.
* C55: moved guards call their function twice; releasing the source does not stop the target.
* C56: ragged rows are not checked, and can be written outside of the array.
* C58: the interpreter's annotation and execution get out of step after rejected or only
  validated modules and dropped sources; assignments in branches are accepted and not executed;
  the library's `add` has no result and `int32` fails an assertion.
* C59: slope marks nothing if the types of its collections have no mask although the policies have
  one: no-data becomes a valid slope of 0. If no-data is marked by value, the square root of the mark
  is taken. Without marking, marks left in the mask of the result suppress the square root, and sums
  out of range look like a slope of 0. Rasters with two rows or columns are read out of bounds.
* C60, C61: if no-data is marked by value, laplacian and lax calculate with the marks.
* C57: what is assigned in one branch counts as assigned in the other one and behind; subscripts and
  attributes have no type, so their values cannot be used.
* C62: the sum of an integer and an infinity or NaN is not marked, and their difference fails an
  assertion (without assertions it is not marked either).
* C63: integers of more than 24 bits are rounded before they are compared with a float.
* C64: the logarithm of zero, minus infinity, is not marked.
* C64: pow marks minus infinity to a power that is not whole, although the result is finite.
* C65: tan's domain check finds 1, 3, 5, 7 and 9 times the nearest double to a half pi only, and its
  conversion to `int64_t` is undefined for large even multiples (for instance the double
  2^63 times that number).
* C66: factorial converts the result to the integer type before the range policy is asked: undefined
  behaviour for each factorial that does not fit, and for the largest int32_t and int64_t (`value + 1`).
* C67: threading fails an assertion for every script with a while statement (visiting one is
  `assert(false)`, to be done), with two calls of one function of the script, with a return statement in
  a branch, at module level (undefined: top of an empty stack) or followed by a function definition, and
  for every tree that was threaded before; since the interpreter threads in `annotate`, none of these can
  be validated or executed in a debug build.  An if without else has no successor for the false branch.
  A recursive call, or the call of a function defined further down, is threaded as a built-in function.
* C68: string literals are put into the XML as they are: `<` or `&` in one make the script malformed,
  `&lt;` becomes `<`, a carriage return a line feed, and a literal can smuggle any statement into the
  tree.  Integers outside of 32 bits are refused, long integers outside of 64 bits become -1.
  `a[b[c]]`, `a.b.c`, `a and b and c`, `a < b < c`, `a = b = c` and keyword arguments fail assertions.
  Default values, decorators and `*args` are silently ignored.
* C69: floating point literals are written with six digits only: `1234567.0` becomes `1234570.0`,
  `3.14159265` becomes `3.14159`.  `1e999` makes the script malformed.
* C70: `Feature::contains_attribute` with a nested path never returns false: it throws
  `std::out_of_range` (or aborts).  `Feature::add_feature` asserts its negation, so with assertions
  nothing can be added at a nested path.  `nr_attributes(path)` returns the number of attributes of
  the parent; the unit test expects 1 where both happen to have one.  `/name` aborts.
* C71: valid results that equal the no-data value are lost (200 + 55 in `uint8`; doubles adding up to
  2^-1022, as the no-data value of floating point rasters is `numeric_limits<T>::min()`, a positive
  number; NaN is data).  Sums of signed and unsigned integers are lost if the signed cell is not
  positive (C13).  Sizes are only asserted: in release builds cells of rasters of different shapes
  are paired by position, and a smaller second raster is read out of bounds.
* C72: numbers are `static_cast` to the raster's type: `uint8 + 300` adds 44, `uint8 + -1` is no-data,
  `int32 + 2.5` adds 2; `int32 + 1e300` is undefined behaviour.
* C73: `+=` and `*=` of rasters of integers check the range after the argument has been overwritten
  (as C11): sums wrap around silently, 10 * 10 in `uint8` becomes no-data and 16 * 16 becomes 0.
* C74: `less(uint64_raster, -1)` is true everywhere; a number given to `if_` that becomes the no-data
  value is no-data, whereas in comparisons and sums it is a number; NaN chooses the first.
* C75: 255 in a list for a `uint8` raster is read as no-data although it is not masked.
* C76: reading a file of integers converts its no-data value to the type of the cells without a
  check; without a no-data value it converts whatever GDAL returns instead (-1e10 by default): both
  are undefined if the value does not fit. A NaN no-data value marks nothing. Cells that hold the
  number that stands for no data in rasters (255 for bytes) are lost. `read_raster("a:b")` takes the
  sizes from the file `a:b` and the cells from the file `a`. Rasters of 64-bit integers are silently
  not written by release builds.
* C77: `FernDataset::contains_feature` goes on after a name that is missing. `H5Lexists` then fails,
  which counts as true, so that looking for, writing or reading (`read` of scripts too) below a missing
  feature aborts, or compares a value that was never set. Numbers written over an attribute of another
  type are converted to the old type (300 over a byte is read as 255). A number written to the path of
  a feature is silently lost by release builds; features cannot be read at all.
* C78: `FernDriver::can_open` for overwriting calls `H5Fcreate` with `H5F_ACC_TRUNC`: merely asking
  empties the file. `write(number, "earth.tif:a/b", "Fern")` replaces the GeoTIFF, and without a format
  every file that no driver can update is replaced. Release builds report no error for a field
  written in the Fern format, which is not written.
* C79: `data_source` in parse_command_line.cc lacks an `else`: the source made for an existing dataset
  is always overwritten by a constant, so that compiled modules cannot be given data. Results are
  opened, which empties them, before it is noticed that there are too many values.
* C80: the C++ generated for a script is only right for one assignment of an operation on at most
  one name. Arguments are not separated by commas, numbers and strings are left out, parentheses are
  unbalanced unless there is exactly one operation per assignment, `results` and inputs that are
  assigned to are declared twice, and ifs, whiles and calls that are not assigned vanish. (Not
  modelled: the skeleton says `fern::Module`, `fern::Argument` and so on, whereas these classes are in
  `fern::language`, so that the text would not compile in any case.)
* C81: `GDALDataset::write_attribute` leaves the mask of an existing file alone if no cell of the field
  is masked, so cells stay masked; it sets the transformation before it finds that the field is too
  large; and it does not check the sizes otherwise. `read_attribute` uses the width of the cells for
  their height, which release builds do not check. (The transformation written has a positive height
  of cells with the north as origin: other software takes such rasters to be upside down.)
* C82: `main` of the tool prints help for an unknown command, sets the status, and then uses a null
  command. `import` does nothing and succeeds, as does compiling to `fern`, `python` and `xml`.
  `Command::write` does not check the stream, and in release builds neither does `write_file`.
  The output of `compile dot` is used only if there are two names, but three are accepted.
  The driver is written to `main.cc` also if that is the module. `execute` prints `what()`,
  which exceptions of fern do not override ("std::exception"); `compile` prints their messages.
  `Compiler::compile` checks the directory above the destination where it means the destination.
  (Not theorems: the help text says `compile cpp` where the word is `c++`; describing data that is
  not there succeeds; `--help` behind an option is taken for the name of a script.)
* C83: flow graphs do not connect the condition of an if to anything that depends on it, do not show while
  statements, and begin edges in vertices of attributes, which are not declared and not connected to what
  they are attributes of. Labels of strings are not escaped: a quote ends the label early.
* C84: `not e` is printed as `!(e)`, which Python does not read. Floating point numbers are printed with six
  digits and, if they are whole, as integers. Strings are not escaped: `'a" + "b'` is printed as a sum. Function
  definitions and returns abort a debug build; release builds print a function without its name and without
  `def`. A tab size of zero is accepted, and loses the nesting. (Not a theorem: each operator adds brackets
  around its operands, so a long sum is printed with a nesting that Python's parser may refuse.)
* C85: the graph of a syntax tree has no lines from if and while statements to their scopes (the true and the false
  scope cannot be told apart) nor from function definitions; attributes are pointed at but not declared, so dot shows
  their address; the control flow out of if statements, scopes, returns and function definitions is not drawn, and
  the sentinel of an if statement never appears. A debug build aborts if an expression has several types.
* C86: `OwnedReference::operator=` given a new reference to the object it holds already returns without dropping the
  new reference, which is leaked (`C86_same_refuted`). `operator&` of an instance that holds an object asserts, and leaks in
  release builds. `BorrowedReference` cannot tell that its object is gone.
* C87: `throw_exception` supports syntax errors with the four expected details only. Any other error of Python hits
  `assert(false)` in debug builds; in release builds the source and position are lost, a column that is not a number
  becomes -1 with an error left set, and a statement that is None is read as a string.
* C88: `python::Client` counts its instances, yet its destructor finalises Python whatever the count: with two
  parsers, destructing one makes the other unusable. The count (16 bits) is not decremented if Python is not initialised.
  `parse_file` opens a file that nothing closes. `io::gdal::GDALClient` and `language::GDALClient` count separately but
  both empty GDAL's one list of drivers, so the drivers in the registry of the latter dangle, and the next client aborts.
* C89: `ParseError` picks its text when it is made and its arguments when its message is asked for; for an empty statement
  these disagree, so `message()` throws `boost::io::too_few_args` in release builds (debug builds abort in the constructor).
  The statement comes from Python with its line feeds stripped. `Interpreter` follows null pointers for errors of Python
  that are no syntax errors. `XmlParser` reports `<string>` for scripts from files.
* C90: scalars of other types than double abort debug builds (an I/O error is documented); release builds convert numbers, silently leave the destination alone for texts and dereference the end of a map for types of users. Fill values are read as data. Paths of several names read the variable of the first (release) or abort (debug). Conventions with a zero character at the end, or in an attribute that is no text, abort (debug) or do not conform (release).
* C91: the dataset handles of `io/gdal` and `io/netcdf` have defaulted moves and destructors that close: a moved handle's dataset is closed twice, an assigned handle's dataset never. (No code in the repository moves them: `open_dataset` relies on copy elision.) `HDF5Dataset::type_class` leaks a type each call.
* C92: `SWITCH_ON_VALUE_TYPE` leaves out the 16 bits integers that `read_raster` makes rasters of: `raster_as_numpy_array` aborts (debug) or copies Python's `None` as an array (release). Masks are not available as arrays (`mask_as_numpy_array` is commented out), so cells without data show whatever value is stored.
* C93: `UncertML2Parser` asserts what documents say: a variance of zero or less, and lists of means or variances of another length than one, abort debug builds; release builds use the first of several, `_means[0]` of none, and the root of a negative variance. It also prints to the standard output.
* C94: no visitor but the thread visitor knows functions: definitions are executed in place and cannot be called, parameters are taken as uses of names of the script, `return` does not return.
* C95: `Min` and `Max` start from `numeric_limits::max()` and `lowest()` rather than infinity: the minimum of a raster of NaNs or infinities is 1.8e308, unmarked; `Range` of NaNs is minus infinity. `binary_min` and `binary_max` depend on the order of their arguments if one is NaN.
* C96: sums and means of floating point numbers depend on the number of threads, in value and in whether they are no-data; `Mean` and `Variance` are naive: the mean of three times 0.1 is greater than 0.1 and the variance positive. `Variance` and `StandardDeviation` declare `out_of_range_risk` but have no checked `operator()`, so that they cannot be used in aggregate operations (by reading).
* C98: `Median` of two large numbers is infinite; a NaN among the values of `Median` makes `std::sort` undefined. `Mode` counts every NaN as another value, and, if default constructed, a zero that was not added.
* C99: `clamp` leaves values alone for bounds that are NaN, without failing its assertion; `sign` of NaN is -1.
* C100: with NaN as no-data value `DetectNoDataByValue` detects nothing, so that what `MarkNoDataByValue` marked is lost.

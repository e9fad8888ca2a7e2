{"id": "C01", "title": "Blocks of a 1D range partition it exactly", "statement": "For every thread count >= 1 and every size, the list of blocks returned by index_ranges(nr_threads, size) is ordered, gap-free and overlap-free: concatenating the indices of the blocks in order gives exactly 0,1,...,size-1, each once; no block is empty; and an empty range yields no block.", "quantifier": "all thread counts >= 1 and all sizes", "why_tests_cant": "the number of (threads, size) pairs is unbounded and the remainder logic only misbehaves at particular quotients", "anchors": ["source/fern/algorithm/core/index_ranges.cc: index_ranges(size_t, size_t)", "source/fern/algorithm/core/index_range.cc: IndexRange"]}
{"id": "C02", "title": "Blocks of a 2D raster partition its cells exactly", "statement": "For every thread count >= 1 and every number of rows and columns, visiting the cells of the blocks of index_ranges(nr_threads, rows, cols) in order visits every cell of the raster exactly once, in row-major order.", "quantifier": "all thread counts >= 1, all row and column counts", "why_tests_cant": "unbounded shapes; degenerate shapes (0 rows, 0 columns, fewer rows than threads) are easily missed", "anchors": ["source/fern/algorithm/core/index_ranges.cc: index_ranges(size_t, size_t, size_t)"]}
{"id": "C03", "title": "Number of blocks is bounded by the thread count", "statement": "With n threads and at least n elements, index_ranges returns at least n and at most 2n-1 blocks, and at most n+1 once there are n*(n-1) elements; with fewer elements than threads it returns one block, and none for no elements. The documented bound 'nr_threads or at most one more' does not hold for n >= 3 (2n-1 elements give 2n-1 blocks).", "quantifier": "all thread counts >= 1 and all sizes", "why_tests_cant": "a documented bound over all inputs, false only for particular remainders", "anchors": ["source/fern/algorithm/core/index_ranges.cc", "source/fern/algorithm/core/index_ranges.h: index_ranges documentation"]}
{"id": "C04", "title": "Index range queries agree with the indices they denote", "statement": "empty() is true exactly when the range contains no index, size() is the number of indices contained, and for an n-dimensional range empty()/size() are true/equal exactly when the Cartesian product is empty / has that many cells.", "quantifier": "all ranges with begin <= end, any number of dimensions", "why_tests_cant": "ranges over arbitrary bounds and dimension counts", "anchors": ["source/fern/algorithm/core/index_range.cc", "source/fern/algorithm/core/index_ranges.h: IndexRanges::empty, IndexRanges::size"]}
{"id": "C05", "title": "Binary local operations compute element by element with no-data propagation", "statement": "For every operation, policies and shapes (0d/0d, 1d/0d, 0d/1d, 1d/1d, 2d/0d, 0d/2d, 2d/2d), after the call each element of the result is: marked as no-data, value untouched, if any of its inputs is no-data or the inputs are out of domain; otherwise it holds f(v1,v2), and is marked exactly when the range policy rejects it. No index out of bounds is accessed.", "quantifier": "all operations, policies, sizes, values and masks (result not sharing storage with the inputs)", "why_tests_cant": "a property of every element for every mask pattern and every size, with early exits for scalar no-data", "anchors": ["source/fern/algorithm/core/binary_local_operation.h: operation_0d_0d .. operation_2d_2d"]}
{"id": "C06", "title": "Unary local operations compute element by element with no-data propagation", "statement": "Same as the binary case for one argument: no-data or out-of-domain elements are marked and their value is left alone; others get f(v), marked exactly when out of range.", "quantifier": "all operations, policies, sizes, values and masks", "why_tests_cant": "for every element, every mask and every size", "anchors": ["source/fern/algorithm/core/unary_local_operation.h"]}
{"id": "C07", "title": "Nullary and disaggregating operations and fill", "statement": "fill writes the given value to every element of the destination and to nothing else; a nullary local operation writes to exactly the elements that are not no-data and marks the others; 'defined' writes 1 exactly at the elements that are valid and 0 elsewhere.", "quantifier": "all values, sizes and masks", "why_tests_cant": "for every element of every size", "anchors": ["source/fern/algorithm/core/fill.h", "source/fern/algorithm/core/unary_disaggregate_operation.h", "source/fern/algorithm/core/nullary_local_operation.h", "source/fern/algorithm/algebra/boole/detail/defined.h"]}
{"id": "C08", "title": "N-ary local operations are left folds", "statement": "An n-ary local operation writes at each element the left fold, in argument order, of the operation over the argument elements, and marks the element if one of the first two arguments is no-data, provided every step of the fold is within domain and range. Beyond that it does not do what one expects: no-data in the third and later arguments is ignored, an out-of-range second or later step can go unnoticed, and after an out-of-range step the no-data value is used as an operand (witnesses).", "quantifier": "all operations, numbers of arguments, sizes, masks", "why_tests_cant": "unbounded number of arguments and elements; floats are not associative so order matters", "anchors": ["source/fern/algorithm/core/n_ary_local_operation.h"]}
{"id": "C09", "title": "Local operations touch nothing but the result", "statement": "No local operation modifies its arguments, their masks, or any element or mask cell of the result outside the index range it was given.", "quantifier": "all memories, aliasing patterns, operations and index ranges", "why_tests_cant": "a frame property over all locations", "anchors": ["source/fern/algorithm/core/binary_local_operation.h", "source/fern/algorithm/core/unary_local_operation.h", "source/fern/algorithm/core/nullary_local_operation.h"]}
{"id": "C10", "title": "Parallel execution of local operations equals sequential execution under every schedule", "statement": "For every thread count, every pool state and every interleaving of the memory accesses of the worker threads, executing a local operation with the parallel execution policy leaves exactly the memory that the sequential policy leaves, and no two tasks race.", "quantifier": "all thread counts, interleavings at the granularity of single element accesses, sizes, operations, masks", "why_tests_cant": "the set of interleavings is astronomically large and not controllable from a test", "anchors": ["source/fern/algorithm/core/binary_local_operation.h: operation_2d_2d parallel overloads", "source/fern/algorithm/core/index_ranges.cc", "source/fern/core/thread_pool.cc"]}
{"id": "C11", "title": "In-place local operations", "statement": "When the result shares storage with an argument, a local operation without range detection still computes every element from the original values; with the range policies of the library this is not so: an overflow is then missed, because the policy compares the result with itself.", "quantifier": "all operations, sizes, values; result aliasing the first argument", "why_tests_cant": "overflow combined with aliasing is not in the test matrix", "anchors": ["source/fern/algorithm/core/binary_local_operation.h: const_reference v1, within_range(v1, v2, r)", "source/fern/algorithm/algebra/elementary/detail/add.h"]}
{"id": "C12", "title": "Mixed-type 1D operations see both arguments unchanged", "statement": "A binary operation on two 1D arrays (or a scalar and a 1D array) computes f on the values stored in the arrays. This holds when both arguments have the same value type or the second's values are representable in the first's type; otherwise the second argument is silently converted to the first one's type (witness: uint8 array + int array holding 300).", "quantifier": "all value types, values and sizes", "why_tests_cant": "depends on combinations of types and values not instantiated by tests", "anchors": ["source/fern/algorithm/core/binary_local_operation.h: operation_0d_1d, operation_1d_1d"]}
{"id": "C13", "title": "Range detection of addition", "statement": "For two integer operands of the same signedness, the add range policy accepts the computed result exactly when it equals the mathematical sum, which is exactly when the sum is representable in the result type. For a signed operand s and an unsigned operand u the accepted cases are: s > 0 and the result is the sum; s <= 0 and u = 0; or s <= 0 and both u and s+u are at least 2^63. So correct sums are rejected (-1 + 5u), and wrong sums are accepted only for a uint64 of at least 2^63 (0 + 2^63). The sum itself is undefined behaviour exactly when a 32- or 64-bit signed result overflows and overflow does not wrap.", "quantifier": "all integer type pairs and all values", "why_tests_cant": "2^128 value pairs for 64-bit types", "anchors": ["source/fern/algorithm/algebra/elementary/detail/add.h: within_range", "source/fern/algorithm/algebra/elementary/add.h: OutOfRangePolicy"]}
{"id": "C14", "title": "Range detection of subtraction", "statement": "For all pairs of integer operands except a uint64 of at least 2^63 minus a signed value, the subtract range policy accepts the computed result exactly when it equals the mathematical difference. In the excepted case it accepts exactly when the operation on the wrongly converted operand does not overflow, and every accepted result is off by 2^64 (witnesses of a wrong result accepted and a correct one rejected).", "quantifier": "all integer type pairs and all values", "why_tests_cant": "2^128 value pairs for 64-bit types", "anchors": ["source/fern/algorithm/algebra/elementary/detail/subtract.h: within_range"]}
{"id": "C15", "title": "Range detection of multiplication", "statement": "For all pairs of integer types the multiply range policy accepts exactly the products whose absolute value is at most the maximum of the result type, and an accepted result is the mathematical product. The only representable products it rejects are those equal to the minimum of a signed result type. The multiplication is undefined behaviour, if overflow does not wrap, exactly when a 32- or 64-bit signed result overflows, or when two uint16 values have a product of at least 2^31.", "quantifier": "all integer types and values", "why_tests_cant": "2^128 value pairs for 64-bit types; sign combinations with truncating division", "anchors": ["source/fern/algorithm/algebra/elementary/detail/multiply.h: within_range"]}
{"id": "C16", "title": "Domain and range of division", "statement": "The division domain policy accepts exactly the non-zero divisors; then the result is the truncated quotient whenever both operands are representable in the result type and it is not MIN / -1. MIN / -1 is undefined behaviour for 32 and 64 bits and yields MIN for 8 and 16 bits, which the range policy does not detect; a uint64 of at least 2^63 with a signed operand gives a wrong quotient that is not detected either.", "quantifier": "all integer types and values", "why_tests_cant": "all value pairs", "anchors": ["source/fern/algorithm/algebra/elementary/detail/divide.h"]}
{"id": "C17", "title": "Absolute value and its range check", "statement": "For every integer type the range policy of absolute rejects exactly the values whose absolute value is not representable (the minimum of a signed type), and otherwise the result is the mathematical absolute value.", "quantifier": "all integer types and values", "why_tests_cant": "every value of every width", "anchors": ["source/fern/algorithm/algebra/elementary/detail/absolute.h"]}
{"id": "C18", "title": "The result type represents both operand types", "statement": "The value type chosen for the result of a binary operation can represent every finite value of both operand types for all pairs of value types except exactly these: uint64 with a signed integer, a 32- or 64-bit integer with a 32-bit float, a 64-bit integer with a 64-bit float. The choice does not depend on the order of the operands, and exists for all pairs except bool with another type.", "quantifier": "all pairs of value types", "why_tests_cant": "needs every pair of types and every value of each type", "anchors": ["source/fern/algorithm/core/result_value.h, source/fern/algorithm/core/result_type.h"]}
{"id": "C19", "title": "Boolean operations follow propositional logic on truthiness", "statement": "and, or, xor, nor, xnor, not return the propositional combination of 'value is non-zero' for every arithmetic argument type (xor/xnor do not compare raw values). Integer comparisons return the order of the mathematical values when the types have the same signedness, when both operands are non-negative, or when the common type is signed; otherwise the negative operand is taken modulo 2^32 or 2^64, so that -1 < 1u is false.", "quantifier": "all argument values and types", "why_tests_cant": "all value combinations; specialisations for bool", "anchors": ["source/fern/algorithm/algebra/boole/detail/*.h", "source/fern/algorithm/algebra/elementary/detail/{equal,less,less_equal,greater,greater_equal}.h"]}
{"id": "C20", "title": "Sequential aggregation is a fold over the valid elements", "statement": "unary aggregate operations return the accumulation, in index order, of exactly the elements that are not no-data; the result is marked as no-data if there is none, or if the accumulation left the range after some element. One exception, in 2D: whether the result is within range after the first value is ignored if there are other values. In particular a sum with the range policy of add is the sum of the valid values if the sums of all first values are representable, and no-data otherwise.", "quantifier": "all accumulators, masks, sizes, values", "why_tests_cant": "all mask patterns and sizes", "anchors": ["source/fern/algorithm/core/unary_aggregate_operation.h"]}
{"id": "C21", "title": "Parallel aggregation equals sequential aggregation", "statement": "When no run of consecutive valid values leaves the range and merging two accumulators is accumulating the concatenation, the parallel aggregate equals the sequential one for every thread count and schedule, including blocks in which all elements are no-data. Hence parallel minimum, maximum, unchecked sum and mean equal the sequential ones; a checked parallel sum is the sum or no-data, and for unsigned types exactly what sequential execution gives. For signed types it can be no-data where sequential execution gives the sum.", "quantifier": "all accumulators that merge homomorphically, masks, thread counts, schedules", "why_tests_cant": "all block boundaries, masks and interleavings", "anchors": ["source/fern/algorithm/core/unary_aggregate_operation.h: aggregate parallel overloads"]}
{"id": "C22", "title": "Merging accumulators equals accumulating the concatenation", "statement": "For count, sum, minimum, maximum, range, mean, median, mode (non default-constructed) and variance, accumulating xs in one accumulator and ys in another and merging them gives the same accumulator as accumulating xs followed by ys in one, wherever the additions are defined; for mode, an accumulator whose result is a mode of all values.", "quantifier": "all sequences of values (any split point)", "why_tests_cant": "every split of every sequence", "anchors": ["source/fern/algorithm/accumulator/{count,sum,min,max,range,mean,median,mode,variance}.h, detail/frequency_table.h"]}
{"id": "C23", "title": "Accumulators compute what their name says", "statement": "minimum/maximum/range/median/mode/count/sum of an integer sequence are, respectively, a lower bound in the sequence, an upper bound in the sequence, their difference, the middle element or the mean of the two middle elements of the sorted sequence, a value of maximal multiplicity, its length and its sum, as long as the result (for median also the sum of the two middle values; for mean and variance the sum and the count) is representable; mean and variance are the mean and the mean squared deviation, rounded towards zero.", "quantifier": "all non-empty integer sequences", "why_tests_cant": "every sequence length and order", "anchors": ["source/fern/algorithm/accumulator/*.h"]}
{"id": "C24", "title": "Accumulator results silently leave their type", "statement": "mean divides by the count converted to the result type, so a count that is a multiple of the size of the result type is a division by zero, and other unrepresentable counts give a wrong mean; a default-constructed mode is the mode of the values and one zero that was never seen; range and median overflow, silently or with undefined behaviour.", "quantifier": "all sequence lengths and types", "why_tests_cant": "needs long sequences or extreme values", "anchors": ["source/fern/algorithm/accumulator/mean.h, mode.h, range.h, median.h"]}
{"id": "C25", "title": "The checked count merge", "statement": "Merging two count accumulators with an out-of-range policy should add the counts, but increments the first by one whatever the second; the merge without policy adds the counts.", "quantifier": "all counts", "why_tests_cant": "only the parallel path with a range policy uses it", "anchors": ["source/fern/algorithm/accumulator/count.h: template operator|="]}
{"id": "C26", "title": "statistic::count", "statement": "For 0D and 1D arguments count(value) is the number of valid elements equal to the value when that number fits in the result type (it wraps otherwise where the type wraps), and no-data when no element is valid. For rasters this holds when the first row has a valid element; otherwise the result is no-data whatever the other rows hold (refuted: rows after a first row of no-data are never counted). In parallel, for every thread count and schedule, the result is the same number when each block (for rasters: the first row of each block) has a valid element; a block without one marks the result as no-data by mask although the number has been computed, is counted as 0 when missing data are marked by value, and two such blocks race on the mark (refuted).", "quantifier": "all arrays, masks, values, thread counts", "why_tests_cant": "depends on the coincidence of mask runs and block boundaries", "anchors": ["source/fern/algorithm/statistic/count.h", "source/fern/algorithm/core/binary_aggregate_operation.h"]}
{"id": "C27", "title": "Every submitted task runs at most once, and exactly once if its future is awaited", "statement": "For every number of worker threads and every schedule of workers and client, submitted tasks are started in submission order, each at most once and by one worker at a time; a queued task has not been executed, not even in part; when a wait on a task's future returns that task has completed. A client that calls parallel algorithms one after the other (each submitting tasks, waiting for all, then using the results) ends with the memory of executing the calls in order, the tasks of each call interleaved in some way; it does not fault if no interleaving of its tasks does, so whatever holds for a parallel algorithm's tasks under all interleavings holds for its execution by the pool.", "quantifier": "all thread counts, numbers of tasks and schedules", "why_tests_cant": "scheduling is not controllable from a test", "anchors": ["source/fern/core/thread_pool.{h,cc}", "source/fern/core/thread_safe_queue.h", "source/fern/core/detail/function_wrapper.h"]}
{"id": "C28", "title": "The thread pool cannot deadlock and its destructor terminates", "statement": "With at least one worker, under every fair schedule and provided tasks do not fault, the client reaches the end of every script of submissions, waits and (last) destruction: no wait and no destructor blocks for ever; without destruction every submitted task completes. Once destruction has begun a worker starts at most one more task, and only if it had tested the flag before; when the destructor returns all workers have exited and every task has been executed completely or not at all. Queued tasks can be dropped (their futures never become ready), and a notification can be lost, after which only the timed wait lets a worker continue: both are witnessed.", "quantifier": "all reachable states, thread counts, schedules", "why_tests_cant": "requires reasoning over all interleavings, including lost wake-ups", "anchors": ["source/fern/core/thread_pool.cc: execute_task_or_wait, ~ThreadPool, submit"]}
{"id": "C29", "title": "The thread-safe queue is a linearizable FIFO", "statement": "Every concurrent history of push, try_pop and empty calls on the queue, on any number of threads, is equivalent to a sequential FIFO history that respects the real-time order of the calls; pushed elements are popped at most once and what is not popped is still in the queue; at most one thread is in the critical section; some thread can always take a step and every call returns within a bounded number of its own steps.", "quantifier": "all histories and interleavings", "why_tests_cant": "all interleavings", "anchors": ["source/fern/core/thread_safe_queue.h"]}
{"id": "C30", "title": "Tasks with disjoint footprints are schedule-independent", "statement": "Any set of tasks in which no task writes an element that another task reads or writes ends in the same memory under every interleaving, namely that of running the tasks one after the other in any order.", "quantifier": "all tasks, memories and interleavings", "why_tests_cant": "meta-property over all programs", "anchors": ["source/fern/algorithm/policy/execution_policy.h", "source/fern/core/thread_pool.h"]}
{"id": "C31", "title": "cover takes the first valid value", "statement": "Each element of cover's result is the first argument's value if that is valid, else the second's if that is valid, else no-data; for all implemented shape combinations (two scalars; a raster and a scalar; two rasters) and both execution policies.", "quantifier": "all arrays, masks, sizes, thread counts", "why_tests_cant": "all mask combinations", "anchors": ["source/fern/algorithm/core/detail/cover.h"]}
{"id": "C32", "title": "if_then and if_then_else select element by element", "statement": "Each element of the result equals the selected branch's value when the condition and the selected branch are valid, and is no-data otherwise; the branch not selected does not influence the element, not even by being no-data. All shape-specialised loops (with hoisted scalar tests) agree with this description.", "quantifier": "all shapes, conditions, values, masks", "why_tests_cant": "dozens of specialised loops times all mask patterns", "anchors": ["source/fern/algorithm/core/detail/if.h"]}
{"id": "C33", "title": "clamp moves values into the bounds", "statement": "Where the element is valid, and both bounds are valid and ordered, the result lies between the bounds, equals the value when that is already inside, and equals the nearest bound otherwise; no-data elements are marked. A bound that is no-data, or bounds that are not ordered, fail an assertion. For the shapes that dispatch; of two of these (1D value and one scalar bound) the parallel version does not compile and only the sequential one is claimed.", "quantifier": "all values, bounds with lower <= upper, shapes", "why_tests_cant": "all values and bounds", "anchors": ["source/fern/algorithm/core/detail/clamp.h"]}
{"id": "C34", "title": "merge/unite/intersect of no-data", "statement": "merge_no_data marks exactly the elements whose argument is no-data, unite_no_data those for which either argument is, intersect_no_data those for which both are; existing marks are never removed, and with a mask as no-data policy values are never changed (with a no-data value, marking writes that value).", "quantifier": "all masks, shapes", "why_tests_cant": "all mask combinations", "anchors": ["source/fern/algorithm/core/detail/merge_no_data.h, unite_no_data.h, intersect_no_data.h"]}
{"id": "C35", "title": "copy moves a range to a position", "statement": "Copying a range of a source to a position of the destination puts the i-th element of the range (value or no-data mark) at position+i and changes nothing else; the parallel version gives the same result for every thread count and schedule, for non-empty ranges and distinct arrays. Copying an empty range changes nothing sequentially but is undefined in parallel (the first element of an empty vector is written); arrays of different sizes fail an assertion; within one array, the sequential version may copy towards the front, while the parallel version races.", "quantifier": "all ranges, positions, masks, thread counts", "why_tests_cant": "all block boundaries and offsets", "anchors": ["source/fern/algorithm/core/detail/copy.h"]}
{"id": "C36", "title": "compress then decompress is the identity on valid elements", "statement": "compress writes the valid elements, in order, to the front of the result (which may be the argument itself), changes nothing else, and returns their number (converted to the type of the count); decompressing the result with the original no-data mask restores every valid element at its original position and marks every other one.", "quantifier": "all arrays and masks, 1D and 2D", "why_tests_cant": "round trip over all masks", "anchors": ["source/fern/algorithm/core/detail/compress.h", "source/fern/algorithm/core/detail/decompress.h", "source/fern/algorithm/no_data_compression.md"]}
{"id": "C37", "title": "Parallel compress equals sequential compress", "statement": "For every thread count and schedule, parallel compress returns the same count and the same first count elements as sequential compress, provided the type of the count can represent the size (with a uint8 count, 512 valid elements on two threads give wrong elements); elements after the first count may differ, and they do.", "quantifier": "all arrays, masks, thread counts, schedules", "why_tests_cant": "block-boundary dependent in-place moves", "anchors": ["source/fern/algorithm/core/detail/compress.h: copy_regional_results_to_front"]}
{"id": "C38", "title": "offset shifts an array", "statement": "After offsetting by d, element i+d of the result holds element i of the argument (value or no-data) whenever both indices exist, and every other element is marked as no-data (or filled with the given fill value); for offsets of any magnitude, in one and two dimensions, sequentially and in parallel. Requires the size to be representable in the offset's type: with an int offset and between 2^31 and 2^32-1 elements every offset gives undefined behaviour.", "quantifier": "all offsets, sizes, masks, thread counts", "why_tests_cant": "all offsets including those larger than the array", "anchors": ["source/fern/algorithm/core/detail/offset.h"]}
{"id": "C39", "title": "Safe casts preserve values", "statement": "core::cast with its range policy is available exactly for bool to bool or integer, and between integer types of one signedness that do not narrow; it then preserves every value and no-data element and rejects nothing. Without range policy, every value is accepted and wraps modulo 2^bits of the result type.", "quantifier": "all values of all supported type pairs", "why_tests_cant": "all values", "anchors": ["source/fern/algorithm/core/detail/cast.h"]}
{"id": "C40", "title": "Convolution covers every cell exactly once", "statement": "For every raster with both sizes >= 2*radius, the corner, side and inner regions visited by convolve partition the cells of the raster, and at each cell the kernel cells treated as inside the image are exactly those whose image cell exists.", "quantifier": "all raster shapes and radii", "why_tests_cant": "nine code regions with hand-maintained window variables", "anchors": ["source/fern/algorithm/convolution/detail/convolve.h"]}
{"id": "C41", "title": "Convolution computes the weighted neighbourhood aggregate", "statement": "Each result element is the normalised weighted sum, over the kernel cells whose image cell is valid and whose weight is not zero, or for which the no-data and out-of-image policies supply a value, accumulated in a fixed order; it is no-data if there is no such cell, if the sum is out of range or if a no-data focus element is kept. Nothing else changes. Supplied values count even if their weight is zero, so that the divisor can be zero (witnessed).", "quantifier": "all rasters with sizes >= 2*radius, kernels, policies, masks", "why_tests_cant": "position-dependent code (corner, side, inner)", "anchors": ["source/fern/algorithm/convolution/detail/convolve.h"]}
{"id": "C42", "title": "Parallel convolution equals sequential convolution", "statement": "For every thread count and schedule the parallel convolution leaves the same result as the sequential one.", "quantifier": "all rasters, kernels, thread counts, schedules", "why_tests_cant": "interleavings of eight border tasks and the inner blocks", "anchors": ["source/fern/algorithm/convolution/detail/convolve.h"]}
{"id": "C43", "title": "Focal-average replacement policies", "statement": "Where values outside of the image, or no-data values, are replaced by focal averages, the replacement is the average of the valid image cells that touch the cell (for each of the eight sides and corners), and exists exactly if there is one, for rasters with more than 2*radius rows and columns. With exactly 2*radius rows or columns the code reads outside of the image (refuted). A no-data value without valid neighbours fails an assertion (refuted), which cannot happen if no-data focus elements are kept and the radius is at most 1.", "quantifier": "all rasters, positions outside the image, masks", "why_tests_cant": "eight direction-specific functions", "anchors": ["source/fern/algorithm/convolution/replace_out_of_image_by_focal_average.h", "source/fern/algorithm/convolution/replace_no_data_by_focal_average.h"]}
{"id": "C44", "title": "gradient", "statement": "gradient_x/gradient_y give at each valid element the central difference over 2*cell size when both neighbours are valid, the one-sided difference over the cell size when exactly one is (including at the raster border), zero when none is, and no-data at no-data elements; for rasters with at least two elements in that direction. The parallel version gives the same memory for every number of threads. With a single column (gradient_x) or row (gradient_y) the computation fails its assertions.", "quantifier": "all rasters, masks, thread counts", "why_tests_cant": "border/inner special cases times neighbour masks", "anchors": ["source/fern/algorithm/algebra/vector/detail/gradient.h"]}
{"id": "C45", "title": "Symbol table scoping", "statement": "After any sequence of push_scope, pop_scope, clear_scope, add_value and erase_value, value(name) is the value most recently added in the innermost live scope that contains the name, has_value tells whether there is one, scope_level(name) is the level of that scope, popping a scope restores exactly the bindings visible before it was pushed, and size() is the total number of bindings. A call fails exactly when no scope is open, or when the name to erase is not in the innermost scope.", "quantifier": "all operation histories", "why_tests_cant": "all histories, nesting depths and shadowing patterns", "anchors": ["source/fern/language/core/symbol_table.h", "source/fern/core/scope.h"]}
{"id": "C46", "title": "Flag collections form a Boolean algebra and satisfaction is subset inclusion", "statement": "Collections of data or value type flags under &, |, ^ are the set operations on their flags, == is equality of the sets; count is the number of flags, and fixed, none and any tell whether it is one, zero or positive; is_subset_of holds exactly for non-empty subsets, is transitive and antisymmetric; an expression type is satisfied by another exactly when both its data and value types are non-empty subsets, and the index found for a parameter is that of the first expression type that satisfies one of its types; the names of the groups (Integer, Number, ...) contain exactly the types of that kind; different collections print differently, a printed single type is read back, and other printed collections are not accepted by the reader.", "quantifier": "all flag sets", "why_tests_cant": "2^13 x 2^13 pairs and triples", "anchors": ["source/fern/core/flag_collection.h", "source/fern/core/value_types.cc", "source/fern/core/expression_type.cc"]}
{"id": "C47", "title": "Result value type inference", "statement": "For an operation whose result type is not fixed and two or more arguments of fixed numeric value types that are accepted by the parameters, the inferred value type is the type of one of the arguments and outranks the types of all others (floating point above integer, wider above narrower, unsigned above signed), in any order of the arguments; the data type is a static field if one of the arguments is. This fails exactly for combinations of int16 with only 8 bit types (the case for int16 is missing), which infer the 8 bit type. A fixed result type is always the result, arguments of unknown type give the union of the parameter types, and a type inferred for other than one argument is allowed by the result. Unary operations pass on the type of the argument unchecked (witness).", "quantifier": "all pairs of fixed numeric value types", "why_tests_cant": "all pairs", "anchors": ["source/fern/language/operation/core/expression_type_calculation.cc: result_value_type"]}
{"id": "C48", "title": "Script execution evaluates expressions in order with the right arguments", "statement": "Executing a module of assignments and expression statements gives each name the value of its expression under the bindings made so far, reads exactly the external inputs that are used while not bound, once each, passes arguments to operations in source order, and leaves exactly the values of the expression statements on the stack; it fails exactly if some name, operation or argument count has no meaning. Setting new data sources replaces the old ones and forgets the bindings of those names only; however many modules are executed, no source is read twice. Refuted for if and while (their statements are never executed), for subscripts (ignored) and for operations without results (an assignment then takes whatever is on the stack).", "quantifier": "all modules (any nesting depth), operations and inputs", "why_tests_cant": "all programs", "anchors": ["source/fern/language/interpreter/execute_visitor.cc"]}
{"id": "C49", "title": "Annotation gives every vertex the type that follows from its parts", "statement": "Annotation gives every name, constant, operation call and assignment target of a module without control flow, subscripts and attributes exactly one type: the type known for the name at that point, the type of the constant, or the type that the operation determines from the types of its arguments (unknown if the operation does not exist or is called with a wrong number of arguments). The types of arguments are handed to operations from the last to the first, which makes no difference for operations that treat their arguments alike, and so none for any operation of the library, with which annotation never fails either, whatever the arguments are; for an operation with a number and a string parameter annotation of a right call fails (refuted).", "quantifier": "all modules without control flow, tables of operations, types of inputs", "why_tests_cant": "needs operations with asymmetric parameters, and all programs", "anchors": ["source/fern/language/ast/visitor/annotate_visitor.cc: Visit(OperationVertex&)"]}
{"id": "C50", "title": "Module outputs are the last definitions of each name", "statement": "The outputs reported for a module are, for every assigned name, its last definition, and on execution exactly the final values of the names with a data sync are written to it, once. Holds when at most one name is assigned more than once; the number of outputs is always that of the assigned names. Refuted in general (a=..;b=..;a=..;b=.. loses a and keeps an old b). The inputs are the names used, in order of first use, including those that the module itself defines before.", "quantifier": "all modules", "why_tests_cant": "only specific redefinition patterns break it", "anchors": ["source/fern/language/ast/visitor/io_visitor.cc"]}
{"id": "C51", "title": "Uses are linked to the visible definition", "statement": "After identification every use of a name is linked to the most recent definition visible at that point (lexical scoping, use before definition within one assignment), every definition lists exactly its uses, and undefined names are linked to nothing. A definition in a branch is not visible after it; identifying a module that has definitions with uses twice fails an assertion.", "quantifier": "all modules with nested if/while scopes", "why_tests_cant": "all programs", "anchors": ["source/fern/language/ast/visitor/identify_visitor.cc"]}
{"id": "C52", "title": "Inlining single-use definitions preserves results", "statement": "Take a module without if and while in which every name is assigned at most once and not after it was used (names have one value all the time), and call a name temporary if it is assigned, and used once. If temporary names are only copied (x = t) and not to other temporary names, then inlining ends without a failed assertion with the module in which the assignments of temporary names are gone and their copies replaced by what was assigned to them; no temporary names are left in it; and for all operations, inputs and names bound before, it has the same results, and gives the other names the same values by the same assignments. The conditions are needed: a temporary name that is used within an expression or as an expression of its own fails an assertion for every such module; a chain a=5;d=a;e=d loses e (d is left); a=b;b=3;c=a gives c another value.", "quantifier": "all modules without if and while, operations, inputs and bound names", "why_tests_cant": "all programs; the tests of this visitor are disabled", "anchors": ["source/fern/language/ast/visitor/optimize_visitor.cc", "source/fern/language/ast/visitor/test/optimize_visitor_test.cc"]}
{"id": "C53", "title": "Data names are normalised", "statement": "A string is accepted as a data name exactly if the part before the first colon is not empty and no line feed or carriage return follows that colon. The database part is what is before the first colon; the path consists of a slash followed by the non-empty names between the slashes of the rest joined by single slashes, so it starts with a slash, contains no double slash and does not end in a slash unless it is the root; parsing the normalised name again gives the same name.", "quantifier": "all strings accepted by the parser", "why_tests_cant": "all strings", "anchors": ["source/fern/core/data_name.cc", "source/fern/core/string.cc"]}
{"id": "C54", "title": "String utilities", "statement": "split yields exactly the maximal non-empty words without separator characters in order; join puts the separator between the words and is inverted by split for words without separators; strip, strip_begin and strip_end remove exactly the longest prefix and suffix of the given characters; starts_with, ends_with and contains are prefix, suffix and substring; replace replaces all non-overlapping occurrences from left to right and nothing else.", "quantifier": "all strings and separator sets", "why_tests_cant": "all strings", "anchors": ["source/fern/core/string.cc"]}
{"id": "C55", "title": "Scope exit actions", "statement": "Functions are called by the destruction of responsible guards, and by nothing else. The function of a guard that is never moved is called exactly once if the guard is destroyed and was not released, and never otherwise; after releasing a guard that was not moved before it is never called. After moving a guard both the source and the target call it (at most once is refuted), and releasing the source does not stop the target (refuted).", "quantifier": "all histories of construct, move, release, destroy", "why_tests_cant": "all histories", "anchors": ["source/fern/core/scope_exit.h"]}
{"id": "C56", "title": "Masked scalars and arrays", "statement": "New masked scalars and arrays are not masked unless that is asked for, and hold the given values at the given rows and columns; assigning a plain value to a masked scalar unmasks it, equality compares value and mask. Any sequence of set_mask and mask_all calls masks exactly the elements specified by one of them, never unmasks and leaves the values alone; has_masked_values tells whether an element is masked. Exporting a mask to any integral type gives zero exactly for masked elements, and importing it again gives the same mask; masks of another size are rejected. Rows of different lengths are not checked: the constructor then writes outside of the array exactly if there are more values than rows times the length of the first row, and otherwise puts all values after each other.", "quantifier": "all values, masks, sizes", "why_tests_cant": "all masks", "anchors": ["source/fern/feature/core/masked_scalar.h", "source/fern/feature/core/masked_array.h"]}
{"id": "C57", "title": "Validation reports the first problem and accepts exactly the valid modules", "statement": "Validation of an annotated module without control flow, subscripts and attributes accepts it exactly if all names used have a type, all operations exist and get as many arguments as they have parameters, each parameter accepts the type of its argument and everything assigned has a type. Otherwise it reports the first problem, from the left to the right and from the inside to the outside, with the operation and the number of the argument; no assertion fails. In every module, conditions and branches are annotated and validated as if they were executed one after the other, and the parts of subscripts and attributes as if they were statements; a module is accepted exactly if this is a valid module in which no value of a subscript or attribute is assigned or passed to an operation.", "quantifier": "all modules, tables of operations, known types", "why_tests_cant": "all programs", "anchors": ["source/fern/language/ast/visitor/validate_visitor.cc", "source/fern/language/ast/visitor/annotate_visitor.cc", "source/fern/language/operation/std"]}
{"id": "C58", "title": "Accepted modules can be executed", "statement": "If operations return one result of the type they announce (or none if they announce none), executing a module without control flow, subscripts and attributes either reports its first problem without executing anything, or runs to the end, and then every name whose type is known has a value of that type. So it is for every sequence of accepted modules executed with sources for the same names. Refuted: after a module was rejected or only validated, and when an unread source is not passed in again, an accepted module fails an assertion; so do modules that use names assigned in branches, and the results of the library's add and int32.", "quantifier": "all modules without control flow, sound operations, sequences of calls", "why_tests_cant": "all programs and all histories of calls", "anchors": ["source/fern/language/interpreter/interpreter.cc: annotate, validate, execute", "source/fern/language/interpreter/execute_visitor.cc", "source/fern/language/operation/std/add.cc", "source/fern/language/operation/std/int32.cc"]}
{"id": "C59", "title": "Slope follows Horn's method with no-data and borders", "statement": "Slope of a raster of at least 3 x 3 cells ends without undefined behaviour, sequentially and for every number of threads and every schedule, without data races. If no-data is marked in the mask of the result, then a cell gets the square root of the sum of the squared differences in both directions by Horn's weights, each divided by eight times the cell size, where no-data and cells outside the raster are replaced by the average of the values around them; it is marked if the cell is no-data, if a sum is out of range, a cell size is zero or a step is not finite, or if it was marked already. No-data keeps its old value. Only the result and the temporaries change. In exact arithmetic the slope of a flat raster is zero everywhere, and that of a plane the length of its gradient in cells off the border. Without marking, sums that are no-data count as zero, and the root is not taken where the result was marked before. Refuted: masks that are only known to the policies and not to the types of the collections, marking by value, rasters with two rows or columns.", "quantifier": "all rasters, no-data policies, cell sizes, numbers of threads and schedules", "why_tests_cant": "all rasters and schedules", "anchors": ["source/fern/algorithm/space/focal/slope.h", "source/fern/algorithm/space/focal/detail/slope.h", "source/fern/algorithm/core/argument_traits/masked_raster.h"]}
{"id": "C60", "title": "Laplacian is the weighted sum of differences divided by the cell area", "statement": "Laplacian of a raster of at least 2 x 2 cells ends without undefined behaviour, sequentially and for every number of threads and schedule, without data races. If no-data is marked in the mask of the result, then a cell gets (sum of the weighted valid values around it - sum of their weights * its value) / area, with weight 3 for cells that share a side and 2 for those that share a corner; it is marked if the cell is no-data, has no valid values around it, the sum is out of range, the area is zero, a step is not finite, or if it was marked already. In exact arithmetic this is the sum of the weighted differences, so zero in flat rasters and in planes off the border. Refuted: marks by value are calculated with.", "quantifier": "all rasters, no-data policies, areas, numbers of threads and schedules", "why_tests_cant": "all rasters and schedules", "anchors": ["source/fern/algorithm/algebra/vector/laplacian.h", "source/fern/algorithm/algebra/vector/detail/laplacian.h"]}
{"id": "C61", "title": "Lax mixes a value with the average around it", "statement": "Lax of a raster of at least 2 x 2 cells ends without undefined behaviour, sequentially and for every number of threads and schedule, without data races. A cell gets (1 - fraction) * value + fraction * weighted average of the valid values around it (weights 3 and 2); if no-data is marked in the mask of the result it is marked if the cell is no-data, has no valid values around it, the sum is out of range, a step is not finite, or if it was marked already; no-data keeps the old value. In exact arithmetic, for fractions between 0 and 1 the result lies between the smallest and the largest of the valid values of the cell and around it; fraction 0 gives the value, fraction 1 the average. Refuted: marks by value are calculated with.", "quantifier": "all rasters, no-data policies, fractions, numbers of threads and schedules", "why_tests_cant": "all rasters and schedules", "anchors": ["source/fern/algorithm/algebra/vector/lax.h", "source/fern/algorithm/algebra/vector/detail/lax.h"]}
{"id": "C62", "title": "Checked arithmetic of floating point numbers", "statement": "add, subtract, multiply and divide with at least one floating point argument calculate in the type of the result: a double if there is one, else a float. Floats keep their value in it, integers become the nearest number of the type, and keep their value if they have at most 24 or 53 bits. For finite arguments the element is marked exactly if the exact result overflows in the sense of IEEE 754, or the divisor is zero, and otherwise holds a number of the type than which no other is closer to the exact result; an integer plus or minus a finite number never overflows, so that not checking it is right. Of two floating point numbers one of which is infinite or NaN, sums, differences and products are marked, and so are quotients but for a finite number divided by an infinity, which is zero. So no element of a raster of floating point numbers is left unmarked that is not a number. Refuted: the sum of an integer and an infinity or NaN is not marked, and their difference fails an assertion.", "quantifier": "all integers and floating point numbers", "why_tests_cant": "all numbers", "anchors": ["source/fern/algorithm/algebra/elementary/detail/add.h", "source/fern/algorithm/algebra/elementary/detail/subtract.h", "source/fern/algorithm/algebra/elementary/detail/multiply.h", "source/fern/algorithm/algebra/elementary/detail/divide.h"]}
{"id": "C63", "title": "Comparison of floating point numbers", "statement": "less, less_equal, greater, greater_equal and equal with a floating point argument compare the arguments in their common type, infinities being below and above all numbers, minus zero being equal to zero; comparisons with NaN are false. Finite arguments are compared by their values if integers have at most 24 bits (53 bits if the other argument is a double). Refuted for larger integers: 16777217 is not greater than 16777216.0f.", "quantifier": "all integers and floating point numbers", "why_tests_cant": "all numbers", "anchors": ["source/fern/algorithm/algebra/elementary/detail/less.h", "source/fern/algorithm/algebra/elementary/detail/less_equal.h", "source/fern/algorithm/algebra/elementary/detail/greater.h", "source/fern/algorithm/algebra/elementary/detail/greater_equal.h", "source/fern/algorithm/algebra/elementary/detail/equal.h", "source/fern/core/math.h"]}
{"id": "C64", "title": "Mathematical functions mark what is not defined", "statement": "sqrt of a floating point number below zero or NaN is marked; of every other finite number it is the nearest number to the root (exact if the root is a number). log, log2, log10, asin, acos, sin and cos mark an element exactly if the C library would give NaN there, provided it gives NaN exactly outside of the function's domain. pow and tgamma mark an element exactly if the result of the C library is not finite, provided that follows the rules of the C standard about domain errors. Refuted: log(0), minus infinity, is not marked; a power of minus infinity is marked although pow gives 0.", "quantifier": "all floating point numbers and library functions that follow the C standard's special cases", "why_tests_cant": "all numbers", "anchors": ["source/fern/algorithm/algebra/elementary/sqrt.h", "source/fern/algorithm/algebra/elementary/log.h", "source/fern/algorithm/algebra/elementary/log2.h", "source/fern/algorithm/algebra/elementary/log10.h", "source/fern/algorithm/algebra/elementary/pow.h", "source/fern/algorithm/algebra/elementary/tgamma.h", "source/fern/algorithm/trigonometry/sin.h", "source/fern/algorithm/trigonometry/cos.h", "source/fern/algorithm/trigonometry/asin.h", "source/fern/algorithm/trigonometry/acos.h", "source/fern/algorithm/core/unary_local_operation.h"]}
{"id": "C65", "title": "Poles of tan", "statement": "tan marks infinities and NaN, and of the finite numbers exactly those which are 1, 3, 5, 7 or 9 times the double nearest to a half pi (for floats: the float nearest to a half pi), or minus that; larger odd multiples are not numbers of the type, so the numbers next to other poles are not marked. It calculates all other elements, except that the behaviour is undefined for even multiples whose factor does not fit an int64_t; there are such.", "quantifier": "all floating point numbers", "why_tests_cant": "all numbers", "anchors": ["source/fern/algorithm/trigonometry/tan.h", "source/fern/core/type_traits.h: half_pi"]}
{"id": "C66", "title": "Factorials are exact or marked", "statement": "factorial of an integer that is not negative writes the factorial if that fits the type, and negative integers are marked, provided std::tgamma is exact for whole numbers up to 21. If the factorial does not fit, the conversion to the type is done before the range is checked, so the behaviour is undefined; on machines where the conversion gives just any number and signed integers wrap around, the element is marked. For floating point numbers an element is marked exactly if it is not a whole number (or infinity), is negative, or the result is not finite, and factorials up to 20! are exact.", "quantifier": "all integer types, integers and floating point numbers", "why_tests_cant": "all numbers", "anchors": ["source/fern/algorithm/algebra/elementary/factorial.h", "source/fern/algorithm/algebra/elementary/detail/factorial.h", "source/fern/algorithm/core/unary_local_operation.h"]}
{"id": "C67", "title": "The control flow graph has the runs of the script", "statement": "Threading a syntax tree, which annotating, validating and executing a module begin with, links its vertices so that the paths from the module back to it are exactly the runs of the script: operands before operators, right hand sides before targets, conditions before branches, arguments before calls, into the called function and back to behind the call, and to the end of the function after return. That holds for the runs in which an if statement without else part enters its true scope; if all have else parts, for all runs. Threading fails an assertion exactly for scripts with a while statement, with a return statement that is not directly one of a function's statements, with a function definition directly behind a return statement, or with more than one call of the same function of the script; it fails for every tree that was threaded before, so that a tree can be passed to the interpreter only once. Refuted: without else part the graph has no path around the true scope.", "quantifier": "all syntax trees with functions, branches, calls, subscripts and attributes", "why_tests_cant": "all programs and all paths", "anchors": ["source/fern/language/ast/visitor/thread_visitor.cc", "source/fern/language/ast/core/ast_vertex.cc: add_successor, set_successor", "source/fern/language/interpreter/interpreter.cc: annotate"]}
{"id": "C68", "title": "Scripts are parsed into the tree they denote", "statement": "A script is turned into XML and that into a syntax tree. Given Python's tree of a script with a printable source name and strings without control characters other than tabs and line feeds, without <, & and ]]>, the result is the one tree that the script denotes - same statements, expressions, names, strings, operators and their symbols, positions, integers - and no tree if it denotes none. For every script, the first construct that is not supported is reported with its kind and position, and nothing else is. A script of supported constructs is parsed unless it has a number that does not fit 32 bits or is not finite, which is an error, or nested subscripts or attributes, or and/or with other than two operands, which abort: whichever comes first. Refuted: integers that do not fit 32 bits are refused although 64 bits are announced; those that do not fit 64 bits become -1; strings are not escaped, so that for every statement there is a string literal which, as the whole script, is parsed into a tree with that statement in it; strings are cut off at a null character; default values, further arguments and decorators are dropped.", "quantifier": "all syntax trees of Python scripts", "why_tests_cant": "all programs", "anchors": ["source/fern/language/script/algebra_parser.cc", "source/fern/language/ast/xml/xml_parser.cc", "source/fern/language/ast/xml/syntax_tree.xsd", "source/fern/language/ast/core/operator_vertex.cc"]}
{"id": "C69", "title": "Floating point literals are rounded to six digits", "statement": "A floating point literal in a script is replaced by the double that a decimal number of at most six digits stands for - the nearest one and, of two, the even one - and no decimal number of six digits is closer to the literal; its sign is kept. It keeps its value exactly if it is itself the double that some decimal number of at most six digits stands for: so 0.1, 1e23 and 5e-324 do, and no finite literal becomes infinite. A literal that is too large for a double makes the script malformed. Refuted: not every literal keeps its value, 1234567.0 is read as 1234570.0.", "quantifier": "all doubles, all positions in a script", "why_tests_cant": "all floating point numbers", "anchors": ["source/fern/language/script/algebra_parser.cc: write_number_node", "source/fern/language/ast/xml/xml_parser.cc", "source/fern/language/ast/xml/syntax_tree.xsd"]}
{"id": "C70", "title": "Feature trees are addressed by paths", "statement": "A feature's path leads to the child-feature one gets to by its names, however many slashes there are around them, and to none if there is no such child; contains_feature agrees. An attribute at a path is found at the feature the other names lead to. Adding an attribute (and, unless assertions are checked, a child-feature) at a path adds it to the feature that the other names lead to, under the last name, and changes nothing else, also when features are shared; without assertions, adding where one is already changes nothing, with assertions it aborts. Names are listed once each in dictionary order, and counted. If the feature that should hold it is missing, the program aborts or has undefined behaviour. Refuted: contains_attribute never answers no for a nested path - it throws out_of_range or aborts; with assertions a child-feature cannot be added at a nested path at all; the number of attributes at a path is that of the feature one name before; for a path of a single name after a slash, adding, attributes and their number always fail.", "quantifier": "all heaps of features, all names and paths, with and without assertions", "why_tests_cant": "all inputs", "anchors": ["source/fern/language/feature/core/feature.cc", "source/fern/language/feature/core/feature.h", "source/fern/core/path.cc"]}
{"id": "C71", "title": "Adding and multiplying rasters from Python", "statement": "In the Python extension, adding or multiplying two rasters returns a new raster and leaves all others as they are. Its value type is that of the C++ operation, its sizes, origin and cell sizes are those of the first raster. A cell that has no data in one of the arguments has none. Of integers it holds the exact result if that fits the type, and otherwise has no data; of finite floating point numbers the number nearest to the exact result, and no data if that overflows. Rasters of different sizes abort a debug build; other builds pair the cells by their position, row by row, and reading beyond the second raster is undefined behaviour. Rasters of other value types abort, or give None. Overflow of signed integers is undefined unless they wrap around. Refuted: a result that happens to be the number which stands for no data is lost (200 + 55 in bytes); sums of a signed and an unsigned integer are lost if the signed one is zero or negative, although they fit.", "quantifier": "all rasters, value types and sizes", "why_tests_cant": "all rasters", "anchors": ["source/fern/python/algorithm/algebra/elementary/add_raster_raster.cc", "source/fern/python/algorithm/algebra/elementary/multiply.cc", "source/fern/python/feature/masked_raster.h", "source/fern/python/feature/detail/masked_raster.h", "source/fern/python/core/switch_on_value_type.h"]}
{"id": "C72", "title": "Adding a number to a raster from Python", "statement": "Adding or multiplying a raster and a number returns a new raster of the raster's type and place. The number is converted to that type first: integers wrap around, fractions are cut off, and a number whose whole part does not fit (or that is not finite) is undefined behaviour for rasters of integers; the converted number is never read as no data. Cells hold the result with the converted number as for two rasters. Refuted: adding 300 to a byte adds 44, adding -1 to a byte gives no data (but for zero), adding 2.5 to an int adds 2.", "quantifier": "all rasters, all integers and doubles", "why_tests_cant": "all rasters and numbers", "anchors": ["source/fern/python/algorithm/algebra/elementary/add_raster_number.cc", "source/fern/python/algorithm/algebra/elementary/add_number_raster.cc", "source/fern/python/algorithm/algebra/elementary/multiply.cc"]}
{"id": "C73", "title": "Adding to a raster in place from Python", "statement": "raster += raster and raster *= raster change the first raster only, and keep its type and place. Rasters of different value types abort a debug build and raise an exception otherwise; different sizes abort a debug build. Floating point cells get the same results as without changing in place. Integer cells are checked after the first argument has been overwritten: sums that do not fit are never noticed and wrap around; a product r is kept exactly if r multiplied by the second argument again (by r, for a raster multiplied by itself) fits the type. Refuted, then, that results are right or have no data: 10 * 10 is lost in bytes, and 16 * 16 is 0.", "quantifier": "all rasters, also a raster and itself", "why_tests_cant": "all rasters", "anchors": ["source/fern/python/algorithm/algebra/elementary/add_raster_raster.cc: iadd", "source/fern/python/algorithm/algebra/elementary/multiply.cc: imultiply", "source/fern/algorithm/core/binary_local_operation.h"]}
{"id": "C74", "title": "Comparing and choosing rasters from Python", "statement": "less and greater of two rasters, or a raster and a number, return a raster of bytes, placed like the (first) raster: no data where an argument has none, otherwise 1 or 0. Integers are compared as such, unless one is of an unsigned type at least as large as the signed type of the other: then negative numbers count as large ones. Others are compared after conversion to the floating point type, NaN being less than nothing. A number is not converted to the raster's type first and always has data. if_ returns a raster of the type of its choices, placed like the condition: no data where the condition has none, else what is read in the first choice unless the condition is zero, and in the second if it is; it does not matter whether the other choice has data. A number to choose is converted to the type of the raster, or undefined behaviour if it cannot be, and read as no data if it becomes the number that stands for that. Choices of different types abort or raise an exception. Refuted: every unsigned 64-bit number is less than -1; NaN as condition chooses the first.", "quantifier": "all rasters, all integers and doubles", "why_tests_cant": "all rasters and numbers", "anchors": ["source/fern/python/algorithm/algebra/elementary/less.cc", "source/fern/python/algorithm/algebra/elementary/greater.cc", "source/fern/python/algorithm/core/if_raster_raster.cc", "source/fern/python/algorithm/core/if_raster_number.cc", "source/fern/python/algorithm/core/if_number_raster.cc", "source/fern/algorithm/core/detail/if.h"]}
{"id": "C75", "title": "Making rasters from Python", "statement": "A raster made from sizes holds zeros and the type, origin and cell sizes given. A raster made from a list of rows of values and one of masks has as many rows as there are values and as many columns as the first row has; cells are read as they are given: no data where the mask is true, otherwise the value. It is made exactly if no mask is missing, and no value that is not masked; otherwise an exception is raised (also for an empty list). Further values and masks are ignored. For other value types debug builds abort, and others make a raster that holds nothing. Refuted: a value that is not masked but is the number which stands for no data is read as no data.", "quantifier": "all lists of values and masks", "why_tests_cant": "all inputs", "anchors": ["source/fern/python/feature/masked_raster.cc"]}
{"id": "C76", "title": "Reading and writing files of rasters from Python", "statement": "write_raster followed by read_raster of the same file gives back the raster: type, sizes, origin, cell sizes and every cell, with or without data, for all types a file can have (bytes, 16- and 32-bit integers, floating point numbers); no other file is changed. read_raster of any sound file gives a raster of its type, sizes and place in which a cell has no data if it equals the no-data value of the file, converted to the type of the cells, or is the number that stands for no data in rasters, and otherwise is as in the file; if that no-data value (without one: what GDAL returns instead) cannot be converted, the behaviour is undefined. Of a name with a colon, the cells are read from the file whose name ends before the first colon. Files that cannot be opened raise an exception; for types of cells that are not supported debug builds abort, and others return nothing or write nothing without an error. Refuted: reading a file of bytes with the no-data value -9999, or without one if GDAL says -1e10, is undefined; NaN as no-data value is not noticed; 255 of a file of bytes with another no-data value is lost.", "quantifier": "all rasters, all files, all names, all heaps", "why_tests_cant": "all contents of files, no-data values and names", "anchors": ["source/fern/python/io/gdal.cc: read_raster, write_raster", "source/fern/io/gdal/detail/read.h: read", "source/fern/io/gdal/dataset.cc: open_dataset", "source/fern/core/data_name.cc"]}
{"id": "C77", "title": "Numbers in Fern datasets are read back", "statement": "In a dataset of the Fern format, writing a number as an attribute makes it what is read at that path, makes the feature it is in if that is new, and changes nothing else - provided that all features above that one exist, none of them is an attribute, and there is no attribute yet, or one of the same type. So after any sequence of writes of attributes of features of the root, with one type per attribute, each reads as the number last written, and attributes that were not written are reported as missing. Otherwise: if an upper feature is missing or an attribute, reading and writing abort a debug build and are undefined otherwise; over an attribute of another type the number is converted to the old type (integers over floating point numbers and the reverse abort a debug build); where there is a feature nothing is written, and a debug build aborts; features are never read. Refuted: attributes of features nested in new features cannot be written, although features are made when missing, and reading one that is missing is not reported; 300 written over an unsigned byte reads as 255; a number written to the path of a feature is lost without an error in release builds.", "quantifier": "all datasets, paths, numbers and sequences of writes, with and without assertions", "why_tests_cant": "all histories of writes", "anchors": ["source/fern/language/io/fern/fern_dataset.cc", "source/fern/language/io/fern/hdf5_file.cc", "source/fern/language/operation/std/read.cc"]}
{"id": "C78", "title": "Datasets are opened by the right driver, and scripts read what they wrote", "statement": "Opening a dataset for reading or update uses the driver asked for or, if none is, the first driver able to open the file: the one for Fern datasets, then the others in the order of their names. dataset_exists agrees, neither changes a file, and if no driver is able an exception is thrown; a format without a driver always is an exception. Overwriting with the Fern driver (or no format) makes an empty dataset of whatever was there; with another driver at most the file itself is deleted. A number that a script writes (to a Fern dataset with existing upper features, or to a file no driver can update) is read back by every name of the same data, all other files are unchanged, and other numbers in Fern datasets read as before; so after any sequence of such writes to new files, each attribute reads as the number last written to it, whichever names were used. Refuted: writing in the Fern format to a raster of another format destroys the raster, and without a format any file that no driver can update is destroyed; dataset_exists for overwriting empties a dataset; in release builds writing anything but a number to a Fern dataset makes the dataset without it and reports no error; a dataset with a colon in its file name exists but cannot be opened.", "quantifier": "all sets of drivers, files, permissions, names, formats and sequences of writes, with and without assertions", "why_tests_cant": "all histories of files and scripts", "anchors": ["source/fern/language/io/drivers.cc: open_dataset, dataset_exists", "source/fern/language/io/fern/fern_driver.cc", "source/fern/language/io/fern/utils.cc", "source/fern/language/io/gdal/gdal_driver.cc", "source/fern/language/operation/std/read.cc", "source/fern/language/operation/std/write.cc"]}
{"id": "C79", "title": "Command lines of compiled modules", "statement": "Values on the command line of a compiled module are taken for its arguments first and then for its results, in order. More values than there are arguments and results are an exception; with fewer, arguments at the end have no source, and the module then refuses to run, while results at the end are not written. A value for an argument stands for an integer if it is a sign or none followed by decimal digits and fits 64 bits, else for a floating point number if it can be converted to one, else for its text. Each result is opened as an empty dataset at the path the value denotes; other files are not changed. Refuted: a value that is the name of existing data should be used as that data, but it is always taken as a text (or number), although a name of data missing from an existing dataset is an exception; files named for results are emptied even if the command line is then refused for having too many values.", "quantifier": "all command lines, numbers of arguments and results, files and drivers, with and without assertions", "why_tests_cant": "all inputs and states of files", "anchors": ["source/fern/language/compiler/parse_command_line.cc", "source/fern/language/compiler/module.cc", "source/fern/language/interpreter/dataset_source.cc", "source/fern/language/interpreter/dataset_sync.cc"]}
{"id": "C80", "title": "Compiled modules", "statement": "Compiling a script to C++ describes its arguments and results as the inputs and outputs of the module, in that order; input number i is read from data source i, and output number i is written to data sync i if there is one. An assignment of an operation on at most one name, other than that of the result, is compiled to C++ that writes the first result of the operation on what is read. Among scripts without attributes the texts generated have balanced parentheses and declare the variable for results at most once exactly if there is no assignment at the level of the module, or one, of an operation whose arguments are not operations. Names of arguments are written one after the other without a comma; numbers, strings and subscripts are left out; for an attribute the text is empty. Refuted, then, that compiled modules do what the script does: b = add(a, c) passes one variable ac, b = add(a, 2) passes a only, b = a and b = abs(abs(a)) have unbalanced parentheses, a = abs(a) declares a twice, two assignments declare results twice, and calls that are not assigned and what is in ifs is left out without a message.", "quantifier": "all scripts, names and operations, data sources and data syncs", "why_tests_cant": "all programs", "anchors": ["source/fern/language/compiler/compile_visitor.cc", "source/fern/language/ast/visitor/ast_visitor.cc", "source/fern/language/ast/visitor/io_visitor.cc"]}
{"id": "C81", "title": "Fields in raster files, as scripts read and write them", "statement": "A field of unsigned bytes, 16- or 32-bit integers or floating point numbers that is written to a new raster file, or overwrites one, is read back with the same type, sizes, values and mask, and the same west and north; east and south are calculated from the width of the cells. They are the same too if the sides of the box are whole numbers of cells of a size that is a double; no other file changes. Debug builds abort unless the cells are squares. Written to an existing file with at least as many rows and columns, opened for update, the file keeps its type and sizes, cells of the field are converted to that type and take the place of those in the corner of the file, all others stay, and the mask becomes that of the field there if any of its cells is masked, and otherwise stays as it was. A field that is larger is an exception; the cells of the file are as they were but the file has been moved. The file has one feature with one attribute, both of the name of the file without directory and extension: anything else is not read (an exception); debug builds abort when it is written and release builds write the one attribute instead. The type announced is the type that is read. Refuted: after writing a field without masked cells over a file with masked cells these are masked; release builds change the south of fields whose cells are not squares; one column from 0.2 to 0.9 is read back narrower.", "quantifier": "all fields, boxes, files, names and paths, with and without assertions", "why_tests_cant": "all contents of fields and files", "anchors": ["source/fern/language/io/gdal/gdal_dataset.cc", "source/fern/language/feature/core/attributes.h"]}
{"id": "C82", "title": "The command line tool", "statement": "fern execute SCRIPT parses and executes the script once; the program succeeds exactly if both end normally, and if there is an exception it fails with a message. Scripts are executed by no other command line (apart from the interactive interpreter), and other commands change no other files than those the command line names for writing. A request for help, the version or the build succeeds and does nothing but print; too many, too few or unknown words behind a command fail with one complaint, and change no file and execute nothing. For a graph, the graph of the script is printed, or written to the file that is named if it can be opened. For C++ the header and the module are written to the directory that is named and, if asked for, files to build them and a driver, and the program succeeds, if everything may be written. Refuted: a first word that is not understood prints help and then aborts a debug build and is undefined otherwise; import succeeds without importing; languages that are not supported succeed; a graph or (in release builds) C++ that cannot be written is no error; a name behind the output file is accepted and makes the tool ignore that file; a driver overwrites the module of a script called main; execute does not print the messages of fern's exceptions; debug builds refuse to write C++ to a writable directory if the directory above it is not.", "quantifier": "all command lines, files, permissions and scripts, with and without assertions", "why_tests_cant": "all command lines and states of files", "anchors": ["source/fern/language/command/fern.cc", "source/fern/language/command/compile_command.cc", "source/fern/language/command/execute_command.cc", "source/fern/language/command/import_command.cc", "source/fern/language/command/describe_command.cc", "source/fern/language/command/command.cc", "source/fern/language/compiler/compiler.cc: Compiler::compile"]}
{"id": "C83", "title": "Flow graphs of scripts", "statement": "In the flow graph of a script there is an edge exactly from where a value comes (for a name that has been given a value: the vertex of that assignment) to the name that it is assigned to, or to the operation or subscript it is an operand of; and a vertex exactly for each name assigned to and each number, string, operation, subscript and name that has not been given a value, with the name, number or symbol as label. No vertex is declared twice. Both ends of an edge are declared, unless it begins in an attribute. Branches of ifs are clusters, properly nested, with consecutive numbers that continue those of the graph before. Refuted: what depends on the condition of an if is not connected to it; while statements are not shown at all; attributes are not declared and are not connected with what they are attributes of; a quote in a string ends its label early.", "quantifier": "all scripts and numbers of clusters drawn before", "why_tests_cant": "all programs", "anchors": ["source/fern/language/ast/visitor/flowgraph_dot_visitor.cc", "source/fern/language/ast/visitor/dot_visitor.cc", "source/fern/language/ast/visitor/identify_visitor.cc"]}
{"id": "C84", "title": "Scripts printed from their trees", "statement": "Printing the tree of a script gives, with any tab size but zero, a script that says the same: the statements and expressions of the text are those of the script, up to positions and the kind of integers (int or long), and parsing it gives a tree that differs in positions only. Scripts with different trees are printed differently, so printing loses nothing. This holds for scripts without not, without floating point numbers, with strings that need no escapes, and without functions. Debug builds abort exactly if there is a function definition or a return in the script. Refuted for others: a script that begins with not e is printed as a text that is not a script; 1.0 is printed as the integer 1; a string with quotes is printed as another expression; release builds print functions without their names; with a tab size of zero different scripts are printed alike.", "quantifier": "all scripts, names, nestings and tab sizes, with and without assertions", "why_tests_cant": "all programs", "anchors": ["source/fern/language/ast/visitor/module_visitor.cc", "source/fern/language/ast/visitor/ast_visitor.cc", "source/fern/language/script/algebra_parser.cc", "source/fern/language/ast/xml/xml_parser.cc"]}
{"id": "C85", "title": "Graphs of the syntax trees of scripts", "statement": "The graph of a syntax tree shows every expression, statement and scope of the script once, with its name, operator, number or string and its type, and the sentinel of every scope, apart from attributes and the arguments of function definitions. From each vertex there are lines to what is directly below it, once and in the order of the script, in clusters nested like the scopes; each cluster is labelled by the function (or script) it is in and all are closed. If control flow is asked for, the lines of it are exactly those from numbers, names, strings, operations, subscripts and assignments to their successors; if uses are, those from names to their uses. Defects: there are no lines from an if or while statement to its scopes, from a function definition, or from an attribute, attributes are pointed at but not declared, and the control flow from if statements, scopes, returns and function definitions is missing, so that runs of a script are not paths of the graph. With assertions no graph is made exactly if an expression shown has more than one type.", "quantifier": "all scripts, types, control flows and uses, with and without assertions", "why_tests_cant": "all programs", "anchors": ["source/fern/language/ast/visitor/ast_dot_visitor.cc", "source/fern/language/ast/visitor/ast_visitor.cc", "source/fern/language/ast/visitor/thread_visitor.cc", "source/fern/language/command/compile_command.cc: compile_to_dot_ast"]}
{"id": "C86", "title": "References to Python objects", "statement": "Instances of the class that owns references to Python objects may be made, assigned, incremented and destructed in any order by callers that hand over references they own: no object is used after it has been freed, all reference counts are right at any time, what instances hold (and all it refers to) is not freed and does not change, and an object is freed exactly when nothing refers to it any more. Once all instances are destructed and other code holds what it held before, Python's objects are as they were. Refuted for the rest of the interface: assigning a new reference to an instance that already holds the same object leaks it; storing through the address of an instance that holds an object aborts debug builds and leaks otherwise; a borrowed reference can outlive its object; an instance made of a reference that is not owned frees an object that others use.", "quantifier": "all heaps of objects that refer to each other, all histories of instances", "why_tests_cant": "all histories", "anchors": ["source/fern/language/python/owned_reference.cc", "source/fern/language/python/borrowed_reference.cc"]}
{"id": "C87", "title": "Errors of Python", "statement": "If Python has reported a syntax error the exception thrown tells the source, the line, the column, the statement (without the line feeds around it) and the message Python gave (each up to the first zero character). Afterwards no error is set, the references of the error are dropped and all others are kept; the references also in all other cases in which an exception is thrown. Defects: debug builds abort for every other error, and for syntax errors without line, column or statement; release builds tell the message of other errors only, take a column that is not a number for -1 and leave an error set, and have undefined behaviour if the statement is None.", "quantifier": "all objects of Python, all errors, messages and statements", "why_tests_cant": "all errors and heaps", "anchors": ["source/fern/language/python/exception.cc: throw_exception", "source/fern/language/python/string.cc: as_unicode_string", "source/fern/language/python/owned_reference.cc"]}
{"id": "C88", "title": "Clients of HDF5, GDAL and Python", "statement": "Any number of clients of HDF5, Fern's format and GDAL can be made and destructed in any order without failure. HDF5 is open exactly while there is a client of it, and the drivers that can be found are exactly Fern's, while there is a client of it, and those of GDAL that are not known to contain bugs, while there is a client of GDAL; none of them is one GDAL has deleted. A program that has one parser at a time can parse while it has it. Refuted: destructing one of several parsers finalises Python for all of them, and parsing with the others is undefined behaviour; debug builds abort when one of 65536 parsers is destructed; parsed files are never closed, so that no more files can be parsed than can be open; the clients of GDAL of the two libraries delete each other's drivers, leaving dangling ones or failing assertions.", "quantifier": "all histories of clients and parses, all sets of GDAL drivers, all limits on open files", "why_tests_cant": "all histories", "anchors": ["source/fern/language/io/fern/hdf5_client.cc", "source/fern/language/io/fern/fern_client.cc", "source/fern/language/io/gdal/gdal_client.cc", "source/fern/io/gdal/gdal_client.cc", "source/fern/language/python/client.cc", "source/fern/language/script/algebra_parser.cc: parse_file"]}
{"id": "C89", "title": "What errors tell", "statement": "Every message is the text of its kind with the arguments (names, paths, numbers, statements) inserted as they are, whatever characters they have, if it is given as many arguments as it has places, and different kinds of messages have different texts. Errors of files tell the file and what is wrong. Syntax errors, unsupported constructs and problems of validation tell the source, the line, the column and what is wrong, and the place can be read back from the text if the source is known. Defects: a syntax error whose statement is empty (or has line feeds only) aborts debug builds, and in release builds asking for its message throws another exception; errors of Python that are no syntax errors are undefined behaviour in release builds; errors in the document made of a script are told as errors in a string, at a place in the document.", "quantifier": "all messages, arguments, sources, lines and columns, all syntax errors Python reports, with and without assertions", "why_tests_cant": "all texts", "anchors": ["source/fern/core/messages.cc", "source/fern/core/messages.h: format_message", "source/fern/core/io_error.cc", "source/fern/core/parse_error.cc", "source/fern/core/validate_error.cc", "source/fern/core/script_error.cc", "source/fern/language/interpreter/interpreter.cc: parse_string, parse_file, validate", "source/fern/language/ast/xml/xml_parser.cc: parse_string"]}
{"id": "C90", "title": "Reading a number from a NetCDF file", "statement": "Reading a data name of a NetCDF file into a number succeeds, in a debug build, exactly if the file exists and is a dataset, its attribute Conventions lists COARDS (between commas, with or without white space around it, if there are commas; between white space otherwise) and the path is the name of a scalar variable of type double; the number is then the value of that variable, in release builds too. An error is thrown exactly if the file does not exist, cannot be read, does not conform, does not contain the variable or the variable is no scalar, in that order, and its text names the file and the problem. However reading ends no dataset stays open. Defects: a scalar of another type, for which an I/O error is documented, aborts debug builds; release builds convert numbers, leave the destination as it was for texts without telling, and are undefined for types of users; a value equal to the fill value is read as data; a path of more names reads the variable of the first name in release builds; a Conventions text ending in a zero character, and one that is no text (a string of NetCDF-4), aborts debug builds and does not conform in release builds.", "quantifier": "all files, datasets, texts of conventions, paths, variables and values, with and without assertions", "why_tests_cant": "all datasets and all texts", "anchors": ["source/fern/io/netcdf/coards/detail/read.h: read_coards", "source/fern/io/netcdf/coards/dataset.cc: conforms_to_coards", "source/fern/io/netcdf/core/attribute.cc: conventions, attribute", "source/fern/io/netcdf/core/variable.cc", "source/fern/io/netcdf/core/detail/variable.h: read_variable", "source/fern/io/netcdf/core/dataset.cc: open_dataset", "source/fern/io/netcdf/core/dataset_handle.cc"]}
{"id": "C91", "title": "Handles of datasets", "statement": "Whatever a program does with handles of HDF5 groups and datasets (constructing, moving, assigning, destroying, using them), what is open is at any time exactly what the handles hold, each by one handle; no library is asked for what is not open, and once all handles are destroyed all is closed. The same holds of handles of HDF5 files and of the dataset handles of GDAL and NetCDF as long as these are not moved. Assigning an HDF5 handle closes what the target had and leaves the other empty. Defects: a dataset handle of GDAL or NetCDF that is moved from still is a handle of the same dataset, which is closed twice (undefined for GDAL; for NetCDF refused, or the closing of a dataset of another handle that got the same number), although both classes say that there can be only one handle to a dataset; a handle that is assigned loses its dataset, which is never closed, whatever the program does; asking for the class of the type of an HDF5 dataset leaves a type open each time.", "quantifier": "all histories of construction, moves, assignments, destruction and use, of any length, all numbers the libraries give, with and without assertions", "why_tests_cant": "all histories; closing twice may go unnoticed", "anchors": ["source/fern/io/gdal/dataset_handle.h", "source/fern/io/gdal/dataset_handle.cc", "source/fern/io/netcdf/core/dataset_handle.h", "source/fern/io/netcdf/core/dataset_handle.cc", "source/fern/language/io/fern/hdf5_group.cc: HDF5Group", "source/fern/language/io/fern/hdf5_dataset.cc: HDF5Dataset, type_class", "source/fern/language/io/fern/hdf5_file.cc: HDF5File"]}
{"id": "C92", "title": "Rasters as arrays of NumPy", "statement": "The NumPy array of a raster has the shape of the raster and, in every row and column, the raster's value, of the same kind of numbers (unsigned, signed, floating point), for every value type that is handled, every shape and all values. It is a copy: whatever a program does, a value at a row and column of a raster or array changes only when it is written there or when that raster or array itself goes, so that an array keeps what its raster had when the raster is written or goes, and the other way around; none of this is undefined behaviour. What is written is read. Defect: no array is made of rasters of 16 bits integers, which can be read from files (nor of booleans and signed 8 bits integers), although NumPy's types for them are listed: debug builds abort, and release builds give an array that has nothing of the raster.", "quantifier": "all value types, shapes and values, all histories of making, writing and destroying rasters and arrays, with and without assertions", "why_tests_cant": "all values and all histories", "anchors": ["source/fern/python/feature/numpy.cc: raster_as_numpy_array, wrap_array", "source/fern/python/feature/numpy_type_traits.h", "source/fern/python/core/switch_on_value_type.h", "source/fern/python/feature/detail/masked_raster.h"]}
{"id": "C93", "title": "Normal distributions from UncertML", "statement": "In debug builds parsing a text gives a distribution exactly if the text is a document of UncertML (whatever prefixes and white space it uses) of a normal distribution with one mean and one variance, which is positive; the distribution has that mean and the square root of that variance as its standard deviation. In release builds it does so exactly if the document has a mean and a variance. A parse error is thrown, in release builds, exactly if the text does not describe means and variances of a normal distribution, in numbers; in debug builds only then. Defects: documents with several means or variances, which the schema allows, abort debug builds, and release builds silently use the first ones; documents without them abort debug builds and are undefined behaviour in release builds; a variance that is zero or negative is not told but aborts debug builds, and release builds give a distribution with the square root of it.", "quantifier": "all texts, prefixes, white space, lists of numbers, with and without assertions", "why_tests_cant": "all texts", "anchors": ["source/fern/language/io/uncertml2/uncertml2_parser.cc: UncertML2Parser::parse", "source/fern/language/io/uncertml2/uncertml2.xsd: NormalDistributionType", "source/fern/language/uncertainty/normal_distribution.cc"]}
{"id": "C94", "title": "Functions in scripts", "statement": "A script with definitions of functions is annotated, validated and executed, and its names are linked, exactly as the script in which each definition is replaced by its parameters, as expression statements, followed by the statements of its body, and each return statement by its expression; scripts without functions are treated as before. So, contrary to what the control flow graph (C67) and its documentation say: a script that calls something that is no operation is never accepted, even if it defines a function of that name; the name of a function does not matter, so that an operation of the same name is called instead; a definition is only accepted if each parameter is a data source, known, or assigned to before; and the bodies of functions are executed once, where they are defined, whether or not they are called, past their return statements, with their assignments visible in the whole script.", "quantifier": "all scripts, with definitions nested in any way, all operations, data sources and states of the interpreter", "why_tests_cant": "all scripts", "anchors": ["source/fern/language/ast/visitor/ast_visitor.cc: Visit(FunctionDefinitionVertex&), Visit(ReturnVertex&)", "source/fern/language/ast/visitor/identify_visitor.cc", "source/fern/language/ast/visitor/annotate_visitor.cc", "source/fern/language/ast/visitor/validate_visitor.cc", "source/fern/language/ast/visitor/io_visitor.cc", "source/fern/language/interpreter/execute_visitor.cc", "source/fern/language/interpreter/interpreter.cc: annotate, validate, execute"]}
{"id": "C95", "title": "Minimum, maximum and range of floating point numbers", "statement": "Aggregating floating point values to their minimum gives the first of the smallest values that are not NaN (infinities included), and to their maximum the first of the greatest, the same for arrays and rasters, for sequential execution and for every number of threads and every schedule; no valid element gives no-data. But if all the values are NaN or plus infinity the minimum is the largest finite number, not marked as no-data (and the maximum of NaNs and minus infinities the lowest). The range of finite values is the number nearest to the difference of the two, or infinity if that overflows; that of NaNs only is minus infinity. The elementwise minimum and maximum of two rasters is the smaller or greater of two values, the first of them if they compare equal, and the first argument if either is NaN, so the order of the arguments matters. An accumulator that is constructed from NaN stays NaN.", "quantifier": "both floating point formats, all arrays and rasters of values, NaN and infinities included, all no-data policies that mark, all numbers of threads and schedules", "why_tests_cant": "all lists of floating point numbers, numbers of threads and schedules", "anchors": ["source/fern/algorithm/accumulator/min.h: Min", "source/fern/algorithm/accumulator/max.h: Max", "source/fern/algorithm/accumulator/range.h: Range", "source/fern/algorithm/statistic/unary_min.h", "source/fern/algorithm/statistic/unary_max.h", "source/fern/algorithm/statistic/binary_min.h", "source/fern/algorithm/statistic/binary_max.h", "source/fern/algorithm/core/unary_aggregate_operation.h"]}
{"id": "C96", "title": "Sum, mean and variance of floating point numbers", "statement": "Summing floating point values, with the range policy, gives what adding them in order to zero gives, each sum rounded to a nearest number of the format; it gives no-data exactly if there is no value, a value is not finite, or a sum overflows on the way. The mean is a number nearest to that sum divided by the number of values (itself rounded to the format), under the same conditions. Without the policy overflow is not told: the sum is then infinite or NaN, and not marked. If the values are multiples of a power of two and their magnitudes together need no more digits than the format has, as with integers below 2^53, the sum is exact for every number of threads and every schedule. Otherwise the result depends on the number of threads, both in its value and in whether it is no-data. The variance of finite values is the mean of the squares of the differences with the mean, each step rounded to a nearest number, or infinite if a step overflows, and the standard deviation is a number nearest to its root; they are never negative or NaN, and zero for one value; merging those of two blocks gives that of both if the sums are exact. But the mean of equal values may be greater than each of them, and their variance positive.", "quantifier": "both floating point formats, all arrays and rasters of values, NaN and infinities included, all no-data policies that mark; for exact sums all numbers of threads and schedules", "why_tests_cant": "all lists of floating point numbers, numbers of threads and schedules", "anchors": ["source/fern/algorithm/accumulator/sum.h: Sum", "source/fern/algorithm/accumulator/mean.h: Mean", "source/fern/algorithm/accumulator/variance.h: Variance", "source/fern/algorithm/accumulator/standard_deviation.h: StandardDeviation", "source/fern/algorithm/algebra/elementary/add.h: OutOfRangePolicy", "source/fern/algorithm/statistic/sum.h", "source/fern/algorithm/statistic/mean.h", "source/fern/algorithm/core/unary_aggregate_operation.h"]}
{"id": "C97", "title": "Rounding to whole numbers", "statement": "Floor, ceil, trunc and round of a floating point number are exact: the greatest whole number that is not greater, the smallest that is not less, the one nearest that is not greater in magnitude, and the nearest, halves away from zero; there is exactly one such number and it is always representable. The result has the sign of the argument, also if it is zero; infinities and NaN stay what they are; absolute values of floating point numbers only lose their sign. No-data stays no-data and nothing else is marked, for arrays, rasters and scalars, sequentially and for every number of threads and schedule. Whole numbers are not changed, so rounding twice is rounding once; the order of values is kept; floor of the opposite is the opposite of ceil. But rounding is not the floor of the value plus a half.", "quantifier": "both floating point formats, all values, NaN and infinities included, all arrays and rasters, policies that mark, numbers of threads and schedules", "why_tests_cant": "all floating point numbers", "anchors": ["source/fern/algorithm/algebra/elementary/detail/floor.h: Algorithm", "source/fern/algorithm/algebra/elementary/detail/ceil.h: Algorithm", "source/fern/algorithm/algebra/elementary/detail/trunc.h: Algorithm", "source/fern/algorithm/algebra/elementary/detail/round.h: Algorithm", "source/fern/algorithm/algebra/elementary/detail/absolute.h: Algorithm", "source/fern/algorithm/core/unary_local_operation.h"]}
{"id": "C98", "title": "Median and mode of floating point numbers", "statement": "The median of floating point values of which none is NaN, infinities included, is the middle one of the sorted values if their number is odd; if it is even the two in the middle are added and halved, each rounded to a nearest number, which lies between the two, unless their sum overflows, in which case the median is infinite although the values are not; it is NaN if the two are opposite infinities. Neither the order of the values nor the way equal ones are sorted changes it, except for the sign of a zero. A NaN beside two different numbers is undefined behaviour: the values have no weak order, which is exactly when there is no result (besides when there are no values). Merging accumulators is accumulating one after the other. The mode, of an accumulator that was constructed from a value or merged from such, is one of the values, and no value is there more often, plus and minus zero being equal and each NaN counting as a value of its own; so NaN is the mode only if no two values are equal, and of values that are mostly NaN the mode may be a number. A default constructed mode counts a zero that is not there.", "quantifier": "both floating point formats, all lists of values, NaN and infinities included, all sorting algorithms and all orders in which the frequency table is visited", "why_tests_cant": "all lists of floating point numbers, orders and sorting algorithms", "anchors": ["source/fern/algorithm/accumulator/median.h: Median", "source/fern/algorithm/accumulator/mode.h: Mode", "source/fern/algorithm/accumulator/detail/frequency_table.h: FrequencyTable"]}
{"id": "C99", "title": "Clamping floating point numbers", "statement": "Clamping moves each floating point value, infinities included, exactly to the lower bound if it is less, to the upper bound if that is less, and leaves it alone otherwise; no-data stays no-data; so for scalars, arrays and rasters, with bounds that are arrays or rasters or (one of them) a scalar, and, where that compiles, for every number of threads and schedule. The result is unique, is the value or one of the bounds (nothing is rounded), lies within the bounds, clamping again changes nothing and the order of values is kept. Infinite bounds are none. Bounds in the wrong order fail an assertion. But NaN is not moved, and a bound that is NaN is no bound: the assertion does not see it. The sign of a floating point number is 1 if it is not less than zero, minus zero included, and -1 for the others, NaN included.", "quantifier": "both floating point formats, all values and bounds, NaN and infinities included, all arrays and rasters, no-data policies that mark, numbers of threads and schedules", "why_tests_cant": "all floating point numbers and bounds", "anchors": ["source/fern/algorithm/core/clamp.h: clamp", "source/fern/algorithm/core/detail/clamp.h", "source/fern/algorithm/core/sign.h: sign"]}
{"id": "C100", "title": "No-data values that are floating point numbers", "statement": "With a no-data value that is a floating point number, an element is no-data exactly if it has the same value and neither is NaN, plus and minus zero being the same. After any operation that marks with that value, the elements that were marked are found by an operation that detects it, and besides those only the results that happen to have that value; so of two operations after each other no-data stays no-data and values are passed on, if the no-data value is not NaN and not a result. But if the no-data value is NaN nothing is ever no-data: what the first operation marked is a value, NaN, for the second.", "quantifier": "both floating point formats, all no-data values, rasters and sizes, all elementwise operations with any domain and range check", "why_tests_cant": "all floating point numbers, rasters and operations", "anchors": ["source/fern/algorithm/policy/detect_no_data_by_value.h: DetectNoDataByValue", "source/fern/algorithm/policy/mark_no_data_by_value.h: MarkNoDataByValue", "source/fern/core/math.h: is_equal", "source/fern/algorithm/core/unary_local_operation.h"]}

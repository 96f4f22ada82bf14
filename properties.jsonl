{"id": "C01", "title": "Allocated objects never share a byte they both use", "statement": "When the payload is laid out, every object gets a 4-aligned offset, and for any two distinct objects the sets of dwords they actually write are disjoint, although objects are deliberately interleaved into each other's unused gaps. The reported payload size covers every dword any object writes.", "quantifier": "every finite list of objects, each with an arbitrary occupancy pattern (any lengths, any gaps), for which layout completes", "why_tests_cant": "The layout reuses gaps through an in-place encoded free-run table; the interesting overlaps depend on combinations of occupancy patterns across an unbounded number of objects.", "anchors": ["src/rust/src/allocator/payload.rs: stack_objects, alloc_objects"]}
{"id": "C02", "title": "Layout completes on every input", "statement": "Laying out any collection of objects terminates with a layout and never aborts the compiler.", "quantifier": "every finite list of objects with arbitrary occupancy patterns", "why_tests_cant": "An abort needs a particular shape of the last object combined with the run table; random objects of real maps rarely reach it.", "anchors": ["src/rust/src/allocator/payload.rs: stack_objects"]}
{"id": "C03", "title": "Recorded occupancy covers every byte written", "statement": "The occupancy pattern recorded by the dry run of an object's writes marks every dword that the real write run then stores to, so non-overlap of recorded patterns implies non-overlap of stored bytes.", "quantifier": "every sequence of write operations (byte, word, dword, bytes, space) an object may issue", "why_tests_cant": "Occupancy is recorded in a run-length form with sub-dword writes; unaligned mixes form an infinite family of sequences.", "anchors": ["src/rust/src/allocator/payload.rs: ObjAllocator", "src/rust/src/allocator/pbuffer.rs: PayloadBuffer"]}
{"id": "C04", "title": "Payload bytes and relocation tables describe exactly what was written", "statement": "The payload buffer holds exactly the values written, at the offsets they were written, zero elsewhere, and each relocation table lists exactly the offsets of the dwords whose value must move with the payload (by offset, or by offset/4), each once.", "quantifier": "every sequence of object writes with constant or relocatable values", "why_tests_cant": "A missing or doubled relocation entry only corrupts a map when it is loaded at some other base address.", "anchors": ["src/rust/src/allocator/pbuffer.rs: PayloadBuffer", "src/rust/src/allocator/payload.rs: construct_payload"]}
{"id": "C05", "title": "Relocated payload equals payload built at the final address", "statement": "For every 4-aligned load address, applying the two relocation tables to the stored payload gives the same memory as evaluating every stored expression with the objects at their final addresses.", "quantifier": "every object set, every expression built with +, -, *, //-free address arithmetic over object addresses, every base address", "why_tests_cant": "A build checks one base address; the property is about all of them, with wrap-around at 2^32.", "anchors": ["src/rust/src/allocator/rlocint.rs", "src/rust/src/allocator/pbuffer.rs", "src/eudplib/maprw/injector/payload_init.py", "src/eudplib/maprw/injector/payload_reloc.py"]}
{"id": "C06", "title": "Address expression algebra is sound", "statement": "For address expressions built with addition, subtraction, multiplication, exact division by constants, and EPD(), the compile-time value equals the mathematical value for every assignment of addresses to objects; operations that cannot be represented are rejected.", "quantifier": "every expression tree, every assignment of object addresses", "why_tests_cant": "Expression trees are unbounded and the value depends on final addresses unknown while testing.", "anchors": ["src/rust/src/allocator/constexpr.rs", "src/rust/src/allocator/rlocint.rs", "src/eudplib/utils/etc.py: EPD"]}
{"id": "C07", "title": "Variable assignment copies one value and nothing else", "statement": "After `dst << src`, `dst += src`, `dst -= src`, `dst |= c`-style updates between distinct variables, the destination holds the specified u32 result, the source and every other variable and memory cell used by the program are unchanged, and execution continues with the next statement.", "quantifier": "all variables, all 32-bit contents, all previous contents of the variables' internal transfer fields", "why_tests_cant": "The transfer works by rewriting destination, modifier and next pointers of live triggers; correctness depends on the history of previous rewrites.", "anchors": ["src/eudplib/core/variable/eudv.py: EUDVariable, VProc", "src/eudplib/core/variable/eudv.py: SeqCompute"]}
{"id": "C08", "title": "SeqCompute equals sequential execution of its assignments", "statement": "SeqCompute(list) has the same effect on memory as executing the (dst, modifier, src) assignments one after another in list order, whatever the length of the list, even if constants and variables are mixed, and irrespective of how assignments are packed in triggers.", "quantifier": "every finite assignment list with constant or variable sources and distinct-from-source destinations, every initial memory", "why_tests_cant": "Packing splits at 64 actions and merges source setup across assignments; the state space is lists times memory.", "anchors": ["src/eudplib/core/variable/eudv.py: SeqCompute, _seqcompute_sub"]}
{"id": "C09", "title": "NonSeqCompute equals SeqCompute when destinations are independent", "statement": "NonSeqCompute of assignments whose destinations are pairwise distinct and are not sources of another assignment has the same effect as SeqCompute in any order.", "quantifier": "every finite list of independent assignments, every initial memory", "why_tests_cant": "Reordering is chosen from the mixture of constants and variables; all mixtures must agree.", "anchors": ["src/eudplib/core/variable/eudv.py: NonSeqCompute"]}
{"id": "C10", "title": "Comparisons decide the mathematical order", "statement": "Each of ==, !=, <=, <, >=, > between a variable and a constant or another variable is true exactly when the relation holds for the unsigned 32-bit values.", "quantifier": "all pairs of 32-bit values, all six relations", "why_tests_cant": "2^64 pairs per relation; boundary behaviour (0 and 2^32-1) is where subtraction-based comparisons differ.", "anchors": ["src/eudplib/core/variable/eudv.py: EUDVariable.__eq__ ... __gt__", "src/eudplib/core/variable/eudlv.py"]}
{"id": "C11", "title": "Multiplication is exact modulo 2^32", "statement": "f_mul(a,b) of two variables returns a*b mod 2^32 for all 32-bit a, b, leaves arguments unharmed for the caller, and can be called again with other values.", "quantifier": "all pairs of 32-bit values, all histories of previous calls", "why_tests_cant": "2^64 inputs and self-modifying code whose state survives between calls.", "anchors": ["src/eudplib/core/calcf/muldiv.py: _eud_mul, _const_mul"]}
{"id": "C12", "title": "Division returns quotient and remainder", "statement": "f_div(a,b) returns (a/b, a mod b) for every b>0, and (2^32-1, a) for b=0, for all 32-bit values, and can be called repeatedly.", "quantifier": "all pairs of 32-bit values, all histories of previous calls", "why_tests_cant": "2^64 inputs and self-modifying entry points chosen per call.", "anchors": ["src/eudplib/core/calcf/muldiv.py: _eud_div, _const_div"]}
{"id": "C13", "title": "Specialised constant multiply and divide agree with the general ones", "statement": "Multiplying or dividing by a compile-time constant gives the same result as the general routine for every constant and every operand.", "quantifier": "every 32-bit constant, every 32-bit operand", "why_tests_cant": "A different trigger sequence is generated for every constant, 2^32 programs times 2^32 inputs.", "anchors": ["src/eudplib/core/calcf/muldiv.py: _const_mul, _const_div, f_mul, f_div"]}
{"id": "C14", "title": "Bitwise operations are exact", "statement": "f_bitand, f_bitor, f_bitxor, f_bitnand, f_bitnor, f_bitnxor and f_bitnot return the bitwise result on 32-bit words for variable and constant operands.", "quantifier": "all 32-bit operands", "why_tests_cant": "2^64 inputs; implementations use masked writes with masks stored in memory.", "anchors": ["src/eudplib/core/calcf/bitwise.py", "src/eudplib/core/variable/eudv.py: ineg, ibnot, iand, ior, ixor"]}
{"id": "C15", "title": "Shifts are exact for every shift amount", "statement": "f_bitlshift(a,b) = a*2^b mod 2^32 and f_bitrshift(a,b) = a div 2^b, with 0 for b >= 32, for constant and variable shift amounts.", "quantifier": "all 32-bit operands and shift amounts", "why_tests_cant": "Shift amounts select generated code; amounts >= 32 are hit rarely.", "anchors": ["src/eudplib/core/calcf/bitwise.py: f_bitlshift, f_bitrshift"]}
{"id": "C16", "title": "Signed division variants follow their mathematical definitions", "statement": "f_div_towards_zero, f_div_floor and f_div_euclid return the truncated, floored and Euclidean quotient and remainder of the signed 32-bit interpretations, for every non-zero divisor.", "quantifier": "all pairs of signed 32-bit values with non-zero divisor", "why_tests_cant": "Sign combinations times 2^64 values, including -2^31 and -1.", "anchors": ["src/eudplib/eudlib/mathf/div.py"]}
{"id": "C17", "title": "Integer power is exact modulo 2^32 and terminates", "statement": "f_pow(a,b) terminates and returns a^b mod 2^32 for all 32-bit a and b.", "quantifier": "all pairs of 32-bit values", "why_tests_cant": "Non-termination only for half of the exponents that no test would use.", "anchors": ["src/eudplib/eudlib/mathf/pow.py: f_pow"]}
{"id": "C18", "title": "Binary search returns the extreme satisfying value in range", "statement": "EUDBinaryMax (EUDBinaryMin) returns the greatest (least) value in [minv,maxv] satisfying the monotone predicate whenever one exists, and always returns a value within [minv,maxv].", "quantifier": "every pair of bounds, every monotone predicate", "why_tests_cant": "Predicates are arbitrary functions; the failing bounds are degenerate (equal bounds, full range).", "anchors": ["src/eudplib/eudlib/utilf/binsearch.py: EUDBinaryMax, EUDBinaryMin"]}
{"id": "C19", "title": "Integer square root is exact", "statement": "f_sqrt(x) returns the largest r with r*r <= x for every 32-bit x.", "quantifier": "all 32-bit x", "why_tests_cant": "2^32 inputs; intermediate squares wrap at 2^32.", "anchors": ["src/eudplib/eudlib/mathf/sqrt.py: f_sqrt"]}
{"id": "C20", "title": "Structured conditionals execute exactly one branch", "statement": "In an If/ElseIf/Else chain exactly the first branch whose condition holds is executed (or the else branch), then control continues after EndIf; nested arbitrarily and mixed with loops, break and continue, the generated jumps implement ordinary structured-program semantics.", "quantifier": "every structured program (nesting, breaks, continues), every condition outcome, every initial state", "why_tests_cant": "Programs are unbounded trees and conditional jumps are implemented by rewriting next pointers that must be restored on every path.", "anchors": ["src/eudplib/ctrlstru/shortcircuit.py", "src/eudplib/ctrlstru/basicstru.py: EUDJumpIf, EUDBranch", "src/eudplib/ctrlstru/simpleblock.py", "src/eudplib/ctrlstru/loopblock.py"]}
{"id": "C21", "title": "Switch jumps to the matching case", "statement": "EUDSwitch(v, mask) with any set of distinct case values continues at the case equal to v & mask if there is one, else at default (or end), regardless of the number and density of the cases and of the dispatch method chosen.", "quantifier": "every finite set of case values, every mask, every 32-bit value, every number of executions", "why_tests_cant": "The dispatch method (jump table with bit extraction or binary search) depends on the case set; 2^32 values per set.", "anchors": ["src/eudplib/ctrlstru/swblock.py: EUDSwitch, EUDEndSwitch"]}
{"id": "C22", "title": "Negating a condition inverts its truth", "statement": "The negation of a condition, as used by EUDIfNot/EUDNot/jump-if-not, holds exactly in the states where the condition does not.", "quantifier": "every memory/deaths/switch condition (all comparisons, amounts, masks), every state", "why_tests_cant": "Amount boundary values and masks outside the amount's bits are the failing points among 2^64 conditions.", "anchors": ["src/eudplib/core/rawtrigger/condition.py: Condition.negate", "src/eudplib/ctrlstru/shortcircuit.py"]}
{"id": "C23", "title": "Triggers with any number of conditions and actions behave as one", "statement": "Trigger(conditions, actions) with more than 16 conditions or 64 actions executes all actions in order iff all conditions hold at entry, and otherwise none; it can be executed repeatedly if preserved.", "quantifier": "every finite condition list and action list, every initial state", "why_tests_cant": "Splitting uses auxiliary jumps at 16 and 64; the number of pieces is unbounded.", "anchors": ["src/eudplib/trigger/triggerdef.py: Trigger", "src/eudplib/trigger/branch.py: EUDBranch"]}
{"id": "C24", "title": "Functions return to their call site with the right results", "statement": "Calling a function copies arguments to parameters, executes the body, and continues after the call with results assigned to the caller's variables; calls from different sites, in any sequence and nested without recursion, do not disturb one another.", "quantifier": "every acyclic call graph and call history", "why_tests_cant": "Return address is a rewritten next pointer shared by all calls; errors need particular call histories.", "anchors": ["src/eudplib/core/eudfunc/eudfuncn.py: EUDFuncN._CreateFuncBody, _AddReturn, __call__"]}
{"id": "C25", "title": "ExecuteOnce blocks run once", "statement": "The body of an EUDExecuteOnce block runs the first time control reaches it and never again, while the code after it runs every time.", "quantifier": "every number of executions", "why_tests_cant": "Depends on history of an in-place next-pointer rewrite.", "anchors": ["src/eudplib/ctrlstru/simpleblock.py: EUDExecuteOnce"]}
{"id": "C26", "title": "Read tables return the masked, shifted memory content", "statement": "Memory read primitives built on the shared read-trigger table (dword, word, byte, and custom bit ranges) return exactly the selected bits of the addressed dword, moved to the requested position, do not change the memory read, and do so for every order in which different reads were requested during compilation.", "quantifier": "every sequence of read requests at compile time, every 32-bit memory value, every mask/shift", "why_tests_cant": "Requests share trigger chains whose shape depends on the history of compile-time requests.", "anchors": ["src/eudplib/memio/readtable.py", "src/eudplib/memio/dwepdio.py"]}
{"id": "C27", "title": "Byte and word access at sub-dword offsets is exact", "statement": "Reading or writing a byte or word at (epd, subp) reads or changes exactly the addressed byte or two bytes (crossing to the next dword when needed), and leaves all other bytes unchanged.", "quantifier": "every epd, subp in 0..3, every value that fits, every memory content", "why_tests_cant": "Neighbouring bytes are only disturbed for particular values and offsets.", "anchors": ["src/eudplib/memio/bwepdio.py", "src/eudplib/memio/cpmemio.py"]}
{"id": "C28", "title": "Block copy, compare and fill behave like C", "statement": "f_repmovsd_epd/f_dwpatch-free copies n dwords from source to destination with ascending order, f_memcpy copies n bytes for any alignment, f_memcmp returns zero iff the first n bytes agree, f_strlen counts bytes before the first NUL.", "quantifier": "every length, every alignment, every memory content", "why_tests_cant": "Lengths and contents are unbounded.", "anchors": ["src/eudplib/memio/mblockio.py", "src/eudplib/memio/byterw.py", "src/eudplib/memio/ptrmemio.py"]}
{"id": "C29", "title": "Unpatching restores memory", "statement": "After any sequence of f_dwpatch_epd and f_blockpatch_epd calls followed by f_unpatchall, every memory cell outside the patch stack has its original value.", "quantifier": "every sequence of patches of any sizes to any (repeated, overlapping) locations", "why_tests_cant": "Restoration relies on reverse order and on large blocks being split; interleavings are unbounded.", "anchors": ["src/eudplib/eudlib/utilf/mempatch.py"]}
{"id": "C30", "title": "Stack is LIFO", "statement": "EUDStack behaves as a bounded last-in first-out stack for all push/pop sequences that respect its capacity.", "quantifier": "every operation sequence", "why_tests_cant": "Histories are unbounded.", "anchors": ["src/eudplib/collections/eudstack.py: EUDStack"]}
{"id": "C31", "title": "Queue is FIFO", "statement": "EUDQueue(capacity) behaves as a bounded first-in first-out queue: append adds at the right and drops the oldest when full, popleft returns the oldest; length and emptiness agree with the abstract queue.", "quantifier": "every capacity, every operation sequence that does not pop from an empty queue", "why_tests_cant": "Wrap-around positions times history length.", "anchors": ["src/eudplib/collections/eudqueue.py: EUDQueue"]}
{"id": "C32", "title": "Deque is a double-ended queue", "statement": "EUDDeque(capacity) behaves as a bounded double-ended queue like collections.deque(maxlen=capacity) for all sequences of append, appendleft, pop and popleft.", "quantifier": "every capacity, every operation sequence that does not pop from an empty deque", "why_tests_cant": "The wrong wrap-around needs a full deque in one particular rotation.", "anchors": ["src/eudplib/collections/eudqueue.py: EUDDeque"]}
{"id": "C33", "title": "Object pool hands out distinct live objects", "statement": "ObjPool.alloc never returns an object that is still allocated, freed objects become available again, and an allocation from a full pool has no effect on live objects.", "quantifier": "every pool size, every alloc/free sequence that frees only live objects", "why_tests_cant": "Free-list histories are unbounded.", "anchors": ["src/eudplib/collections/objpool.py: ObjPool"]}
{"id": "C34", "title": "Unit group keeps exactly the added, not removed units", "statement": "A UnitGroup visits during iteration exactly the units added and not removed or dead, each once, when removals happen during iteration.", "quantifier": "every history of adds and removals", "why_tests_cant": "Removal swaps the last element into the visited position while the loop is running; histories are unbounded.", "anchors": ["src/eudplib/collections/unitgroup.py: UnitGroup"]}
{"id": "C35", "title": "CHK round trip", "statement": "Loading a scenario file produced by saving returns the same sections with the same contents; loading merges or replaces duplicate sections as documented; malformed files are rejected.", "quantifier": "every set of sections and contents, every byte string as input", "why_tests_cant": "All byte strings.", "anchors": ["src/eudplib/core/mapdata/chktok.py: CHK"]}
{"id": "C36", "title": "String table round trip and stability of string ids", "statement": "Adding strings never changes the content or id of previously added strings, equal strings get equal ids, looking an id up returns the added string, and the saved table parses back to the same strings.", "quantifier": "every sequence of additions, every initial table", "why_tests_cant": "Tables share tails and reuse slots; histories are unbounded.", "anchors": ["src/eudplib/core/mapdata/tblformat.py: TBL"]}
{"id": "C37", "title": "String table size accounting", "statement": "The size bookkeeping of a string table equals the length of the table actually saved, so the size limit is enforced exactly.", "quantifier": "every sequence of additions", "why_tests_cant": "Off-by-some errors only show at the 64KiB limit.", "anchors": ["src/eudplib/core/mapdata/tblformat.py: TBL.AddString, SaveTBL"]}
{"id": "C38", "title": "Unit property slots are shared only by equal properties", "statement": "GetPropertyIndex returns the same slot for properties with the same effect, different slots otherwise, never overwrites a slot used by the map or a previous request, and fails when all 64 are used.", "quantifier": "every request sequence, every initial table", "why_tests_cant": "Histories and 20-byte records; slot exhaustion is rare.", "anchors": ["src/eudplib/core/mapdata/proptable.py", "src/eudplib/core/mapdata/unitprp.py"]}
{"id": "C39", "title": "Integer/byte conversions round trip", "statement": "i2b1/i2b2/i2b4 and b2i1/b2i2/b2i4 are mutually inverse on their ranges and reduce modulo the width otherwise; little endian.", "quantifier": "all integers, all byte strings", "why_tests_cant": "All integers including negative ones.", "anchors": ["src/eudplib/utils/binio.py"]}
{"id": "C40", "title": "EPD and address conversion are inverse", "statement": "EPD(p) is the dword index of byte address p: 0x58A364 + 4*EPD(p) = p for every aligned p modulo 2^32; for variables the run-time conversion agrees with the compile-time one.", "quantifier": "every 4-aligned 32-bit address", "why_tests_cant": "2^30 addresses and a run-time conversion by triggers.", "anchors": ["src/eudplib/utils/etc.py: EPD"]}
{"id": "C41", "title": "Flattening preserves order and content", "statement": "FlattenList returns the leaves of arbitrarily nested lists/tuples/generators in left-to-right order, and FlattenIter yields the same sequence lazily.", "quantifier": "every finite nesting", "why_tests_cant": "Unbounded nesting.", "anchors": ["src/eudplib/utils/etc.py: FlattenList"]}
{"id": "C42", "title": "Shared variable storage keeps variables independent", "statement": "Variables packed at a 72-byte stride in a shared buffer do not overlap in any field the program reads or writes, so updating one never changes another, for any number of variables; the same holds for jump buffers at their stride.", "quantifier": "every number of variables and every pair of them", "why_tests_cant": "Overlapping trigger layouts; the number of variables is unbounded.", "anchors": ["src/eudplib/core/variable/vbuf.py: EUDVarBuffer, EUDCustomVarBuffer", "src/eudplib/ctrlstru/jumptable.py"]}
{"id": "C43", "title": "Number parsing agrees with decimal notation", "statement": "f_parse(text, radix) returns the signed number denoted by the longest digit prefix and its length, saturating at the 32-bit signed limits.", "quantifier": "every text and radix", "why_tests_cant": "Saturation boundaries are a handful of values in 2^32.", "anchors": ["src/eudplib/string/parse.py: f_parse"]}
{"id": "C44", "title": "Pseudo random generator is the documented LCG", "statement": "f_rand returns bits 16..31 of the state of the linear congruential generator seed := seed*1103515245+12345 mod 2^32; f_dwrand concatenates two successive outputs.", "quantifier": "every seed and number of draws", "why_tests_cant": "Histories of draws; splitting with masked reads.", "anchors": ["src/eudplib/eudlib/utilf/random.py"]}
{"id": "C45", "title": "Table of multiples for struct strides is exact", "statement": "For every index, the multiply-and-split-by-4 tables return epd = (index*stride) div 4 and subp = (index*stride) mod 4.", "quantifier": "every stride and index in the supported range", "why_tests_cant": "Carry happens for one residue combination.", "anchors": ["src/eudplib/memio/muldiv4table.py"]}
{"id": "C46", "title": "Boolean variables are independent", "statement": "Light boolean variables packed 32 to a dword keep their own values: setting, clearing, toggling or reading one never changes another.", "quantifier": "every number of variables and every operation sequence", "why_tests_cant": "Histories over packed bits.", "anchors": ["src/eudplib/core/variable/eudlv.py"]}
{"id": "C47", "title": "Current player cache stays coherent", "statement": "Code that temporarily changes the current player and restores it through the cache leaves the real and the cached current player equal to each other and to the value before.", "quantifier": "every nesting of save/modify/restore and every value", "why_tests_cant": "Depends on history of self-modifying restore triggers.", "anchors": ["src/eudplib/core/curpl.py", "src/eudplib/memio/modcurpl.py"]}
{"id": "C48", "title": "Trigger packing preserves per-player order", "statement": "When map triggers are converted to payload code, each player executes the same triggers in the same order as in the source map, and inline code markers are replaced at their place.", "quantifier": "every trigger list and every player assignment", "why_tests_cant": "All trigger lists.", "anchors": ["src/eudplib/maprw/inlinecode/ilcprocesstrig.py", "src/eudplib/maprw/inlinecode/btinliner.py"]}
{"id": "C49", "title": "Compact trigger encoding is lossless", "statement": "Splitting a 2400-byte binary trigger to its compact stored form and expanding it at run time gives back the original conditions and actions.", "quantifier": "every well-formed 2400-byte trigger", "why_tests_cant": "All triggers.", "anchors": ["src/eudplib/maprw/inlinecode/btinliner.py: tStartEnd/get_trigger_size"]}
{"id": "C50", "title": "Start-up relocation sled relocates every entry once", "statement": "The generated start-up triggers, executed by the engine, add the payload base to every dword of the offset table and a quarter of it to every dword of the quarter table, change nothing else, and then jump to the payload start.", "quantifier": "every pair of tables, every base address", "why_tests_cant": "Table sizes unbounded; executed code modifies itself.", "anchors": ["src/eudplib/maprw/injector/vector_reloc.py", "src/eudplib/maprw/injector/payload_reloc.py"]}
{"id": "C51", "title": "In-place item updates equal read-modify-write", "statement": "Array/pointer item updates such as arr[i] += v, arr[i] &= v, arr[i] <<= n, done in place with generated triggers, equal reading the item, applying the 32-bit operation and writing it back; other items unchanged.", "quantifier": "every index, every operand, every operation, every array content", "why_tests_cant": "Self-modifying code over 2^64 operand pairs per operation.", "anchors": ["src/eudplib/core/inplacecw.py", "src/eudplib/core/variable/eudv.py"]}
{"id": "C52", "title": "Angle and trigonometric helpers stay in range", "statement": "f_atan2(y,x) returns an angle in [0,360) in the right octant; f_lengthdir(length, angle) returns coordinates whose magnitude does not exceed length.", "quantifier": "every pair of inputs in the documented range", "why_tests_cant": "2^64 inputs; fixed-point overflow only for large ones.", "anchors": ["src/eudplib/eudlib/mathf/atan2.py", "src/eudplib/eudlib/mathf/lengthdir.py"]}
{"id": "C53", "title": "Added MPQ files are unique up to the archive's name equality", "statement": "Adding files to the output archive never silently loses or replaces a file: each added name maps to its last (or only) content under case and separator insensitive comparison.", "quantifier": "every sequence of additions", "why_tests_cant": "Histories; name normalisation.", "anchors": ["src/eudplib/maprw/mpqadd.py"]}
{"id": "C54", "title": "Block nesting errors are detected", "statement": "Every program whose block begin/end calls are not properly nested is rejected at compile time, and every properly nested one is accepted.", "quantifier": "every sequence of begin/end calls", "why_tests_cant": "All sequences.", "anchors": ["src/eudplib/utils/blockstru.py"]}
{"id": "C55", "title": "Location, switch and unit names are resolved exactly", "statement": "After loading a map, looking a location name up returns a location exactly when it is the only one with that name; names of several locations are rejected as ambiguous. The same holds for switches, and for units, which are also found by their name without colour codes.", "quantifier": "every map (all string tables and location sections), every name", "why_tests_cant": "Two locations can share a string id or have equal strings under different ids; maps are arbitrary files.", "anchors": ["src/eudplib/core/mapdata/tblformat.py: TBL.load_tbl_with_chk", "src/eudplib/core/mapdata/stringmap.py: StringIdMap"]}
{"id": "C56", "title": "Trigger size estimate", "statement": "The size estimated for a map trigger is the smallest distance at which copies of the trigger can be stacked without their used dwords colliding.", "quantifier": "every 2400-byte trigger", "why_tests_cant": "The claim is about a minimum over all strides and about all pairs of positions.", "anchors": ["src/eudplib/maprw/inlinecode/btinliner.py: get_trigger_size"]}
{"id": "C57", "title": "Triggers with variable arguments use the variables' values", "statement": "A Trigger whose conditions and actions have EUDVariables in their fields (player, amount, type, modifier, location, string, time, duration, unit, mask, ...) is preceded by code that stores each variable's current value, cut to the width of the field, at the field's position in the trigger record; constant fields of the record, other records and other memory are unchanged, and the variables keep their values.", "quantifier": "all numbers of conditions (up to 16) and actions (up to 64), every choice of variable and constant fields, all variable values, all memory contents", "why_tests_cant": "which fields are variables is chosen per use: 2^9 patterns per condition and 2^12 per action, each field one of 2^32 values, and neighbouring byte fields share a dword", "anchors": ["src/eudplib/trigger/tpatcher.py: apply_patch_table, patch_condition, patch_action", "src/eudplib/trigger/filler.py: _filldw, _fillloword, _filllsbyte, _filllobyte, _fillhibyte, _fillmsbyte"]}
{"id": "C58", "title": "Reading and writing EUDVArray items", "statement": "arr[i] of an EUDVArray yields the value of item i, and arr[i] = v stores v in item i and changes no other item, whether the array, the index and the value are constants or variables, and also when index and value are the same variable.", "quantifier": "all array sizes below 2^28, all indices within the array, all item values, all placements, constant or variable array, index and value", "why_tests_cant": "the index is multiplied bit by bit in a chain entered at a size-dependent position; 2^28 sizes times all indices, and eight code shapes that patch shared triggers", "anchors": ["src/eudplib/core/eudstruct/vararray.py: _EUDVArray.get, _EUDVArray.set, _index_for_get, _index_for_set"]}
{"id": "C59", "title": "Generated triggers keep their run-time fields in their own records", "statement": "Whenever generated code lets a field of a trigger (next pointer, mask, player, amount, value, modifier, flags) be changed at run time, the cell that the code writes is the dword of that very field in the record of that very trigger; so the triggers, stored as data, run exactly as intended.", "quantifier": "all operators, functions, memory accesses, branches, loops, switches and extended triggers; all operands, all placements, all numbers of results and conditions", "why_tests_cant": "The writing and the reading side refer to the same cell, so both agree even when it is the wrong dword; offsets depend on the number of results, actions and preceding triggers.", "anchors": ["src/eudplib/core/eudfunc/eudfuncn.py", "src/eudplib/core/variable/eudv.py", "src/eudplib/core/calcf/muldiv.py", "src/eudplib/core/inplacecw.py", "src/eudplib/memio/readtable.py", "src/eudplib/utils/etc.py: EPD", "src/eudplib/trigger/branch.py", "src/eudplib/ctrlstru/swblock.py"]}
{"id": "C60", "title": "Logical connectives and short-circuit evaluation", "statement": "EUDSCAnd evaluates its arguments from left to right, runs the code of an argument only if all earlier ones held, and gives a condition that holds exactly if all arguments hold; EUDSCOr likewise up to the first that holds. EUDOr, EUDAnd, EUDNot give the disjunction, conjunction and negation of their arguments, EUDTernary runs exactly the chosen side. Arguments may contain code of any kind, including further connectives.", "quantifier": "all lists of arguments (constant conditions, patched conditions, conditions preceded by code, negated or not), all programs around them, all memory contents, all placements", "why_tests_cant": "EUDSCAnd changes its code shape in the middle of a chain, depending on what code the arguments generated, and moves code between trigger scopes; wrong jumps show up only for particular combinations of argument kinds and truth values", "anchors": ["src/eudplib/ctrlstru/shortcircuit.py: EUDSCAnd, EUDSCOr", "src/eudplib/ctrlstru/logic.py: EUDOr, EUDAnd, EUDNot", "src/eudplib/ctrlstru/basicstru.py: EUDTernary"]}
{"id": "C61", "title": "Object collection", "statement": "Building the payload collects every object, variable, array and jump table that the root refers to, directly or through others, and nothing else; each object once, with its position in the list as index, the root first and at the start of the payload, also after shuffling; the collection ends without an exception, and everything that is written refers only to collected objects.", "quantifier": "all finite graphs of objects and of variables with initial values, cyclic or not; all orders in which the set of dynamic objects is gone through; all shuffles", "why_tests_cant": "variables are allocated while the graph is walked, buffers grow while they are gone through, and the order of a Python set of objects depends on their addresses in memory", "anchors": ["src/eudplib/core/allocator/payload.py: _collect_objects, GetObjectAddr", "src/eudplib/core/variable/vbuf.py: CollectDependency, create_vartrigger", "src/eudplib/core/eudstruct/vararray.py: _EUDVArrayData.Evaluate", "src/eudplib/ctrlstru/jumptable.py: JumpTriggerForward.Evaluate"]}
{"id": "C62", "title": "Texts and numbers printed into memory", "statement": "f_dbstr_print writes the texts of its arguments one after the other at dst - bytes as they are, integers and variables as decimal numerals without leading zeros, hptr as eight upper case hexadecimal digits, strings in memory up to their zero byte - followed by a zero byte if EOS is set, returns the address after the text and changes nothing else; so do f_dbstr_addstr, f_dbstr_adddw, f_dbstr_addptr. Constant texts are stored obfuscated and shared, yet come out unchanged for all random keys; any texts can be compiled.", "quantifier": "all argument lists, all texts, numbers and strings in memory, all destinations and alignments, all random keys and draws, all earlier and later contents of the shared text object", "why_tests_cant": "constant texts are reversed, encrypted with random keys, deduplicated as substrings of earlier texts, read backwards, and the number of bytes is encoded as a random step whose sum must cross 2^31 at the last byte; tests see a few random draws", "anchors": ["src/eudplib/string/eudprint.py: f_dbstr_print, _add_str, _add_dw, _add_ptr", "src/eudplib/string/strcommon.py: ObfuscatedBytes, dbstr_start"]}
{"id": "C63", "title": "Texts and numbers printed at the current player", "statement": "f_cpstr_print shows the texts of its arguments one after the other in the cells from the current player on, each filled up with carriage returns to whole cells; the current player ends at the cell after them, which is zero if EOS is set; nothing else changes but that cell, and the byte writer is left empty. CPString.Display writes its content the same way, advances the current player and its cache by the number of cells, and valueAddr names the action that sets each cell.", "quantifier": "all argument lists (bytes, integers, variables, hptr, strings by address or EPD, CPStrings of bytes or of a capacity), all texts and memory contents, all current players, all random keys and draws", "why_tests_cant": "hexadecimal digits are produced by bit triggers with weights, CPString orders its actions by residue modulo 12 and moves the current player by one between blocks; lengths that are no multiple of 4 or 48 and the obfuscation of constants interact", "anchors": ["src/eudplib/string/cpprint.py: f_cpstr_print, _addstr_cp, f_cpstr_adddw, f_cpstr_addptr", "src/eudplib/string/cpstr.py: CPString", "src/eudplib/string/strcommon.py: ObfuscatedBytes, cp_start"]}
{"id": "C64", "title": "Byte streams and searching in strings", "statement": "EUDByteStream reads and writes exactly the byte at its position and goes on to the next byte. f_strnstr returns the address of the first occurrence of the substring that starts among the first count characters of the string, -1 if there is none, and the string itself for an empty substring; it never reads beyond the end of either string.", "quantifier": "all strings and substrings, all counts, all addresses and alignments, all memory contents", "why_tests_cant": "after a partial match the stream has to go back; overlapping partial matches at every alignment of both strings are needed to see a wrong restart", "anchors": ["src/eudplib/memio/byterw.py: EUDByteStream", "src/eudplib/string/strfunc.py: f_strnstr"]}
{"id": "C65", "title": "Location functions", "statement": "f_setloc, f_addloc and f_dilateloc give the location exactly the rectangle asked for - set: the coordinates themselves, add: moved by them, dilate: left and top reduced and right and bottom increased by them, all modulo 2^32, two coordinates standing for a point or for both corners - and change no other location and no other memory apart from transfer fields of the coordinates' variables and the functions' own actions; they can be called again in the same way. f_setloc_epd makes the location the point at which the unit is and restores the current player from its cache.", "quantifier": "all location numbers and coordinates, constants and variables, all earlier rectangles; all placements of the code; every order in which NonSeqCompute may emit the assignments", "why_tests_cant": "the functions rewrite the player and value fields of their own last four actions through two variables whose destinations are moved forwards and backwards, with modifiers that are changed and changed back; one wrong offset writes into a neighbouring location or into program text, and errors in the restoring show only at the second call", "anchors": ["src/eudplib/eudlib/locf/locf.py: _locfgen2, _locfgen4, f_setloc, f_addloc, f_dilateloc, _setloc_epd"]}
{"id": "C66", "title": "Generated readers: units, sprites, positions, flags", "statement": "A reader made by f_readgen_epd or f_readgen_cp gives, for each of its results, the start value plus the sum of the function over the bits set in the cell and in the mask, modulo 2^32 (with _check_empty: 0 if the cell is 0), restores the current player and changes nothing else. The readers of unit and sprite pointers give exactly the pointer and its EPD for every slot of the unit and sprite tables, the position reader gives exactly the two coordinates of every point of the map, f_dwepdread_epd gives the value and its EPD, f_flagread_epd gives the value masked with each flag. The shared table reader is chosen only if it gives the same, and the generator accepts every mask and function.", "quantifier": "all masks, functions, start values, numbers of results, cell values, offsets, map sizes; all unit and sprite slots; all random unit numbers in the conditions", "why_tests_cant": "the masks drop bits which are only constant inside the unit and sprite tables, start values put them back; the choice between table and generic reader is made by dividing function values of single bits; tests read a few cells with a few masks", "anchors": ["src/eudplib/memio/memifgen.py: _read_epd_func, f_readgen_epd, _read_cp_func, f_readgen_cp", "src/eudplib/memio/specialized.py: f_cunitread_epd, f_cunitepdread_epd, f_epdcunitread_epd, f_epdspriteread_epd, f_spriteepdread_epd, f_posread_epd, f_posread_cp", "src/eudplib/memio/dwepdio.py: f_dwepdread_epd, f_flagread_epd"]}
{"id": "C67", "title": "Loops over units, sprites and lists", "statement": "EUDLoopList, EUDLoopUnit and EUDLoopBullet run their body once for each node of the list, in order, with the node's pointer and EPD, provided that the body leaves alone the links it still needs; EUDBreak ends the loop. EUDLoopPlayerUnit does the same for the units of a player even if the body unlinks the current unit or changes ptr and epd. EUDLoopUnit2 visits exactly the slots alive when they are reached, in order. EUDLoopSprite visits the sprites of all 256 rows. EUDLoopNewUnit visits exactly the units whose identifier is not the recorded one and which come before the allowance-th known unit; it records them, so that running it again at once visits nothing.", "quantifier": "all lists of any length, all slots, all bodies (any function of the loop variables and memory that keeps the links), all identifiers and allowances, all memory contents", "why_tests_cant": "bodies change the structures that are being walked; the readers keep only some bits of a pointer and rebuild the others; slot 1699 and row 255 are boundary cases that a test map does not fill", "anchors": ["src/eudplib/eudlib/utilf/listloop.py: EUDLoopList, EUDLoopUnit, EUDLoopPlayerUnit, EUDLoopUnit2, EUDLoopSprite, EUDLoopNewUnit, EUDLoopBullet"]}
{"id": "C68", "title": "Addresses of data members", "statement": "Accessing a member of a game data object addresses exactly the byte offset + number * stride of the member's table (array members) or offset in the object (struct members), as EPD and byte in the dword, whether the number is a constant or a variable, and however often and from wherever the variable was assigned, advanced or accessed before: the products cached for a variable are those of its current value. The members of the library are accepted and lie in one dword for every object.", "quantifier": "all offsets, strides, object numbers in the range of the class; all sequences of accesses compiled for a variable, through one class or several; all runs of assignments, increments and accesses", "why_tests_cant": "the cache is rebuilt while code that uses an earlier version has already been generated, updated lazily at run time and advanced incrementally with carries; an error shows only for particular orders of accesses and values", "anchors": ["src/eudplib/scdata/offsetmap/member.py: BaseMember._get_epd", "src/eudplib/scdata/offsetmap/epdoffsetmap.py: _get_stride_cache, __iadd__", "src/eudplib/memio/muldiv4table.py"]}
{"id": "C69", "title": "Comparing members, bit members and flags", "statement": "Comparing a member with a value compares exactly its bytes with the value and refuses constants that do not fit; a bit member is its bit: reading gives it, writing changes it and nothing else; a flag reads as true exactly when all bits of its mask are set, and writing it sets or clears all of them and no other bit.", "quantifier": "all dwords in memory, members of 1, 2 and 4 bytes at every byte offset, all values, constants and variables, all masks", "why_tests_cant": "member, value and mask are shifted to the place of the member; carries into neighbouring bytes need particular values at particular offsets", "anchors": ["src/eudplib/scdata/offsetmap/epdoffsetmap.py: eqattr, leattr, geattr", "src/eudplib/scdata/offsetmap/enummember.py: Flag", "src/eudplib/scdata/offsetmap/memberkind.py: Bit0Kind, Bit1Kind", "src/eudplib/memio/bwepdio.py: _bitread_epd, _bitwrite_epd"]}
{"id": "C70", "title": "Commands in the packet queue", "statement": "A queued game command is appended to the game's packet buffer exactly when it leaves room below the limit: its bytes follow the bytes already there, the length cell counts them, and no other byte of memory changes; without room memory is unchanged. The cached length is always the one in memory when it is used, whatever the game did in between. Selection packets carry the command, the count and for every unit its index plus one and its uniqueness identifier as 16 bit numbers, and leave the array of pointers as it was. A sequence of commands leaves the concatenation of those that found room.", "quantifier": "All memories, lengths, limits up to 0x220, data outside the queue, all lists of fewer than 256 unit slots, all dword parameters, all sequences of commands.", "why_tests_cant": "Needs a running game's buffers; the byte order, the bit-by-bit division by 336 with its carry, and the cached length only go wrong for particular slots, lengths and alignments.", "anchors": ["src/eudplib/qgc/qgc.py"]}
{"id": "C71", "title": "Loops over players", "statement": "f_playerexist is 1 exactly for players 0 to 7 whose list of triggers is not empty. EUDLoopPlayer runs its body once, in ascending order, for each player that meets type, force and race in the map settings and still has triggers when its turn comes; EUDBreak ends it; a filter that nobody meets is an error. EUDPlayerLoop does so for all players, with the body's current player set to each, and restores the current player at the end and after EUDBreak.", "quantifier": "All memories, map settings, filters, bodies (any function of memory that may make players leave, or break).", "why_tests_cant": "The set of players that still exist changes while the game runs; the filters have many combinations and holes between the first and last player.", "anchors": ["src/eudplib/eudlib/utilf/pexist.py", "src/eudplib/core/mapdata/playerinfo.py"]}
{"id": "C72", "title": "Cells of the local player", "statement": "At start every registered cell (of IsUserCP conditions and of actions for everyone) receives the number of the local player, the low byte at 0x512684, and no other dword changes.", "quantifier": "All memories, all lists of cells outside the buffer, in any order, with repetitions.", "why_tests_cant": "The cells depend on what the map uses, and the order on a Python set.", "anchors": ["src/eudplib/eudlib/utilf/userpl.py"]}
{"id": "C73", "title": "Tables of wire frames", "statement": "SetTranWire, SetGrpWire and SetWirefram copy the 8 bytes of a default frame over the frame of a unit and change no other byte; numbers beyond the table change nothing. The initial tables hold, for every unit with a replacement, the bytes of the replacing default frame, zeros for the other units of the written range, and the default bytes outside the frames of the range.", "quantifier": "All memories, units, frames, table addresses, both client widths; all dicts of replacements and all default data.", "why_tests_cant": "Frames are not aligned to dwords, so every copy merges two half dwords; wrong neighbours only show in particular units.", "anchors": ["src/eudplib/eudlib/wireframe/wireframe.py"]}
{"id": "C74", "title": "Repair of the map's data", "statement": "Every UNIT entry keeps its meaning (hit points, shield, energy, resources, hangar, states, with the defaults of properties not given); afterwards nothing is kept that is not looked at and no default is given, so a second repair changes nothing; other bytes are unchanged. In UNIx, UPGx and TECx exactly the settings of items that use the defaults become 0. Every null tile of MTXM becomes tile 1 and is reported, other tiles stay.", "quantifier": "All section contents and lengths in whole entries.", "why_tests_cant": "Every combination of flag and value bytes occurs in maps; an offset wrong by one table only damages some items.", "anchors": ["src/eudplib/core/mapdata/fixmapdata.py"]}
{"id": "C75", "title": "Text from code page 949 to UTF-8", "statement": "f_cp949_to_utf8_cpy writes at dst the UTF-8 text (as a strict decoder reads it) of the code points the table gives to the characters at src, a 0 after it and no other byte, and returns the address of that 0; a first byte of a pair at the very end is dropped. The conversion table gives every pair of bytes its code point.", "quantifier": "All tables without repeated pairs and with code points below 0x10000, all texts, alignments and addresses that do not overlap.", "why_tests_cant": "65536 pairs times 4 alignments; the bounds between encodings of 1, 2 and 3 bytes.", "anchors": ["src/eudplib/string/cputf8.py"]}
{"id": "C76", "title": "Function pointers", "statement": "A call through an EUDFuncPtr runs the function whose indirect caller the pointer holds, with the common argument storage as parameters, leaves its results in the common result storage, returns to the trigger after the call, and changes only cells of the function, of its indirect caller and of the storages. Calling the same function directly afterwards still returns to the direct caller.", "quantifier": "All functions with at most 64 results whose body computes a function of the parameters (it may itself call through pointers), all arguments, all call sites.", "why_tests_cant": "Needs mixed direct and indirect calls of one function; the damage shows only at the next direct call.", "anchors": ["src/eudplib/core/eudfunc/eudfptr.py", "src/eudplib/core/eudfunc/eudfuncn.py"]}
{"id": "C77", "title": "ExecuteOnce blocks with conditions", "statement": "EUDExecuteOnce()(conditions) enters its body the first time control reaches the block while all conditions hold (with neg: while they do not all hold), and never again; visits before that change no memory, and visits after it change no memory and do not look at the conditions.", "quantifier": "All lists of conditions of any length with constant fields, all memories.", "why_tests_cant": "Every 16 conditions share a trigger whose next pointer is rewritten; the first trigger is also the one that is switched off.", "anchors": ["src/eudplib/ctrlstru/simpleblock.py: EUDExecuteOnce, EUDEndExecuteOnce", "src/eudplib/trigger/branch.py"]}
{"id": "C78", "title": "Texts of the game's string table", "statement": "The table that replaces stat_txt.tbl has the same number of texts, each starting at a multiple of 4 and equal to the original text; no error occurs and no table gets offsets that do not fit. GetTBLAddr gives the address of the table plus the offset stored for the text, for the table the game points to now, also after the pointer changed.", "quantifier": "All tables of bytes, all text numbers, all memories, all histories of calls.", "why_tests_cant": "Real tables are sorted and end with non-empty texts, so order, the last entry and 16 bit overflow are never exercised; the cached pointer matters only when the game moves the table.", "anchors": ["src/eudplib/string/tblprint.py: _AddStatText, GetTBLAddr"]}
{"id": "C79", "title": "GRP images in the payload", "statement": "The bytes an EUDGrp writes are, from two bytes after its start, the bytes of the file, except that the offset of the lines of each frame is replaced by the address of that place in memory; their number is what GetDataSize says, and the replaced dwords lie at multiples of 4. An error occurs exactly when the file is too short for its header and its headers of frames.", "quantifier": "All files, all addresses of the object.", "why_tests_cant": "Files with many frames and objects at all addresses; a wrong dword shows only when the frame is drawn.", "anchors": ["src/eudplib/eudlib/eudgrp.py: EUDGrp"]}
{"id": "C80", "title": "Comparison of player names", "statement": "The conditions of IsPName for a constant player and name hold exactly when the game stores that name for the player: the bytes at the player's name are the UTF-8 of the name followed by a 0. They fit into one trigger and test no other bytes. The bits handed out to record which players have a name are all different and lie behind 0x58F500.", "quantifier": "All names of up to 24 bytes, all eight players, all memories; any number of bits handed out.", "why_tests_cant": "The conditions depend on the alignment of each player's name and on every byte of the name; tests use a few ASCII names.", "anchors": ["src/eudplib/string/pname.py: compare_sequence, IsPName, _get_player_lightvar"]}
{"id": "C81", "title": "StringBuffer operations", "statement": "On the local player, insert puts the texts of its arguments at the given cell of the buffer; append puts them at the position where the last operation ended, for a new buffer at its start, and ends them with a 0; print puts them at the start, ended by a 0; delete fills the cells with carriage returns. Nothing but these cells and the cell after them changes, and the current player is the local one afterwards. For other current players nothing happens.", "quantifier": "All arguments that f_cpstr_print accepts, all buffers, positions and memories.", "why_tests_cant": "Texts, positions and the current player combine freely; a write outside the buffer goes unnoticed.", "anchors": ["src/eudplib/string/strbuffer.py: StringBuffer"]}
{"id": "C82", "title": "Line tables of epScript modules", "statement": "The line table that assemble builds for the code object of an epScript module is well formed, has an entry for every code unit, and gives every code unit the epScript line of the instruction it belongs to.", "quantifier": "All lists of instructions of any size, all lines (also steps back), all first lines.", "why_tests_cant": "The table is only read when an error is reported; steps of 32 lines and more, long instructions and steps back take different encodings.", "anchors": ["src/eudplib/epscript/linetable_calculator.py: assemble, create_linetable_calculator"]}
{"id": "C83", "title": "Map from lines of compiled epScript to source lines", "statement": "The loader of epScript modules finds exactly the comments of the form '# (Line n) text' in the compiled text, and maps every line of it to the number in the last such comment at or above the line, to 0 when there is none.", "quantifier": "All texts with LF and CR LF line ends in any mix, all lines.", "why_tests_cant": "The map uses a regular expression and a binary search over all marks of a module; errors are reported for few of its lines.", "anchors": ["src/eudplib/epscript/epsimp.py: EPSLoader.source_to_code, lineno_regex"]}
{"id": "C84", "title": "generate_linetable of the Rust extension", "statement": "generate_linetable reads exactly the entries of a Python 3.11+ line table, and the table it returns gives every code unit the epScript line of the entry it belongs to.", "quantifier": "All tables of any number of entries, all lines below 2^31, all position lists of the right length.", "why_tests_cant": "The arithmetic wraps at 32 bits and entries are found by their top bit only; the one test compares a stored table.", "anchors": ["src/rust/eudplib-epscript/src/linetable.rs: generate_linetable, LinetableReader, LinetableWriter"]}
{"id": "C85", "title": "Line tables of epScript modules on Python 3.10", "statement": "On Python 3.10 the loader replaces the line table of a code object by one that gives every code byte the epScript line of its line; it does so for every table, also with steps back and long steps.", "quantifier": "All tables of any length, all first lines, all maps of lines.", "why_tests_cant": "Steps of 128 lines and more, steps back and steps of 255 take different encodings; the table is only read when an error is reported.", "anchors": ["src/eudplib/epscript/epsimp.py: _modify_code_lnotab"]}

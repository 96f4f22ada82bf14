{
 "claims": [
  {
   "property": "C01",
   "status": "proved",
   "theorems": [
    "C01_layout_disjoint"
   ],
   "note": ""
  },
  {
   "property": "C02",
   "status": "partial",
   "theorems": [
    "C02_layout_completes_refuted",
    "C02_layout_completes_partial"
   ],
   "note": "The full statement is false of the code: an index is out of range when the last non-empty object uses its last dword. The partial theorem shows that this is the only failure and that the search terminates."
  },
  {
   "property": "C03",
   "status": "partial",
   "theorems": [
    "C03_occupancy_partial",
    "C03_occupancy_refuted"
   ],
   "note": "False for objects that issue dword writes at offsets that are not multiples of 4; proved for aligned writers."
  },
  {
   "property": "C04",
   "status": "proved",
   "theorems": [
    "C04_payload_contents"
   ],
   "note": ""
  },
  {
   "property": "C05",
   "status": "proved",
   "theorems": [
    "C05_relocated_payload",
    "C05_pack_mode_refuted"
   ],
   "note": "Relocation modes must be 0, 1 or 4; WritePack does not check this and the refuted theorem shows the consequence."
  },
  {
   "property": "C06",
   "status": "partial",
   "theorems": [
    "C06_constexpr_sound",
    "C06_constexpr_mod_sound",
    "C06_epd_sound",
    "C06_rlocint_sound",
    "C06_rlocint_neg_refuted",
    "C06_rlocint_and_refuted",
    "C06_rlocint_ror_refuted",
    "C06_rlocint_floordiv_refuted"
   ],
   "note": "Sound for + - * // % on address expressions without i32 overflow and + - * on evaluated values; four operators of evaluated values are unsound."
  },
  {
   "property": "C07",
   "status": "proved",
   "theorems": [
    "C07_v_assign",
    "C07_v_iadd",
    "C07_v_isub",
    "C07_lv_assign",
    "C07_lv_iadd",
    "C07_lv_isub",
    "C07_lv_ineg",
    "C07_lv_iabs",
    "C07_v_add",
    "C07_v_radd",
    "C07_v_sub",
    "C07_v_rsub",
    "C07_v_neg",
    "C07_isub_same_variable_refuted"
   ],
   "note": "Includes += -= + - unary minus and negation in place for variables and light variables. x -= x (same variable, outside the property) is wrong: see the refuted theorem."
  },
  {
   "property": "C08",
   "status": "partial",
   "theorems": [
    "C08_seqcompute",
    "C08_destination_zero_refuted",
    "C08_fits_partial",
    "C08_fits_refuted"
   ],
   "note": "The memory effect is proved for every list; false when a variable is assigned to the literal EPD 0, and the 64-action bound is proved only when no source repeats (false in general)."
  },
  {
   "property": "C09",
   "status": "proved",
   "theorems": [
    "C09_nonseq_compute"
   ],
   "note": "The reordering by nonseq_order (with any order inside the sets it iterates) of independent assignments has the effect of every permutation of them."
  },
  {
   "property": "C10",
   "status": "partial",
   "theorems": [
    "C10_v_eq",
    "C10_v_ne",
    "C10_v_cmp",
    "C10_v_lt",
    "C10_v_gt",
    "C10_light_lt_zero_refuted",
    "C10_light_gt_max_refuted",
    "C10_lt_large_constant_refuted",
    "C10_light"
   ],
   "note": "All six relations are exact for variables against variables and against 32-bit constants. Light variables compare x < 0 and x > 0xFFFFFFFF as true, and constants outside 32 bits are reduced: refuted theorems."
  },
  {
   "property": "C11",
   "status": "proved",
   "theorems": [
    "C11_f_mul",
    "C11_C12_operands_unharmed"
   ],
   "note": "f_mul for every combination of constant and variable operands, executed on the trigger machine; the function is ready again afterwards (way_ready)."
  },
  {
   "property": "C12",
   "status": "proved",
   "theorems": [
    "C12_f_div",
    "C12_quot",
    "C12_rem",
    "C12_quot_const_zero_refuted",
    "C11_C12_operands_unharmed"
   ],
   "note": "Quotient and remainder incl. division by zero; repeatable. The quotient-only helper with two constants and divisor 0 assigns a tuple (refuted theorem)."
  },
  {
   "property": "C13",
   "status": "proved",
   "theorems": [
    "C13_constant_functions"
   ],
   "note": "Every constant and operand: the specialised bodies agree with the variable versions."
  },
  {
   "property": "C14",
   "status": "partial",
   "theorems": [
    "C14_v_ior",
    "C14_v_iand",
    "C14_v_ixor",
    "C14_lv_ior",
    "C14_lv_iand",
    "C14_lv_ixor",
    "C14_lv_iinvert",
    "C14_v_and",
    "C14_v_or",
    "C14_v_xor",
    "C14_v_rxor",
    "C14_v_invert",
    "C14_f_bitnand",
    "C14_f_bitnor",
    "C14_f_bitnxor",
    "C14_xor_same_variable_refuted"
   ],
   "note": "Exact for distinct operands; x ^ x of the same variable gives x instead of 0 (refuted theorem)."
  },
  {
   "property": "C15",
   "status": "proved",
   "theorems": [
    "C15_bitlshift",
    "C15_bitrshift",
    "C15_lv_ilshift",
    "C15_lv_irshift",
    "C15_shift_sizes",
    "C15_shift_zero_refuted"
   ],
   "note": "Shifts by constants and variables, zero from 32 on; in-place constant shifts. x <<= 0 builds a trigger that is too large (refuted theorem)."
  },
  {
   "property": "C16",
   "status": "proved",
   "theorems": [
    "C16_towards_zero",
    "C16_floor",
    "C16_euclid",
    "C16_euclid_unique",
    "C16_const_word_refuted"
   ],
   "note": "Variable-level model of the three bodies, variable and constant divisor, all words and non-zero divisors. A constant divisor given as a word >= 2^31 is read as positive (refuted)."
  },
  {
   "property": "C17",
   "status": "partial",
   "theorems": [
    "C17_pow_partial",
    "C17_pow_hangs_refuted"
   ],
   "note": "Proved for exponents below 2^31; for exponents of 2^31 or more the loop never ends (refuted)."
  },
  {
   "property": "C18",
   "status": "partial",
   "theorems": [
    "C18_max_partial",
    "C18_max_in_range_partial",
    "C18_max_full",
    "C18_min_partial",
    "C18_single_refuted",
    "C18_min_single_refuted",
    "C18_variable_refuted",
    "C18_wrap_refuted",
    "C18_none_refuted"
   ],
   "note": "Proved for constant bounds lo < hi without wrap-around, and for minimum 0 with any bounds. Refuted: single-value ranges, variable bounds, ranges that wrap past 2^32, the documented result when no value satisfies the condition."
  },
  {
   "property": "C19",
   "status": "proved",
   "theorems": [
    "C19_sqrt"
   ],
   "note": "All 32-bit arguments; variable-level model on top of EUDBinaryMax."
  },
  {
   "property": "C20",
   "status": "proved",
   "theorems": [
    "C20_generates",
    "C20_structured",
    "C20_meaning_unique",
    "C20_exactly_one_branch"
   ],
   "note": "All structured programs of If/ElseIf/Else, While(Not), InfLoop, LoopN, break, continue, BreakIf/ContinueIf(Not) and set_continuepoint, nested in any way, with any straight-line code as leaves and conditions evaluated from constants fields (conditions with variables are preceded by the code that computes them, argument pre). Terminating executions; short-circuit EUDSCAnd/EUDSCOr not in the language."
  },
  {
   "property": "C21",
   "status": "proved",
   "theorems": [
    "C21_switch",
    "C21_cases",
    "C21_nodes",
    "C21_nodes_cp",
    "C21_const",
    "C21_const_refuted",
    "C21_merge",
    "C21_jump_size",
    "C21_jump_buffer"
   ],
   "note": "C21_switch: on the trigger machine, every accepted set of case numbers, every mask, any sequence of executions with any values, for all dispatch methods on a variable or fixed dword (comparisons, jump table, binary search). C21_jump_buffer: every entry of the shared jump buffer, read as a trigger, is the jump. C21_nodes_cp: EPDSwitch with the EPD in a variable, at the level of linked nodes (the VProc and the CurrentPlayer cache trigger are nodes, not machine triggers). C21_const_refuted: a switch on a Python constant does not apply the mask."
  },
  {
   "property": "C22",
   "status": "partial",
   "theorems": [
    "C22_negate_partial",
    "C22_at_most_max",
    "C22_outside_mask",
    "C22_negate_refuted"
   ],
   "note": "Exact except for AtMost 0xFFFFFFFF and masked Exactly with value bits outside the mask, where negate is always wrong. The EUD-level negations (EUDNot, EUDIfNot) are not covered here."
  },
  {
   "property": "C23",
   "status": "proved",
   "theorems": [
    "C23_trigger",
    "C23_trigger_in_programs",
    "C23_groups_fit",
    "C23_unpreserved_runs_again_refuted"
   ],
   "note": "Trigger with any number of conditions and SetDeaths actions, constant fields, preserved=True, alone or anywhere inside structured programs. For preserved=False an extended trigger runs again (refuted)."
  },
  {
   "property": "C24",
   "status": "proved",
   "theorems": [
    "C24_call",
    "C24_call_computes",
    "C24_call_sequence"
   ],
   "note": "EUDFuncN calls with variable, constant and in-place arguments, results to any cells. C24_call holds for any body that reaches the end of the function, also by EUDReturn. EUDMethod and EUDFuncPtr wrappers are not modelled; nested calls are calls inside a body and use the same theorem."
  },
  {
   "property": "C25",
   "status": "proved",
   "theorems": [
    "C25_once"
   ],
   "note": "EUDExecuteOnce()() around any structured body that reaches its end (a body left by break is not marked as run). The variants with conditions are C77."
  },
  {
   "property": "C26",
   "status": "partial",
   "theorems": [
    "C26_table_read",
    "C26_read_from",
    "C26_read_cp",
    "C26_history",
    "C26_insert_total",
    "C26_dwread_epd",
    "C26_epdread_epd",
    "C26_epdread_cp_order_refuted"
   ],
   "note": "The shared table of reading triggers is modelled with its whole compile-time life: for every sequence of requests (insert, get, insert_or_get with any mask, shift and direction) the trigger given for a request reads, in the final table, exactly the selected bits moved by the shift, whatever the memory holds; the callers _epd_caller (constant or variable address) and _cp_caller (constant offset) are proved at trigger level, including restoration of the current player and that nothing else changes. Refuted part: f_epdread_cp fails when nothing requested its chain before (C26_epdread_cp_order_refuted). Not covered: f_dwepdread_epd, f_flagread_epd, variable offsets of _cp_caller."
  },
  {
   "property": "C27",
   "status": "partial",
   "theorems": [
    "C27_const_op",
    "C27_cp_op",
    "C27_bytes",
    "C27_wwrite3",
    "C27_cpwriter",
    "C27_read_epd",
    "C27_wread3",
    "C27_setdw_const",
    "C27_setdw_cv",
    "C27_setdw_vv",
    "C27_bitwrite_const",
    "C27_bitwrite_var",
    "C27_boolread",
    "C27_dwbreak",
    "C27_dwbreak2",
    "C27_setdw_self_refuted",
    "C27_cpwriter_unmasked_refuted"
   ],
   "note": "Writes, adds, subtracts and reads of bytes and words at every offset, including the word that crosses into the next dword, dword writes with constant or variable address, bit writes, f_dwbreak. Machine level, except f_dwbreak/f_dwbreak2 which are variable-level. What is missing: the selection of the case by the switch over a variable offset is not part of these theorems, nor the left shift that prepares the value operand (a hypothesis; see C16). Refuted: address and value in the same variable; unmasked value with variable offset in cpmemio. f_wadd_epd/f_wsubtract_epd at offset 3 have no case in the source and do nothing (read, not proved)."
  },
  {
   "property": "C28",
   "status": "partial",
   "theorems": [
    "C28_repmovsd",
    "C28_readbyte",
    "C28_writebyte_const",
    "C28_writebyte_var_partial",
    "C28_strlen",
    "C28_memcpy",
    "C28_memcpy_plain",
    "C28_memcmp",
    "C28_strcpy",
    "C28_strcmp",
    "C28_dwread",
    "C28_dwwrite",
    "C28_cpwriter",
    "C28_cpwriter_flush_refuted",
    "C28_cpwriter_wide_refuted",
    "C28_copyto_refuted"
   ],
   "note": "Machine level: the dword copy loop for every count, one step of EUDByteReader, of EUDByteWriter with a constant byte and with a variable byte from the selected case on, and f_strlen_epd for every start byte and length. Function level (reader and writer steps as proved, loops as Gallina recursion): f_memcpy for every alignment including overlaps (forward copy), f_memcmp with its sign, f_strcpy, f_strcmp, f_dwread, f_dwwrite at every address, CPByteWriter. Missing: the switch of the variable writebyte and the function-call glue (C21, C17). Refuted: flushing a CPByteWriter with an empty buffer zeroes the next cell; a byte above 255 spills over; EUDByteStream.copyto a writer does not move it."
  },
  {
   "property": "C29",
   "status": "partial",
   "theorems": [
    "C29_unpatch_partial",
    "C29_big_block_refuted"
   ],
   "note": "Blocks of at most 256 dwords; targets apart from the stacks and buffers. For larger blocks the claim is false (refuted)."
  },
  {
   "property": "C30",
   "status": "proved",
   "theorems": [
    "C30_stack"
   ],
   "note": "All operation sequences without overflow or underflow."
  },
  {
   "property": "C31",
   "status": "proved",
   "theorems": [
    "C31_queue",
    "C31_new",
    "C31_popleft_empty_refuted"
   ],
   "note": "All sequences of append, popleft on a non-empty queue, clear; iteration not modelled. popleft on an empty queue corrupts the queue (refuted)."
  },
  {
   "property": "C32",
   "status": "partial",
   "theorems": [
    "C32_deque_partial",
    "C32_new",
    "C32_appendleft_full_refuted"
   ],
   "note": "All sequences of append, appendleft, pop, popleft without appendleft on a full deque, where the claim is false (refuted)."
  },
  {
   "property": "C33",
   "status": "proved",
   "theorems": [
    "C33_pool",
    "C33_new",
    "C33_full",
    "C33_double_free_refuted"
   ],
   "note": "All histories whose frees are of live objects. Double free is not detected (refuted)."
  },
  {
   "property": "C34",
   "status": "proved",
   "theorems": [
    "C34_group",
    "C34_new",
    "C34_overflow_refuted"
   ],
   "note": "All histories of adds and iterations whose bodies add and remove, within the capacity. add does not check the capacity (refuted)."
  },
  {
   "property": "C35",
   "status": "partial",
   "theorems": [
    "C35_load",
    "C35_save_load",
    "C35_isom_refuted",
    "C35_never_false",
    "C35_negative_length_refuted",
    "C35_raise_keeps_refuted",
    "C35_sections",
    "C35_optimize"
   ],
   "note": "Round trip proved for every section but ISOM, which savechk always replaces by an empty one. Malformed files: negative lengths are accepted, and trailing bytes raise after the old sections are lost."
  },
  {
   "property": "C36",
   "status": "partial",
   "theorems": [
    "C36_stable",
    "C36_lookup",
    "C36_total",
    "C36_saved",
    "C36_load",
    "C36_load_chk",
    "C36_add_same_refuted",
    "C36_empty_refuted",
    "C36_invalid_offset_refuted",
    "C36_overwritten_refuted"
   ],
   "note": "Proved for non-empty strings in tables whose offsets are valid, with GetStringIndex as the lookup. Not true for the empty string, for AddString (equal strings get new ids), and for maps with an invalid string offset."
  },
  {
   "property": "C37",
   "status": "partial",
   "theorems": [
    "C37_size",
    "C37_size2_refuted"
   ],
   "note": "Exact for 4-byte entries, the only ones eudplib saves; with 2-byte entries the bookkeeping can be 2 too small."
  },
  {
   "property": "C38",
   "status": "proved",
   "theorems": [
    "C38_init",
    "C38_requests",
    "C38_full",
    "C38_no_upus"
   ],
   "note": "Also shows that a map without UPUS has no free slot."
  },
  {
   "property": "C39",
   "status": "proved",
   "theorems": [
    "C39_write_read",
    "C39_bytes",
    "C39_read_write",
    "C39_bits"
   ],
   "note": ""
  },
  {
   "property": "C40",
   "status": "proved",
   "theorems": [
    "C40_const",
    "C40_const_any",
    "C40_unique",
    "C40_runtime_value",
    "C40_runtime_same",
    "C40_inplace",
    "C40_call",
    "C40_runtime_below_refuted"
   ],
   "note": "Compile-time EPD, the in-place actions and the shared conversion function run on the machine. For addresses below 0x58A364 run-time and compile-time results differ in the top two bits (refuted), which address the same dword."
  },
  {
   "property": "C41",
   "status": "proved",
   "theorems": [
    "C41_flatten",
    "C41_agree",
    "C41_lazy",
    "C41_type_error"
   ],
   "note": "For values whose iterators do not fail half-way; both functions agree on all values, and failing iterators are described by C41_lazy and C41_type_error."
  },
  {
   "property": "C42",
   "status": "proved",
   "theorems": [
    "C42_varbuffer_contents",
    "C42_variables_separate",
    "C42_varbuffer_size",
    "C42_jumpbuffer_contents",
    "C42_jump_trigger_runs"
   ],
   "note": "EUDCustomVarBuffer is not modelled."
  },
  {
   "property": "C43",
   "status": "partial",
   "theorems": [
    "C43_decimal_partial",
    "C43_saturation",
    "C43_reading_exists",
    "C43_radix_partial",
    "C43_prefix_partial",
    "C43_near_limit_refuted",
    "C43_lowest_refuted",
    "C43_digit_count_refuted",
    "C43_binary_refuted",
    "C43_base13_wrap_refuted",
    "C43_unsaturated_refuted"
   ],
   "note": "Decimal: exact below 2147483640, saturated above, every text covered. Other bases: exact below radix*(0xFFFFFFFF div radix). The claim is false at the limits (refuted): 2147483640..46, -2147483648, digit count after wraparound, 32 binary digits, base 13. Variable-level model; the byte reader is not part of it."
  },
  {
   "property": "C44",
   "status": "proved",
   "theorems": [
    "C44_draws",
    "C44_ranges",
    "C44_randomize"
   ],
   "note": "Variable-level model; multiplication and addition are the 32-bit ones of C13 and C07."
  },
  {
   "property": "C45",
   "status": "partial",
   "theorems": [
    "C45_exact_partial",
    "C45_total_partial",
    "C45_stride3_refuted"
   ],
   "note": "Exact for strides not congruent to 3 mod 4; for the others the carry is left out and subp can be 5 (refuted). Variable-level model of the table."
  },
  {
   "property": "C46",
   "status": "proved",
   "theorems": [
    "C46_booleans"
   ],
   "note": "All initial values and operation sequences, from allocation to the conditions read back on the machine."
  },
  {
   "property": "C47",
   "status": "proved",
   "theorems": [
    "C47_sequence",
    "C47_restored",
    "C47_getcurpl",
    "C47_group_player_refuted",
    "C47_actions_dropped_refuted"
   ],
   "note": "Machine level. Every sequence of f_setcurpl, f_addcurpl (constant or variable), raw changes and restores behaves as specified; every nesting of temporary changes closed by a restore leaves real and cached player at the value before. f_getcurpl returns the real player whatever changed it, for every drawing of the random numbers except unit 16928, for which the condition names player group 19 (refuted part). f_setcurpl(set_modifier=False) drops its actions (refuted part). f_setcurpl2cpcache is modelled without extra variables."
  },
  {
   "property": "C48",
   "status": "partial",
   "theorems": [
    "C48_order",
    "C48_order_partial",
    "C48_one_by_one",
    "C48_shared",
    "C48_code_bytes",
    "C48_wait_test",
    "C48_dispatcher",
    "C48_order_refuted",
    "C48_twice_refuted",
    "C48_nobody_refuted",
    "C48_wait_refuted"
   ],
   "note": "For every trigger list, force assignment and size decision: each player's map triggers keep their order and their inline code keeps its order (C48_order_partial, rate 1); the whole sequence is unchanged when inline code stands first or is absent (C48_order); rate below 1: whole sequence unchanged for every choice of moved triggers that are not preserved triggers of all players or nobody (C48_one_by_one). The full claim is false of the code: inline code overtakes earlier triggers of the same player, a preserved trigger of all players runs twice when moved singly, a preserved trigger of nobody raises, Wait is overlooked (refuted theorems). C48_shared covers the linking of shared triggers for every call history. Not modelled: compiling the inline Python text."
  },
  {
   "property": "C49",
   "status": "partial",
   "theorems": [
    "C49_section",
    "C49_meaning",
    "C49_hole_refuted",
    "C49_disabled_refuted"
   ],
   "note": "RawTrigger(trigSection=...) drops Always and Comment entries and closes gaps; from the bytes of the finished payload the game reads the same conditions (without Always) and the same actions (without Comment, unused byte 29 cleared), for every payload the trigger is part of. Needs: no type-0 entry before a used one (otherwise refuted) ; of the flags only bits 0 and 2 survive, so a disabled trigger becomes enabled (refuted)."
  },
  {
   "property": "C50",
   "status": "proved",
   "theorems": [
    "C50_start_up",
    "C50_image",
    "C50_payload_reloc"
   ],
   "note": "C50_image starts from the dwords of the two map sections (including the exclusive-or overlay of the two location triggers) and the engine's reading of memory as triggers; nothing is assumed about placement. Cells outside the claim: the relocator's own 32 cells in the location section and the filler dword before the payload. C50_payload_reloc (the second stage) is a variable-level model of the loop. The TRIG-section triggers that enter the sled are not covered."
  },
  {
   "property": "C51",
   "status": "proved",
   "theorems": [
    "C51_iset",
    "C51_isub_const",
    "C51_isub_var",
    "C51_iand",
    "C51_ior",
    "C51_ixor_const",
    "C51_ixor_var",
    "C51_ilshift",
    "C51_irshift",
    "C51_alias_refuted"
   ],
   "note": "Machine level: every function of inplacecw.py, for constant or variable base, index and operand, changes exactly the item at (base + index) mod 2^32 to the value of the operation; transfer fields of the variables and the patched fields of the next trigger are scratch; when the current player was borrowed it ends at its cached value. Hypotheses: the three variables are different (the library tests this only in iset and isub) and the item is not a transfer field, not the operand itself (isub, ixor) and not code. Refuted for the aliased case: arr[i] &= i with the same variable works on arr[0] (C51_alias_refuted). Aliased operands of iset go to a + b followed by setdw_epd (C27)."
  },
  {
   "property": "C52",
   "status": "proved",
   "theorems": [
    "C52_atan2_sector",
    "C52_atan2_value",
    "C52_atan2_256_sector",
    "C52_tables",
    "C52_lengthdir",
    "C52_lengthdir_256",
    "C52_atan2_range_refuted",
    "C52_atan2_zero_refuted",
    "C52_lengthdir_magnitude_refuted",
    "C52_lengthdir_overflow_refuted"
   ],
   "note": "Variable level. For every pair of words except (0,0), f_atan2 and f_atan2_256 give an angle in the right eighth of the circle; for arguments below 400 the exact value is given. For every length below 65536 and every angle, f_lengthdir and f_lengthdir_256 give the length times the table entry rounded towards zero with the signs of the quadrant, no coordinate exceeds the length and the magnitude is below length + 1. Parts of the claim that are false of the code: the result can be 360 (320 of 256) instead of 0; atan2(0,0) is 91; the magnitude can exceed the length by rounding; lengths from 65536 overflow; negative angles. The table values are copied from Python's math.cos/math.sin and checked for consistency (C52_tables)."
  },
  {
   "property": "C53",
   "status": "partial",
   "theorems": [
    "C53_added",
    "C53_duplicate",
    "C53_unlisted_refuted"
   ],
   "note": "Proved for files named in the archive's listfile and files added before; a file missing from the listfile is replaced silently."
  },
  {
   "property": "C54",
   "status": "proved",
   "theorems": [
    "C54_nesting",
    "C54_open"
   ],
   "note": "For function bodies, the only place where eudplib checks that all blocks are closed."
  },
  {
   "property": "C55",
   "status": "partial",
   "theorems": [
    "C55_location",
    "C55_switch",
    "C55_unit",
    "C55_ambiguous_refuted"
   ],
   "note": "Locations, switches and units (units also by their name without colour codes). Proved for maps whose items of one kind use different string ids; when two items share one id the later one silently wins (refuted)."
  },
  {
   "property": "C56",
   "status": "proved",
   "theorems": [
    "C56_size"
   ],
   "note": "get_trigger_size for every trigger; with 16 conditions or 64 actions the minimum is over distances at least 4 + 5*conditions + 8*actions, as in the code."
  },
  {
   "property": "C57",
   "status": "proved",
   "theorems": [
    "C57_condition",
    "C57_action",
    "C57_trigger",
    "C57_condition_words",
    "C57_action_words"
   ],
   "note": "On the trigger machine. The calls of the fill functions are written in line (calls: C24). Values are those at the start of the patch code of one trigger record."
  },
  {
   "property": "C58",
   "status": "proved",
   "theorems": [
    "C58_get",
    "C58_set"
   ],
   "note": "On the trigger machine, for every combination of constant and variable array, index and value. The EPD of the array and its pointer are separate operands (conversion: C40). Iteration and the in-place item operators are not included. Indices outside a variable-indexed array are not covered (the code does not check them)."
  },
  {
   "property": "C59",
   "status": "proved",
   "theorems": [
    "C59_stored",
    "C59_variable",
    "C59_func_end",
    "C59_func_end_used",
    "C59_operators",
    "C59_constants",
    "C59_iand_expr",
    "C59_comparisons",
    "C59_const_mul_div",
    "C59_mul",
    "C59_div",
    "C59_shifts",
    "C59_rshift",
    "C59_inplace",
    "C59_read",
    "C59_blocks",
    "C59_epd",
    "C59_curpl",
    "C59_vararray",
    "C59_patch",
    "C59_relocator",
    "C59_program",
    "C59_branch",
    "C59_trigger",
    "C59_leaf",
    "C59_once",
    "C59_switch",
    "C59_switch_cp"
   ],
   "note": "All generators modelled as triggers. C59_stored: triggers in place whose constants are in memory run, as stored data, exactly as the models run them. Programs: conditions of branches have constant fields (C59_comparisons gives the place of a condition with a run-time field)."
  },
  {
   "property": "C60",
   "status": "proved",
   "theorems": [
    "C60_sc_or",
    "C60_sc_and",
    "C60_sc_and_free",
    "C60_if_and",
    "C60_if_or",
    "C60_or_and",
    "C60_not_bit",
    "C60_leaves",
    "C60_forwards",
    "C60_ternary"
   ],
   "note": "On the trigger machine, for arguments whose code is any structured program. Code of an argument may not change the result variable; in EUDSCAnd, code that precedes an argument has at least one trigger (emits) and negated conditions are the negation (C22). C60_leaves: the connectives inside any program run as they mean, by C20_structured."
  },
  {
   "property": "C61",
   "status": "partial",
   "theorems": [
    "C61_each_object_once",
    "C61_shuffled",
    "C61_nothing_unused",
    "C61_plain_objects_complete",
    "C61_complete_partial",
    "C61_terminates",
    "C61_collects_partial",
    "C61_first_at_start",
    "C61_nested_array_refuted",
    "C61_set_changes_refuted",
    "C61_missed_object_refuted"
   ],
   "note": "Partial because the code violates the rest: an array that holds the address of an otherwise unused array raises RuntimeError, and objects reached through variables of two buffers can be missed depending on the order of a set. Proved in general: numbering, no unused objects, completeness for ordinary objects, termination; completeness and absence of exceptions for programs without such references. Allocation sizes and writing are C01-C04."
  },
  {
   "property": "C62",
   "status": "partial",
   "theorems": [
    "C62_print",
    "C62_compiles",
    "C62_long_text_refuted",
    "C62_numbers_have_texts",
    "C62_addstr",
    "C62_addstr_epd",
    "C62_adddw",
    "C62_addptr",
    "C62_parse_decimal_partial",
    "C62_parse_hex_partial",
    "C62_parse_back_refuted"
   ],
   "note": "Proved for all draws and keys; partial because the code violates one clause: texts of more than 32768 bytes can make random.randrange fail (32897 bytes always does). Variable level: byte reader and writer steps are C28, divisions C09. Sources must not overlap the bytes written."
  },
  {
   "property": "C63",
   "status": "proved",
   "theorems": [
    "C63_print",
    "C63_cpstring",
    "C63_cpstring_values",
    "C63_next_cell_refuted"
   ],
   "note": "For argument lists that compile (C62: long texts can fail). C63_next_cell_refuted shows that without EOS the cell after the text can be cleared as well, so the claim rightly leaves it open. Variable level: byte reader and writer steps are C28, divisions C09. Sources must not overlap the cells written."
  },
  {
   "property": "C64",
   "status": "proved",
   "theorems": [
    "C64_stream_seek",
    "C64_stream_read",
    "C64_stream_write",
    "C64_strnstr",
    "C64_beyond_count_refuted"
   ],
   "note": "Variable level; calls of functions are C24. The substring may extend beyond the count characters (C64_beyond_count_refuted: not the strnstr of the C library). Never reading beyond the ends: the hypotheses say nothing about bytes after the terminators."
  },
  {
   "property": "C65",
   "status": "proved",
   "theorems": [
    "C65_setloc",
    "C65_addloc",
    "C65_dilateloc",
    "C65_setloc4",
    "C65_addloc4",
    "C65_dilateloc4",
    "C65_actions",
    "C65_constant_location",
    "C65_setloc_epd"
   ],
   "note": "Trigger level. Call and return of the functions are C24; loc * 5 is C13; for a constant location and variable coordinates f_dilateloc first negates two of them (C07) and then does what f_addloc does (C65_constant_location). In f_setloc_epd the coordinates are taken as stored by f_posread_cp (C26). Writing a cell assumes the usual placement: the cells involved are distinct and writable (shown for concrete placements)."
  },
  {
   "property": "C66",
   "status": "partial",
   "theorems": [
    "C66_reader_epd",
    "C66_reader_cp",
    "C66_readerfunc_cp",
    "C66_empty",
    "C66_cunit_readers",
    "C66_sprite_readers",
    "C66_posread",
    "C66_dwepdread",
    "C66_flagread",
    "C66_readgen_table",
    "C66_readgen_raises",
    "C66_readgen_total_refuted"
   ],
   "note": "Trigger level, all draws. Partial because the code violates the last clause: f_readgen_epd and f_readgen_cp divide by zero when the function is 0 on the lowest bit of a consecutive mask, and fail for mask 0 (C66_readgen_raises says exactly when). The table readers are C26. At most 62 results; the cell read must not be one of the reader's own."
  },
  {
   "property": "C67",
   "status": "partial",
   "theorems": [
    "C67_list",
    "C67_list_break",
    "C67_unit",
    "C67_player_unit",
    "C67_unit2",
    "C67_sprite",
    "C67_sprite_break_refuted",
    "C67_new_unit",
    "C67_new_unit_again"
   ],
   "note": "Variable level; the readers are C66, the loop statements C15. Partial because the code violates one clause: EUDBreak in EUDLoopSprite only ends the row (C67_sprite_break_refuted, C67_sprite says what happens). EUDLoopBullet is EUDLoopList with a constant header. The initial recording at game start (_UniqueIdentifier._init) is not modelled."
  },
  {
   "property": "C68",
   "status": "partial",
   "theorems": [
    "C68_muldiv",
    "C68_muldiv_stride3_refuted",
    "C68_member_const",
    "C68_member_dword",
    "C68_member_struct",
    "C68_member_var",
    "C68_compiles",
    "C68_library",
    "C68_shared_variable_refuted"
   ],
   "note": "Variable level. Partial because the code violates two clauses: when objects of classes with different ranges share a variable (cast), earlier accesses use stale or truncated products (C68_shared_variable_refuted); strides that leave 3 modulo 4 (none in the library) miss their carries (C68_muldiv_stride3_refuted). Otherwise for all programs with fewer than 2^32 operations; C68_library checks the table of all array members of the library. The return address of the update trigger (SetNextPtr) is not modelled."
  },
  {
   "property": "C69",
   "status": "partial",
   "theorems": [
    "C69_compare_const",
    "C69_compare_var",
    "C69_compare_wide_refuted",
    "C69_bit_read",
    "C69_bit_write",
    "C69_flag_get_array",
    "C69_flag_get_struct",
    "C69_flag_set"
   ],
   "note": "Variable level; the bit writers at trigger level are C27. Partial because a variable that does not fit the member is truncated by the shift and can compare equal (C69_compare_wide_refuted). The name encoders of the kinds (cast) are not modelled."
  },
  {
   "property": "C70",
   "status": "proved",
   "theorems": [
    "C70_queue",
    "C70_alphaids",
    "C70_select",
    "C70_good",
    "C70_RightClick",
    "C70_QueuedRightClick",
    "C70_MinimapPing",
    "C70_TrainUnit",
    "C70_UseCheat",
    "C70_many"
   ],
   "note": "Variable level; f_memcpy is C28, the byte writer at trigger level C27. The data must lie outside the queue and the limit must be at most 0x220, so that the queue does not reach its own length cell. The one byte commands are C70_queue with one byte."
  },
  {
   "property": "C71",
   "status": "partial",
   "theorems": [
    "C71_player_exist",
    "C71_loop_player",
    "C71_force_0",
    "C71_force_0_refuted",
    "C71_player_loop"
   ],
   "note": "Variable level; switches are C21, loop statements C15, the current player C16. Partial because the code violates one clause: force 0 (which encode_force accepts as the first force) is not looked at (C71_force_0_refuted, C71_force_0 says what happens). The body must not assign the loop variable."
  },
  {
   "property": "C72",
   "status": "proved",
   "theorems": [
    "C72_local_player"
   ],
   "note": "Variable level. The set of cells is a list in any order."
  },
  {
   "property": "C73",
   "status": "partial",
   "theorems": [
    "C73_set",
    "C73_tables",
    "C73_init64",
    "C73_init32",
    "C73_header_refuted",
    "C73_next_frame_refuted"
   ],
   "note": "Variable level; the readers are C66, the copy of the Db into the table C28. Partial because the 32 bit initial table violates one clause: when the first or last unit of its range is replaced, the half dword before or after the range gets the bytes beside the replacing frame (C73_header_refuted: the height in the header, C73_next_frame_refuted: the position of the next frame). The tables of default data (wiredata.py) and the check for 64 bit clients are not modelled."
  },
  {
   "property": "C74",
   "status": "proved",
   "theorems": [
    "C74_same_unit",
    "C74_normal",
    "C74_keeps_normal",
    "C74_units",
    "C74_unix",
    "C74_upgx",
    "C74_tecx",
    "C74_tiles"
   ],
   "note": "Sections as functions from offset to byte, UNIT in whole entries of 36 bytes (a shorter last entry raises IndexError in the code). VER is simply set. The warning text is not modelled."
  },
  {
   "property": "C75",
   "status": "partial",
   "theorems": [
    "C75_table",
    "C75_convert",
    "C75_unmapped_refuted"
   ],
   "note": "Variable level; reader and writer are C27/C28. Partial because pairs that are not in the table are written as the bytes C0 80, which no strict UTF-8 decoder accepts (C75_unmapped_refuted). The table is a parameter; a textual check of cp949_table.py shows that its 17034 entries have distinct pairs of bytes and code points from 0xA1 to 0xFFE6."
  },
  {
   "property": "C76",
   "status": "partial",
   "theorems": [
    "C76_pointer_call",
    "C76_direct_after_pointer_refuted",
    "C76_direct_loops_refuted"
   ],
   "note": "Trigger level. Partial because the code violates the last clause for functions with results: the indirect caller overwrites the next pointer of the function's end trigger, and direct calls never restore it, so a direct call after a call through a pointer goes to the return point of the last call through the pointer (C76_direct_after_pointer_refuted; C76_direct_loops_refuted runs a program that never gets past its direct call). The SetVariables before and after the call are C08/C09; more than 64 results, types and setFunc's checks are not modelled."
  },
  {
   "property": "C77",
   "status": "partial",
   "theorems": [
    "C77_first",
    "C77_first_neg",
    "C77_end_neg",
    "C77_later",
    "C77_empty_refuted"
   ],
   "note": "Trigger level: header and last trigger of the block; the body is not part of the statements (with neg the block is marked by its last trigger, so a body that leaves by break is entered again; C25 covers bodies). Partial because the code violates the claim for an empty list of conditions: the only trigger of the header rewrites its own next pointer, so the body is never entered (C77_empty_refuted). Conditions with variable fields are C57."
  },
  {
   "property": "C78",
   "status": "partial",
   "theorems": [
    "C78_table",
    "C78_total",
    "C78_empty_text_refuted",
    "C78_order_refuted",
    "C78_large_refuted",
    "C78_address"
   ],
   "note": "Table construction for all byte lists whose result has at most 65536 bytes; GetTBLAddr at variable level (readers are C66 and C27, division C11). Partial because the code violates three clauses: a table with fewer than two bytes after its offsets raises IndexError (C78_empty_text_refuted, C78_total), texts that do not lie in the order of their numbers are lost (C78_order_refuted), and larger tables get wrapped offsets without an error (C78_large_refuted). The table pointer must be a multiple of 4 and not 0."
  },
  {
   "property": "C79",
   "status": "proved",
   "theorems": [
    "C79_image",
    "C79_total"
   ],
   "note": "Bytes of the object after relocation (C04); the placing of objects at multiples of 4 is C01. Reading the file is not modelled."
  },
  {
   "property": "C80",
   "status": "partial",
   "theorems": [
    "C80_compare",
    "C80_ascii",
    "C80_nonascii_refuted",
    "C80_bits"
   ],
   "note": "Trigger level, for names of code points below 256 taken as bytes (C80_compare) and ASCII names (C80_ascii). Partial because the code compares code points, not UTF-8: for other names the conditions fail although the player has the name (C80_nonascii_refuted). IsPName with a variable name or CurrentPlayer and SetPName are not modelled."
  },
  {
   "property": "C81",
   "status": "partial",
   "theorems": [
    "C81_append",
    "C81_insert",
    "C81_insert_append",
    "C81_print",
    "C81_delete",
    "C81_other",
    "C81_first_append_refuted"
   ],
   "note": "Variable level; the printing itself is C63, the current player C47. Partial because a new buffer has position 0 and append takes the position as a cell: the first append writes over the cells from EPD 0 on, the deaths of unit 0, instead of the buffer (C81_first_append_refuted). The display actions, tagprint and the text effects are not modelled."
  },
  {
   "property": "C82",
   "status": "partial",
   "theorems": [
    "C82_lines",
    "C82_one_line",
    "C82_late_refuted",
    "C82_long_refuted"
   ],
   "note": "Python 3.11 format. C82_lines gives the decoded line of every code unit for instructions of at most 8 code units. Partial because the code violates the claim: each instruction is given the line of the next one (C82_late_refuted; right when all are on the first line, C82_one_line), and for an instruction of more than 8 units, LOAD_METHOD, the step is made twice (C82_long_refuted). Other formats in this file are not used; Python 3.10 is C85, line_mapper C83."
  },
  {
   "property": "C83",
   "status": "proved",
   "theorems": [
    "C83_mark",
    "C83_map"
   ],
   "note": "For texts whose lines contain no LF and do not end in CR (a CR before the LF belongs to the line end). The limit of int() on very long digit strings is not modelled; what Python counts as a line beyond LF and CR LF is outside the model."
  },
  {
   "property": "C84",
   "status": "partial",
   "theorems": [
    "C84_reader",
    "C84_lines",
    "C84_late_refuted"
   ],
   "note": "The reader is exact for all tables; C84_lines gives the decoded line of every code unit of the new table. Partial because the code violates the claim: each entry is given the line of the next one, moved by the distance between the first line and the line of the first entry (C84_late_refuted). The map of lines (regular expression, BTreeMap) and co_positions are inputs of the model."
  },
  {
   "property": "C85",
   "status": "partial",
   "theorems": [
    "C85_lnotab_partial",
    "C85_format_refuted",
    "C85_back_refuted",
    "C85_far_refuted",
    "C85_error_refuted"
   ],
   "note": "The loop over co_lnotab. Proved, for the table read as co_lnotab, when source and epScript lines go forward by less than 128 (C85_lnotab_partial). The code violates the claim otherwise: the table is passed as co_linetable, whose pairs have another meaning (C85_format_refuted), a step back is taken for a step forward (C85_back_refuted), steps of 255 are read as -1 (C85_far_refuted), and epScript lines that go back raise ValueError (C85_error_refuted)."
  }
 ]
}

# Formal model of eudplib: design

## What eudplib is, and where its truth lives

eudplib is a compiler: Python calls build *triggers* (StarCraft trigger records)
that are laid out into a payload and executed by the StarCraft trigger engine.
There are two kinds of logic, and both are modelled:

* **compile-time algorithms** (allocator, relocation tables, CHK/TBL codecs,
  property slots, trigger packing, block structure...): ordinary pure or
  stateful programs, modelled as Gallina functions;
* **generated run-time code**: lists of triggers that act on dword memory and
  rewrite themselves. `Machine.v` models the trigger engine (conditions
  `Deaths`-style memory comparison with masks, `SetDeaths`-style memory
  updates SetTo/Add/Subtract with masks, next pointers that live in memory and
  are read after the actions). Generators are modelled as Gallina functions that
  return trigger programs; theorems are about executing these programs.

## Three levels of run-time models

1. **Machine level.** The generated triggers are executed by `Machine.v`.
   `MachineRefine.v` (`steps_refine`) shows that a program whose constant fields
   are in protected memory runs like the *stored-program* machine, in which every
   field of every trigger is read from memory. Used for variables, arithmetic,
   bit operations, calls, structured statements, switches, byte access, the read
   table, in-place items, current player, light booleans, start-up relocation.
2. **Linked-node level** (`SwModel.v`): triggers whose actions only write next
   pointers; `SwMachine.v` proves that machine runs simulate node runs.
3. **Variable level** (`MathModel.v`, `CollModel.v`, `ParseModel.v`,
   `TrigoModel.v`, `RandModel.v`, parts of `BlkModel.v`, `BwModel.v`,
   `InjModel.v`): a variable is its 32-bit value and each operation of the core
   library is its 32-bit meaning, which the machine-level theorems prove of the
   generated code (C07, C10, C11, C12, C14, C15, C20, C24). The gap between the
   two levels (which triggers hold the code, the function-call glue) is not
   proved again for each library function.

## Files (`rocq/theories`)

* `Word.v`, `WordX.v`, `Lib.v`, `Dict.v`: 32-bit arithmetic, lists, dictionaries.
* `Machine.v`, `MachineProofs.v`, `MachineRefine.v`: the engine.
* `<Topic>Model.v`: definitions that model code, each with file and lines in
  `/repo`; simplifications are noted there. No proofs.
* `<Topic>Spec.v`: specifications that do not use the model's helpers.
* `<Topic>Proofs.v` and others (`Seq*`, `Ops*`, `Mul*`, `Div*`, `Shift*`,
  `Stru*`, `Vbuf*`, `Tbl*`, `Sw*`): lemmas.
* `Prop*.v`: the property theorems, the small specifications they need, examples
  that meet their hypotheses (`Example`), and `Print Assumptions`.

| topic | model | source in /repo (src/eudplib unless noted) |
|---|---|---|
| layout, payload | AllocModel, PayloadModel, RelocModel | src/rust/src/allocator/{payload,pbuffer,rlocint,constexpr}.rs |
| variables, SeqCompute, NonSeqCompute | VarModel, OpsModel | core/variable/{eudv,eudlv,vbase}.py |
| multiply, divide, shifts | MulModel, CalcModel | core/calcf/{muldiv,bitwise}.py |
| functions | FuncModel | core/eudfunc/eudfuncn.py |
| structured statements, Trigger, ExecuteOnce | StruModel, TrigModel, OnceModel | ctrlstru/{basicstru,simpleblock,loopblock}.py, trigger/{branch,triggerdef}.py |
| ExecuteOnce with conditions | OnceCondModel | ctrlstru/simpleblock.py 117-172, trigger/branch.py |
| logical connectives, short circuits | LogicModel | ctrlstru/{logic,shortcircuit,basicstru}.py |
| object collection | CollectModel | core/allocator/payload.py, core/variable/vbuf.py, ctrlstru/jumptable.py |
| switch, jump buffer | SwModel | ctrlstru/{swblock,jumptable}.py |
| variable arguments of triggers | PatchModel | trigger/{tpatcher,filler}.py |
| EUDVArray items | VarrModel | core/eudstruct/vararray.py |
| negation | NegateModel | core/rawtrigger/condition.py |
| variable storage | VbufModel | core/variable/vbuf.py |
| reading and writing memory | ReadModel, BwModel, BlkModel | memio/{readtable,dwepdio,bwepdio,cpmemio,mblockio,byterw,ptrmemio}.py, string/* |
| generated readers | ReadGenModel | memio/{memifgen,specialized,dwepdio}.py |
| current player | CurplModel | core/curpl.py, memio/modcurpl.py |
| in-place items | InplModel | core/inplacecw.py |
| EPD, light booleans | EpdModel | utils/etc.py, core/variable/eudlv.py |
| math library | MathModel, TrigoModel, RandModel | eudlib/mathf/*, eudlib/utilf/{binsearch,random}.py, memio/muldiv4table.py |
| collections, patching | CollModel | collections/*, eudlib/utilf/mempatch.py |
| number parsing | ParseModel | string/parse.py |
| map sections, strings, properties | ChkModel, TblModel, PrpModel | core/mapdata/* |
| packing of map triggers | PackModel, SecModel | maprw/inlinecode/*, core/rawtrigger/rawtriggerdef.py |
| start-up | InjModel | maprw/injector/{vector_reloc,payload_reloc}.py |
| byte streams, f_strnstr | StrnModel | memio/byterw.py, string/strfunc.py |
| locations | LocModel (proof tool SymExec) | eudlib/locf/locf.py |
| unit loops | LoopModel | eudlib/utilf/listloop.py |
| data members | MemberModel | scdata/offsetmap/, memio/muldiv4table.py |
| packet queue | QgcModel | qgc/qgc.py |
| players | PlayerModel | eudlib/utilf/pexist.py, userpl.py, core/mapdata/playerinfo.py |
| wire frames | WireModel | eudlib/wireframe/wireframe.py |
| repair of map data | FixModel | core/mapdata/fixmapdata.py |
| text conversion | CpuModel | string/cputf8.py |
| function pointers | FptrModel | core/eudfunc/eudfptr.py 22-76, 144-162; eudfuncn.py 111-118 |
| texts of the game | StatModel | string/tblprint.py 31-47, 156-199 |
| GRP images | GrpModel | eudlib/eudgrp.py 15-62 |
| player names | PnameModel | string/pname.py 31-64, 97-103 |
| StringBuffer | SbufModel | string/strbuffer.py 107-122, 244-332 |
| epScript line tables | LineModel | epscript/linetable_calculator.py 116-158, 198-223, 274-318 (Python 3.11) |
| epScript line map | LmapModel | epscript/epsimp.py source_to_code (regular expression, split and bisect_right written out) |
| Rust line tables | RlineModel | src/rust/eudplib-epscript/src/linetable.rs 76-185 |
| line tables on Python 3.10 | LnotabModel | epscript/epsimp.py 53-70 |
| text output | TextModel, CpTextModel | string/{eudprint,strcommon,cpprint,cpstr}.py |
| utilities | BinModel, FlattenModel, BlockModel, MpqModel | utils/*, maprw/mpqadd.py |


## Properties: models, theorems, limits

Generated from `MANIFEST.json`. `_refuted` theorems prove that the (faithful) model violates the claim as stated; `_partial` ones cover part of it.

### C01 Allocated objects never share a byte they both use (proved)

`PropAlloc.v`: `C01_layout_disjoint`.

### C02 Layout completes on every input (partial)

`PropAlloc.v`: `C02_layout_completes_refuted`, `C02_layout_completes_partial`.
The full statement is false of the code: an index is out of range when the last non-empty object uses its last dword. The partial theorem shows that this is the only failure and that the search terminates.

### C03 Recorded occupancy covers every byte written (partial)

`PropAlloc.v`: `C03_occupancy_partial`, `C03_occupancy_refuted`.
False for objects that issue dword writes at offsets that are not multiples of 4; proved for aligned writers.

### C04 Payload bytes and relocation tables describe exactly what was written (proved)

`PropAlloc.v`: `C04_payload_contents`.

### C05 Relocated payload equals payload built at the final address (proved)

`PropAlloc.v`: `C05_relocated_payload`, `C05_pack_mode_refuted`.
Relocation modes must be 0, 1 or 4; WritePack does not check this and the refuted theorem shows the consequence.

### C06 Address expression algebra is sound (partial)

`PropAlloc.v`: `C06_constexpr_sound`, `C06_constexpr_mod_sound`, `C06_epd_sound`, `C06_rlocint_sound`, `C06_rlocint_neg_refuted`, `C06_rlocint_and_refuted`, `C06_rlocint_ror_refuted`, `C06_rlocint_floordiv_refuted`.
Sound for + - * // % on address expressions without i32 overflow and + - * on evaluated values; four operators of evaluated values are unsound.

### C07 Variable assignment copies one value and nothing else (proved)

`PropOps.v`: `C07_v_assign`, `C07_v_iadd`, `C07_v_isub`, `C07_lv_assign`, `C07_lv_iadd`, `C07_lv_isub`, `C07_lv_ineg`, `C07_lv_iabs`, `C07_v_add`, `C07_v_radd`, `C07_v_sub`, `C07_v_rsub`, `C07_v_neg`, `C07_isub_same_variable_refuted`.
Includes += -= + - unary minus and negation in place for variables and light variables. x -= x (same variable, outside the property) is wrong: see the refuted theorem.

### C08 SeqCompute equals sequential execution of its assignments (partial)

`PropVar.v`: `C08_seqcompute`, `C08_destination_zero_refuted`, `C08_fits_partial`, `C08_fits_refuted`.
The memory effect is proved for every list; false when a variable is assigned to the literal EPD 0, and the 64-action bound is proved only when no source repeats (false in general).

### C09 NonSeqCompute equals SeqCompute when destinations are independent (proved)

`PropFunc.v`: `C09_nonseq_compute`.
The reordering by nonseq_order (with any order inside the sets it iterates) of independent assignments has the effect of every permutation of them.

### C10 Comparisons decide the mathematical order (partial)

`PropOps.v`: `C10_v_eq`, `C10_v_ne`, `C10_v_cmp`, `C10_v_lt`, `C10_v_gt`, `C10_light_lt_zero_refuted`, `C10_light_gt_max_refuted`, `C10_lt_large_constant_refuted`, `C10_light`.
All six relations are exact for variables against variables and against 32-bit constants. Light variables compare x < 0 and x > 0xFFFFFFFF as true, and constants outside 32 bits are reduced: refuted theorems.

### C11 Multiplication is exact modulo 2^32 (proved)

`PropMul.v`: `C11_f_mul`, `C11_C12_operands_unharmed`.
f_mul for every combination of constant and variable operands, executed on the trigger machine; the function is ready again afterwards (way_ready).

### C12 Division returns quotient and remainder (proved)

`PropMul.v`: `C12_f_div`, `C12_quot`, `C12_rem`, `C12_quot_const_zero_refuted`, `C11_C12_operands_unharmed`.
Quotient and remainder incl. division by zero; repeatable. The quotient-only helper with two constants and divisor 0 assigns a tuple (refuted theorem).

### C13 Specialised constant multiply and divide agree with the general ones (proved)

`PropMul.v`: `C13_constant_functions`.
Every constant and operand: the specialised bodies agree with the variable versions.

### C14 Bitwise operations are exact (partial)

`PropOps.v`: `C14_v_ior`, `C14_v_iand`, `C14_v_ixor`, `C14_lv_ior`, `C14_lv_iand`, `C14_lv_ixor`, `C14_lv_iinvert`, `C14_v_and`, `C14_v_or`, `C14_v_xor`, `C14_v_rxor`, `C14_v_invert`, `C14_f_bitnand`, `C14_f_bitnor`, `C14_f_bitnxor`, `C14_xor_same_variable_refuted`.
Exact for distinct operands; x ^ x of the same variable gives x instead of 0 (refuted theorem).

### C15 Shifts are exact for every shift amount (proved)

`PropMul.v`: `C15_bitlshift`, `C15_bitrshift`; `PropOps.v`: `C15_lv_ilshift`, `C15_lv_irshift`, `C15_shift_sizes`, `C15_shift_zero_refuted`.
Shifts by constants and variables, zero from 32 on; in-place constant shifts. x <<= 0 builds a trigger that is too large (refuted theorem).

### C16 Signed division variants follow their mathematical definitions (proved)

`PropMath.v`: `C16_towards_zero`, `C16_floor`, `C16_euclid`, `C16_euclid_unique`, `C16_const_word_refuted`.
Variable-level model of the three bodies, variable and constant divisor, all words and non-zero divisors. A constant divisor given as a word >= 2^31 is read as positive (refuted).

### C17 Integer power is exact modulo 2^32 and terminates (partial)

`PropMath.v`: `C17_pow_partial`, `C17_pow_hangs_refuted`.
Proved for exponents below 2^31; for exponents of 2^31 or more the loop never ends (refuted).

### C18 Binary search returns the extreme satisfying value in range (partial)

`PropMath.v`: `C18_max_partial`, `C18_max_in_range_partial`, `C18_max_full`, `C18_min_partial`, `C18_single_refuted`, `C18_min_single_refuted`, `C18_variable_refuted`, `C18_wrap_refuted`, `C18_none_refuted`.
Proved for constant bounds lo < hi without wrap-around, and for minimum 0 with any bounds. Refuted: single-value ranges, variable bounds, ranges that wrap past 2^32, the documented result when no value satisfies the condition.

### C19 Integer square root is exact (proved)

`PropMath.v`: `C19_sqrt`.
All 32-bit arguments; variable-level model on top of EUDBinaryMax.

### C20 Structured conditionals execute exactly one branch (proved)

`PropStru.v`: `C20_generates`, `C20_structured`, `C20_meaning_unique`, `C20_exactly_one_branch`.
All structured programs of If/ElseIf/Else, While(Not), InfLoop, LoopN, break, continue, BreakIf/ContinueIf(Not) and set_continuepoint, nested in any way, with any straight-line code as leaves and conditions evaluated from constants fields (conditions with variables are preceded by the code that computes them, argument pre). Terminating executions; short-circuit EUDSCAnd/EUDSCOr not in the language.

### C21 Switch jumps to the matching case (proved)

`PropSw.v`: `C21_switch`, `C21_cases`, `C21_nodes`, `C21_nodes_cp`, `C21_const`, `C21_const_refuted`, `C21_merge`, `C21_jump_size`, `C21_jump_buffer`.
C21_switch: on the trigger machine, every accepted set of case numbers, every mask, any sequence of executions with any values, for all dispatch methods on a variable or fixed dword (comparisons, jump table, binary search). C21_jump_buffer: every entry of the shared jump buffer, read as a trigger, is the jump. C21_nodes_cp: EPDSwitch with the EPD in a variable, at the level of linked nodes (the VProc and the CurrentPlayer cache trigger are nodes, not machine triggers). C21_const_refuted: a switch on a Python constant does not apply the mask.

### C22 Negating a condition inverts its truth (partial)

`PropPure.v`: `C22_negate_partial`, `C22_at_most_max`, `C22_outside_mask`, `C22_negate_refuted`.
Exact except for AtMost 0xFFFFFFFF and masked Exactly with value bits outside the mask, where negate is always wrong. The EUD-level negations (EUDNot, EUDIfNot) are not covered here.

### C23 Triggers with any number of conditions and actions behave as one (proved)

`PropTrig.v`: `C23_trigger`, `C23_trigger_in_programs`, `C23_groups_fit`, `C23_unpreserved_runs_again_refuted`.
Trigger with any number of conditions and SetDeaths actions, constant fields, preserved=True, alone or anywhere inside structured programs. For preserved=False an extended trigger runs again (refuted).

### C24 Functions return to their call site with the right results (proved)

`PropFunc.v`: `C24_call`, `C24_call_computes`, `C24_call_sequence`.
EUDFuncN calls with variable, constant and in-place arguments, results to any cells. C24_call holds for any body that reaches the end of the function, also by EUDReturn. EUDMethod and EUDFuncPtr wrappers are not modelled; nested calls are calls inside a body and use the same theorem.

### C25 ExecuteOnce blocks run once (proved)

`PropOnce.v`: `C25_once`.
EUDExecuteOnce()() around any structured body that reaches its end (a body left by break is not marked as run). The variants with conditions are C77.

### C26 Read tables return the masked, shifted memory content (partial)

`PropRead.v`: `C26_table_read`, `C26_read_from`, `C26_read_cp`, `C26_history`, `C26_insert_total`, `C26_dwread_epd`, `C26_epdread_epd`, `C26_epdread_cp_order_refuted`.
The shared table of reading triggers is modelled with its whole compile-time life: for every sequence of requests (insert, get, insert_or_get with any mask, shift and direction) the trigger given for a request reads, in the final table, exactly the selected bits moved by the shift, whatever the memory holds; the callers _epd_caller (constant or variable address) and _cp_caller (constant offset) are proved at trigger level, including restoration of the current player and that nothing else changes. Refuted part: f_epdread_cp fails when nothing requested its chain before (C26_epdread_cp_order_refuted). Not covered: f_dwepdread_epd, f_flagread_epd, variable offsets of _cp_caller.

### C27 Byte and word access at sub-dword offsets is exact (partial)

`PropBw.v`: `C27_const_op`, `C27_cp_op`, `C27_bytes`, `C27_wwrite3`, `C27_cpwriter`, `C27_read_epd`, `C27_wread3`, `C27_setdw_const`, `C27_setdw_cv`, `C27_setdw_vv`, `C27_bitwrite_const`, `C27_bitwrite_var`, `C27_boolread`, `C27_dwbreak`, `C27_dwbreak2`, `C27_setdw_self_refuted`, `C27_cpwriter_unmasked_refuted`.
Writes, adds, subtracts and reads of bytes and words at every offset, including the word that crosses into the next dword, dword writes with constant or variable address, bit writes, f_dwbreak. Machine level, except f_dwbreak/f_dwbreak2 which are variable-level. What is missing: the selection of the case by the switch over a variable offset is not part of these theorems, nor the left shift that prepares the value operand (a hypothesis; see C16). Refuted: address and value in the same variable; unmasked value with variable offset in cpmemio. f_wadd_epd/f_wsubtract_epd at offset 3 have no case in the source and do nothing (read, not proved).

### C28 Block copy, compare and fill behave like C (partial)

`PropBlk.v`: `C28_repmovsd`, `C28_readbyte`, `C28_writebyte_const`, `C28_writebyte_var_partial`, `C28_strlen`; `PropMem.v`: `C28_memcpy`, `C28_memcpy_plain`, `C28_memcmp`, `C28_strcpy`, `C28_strcmp`, `C28_dwread`, `C28_dwwrite`, `C28_cpwriter`, `C28_cpwriter_flush_refuted`, `C28_cpwriter_wide_refuted`, `C28_copyto_refuted`.
Machine level: the dword copy loop for every count, one step of EUDByteReader, of EUDByteWriter with a constant byte and with a variable byte from the selected case on, and f_strlen_epd for every start byte and length. Function level (reader and writer steps as proved, loops as Gallina recursion): f_memcpy for every alignment including overlaps (forward copy), f_memcmp with its sign, f_strcpy, f_strcmp, f_dwread, f_dwwrite at every address, CPByteWriter. Missing: the switch of the variable writebyte and the function-call glue (C21, C17). Refuted: flushing a CPByteWriter with an empty buffer zeroes the next cell; a byte above 255 spills over; EUDByteStream.copyto a writer does not move it.

### C29 Unpatching restores memory (partial)

`PropColl.v`: `C29_unpatch_partial`, `C29_big_block_refuted`.
Blocks of at most 256 dwords; targets apart from the stacks and buffers. For larger blocks the claim is false (refuted).

### C30 Stack is LIFO (proved)

`PropColl.v`: `C30_stack`.
All operation sequences without overflow or underflow.

### C31 Queue is FIFO (proved)

`PropColl.v`: `C31_queue`, `C31_new`, `C31_popleft_empty_refuted`.
All sequences of append, popleft on a non-empty queue, clear; iteration not modelled. popleft on an empty queue corrupts the queue (refuted).

### C32 Deque is a double-ended queue (partial)

`PropColl.v`: `C32_deque_partial`, `C32_new`, `C32_appendleft_full_refuted`.
All sequences of append, appendleft, pop, popleft without appendleft on a full deque, where the claim is false (refuted).

### C33 Object pool hands out distinct live objects (proved)

`PropColl.v`: `C33_pool`, `C33_new`, `C33_full`, `C33_double_free_refuted`.
All histories whose frees are of live objects. Double free is not detected (refuted).

### C34 Unit group keeps exactly the added, not removed units (proved)

`PropColl.v`: `C34_group`, `C34_new`, `C34_overflow_refuted`.
All histories of adds and iterations whose bodies add and remove, within the capacity. add does not check the capacity (refuted).

### C35 CHK round trip (partial)

`PropPure.v`: `C35_load`, `C35_save_load`, `C35_isom_refuted`, `C35_never_false`, `C35_negative_length_refuted`, `C35_raise_keeps_refuted`, `C35_sections`, `C35_optimize`.
Round trip proved for every section but ISOM, which savechk always replaces by an empty one. Malformed files: negative lengths are accepted, and trailing bytes raise after the old sections are lost.

### C36 String table round trip and stability of string ids (partial)

`PropTbl.v`: `C36_stable`, `C36_lookup`, `C36_total`, `C36_saved`, `C36_load`, `C36_load_chk`, `C36_add_same_refuted`, `C36_empty_refuted`, `C36_invalid_offset_refuted`, `C36_overwritten_refuted`.
Proved for non-empty strings in tables whose offsets are valid, with GetStringIndex as the lookup. Not true for the empty string, for AddString (equal strings get new ids), and for maps with an invalid string offset.

### C37 String table size accounting (partial)

`PropTbl.v`: `C37_size`, `C37_size2_refuted`.
Exact for 4-byte entries, the only ones eudplib saves; with 2-byte entries the bookkeeping can be 2 too small.

### C38 Unit property slots are shared only by equal properties (proved)

`PropPure.v`: `C38_init`, `C38_requests`, `C38_full`, `C38_no_upus`.
Also shows that a map without UPUS has no free slot.

### C39 Integer/byte conversions round trip (proved)

`PropPure.v`: `C39_write_read`, `C39_bytes`, `C39_read_write`, `C39_bits`.

### C40 EPD and address conversion are inverse (proved)

`PropEpd.v`: `C40_const`, `C40_const_any`, `C40_unique`, `C40_runtime_value`, `C40_runtime_same`, `C40_inplace`, `C40_call`, `C40_runtime_below_refuted`.
Compile-time EPD, the in-place actions and the shared conversion function run on the machine. For addresses below 0x58A364 run-time and compile-time results differ in the top two bits (refuted), which address the same dword.

### C41 Flattening preserves order and content (proved)

`PropPure.v`: `C41_flatten`, `C41_agree`, `C41_lazy`, `C41_type_error`.
For values whose iterators do not fail half-way; both functions agree on all values, and failing iterators are described by C41_lazy and C41_type_error.

### C42 Shared variable storage keeps variables independent (proved)

`PropVar.v`: `C42_varbuffer_contents`, `C42_variables_separate`, `C42_varbuffer_size`, `C42_jumpbuffer_contents`, `C42_jump_trigger_runs`.
EUDCustomVarBuffer is not modelled.

### C43 Number parsing agrees with decimal notation (partial)

`PropParse.v`: `C43_decimal_partial`, `C43_saturation`, `C43_reading_exists`, `C43_radix_partial`, `C43_prefix_partial`, `C43_near_limit_refuted`, `C43_lowest_refuted`, `C43_digit_count_refuted`, `C43_binary_refuted`, `C43_base13_wrap_refuted`, `C43_unsaturated_refuted`.
Decimal: exact below 2147483640, saturated above, every text covered. Other bases: exact below radix*(0xFFFFFFFF div radix). The claim is false at the limits (refuted): 2147483640..46, -2147483648, digit count after wraparound, 32 binary digits, base 13. Variable-level model; the byte reader is not part of it.

### C44 Pseudo random generator is the documented LCG (proved)

`PropRand.v`: `C44_draws`, `C44_ranges`, `C44_randomize`.
Variable-level model; multiplication and addition are the 32-bit ones of C13 and C07.

### C45 Table of multiples for struct strides is exact (partial)

`PropRand.v`: `C45_exact_partial`, `C45_total_partial`, `C45_stride3_refuted`.
Exact for strides not congruent to 3 mod 4; for the others the carry is left out and subp can be 5 (refuted). Variable-level model of the table.

### C46 Boolean variables are independent (proved)

`PropEpd.v`: `C46_booleans`.
All initial values and operation sequences, from allocation to the conditions read back on the machine.

### C47 Current player cache stays coherent (proved)

`PropCurpl.v`: `C47_sequence`, `C47_restored`, `C47_getcurpl`, `C47_group_player_refuted`, `C47_actions_dropped_refuted`.
Machine level. Every sequence of f_setcurpl, f_addcurpl (constant or variable), raw changes and restores behaves as specified; every nesting of temporary changes closed by a restore leaves real and cached player at the value before. f_getcurpl returns the real player whatever changed it, for every drawing of the random numbers except unit 16928, for which the condition names player group 19 (refuted part). f_setcurpl(set_modifier=False) drops its actions (refuted part). f_setcurpl2cpcache is modelled without extra variables.

### C48 Trigger packing preserves per-player order (partial)

`PropPack.v`: `C48_order`, `C48_order_partial`, `C48_one_by_one`, `C48_shared`, `C48_code_bytes`, `C48_wait_test`, `C48_dispatcher`, `C48_order_refuted`, `C48_twice_refuted`, `C48_nobody_refuted`, `C48_wait_refuted`.
For every trigger list, force assignment and size decision: each player's map triggers keep their order and their inline code keeps its order (C48_order_partial, rate 1); the whole sequence is unchanged when inline code stands first or is absent (C48_order); rate below 1: whole sequence unchanged for every choice of moved triggers that are not preserved triggers of all players or nobody (C48_one_by_one). The full claim is false of the code: inline code overtakes earlier triggers of the same player, a preserved trigger of all players runs twice when moved singly, a preserved trigger of nobody raises, Wait is overlooked (refuted theorems). C48_shared covers the linking of shared triggers for every call history. Not modelled: compiling the inline Python text.

### C49 Compact trigger encoding is lossless (partial)

`PropSec.v`: `C49_section`, `C49_meaning`, `C49_hole_refuted`, `C49_disabled_refuted`.
RawTrigger(trigSection=...) drops Always and Comment entries and closes gaps; from the bytes of the finished payload the game reads the same conditions (without Always) and the same actions (without Comment, unused byte 29 cleared), for every payload the trigger is part of. Needs: no type-0 entry before a used one (otherwise refuted) ; of the flags only bits 0 and 2 survive, so a disabled trigger becomes enabled (refuted).

### C50 Start-up relocation sled relocates every entry once (proved)

`PropInj.v`: `C50_start_up`, `C50_image`, `C50_payload_reloc`.
C50_image starts from the dwords of the two map sections (including the exclusive-or overlay of the two location triggers) and the engine's reading of memory as triggers; nothing is assumed about placement. Cells outside the claim: the relocator's own 32 cells in the location section and the filler dword before the payload. C50_payload_reloc (the second stage) is a variable-level model of the loop. The TRIG-section triggers that enter the sled are not covered.

### C51 In-place item updates equal read-modify-write (proved)

`PropInpl.v`: `C51_iset`, `C51_isub_const`, `C51_isub_var`, `C51_iand`, `C51_ior`, `C51_ixor_const`, `C51_ixor_var`, `C51_ilshift`, `C51_irshift`, `C51_alias_refuted`.
Machine level: every function of inplacecw.py, for constant or variable base, index and operand, changes exactly the item at (base + index) mod 2^32 to the value of the operation; transfer fields of the variables and the patched fields of the next trigger are scratch; when the current player was borrowed it ends at its cached value. Hypotheses: the three variables are different (the library tests this only in iset and isub) and the item is not a transfer field, not the operand itself (isub, ixor) and not code. Refuted for the aliased case: arr[i] &= i with the same variable works on arr[0] (C51_alias_refuted). Aliased operands of iset go to a + b followed by setdw_epd (C27).

### C52 Angle and trigonometric helpers stay in range (proved)

`PropTrigo.v`: `C52_atan2_sector`, `C52_atan2_value`, `C52_atan2_256_sector`, `C52_tables`, `C52_lengthdir`, `C52_lengthdir_256`, `C52_atan2_range_refuted`, `C52_atan2_zero_refuted`, `C52_lengthdir_magnitude_refuted`, `C52_lengthdir_overflow_refuted`.
Variable level. For every pair of words except (0,0), f_atan2 and f_atan2_256 give an angle in the right eighth of the circle; for arguments below 400 the exact value is given. For every length below 65536 and every angle, f_lengthdir and f_lengthdir_256 give the length times the table entry rounded towards zero with the signs of the quadrant, no coordinate exceeds the length and the magnitude is below length + 1. Parts of the claim that are false of the code: the result can be 360 (320 of 256) instead of 0; atan2(0,0) is 91; the magnitude can exceed the length by rounding; lengths from 65536 overflow; negative angles. The table values are copied from Python's math.cos/math.sin and checked for consistency (C52_tables).

### C53 Added MPQ files are unique up to the archive's name equality (partial)

`PropPure.v`: `C53_added`, `C53_duplicate`, `C53_unlisted_refuted`.
Proved for files named in the archive's listfile and files added before; a file missing from the listfile is replaced silently.

### C54 Block nesting errors are detected (proved)

`PropPure.v`: `C54_nesting`, `C54_open`.
For function bodies, the only place where eudplib checks that all blocks are closed.

### C55 Location, switch and unit names are resolved exactly (partial)

`PropTbl.v`: `C55_location`, `C55_ambiguous_refuted`; `PropNames.v`: `C55_switch`, `C55_unit`.
Locations, switches and units (units also by their name without colour codes). Proved for maps whose items of one kind use different string ids; when two items share one id the later one silently wins (refuted).

### C56 Trigger size estimate (proved)

`PropPack.v`: `C56_size`.
get_trigger_size for every trigger; with 16 conditions or 64 actions the minimum is over distances at least 4 + 5*conditions + 8*actions, as in the code.

### C57 Triggers with variable arguments use the variables' values (proved)

`PropPatch.v`: `C57_condition`, `C57_action`, `C57_trigger`, `C57_condition_words`, `C57_action_words`.
On the trigger machine. The calls of the fill functions are written in line (calls: C24). Values are those at the start of the patch code of one trigger record.

### C58 Reading and writing EUDVArray items (proved)

`PropVarr.v`: `C58_get`, `C58_set`.
On the trigger machine, for every combination of constant and variable array, index and value. The EPD of the array and its pointer are separate operands (conversion: C40). Iteration and the in-place item operators are not included. Indices outside a variable-indexed array are not covered (the code does not check them).

### C59 Generated triggers keep their run-time fields in their own records (proved)

`PropPlace.v`: `C59_stored`, `C59_variable`, `C59_func_end`, `C59_func_end_used`, `C59_operators`, `C59_constants`, `C59_iand_expr`, `C59_comparisons`, `C59_const_mul_div`, `C59_mul`, `C59_div`, `C59_shifts`, `C59_rshift`, `C59_inplace`, `C59_read`, `C59_blocks`, `C59_epd`, `C59_curpl`, `C59_vararray`, `C59_patch`, `C59_relocator`, `C59_program`, `C59_branch`, `C59_trigger`, `C59_leaf`, `C59_once`; `PropPlaceSw.v`: `C59_switch`, `C59_switch_cp`.
All generators modelled as triggers. C59_stored: triggers in place whose constants are in memory run, as stored data, exactly as the models run them. Programs: conditions of branches have constant fields (C59_comparisons gives the place of a condition with a run-time field).

### C60 Logical connectives and short-circuit evaluation (proved)

`PropLogic.v`: `C60_sc_or`, `C60_sc_and`, `C60_sc_and_free`, `C60_if_and`, `C60_if_or`, `C60_or_and`, `C60_not_bit`, `C60_leaves`, `C60_forwards`, `C60_ternary`.
On the trigger machine, for arguments whose code is any structured program. Code of an argument may not change the result variable; in EUDSCAnd, code that precedes an argument has at least one trigger (emits) and negated conditions are the negation (C22). C60_leaves: the connectives inside any program run as they mean, by C20_structured.

### C61 Object collection (partial)

`PropCollect.v`: `C61_each_object_once`, `C61_shuffled`, `C61_nothing_unused`, `C61_plain_objects_complete`, `C61_complete_partial`, `C61_terminates`, `C61_collects_partial`, `C61_first_at_start`, `C61_nested_array_refuted`, `C61_set_changes_refuted`, `C61_missed_object_refuted`.
Partial because the code violates the rest: an array that holds the address of an otherwise unused array raises RuntimeError, and objects reached through variables of two buffers can be missed depending on the order of a set. Proved in general: numbering, no unused objects, completeness for ordinary objects, termination; completeness and absence of exceptions for programs without such references. Allocation sizes and writing are C01-C04.

### C62 Texts and numbers printed into memory (partial)

`PropText.v`: `C62_print`, `C62_compiles`, `C62_long_text_refuted`, `C62_numbers_have_texts`, `C62_addstr`, `C62_addstr_epd`, `C62_adddw`, `C62_addptr`, `C62_parse_decimal_partial`, `C62_parse_hex_partial`, `C62_parse_back_refuted`.
Proved for all draws and keys; partial because the code violates one clause: texts of more than 32768 bytes can make random.randrange fail (32897 bytes always does). Variable level: byte reader and writer steps are C28, divisions C09. Sources must not overlap the bytes written.

### C63 Texts and numbers printed at the current player (proved)

`PropCpText.v`: `C63_print`, `C63_cpstring`, `C63_cpstring_values`, `C63_next_cell_refuted`.
For argument lists that compile (C62: long texts can fail). C63_next_cell_refuted shows that without EOS the cell after the text can be cleared as well, so the claim rightly leaves it open. Variable level: byte reader and writer steps are C28, divisions C09. Sources must not overlap the cells written.

### C64 Byte streams and searching in strings (proved)

`PropStrn.v`: `C64_stream_seek`, `C64_stream_read`, `C64_stream_write`, `C64_strnstr`, `C64_beyond_count_refuted`.
Variable level; calls of functions are C24. The substring may extend beyond the count characters (C64_beyond_count_refuted: not the strnstr of the C library). Never reading beyond the ends: the hypotheses say nothing about bytes after the terminators.

### C65 Location functions (proved)

`PropLoc.v`: `C65_setloc`, `C65_addloc`, `C65_dilateloc`, `C65_setloc4`, `C65_addloc4`, `C65_dilateloc4`, `C65_actions`, `C65_constant_location`, `C65_setloc_epd`.
Trigger level. Call and return of the functions are C24; loc * 5 is C13; for a constant location and variable coordinates f_dilateloc first negates two of them (C07) and then does what f_addloc does (C65_constant_location). In f_setloc_epd the coordinates are taken as stored by f_posread_cp (C26). Writing a cell assumes the usual placement: the cells involved are distinct and writable (shown for concrete placements).

### C66 Generated readers: units, sprites, positions, flags (partial)

`PropReadGen.v`: `C66_reader_epd`, `C66_reader_cp`, `C66_readerfunc_cp`, `C66_empty`, `C66_cunit_readers`, `C66_sprite_readers`, `C66_posread`, `C66_dwepdread`, `C66_flagread`, `C66_readgen_table`, `C66_readgen_raises`, `C66_readgen_total_refuted`.
Trigger level, all draws. Partial because the code violates the last clause: f_readgen_epd and f_readgen_cp divide by zero when the function is 0 on the lowest bit of a consecutive mask, and fail for mask 0 (C66_readgen_raises says exactly when). The table readers are C26. At most 62 results; the cell read must not be one of the reader's own.

### C67 Loops over units, sprites and lists (partial)

`PropLoop.v`: `C67_list`, `C67_list_break`, `C67_unit`, `C67_player_unit`, `C67_unit2`, `C67_sprite`, `C67_sprite_break_refuted`, `C67_new_unit`, `C67_new_unit_again`.
Variable level; the readers are C66, the loop statements C15. Partial because the code violates one clause: EUDBreak in EUDLoopSprite only ends the row (C67_sprite_break_refuted, C67_sprite says what happens). EUDLoopBullet is EUDLoopList with a constant header. The initial recording at game start (_UniqueIdentifier._init) is not modelled.

### C68 Addresses of data members (partial)

`PropMember.v`: `C68_muldiv`, `C68_muldiv_stride3_refuted`, `C68_member_const`, `C68_member_dword`, `C68_member_struct`, `C68_member_var`, `C68_compiles`, `C68_library`, `C68_shared_variable_refuted`.
Variable level. Partial because the code violates two clauses: when objects of classes with different ranges share a variable (cast), earlier accesses use stale or truncated products (C68_shared_variable_refuted); strides that leave 3 modulo 4 (none in the library) miss their carries (C68_muldiv_stride3_refuted). Otherwise for all programs with fewer than 2^32 operations; C68_library checks the table of all array members of the library. The return address of the update trigger (SetNextPtr) is not modelled.

### C69 Comparing members, bit members and flags (partial)

`PropMember.v`: `C69_compare_const`, `C69_compare_var`, `C69_compare_wide_refuted`, `C69_bit_read`, `C69_bit_write`, `C69_flag_get_array`, `C69_flag_get_struct`, `C69_flag_set`.
Variable level; the bit writers at trigger level are C27. Partial because a variable that does not fit the member is truncated by the shift and can compare equal (C69_compare_wide_refuted). The name encoders of the kinds (cast) are not modelled.

### C70 Commands in the packet queue (proved)

`PropQgc.v`: `C70_queue`, `C70_alphaids`, `C70_select`, `C70_good`, `C70_RightClick`, `C70_QueuedRightClick`, `C70_MinimapPing`, `C70_TrainUnit`, `C70_UseCheat`, `C70_many`.
Variable level; f_memcpy is C28, the byte writer at trigger level C27. The data must lie outside the queue and the limit must be at most 0x220, so that the queue does not reach its own length cell. The one byte commands are C70_queue with one byte.

### C71 Loops over players (partial)

`PropPlayer.v`: `C71_player_exist`, `C71_loop_player`, `C71_force_0`, `C71_force_0_refuted`, `C71_player_loop`.
Variable level; switches are C21, loop statements C15, the current player C16. Partial because the code violates one clause: force 0 (which encode_force accepts as the first force) is not looked at (C71_force_0_refuted, C71_force_0 says what happens). The body must not assign the loop variable.

### C72 Cells of the local player (proved)

`PropPlayer.v`: `C72_local_player`.
Variable level. The set of cells is a list in any order.

### C73 Tables of wire frames (partial)

`PropWire.v`: `C73_set`, `C73_tables`, `C73_init64`, `C73_init32`, `C73_header_refuted`, `C73_next_frame_refuted`.
Variable level; the readers are C66, the copy of the Db into the table C28. Partial because the 32 bit initial table violates one clause: when the first or last unit of its range is replaced, the half dword before or after the range gets the bytes beside the replacing frame (C73_header_refuted: the height in the header, C73_next_frame_refuted: the position of the next frame). The tables of default data (wiredata.py) and the check for 64 bit clients are not modelled.

### C74 Repair of the map's data (proved)

`PropFix.v`: `C74_same_unit`, `C74_normal`, `C74_keeps_normal`, `C74_units`, `C74_unix`, `C74_upgx`, `C74_tecx`, `C74_tiles`.
Sections as functions from offset to byte, UNIT in whole entries of 36 bytes (a shorter last entry raises IndexError in the code). VER is simply set. The warning text is not modelled.

### C75 Text from code page 949 to UTF-8 (partial)

`PropCpu.v`: `C75_table`, `C75_convert`, `C75_unmapped_refuted`.
Variable level; reader and writer are C27/C28. Partial because pairs that are not in the table are written as the bytes C0 80, which no strict UTF-8 decoder accepts (C75_unmapped_refuted). The table is a parameter; a textual check of cp949_table.py shows that its 17034 entries have distinct pairs of bytes and code points from 0xA1 to 0xFFE6.

### C76 Function pointers (partial)

`PropFptr.v`: `C76_pointer_call`, `C76_direct_after_pointer_refuted`, `C76_direct_loops_refuted`.
Trigger level. Partial because the code violates the last clause for functions with results: the indirect caller overwrites the next pointer of the function's end trigger, and direct calls never restore it, so a direct call after a call through a pointer goes to the return point of the last call through the pointer (C76_direct_after_pointer_refuted; C76_direct_loops_refuted runs a program that never gets past its direct call). The SetVariables before and after the call are C08/C09; more than 64 results, types and setFunc's checks are not modelled.

### C77 ExecuteOnce blocks with conditions (partial)

`PropOnceCond.v`: `C77_first`, `C77_first_neg`, `C77_end_neg`, `C77_later`, `C77_empty_refuted`.
Trigger level: header and last trigger of the block; the body is not part of the statements (with neg the block is marked by its last trigger, so a body that leaves by break is entered again; C25 covers bodies). Partial because the code violates the claim for an empty list of conditions: the only trigger of the header rewrites its own next pointer, so the body is never entered (C77_empty_refuted). Conditions with variable fields are C57.

### C78 Texts of the game's string table (partial)

`PropStat.v`: `C78_table`, `C78_total`, `C78_empty_text_refuted`, `C78_order_refuted`, `C78_large_refuted`, `C78_address`.
Table construction for all byte lists whose result has at most 65536 bytes; GetTBLAddr at variable level (readers are C66 and C27, division C11). Partial because the code violates three clauses: a table with fewer than two bytes after its offsets raises IndexError (C78_empty_text_refuted, C78_total), texts that do not lie in the order of their numbers are lost (C78_order_refuted), and larger tables get wrapped offsets without an error (C78_large_refuted). The table pointer must be a multiple of 4 and not 0.

### C79 GRP images in the payload (proved)

`PropGrp.v`: `C79_image`, `C79_total`.
Bytes of the object after relocation (C04); the placing of objects at multiples of 4 is C01. Reading the file is not modelled.

### C80 Comparison of player names (partial)

`PropPname.v`: `C80_compare`, `C80_ascii`, `C80_nonascii_refuted`, `C80_bits`.
Trigger level, for names of code points below 256 taken as bytes (C80_compare) and ASCII names (C80_ascii). Partial because the code compares code points, not UTF-8: for other names the conditions fail although the player has the name (C80_nonascii_refuted). IsPName with a variable name or CurrentPlayer and SetPName are not modelled.

### C81 StringBuffer operations (partial)

`PropSbuf.v`: `C81_append`, `C81_insert`, `C81_insert_append`, `C81_print`, `C81_delete`, `C81_other`, `C81_first_append_refuted`.
Variable level; the printing itself is C63, the current player C47. Partial because a new buffer has position 0 and append takes the position as a cell: the first append writes over the cells from EPD 0 on, the deaths of unit 0, instead of the buffer (C81_first_append_refuted). The display actions, tagprint and the text effects are not modelled.

### C82 Line tables of epScript modules (partial)

`PropLine.v`: `C82_lines`, `C82_one_line`, `C82_late_refuted`, `C82_long_refuted`.
Python 3.11 format. C82_lines gives the decoded line of every code unit for instructions of at most 8 code units. Partial because the code violates the claim: each instruction is given the line of the next one (C82_late_refuted; right when all are on the first line, C82_one_line), and for an instruction of more than 8 units, LOAD_METHOD, the step is made twice (C82_long_refuted). Other formats in this file are not used; Python 3.10 is C85, line_mapper C83.

### C83 Map from lines of compiled epScript to source lines (proved)

`PropLmap.v`: `C83_mark`, `C83_map`.
For texts whose lines contain no LF and do not end in CR (a CR before the LF belongs to the line end). The limit of int() on very long digit strings is not modelled; what Python counts as a line beyond LF and CR LF is outside the model.

### C84 generate_linetable of the Rust extension (partial)

`PropRline.v`: `C84_reader`, `C84_lines`, `C84_late_refuted`.
The reader is exact for all tables; C84_lines gives the decoded line of every code unit of the new table. Partial because the code violates the claim: each entry is given the line of the next one, moved by the distance between the first line and the line of the first entry (C84_late_refuted). The map of lines (regular expression, BTreeMap) and co_positions are inputs of the model.

### C85 Line tables of epScript modules on Python 3.10 (partial)

`PropLnotab.v`: `C85_lnotab_partial`, `C85_format_refuted`, `C85_back_refuted`, `C85_far_refuted`, `C85_error_refuted`.
The loop over co_lnotab. Proved, for the table read as co_lnotab, when source and epScript lines go forward by less than 128 (C85_lnotab_partial). The code violates the claim otherwise: the table is passed as co_linetable, whose pairs have another meaning (C85_format_refuted), a step back is taken for a step forward (C85_back_refuted), steps of 255 are read as -1 (C85_far_refuted), and epScript lines that go back raise ValueError (C85_error_refuted).

## Findings

Behaviour of the code that contradicts what it is meant to do. Those with a
theorem are proved of the model; the others were read in the source while
modelling and are outside the model.

Layout and addresses
* `stack_objects` indexes past the end of its table when the last non-empty
  object uses its last dword (C02_layout_completes_refuted).
* Occupancy of unaligned dword writes is recorded wrongly (C03_occupancy_refuted).
* Collecting objects: an EUDVArray (or EUDXVariable) that holds the address of
  another one which is not used elsewhere changes a deque while it is gone
  through, and Python raises RuntimeError (C61_nested_array_refuted); a buffer
  found for the first time in the pass over the dynamic objects does the same to
  a set (C61_set_changes_refuted); an object can be missed, depending on the
  order of a set of objects, and writing then raises KeyError
  (C61_missed_object_refuted).
* `WritePack` accepts relocation modes other than 0, 1, 4 (C05_pack_mode_refuted).
* Negation, and, reversed or, floor division of relocated integers are unsound
  (C06_rlocint_*_refuted).

Variables and arithmetic
* A `SeqCompute` destination that is the integer 0 skips the destination field
  (C08_destination_zero_refuted); a repeated source can make a trigger with more
  than 64 actions (C08_fits_refuted).
* `x -= x` gives 0xFFFFFFFF (C07_isub_same_variable_refuted); `x ^ x` gives x
  (C14_xor_same_variable_refuted).
* Light variables: `x < 0` and `x > 0xFFFFFFFF` are always true
  (C10_light_*_refuted); constants beyond 32 bits are reduced
  (C10_lt_large_constant_refuted).
* `x <<= 0` builds a trigger with 65 actions (C15_shift_zero_refuted).
* The quotient helper with two constants and divisor 0 assigns a tuple
  (C12_quot_const_zero_refuted).
* Constant divisors given as words from 2^31 on are read as positive
  (C16_const_word_refuted).
* `f_pow` never ends for exponents from 2^31 on (C17_pow_hangs_refuted).
* Binary search: single-value ranges, variable bounds, wrap-around, documented
  result without a solution (C18_*_refuted).
* `f_atan2` can return 360 and gives 91 for (0, 0); `f_lengthdir` can exceed the
  length by rounding and overflows from 65536 on (C52_*_refuted).
* Struct strides congruent to 3 mod 4 lose a carry (C45_stride3_refuted).

Control flow
* Negation of AtMost 0xFFFFFFFF and of masked Exactly with bits outside the mask
  (C22_negate_refuted).
* An extended Trigger with preserved=False runs again
  (C23_unpreserved_runs_again_refuted).
* A switch on a Python constant does not apply the mask (C21_const_refuted). Two
  cases that share a block are never merged, because every `NextTrigger()` is a
  new Forward; the merging branch is dead code (its test is right: C21_merge).
  `_actions` given to a switch are dropped by binary search at a fixed address.
* In an extended Trigger the second group of more than 64 actions is patched after
  the first group ran, so variables changed by earlier actions are seen there, unlike
  in a Trigger of at most 64 actions. Read, not modelled.

Memory access
* `f_epdread_cp` fails when nothing requested its chain before
  (C26_epdread_cp_order_refuted).
* Address and value in one variable (C27_setdw_self_refuted); unmasked value
  with variable offset in cpmemio (C27_cpwriter_unmasked_refuted).
* `f_wadd_epd`/`f_wsubtract_epd` have no case for offset 3; `f_bread_cp` with a
  variable offset raises (misspelled keyword `rete=`). Read, not modelled.
* CPByteWriter: flushing an empty buffer, bytes above 255; `copyto`
  (C28_*_refuted).
* `arr[i] &= i` with one variable works on arr[0] (C51_alias_refuted).
* `f_getcurpl` for unit 16928; actions dropped by
  `f_setcurpl(set_modifier=False)` (C47_*_refuted).
* `f_readgen_epd`/`f_readgen_cp` raise ZeroDivisionError when the function is 0 on
  the lowest bit of a consecutive mask, and fail for an empty mask
  (C66_readgen_total_refuted).
* Addresses below 0x58A364: run-time and compile-time EPD differ in the top two
  bits (C40_runtime_below_refuted).

Library
* Popping an empty queue, appendleft on a full deque, double free, adding to a
  full unit group, patches above 256 dwords (C29, C31, C32, C33, C34 `_refuted`).
* EUDBreak in EUDLoopSprite ends only the current row (C67_sprite_break_refuted).
* Data objects of classes with different ranges that share a variable (made with cast) read
  stale or truncated products from the stride cache (C68_shared_variable_refuted).
* The stride table leaves out exactly the strides that need a carry, those leaving 3 modulo 4
  (C68_muldiv_stride3_refuted); no member of the library has one.
* A variable too large for a member can compare equal to it (C69_compare_wide_refuted).
* `f_parse` at its limits (C43_*_refuted).

Map data
* ISOM is lost on save, negative section lengths are accepted, old sections are
  lost when loading fails (C35_*_refuted).
* Equal strings get new ids from AddString, the id of the empty string is
  reused, an invalid offset shifts later ids (C36_*_refuted); capacity of 2-byte
  tables 2 too small (C37_size2_refuted); two locations with one string id are
  not seen as ambiguous (C55_ambiguous_refuted).
* A file missing from the archive's listfile is replaced silently
  (C53_unlisted_refuted).
* Packing of map triggers: inline code overtakes earlier triggers, a preserved
  trigger of all players runs twice, a trigger of nobody raises, Wait is
  overlooked (C48_*_refuted); sharing of equal triggers never happens, because
  the caller drops the index (ilcprocesstrig.py 114-125).
* Section triggers: entries behind a hole are lost in the original but run in
  the copy; disabled triggers become enabled (C49_*_refuted).
  `get_trigger_size` differs from the space the layout really needs.

EUDVArray (read in vararray.py, outside the model)
* `_InternalVArray._bound_check` unproxies the function instead of the index, so
  it never rejects anything.
* `_InternalVArray._set` with the same variable as index and value stores the
  value of an earlier operation.
* `ilshiftitem`, `irshiftitem`, `ixoritem` with a constant array and a variable
  index call `GetVTable` of a constant.
* `set` with the same variable as array EPD and index ignores the array.

Short circuits (shortcircuit.py)
* `EUDSCAnd.patch` looks for `conditional` in its own trigger scope, where it never
  is, so the light boolean variant is never used.
Functions and blocks
* After a call of a function with results through an EUDFuncPtr, direct calls of that
  function return to the place after the call through the pointer
  (C76_direct_after_pointer_refuted, C76_direct_loops_refuted).
* `EUDExecuteOnce()([])` with an empty list of conditions never enters its body
  (C77_empty_refuted).

Text output
* A constant text of more than 32768 bytes can make `random.randrange` fail with an
  empty range; 32897 bytes always do (C62_long_text_refuted).
* f_cp949_to_utf8_cpy writes pairs of bytes that are not in its table as C0 80, which is not
  UTF-8 (C75_unmapped_refuted).
* f_cpstr_print without EOS can still clear the cell after its text
  (C63_next_cell_refuted).
* f_strnstr limits where an occurrence starts, not where it ends
  (C64_beyond_count_refuted).
* `EUDByteStream.copyto` uses `_suboffset` of a reader, which has none, and wrong
  cells of reader and writer (read in byterw.py 265-281, outside the model).

StringBuffer
* The first append to a new StringBuffer writes from EPD 0 on instead of into the buffer
  (C81_first_append_refuted).

epScript line tables
* In the Python 3.11 format each instruction gets the line of the next one (C82_late_refuted), and after an
  instruction of more than 8 code units the line step is made twice (C82_long_refuted).
* The Rust function generate_linetable gives each entry the line of the next one as well (C84_late_refuted).
* On Python 3.10 the table has the wrong format, and steps back and long steps are wrong or raise an error
  (C85_format_refuted, C85_back_refuted, C85_far_refuted, C85_error_refuted).

Texts of the game
* Aligning stat_txt.tbl loses texts that do not lie in the order of their numbers, raises
  IndexError for a table with fewer than two bytes of texts, and wraps offsets of large
  tables silently (C78_*_refuted).

Players
* `IsPName` with a constant name compares code points instead of UTF-8 bytes, so it fails for
  names with other than ASCII characters (C80_nonascii_refuted).
* `EUDLoopPlayer(force=0)` ignores the force, although `encode_force` accepts 0 as the
  first force (C71_force_0_refuted).

Wire frames
* `InitialWireframe` on 32 bit clients: replacing the first or last unit of the range
  overwrites the header's height or the next frame's position (C73_header_refuted,
  C73_next_frame_refuted).

## Not modelled

* epScript (the Rust and C++ compiler of the `eps` language) apart from line tables, Python source
  analysis, localisation, progress output, plugins.
* StormLib and the MPQ format below file names.
* Decoding of text encodings; map strings are bytes.
* EUDMethod/EUDTypedFunc wrappers, the type checks of EUDFuncPtr, EUDStruct and its descriptors,
  string formatting and display (SetPName, f_sprintf, display of StringBuffer, f_settbl, TextFX), iteration over
  queues, `_UniqueIdentifier._init`, f_getlocTL, SCR
  pixel functions.
* The engine beyond `Machine.v`: player groups other than CurrentPlayer, waits,
  conditions and actions other than Deaths/SetDeaths and their EUDX forms.

## Wrong programs

`seeded/LOG.jsonl` records edits made to the models in a scratch copy, the claim
each breaks, the theorems that then fail, and theorems tightened because an edit
survived.

## Trusted base

* Coq 8.16.1 kernel, including its `vm_compute` conversion (used for examples,
  refutation witnesses and finite sweeps over closed tables).
* `Print Assumptions` stands after every property theorem (478 of them); each
  prints "Closed under the global context": no axioms at all, neither of the
  standard library nor our own.
* The reading of the Python and Rust sources: definitions cite file and lines.
* The model of the StarCraft trigger engine in `Machine.v` (not in /repo; the
  repository relies on it), including: memory is 2^30 dwords addressed by EPD
  modulo 2^30; Add wraps, Subtract stops at 0; masks apply when the EUDX marker
  is present; flag 8 skips a trigger; the next pointer is read after the actions.

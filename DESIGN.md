# Formal model of libiff: design

## What is modelled

A functional model in Rocq/Coq 8.16.1 of the C library in `/repo/src/libiff`
and of the two tools (`src/iffjoin`, `src/iffpp`), written function
by function; every definition cites the file and lines it models.

| Coq file (`rocq/theories`) | models |
|---|---|
| `Machine.v` | C integer types, outcomes (result / undefined behaviour / out of fuel), platform (`env`), stdio streams, allocation oracle, `error.c` |
| `Io.v` | `io.c`, `id.c`, the ID checks of `form.c` |
| `Types.v` | structs, `field.c`, `chunkregistry.c`, `defaultregistry.c` |
| `Build.v` | `create*`, `attach`/`add*`, `IFF_incrementChunkSize`, `update*ChunkSizes`, raw data setters |
| `Read.v` | `free*`, `read*` of `chunk.c group.c form.c cat.c list.c prop.c rawchunk.c`, field-list application chunks as in `tests/hello.c`, `tests/bye.c` |
| `Write.v` `Check.v` `Compare.v` `Print.v` `Search.v` | the corresponding function families |
| `Iff.v` | `iff.c` (streams, named files, stdin/stdout), `join.c`, `pp.c` |
| `Heap.v` `HeapPass.v` `HeapSearch.v` `HeapTools.v` | the same code on the level of blocks and pointers: malloc/realloc/free, parent pointers, arrays; building, reading, freeing, writing, checking, printing, comparing, size updates, lookups, searches, files and the two tools |
| `Main.v` | the command lines: `iffpp/main.c`, `iffjoin/main.c`, and getopt, getopt_long as documented |
| `Process.v` | the end of both tools: standard output is flushed, the status and the messages remain |
| `HeapClient.v` | programs that use the library: the calls, the ownership rules, and what is owned after each call |
| `Spec.v` `Grammar.v` `HeapSpec.v` `LineSpec.v` `TestExt.v` | the independent specifications: wire encoding, conformance, scoping, search; stored files without trees; which blocks hold a tree; command lines; the test extensions' field lists |
| `Suite.v` | the project's own test suite: all 57 tests of `tests/Makefile.am` and their data files, run on the heap model |
| `Stack.v` | the recursive functions again, with a limit on the number of nested calls |
| `UseSpec.v` | specification: trees whose sizes or data are not as declared (C71) |
| `AllocSpec.v` | specification: the bytes a heap takes; hosts that refuse large requests (C72) |
| `Ext.v` `ExtFields.v` | the reader, writer, checker, comparison, printing and freeing again, over application structs of any type and arbitrary callbacks; field lists and a colour map as instances |
| `ExtSpec.v` | specification: the contract of the callbacks, and what a tree with application chunks means as a tree of raw data (C73-C75); what callbacks must do at the least (C76, C77) |
| `HeapExt.v` `HeapExtApps.v` | reading and freeing again on a heap where application structs own further blocks; field lists and a growing array of colours as instances |
| `HeapExtPass.v` | writing, checking, printing and comparing again on that heap |
| `HeapViewApps.v` | (not project code) field lists and growing arrays, as values and in memory |
| `HeapExtSpec.v` | specification: which blocks a run turned into which, the contracts of such callbacks, which blocks a tree consists of (C78, C82) |
| `DiagSpec.v` | specification: which text truthfully names a fault of a tree (C79), or the place where a file ends too early (C80) |
| `PartSpec.v` | specification: the parts of a file, in order, with what is reported when one cannot be written (C81) |
| `HeapViewSpec.v` | specification: when memory shows a tree of values, and what callbacks in memory must do to refine callbacks on values (C84) |
| `PipeSpec.v` | specification: when bytes are skipped (C85) |
| `LayoutSpec.v` | specification: the lines of the text of a tree (C87) |
| `TextSizeSpec.v` | what the text of a tree is measured by (C97) |
| `DamageSpec.v` | which bytes of a file are data, and trees that differ in data bytes only (C99) |
| `EditSpec.v` | the edited tree, and where chunks and sizes are in a file (C100, C101) |
| `SessionSpec.v` | programs of calls on variables, run on trees and in memory, and several that take turns (C90) |
| `ThreadSpec.v` | calls taken apart into single accesses to memory, and threads whose accesses alternate (C92, C93) |
| `TimeSpec.v` | what a call taken apart does, counted (C94) |
| `StderrSpec.v` | the standard error threads share (C95) |
| `*Proofs.v`, `Lemmas.v` | proofs only |
| `Prop*.v` | the property theorems, with `Print Assumptions` and examples |

Two levels:

1. **Tree level.** A chunk is a value (`CRaw`, `CGroup`, `CList`, `CFields`).
   Accessing a struct as another struct type is the outcome
   `Undefined UB_type_confusion`; signed overflow, NULL dereference,
   out-of-bounds, uninitialised reads are outcomes of their own. Code runs in a
   state monad over a `world`: input stream, output stream, error log,
   allocation counter. The platform `env` is universally quantified: host byte
   order, signedness of `char`, 32/64 bit `size_t`, success of each allocation,
   where the allocator puts each block (also into released space),
   and whether ISO C violations that mainstream compilers define (signed shift
   into the sign bit, printf type mismatches) count as undefined.
2. **Heap level.** Chunks are blocks in a heap with pointers; used for
   ownership, leaks, double frees and parent pointers.

stdio output is buffered with an arbitrary buffer size, and the device accepts
an arbitrary number of bytes: a crash, a full disk and a broken pipe are all
"no more bytes are accepted".

Reader loops have a step bound (the input length); C12 shows it is never hit.

## What is not modelled

- Signals, locale, `errno`. The library starts no threads; threads of a program that call it on trees of their own are modelled with sequentially consistent accesses to whole blocks (C92). Threads may share trees if they only look at them (C93). If one of them changes a shared tree, undefined behaviour is possible (C93). The standard error the threads print on is shared (C95); other streams shared by two threads are not modelled.
- The messages getopt prints itself, and environment variables it looks at
  (whether operands are reordered is a parameter); the build system, the
  Windows project files.
- The exact glibc buffering strategy: only that bytes reach the device in
  order, at the latest when flushed.
- The size of a stack frame: recursion on nested chunks is unbounded in the model; `Stack.v` counts nested calls (C70), how many bytes one takes is not modelled.
- Numeric addresses, their order, struct padding and the allocator's own bookkeeping. A block is a slot of the heap; which free slot an allocation takes, and whether released ones are used again, is arbitrary (`place`).
- Application callbacks that do something undefined, and callbacks that look at other chunks or at global state of the application. The heap, stack and client theorems (C50-C54, C61-C66, C70-C72) cover lists of fields only, not arbitrary callbacks; C73-C75 need the contract `Honours` of `ExtSpec.v`, C76-C77 only `Tame` and `Usable`. Callbacks that own memory are modelled for creating, reading and freeing (C78, contract `Owner`) and for writing, checking, printing and comparing (C82, contract `Looker`); there the registry is a function from form type and chunk ID to the chunk type.

## Trusted base

- Coq's kernel (`coqc`, re-checked by `coqchk`), and `vm_compute` for closed
  examples and refutation witnesses.
- `Print Assumptions` beneath each property theorem: all are expected to be
  "Closed under the global context" (no axioms, not even the standard
  library's). Any exception would be listed here.
- That the model is faithful to the C text. It was transcribed by hand. As
  evidence (not as a property), `Suite.v` runs every test of the project's own
  test suite on the model: `suite_passes` says that all 57 end with status 0 on
  every kind of host, as the project expects of the C code.
- No axioms, no `Admitted`, no functors or module types.

## How properties are stated

Specifications live in `Spec.v` and use only lists, integers and bytes, not the
monadic model. Property theorems are in `Prop*.v`, each closed by `exact` of a
lemma proved elsewhere, followed by `Print Assumptions` and an `Example` showing
that its hypotheses are met by a concrete case. Where the C code violates the
property, the theorem name ends in `_refuted` and is an existence statement
about a concrete execution; the largest provable positive part is stated next
to it. `_partial` marks theorems which prove less than the property says.

## Property by property

- **C01 Integers on the wire are big-endian** — the swap expressions are shown equal to byte reversal by bit arithmetic; both host orders by case split.
  Theorems: `C01_written_big_endian`, `C01_read_big_endian`, `C01_wire_bijective`.
- **C02 Integer write/read round trip across hosts** — composition of C01 for write and read with two different environments.
  Theorems: `C02_integer_round_trip`.
- **C03 Primitive reads of short input fail loudly** — case analysis of fread/fgetc on short lists.
  Theorems: `C03_short_read_fails`, `C03_full_read_succeeds`.
- **C04 Files are host independent** — all model functions are shown independent of `big_endian` through C01.
  Theorems: `C04_reading`, `C04_writing`, `C04_checking`, `C04_comparing`, `C04_iffpp`, `C04_iffjoin`.
- **C05 Field reads respect the chunk's virtual end of file** — modular arithmetic; refutation by a concrete chunk of size 0..3.
  Theorems: `C05_field_virtual_eof`, `C05_small_chunk_refuted`, `C05_small_chunk_overrun`.
- **C06 ID validation is exact** — decoding of the four characters; both directions.
  Theorems: `C06_checkId_exact`.
- **C07 FORM type validation is exact** — as C06 plus membership in the reserved list.
  Theorems: `C07_checkFormType_exact`.
- **C08 ID text form is faithful** — bit arithmetic.
  Theorems: `C08_idToString_faithful`, `C08_text_determines_id`, `C08_every_id_has_text`.
- **C09 Chunk handler lookup follows the registry scoping rules** — correctness of binary search on strictly sorted arrays, then induction on the parent chain.
  Theorems: `C09_lookup_follows_scoping`, `C09_scoping_total`.
- **C10 The default registry handles exactly the four group IDs specially** — instance of C09.
  Theorems: `C10_default_registry`.
- **C11 Extension registries keep group chunks working** — refutation by vm_compute on the tests' registry; positive theorem for registries with parent = global node.
  Theorems: `C11_extension_registry`, `C11_null_parent_refuted`.
- **C12 Reading terminates** — induction: every chunk read consumes at least 8 bytes.
  Theorems: `C12_reading_terminates`, `C12_bound_irrelevant`, `C12_tree_bounded`.
- **C13 Reading untrusted input has no undefined behaviour** — refutation by vm_compute; positive theorem by bounding bytesProcessed by consumed input.
  Theorems: `C13_no_undefined_behaviour`, `C13_no_undefined_behaviour_extension`, `C13_only_overflow_or_null`, `C13_negative_sizes_refuted`.
- **C14 A successful read accounts for every byte** — relational encoding, induction on the reader's steps.
  Theorems: `C14_read_is_exact`, `C14_reader_decides_grammar`, `C14_grammar_is_read`.
- **C15 Truncated files are rejected** — prefix-extension lemma: success on p implies the same success on p++q.
  Theorems: `C15_truncation_rejected`.
- **C16 Write then read gives back the tree** — induction on well-formed trees against the encoding.
  Theorems: `C16_write_then_read`, `C16_write_file_then_read`.
- **C17 Read then write reproduces the file** — from C14 and C21.
  Theorems: `C17_canonical_reproduced`, `C17_silent_read_reproduced`, `C17_canonical_files`, `C17_nonzero_pad_refuted`, `C17_prop_order_refuted`.
- **C18 Trailing data is ignored with a warning** — prefix-extension lemma.
  Theorems: `C18_trailing_data_ignored`.
- **C19 Failed reads are reported** — inspection of IFF_readFd.
  Theorems: `C19_failures_reported`.
- **C20 Read results never contain uninitialised memory** — typing invariant by induction on the reader.
  Theorems: `C20_all_data_from_input`.
- **C21 Written bytes are the specified encoding** — induction on well-formed trees.
  Theorems: `C21_written_is_the_encoding`, `C21_writing_succeeds`.
- **C22 Chunks are word aligned** — induction on trees for the encoding, then C21.
  Theorems: `C22_word_aligned`, `C22_members_aligned`.
- **C23 Reported write success means complete output** — log/ output invariants of the writer; refutation with a small device.
  Theorems: `C23_true_means_complete`, `C23_false_means_reported`, `C23_false_only_when_full`, `C23_write_file_refuted`, `C23_write_file_complete`.
- **C24 A crash or full disk never yields a wrong but readable file** — prefix invariant of the stream plus C15.
  Theorems: `C24_device_holds_a_prefix`, `C24_no_wrong_tree`.
- **C25 Group size mismatches when writing** — concrete refutations and a general zero-fill theorem.
  Theorems: `C25_sizes_not_checked`, `C25_too_large_is_filled`, `C25_too_small_overruns`.
- **C26 IFF_check is sound and complete** — induction on trees, both directions, against `Conforms`.
  Theorems: `C26_check_decides_conformance`, `C26_wrapped_sizes_refuted`.
- **C27 Checked trees survive storage** — C26 + C16 + C33.
  Theorems: `C27_checked_trees_survive`.
- **C28 Check reports why** — log monotonicity and induction.
  Theorems: `C28_false_iff_reported`.
- **C29 Only FORM, CAT and LIST may be top level** — inspection.
  Theorems: `C29_other_roots_rejected`.
- **C30 Trees built through the API are valid** — induction on construction sequences.
  Theorems: `C30_built_trees_pass`, `C30_additions_succeed`.
- **C31 IFF_check versus the EA IFF 85 standard** — concrete trees, vm_compute.
  Theorems: `C31_duplicate_props_refuted`, `C31_reserved_ids_refuted`, `C31_punctuation_refuted`, `C31_filler_refuted`, `C31_prop_for_list_refuted`.
- **C32 IFF_compare is an equivalence relation** — induction on trees.
  Theorems: `C32_always_answers`, `C32_reflexive`, `C32_symmetric`, `C32_transitive`.
- **C33 IFF_compare decides equality of contents** — induction on trees; refutation by vm_compute.
  Theorems: `C33_true_means_identical`, `C33_checked_trees`, `C33_prop_header_refuted`.
- **C34 Padding values do not matter when reading** — relational encoding with arbitrary pads.
  Theorems: `C34_pads_do_not_matter`.
- **C35 IFF_searchForms finds exactly the outermost matching FORMs** — induction on trees against a path-based specification.
  Theorems: `C35_searchForms`, `C35_searchForms_one`.
- **C36 Chunk lookup in a FORM returns the first match** — list induction.
  Theorems: `C36_first_match`, `C36_last_setting_refuted`.
- **C37 All-chunks lookup returns every match in order** — list induction.
  Theorems: `C37_all_matches`.
- **C38 Shared properties follow lexical scoping** — induction on the ancestor chain.
  Theorems: `C38_shared_properties`.
- **C39 Updating sizes repairs the path to the root** — induction on the path.
  Theorems: `C39_path_repaired`, `C39_replacement`.
- **C40 Size update is idempotent and keeps valid trees** — induction on the path.
  Theorems: `C40_right_sizes_kept`, `C40_valid_trees_kept`, `C40_idempotent`.
- **C41 Adding a chunk keeps the size field consistent** — arithmetic.
  Theorems: `C41_addToGroup`, `C41_addPropToList`, `C41_succeeds`.
- **C42 Size arithmetic overflow when adding chunks** — refutations and exact bound.
  Theorems: `C42_exact_iff_fits`, `C42_overflow_refuted`, `C42_undefined_refuted`.
- **C43 CAT contents type maintenance** — induction on the sequence of additions.
  Theorems: `C43_contents_type`, `C43_data_first_refuted`.
- **C44 Joining files produces a valid CAT** — C26, C16, C43 along the join loop.
  Theorems: `C44_output_valid`.
- **C45 Joining preserves content and order** — same; for the bytes, the relation of C59.
  Theorems: `C45_members_in_order`, `C45_succeeds`, `C45_standard_output`, `C45_standard_output_refuted`, `C45_bytes`.
- **C46 Joining does not write on invalid input** — same.
  Theorems: `C46_nothing_written`, `C46_failure_reasons`, `C46_defined`.
- **C47 iffpp exit status** — inspection of IFF_prettyPrint.
  Theorems: `C47_exit_status`.
- **C48 Pretty printed data is complete** — a decoder for the dump is a left inverse.
  Theorems: `C48_text_determines_tree`, `C48_read_trees`, `C48_text_verbatim`, `C48_hex_dump`.
- **C49 Printing is total on read results** — typing of read results implies print is defined.
  Theorems: `C49_printing_total`, `C49_printing_total_default`.
- **C50 Freeing releases every allocation exactly once** — heap model; `tree_at` relates a tree to its blocks, `becomes` says which blocks a run changed; refinement by induction.
  Theorems: `C50_read_refines`, `C50_read_free`, `C50_free_exact`, `C50_read_keeps`.
- **C51 Failed reads leak nothing** — same refinement: a failed read ends with `becomes h h' [] []`.
  Theorems: `C51_failed_read`.
- **C52 Parent pointers are right** — the parent pointer is part of `tree_at`; graph reachability stated separately.
  Theorems: `C52_parents`, `C52_one_parent`.
- **C53 Attaching a chunk twice is a double free** — for every heap with a shared member: freeing both groups is undefined; plus a concrete run.
  Theorems: `C53_shared_member`, `C53_add_twice`, `C53_twice_in_one_group`, `C53_share_refuted`.
- **C54 Known leaks** — invariant of the join loop on the heap: exactly the blocks of the rejected chunk are left; the raw setters by following the old pointer.
  Theorems: `C54_old_data_leaks`, `C54_text_leaks`, `C54_join_exact`, `C54_join_leak_refuted`.
- **C55 Extension chunks tolerate shorter and longer versions** — induction on field lists.
  Theorems: `C55_read_versions`, `C55_write_versions`, `C55_rewritten`, `C55_wide_field_refuted`.
- **C56 Truncation inside skipped extension bytes is not detected** — refutation; positive for unseekable streams.
  Theorems: `C56_truncation_rejected_unseekable`, `C56_seek_past_end_refuted`.
- **C57 Allocation failure is handled** — case analysis; refutation by an allocation oracle.
  Theorems: `C57_create_failure_is_null`, `C57_array_failure_refuted`.
- **C58 Strict ISO C conformance of the byte swapping and diagnostics** — refutation by vm_compute under strict_c.
  Theorems: `C58_only_these_violations`, `C58_read_long_refuted`, `C58_write_long_refuted`, `C58_other_primitives`, `C58_write_128_refuted`, `C58_truncated_warning_refuted`, `C58_skip_refuted`, `C58_filler_refuted`.
- **C59 Reading normalises and is then stable** — C26, C16. What saving does to the bytes of a file is an inductive relation of its own (TidySpec.v), shown to be a function.
  Theorems: `C59_read_trees_are_stable`, `C59_saved_file`, `C59_tidying_is_a_function`, `C59_canonical_kept`, `C59_unchanged_iff_canonical`.
- **C60 Serialisation is unambiguous** — from C16 and the prefix lemma.
  Theorems: `C60_serialisation_unambiguous`.
- **C61 Writing, checking, printing and comparing only look** — compositional `looks` predicate for all heaps; `agrees`: each heap function equals the tree function on every represented tree.
  Theorems: `C61_writing_only_looks`, `C61_checking_only_looks`, `C61_printing_only_looks`, `C61_comparing_only_looks`, `C61_place_independent`, `C61_write_refines`, `C61_check_refines`, `C61_print_refines`, `C61_compare_refines`.
- **C62 The tools release what they allocate** — simulation of the tools' tree-level programs by the heap-level ones, with the blocks left over tracked by `becomes`.
  Theorems: `C62_iffpp_releases_all`, `C62_iffpp_refines`, `C62_iffjoin_refines`, `C62_iffjoin_success`.
- **C63 Updating sizes follows the parent pointers and touches nothing else** — context lemma for the position reached by a path; induction along the path upwards; a frame predicate for arbitrary heaps gives the rest.
  Theorems: `C63_refines`, `C63_only_sizes`, `C63_cycle_never_returns`, `C63_self_member_refuted`.
- **C64 Lookups return the right chunk itself** — the parent chain of a position is the tree-level chain of enclosing chunks; then C36-C38.
  Theorems: `C64_getChunk`, `C64_refines`, `C64_getChunks`.
- **C65 Searching returns pointers into the tree, and what it leaks** — induction on the tree with the owned, returned and lost arrays tracked separately.
  Theorems: `C65_search`, `C65_leak_exact`, `C65_no_leak_refuted`.
- **C66 Programs that follow the ownership rules are safe and can clean up** — an inductive set of reachable states (calls allowed by the rules); invariant: the heap is the start, plus disjoint typed trees, plus loose blocks; each call's own theorem gives the step.
  Theorems: `C66_safe`, `C66_always_returns`, `C66_accounts`, `C66_parents`, `C66_trees`, `C66_clean`, `C66_can_finish`.
- **C67 The command line of iffpp means what its usage text says** — a grammar of command lines (`LineSpec.v`), proved total and unambiguous against a model of getopt; induction on the words.
  Theorems: `C67_line`, `C67_stops`, `C67_every_line`, `C67_msvc_options_first`, `C67_msvc_option_last_refuted`, `C67_msvc_stops`, `C67_help_lists_the_options`, `C67_version_shows_the_version`, `C67_help_lists_the_options_refuted`.
- **C68 The command line of iffjoin means what its usage text says** — as C67, composed with C44-C46.
  Theorems: `C68_line`, `C68_joins`, `C68_no_inputs`, `C68_stops`, `C68_every_line`, `C68_msvc_no_options`, `C68_msvc_output_refuted`, `C68_msvc_stops`, `C68_help_lists_the_options`, `C68_help_lists_the_options_refuted`, `C68_no_memory_refuted`.
- **C69 Running out of memory never changes a result silently** — relate the run on a host to the run on the same host with a malloc that always succeeds: a relation preserved by bind (equal, or a failing value, or the NULL pointer) proved function by function (MemoryProofs.v); exactness of sizes rules out the filler for well formed trees; lifted to the tools with the typing of everything read.
  Theorems: `C69_reading`, `C69_no_other_tree`, `C69_checking`, `C69_writing`, `C69_writing_exact`, `C69_building`, `C69_iffjoin`, `C69_iffpp`, `C69_filler_refuted`.
- **C70 The stack an operation needs is the nesting of the tree** — the same functions with a counter of nested calls (`Stack.v`); a relation between the limited and the unlimited reader preserved by bind that also tracks the bytes consumed (12 per level, less 4) and the nesting of the result; structural inductions for the other operations; a tower of nested FORMs for the refutation.
  Theorems: `C70_stack_for_any_input`, `C70_reading_needs_the_nesting`, `C70_operations_need_at_most_the_nesting`, `C70_same_or_overflow`, `C70_free_and_print_need_the_nesting`, `C70_fixed_stack_refuted`.
- **C71 What can go wrong on a tree of the right types** — an invariant on the kinds of undefined behaviour, preserved by bind and indexed by what is wrong with the tree, with the sizes computed so far in the postcondition; structural inductions on well-typed trees (`UseProofs.v`); lifted to the heap and to client states by C61 and the invariant of C66.
  Theorems: `C71_check`, `C71_write`, `C71_print`, `C71_compare`, `C71_free`, `C71_client`, `C71_client_compare`, `C71_unfilled_refuted`, `C71_enormous_refuted`, `C71_hollow_refuted`.
- **C72 Reading takes memory in proportion to the file** — a potential argument: each byte read pays for 3/8 of an allocation, preserved by bind, function by function (`AllocProofs.v`); induction on the grammar for the size of the tree, added up over the blocks of the heap (`HeapAllocProofs.v`); a relation between the run on a host and on the same host with large requests refused, indexed by the number of bytes left, for the size of single requests.
  Theorems: `C72_allocations`, `C72_memory`, `C72_memory_extensions`, `C72_requests`, `C72_requests_refuted`.
- **C73 Reading with an application's own chunk types** — `Ext.v` models the library over an arbitrary type of application structs and a record of callbacks; `ExtSpec.v` states the contract (`Honours`) against a codec of byte strings; induction on the grammar relates the run to the run without applications (`ExtReadProofs.v`).
  Theorems: `C73_reading`, `C73_registries`, `C73_field_lists`, `C73_arrays`, `C73_field_lists_exact`.
- **C74 Writing an application's own chunk types** — simulation of writing the tree by writing its raw view, function by function, with the filler bytes from the codec's padding.
  Theorems: `C74_writing`, `C74_write_then_read`, `C74_field_lists_exact`.
- **C75 Checking, comparing, printing and freeing an application's own chunk types** — structural inductions on trees of the application's types, against the raw view; `PropTestApp.v`: induction on the members of a document, with the registry of the tests.
  Theorems: `C75_checking`, `C75_comparing`, `C75_freeing`, `C75_printing`, `C75_read_trees`, `C75_lawful`, `C75_field_lists_exact`, `C75_field_lists_free`, `C75_tests_application`.
- **C76 Reading is safe with any callbacks that are** — a predicate on runs (bytes consumed, kinds of undefined behaviour, steps left) preserved by bind, function by function (`ExtSafeProofs.v`).
  Theorems: `C76_any_callbacks`, `C76_only_overflow`, `C76_registries`, `C76_field_lists`, `C76_arrays`.
- **C77 What was read with any safe callbacks can be used** — an invariant of everything the reader returns (`Sound`), as a postcondition of C76's predicate; then structural inductions, with the predicate of C71 on kinds of undefined behaviour (`ExtUseProofs.v`).
  Theorems: `C77_what_is_read`, `C77_check`, `C77_write`, `C77_print`, `C77_compare`, `C77_free`, `C77_field_lists`, `C77_arrays`.
- **C78 Nothing leaks when an application's chunks own memory** — `HeapExt.v` models reading and freeing again on a heap with blocks of the application's; `HeapExtSpec.v` states the contract as a relation between heaps (`Turns`: these blocks became those); separation-logic-style framing of that relation, function by function (`HeapExtProofs.v`, `HeapExtReadProofs.v`); a homomorphism of monads for the agreement with `Heap.v`.
  Theorems: `C78_safe`, `C78_only_overflow`, `C78_failed_read`, `C78_read`, `C78_free`, `C78_read_then_free`, `C78_two_trees`, `C78_field_lists`, `C78_arrays`, `C78_agrees`.
- **C79 What IFF_check complains about is true** — `DiagSpec.v` lists the rules and the exact text for each as an inductive relation `Fault`; induction over the tree shows that every complaint of the model's checker is related to it (`DiagProofs.v`); with the characterisation of C26 for the converse.
  Theorems: `C79_complaints_are_true`, `C79_no_complaint_about_conforming_trees`, `C79_faulty_iff_complaint`.
- **C80 A file that ends too early is reported where it ends** — `DiagSpec.v` relates a tree, the beginning of its encoding and a text (`Cut`); induction over the tree, following the reader through the complete members and into the one that is cut (`CutProofs.v`).
  Theorems: `C80_truncation_located`, `C80_one_diagnosis`.
- **C81 A failed write is reported with the part that failed** — `PartSpec.v` lists the parts of a tree's file with the text for each; induction over the tree shows that the model's writer reports the text of the first part the output does not take (`PartProofs.v`).
  Theorems: `C81_parts_are_the_file`, `C81_failed_write_located`, `C81_one_part`, `C81_success_is_silent`.
- **C82 Using trees whose chunks own memory leaves memory as it was** — `HeapExtPass.v` models the four operations again on the heap of `HeapExt.v`; `HeapExtSpec.v` states the contract and what a tree is; induction over the depth shows that each function, started on any heap with the same blocks, ends on one (`HeapExtPassProofs.v`); a homomorphism of monads for the agreement with `HeapPass.v`.
  Theorems: `C82_check`, `C82_write`, `C82_print`, `C82_compare`, `C82_programs`, `C82_field_lists`, `C82_arrays`, `C82_agrees`.
- **C83 Groups can be created with their final size or grown** — the outcomes of the creating functions by computation; induction on the members, attaching being independent of the size.
  Theorems: `C83_created`, `C83_filled_as_grown`, `C83_lists_with_properties`.
- **C84 What is in memory is what the file says** — `HeapViewSpec.v` defines when memory shows a tree of values and when callbacks in memory refine callbacks on values; a simulation between the monads of `Ext.v` and `HeapExt.v`, by induction on the fuel of the reader and over the depth of the tree for the other operations (`HeapViewReadProofs.v`, `HeapViewPassProofs.v`); `HeapViewAppsProofs.v` for field lists and growing arrays.
  Theorems: `C84_read`, `C84_stays`, `C84_one_tree`, `C84_write`, `C84_check`, `C84_print`, `C84_compare`, `C84_free`, `C84_read_in_memory`, `C84_written_from_memory`, `C84_field_lists`, `C84_registries`, `C84_arrays`.
- **C85 Reading from a pipe is reading from a file** — `PipeSpec.v` says which bytes are skipped; a relation between runs on two streams that differ only in whether they can be repositioned (`Twin`), preserved by bind, by induction on the fuel of the reader (`PipeProofs.v`).
  Theorems: `C85_pipe_then_file`, `C85_file_then_pipe`, `C85_skipping_needs_a_file`, `C85_default`, `C85_iffpp`, `C85_skipping_refuted`.
- **C86 What the tools leave behind when they have ended** — `Process.v` adds the exit of the process, which flushes standard output, to `Main.v`; what printing and writing leave on a device that becomes full, by induction on the bytes; every function only adds messages, by unfolding; the theorems on writing (C24), on the tools (C45-C47, C67, C68) and on pipes (C85) combine.
  Theorems: `C86_iffpp`, `C86_iffpp_stops`, `C86_iffpp_speaks`, `C86_iffjoin_speaks`, `C86_iffjoin_output`, `C86_iffjoin_reader`, `C86_pipe_or_file`, `C86_pipeline`, `C86_full_device_refuted`.
- **C87 The printed text follows a fixed layout** — `LayoutSpec.v` describes the lines of a tree as an inductive relation, with its own definitions of decimal and hexadecimal numbers; mutual induction over it shows that the model's printer gives those lines; existence by induction over the tree, uniqueness by induction over the relation (`LayoutProofs.v`).
  Theorems: `C87_layout`, `C87_read`, `C87_iffpp`.
- **C88 Whether malloc(0) returns NULL only matters to empty chunks** — `ZeroSpec.v` gives the host whose malloc refuses requests for no bytes, and an inductive description of trees with an empty chunk. A relational induction over the reader (`ZeroProofs.v`) shows that trees without one come out of both hosts and that no other tree comes out of the second; C69 and C13 leave NULL with a report as the only other outcome.
  Theorems: `C88_others_unaffected`, `C88_empty_rejected`, `C88_files`, `C88_creating`, `C88_iffpp`, `C88_portable_refuted`.
- **C89 Standard streams that translate line ends** — `TextSpec.v` gives the two translations as functions on byte lists, between the program and the device. What they leave alone, and that one undoes the other, by induction on the bytes; the rest follows from C45 and C85. Two `_refuted` theorems show what happens otherwise.
  Theorems: `C89_output`, `C89_input`, `C89_pipe`, `C89_join_to_reader`, `C89_iffpp`, `C89_redirected_refuted`, `C89_stdin_refuted`.
- **C90 Programs that share memory do not disturb each other** — `SessionSpec.v` defines programs as lists of statements, two interpreters for them (on trees and in memory) and schedules. Simulation statement by statement, with an invariant that says which blocks belong to which variable; every statement only touches its program's blocks and new ones, so the invariants of the others survive (`SessionProofs.v`); induction on the schedule. Searches need a version on trees that counts the allocations of the result arrays; it finds what `Search.v` says, and the search in memory agrees with it (`SessionSearchProofs.v`). Releasing must not assume that the structs fit the registry, since a program may move them between forms: `HeapFreeProofs.v` proves that releasing any tree in memory ends as it does on the tree, or takes a struct for one of another type in both.
  Theorems: `C90_program`, `C90_schedules`, `C90_alone`, `C90_order`, `C90_searches`.
- **C91 Where the allocator puts blocks makes no difference** — The platform has a function `place` that says where the allocator would like to put the next block; `Heap.v` follows it if nothing is there and appends otherwise, so every layout of every allocator that does not overlap live blocks occurs. All heap theorems (C50-C54, C61-C66, C78, C82, C90) quantify over it. C91 relates two runs through the run on trees (C90), which does not depend on it (`HostProofs.v`).
  Theorems: `C91_allocation`, `C91_programs`, `C91_schedules`.
- **C92 Threads may be inside the library at the same time** — `ThreadSpec.v` has a type of tasks (sequences of accesses to single blocks) and a machine in which threads share a memory and a schedule says whose access comes next. `ThreadStepProofs.v` shows that every call of the memory model, and so every program of C90, can be taken apart into such accesses; the theorems hold for every way to do so. The proof (`ThreadProofs.v`) gives every thread a private view of memory in which it runs alone: since the run alone meets no undefined behaviour (C90), it accesses only blocks of its own view, and the views stay disjoint. Sequential consistency is assumed and justified by the absence of races (`C92_races`). The streams, the error log and the state that decides which allocations fail belong to each thread; the global error callback pointer is only read.
  Theorems: `C92_calls`, `C92_threads`, `C92_races`, `C92_ends`.
- **C93 Several threads may look at the same trees at the same time** — The threads of C92, of which some begin with the variables of a program that has run before. `ThreadReadProofs.v` shows that the calls that only look (writing, checking, printing, comparing, all searches) can be taken apart into accesses none of which writes or releases a block that was there before (`C93_calls`): most of them write nothing at all, and the searches write only the array of results, which is new. The proof of C92 then goes through with views that have the shared blocks in common. That an onlooker must not change shared trees is a hypothesis on its program (`looks`), not on its schedule; `C93_changing_refuted` runs a schedule in which IFF_free of one thread comes between the accesses of IFF_print of another.
  Theorems: `C93_calls`, `C93_threads`, `C93_races`, `C93_ends`, `C93_changing_refuted`.
- **C94 Calls take work in proportion to what they are given: bytes read, blocks released, chunks looked at** — `TimeSpec.v` counts, on the calls taken apart of C92, every access to a block and every call into the C library with the bytes it reads and the messages it gives. `TimeProofs.v` shows with a potential (11 for every unread byte, 7 for every block in memory) that a read pays for what it does, and with a second potential (the sum of the squares of the lengths of all arrays) that realloc has to copy a quadratic number of pointers (`C94_copying_refuted`). `TimePassProofs.v` does the same, without a potential, for the calls that only look at a tree: what they do is charged to the chunks. `PropTimeRun.v` puts the calls of iffpp's IFF_prettyPrint together (from the opened stream on): what the read leaves of the potential pays for the release, and C12 bounds the chunks by the bytes. `TimeSearchProofs.v` and `PropTimeSearch.v` follow a search for FORMs over the tree, with the exact number of pointers copied as a function of the tree. `TimeUpdateProofs.v`, `TimeLookupProofs.v` and `PropTimeUpdate.v` follow the two calls that go up the tree, and charge what they do on each level to the chunks of that level. `TimeAddProofs.v` and `PropTimeAdd.v` count what adding to a group costs: a fixed number of accesses for each call, and exactly as many pointers copied as the group then has. That an access to one block moves many bytes does not count, nor do the calls of malloc's and stdio's own code.
  Theorems: `C94_reading`, `C94_copying_refuted`, `C94_releasing`, `C94_looking`, `C94_searching`, `C94_merging_refuted`, `C94_collecting`, `C94_updating`, `C94_looking_up`, `C94_whole_run`, `C94_adding`, `C94_building`, `C94_building_exact`.
- **C95 Threads that share one standard error lose no diagnostics; but their lines may be mixed** — `StderrSpec.v` adds to the threads of C92 the one standard error they print on: who printed what, in the order in which the accesses come. `StderrStepProofs.v` takes every call apart further, until an access makes at most one call of IFF_error (C92 keeps a whole message in one access); by induction over the schedule a thread's part of standard error is what its own log has grown by, which by C92 is what it prints alone. `C95_lines_refuted` runs two threads that take turns. That one vfprintf on stderr is not interrupted is POSIX's promise about stdio and is assumed.
  Theorems: `C95_calls`, `C95_stderr`, `C95_lines_refuted`.
- **C96 Saving over an existing file** — The files of the system model (`Iff.v`): fopen "wb" empties the file, fclose writes out what the buffer holds as far as there is room. The theorems carry C24 (what the device holds when it stops) over to files that were there before, and C45 to joins whose output is among their inputs. The refutations run IFF_writeFile and IFF_join on a device with room for 20 or 0 bytes. That the device orders emptying before writing is assumed.
  Theorems: `C96_nothing_remains`, `C96_what_is_left`, `C96_old_or_new_refuted`, `C96_join_over_input`, `C96_join_over_input_refuted`.
- **C97 How much text printing takes** — The lines of C87 (`LayoutSpec.v`) are counted: `TextSizeProofs.v` charges every line to the chunk it belongs to, by induction over the document, and shows by induction over the grammar (`Grammar.v`) that the headers, types and data of a tree that was read are among the bytes read. Decimal numbers of 32 bits take at most 11 characters. `C97_proportion_refuted` builds CATs nested in each other.
  Theorems: `C97_text`, `C97_any_tree`, `C97_iffpp`, `C97_proportion_refuted`.
- **C98 Several trees in one stream** — Programs that call IFF_writeFd, or IFF_readFd, n times on one stream, as loops over the modelled functions. The positive theorems are inductions over the list of trees with C21 and the completeness of the grammar. For the negative one the bytes from the second on are shown to be the beginning of the encoding of a data chunk larger than the file, so that C80 says what happens; `C98_wrong_tree_refuted` computes a case in which enough bytes follow.
  Theorems: `C98_written`, `C98_one_byte_between`, `C98_adjacent_refuted`, `C98_wrong_tree_refuted`.
- **C99 Damaged data stays where it is; damaged sizes do not** — `DamageSpec.v` marks the bytes of an encoding that are data, and says when two files agree elsewhere and when two trees are alike. By induction over the tree the damaged file is the encoding of a well-formed tree alike to the original (`DamageProofs.v`), which C14's grammar reads; alike trees conform alike (C26), and C33 tells them apart. `C99_size_refuted` computes a file with one wrong bit.
  Theorems: `C99_data`, `C99_afterwards`, `C99_size_refuted`.
- **C100 Editing a chunk changes the file there, and in the sizes of the groups around it, only** — `EditSpec.v` says what the edited tree is (`Edited`) and where its chunks and their sizes are in the file. `EditProofs.v` finds the edit in what C39 says about IFF_updateChunkSizes (a tree whose sizes are right is determined by the rest), and shows by induction over the path that the bytes agree, that the tree conforms, and that the edit can be undone. `C100_edit` runs the program in memory, on pointers (the statements of C90); `C100_add` and `C100_added_bytes` do the same for a program that adds a chunk to a FORM. `C100_without_update_refuted` computes a program that forgets the update. The old block of data is leaked, as C54 says.
  Theorems: `C100_bytes`, `C100_elsewhere`, `C100_undone`, `C100_edit`, `C100_read_back`, `C100_added_bytes`, `C100_add`, `C100_without_update_refuted`.
- **C101 Files can be taken apart and put together** — `EditSpec.v` says where a chunk is in the file (`position`) and what a piece of a file is (`slice`). The encoding of a member is a piece of the encoding of the group, by induction over the path (`EditProofs.v`); that a part is a tree of its own in memory is `path_split`, so C61 carries writing and checking over to it, and C65 says which pointers a search returns. `C101_join` and `C101_rejoin` rest on C45. `PropPartsExt.v` does the same for any registry of field-by-field chunk types; the chunk types of a part depend only on what is in the part. `C101_shared_refuted` and `C101_contents_type_refuted` compute what is lost.
  Theorems: `C101_part`, `C101_write`, `C101_search`, `C101_join`, `C101_rejoin`, `C101_lookup`, `C101_shared_refuted`, `C101_contents_type_refuted`, `C101_part_own_types`, `C101_write_own_types`, `C101_search_own_types`.
- **C102 Only the chunk types of the chunks that are there matter** — `AskedSpec.v` says which pairs of form type and chunk ID a tree makes the library ask for (`Asked`; a LIST's PROPs are also asked for with form type 0 when it is written). `AskedProofs.v`: for the calls on trees, structural induction; for reading, induction on the nesting and the loops, with the invariant that a group under construction only grows, so that every chunk that was read is in the result. Only successful reads are compared: a failed one returns no tree to speak of. `AskedHeapProofs.v` and `PropAskedHeap.v` say the same of trees in memory: through C61 for the calls that only look, and by an induction of its own for freeing; reading is compared for values only.
  Theorems: `C102_reading`, `C102_using`, `C102_other_form_types`, `C102_readme_round_trip`, `C102_in_memory`, `C102_readme_in_memory`.
- **C103 Programs that do not know an application's chunk types keep its documents intact** — `OpaqueSpec.v` says what a program without the types sees (`as_data`: the bytes of the fields in the place of the struct). Its encoding is the same by structural induction, and it is well formed and conforms without any application types if the original does with them; so C14, C16, C21 and C101 apply to both. The joined file is the encoding of a CAT of the original trees, because the type of a group does not depend on what it stands in.
  Theorems: `C103_reading`, `C103_passing_on`, `C103_join`, `C103_joined_reads`.

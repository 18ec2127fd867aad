{
 "claims": [
  {
   "property": "C01",
   "status": "proved",
   "theorems": [
    "C01_written_big_endian",
    "C01_read_big_endian",
    "C01_wire_bijective"
   ],
   "note": "Both directions and bijectivity of the wire form, all six primitive types, both byte orders. File(s): rocq/theories/PropIo.v."
  },
  {
   "property": "C02",
   "status": "proved",
   "theorems": [
    "C02_integer_round_trip"
   ],
   "note": "File(s): rocq/theories/PropIo.v."
  },
  {
   "property": "C03",
   "status": "proved",
   "theorems": [
    "C03_short_read_fails",
    "C03_full_read_succeeds"
   ],
   "note": "File(s): rocq/theories/PropIo.v."
  },
  {
   "property": "C04",
   "status": "proved",
   "theorems": [
    "C04_reading",
    "C04_writing",
    "C04_checking",
    "C04_comparing",
    "C04_iffpp",
    "C04_iffjoin"
   ],
   "note": "File(s): rocq/theories/PropHost.v."
  },
  {
   "property": "C05",
   "status": "proved",
   "theorems": [
    "C05_field_virtual_eof",
    "C05_small_chunk_refuted",
    "C05_small_chunk_overrun"
   ],
   "note": "Proved for chunks at least as large as the field; C05_small_chunk_refuted/_overrun show the wrap below that. File(s): rocq/theories/PropIo.v. Refutations: C05_small_chunk_refuted."
  },
  {
   "property": "C06",
   "status": "proved",
   "theorems": [
    "C06_checkId_exact"
   ],
   "note": "File(s): rocq/theories/PropId.v."
  },
  {
   "property": "C07",
   "status": "proved",
   "theorems": [
    "C07_checkFormType_exact"
   ],
   "note": "File(s): rocq/theories/PropId.v."
  },
  {
   "property": "C08",
   "status": "proved",
   "theorems": [
    "C08_idToString_faithful",
    "C08_text_determines_id",
    "C08_every_id_has_text"
   ],
   "note": "File(s): rocq/theories/PropId.v."
  },
  {
   "property": "C09",
   "status": "proved",
   "theorems": [
    "C09_lookup_follows_scoping",
    "C09_scoping_total"
   ],
   "note": "Binary search over sorted tables against an independent scoping relation. File(s): rocq/theories/PropRegistry.v."
  },
  {
   "property": "C10",
   "status": "proved",
   "theorems": [
    "C10_default_registry"
   ],
   "note": "File(s): rocq/theories/PropRegistry.v."
  },
  {
   "property": "C11",
   "status": "proved",
   "theorems": [
    "C11_extension_registry",
    "C11_null_parent_refuted"
   ],
   "note": "Proved for registries whose form nodes chain to the global table; refuted for the shipped example's NULL parent. File(s): rocq/theories/PropRegistry.v. Refutations: C11_null_parent_refuted."
  },
  {
   "property": "C12",
   "status": "proved",
   "theorems": [
    "C12_reading_terminates",
    "C12_bound_irrelevant",
    "C12_tree_bounded"
   ],
   "note": "All registries, hosts and inputs; the recursion bound is shown irrelevant; chunks bounded by input length / 8. File(s): rocq/theories/PropRead.v."
  },
  {
   "property": "C13",
   "status": "proved",
   "theorems": [
    "C13_no_undefined_behaviour",
    "C13_no_undefined_behaviour_extension",
    "C13_only_overflow_or_null",
    "C13_negative_sizes_refuted"
   ],
   "note": "Universal claim refuted by a 48-byte file; proved for inputs of at most INT_MAX bytes without negative group sizes, with memory; the only remaining undefined behaviours are characterised for all inputs. File(s): rocq/theories/PropRead.v. Refutations: C13_negative_sizes_refuted."
  },
  {
   "property": "C14",
   "status": "proved",
   "theorems": [
    "C14_read_is_exact",
    "C14_reader_decides_grammar",
    "C14_grammar_is_read"
   ],
   "note": "Default registry against the Stored relation of Spec.v; any well-scoped registry against Grammar.v, both directions. File(s): rocq/theories/PropRead.v."
  },
  {
   "property": "C15",
   "status": "proved",
   "theorems": [
    "C15_truncation_rejected"
   ],
   "note": "Every strict prefix of the consumed bytes, any starting state. File(s): rocq/theories/PropRead.v."
  },
  {
   "property": "C16",
   "status": "proved",
   "theorems": [
    "C16_write_then_read",
    "C16_write_file_then_read"
   ],
   "note": "Stream level and file level, any pair of usual hosts, any well-scoped registry, any trailing bytes. File(s): rocq/theories/PropWrite.v."
  },
  {
   "property": "C17",
   "status": "proved",
   "theorems": [
    "C17_canonical_reproduced",
    "C17_silent_read_reproduced",
    "C17_canonical_files",
    "C17_nonzero_pad_refuted",
    "C17_prop_order_refuted"
   ],
   "note": "Canonical files are described without trees; a second theorem states the condition by the reader's silence. Refuted without canonicity. File(s): rocq/theories/PropWrite.v. Refutations: C17_nonzero_pad_refuted, C17_prop_order_refuted."
  },
  {
   "property": "C18",
   "status": "proved",
   "theorems": [
    "C18_trailing_data_ignored"
   ],
   "note": "File(s): rocq/theories/PropRead.v."
  },
  {
   "property": "C19",
   "status": "proved",
   "theorems": [
    "C19_failures_reported"
   ],
   "note": "File(s): rocq/theories/PropRead.v."
  },
  {
   "property": "C20",
   "status": "proved",
   "theorems": [
    "C20_all_data_from_input"
   ],
   "note": "File(s): rocq/theories/PropRead.v."
  },
  {
   "property": "C21",
   "status": "proved",
   "theorems": [
    "C21_written_is_the_encoding",
    "C21_writing_succeeds"
   ],
   "note": "File(s): rocq/theories/PropWrite.v."
  },
  {
   "property": "C22",
   "status": "proved",
   "theorems": [
    "C22_word_aligned",
    "C22_members_aligned"
   ],
   "note": "File(s): rocq/theories/PropWrite.v."
  },
  {
   "property": "C23",
   "status": "proved",
   "theorems": [
    "C23_true_means_complete",
    "C23_false_means_reported",
    "C23_false_only_when_full",
    "C23_write_file_refuted",
    "C23_write_file_complete"
   ],
   "note": "IFF_writeFd: proved (failure reporting for every tree, registry and host). IFF_writeFile: refuted, because fclose's result is ignored. File(s): rocq/theories/PropWrite.v. Refutations: C23_write_file_refuted."
  },
  {
   "property": "C24",
   "status": "proved",
   "theorems": [
    "C24_device_holds_a_prefix",
    "C24_no_wrong_tree"
   ],
   "note": "Any buffer size, device capacity and cut point. File(s): rocq/theories/PropWrite.v."
  },
  {
   "property": "C25",
   "status": "proved",
   "theorems": [
    "C25_sizes_not_checked",
    "C25_too_large_is_filled",
    "C25_too_small_overruns"
   ],
   "note": "File(s): rocq/theories/PropWrite.v."
  },
  {
   "property": "C26",
   "status": "proved",
   "theorems": [
    "C26_check_decides_conformance",
    "C26_wrapped_sizes_refuted"
   ],
   "note": "IFF_check returns true exactly on conforming trees (Conforms in Spec.v) whose encoded size fits an int; refuted when sizes wrap. File(s): rocq/theories/PropCheck.v. Refutations: C26_wrapped_sizes_refuted."
  },
  {
   "property": "C27",
   "status": "proved",
   "theorems": [
    "C27_checked_trees_survive"
   ],
   "note": "File(s): rocq/theories/PropCheck.v."
  },
  {
   "property": "C28",
   "status": "proved",
   "theorems": [
    "C28_false_iff_reported"
   ],
   "note": "File(s): rocq/theories/PropCheck.v."
  },
  {
   "property": "C29",
   "status": "proved",
   "theorems": [
    "C29_other_roots_rejected"
   ],
   "note": "File(s): rocq/theories/PropCheck.v."
  },
  {
   "property": "C30",
   "status": "proved",
   "theorems": [
    "C30_built_trees_pass",
    "C30_additions_succeed"
   ],
   "note": "Built is an inductive relation over API construction sequences; trees above INT_MAX excluded (see C42). File(s): rocq/theories/PropCheck.v."
  },
  {
   "property": "C31",
   "status": "proved",
   "theorems": [
    "C31_duplicate_props_refuted",
    "C31_reserved_ids_refuted",
    "C31_punctuation_refuted",
    "C31_filler_refuted",
    "C31_prop_for_list_refuted"
   ],
   "note": "Refutations on every host: duplicate PROPs, reserved IDs, punctuation, filler chunks, PROP for LIST. File(s): rocq/theories/PropCheck.v. Refutations: C31_duplicate_props_refuted, C31_reserved_ids_refuted, C31_punctuation_refuted, C31_filler_refuted, C31_prop_for_list_refuted."
  },
  {
   "property": "C32",
   "status": "proved",
   "theorems": [
    "C32_always_answers",
    "C32_reflexive",
    "C32_symmetric",
    "C32_transitive"
   ],
   "note": "File(s): rocq/theories/PropCompare.v."
  },
  {
   "property": "C33",
   "status": "proved",
   "theorems": [
    "C33_true_means_identical",
    "C33_checked_trees",
    "C33_prop_header_refuted"
   ],
   "note": "True means identical for what the comparison can see and for checked trees; refuted for the header of a LIST's PROP. File(s): rocq/theories/PropCompare.v. Refutations: C33_prop_header_refuted."
  },
  {
   "property": "C34",
   "status": "proved",
   "theorems": [
    "C34_pads_do_not_matter"
   ],
   "note": "File(s): rocq/theories/PropRead.v."
  },
  {
   "property": "C35",
   "status": "proved",
   "theorems": [
    "C35_searchForms",
    "C35_searchForms_one"
   ],
   "note": "Independent specification by positions and document order; any number of form types. File(s): rocq/theories/PropSearch.v."
  },
  {
   "property": "C36",
   "status": "proved",
   "theorems": [
    "C36_first_match",
    "C36_last_setting_refuted"
   ],
   "note": "First match proved; C36_last_setting_refuted: the standard's later setting is ignored. File(s): rocq/theories/PropSearch.v. Refutations: C36_last_setting_refuted."
  },
  {
   "property": "C37",
   "status": "proved",
   "theorems": [
    "C37_all_matches"
   ],
   "note": "File(s): rocq/theories/PropSearch.v."
  },
  {
   "property": "C38",
   "status": "proved",
   "theorems": [
    "C38_shared_properties"
   ],
   "note": "The enclosing groups are given as a list, innermost first, where the C code follows parent pointers (C52 ties the two together). File(s): rocq/theories/PropSearch.v."
  },
  {
   "property": "C39",
   "status": "proved",
   "theorems": [
    "C39_path_repaired",
    "C39_replacement"
   ],
   "note": "Any depth and any path; the standard hypothesis is that the total fits an int (see C42). File(s): rocq/theories/PropBuild.v."
  },
  {
   "property": "C40",
   "status": "proved",
   "theorems": [
    "C40_right_sizes_kept",
    "C40_valid_trees_kept",
    "C40_idempotent"
   ],
   "note": "File(s): rocq/theories/PropBuild.v."
  },
  {
   "property": "C41",
   "status": "proved",
   "theorems": [
    "C41_addToGroup",
    "C41_addPropToList",
    "C41_succeeds"
   ],
   "note": "File(s): rocq/theories/PropBuild.v."
  },
  {
   "property": "C42",
   "status": "proved",
   "theorems": [
    "C42_exact_iff_fits",
    "C42_overflow_refuted",
    "C42_undefined_refuted"
   ],
   "note": "Exact bound and result beyond it, with two refutations on every usual host. File(s): rocq/theories/PropBuild.v. Refutations: C42_overflow_refuted, C42_undefined_refuted."
  },
  {
   "property": "C43",
   "status": "proved",
   "theorems": [
    "C43_contents_type",
    "C43_data_first_refuted"
   ],
   "note": "Any number of additions; refuted when a data chunk is added first. File(s): rocq/theories/PropBuild.v. Refutations: C43_data_first_refuted."
  },
  {
   "property": "C44",
   "status": "proved",
   "theorems": [
    "C44_output_valid"
   ],
   "note": "File(s): rocq/theories/PropTools.v."
  },
  {
   "property": "C45",
   "status": "proved",
   "theorems": [
    "C45_members_in_order",
    "C45_succeeds",
    "C45_standard_output",
    "C45_standard_output_refuted",
    "C45_bytes"
   ],
   "note": "File(s): rocq/theories/PropJoined.v, rocq/theories/PropTools.v. Refutations: C45_standard_output_refuted."
  },
  {
   "property": "C46",
   "status": "proved",
   "theorems": [
    "C46_nothing_written",
    "C46_failure_reasons",
    "C46_defined"
   ],
   "note": "File(s): rocq/theories/PropTools.v."
  },
  {
   "property": "C47",
   "status": "proved",
   "theorems": [
    "C47_exit_status"
   ],
   "note": "File(s): rocq/theories/PropTools.v."
  },
  {
   "property": "C48",
   "status": "proved",
   "theorems": [
    "C48_text_determines_tree",
    "C48_read_trees",
    "C48_text_verbatim",
    "C48_hex_dump"
   ],
   "note": "File(s): rocq/theories/PropPrint.v."
  },
  {
   "property": "C49",
   "status": "proved",
   "theorems": [
    "C49_printing_total",
    "C49_printing_total_default"
   ],
   "note": "File(s): rocq/theories/PropPrint.v."
  },
  {
   "property": "C50",
   "status": "proved",
   "theorems": [
    "C50_read_refines",
    "C50_read_free",
    "C50_free_exact",
    "C50_read_keeps"
   ],
   "note": "Heap model with pointers; for all heaps, registries and inputs; refinement to the tree model included. File(s): rocq/theories/PropHeap.v."
  },
  {
   "property": "C51",
   "status": "proved",
   "theorems": [
    "C51_failed_read"
   ],
   "note": "File(s): rocq/theories/PropHeap.v."
  },
  {
   "property": "C52",
   "status": "proved",
   "theorems": [
    "C52_parents",
    "C52_one_parent"
   ],
   "note": "File(s): rocq/theories/PropHeap.v."
  },
  {
   "property": "C53",
   "status": "proved",
   "theorems": [
    "C53_shared_member",
    "C53_add_twice",
    "C53_twice_in_one_group",
    "C53_share_refuted"
   ],
   "note": "Every heap in which two groups share a member; adding twice makes such a heap; a concrete client. File(s): rocq/theories/PropHeap.v. Refutations: C53_share_refuted."
  },
  {
   "property": "C54",
   "status": "proved",
   "theorems": [
    "C54_old_data_leaks",
    "C54_text_leaks",
    "C54_join_exact",
    "C54_join_leak_refuted"
   ],
   "note": "iffjoin: exact description of what is left for every list of inputs, and a leaking run; raw setters: every call on a chunk with a data block leaks it. File(s): rocq/theories/PropHeap.v, rocq/theories/PropHeapTools.v. Refutations: C54_join_leak_refuted."
  },
  {
   "property": "C55",
   "status": "proved",
   "theorems": [
    "C55_read_versions",
    "C55_write_versions",
    "C55_rewritten",
    "C55_wide_field_refuted"
   ],
   "note": "File(s): rocq/theories/PropFields.v. Refutations: C55_wide_field_refuted."
  },
  {
   "property": "C56",
   "status": "proved",
   "theorems": [
    "C56_truncation_rejected_unseekable",
    "C56_seek_past_end_refuted"
   ],
   "note": "Refuted on seekable streams, proved on unseekable ones. File(s): rocq/theories/PropRead.v. Refutations: C56_seek_past_end_refuted."
  },
  {
   "property": "C57",
   "status": "proved",
   "theorems": [
    "C57_create_failure_is_null",
    "C57_array_failure_refuted"
   ],
   "note": "Creation failures proved clean; growing an array refuted. File(s): rocq/theories/PropRead.v. Refutations: C57_array_failure_refuted."
  },
  {
   "property": "C58",
   "status": "proved",
   "theorems": [
    "C58_only_these_violations",
    "C58_read_long_refuted",
    "C58_write_long_refuted",
    "C58_other_primitives",
    "C58_write_128_refuted",
    "C58_truncated_warning_refuted",
    "C58_skip_refuted",
    "C58_filler_refuted"
   ],
   "note": "File(s): rocq/theories/PropStrict.v. Refutations: C58_read_long_refuted, C58_write_long_refuted, C58_write_128_refuted, C58_truncated_warning_refuted, C58_skip_refuted, C58_filler_refuted."
  },
  {
   "property": "C59",
   "status": "proved",
   "theorems": [
    "C59_read_trees_are_stable",
    "C59_saved_file",
    "C59_tidying_is_a_function",
    "C59_canonical_kept",
    "C59_unchanged_iff_canonical"
   ],
   "note": "File(s): rocq/theories/PropCheck.v, rocq/theories/PropTidy.v."
  },
  {
   "property": "C60",
   "status": "proved",
   "theorems": [
    "C60_serialisation_unambiguous"
   ],
   "note": "File(s): rocq/theories/PropRead.v."
  },
  {
   "property": "C61",
   "status": "proved",
   "theorems": [
    "C61_writing_only_looks",
    "C61_checking_only_looks",
    "C61_printing_only_looks",
    "C61_comparing_only_looks",
    "C61_place_independent",
    "C61_write_refines",
    "C61_check_refines",
    "C61_print_refines",
    "C61_compare_refines"
   ],
   "note": "Only-looks theorems hold for arbitrary heaps, also ones that hold no valid chunk. File(s): rocq/theories/PropHeapTools.v."
  },
  {
   "property": "C62",
   "status": "proved",
   "theorems": [
    "C62_iffpp_releases_all",
    "C62_iffpp_refines",
    "C62_iffjoin_refines",
    "C62_iffjoin_success"
   ],
   "note": "File(s): rocq/theories/PropHeapTools.v."
  },
  {
   "property": "C63",
   "status": "proved",
   "theorems": [
    "C63_refines",
    "C63_only_sizes",
    "C63_cycle_never_returns",
    "C63_self_member_refuted"
   ],
   "note": "File(s): rocq/theories/PropHeapSearch.v. Refutations: C63_self_member_refuted."
  },
  {
   "property": "C64",
   "status": "proved",
   "theorems": [
    "C64_getChunk",
    "C64_refines",
    "C64_getChunks"
   ],
   "note": "File(s): rocq/theories/PropHeapSearch.v."
  },
  {
   "property": "C65",
   "status": "proved",
   "theorems": [
    "C65_search",
    "C65_leak_exact",
    "C65_no_leak_refuted"
   ],
   "note": "File(s): rocq/theories/PropHeapSearch.v. Refutations: C65_no_leak_refuted."
  },
  {
   "property": "C66",
   "status": "proved",
   "theorems": [
    "C66_safe",
    "C66_always_returns",
    "C66_accounts",
    "C66_parents",
    "C66_trees",
    "C66_clean",
    "C66_can_finish"
   ],
   "note": "File(s): rocq/theories/PropHeapClient.v."
  },
  {
   "property": "C67",
   "status": "proved",
   "theorems": [
    "C67_line",
    "C67_stops",
    "C67_every_line",
    "C67_msvc_options_first",
    "C67_msvc_option_last_refuted",
    "C67_msvc_stops",
    "C67_help_lists_the_options",
    "C67_version_shows_the_version",
    "C67_help_lists_the_options_refuted"
   ],
   "note": "File(s): rocq/theories/PropMain.v. Refutations: C67_msvc_option_last_refuted, C67_help_lists_the_options_refuted."
  },
  {
   "property": "C68",
   "status": "proved",
   "theorems": [
    "C68_line",
    "C68_joins",
    "C68_no_inputs",
    "C68_stops",
    "C68_every_line",
    "C68_msvc_no_options",
    "C68_msvc_output_refuted",
    "C68_msvc_stops",
    "C68_help_lists_the_options",
    "C68_help_lists_the_options_refuted",
    "C68_no_memory_refuted"
   ],
   "note": "File(s): rocq/theories/PropMain.v. Refutations: C68_msvc_output_refuted, C68_help_lists_the_options_refuted, C68_no_memory_refuted."
  },
  {
   "property": "C69",
   "status": "proved",
   "theorems": [
    "C69_reading",
    "C69_no_other_tree",
    "C69_checking",
    "C69_writing",
    "C69_writing_exact",
    "C69_building",
    "C69_iffjoin",
    "C69_iffpp",
    "C69_filler_refuted"
   ],
   "note": "File(s): rocq/theories/PropMemory.v. Refutations: C69_filler_refuted."
  },
  {
   "property": "C70",
   "status": "proved",
   "theorems": [
    "C70_stack_for_any_input",
    "C70_reading_needs_the_nesting",
    "C70_operations_need_at_most_the_nesting",
    "C70_same_or_overflow",
    "C70_free_and_print_need_the_nesting",
    "C70_fixed_stack_refuted"
   ],
   "note": "File(s): rocq/theories/PropStack.v. Refutations: C70_fixed_stack_refuted."
  },
  {
   "property": "C71",
   "status": "proved",
   "theorems": [
    "C71_check",
    "C71_write",
    "C71_print",
    "C71_compare",
    "C71_free",
    "C71_client",
    "C71_client_compare",
    "C71_unfilled_refuted",
    "C71_enormous_refuted",
    "C71_hollow_refuted"
   ],
   "note": "File(s): rocq/theories/PropUse.v. Refutations: C71_unfilled_refuted, C71_enormous_refuted, C71_hollow_refuted."
  },
  {
   "property": "C72",
   "status": "proved",
   "theorems": [
    "C72_allocations",
    "C72_memory",
    "C72_memory_extensions",
    "C72_requests",
    "C72_requests_refuted"
   ],
   "note": "File(s): rocq/theories/PropAlloc.v. Refutations: C72_requests_refuted."
  },
  {
   "property": "C73",
   "status": "proved",
   "theorems": [
    "C73_reading",
    "C73_registries",
    "C73_field_lists",
    "C73_arrays",
    "C73_field_lists_exact"
   ],
   "note": "File(s): rocq/theories/PropExt.v."
  },
  {
   "property": "C74",
   "status": "proved",
   "theorems": [
    "C74_writing",
    "C74_write_then_read",
    "C74_field_lists_exact"
   ],
   "note": "File(s): rocq/theories/PropExt.v."
  },
  {
   "property": "C75",
   "status": "proved",
   "theorems": [
    "C75_checking",
    "C75_comparing",
    "C75_freeing",
    "C75_printing",
    "C75_read_trees",
    "C75_lawful",
    "C75_field_lists_exact",
    "C75_field_lists_free",
    "C75_tests_application"
   ],
   "note": "File(s): rocq/theories/PropExt.v, rocq/theories/PropTestApp.v."
  },
  {
   "property": "C76",
   "status": "proved",
   "theorems": [
    "C76_any_callbacks",
    "C76_only_overflow",
    "C76_registries",
    "C76_field_lists",
    "C76_arrays"
   ],
   "note": "File(s): rocq/theories/PropExtSafe.v."
  },
  {
   "property": "C77",
   "status": "proved",
   "theorems": [
    "C77_what_is_read",
    "C77_check",
    "C77_write",
    "C77_print",
    "C77_compare",
    "C77_free",
    "C77_field_lists",
    "C77_arrays"
   ],
   "note": "File(s): rocq/theories/PropExtSafe.v."
  },
  {
   "property": "C78",
   "status": "proved",
   "theorems": [
    "C78_safe",
    "C78_only_overflow",
    "C78_failed_read",
    "C78_read",
    "C78_free",
    "C78_read_then_free",
    "C78_two_trees",
    "C78_field_lists",
    "C78_arrays",
    "C78_agrees"
   ],
   "note": "File(s): rocq/theories/PropHeapExt.v."
  },
  {
   "property": "C79",
   "status": "proved",
   "theorems": [
    "C79_complaints_are_true",
    "C79_no_complaint_about_conforming_trees",
    "C79_faulty_iff_complaint"
   ],
   "note": "File(s): rocq/theories/PropDiag.v."
  },
  {
   "property": "C80",
   "status": "proved",
   "theorems": [
    "C80_truncation_located",
    "C80_one_diagnosis"
   ],
   "note": "File(s): rocq/theories/PropCut.v."
  },
  {
   "property": "C81",
   "status": "proved",
   "theorems": [
    "C81_parts_are_the_file",
    "C81_failed_write_located",
    "C81_one_part",
    "C81_success_is_silent"
   ],
   "note": "File(s): rocq/theories/PropPart.v."
  },
  {
   "property": "C82",
   "status": "proved",
   "theorems": [
    "C82_check",
    "C82_write",
    "C82_print",
    "C82_compare",
    "C82_programs",
    "C82_field_lists",
    "C82_arrays",
    "C82_agrees"
   ],
   "note": "File(s): rocq/theories/PropHeapExtPass.v."
  },
  {
   "property": "C83",
   "status": "proved",
   "theorems": [
    "C83_created",
    "C83_filled_as_grown",
    "C83_lists_with_properties"
   ],
   "note": "File(s): rocq/theories/PropCreate.v."
  },
  {
   "property": "C84",
   "status": "proved",
   "theorems": [
    "C84_read",
    "C84_stays",
    "C84_one_tree",
    "C84_write",
    "C84_check",
    "C84_print",
    "C84_compare",
    "C84_free",
    "C84_read_in_memory",
    "C84_written_from_memory",
    "C84_field_lists",
    "C84_registries",
    "C84_arrays"
   ],
   "note": "File(s): rocq/theories/PropHeapView.v."
  },
  {
   "property": "C85",
   "status": "proved",
   "theorems": [
    "C85_pipe_then_file",
    "C85_file_then_pipe",
    "C85_skipping_needs_a_file",
    "C85_default",
    "C85_iffpp",
    "C85_skipping_refuted"
   ],
   "note": "File(s): rocq/theories/PropPipe.v. Refutations: C85_skipping_refuted."
  },
  {
   "property": "C86",
   "status": "proved",
   "theorems": [
    "C86_iffpp",
    "C86_iffpp_stops",
    "C86_iffpp_speaks",
    "C86_iffjoin_speaks",
    "C86_iffjoin_output",
    "C86_iffjoin_reader",
    "C86_pipe_or_file",
    "C86_pipeline",
    "C86_full_device_refuted"
   ],
   "note": "File(s): rocq/theories/PropProcess.v. Refutations: C86_full_device_refuted."
  },
  {
   "property": "C87",
   "status": "proved",
   "theorems": [
    "C87_layout",
    "C87_read",
    "C87_iffpp"
   ],
   "note": "File(s): rocq/theories/PropLayout.v."
  },
  {
   "property": "C88",
   "status": "proved",
   "theorems": [
    "C88_others_unaffected",
    "C88_empty_rejected",
    "C88_files",
    "C88_creating",
    "C88_iffpp",
    "C88_portable_refuted"
   ],
   "note": "File(s): rocq/theories/PropZero.v. Refutations: C88_portable_refuted."
  },
  {
   "property": "C89",
   "status": "proved",
   "theorems": [
    "C89_output",
    "C89_input",
    "C89_pipe",
    "C89_join_to_reader",
    "C89_iffpp",
    "C89_redirected_refuted",
    "C89_stdin_refuted"
   ],
   "note": "File(s): rocq/theories/PropText.v. Refutations: C89_redirected_refuted, C89_stdin_refuted."
  },
  {
   "property": "C90",
   "status": "proved",
   "theorems": [
    "C90_program",
    "C90_schedules",
    "C90_alone",
    "C90_order",
    "C90_searches"
   ],
   "note": "File(s): rocq/theories/PropSession.v."
  },
  {
   "property": "C91",
   "status": "proved",
   "theorems": [
    "C91_allocation",
    "C91_programs",
    "C91_schedules"
   ],
   "note": "File(s): rocq/theories/PropPlaces.v."
  },
  {
   "property": "C92",
   "status": "proved",
   "theorems": [
    "C92_calls",
    "C92_threads",
    "C92_races",
    "C92_ends"
   ],
   "note": "File(s): rocq/theories/PropThreads.v."
  },
  {
   "property": "C93",
   "status": "proved",
   "theorems": [
    "C93_calls",
    "C93_threads",
    "C93_races",
    "C93_ends",
    "C93_changing_refuted"
   ],
   "note": "File(s): rocq/theories/PropReaders.v. Refutations: C93_changing_refuted."
  },
  {
   "property": "C94",
   "status": "proved",
   "theorems": [
    "C94_reading",
    "C94_copying_refuted",
    "C94_releasing",
    "C94_looking",
    "C94_searching",
    "C94_merging_refuted",
    "C94_collecting",
    "C94_updating",
    "C94_looking_up",
    "C94_whole_run",
    "C94_adding",
    "C94_building",
    "C94_building_exact"
   ],
   "note": "File(s): rocq/theories/PropTime.v, rocq/theories/PropTimeAdd.v, rocq/theories/PropTimeRun.v, rocq/theories/PropTimeSearch.v, rocq/theories/PropTimeUpdate.v. Refutations: C94_copying_refuted, C94_merging_refuted."
  },
  {
   "property": "C95",
   "status": "proved",
   "theorems": [
    "C95_calls",
    "C95_stderr",
    "C95_lines_refuted"
   ],
   "note": "File(s): rocq/theories/PropStderr.v. Refutations: C95_lines_refuted."
  },
  {
   "property": "C96",
   "status": "proved",
   "theorems": [
    "C96_nothing_remains",
    "C96_what_is_left",
    "C96_old_or_new_refuted",
    "C96_join_over_input",
    "C96_join_over_input_refuted"
   ],
   "note": "File(s): rocq/theories/PropSave.v. Refutations: C96_old_or_new_refuted, C96_join_over_input_refuted."
  },
  {
   "property": "C97",
   "status": "proved",
   "theorems": [
    "C97_text",
    "C97_any_tree",
    "C97_iffpp",
    "C97_proportion_refuted"
   ],
   "note": "File(s): rocq/theories/PropTextSize.v. Refutations: C97_proportion_refuted."
  },
  {
   "property": "C98",
   "status": "proved",
   "theorems": [
    "C98_written",
    "C98_one_byte_between",
    "C98_adjacent_refuted",
    "C98_wrong_tree_refuted"
   ],
   "note": "File(s): rocq/theories/PropSeries.v. Refutations: C98_adjacent_refuted, C98_wrong_tree_refuted."
  },
  {
   "property": "C99",
   "status": "proved",
   "theorems": [
    "C99_data",
    "C99_afterwards",
    "C99_size_refuted"
   ],
   "note": "File(s): rocq/theories/PropDamage.v. Refutations: C99_size_refuted."
  },
  {
   "property": "C100",
   "status": "proved",
   "theorems": [
    "C100_bytes",
    "C100_elsewhere",
    "C100_undone",
    "C100_edit",
    "C100_read_back",
    "C100_added_bytes",
    "C100_add",
    "C100_without_update_refuted"
   ],
   "note": "File(s): rocq/theories/PropEdit.v. Refutations: C100_without_update_refuted."
  },
  {
   "property": "C101",
   "status": "proved",
   "theorems": [
    "C101_part",
    "C101_write",
    "C101_search",
    "C101_join",
    "C101_rejoin",
    "C101_lookup",
    "C101_shared_refuted",
    "C101_contents_type_refuted",
    "C101_part_own_types",
    "C101_write_own_types",
    "C101_search_own_types"
   ],
   "note": "File(s): rocq/theories/PropParts.v, rocq/theories/PropPartsExt.v. Refutations: C101_shared_refuted, C101_contents_type_refuted."
  },
  {
   "property": "C102",
   "status": "proved",
   "theorems": [
    "C102_reading",
    "C102_using",
    "C102_other_form_types",
    "C102_readme_round_trip",
    "C102_in_memory",
    "C102_readme_in_memory"
   ],
   "note": "File(s): rocq/theories/PropAsked.v, rocq/theories/PropAskedHeap.v."
  },
  {
   "property": "C103",
   "status": "proved",
   "theorems": [
    "C103_reading",
    "C103_passing_on",
    "C103_join",
    "C103_joined_reads"
   ],
   "note": "File(s): rocq/theories/PropOpaque.v."
  }
 ]
}
{
 "claims": [
  {
   "property": "C01",
   "status": "proved",
   "theorems": [
    "C01_fixed32_roundtrip",
    "C01_fixed64_roundtrip",
    "C01_fixed32_converse",
    "C01_fixed64_converse"
   ],
   "note": ""
  },
  {
   "property": "C02",
   "status": "proved",
   "theorems": [
    "C02_varint32_roundtrip",
    "C02_varint64_roundtrip"
   ],
   "note": ""
  },
  {
   "property": "C03",
   "status": "proved",
   "theorems": [
    "C03_varint32_canonical",
    "C03_varint64_canonical"
   ],
   "note": ""
  },
  {
   "property": "C04",
   "status": "proved",
   "theorems": [
    "C04_varint32_decode",
    "C04_varint64_decode"
   ],
   "note": ""
  },
  {
   "property": "C05",
   "status": "proved",
   "theorems": [
    "C05_varint_failure_unchanged",
    "C05_varint64_failure_unchanged",
    "C05_truncated_rejected"
   ],
   "note": ""
  },
  {
   "property": "C06",
   "status": "proved",
   "theorems": [
    "C06_length_prefixed_roundtrip",
    "C06_length_prefixed_4GiB_refuted"
   ],
   "note": "The _refuted theorem proves that every string of 2^32 bytes or more fails to read back."
  },
  {
   "property": "C07",
   "status": "proved",
   "theorems": [
    "C07_length_prefixed_decode",
    "C07_pointer_overload",
    "C07_pointer_overload_refuted"
   ],
   "note": "Slice overload for every input; the pointer overload is proved equal to it when limit+2^32 does not wrap; the _refuted theorem is a concrete wrapping input."
  },
  {
   "property": "C08",
   "status": "proved",
   "theorems": [
    "C08_record_roundtrip",
    "C08_record_prefix_free"
   ],
   "note": ""
  },
  {
   "property": "C09",
   "status": "proved",
   "theorems": [
    "C09_compare_is_lexicographic",
    "C09_compare_total_order",
    "C09_equality"
   ],
   "note": ""
  },
  {
   "property": "C10",
   "status": "proved",
   "theorems": [
    "C10_starts_with",
    "C10_remove_prefix",
    "C10_remove_prefix_checked",
    "C10_index",
    "C10_views"
   ],
   "note": ""
  },
  {
   "property": "C11",
   "status": "proved",
   "theorems": [
    "C11_hash_formula",
    "C11_hash_depends_on_bytes_only"
   ],
   "note": ""
  },
  {
   "property": "C12",
   "status": "proved",
   "theorems": [
    "C12_hash_bijective_in_seed",
    "C12_hash_injective_in_word",
    "C12_hash_surjective_in_word"
   ],
   "note": ""
  },
  {
   "property": "C13",
   "status": "proved",
   "theorems": [
    "C13_number_roundtrip"
   ],
   "note": ""
  },
  {
   "property": "C14",
   "status": "proved",
   "theorems": [
    "C14_parse_exact",
    "C14_cases_exhaustive"
   ],
   "note": ""
  },
  {
   "property": "C15",
   "status": "proved",
   "theorems": [
    "C15_escape",
    "C15_escape_concat",
    "C15_escape_injective_without_backslash",
    "C15_escape_injective_refuted"
   ],
   "note": "The _refuted theorem gives two different strings with the same escape."
  },
  {
   "property": "C16",
   "status": "proved",
   "theorems": [
    "C16_next_recurrence",
    "C16_uniform",
    "C16_skewed"
   ],
   "note": ""
  },
  {
   "property": "C17",
   "status": "proved",
   "theorems": [
    "C17_full_period"
   ],
   "note": ""
  },
  {
   "property": "C18",
   "status": "proved",
   "theorems": [
    "C18_error_status",
    "C18_ok_status",
    "C18_huge_message_refuted",
    "C18_truncation_refuted"
   ],
   "note": "The _refuted theorems cover messages of 2^32-5..2^32-1 bytes (undefined behaviour) and of exactly 2^32 bytes (message lost)."
  },
  {
   "property": "C19",
   "status": "proved",
   "theorems": [
    "C19_value_semantics",
    "C19_no_leak"
   ],
   "note": ""
  },
  {
   "property": "C20",
   "status": "proved",
   "theorems": [
    "C20_regions_disjoint_and_live",
    "C20_aligned_overflow_refuted"
   ],
   "note": "The _refuted theorem: AllocateAligned of a size within 7 of 2^64 returns a region that is not there."
  },
  {
   "property": "C21",
   "status": "proved",
   "theorems": [
    "C21_aligned"
   ],
   "note": ""
  },
  {
   "property": "C22",
   "status": "proved",
   "theorems": [
    "C22_memory_usage",
    "C22_usage_monotone"
   ],
   "note": ""
  },
  {
   "property": "C23",
   "status": "proved",
   "theorems": [
    "C23_destroy_frees_all",
    "C23_waste_bounded"
   ],
   "note": ""
  },
  {
   "property": "C24",
   "status": "proved",
   "theorems": [
    "C24_contains_iff_inserted",
    "C24_contains_iff_inserted_random",
    "C24_duplicate_insert_aborts"
   ],
   "note": ""
  },
  {
   "property": "C25",
   "status": "proved",
   "theorems": [
    "C25_iteration_in_order",
    "C25_iteration_in_order_random"
   ],
   "note": ""
  },
  {
   "property": "C26",
   "status": "proved",
   "theorems": [
    "C26_seek",
    "C26_seek_random"
   ],
   "note": ""
  },
  {
   "property": "C27",
   "status": "proved",
   "theorems": [
    "C27_height_range",
    "C27_height_law",
    "C27_assertions_on_refuted",
    "C27_insert_completes"
   ],
   "note": "C27_assertions_on_refuted: with assertions on, every Insert of a fresh key into every reachable list aborts at skiplist.h:249; C27_insert_completes: with that assertion off (and the others on or off) none does."
  },
  {
   "property": "C28",
   "status": "proved",
   "theorems": [
    "C28_readers_safe_and_terminate"
   ],
   "note": ""
  },
  {
   "property": "C29",
   "status": "proved",
   "theorems": [
    "C29_concurrent_contains"
   ],
   "note": ""
  },
  {
   "property": "C30",
   "status": "proved",
   "theorems": [
    "C30_concurrent_iteration"
   ],
   "note": ""
  },
  {
   "property": "C31",
   "status": "proved",
   "theorems": [
    "C31_lookup_returns_last_insert",
    "C31_cached_entry_is_found"
   ],
   "note": ""
  },
  {
   "property": "C32",
   "status": "proved",
   "theorems": [
    "C32_deleter_at_most_once",
    "C32_deleter_call_is_right",
    "C32_deleter_not_late",
    "C32_release_deletes"
   ],
   "note": ""
  },
  {
   "property": "C33",
   "status": "proved",
   "theorems": [
    "C33_new_cache_ok",
    "C33_no_undefined_behaviour",
    "C33_held_handle_readable",
    "C33_held_handle_stable"
   ],
   "note": ""
  },
  {
   "property": "C34",
   "status": "proved",
   "theorems": [
    "C34_total_charge"
   ],
   "note": ""
  },
  {
   "property": "C35",
   "status": "proved",
   "theorems": [
    "C35_capacity_enforced_at_insert",
    "C35_insert_is_cached_and_held",
    "C35_capacity_when_charges_overflow_refuted"
   ],
   "note": ""
  },
  {
   "property": "C36",
   "status": "proved",
   "theorems": [
    "C36_eviction_is_lru_and_minimal",
    "C36_insert_adds_only_itself"
   ],
   "note": ""
  },
  {
   "property": "C37",
   "status": "proved",
   "theorems": [
    "C37_prune_keeps_exactly_the_held",
    "C37_erase_removes_exactly_the_key",
    "C37_other_calls_change_nothing"
   ],
   "note": ""
  },
  {
   "property": "C38",
   "status": "proved",
   "theorems": [
    "C38_capacity_zero_is_off"
   ],
   "note": ""
  },
  {
   "property": "C39",
   "status": "proved",
   "theorems": [
    "C39_total_capacity",
    "C39_huge_capacity_refuted"
   ],
   "note": "The _refuted theorem: capacities above 2^64-16 give capacity 0."
  },
  {
   "property": "C40",
   "status": "proved",
   "theorems": [
    "C40_new_ids_are_1_to_m_each_once",
    "C40_no_data_race",
    "C40_new_id_in_a_history"
   ],
   "note": ""
  },
  {
   "property": "C41",
   "status": "proved",
   "theorems": [
    "C41_destructor_deletes_the_rest"
   ],
   "note": ""
  },
  {
   "property": "C42",
   "status": "proved",
   "theorems": [
    "C42_interleavings_are_sequential_histories",
    "C42_no_deadlock_no_undefined_behaviour",
    "C42_prune_step",
    "C42_total_charge_step",
    "C42_prune_is_not_atomic_refuted",
    "C42_total_charge_is_not_atomic_refuted"
   ],
   "note": "The two _refuted theorems show that Prune and TotalCharge, which lock one shard after the other, do not take effect at one instant."
  },
  {
   "property": "C43",
   "status": "proved",
   "theorems": [
    "C43_random_read",
    "C43_sequential_read",
    "C43_sequential_stream",
    "C43_append"
   ],
   "note": ""
  },
  {
   "property": "C44",
   "status": "proved",
   "theorems": [
    "C44_every_legal_call_returns",
    "C44_reader_unaffected",
    "C44_writer_and_reader_share_the_file"
   ],
   "note": ""
  },
  {
   "property": "C45",
   "status": "proved",
   "theorems": [
    "C45_create_truncates_existing",
    "C45_create_new"
   ],
   "note": ""
  },
  {
   "property": "C46",
   "status": "proved",
   "theorems": [
    "C46_append_to_existing",
    "C46_new_file_refuted",
    "C46_destructor_refuted"
   ],
   "note": "Positive part for an existing file; the two _refuted theorems prove the null entry for every reachable environment and every missing file."
  },
  {
   "property": "C47",
   "status": "proved",
   "theorems": [
    "C47_rename_moves",
    "C47_rename_missing",
    "C47_rename_to_itself_refuted"
   ],
   "note": "The _refuted theorem proves, for every reachable environment, that renaming a file onto itself destroys it."
  },
  {
   "property": "C48",
   "status": "proved",
   "theorems": [
    "C48_get_children"
   ],
   "note": ""
  },
  {
   "property": "C49",
   "status": "proved",
   "theorems": [
    "C49_existing_file",
    "C49_missing_file"
   ],
   "note": ""
  },
  {
   "property": "C50",
   "status": "proved",
   "theorems": [
    "C50_memory_is_owned_with_threads",
    "C50_nothing_leaks_with_threads",
    "C50_memory_is_owned",
    "C50_nothing_leaks"
   ],
   "note": "For one caller and for any number of threads (when no call is going on)."
  },
  {
   "property": "C51",
   "status": "proved",
   "theorems": [
    "C51_skip_with_threads",
    "C51_skip_race_refuted",
    "C51_skip",
    "C51_skip_beyond_end",
    "C51_posix_skip",
    "C51_posix_backwards_refuted"
   ],
   "note": "In-memory for one caller and for threads (C51_skip_with_threads, with the exact effect of a truncation in between; the _refuted theorem is such a run), POSIX for every OS behaviour."
  },
  {
   "property": "C52",
   "status": "proved",
   "theorems": [
    "C52_write_then_read",
    "C52_read_existing",
    "C52_read_missing"
   ],
   "note": ""
  },
  {
   "property": "C53",
   "status": "proved",
   "theorems": [
    "C53_write_returns_first_error",
    "C53_write_cleans_up",
    "C53_an_error_stops_the_work",
    "C53_write_ok_means_done",
    "C53_write_returns"
   ],
   "note": ""
  },
  {
   "property": "C54",
   "status": "proved",
   "theorems": [
    "C54_in_order_and_complete",
    "C54_calls_return"
   ],
   "note": ""
  },
  {
   "property": "C55",
   "status": "proved",
   "theorems": [
    "C55_buffer_never_overflows"
   ],
   "note": ""
  },
  {
   "property": "C56",
   "status": "proved",
   "theorems": [
    "C56_errors_are_reported",
    "C56_only_failed_data_is_lost",
    "C56_ok_after_error_means_complete_refuted"
   ],
   "note": "The _refuted theorem: a Sync that returns OK after an earlier error does not mean the file is complete."
  },
  {
   "property": "C57",
   "status": "proved",
   "theorems": [
    "C57_synced_data_survives"
   ],
   "note": ""
  },
  {
   "property": "C58",
   "status": "proved",
   "theorems": [
    "C58_manifest_directory_first",
    "C58_other_files_touch_no_directory",
    "C58_root_manifest_refuted"
   ],
   "note": "The _refuted theorem: a MANIFEST directly under / can never be synced."
  },
  {
   "property": "C59",
   "status": "proved",
   "theorems": [
    "C59_dirname_basename"
   ],
   "note": ""
  },
  {
   "property": "C60",
   "status": "proved",
   "theorems": [
    "C60_reads_inside_the_file",
    "C60_pread_cut_at_the_end",
    "C60_mmap_past_the_end_refuted",
    "C60_mmap_wraps_refuted",
    "C60_empty_file_refuted"
   ],
   "note": "Inside the file: all three variants. Past the end: the descriptor variants are cut at the end; three _refuted theorems for mmap."
  },
  {
   "property": "C61",
   "status": "proved",
   "theorems": [
    "C61_never_over_grants",
    "C61_counter_exact_when_quiet"
   ],
   "note": ""
  },
  {
   "property": "C62",
   "status": "proved",
   "theorems": [
    "C62_sequential_acquire",
    "C62_denied_only_if_contended",
    "C62_spurious_failure_refuted"
   ],
   "note": "The _refuted theorem is a run in which Acquire is refused although nothing is held."
  },
  {
   "property": "C63",
   "status": "proved",
   "theorems": [
    "C63_slots_in_use",
    "C63_nothing_leaked",
    "C63_no_ub"
   ],
   "note": ""
  },
  {
   "property": "C64",
   "status": "proved",
   "theorems": [
    "C64_at_most_one_holder",
    "C64_granted_only_if_free",
    "C64_second_lock_fails",
    "C64_unlock_frees_the_name",
    "C64_free_name_can_be_locked",
    "C64_failed_unlock_keeps_the_lock",
    "C64_descriptors",
    "C64_other_name_refuted"
   ],
   "note": "The _refuted theorem: names are compared as strings, so two names of one file are two locks within a process."
  },
  {
   "property": "C65",
   "status": "proved",
   "theorems": [
    "C65_excludes_other_processes",
    "C65_no_other_success",
    "C65_second_attempt_refuted",
    "C65_unlock_race_refuted"
   ],
   "note": "Proved under the proviso; the two _refuted theorems are runs of two processes that both hold the lock when it is dropped."
  },
  {
   "property": "C66",
   "status": "proved",
   "theorems": [
    "C66_in_order_exactly_once",
    "C66_nothing_dropped",
    "C66_one_at_a_time",
    "C66_never_pops_empty_queue"
   ],
   "note": ""
  },
  {
   "property": "C67",
   "status": "proved",
   "theorems": [
    "C67_no_lost_wakeup",
    "C67_never_stuck",
    "C67_eventually_run"
   ],
   "note": ""
  },
  {
   "property": "C68",
   "status": "proved",
   "theorems": [
    "C68_writes_the_whole_message",
    "C68_newline",
    "C68_stays_in_its_buffers",
    "C68_format_error",
    "C68_near_int_max_refuted"
   ],
   "note": "The _refuted theorem: every message of INT_MAX-28..INT_MAX bytes makes the length arithmetic overflow."
  },
  {
   "property": "C69",
   "status": "proved",
   "theorems": [
    "C69_posix_error"
   ],
   "note": ""
  },
  {
   "property": "C70",
   "status": "proved",
   "theorems": [
    "C70_sequential_file_delivers",
    "C70_reads_from_the_start",
    "C70_scratch_not_overrun",
    "C70_read_file_to_string",
    "C70_read_file_to_string_total"
   ],
   "note": ""
  },
  {
   "property": "C71",
   "status": "proved",
   "theorems": [
    "C71_read_file_to_string",
    "C71_unset_pointer_refuted"
   ],
   "note": "The _refuted theorem: an environment that leaves the out-pointer unset on error makes ReadFileToString delete an unset pointer."
  },
  {
   "property": "C72",
   "status": "proved",
   "theorems": [
    "C72_descriptors_are_closed_once"
   ],
   "note": ""
  },
  {
   "property": "C73",
   "status": "proved",
   "theorems": [
    "C73_every_call_takes_effect_once",
    "C73_results_are_sequential",
    "C73_no_undefined_behaviour_no_deadlock"
   ],
   "note": "A Skip raced by a truncation is the one call whose result is not the sequential one (see C51)."
  },
  {
   "property": "C74",
   "status": "proved",
   "theorems": [
    "C74_names_truthful",
    "C74_exists_false",
    "C74_one_system_call"
   ],
   "note": ""
  },
  {
   "property": "C75",
   "status": "proved",
   "theorems": [
    "C75_sequential_read",
    "C75_file_size",
    "C75_settled",
    "C75_flushed",
    "C75_random_read",
    "C75_failed_read_empty",
    "C75_append_after_close_refuted"
   ],
   "note": "The _refuted theorem: Append after Close returns OK and the data is lost."
  },
  {
   "property": "C76",
   "status": "proved",
   "theorems": [
    "C76_sequential_reader_undisturbed",
    "C76_random_reader_undisturbed",
    "C76_mapped_read",
    "C76_random_reader_undisturbed_refuted",
    "C76_mapped_read_refuted"
   ],
   "note": "Two _refuted theorems: readers without a slot follow the name, mapped readers fault after NewWritableFile."
  },
  {
   "property": "C77",
   "status": "proved",
   "theorems": [
    "C77_children",
    "C77_children_error",
    "C77_children_refuted"
   ],
   "note": "The _refuted theorem: a readdir() error is taken for the end of the directory."
  },
  {
   "property": "C78",
   "status": "proved",
   "theorems": [
    "C78_descriptors",
    "C78_mappings",
    "C78_nothing_left",
    "C78_directory_streams"
   ],
   "note": ""
  },
  {
   "property": "C80",
   "status": "proved",
   "theorems": [
    "C80_synced_data_survives",
    "C80_manifest_entry_survives",
    "C80_synced_manifest_survives",
    "C80_synced_file_survives_refuted"
   ],
   "note": "The _refuted theorem: a synced file that is no MANIFEST may lose its directory entry."
  },
  {
   "property": "C82",
   "status": "proved",
   "theorems": [
    "C82_no_undefined_behaviour",
    "C82_every_call_returns"
   ],
   "note": ""
  },
  {
   "property": "C79",
   "status": "proved",
   "theorems": [
    "C79_new_logger",
    "C79_delete_logger"
   ],
   "note": ""
  },
  {
   "property": "C81",
   "status": "proved",
   "theorems": [
    "C81_write",
    "C81_read",
    "C81_write_then_read",
    "C81_failed_write",
    "C81_write_returns",
    "C81_read_returns",
    "C81_sync_survives",
    "C81_failed_write_keeps_old_refuted"
   ],
   "note": "The _refuted theorem: a write that fails destroys the old contents."
  },
  {
   "property": "C83",
   "status": "proved",
   "theorems": [
    "C83_test_directory",
    "C83_per_user",
    "C83_default_name",
    "C83_directory_exists_refuted"
   ],
   "note": "The _refuted theorem: OK although mkdir failed."
  },
  {
   "property": "C84",
   "status": "proved",
   "theorems": [
    "C84_now_micros",
    "C84_monotone"
   ],
   "note": ""
  },
  {
   "property": "C85",
   "status": "proved",
   "theorems": [
    "C85_max_open_files",
    "C85_large_limits_refuted"
   ],
   "note": "The _refuted theorem: a limit of 5*2^31 descriptors gives a negative number."
  },
  {
   "property": "C86",
   "status": "proved",
   "theorems": [
    "C86_configured",
    "C86_too_late",
    "C86_one_environment"
   ],
   "note": ""
  },
  {
   "property": "C90",
   "status": "proved",
   "theorems": [
    "C90_uses_only_its_own",
    "C90_no_undefined_behaviour",
    "C90_every_descriptor_has_an_owner",
    "C90_every_mapping_has_an_owner",
    "C90_every_directory_stream_has_an_owner",
    "C90_one_descriptor_per_object",
    "C90_nothing_leaks"
   ],
   "note": ""
  },
  {
   "property": "C91",
   "status": "proved",
   "theorems": [
    "C91_concurrent_reads",
    "C91_faults_only_if_shorter",
    "C91_no_fault",
    "C91_fault_without_truncation_refuted"
   ],
   "note": "The _refuted theorem is a run of two threads in which a rename between open() and stat() makes a Read leave its file."
  },
  {
   "property": "C92",
   "status": "proved",
   "theorems": [
    "C92_mappings_bounded",
    "C92_permanent_descriptors_bounded"
   ],
   "note": ""
  },
  {
   "property": "C93",
   "status": "proved",
   "theorems": [
    "C93_names_atomic"
   ],
   "note": ""
  },
  {
   "property": "C87",
   "status": "proved",
   "theorems": [
    "C87_always_ok",
    "C87_unlock",
    "C87_base",
    "C87_logger_writes_nothing",
    "C87_lock_excludes_refuted"
   ],
   "note": "The _refuted theorem: two callers hold a lock of the same name at once."
  },
  {
   "property": "C88",
   "status": "proved",
   "theorems": [
    "C88_wrapper_forwards",
    "C88_error_env",
    "C88_log",
    "C88_default_appendable",
    "C88_appendable_null_refuted"
   ],
   "note": "The _refuted theorem: *result is left unset on failure."
  },
  {
   "property": "C89",
   "status": "proved",
   "theorems": [
    "C89_random_string",
    "C89_random_key",
    "C89_compressible_string"
   ],
   "note": ""
  },
  {
   "property": "C94",
   "status": "proved",
   "theorems": [
    "C94_lines_are_whole",
    "C94_nothing_is_lost",
    "C94_never_mixed",
    "C94_what_a_line_is",
    "C94_calls_can_return",
    "C94_time_order_refuted"
   ],
   "note": "The _refuted theorem: two overlapping calls whose lines stand in the opposite order of their times."
  },
  {
   "property": "C95",
   "status": "proved",
   "theorems": [
    "C95_bytes_in_order",
    "C95_buffer_bound",
    "C95_flushed",
    "C95_deleted"
   ],
   "note": ""
  },
  {
   "property": "C96",
   "status": "proved",
   "theorems": [
    "C96_every_writer_has_an_opening",
    "C96_start",
    "C96_contents",
    "C96_flushed_contents",
    "C96_synced_survives",
    "C96_appenders",
    "C96_appender_sync"
   ],
   "note": "Others must not write to or truncate the file (only_writer), or must all append (only_appends): POSIX lets two plain writers overwrite each other."
  },
  {
   "property": "C97",
   "status": "proved",
   "theorems": [
    "C97_directory_synced",
    "C97_entry_survives",
    "C97_manifest_survives"
   ],
   "note": "The directory must not be replaced during Sync (SyncDirIfManifest opens it by name) and the name must stand for the same file from the start of Sync on; without a concurrent rename or removal both hold."
  },
  {
   "property": "C98",
   "status": "proved",
   "theorems": [
    "C98_sequential_reads",
    "C98_whole_file"
   ],
   "note": "Calls on one SequentialFile do not overlap, as env.h demands. A Skip of 2^63 or more moves back: the number is taken as a signed 64-bit number."
  },
  {
   "property": "C99",
   "status": "proved",
   "theorems": [
    "C99_contains",
    "C99_iteration",
    "C99_construct_and_insert_return",
    "C99_program_served",
    "C99_iterator_kept"
   ],
   "note": "LP64, little-endian; keys are trivially copyable. The assertion of skiplist.h:249 is off (C27). Removes the simplification of C24-C26 that addresses are indices."
  },
  {
   "property": "C100",
   "status": "proved",
   "theorems": [
    "C100_children",
    "C100_error",
    "C100_snapshot_refuted"
   ],
   "note": "GetChildren cannot tell a failed readdir() from the end of the directory (it does not look at errno), so completeness needs that none failed."
  },
  {
   "property": "C101",
   "status": "proved",
   "theorems": [
    "C101_atomic_replacement",
    "C101_always_one_or_the_other",
    "C101_old_file_kept",
    "C101_durable_refuted"
   ],
   "note": "Crash model: an entry on disk is one it had at some moment since which no newer one was forced; a file whose forced part is all its (non-empty) data is exactly that. The two entries of a rename reach the disk independently."
  },
  {
   "property": "C102",
   "status": "proved",
   "theorems": [
    "C102_client_publishes",
    "C102_look",
    "C102_read",
    "C102_crash"
   ],
   "note": "That a client runs a helper of util/env.cc is said by running its model (EnvUtil.v) on the answers the calls of the trace got. Needs: no hard links to the files at the start. Empty contents are left out of the crash part: the crash model does not promise that an empty file stays empty."
  },
  {
   "property": "C103",
   "status": "proved",
   "theorems": [
    "C103_sequential",
    "C103_self_deadlock",
    "C103_deadlock_only_downwards",
    "C103_upward_no_deadlock",
    "C103_any_deleter_refuted",
    "C103_other_shard_refuted"
   ],
   "note": "A deleter is an arbitrary tree of calls depending on results (CacheDel.v); the effect of a section comes before all its deleters. The deadlock-freedom theorems assume the clients and deleters respect the ranges and use only handles they hold (rules). Release, Prune and TotalCharge from a deleter are covered by C103_deadlock_only_downwards, not by the static condition upward. Deleters run by the destructor that call the cache are not modelled."
  },
  {
   "property": "C104",
   "status": "proved",
   "theorems": [
    "C104_reads",
    "C104_owner_reads",
    "C104_bounds",
    "C104_never_falls"
   ],
   "note": "Relaxed atomics for the one shared word memory_usage_: modification order, coherence and happens-before (ArenaConc.v). Assumes legal calls and that new[] keeps its contract (allocs_ok)."
  },
  {
   "property": "C105",
   "status": "proved",
   "theorems": [
    "C105_readers_safe_and_terminate",
    "C105_concurrent_answers",
    "C105_iterator_key",
    "C105_owner_is_the_program",
    "C105_insert_returns"
   ],
   "note": "The reader threads of C28-C30 on the bytes of C99: C28-C30 transferred by a simulation whose writer is the logged Insert of C99. Races are judged on bytes over the whole log. Release/acquire model as in C28; max_height_ relaxed; one writing thread, which never waits for readers. LP64, little-endian."
  },
  {
   "property": "C106",
   "status": "proved",
   "theorems": [
    "C106_failed_calls_leave_no_trace",
    "C106_regions_disjoint_and_live",
    "C106_destroy",
    "C106_vector_growth_leaks_refuted",
    "C106_memory_usage"
   ],
   "note": "The arena of C21-C23 where new[] and the growth of blocks_ may throw. Refuted: a failing push_back leaks the block it was for (C106_vector_growth_leaks_refuted); C106_destroy shows that nothing else leaks."
  },
  {
   "property": "C107",
   "status": "proved",
   "theorems": [
    "C107_throwing_operations_change_nothing",
    "C107_no_leak",
    "C107_throwing_copy_assignment_refuted",
    "C107_throwing_copy_assignment_is_fatal_refuted"
   ],
   "note": "The Status programs of C18-C19 where new[] may throw; the client catches and continues. Refuted for copy assignment over an error status: it deletes state_ before it copies, and C107_throwing_copy_assignment_is_fatal_refuted shows by counting arrays and pointers that every continuation deletes an array twice, for every allocator."
  },
  {
   "property": "C108",
   "status": "proved",
   "theorems": [
    "C108_failed_insertions_leave_no_key",
    "C108_failed_insertions_leave_no_key_random"
   ],
   "note": "The skip list of C24-C27 where NewNode may throw after max_height_ was raised. Single-threaded."
  },
  {
   "property": "C109",
   "status": "proved",
   "theorems": [
    "C109_no_failure_no_difference",
    "C109_calls_stay_defined",
    "C109_no_entry_no_effect",
    "C109_failing_table",
    "C109_lost_entry_is_found",
    "C109_lost_entry_is_never_freed",
    "C109_total_charge",
    "C109_deleters",
    "C109_destructor_leaks",
    "C109_throw_without_effect_refuted",
    "C109_capacity_after_throw_refuted",
    "C109_unchecked_malloc_refuted"
   ],
   "note": "The cache of C31-C41 where the allocations of Insert may fail (CacheOom.v). The history lists an Insert that left its entry behind as if it had returned a handle, marked in T as never given back. runs_f extends runs by such steps; the C31-C38 theorems restated here are the ones the property names."
  },
  {
   "property": "C110",
   "status": "proved",
   "theorems": [
    "C110_assertion_fails_iff_a_cached_entry_is_held",
    "C110_destructor_spares_exactly_the_held",
    "C110_deleter_never_runs_refuted"
   ],
   "note": "cache_dtor of C41 without the premise that nothing is held."
  },
  {
   "property": "C111",
   "status": "proved",
   "theorems": [
    "C111_growth_loop_never_ends",
    "C111_growth_loop_ends",
    "C111_insert_into_a_full_shard_never_returns",
    "C111_insert_returns_refuted"
   ],
   "note": "That Insert returns below the bound is C33_no_undefined_behaviour. The model runs the loop with fuel 64; C111_growth_loop_never_ends says that no fuel is enough. The witness has a constant hash function."
  },
  {
   "property": "C112",
   "status": "proved",
   "theorems": [
    "C112_a_throw_is_a_shorter_call",
    "C112_when_a_call_can_throw",
    "C112_no_effect",
    "C112_append_adds_a_prefix",
    "C112_failed_create_truncates_refuted",
    "C112_failed_rename_loses_the_target_refuted",
    "C112_failed_appendable_refuted"
   ],
   "note": "A throwing call is compared with ordinary calls (as_if in MemEnvOom.v); its state is equal to theirs, not only indistinguishable. Memory that no object refers to any more is taken out of the modelled heap and counted. The three refuted theorems are about all reachable states with the names concerned. NewAppendableFile of a missing name is outside legal (C46)."
  },
  {
   "property": "C113",
   "status": "proved",
   "theorems": [
    "C113_no_exception_no_difference",
    "C113_safe",
    "C113_failed_call_schedules_nothing",
    "C113_everything_stops",
    "C113_usable_after_failure_refuted",
    "C113_no_thread_refuted",
    "C113_accepted_item_lost_refuted"
   ],
   "note": "Built on Sched.v: a step is a step of Sched.v, a throw at line 802 or 811, or std::terminate in the background thread. A throw by the work function that nothing catches ends the process (modelled: no step after it)."
  },
  {
   "property": "C114",
   "status": "proved",
   "theorems": [
    "C114_no_exception_no_difference",
    "C114_still_at_most_one_holder",
    "C114_lost_lock_is_held_for_ever",
    "C114_lost_lock_excludes_other_processes",
    "C114_stuck_table_blocks_every_call",
    "C114_exception_in_table",
    "C114_exception_after_locking",
    "C114_can_be_repeated_refuted",
    "C114_other_names_undisturbed_refuted"
   ],
   "note": "Built on FileLock.v (POSIX record locks, any number of processes). Processes do not end in the model: when one does, the kernel drops its locks. A lost lock is kept in g_live with its call number in l_lost; nobody can pass it to UnlockFile."
  },
  {
   "property": "C115",
   "status": "proved",
   "theorems": [
    "C115_without_exception_no_difference",
    "C115_everything_accounted_for",
    "C115_lost_for_ever",
    "C115_no_mapping_ever_again",
    "C115_one_exception",
    "C115_nothing_left_behind_refuted",
    "C115_new_file_leaves_a_descriptor",
    "C115_new_logger_leaves_a_stream",
    "C115_get_children_leaves_a_stream"
   ],
   "note": "Built on PosixRead.v and PosixMisc.v. One request for memory per call and path, after everything else the call does there. The history theorems cover random-access files, on one thread; the other opening calls are covered call by call."
  },
  {
   "property": "C116",
   "status": "proved",
   "theorems": [
    "C116_exceptions_replace_errors",
    "C116_effect",
    "C116_exceptions_lose_nothing_buffered",
    "C116_one_more_copy_per_exception",
    "C116_bytes_taken_are_in_the_file",
    "C116_destructor",
    "C116_sync_leaves_the_directory_open",
    "C116_no_byte_twice_refuted",
    "C116_close_gives_up_the_descriptor_refuted",
    "C116_deleting_is_safe_refuted"
   ],
   "note": "PosixWritable.v where PosixError may throw. bytes_taken: all the kernel has taken from the write calls of this object; C116_bytes_taken_are_in_the_file relates it to the file. The history theorem for Append that threw leaves open how much of its data is accepted; C116_effect says how much."
  },
  {
   "property": "C117",
   "status": "proved",
   "theorems": [
    "C117_without_exception_no_difference",
    "C117_write_that_throws",
    "C117_read_deletes_the_file",
    "C117_read_loses_no_exception",
    "C117_write_cleans_up_refuted"
   ],
   "note": "EnvUtil.v over an environment whose calls may throw. An exception out of a destructor (the answer to IDelete) is std::terminate (Killed). Reading runs with fuel, as in EnvUtil.v."
  },
  {
   "property": "C118",
   "status": "proved",
   "theorems": [
    "C118_enough_memory_no_difference",
    "C118_all_or_nothing",
    "C118_whole_message_or_nothing",
    "C118_short_lines_need_no_memory",
    "C118_thread_is_shown_refuted",
    "C118_long_line_lost_refuted",
    "C118_long_thread_id_refuted"
   ],
   "note": "Logger.v with three allocations that may fail. Taken from the standard: formatted output swallows exceptions of the stream buffer (badbit), so the id may be cut at any place; from libstdc++: strings of up to 15 characters are stored in place. Several threads: C122."
  },
  {
   "property": "C119",
   "status": "proved",
   "theorems": [
    "C119_writer",
    "C119_readers_safe_and_terminate",
    "C119_answers",
    "C119_failed_keys_are_never_seen"
   ],
   "note": "SkipListOom.v for the writer, SkipListConc.v for the readers. What an insertion that throws has stored is at most a larger max_height_. The readers of SkipListConcProofs.v are proved again for an arbitrary writer (SkipListConcGen.v). The bytes of the arena (C99) are not part of this."
  },
  {
   "property": "C120",
   "status": "proved",
   "theorems": [
    "C120_interleavings_with_throws_are_sequential_histories",
    "C120_no_deadlock_no_undefined_behaviour",
    "C120_insert_without_memory",
    "C120_what_a_throw_leaves_is_never_freed",
    "C120_no_failure_no_difference",
    "C120_a_throwing_insert_is_invisible_to_others_refuted"
   ],
   "note": "CacheConcOom.v: the steps of CacheConc.v and two for an Insert that throws (CacheOom.v). The numbers of the Inserts that threw are read off the trace. That malloc fails (undefined behaviour, C109) is excluded."
  },
  {
   "property": "C121",
   "status": "proved",
   "theorems": [
    "C121_deleters_that_call_nothing",
    "C121_upward_deleters_refuted",
    "C121_own_key_refuted",
    "C121_own_key_released_refuted",
    "C121_own_shard_refuted"
   ],
   "note": "CacheDelDtor.v: the destructor of Cache.v with deleter programs (CacheDel.v). Proved for all reachable caches: the two cases where the deleters call nothing, or begin with a call whose member is gone. Deleters that call lower shards are modelled and shown to work by example only (ex_lower_shard); the three failures in the own shard are witnesses."
  },
  {
   "property": "C122",
   "status": "proved",
   "theorems": [
    "C122_lines_are_whole",
    "C122_only_throwing_calls_lose_their_lines",
    "C122_never_mixed",
    "C122_what_a_line_is",
    "C122_who_throws",
    "C122_calls_stay_defined",
    "C122_messages_stay_defined",
    "C122_throws_wait_for_nobody",
    "C122_calls_can_return",
    "C122_enough_memory_no_difference",
    "C122_one_call_per_thread"
   ],
   "note": "LoggerConcOom.v: LoggerConc.v whose calls are those of LoggerOom.v. Built on C94 and C118. C122_calls_stay_defined is about release builds and leaves out texts of INT_MAX - 119 to INT_MAX bytes, as C68. ~PosixLogger is not called while a call is going on."
  }
 ]
}
{
 "claims": [
  {
   "property": "C01",
   "status": "proved",
   "theorems": [
    "C01_LevelFrom_exact",
    "C01_LevelFrom_case_insensitive",
    "C01_LevelFrom_any_text",
    "C01_LevelFrom_String"
   ],
   "note": "Exact for every string, every iteration order of the level table and every non-ASCII case table; case-insensitive comparison for ASCII input; for any input given that only the dotless i and the long s have ASCII letters as their upper case, and then the dotless i counts as an i (C01_LevelFrom_any_text); round trip."
  },
  {
   "property": "C02",
   "status": "proved",
   "theorems": [
    "C02_below_level_no_effect",
    "C02_off_emits_nothing",
    "C02_enabled_iff",
    "C02_enabled_upward"
   ],
   "note": "Any reachable state; below the effective level the world is literally unchanged."
  },
  {
   "property": "C03",
   "status": "proved",
   "theorems": [
    "C03_effective_level",
    "C03_level_unique",
    "C03_set_level_stores",
    "C03_own_level_kept"
   ],
   "note": "Effective level is stated by names only (no parent pointers); own levels change only by SetLevel, first creation and configuration."
  },
  {
   "property": "C04",
   "status": "proved",
   "theorems": [
    "C04_set_level_only",
    "C04_governed_follow",
    "C04_others_keep",
    "C04_reports_level",
    "C04_unset_follow"
   ],
   "note": "Level -1/0 handling included: setting Uninitialized makes a logger follow its parent again."
  },
  {
   "property": "C05",
   "status": "proved",
   "theorems": [
    "C05_one_logger_per_name",
    "C05_logger_name",
    "C05_existing_unchanged"
   ],
   "note": "Any interleaving of other calls between the two GetLogger calls."
  },
  {
   "property": "C06",
   "status": "proved",
   "theorems": [
    "C06_parent_by_name",
    "C06_root_has_no_parent",
    "C06_parent_determined",
    "C06_chain_ends_at_root",
    "C06_parent_fixed"
   ],
   "note": "Parent given by the longest proper prefix before a separator; invalid UTF-8 names included."
  },
  {
   "property": "C07",
   "status": "proved",
   "theorems": [
    "C07_route_exists",
    "C07_route_unique",
    "C07_delivered_to_route",
    "C07_nothing_else_changes",
    "C07_sync_output_writes",
    "C07_syslog_output_calls",
    "C07_handed_over_only",
    "C07_never_panics"
   ],
   "note": "Route is described by names; contents of synchronous outputs and syslog included. Asynchronous outputs: see C31-C35. Totality needs outputs whose formatter is none, a parsed layout or a user function, and that return from Send when they are the user's own."
  },
  {
   "property": "C08",
   "status": "proved",
   "theorems": [
    "C08_event_data",
    "C08_one_event"
   ],
   "note": "All deliveries of one call agree except for the lazily completed caller information."
  },
  {
   "property": "C09",
   "status": "partial",
   "theorems": [
    "C09_own_outputs_partial",
    "C09_inherited_outputs_lose_all",
    "C09_inherited_fields_refuted"
   ],
   "note": "False as stated: a logger that uses an ancestor's outputs drops every field (refuted by a witness, and the exact behaviour proved). Holds when the logger's own outputs are used."
  },
  {
   "property": "C10",
   "status": "proved",
   "theorems": [
    "C10_last_field_wins",
    "C10_field_value_unique",
    "C10_fields_do_not_leak",
    "C10_plain_writer_has_no_fields"
   ],
   "note": "Lookup and independence of calls, for all field lists and histories."
  },
  {
   "property": "C11",
   "status": "partial",
   "theorems": [
    "C11_level_method_site",
    "C11_direct_one_off",
    "C11_direct_site_partial",
    "C11_direct_site_refuted",
    "C11_skip_set",
    "C11_skip_origin"
   ],
   "note": "Proved for level methods at every inheritance depth. False for Printf called directly: the frame above the user's is reported (witness and exact statement)."
  },
  {
   "property": "C12",
   "status": "proved",
   "theorems": [
    "C12_split_exact",
    "C12_split_lossless",
    "C12_shortfunc"
   ],
   "note": "split_func is proved equal to an independent inductive description of the split."
  },
  {
   "property": "C13",
   "status": "partial",
   "theorems": [
    "C13_accepts_well_formed_partial",
    "C13_duplicate_loggers_refuted",
    "C13_first_entry_counts"
   ],
   "note": "Acceptance is exactly well-formedness without the logger-name clause. False for that clause: two entries for one logger are accepted (witness); the first entry is the one that counts."
  },
  {
   "property": "C14",
   "status": "proved",
   "theorems": [
    "C14_error_changes_nothing",
    "C14_ill_formed_rejected",
    "C14_load_error_changes_nothing"
   ],
   "note": "The whole world is unchanged; also through LoadConfig and LoadConfigFile."
  },
  {
   "property": "C15",
   "status": "proved",
   "theorems": [
    "C15_named_loggers_set_up",
    "C15_all_or_nothing",
    "C15_rest_untouched",
    "C15_order_independent",
    "C15_returns"
   ],
   "note": "Any reachable state and any visiting order. Order independence assumes creators that answer the same entry consistently; equality is up to the memory addresses of new outputs."
  },
  {
   "property": "C16",
   "status": "partial",
   "theorems": [
    "C16_new_logger_configured_partial",
    "C16_new_logger_inherits",
    "C16_root_fallback",
    "C16_ancestors_not_configured",
    "C16_ancestor_refuted"
   ],
   "note": "False for loggers that came into being as ancestors of another logger: they are created without looking at their entry (witness and general statement). Proved for every name that has no logger yet."
  },
  {
   "property": "C17",
   "status": "partial",
   "theorems": [
    "C17_new_output_and_format_partial",
    "C17_existing_output_kept",
    "C17_reconfigured_refuted"
   ],
   "note": "False: outputs and formats are cached by name and never rebuilt (witness and general statement). Proved for outputs and formats that did not exist before."
  },
  {
   "property": "C18",
   "status": "partial",
   "theorems": [
    "C18_supported_partial",
    "C18_error_partial",
    "C18_unsupported_accepted",
    "C18_unsupported_refuted",
    "C18_parse_error_refuted"
   ],
   "note": "False twice: an unsupported extension is accepted and empties the configuration; a parse error is ignored (witnesses, and a general statement for the former). Proved for supported extensions and bytes that parse. Extensions are any text; for those above ASCII the theorems assume that no character but the dotted I and the Kelvin sign has an ASCII letter as its lower case."
  },
  {
   "property": "C19",
   "status": "partial",
   "theorems": [
    "C19_no_extension_refuted",
    "C19_panics_iff",
    "C19_partial"
   ],
   "note": "False: a readable file whose last path element has no dot panics. Exact characterisation of when it panics, for creators that do not panic."
  },
  {
   "property": "C20",
   "status": "proved",
   "theorems": [
    "C20_instance_stays",
    "C20_one_per_name",
    "C20_shared"
   ],
   "note": "Any history; the object's settings are also constant."
  },
  {
   "property": "C21",
   "status": "proved",
   "theorems": [
    "C21_Parser_lossless",
    "C21_Parser_exact",
    "C21_splits_unique"
   ],
   "note": "Lossless, and the cut is the unique leftmost one."
  },
  {
   "property": "C22",
   "status": "proved",
   "theorems": [
    "C22_Parser_as_written",
    "C22_malformed_is_literal"
   ],
   "note": "Well-formed layouts are parsed as written; literal parts never contain a verb."
  },
  {
   "property": "C23",
   "status": "proved",
   "theorems": [
    "C23_Parser_reject"
   ],
   "note": "Both directions."
  },
  {
   "property": "C24",
   "status": "proved",
   "theorems": [
    "C24_Format_concat",
    "C24_renders_unique"
   ],
   "note": "fmt.Sprintf/Sprint and time.Format are parameters of the model; the context must answer lookups and must not bind the reserved caller key to a foreign type (otherwise the code panics, see the examples)."
  },
  {
   "property": "C25",
   "status": "proved",
   "theorems": [
    "C25_captured_in_call",
    "C25_stack_not_consulted",
    "C25_text_uses_captured_site"
   ],
   "note": "For histories in which formatters are set before outputs are attached and user formatters answer a documented flag; the captured site is the user's frame (C11)."
  },
  {
   "property": "C26",
   "status": "proved",
   "theorems": [
    "C26_sync_output_writes",
    "C26_writes_determined",
    "C26_one_write_each"
   ],
   "note": "Any event sequence, any threshold, default line / text layout / user formatter; the specification determines the writes."
  },
  {
   "property": "C27",
   "status": "proved",
   "theorems": [
    "C27_syslog_severity",
    "C27_syslog_determined"
   ],
   "note": "Same as C26 for syslog calls."
  },
  {
   "property": "C28",
   "status": "proved",
   "theorems": [
    "C28_ranges",
    "C28_numbers",
    "C28_above",
    "C28_permissions"
   ],
   "note": "All strings."
  },
  {
   "property": "C29",
   "status": "partial",
   "theorems": [
    "C29_plain_number_partial",
    "C29_positive_partial",
    "C29_unit_refuted",
    "C29_positive_refuted",
    "C29_unit_values",
    "C29_unit_short"
   ],
   "note": "False as stated: the number before a unit is ignored, and settings of more than 20 bytes can give a negative size (both refuted by witnesses). Proved: plain numbers, positivity up to 20 bytes, and the exact set of values a unit can give."
  },
  {
   "property": "C30",
   "status": "proved",
   "theorems": [
    "C30_threshold_exact",
    "C30_never_uninitialized"
   ],
   "note": "Exact for every string."
  },
  {
   "property": "C31",
   "status": "proved",
   "theorems": [
    "C31_written_then_pending",
    "C31_no_loss_no_duplication",
    "C31_sender_order",
    "C31_until_a_crash",
    "C31_same_texts"
   ],
   "note": "Any number of goroutines with any calls, any schedule, queue and batch size. Texts are those of the synchronous outputs with the same formatter. Assumes the formatter is set before the first Send and that an event is not changed while queued."
  },
  {
   "property": "C32",
   "status": "partial",
   "theorems": [
    "C32_close_waits_refuted",
    "C32_overlapping_close_refuted",
    "C32_close_waits_partial",
    "C32_returned_sends_accepted"
   ],
   "note": "False: the worker registers with the wait group only when it first runs, so Close may return at once (witness); also false while another Close is under way (witness). Proved when the worker had started and no Close had been called before."
  },
  {
   "property": "C33",
   "status": "partial",
   "theorems": [
    "C33_send_panics_refuted",
    "C33_event_lost_refuted",
    "C33_close_panics_refuted",
    "C33_no_formatter_refuted",
    "C33_no_panic_partial",
    "C33_all_written_partial",
    "C33_nothing_left_partial",
    "C33_no_deadlock_partial"
   ],
   "note": "False: a Send that passed the check panics on the closed channel; an event accepted behind the closing mark is never written; overlapping Closes panic; a nil formatter kills the process (witnesses). Proved for executions where Close overlaps with no other call: no panic, no deadlock, everything accepted can be and at the end is written."
  },
  {
   "property": "C34",
   "status": "proved",
   "theorems": [
    "C34_held_back",
    "C34_tick_flushes",
    "C34_full_batches",
    "C34_writes_are_labelled"
   ],
   "note": "Any schedule; batch sizes from 1."
  },
  {
   "property": "C35",
   "status": "proved",
   "theorems": [
    "C35_after_close",
    "C35_returns_at_once"
   ],
   "note": "Any interleaving with other goroutines; after some Close has returned."
  },
  {
   "property": "C36",
   "status": "proved",
   "theorems": [
    "C36_configured",
    "C36_as_specified",
    "C36_split_at_writes",
    "C36_segments",
    "C36_segments_unique",
    "C36_writes_can_succeed"
   ],
   "note": "Any directory that holds a log with canonical backup names (C37 covers other names), any number of writes and restarts; histories shown to exist. Assumes no other process touches the directory, backup numbers stay below 2^63, and the log file is not called .log4g_tmp when archiving is on."
  },
  {
   "property": "C37",
   "status": "proved",
   "theorems": [
    "C37_only_the_oldest",
    "C37_at_most_maxRolls"
   ],
   "note": "Any directory contents, listing order, sort result, faults and crash points; at most maxRolls afterwards when no operation fails. Assumes no backup has number 2^63-1."
  },
  {
   "property": "C38",
   "status": "partial",
   "theorems": [
    "C38_other_files_partial",
    "C38_archive_leaves_a_directory_refuted"
   ],
   "note": "False when an archive is configured: the directory .log4g_tmp is created among the logs (witness). Proved otherwise, for both kinds of rolling, over all histories with faults, crashes and restarts; by time, readings of the clock must parse with the pattern, else the name they give is not a valid roll name."
  },
  {
   "property": "C39",
   "status": "partial",
   "theorems": [
    "C39_nothing_overwritten_partial",
    "C39_symlink_refuted",
    "C39_wrap_refuted"
   ],
   "note": "False: a symbolic link with the next backup's name is overwritten, and after backup 2^63-1 comes -2^63, which may exist (witnesses). Proved for regular files and directories while no backup has number 2^63-1."
  },
  {
   "property": "C40",
   "status": "proved",
   "theorems": [
    "C40_any_faults",
    "C40_nothing_lost",
    "C40_lost_only_to_retention"
   ],
   "note": "Any crash points, faults and restarts in any history. File-system operations are atomic in the model except Write; nothing is said about losing page cache."
  },
  {
   "property": "C41",
   "status": "partial",
   "theorems": [
    "C41_time_works_waits_or_stuck_partial",
    "C41_time_waits_refuted",
    "C41_stuck_after_a_failed_roll_refuted",
    "C41_succeeds_or_stuck_partial",
    "C41_recovers_from_other_faults_partial"
   ],
   "note": "False: after a failed close, listing, rename or re-open every later write fails until restart (witness for each). Proved: every reachable writer either works again as soon as faults stop or is stuck so; faults of write, chmod, remove and archiving never stop it. By time (C41_time_works_waits_or_stuck_partial): every reachable writer works, or works in one period only, or is stuck; so one failure to open the new file stops it for good if its next write comes in a later period (C41_time_waits_refuted)."
  },
  {
   "property": "C42",
   "status": "proved",
   "theorems": [
    "C42_restart_appends",
    "C42_numbers_go_up",
    "C42_new_number_above_all"
   ],
   "note": "Appending for directories with canonical backup names; greater numbers for any directory, with any faults and crashes."
  },
  {
   "property": "C43",
   "status": "proved",
   "theorems": [
    "C43_each_period_its_file",
    "C43_monotone_clock"
   ],
   "note": "Any directory, any sequence of writes of one process, readings that are non-empty and never come back (shown for clocks in order with distinct period names). What a former process left in the log file counts to the first period. With maxRolls positive a backup may be gone."
  },
  {
   "property": "C44",
   "status": "partial",
   "theorems": [
    "C44_overwrites_refuted",
    "C44_deletes_new_backup_refuted",
    "C44_others_kept_partial",
    "C44_new_backup_kept_partial"
   ],
   "note": "False when the clock shows a period name again (pattern 15, say): witnesses that the earlier backup is overwritten and, with retention, the new one removed. Proved for every clock, directory and fault: other entries stay unless retention removes them; the backup of a period that had none is made and kept."
  },
  {
   "property": "C45",
   "status": "partial",
   "theorems": [
    "C45_configured",
    "C45_directory_is_no_archive",
    "C45_lost_refuted",
    "C45_size_partial",
    "C45_time_partial",
    "C45_size_history_partial",
    "C45_sealed",
    "C45_sealed_interrupted"
   ],
   "note": "False for every configured output: the archive path is the log directory, nothing is ever archived and backups are removed. Proved for archive paths that are no directory and runs without faults, per write and over histories."
  },
  {
   "property": "C46",
   "status": "partial",
   "theorems": [
    "C46_copied_partial",
    "C46_cut_short_partial",
    "C46_succeeds_partial",
    "C46_gzip_one_file_partial",
    "C46_empty_name_refuted",
    "C46_gzip_two_files_refuted"
   ],
   "note": "Copy is modelled with a fault or a short read or write possible at every operation. Proved for all formats, wrapped or not: success means exactly the source's files were appended (directories left out from tar to tar); on failure a beginning was appended, the last file possibly cut; no panic; success without faults. Refuted: a source file with an empty name gets the temporary file's name through copyBuffer; gzip to gzip streams without NextFile, so a gzip destination takes several files and loses the names. The encodings of the formats are not modelled."
  },
  {
   "property": "C47",
   "status": "proved",
   "theorems": [
    "C47_one_after_the_other",
    "C47_atomic",
    "C47_no_deadlock",
    "C47_files"
   ],
   "note": "Goroutines interleave at every field access, lock operation and file-system operation, with any faults. Proved: the writes happen one after the other in an order respecting each goroutine's, with the same results and files (so every theorem about histories applies), and no deadlock. The public method Close takes no lock; nothing in the library calls it, so it is not among the calls here."
  },
  {
   "property": "C48",
   "status": "proved",
   "theorems": [
    "C48_no_deadlock",
    "C48_a_call_goes_on",
    "C48_runs_end",
    "C48_all_return",
    "C48_guarded",
    "C48_same_calls",
    "C48_panicking_close_sticks"
   ],
   "note": "Proved for all schedules and any number of goroutines and calls, with the queues and workers of asynchronous outputs that Close waits for: in every reachable state all calls have returned or a call or worker can go on (C48_no_deadlock), it is a call at the latest after the workers have run (C48_a_call_goes_on), no run is infinite (C48_runs_end), so every schedule ends with all calls returned (C48_all_return); every access to guarded fields is made by the lock holder (C48_guarded); the calls are those of the sequential model taken apart at lock operations, and when a creator panics in one it leaves the state that the sequential model leaves (C48_same_calls). Hypothesis: no output panics in Close. Without it the property fails: C48_panicking_close_sticks exhibits a run in which a recovered panic in an output's Close leaves the manager locked for ever (Close has no deferred unlock)."
  },
  {
   "property": "C49",
   "status": "proved",
   "theorems": [
    "C49_complete",
    "C49_any_chunks"
   ],
   "note": "Any chunking, with errors at any point."
  },
  {
   "property": "C50",
   "status": "proved",
   "theorems": [
    "C50_end_to_end",
    "C50_suffix",
    "C50_default_determined",
    "C50_sessions_exist"
   ],
   "note": "Calls are sequential (concurrent writers: C47); the output is synchronous; the writer runs on an initially log-free directory (C50_end_to_end) or on any earlier log (C50_suffix); no other process writes the directory; the formatter of the output is not exchanged meanwhile."
  },
  {
   "property": "C51",
   "status": "proved",
   "theorems": [
    "C51_same_logger",
    "C51_named",
    "C51_hypothesis"
   ],
   "note": "Proved for all schedules, including panicking creators and outputs."
  },
  {
   "property": "C52",
   "status": "proved",
   "theorems": [
    "C52_built_as_described",
    "C52_other_keys",
    "C52_entry_keys",
    "C52_format_described"
   ],
   "note": "ConfSpec relates an entry's values to the output without the model's parsing functions. For strings that are neither empty nor the number's decimal form (e.g. with junk) only the range is stated; C28 and C29 say more."
  },
  {
   "property": "C53",
   "status": "proved",
   "theorems": [
    "C53_write",
    "C53_interrupted"
   ],
   "note": "Permissions are arguments of the operations. Whether the operating system honours them (umask, existing files) is outside."
  },
  {
   "property": "C54",
   "status": "proved",
   "theorems": [
    "C54_each_once",
    "C54_only_by_close",
    "C54_asynchronous"
   ],
   "note": "Concerns the calls of Close. What Close does inside an asynchronous output is C32 and C35; the console output root gets without a configuration is not managed, hence not closed (it is synchronous)."
  },
  {
   "property": "C55",
   "status": "proved",
   "theorems": [
    "C55_settled",
    "C55_in_force"
   ],
   "note": "Calls that register creators are left out (a creator registered meanwhile may or may not be seen). Loggers made only on the way to one below them are excluded: they need not follow their entry even without concurrency (C16). Only returned, panic-free runs: a panicking user creator can leave the configuration half applied."
  },
  {
   "property": "C56",
   "status": "proved",
   "theorems": [
    "C56_loggers",
    "C56_all_levels",
    "C56_prints"
   ],
   "note": "Composes C07, C08, C11, C21 and C24 on the state init sets up. For a program counter the runtime knows the function of; level methods only (Printf called directly is one frame off, C11)."
  },
  {
   "property": "C57",
   "status": "proved",
   "theorems": [
    "C57_on_disk",
    "C57_close_returned",
    "C57_end_to_end",
    "C57_whole_program",
    "C57_same_bytes",
    "C57_any_stack",
    "C57_settled",
    "C57_executions_exist",
    "C57_calls_exist"
   ],
   "note": "Composition of the logger, channel and directory models. Closing must not overlap with other calls (C33 has the witnesses); one goroutine logs. C57_on_disk holds for any goroutines and any schedule."
  },
  {
   "property": "C58",
   "status": "partial",
   "theorems": [
    "C58_alone",
    "C58_own_events",
    "C58_one_list",
    "C58_whole_list",
    "C58_why_nothing",
    "C58_undisturbed_partial",
    "C58_steady_way_partial",
    "C58_no_panic",
    "C58_lost_refuted",
    "C58_torn_level_refuted",
    "C58_site_refuted"
   ],
   "note": "False as stated: a call whose logger loses its own outputs between the test and the loop sends nothing although its parent's outputs were there (lost); a call can read the old level of a logger and the new one of its parent and send an event that was disabled all along (torn_level); SetOutputs stores the outputs before the flag, so that a call in between reports a wrong call site (site). Proved in general: own events, one whole list of outputs, no panic, why nothing was sent, equality with the single call when alone. Proved when nobody touches the logger and its ancestors: goes exactly where the single call goes (undisturbed); when at all moments the way is open and leads to the same logger: one of that logger's lists (steady_way). Fields are read and stored atomically in the model; a torn slice header is not covered."
  },
  {
   "property": "C59",
   "status": "proved",
   "theorems": [
    "C59_independent_sends",
    "C59_independent_writes",
    "C59_async",
    "C59_sync",
    "C59_calls_exist"
   ],
   "note": "Composition of the logger model with the channel and the lock models. Only log calls run at the same time here; loggers changing meanwhile is C58, closing while others log is C33."
  },
  {
   "property": "C60",
   "status": "partial",
   "theorems": [
    "C60_files_kept",
    "C60_again",
    "C60_goes_on_partial",
    "C60_same_period_partial",
    "C60_due_stuck",
    "C60_next_period_fails",
    "C60_failed_stuck",
    "C60_full_refuted"
   ],
   "note": "False when a roll is due: no write succeeds after such a close (witness, and for all such histories); likewise after a close that fails, and rolling by time in a later period. Proved otherwise. The library itself never calls this Close."
  },
  {
   "property": "C61",
   "status": "partial",
   "theorems": [
    "C61_returns_partial",
    "C61_sent_formattable",
    "C61_worker_survives",
    "C61_field_refuted",
    "C61_nil_context_refuted",
    "C61_no_extension_refuted",
    "C61_other_fields"
   ],
   "note": "False in the code for three kinds of arguments (witnesses): a field or context value under the key __caller_info, a nil context, and LoadConfigFile of a readable file without extension. Proved: with these excluded from the call itself (proper, SafeSpec.v) it returns after every history, recovered panics of improper calls included, that brings in no formatter, creator or output of the user's own that panics (fair_reach); and no event sent by a proper call kills an asynchronous output's worker. nil outputs and nil loggers are excluded; Close and Send of asynchronous outputs are C33."
  },
  {
   "property": "C62",
   "status": "partial",
   "theorems": [
    "C62_at_most_once",
    "C62_closes",
    "C62_every_output",
    "C62_lives_on",
    "C62_first_only",
    "C62_ends_refuted"
   ],
   "note": "False in the last part: signal.Notify takes the default effect of the two signals away and the handler only closes, so the process lives until it returns of itself (C62_lives_on, for all traces), and later signals do nothing (C62_first_only; C62_ends_refuted shows a process that got three of them, still runs and has an open asynchronous output). Proved: at most one close and only after a signal; after a signal the handler needs at most two steps of its own, in every state; it closes exactly the managed outputs, once each. One API call is one step; that the close of an asynchronous output itself ends is C54 and C32."
  },
  {
   "property": "C63",
   "status": "partial",
   "theorems": [
    "C63_atomic_partial",
    "C63_getlogger",
    "C63_is_a_history",
    "C63_reachable",
    "C63_at_rest_partial",
    "C63_configurations_refuted",
    "C63_one_configuration_refuted"
   ],
   "note": "False with two accepted configuration calls: the lock is given up between storing the configuration and telling the loggers (C63_configurations_refuted: the settings of a call that returned nil never reach a logger that only its configuration names), and with a single one, when a creator is registered meanwhile (C63_one_configuration_refuted: two outputs of one configuration are made by different creators, which no order explains). Proved for all calls that do not store a configuration, once the root logger exists (C63_atomic_partial), and for GetLogger calls from the very start (C63_getlogger); panics of creators and of Close included. The order is a history of WorldModel.v (C63_is_a_history), and what it leads to is reached by a history of WorldSpec.v (C63_reachable, C63_at_rest_partial), so that the theorems about histories apply when the calls are over; steps in which a creator panicked keep what they had stored. What configuration calls among others leave is C55."
  },
  {
   "property": "C64",
   "status": "proved",
   "theorems": [
    "C64_end_to_end",
    "C64_nothing_lost"
   ],
   "note": "No faults; the readings of the clock (exposed by the theorem) are not empty and never return to an earlier period, which C43_monotone_clock derives from a clock that does not go back; nobody else writes to the directory; base names only (rc_fullName false). With archiving, the log file and the backups must not be called .log4g_tmp."
  },
  {
   "property": "C65",
   "status": "partial",
   "theorems": [
    "C65_in_turn",
    "C65_alone_returns",
    "C65_end_to_end",
    "C65_quiet_stays",
    "C65_overlap_refuted",
    "C65_panic_refuted"
   ],
   "note": "False for goroutines that log at the same time: the bytes.Buffer has no lock, so that a record can vanish although both calls return (C65_overlap_refuted), and a call can panic (C65_panic_refuted). Proved for calls that do not overlap (C65_in_turn, C65_alone_returns), from the log call to String (C65_end_to_end); and for all interleavings that what was there when no call was in progress stays (C65_quiet_stays). bytes.Buffer is library code: its Write is taken apart at its accesses to the slice, a slice header being read and stored at once."
  },
  {
   "property": "C66",
   "status": "partial",
   "theorems": [
    "C66_like_unarchived",
    "C66_archives_hold_backups",
    "C66_removed_is_archived",
    "C66_nothing_lost",
    "C66_failed_archive_refuted",
    "C66_archive_replaced_refuted"
   ],
   "note": "False when archiving fails: the errors of archiveExplodedLogs are dropped and the backup is removed all the same (C66_failed_archive_refuted, for each step); and an archive left by an earlier log is replaced (C66_archive_replaced_refuted). Proved: the log directory is treated as without archiving, so that C36-C44 apply (C66_like_unarchived); whatever fails and wherever the process dies an archive is untouched or holds exactly its backup (C66_archives_hold_backups); without faults what is removed is archived (C66_removed_is_archived), and by size nothing is lost over any history of writes and restarts (C66_nothing_lost). No configuration sets archiveExploded: only code in the package can. The archive directory is taken to be another one than the log directory."
  },
  {
   "property": "C67",
   "status": "partial",
   "theorems": [
    "C67_alone",
    "C67_alone_only",
    "C67_marked",
    "C67_same_event",
    "C67_undisturbed",
    "C67_torn_refuted"
   ],
   "note": "False when an output gets a layout with package or function while it is attached: the logger's flag is stale, the call captures nothing, and those who format the event add to it; one can read the package another has just written without the function (C67_torn_refuted). Proved: nobody writes when formatters are set before the output is attached (C67_undisturbed), outputs all get the same event (C67_same_event), and the fine-grained programs are, undisturbed, the functions of LayoutModel.v (C67_alone, C67_alone_only)."
  },
  {
   "property": "C68",
   "status": "partial",
   "theorems": [
    "C68_all_panics",
    "C68_nothing_lost",
    "C68_loggers_untouched",
    "C68_each_old_or_new",
    "C68_works_again",
    "C68_not_set_up_refuted",
    "C68_root_lost",
    "C68_root_refuted"
   ],
   "note": "False in two places: the logger whose making was stopped exists and is not set up when it is asked for again (C68_not_set_up_refuted), and a root logger whose making was stopped is never put into the map of loggers, so that no configuration reaches it any more and what is logged through it goes nowhere (C68_root_refuted, C68_root_lost). Proved otherwise; the histories ([reach], [steps], [calm_reach], [plain_reach]) of C02-C11, C13-C20, C25 and of the later properties built on them (C50, C54, C56, C57, C59, C62-C65) have recovered panics as steps (those of log calls too, see C71), except those that stop the making of root."
  },
  {
   "property": "C69",
   "status": "proved",
   "theorems": [
    "C69_last_registration",
    "C69_nothing_else",
    "C69_new_output",
    "C69_new_format",
    "C69_made_by",
    "C69_format_made_by",
    "C69_pasts_exist"
   ],
   "note": "Proved for every history. An output that exists is not made anew when its type is registered anew (C69_nothing_else, C69_made_by), also not by a later configuration (C17)."
  },
  {
   "property": "C70",
   "status": "partial",
   "theorems": [
    "C70_unaffected_partial",
    "C70_given",
    "C70_arguments_kept",
    "C70_route",
    "C70_fields",
    "C70_writers",
    "C70_loaded",
    "C70_rejected",
    "C70_replaced",
    "C70_config_refuted",
    "C70_outputs_refuted",
    "C70_arguments_refuted"
   ],
   "note": "False in the code for three of the four: SetConfig keeps the pointer (C70_config_refuted), SetOutputs keeps the slice (C70_outputs_refuted), and the worker of an asynchronous output formats the arguments as they are when it gets to the event (C70_arguments_refuted). Proved: fields are copied (C70_fields, C70_writers); a caller that stores into nothing the library still uses is not noticed (C70_unaffected_partial), and what it still uses is said exactly (C70_given, C70_arguments_kept, C70_route, C70_loaded, C70_rejected, C70_replaced). Nothing is missing."
  },
  {
   "property": "C71",
   "status": "partial",
   "theorems": [
    "C71_stops_there",
    "C71_nothing_else_changes",
    "C71_sync_output_wrote",
    "C71_syslog_output_called",
    "C71_goes_on",
    "C71_others_refuted"
   ],
   "note": "The last sentence is false: the outputs after the one that panicked get nothing (C71_others_refuted). Proved otherwise. What panics is the context, a user's formatter, or an output of the user's own."
  },
  {
   "property": "C72",
   "status": "proved",
   "theorems": [
    "C72_log_call",
    "C72_same_answer",
    "C72_same_panic",
    "C72_logs_left_out"
   ],
   "note": "Proved for the state of loggers, manager and outputs (World), where a call to Send of an asynchronous output enqueues without waiting and a rolling file is written like any other; that a full queue makes a call wait, and that what was written decides when a file rolls, is in the models of Async and Roll."
  },
  {
   "property": "C73",
   "status": "partial",
   "theorems": [
    "C73_all_methods",
    "C73_level",
    "C73_message_partial",
    "C73_fields",
    "C73_context",
    "C73_plain",
    "C73_no_operands",
    "C73_empty_format",
    "C73_message_refuted"
   ],
   "note": "The level is proved. The text is false for the methods in f without operands: the format is taken as it is, so that Infof(\"100%%\") logs 100%% where Sprintf gives 100% (C73_message_refuted, in general C73_no_operands), and with an empty format, where the operands are printed as by Sprint (C73_empty_format). Proved otherwise; that Sprint of nothing is empty is assumed."
  },
  {
   "property": "C74",
   "status": "partial",
   "theorems": [
    "C74_effective",
    "C74_upward",
    "C74_guard",
    "C74_yes",
    "C74_yes_inherited",
    "C74_yes_refuted"
   ],
   "note": "The last part is false for a logger without outputs of its own: its parent decides again by its own level, so that a logger set to Trace below one set to Error logs nothing below Error although it is enabled (C74_yes_refuted, in general C74_yes_inherited). Proved otherwise."
  },
  {
   "property": "C75",
   "status": "partial",
   "theorems": [
    "C75_as_specified",
    "C75_nothing_lost",
    "C75_newest_backups",
    "C75_below_limits",
    "C75_alone",
    "C75_file_size",
    "C75_newest_record_refuted",
    "C75_limit_refuted",
    "C75_early_refuted",
    "C75_overlapping_below_limits",
    "C75_overlapping_all",
    "C75_overlapping_rolls_refuted",
    "C75_overlapping_fails_refuted"
   ],
   "note": "Proved when calls do not overlap: all writes complete, the directory is that of an independent specification in which a writer goes on in its old file after another has rolled it, nothing is lost without a maximum (with one, the newest files that all maxima allow are there, under their numbers), order per writer, and a bound on the size of a file by the sum of the limits. Proved for overlapping calls as long as no limit is reached. False: the newest record may be in a backup and be removed with it (C75_newest_record_refuted), a file may grow beyond one limit (C75_limit_refuted), a small file may become a backup (C75_early_refuted); when two writers roll at the same time one backup may overwrite another (C75_overlapping_rolls_refuted), or one writer fails for ever (C75_overlapping_fails_refuted), although the source says that append mode avoids any race conditions."
  },
  {
   "property": "C76",
   "status": "partial",
   "theorems": [
    "C76_as_specified",
    "C76_backups",
    "C76_newest_backups",
    "C76_nothing_lost",
    "C76_one_period",
    "C76_period_lost",
    "C76_lost_refuted",
    "C76_present_lost_refuted"
   ],
   "note": "False whenever two writers that wrote in one period write in the next: the second renames the file that the first has just begun over the backup of the old period, which is lost; with backups set to 1 it then removes that file, too (C76_lost_refuted, C76_present_lost_refuted; for all such histories C76_period_lost). Proved: every Write is complete; what exactly is in which file, by an independent specification with retention; the newest backups are there, and nothing is lost if all are kept, when no two writers find the same period over."
  },
  {
   "property": "C77",
   "status": "partial",
   "theorems": [
    "C77_nothing_open",
    "C77_settled",
    "C77_settled_exploded",
    "C77_placed_complete",
    "C77_placed_complete_exploded",
    "C77_buffer_removed",
    "C77_reported",
    "C77_coarse",
    "C77_one_log_file",
    "C77_closed",
    "C77_leftover_refuted"
   ],
   "note": "False in one place: when the final rename fails, the temporary archive stays behind (C77_leftover_refuted). All else is proved, also that the coarser model of archiving in RollModel.v has all the runs (C77_coarse)."
  },
  {
   "property": "C78",
   "status": "proved",
   "theorems": [
    "C78_bounded",
    "C78_no_deadlock",
    "C78_ended",
    "C78_goroutine_ends",
    "C78_all_sent",
    "C78_fair",
    "C78_fair_or_crashed",
    "C78_orderly"
   ],
   "note": "A panicking Send or Close (C33) counts as ended; that an event pushed behind the closing mark is not written is C33_event_lost_refuted."
  },
  {
   "property": "C79",
   "status": "partial",
   "theorems": [
    "C79_final",
    "C79_undisturbed",
    "C79_same_length_partial",
    "C79_fault_refuted",
    "C79_neither_list_refuted",
    "C79_mixed_refuted",
    "C79_flag_refuted"
   ],
   "note": "False in the code for lists of different lengths: a log call overlapping one SetOutputs can use memory beyond the array (C79_fault_refuted) or send to neither list (C79_neither_list_refuted), and two overlapping calls of SetOutputs can leave the logger broken for good (C79_mixed_refuted) or with too low a flag (C79_flag_refuted). Proved: the final state with calls of SetOutputs in turn (C79_final), log calls that no SetOutputs overlaps (C79_undisturbed), and lists of one length (C79_same_length_partial). The model interleaves single words (no weaker memory order)."
  },
  {
   "property": "C80",
   "status": "partial",
   "theorems": [
    "C80_bounded",
    "C80_one_each",
    "C80_nothing_new",
    "C80_kept_refuted",
    "C80_closed_writes_refuted"
   ],
   "note": "The bound and the count hold (C80_bounded, C80_one_each, C80_nothing_new). Release is false in the code: an output that a new configuration no longer names stays in the table, with its goroutine if it is asynchronous, until Close (C80_kept_refuted), and a synchronous output goes on writing after Close (C80_closed_writes_refuted)."
  },
  {
   "property": "C81",
   "status": "partial",
   "theorems": [
    "C81_final",
    "C81_undisturbed",
    "C81_one_type_partial",
    "C81_torn_refuted",
    "C81_nil_refuted",
    "C81_first_refuted",
    "C81_mixed_refuted"
   ],
   "note": "False in the code for formatters of different types: the methods of one may be called on the data of another (C81_torn_refuted), on no data at all for the first formatter (C81_first_refuted), on nil when the formatter is taken away (C81_nil_refuted); two overlapping calls of SetFormatter can leave the output broken for good (C81_mixed_refuted). Proved: the final state with calls of SetFormatter in turn (C81_final), uses that no SetFormatter overlaps (C81_undisturbed), and formatters of one type, as all built by the library are (C81_one_type_partial). The model interleaves single words (no weaker memory order)."
  },
  {
   "property": "C82",
   "status": "partial",
   "theorems": [
    "C82_accepted",
    "C82_loggers",
    "C82_levels",
    "C82_outputs_partial",
    "C82_prints",
    "C82_quiet",
    "C82_size",
    "C82_size_refuted",
    "C82_late_refuted",
    "C82_names_refuted"
   ],
   "note": "False in the code in three places: the size 1M is taken for ten megabytes, in every such program (C82_size, C82_size_refuted); name_mode prefix gives 1.rf.log instead of rf.log.1, postfix rf.log.1 instead of rf.1.log (C82_names_refuted); if any logger was got before the file is loaded, all outputs keep the default layout, because formats and outputs are found by the names f1 and c1 of the default configuration (C82_late_refuted). The rest is proved; C82_outputs_partial leaves out the size."
  },
  {
   "property": "C83",
   "status": "partial",
   "theorems": [
    "C83_on_disk",
    "C83_end_to_end",
    "C83_nothing_lost",
    "C83_own_period_refuted"
   ],
   "note": "False in the code for the period: the worker reads the clock when it writes, so an event waiting in the channel or in the buffer goes into the file of the period of the flush (C83_own_period_refuted: logged before a reading at 01, found in the file of 02). The rest is proved with the period of the write."
  },
  {
   "property": "C84",
   "status": "partial",
   "theorems": [
    "C84_bounded",
    "C84_one_process",
    "C84_many_processes",
    "C84_once_never_rolls",
    "C84_restarts_refuted",
    "C84_configured",
    "C84_sync",
    "C84_async",
    "C84_time_once_never_rolls",
    "C84_time_refuted"
   ],
   "note": "False over restarts: whether to roll is decided before the log file is opened, so a process never rolls at its first write. Processes that write once each (a command that logs one line) never roll, by size or by time: the log file has no bound (C84_once_never_rolls, C84_restarts_refuted for every N; C84_time_once_never_rolls, C84_time_refuted). Proved: the bound for one process, sync and async; each start adds at most one write (C84_bounded); if no process writes exactly once the bound is one write more, whatever the number of processes (C84_many_processes). Without faults; between writes."
  },
  {
   "property": "C85",
   "status": "partial",
   "theorems": [
    "C85_files",
    "C85_own_faults_partial",
    "C85_sync",
    "C85_async",
    "C85_files_time",
    "C85_sync_time",
    "C85_async_time",
    "C85_nobody_is_told",
    "C85_one_fault",
    "C85_one_fault_async",
    "C85_one_fault_time",
    "C85_own_faults_refuted",
    "C85_rename_mixes_refuted"
   ],
   "note": "Order and content proved for any faults, sync and async, with and without retention (C85_files, C85_sync, C85_async; by time, for a clock that does not come back, C85_files_time, C85_sync_time, C85_async_time). False that only the disturbed records are lost: one failing close or listing during a roll loses that record and every later one, although nothing else fails (C85_one_fault for every program and configuration by size, C85_one_fault_async, C85_own_faults_refuted); by time likewise (C85_one_fault_time). Proved for faults in writing, chmod, removing and archiving, by size and by time (C85_own_faults_partial, and in C85_sync and C85_async). False that the application can tell: answers and loggers do not depend on the disk (C85_nobody_is_told; Send and flush drop the error). By time a failed rename also puts the records of two periods into one backup (C85_rename_mixes_refuted)."
  },
  {
   "property": "C86",
   "status": "partial",
   "theorems": [
    "C86_nothing_lost",
    "C86_others_kept",
    "C86_own_period_refuted"
   ],
   "note": "Proved: content, order, one backup per period (C86_nothing_lost) and other files (C86_others_kept; retention may remove backups). False: each record in the file of its period; what a process leaves in the log file goes into the backup of the period in which the next process first writes (C86_own_period_refuted)."
  },
  {
   "property": "C87",
   "status": "proved",
   "theorems": [
    "C87_runs",
    "C87_runs_time"
   ],
   "note": "By size (C87_runs, maxRolls <= 0, numbers of backups left) and by time (C87_runs_time, the clock does not come back). A run starts in any reachable state of the program with the file writer unused; two runs at the same time are not covered."
  },
  {
   "property": "C88",
   "status": "partial",
   "theorems": [
    "C88_own_period_partial",
    "C88_restarts_partial",
    "C88_restart_loses_refuted",
    "C88_retention_refuted"
   ],
   "note": "No configuration sets fullName (C52); the branch is in the code. Proved without faults, with maxRolls <= 0 and no files of these periods at the start: for one process (C88_own_period_partial), and for any number of processes, one after the other, if the clock stands still during the first write of each (C88_restarts_partial). False without that condition: a later process may give its file the name of an earlier process's file and destroy it, because the period and the name of the file come from two readings of the clock (C88_restart_loses_refuted); with maxRolls = 1 no backup is kept, because the log file is itself in the history and counts twice (C88_retention_refuted)."
  }
 ]
}
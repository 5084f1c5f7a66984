{
"C01": {"note": "Exact for every string, every iteration order of the level table and every non-ASCII case table; case-insensitive comparison for ASCII input; for any input given that only the dotless i and the long s have ASCII letters as their upper case, and then the dotless i counts as an i (C01_LevelFrom_any_text); round trip."},
"C02": {"note": "Any reachable state; below the effective level the world is literally unchanged."},
"C03": {"note": "Effective level is stated by names only (no parent pointers); own levels change only by SetLevel, first creation and configuration."},
"C04": {"note": "Level -1/0 handling included: setting Uninitialized makes a logger follow its parent again."},
"C05": {"note": "Any interleaving of other calls between the two GetLogger calls."},
"C06": {"note": "Parent given by the longest proper prefix before a separator; invalid UTF-8 names included."},
"C07": {"note": "Route is described by names; contents of synchronous outputs and syslog included. Asynchronous outputs: see C31-C35. Totality needs outputs whose formatter is none, a parsed layout or a user function, and that return from Send when they are the user's own."},
"C08": {"note": "All deliveries of one call agree except for the lazily completed caller information."},
"C09": {"note": "False as stated: a logger that uses an ancestor's outputs drops every field (refuted by a witness, and the exact behaviour proved). Holds when the logger's own outputs are used."},
"C10": {"note": "Lookup and independence of calls, for all field lists and histories."},
"C11": {"note": "Proved for level methods at every inheritance depth. False for Printf called directly: the frame above the user's is reported (witness and exact statement)."},
"C12": {"note": "split_func is proved equal to an independent inductive description of the split."},
"C13": {"note": "Acceptance is exactly well-formedness without the logger-name clause. False for that clause: two entries for one logger are accepted (witness); the first entry is the one that counts."},
"C14": {"note": "The whole world is unchanged; also through LoadConfig and LoadConfigFile."},
"C15": {"note": "Any reachable state and any visiting order. Order independence assumes creators that answer the same entry consistently; equality is up to the memory addresses of new outputs."},
"C16": {"note": "False for loggers that came into being as ancestors of another logger: they are created without looking at their entry (witness and general statement). Proved for every name that has no logger yet."},
"C17": {"note": "False: outputs and formats are cached by name and never rebuilt (witness and general statement). Proved for outputs and formats that did not exist before."},
"C18": {"note": "False twice: an unsupported extension is accepted and empties the configuration; a parse error is ignored (witnesses, and a general statement for the former). Proved for supported extensions and bytes that parse. Extensions are any text; for those above ASCII the theorems assume that no character but the dotted I and the Kelvin sign has an ASCII letter as its lower case."},
"C19": {"note": "False: a readable file whose last path element has no dot panics. Exact characterisation of when it panics, for creators that do not panic."},
"C20": {"note": "Any history; the object's settings are also constant."},
"C21": {"note": "Lossless, and the cut is the unique leftmost one."},
"C22": {"note": "Well-formed layouts are parsed as written; literal parts never contain a verb."},
"C23": {"note": "Both directions."},
"C24": {"note": "fmt.Sprintf/Sprint and time.Format are parameters of the model; the context must answer lookups and must not bind the reserved caller key to a foreign type (otherwise the code panics, see the examples)."},
"C25": {"note": "For histories in which formatters are set before outputs are attached and user formatters answer a documented flag; the captured site is the user's frame (C11)."},
"C26": {"note": "Any event sequence, any threshold, default line / text layout / user formatter; the specification determines the writes."},
"C27": {"note": "Same as C26 for syslog calls."},
"C28": {"note": "All strings."},
"C29": {"note": "False as stated: the number before a unit is ignored, and settings of more than 20 bytes can give a negative size (both refuted by witnesses). Proved: plain numbers, positivity up to 20 bytes, and the exact set of values a unit can give."},
"C30": {"note": "Exact for every string."},
"C31": {"note": "Any number of goroutines with any calls, any schedule, queue and batch size. Texts are those of the synchronous outputs with the same formatter. Assumes the formatter is set before the first Send and that an event is not changed while queued."},
"C32": {"note": "False: the worker registers with the wait group only when it first runs, so Close may return at once (witness); also false while another Close is under way (witness). Proved when the worker had started and no Close had been called before."},
"C33": {"note": "False: a Send that passed the check panics on the closed channel; an event accepted behind the closing mark is never written; overlapping Closes panic; a nil formatter kills the process (witnesses). Proved for executions where Close overlaps with no other call: no panic, no deadlock, everything accepted can be and at the end is written."},
"C34": {"note": "Any schedule; batch sizes from 1."},
"C35": {"note": "Any interleaving with other goroutines; after some Close has returned."},
"C36": {"note": "Any directory that holds a log with canonical backup names (C37 covers other names), any number of writes and restarts; histories shown to exist. Assumes no other process touches the directory, backup numbers stay below 2^63, and the log file is not called .log4g_tmp when archiving is on."},
"C37": {"note": "Any directory contents, listing order, sort result, faults and crash points; at most maxRolls afterwards when no operation fails. Assumes no backup has number 2^63-1."},
"C38": {"note": "False when an archive is configured: the directory .log4g_tmp is created among the logs (witness). Proved otherwise, for both kinds of rolling, over all histories with faults, crashes and restarts; by time, readings of the clock must parse with the pattern, else the name they give is not a valid roll name."},
"C39": {"note": "False: a symbolic link with the next backup's name is overwritten, and after backup 2^63-1 comes -2^63, which may exist (witnesses). Proved for regular files and directories while no backup has number 2^63-1."},
"C40": {"note": "Any crash points, faults and restarts in any history. File-system operations are atomic in the model except Write; nothing is said about losing page cache."},
"C41": {"note": "False: after a failed close, listing, rename or re-open every later write fails until restart (witness for each). Proved: every reachable writer either works again as soon as faults stop or is stuck so; faults of write, chmod, remove and archiving never stop it. By time (C41_time_works_waits_or_stuck_partial): every reachable writer works, or works in one period only, or is stuck; so one failure to open the new file stops it for good if its next write comes in a later period (C41_time_waits_refuted)."},
"C42": {"note": "Appending for directories with canonical backup names; greater numbers for any directory, with any faults and crashes."},
"C43": {"note": "Any directory, any sequence of writes of one process, readings that are non-empty and never come back (shown for clocks in order with distinct period names). What a former process left in the log file counts to the first period. With maxRolls positive a backup may be gone."},
"C44": {"note": "False when the clock shows a period name again (pattern 15, say): witnesses that the earlier backup is overwritten and, with retention, the new one removed. Proved for every clock, directory and fault: other entries stay unless retention removes them; the backup of a period that had none is made and kept."},
"C45": {"note": "False for every configured output: the archive path is the log directory, nothing is ever archived and backups are removed. Proved for archive paths that are no directory and runs without faults, per write and over histories."},
"C46": {"note": "Copy is modelled with a fault or a short read or write possible at every operation. Proved for all formats, wrapped or not: success means exactly the source's files were appended (directories left out from tar to tar); on failure a beginning was appended, the last file possibly cut; no panic; success without faults. Refuted: a source file with an empty name gets the temporary file's name through copyBuffer; gzip to gzip streams without NextFile, so a gzip destination takes several files and loses the names. The encodings of the formats are not modelled."},
"C47": {"note": "Goroutines interleave at every field access, lock operation and file-system operation, with any faults. Proved: the writes happen one after the other in an order respecting each goroutine's, with the same results and files (so every theorem about histories applies), and no deadlock. The public method Close takes no lock; nothing in the library calls it, so it is not among the calls here."},
"C48": {"note": "Proved for all schedules and any number of goroutines and calls, with the queues and workers of asynchronous outputs that Close waits for: in every reachable state all calls have returned or a call or worker can go on (C48_no_deadlock), it is a call at the latest after the workers have run (C48_a_call_goes_on), no run is infinite (C48_runs_end), so every schedule ends with all calls returned (C48_all_return); every access to guarded fields is made by the lock holder (C48_guarded); the calls are those of the sequential model taken apart at lock operations, and when a creator panics in one it leaves the state that the sequential model leaves (C48_same_calls). Hypothesis: no output panics in Close. Without it the property fails: C48_panicking_close_sticks exhibits a run in which a recovered panic in an output's Close leaves the manager locked for ever (Close has no deferred unlock)."},
"C49": {"note": "Any chunking, with errors at any point."},
"C50": {"note": "Calls are sequential (concurrent writers: C47); the output is synchronous; the writer runs on an initially log-free directory (C50_end_to_end) or on any earlier log (C50_suffix); no other process writes the directory; the formatter of the output is not exchanged meanwhile."},
"C51": {"note": "Proved for all schedules, including panicking creators and outputs."},
"C52": {"note": "ConfSpec relates an entry's values to the output without the model's parsing functions. For strings that are neither empty nor the number's decimal form (e.g. with junk) only the range is stated; C28 and C29 say more."},
"C53": {"note": "Permissions are arguments of the operations. Whether the operating system honours them (umask, existing files) is outside."},
"C54": {"note": "Concerns the calls of Close. What Close does inside an asynchronous output is C32 and C35; the console output root gets without a configuration is not managed, hence not closed (it is synchronous)."},
"C55": {"note": "Calls that register creators are left out (a creator registered meanwhile may or may not be seen). Loggers made only on the way to one below them are excluded: they need not follow their entry even without concurrency (C16). Only returned, panic-free runs: a panicking user creator can leave the configuration half applied."},
"C56": {"note": "Composes C07, C08, C11, C21 and C24 on the state init sets up. For a program counter the runtime knows the function of; level methods only (Printf called directly is one frame off, C11)."},
"C57": {"note": "Composition of the logger, channel and directory models. Closing must not overlap with other calls (C33 has the witnesses); one goroutine logs. C57_on_disk holds for any goroutines and any schedule."},
"C58": {"note": "False as stated: a call whose logger loses its own outputs between the test and the loop sends nothing although its parent's outputs were there (lost); a call can read the old level of a logger and the new one of its parent and send an event that was disabled all along (torn_level); SetOutputs stores the outputs before the flag, so that a call in between reports a wrong call site (site). Proved in general: own events, one whole list of outputs, no panic, why nothing was sent, equality with the single call when alone. Proved when nobody touches the logger and its ancestors: goes exactly where the single call goes (undisturbed); when at all moments the way is open and leads to the same logger: one of that logger's lists (steady_way). Fields are read and stored atomically in the model; a torn slice header is not covered."},
"C59": {"note": "Composition of the logger model with the channel and the lock models. Only log calls run at the same time here; loggers changing meanwhile is C58, closing while others log is C33."},
"C60": {"note": "False when a roll is due: no write succeeds after such a close (witness, and for all such histories); likewise after a close that fails, and rolling by time in a later period. Proved otherwise. The library itself never calls this Close."},
"C61": {"note": "False in the code for three kinds of arguments (witnesses): a field or context value under the key __caller_info, a nil context, and LoadConfigFile of a readable file without extension. Proved: with these excluded from the call itself (proper, SafeSpec.v) it returns after every history, recovered panics of improper calls included, that brings in no formatter, creator or output of the user's own that panics (fair_reach); and no event sent by a proper call kills an asynchronous output's worker. nil outputs and nil loggers are excluded; Close and Send of asynchronous outputs are C33."},
"C62": {"note": "False in the last part: signal.Notify takes the default effect of the two signals away and the handler only closes, so the process lives until it returns of itself (C62_lives_on, for all traces), and later signals do nothing (C62_first_only; C62_ends_refuted shows a process that got three of them, still runs and has an open asynchronous output). Proved: at most one close and only after a signal; after a signal the handler needs at most two steps of its own, in every state; it closes exactly the managed outputs, once each. One API call is one step; that the close of an asynchronous output itself ends is C54 and C32."},
"C63": {"note": "False with two accepted configuration calls: the lock is given up between storing the configuration and telling the loggers (C63_configurations_refuted: the settings of a call that returned nil never reach a logger that only its configuration names), and with a single one, when a creator is registered meanwhile (C63_one_configuration_refuted: two outputs of one configuration are made by different creators, which no order explains). Proved for all calls that do not store a configuration, once the root logger exists (C63_atomic_partial), and for GetLogger calls from the very start (C63_getlogger); panics of creators and of Close included. The order is a history of WorldModel.v (C63_is_a_history), and what it leads to is reached by a history of WorldSpec.v (C63_reachable, C63_at_rest_partial), so that the theorems about histories apply when the calls are over; steps in which a creator panicked keep what they had stored. What configuration calls among others leave is C55."},
"C64": {"note": "No faults; the readings of the clock (exposed by the theorem) are not empty and never return to an earlier period, which C43_monotone_clock derives from a clock that does not go back; nobody else writes to the directory; base names only (rc_fullName false). With archiving, the log file and the backups must not be called .log4g_tmp."},
"C65": {"note": "False for goroutines that log at the same time: the bytes.Buffer has no lock, so that a record can vanish although both calls return (C65_overlap_refuted), and a call can panic (C65_panic_refuted). Proved for calls that do not overlap (C65_in_turn, C65_alone_returns), from the log call to String (C65_end_to_end); and for all interleavings that what was there when no call was in progress stays (C65_quiet_stays). bytes.Buffer is library code: its Write is taken apart at its accesses to the slice, a slice header being read and stored at once."},
"C66": {"note": "False when archiving fails: the errors of archiveExplodedLogs are dropped and the backup is removed all the same (C66_failed_archive_refuted, for each step); and an archive left by an earlier log is replaced (C66_archive_replaced_refuted). Proved: the log directory is treated as without archiving, so that C36-C44 apply (C66_like_unarchived); whatever fails and wherever the process dies an archive is untouched or holds exactly its backup (C66_archives_hold_backups); without faults what is removed is archived (C66_removed_is_archived), and by size nothing is lost over any history of writes and restarts (C66_nothing_lost). No configuration sets archiveExploded: only code in the package can. The archive directory is taken to be another one than the log directory."},
"C67": {"note": "False when an output gets a layout with package or function while it is attached: the logger's flag is stale, the call captures nothing, and those who format the event add to it; one can read the package another has just written without the function (C67_torn_refuted). Proved: nobody writes when formatters are set before the output is attached (C67_undisturbed), outputs all get the same event (C67_same_event), and the fine-grained programs are, undisturbed, the functions of LayoutModel.v (C67_alone, C67_alone_only)."},
"C68": {"note": "False in two places: the logger whose making was stopped exists and is not set up when it is asked for again (C68_not_set_up_refuted), and a root logger whose making was stopped is never put into the map of loggers, so that no configuration reaches it any more and what is logged through it goes nowhere (C68_root_refuted, C68_root_lost). Proved otherwise; the histories ([reach], [steps], [calm_reach], [plain_reach]) of C02-C11, C13-C20, C25 and of the later properties built on them (C50, C54, C56, C57, C59, C62-C65) have recovered panics as steps (those of log calls too, see C71), except those that stop the making of root."},
"C69": {"note": "Proved for every history. An output that exists is not made anew when its type is registered anew (C69_nothing_else, C69_made_by), also not by a later configuration (C17)."},
"C70": {"note": "False in the code for three of the four: SetConfig keeps the pointer (C70_config_refuted), SetOutputs keeps the slice (C70_outputs_refuted), and the worker of an asynchronous output formats the arguments as they are when it gets to the event (C70_arguments_refuted). Proved: fields are copied (C70_fields, C70_writers); a caller that stores into nothing the library still uses is not noticed (C70_unaffected_partial), and what it still uses is said exactly (C70_given, C70_arguments_kept, C70_route, C70_loaded, C70_rejected, C70_replaced). Nothing is missing."},
"C71": {"note": "The last sentence is false: the outputs after the one that panicked get nothing (C71_others_refuted). Proved otherwise. What panics is the context, a user's formatter, or an output of the user's own."},
"C72": {"note": "Proved for the state of loggers, manager and outputs (World), where a call to Send of an asynchronous output enqueues without waiting and a rolling file is written like any other; that a full queue makes a call wait, and that what was written decides when a file rolls, is in the models of Async and Roll."},
"C73": {"note": "The level is proved. The text is false for the methods in f without operands: the format is taken as it is, so that Infof(\"100%%\") logs 100%% where Sprintf gives 100% (C73_message_refuted, in general C73_no_operands), and with an empty format, where the operands are printed as by Sprint (C73_empty_format). Proved otherwise; that Sprint of nothing is empty is assumed."},
"C74": {"note": "The last part is false for a logger without outputs of its own: its parent decides again by its own level, so that a logger set to Trace below one set to Error logs nothing below Error although it is enabled (C74_yes_refuted, in general C74_yes_inherited). Proved otherwise."},
"C75": {"note": "Proved when calls do not overlap: all writes complete, the directory is that of an independent specification in which a writer goes on in its old file after another has rolled it, nothing is lost without a maximum (with one, the newest files that all maxima allow are there, under their numbers), order per writer, and a bound on the size of a file by the sum of the limits. Proved for overlapping calls as long as no limit is reached. False: the newest record may be in a backup and be removed with it (C75_newest_record_refuted), a file may grow beyond one limit (C75_limit_refuted), a small file may become a backup (C75_early_refuted); when two writers roll at the same time one backup may overwrite another (C75_overlapping_rolls_refuted), or one writer fails for ever (C75_overlapping_fails_refuted), although the source says that append mode avoids any race conditions."},
"C76": {"note": "False whenever two writers that wrote in one period write in the next: the second renames the file that the first has just begun over the backup of the old period, which is lost; with backups set to 1 it then removes that file, too (C76_lost_refuted, C76_present_lost_refuted; for all such histories C76_period_lost). Proved: every Write is complete; what exactly is in which file, by an independent specification with retention; the newest backups are there, and nothing is lost if all are kept, when no two writers find the same period over."},
"C77": {"note": "False in one place: when the final rename fails, the temporary archive stays behind (C77_leftover_refuted). All else is proved, also that the coarser model of archiving in RollModel.v has all the runs (C77_coarse)."},
"C78": {"note": "A panicking Send or Close (C33) counts as ended; that an event pushed behind the closing mark is not written is C33_event_lost_refuted."},
"C79": {"note": "False in the code for lists of different lengths: a log call overlapping one SetOutputs can use memory beyond the array (C79_fault_refuted) or send to neither list (C79_neither_list_refuted), and two overlapping calls of SetOutputs can leave the logger broken for good (C79_mixed_refuted) or with too low a flag (C79_flag_refuted). Proved: the final state with calls of SetOutputs in turn (C79_final), log calls that no SetOutputs overlaps (C79_undisturbed), and lists of one length (C79_same_length_partial). The model interleaves single words (no weaker memory order)."},
"C80": {"note": "The bound and the count hold (C80_bounded, C80_one_each, C80_nothing_new). Release is false in the code: an output that a new configuration no longer names stays in the table, with its goroutine if it is asynchronous, until Close (C80_kept_refuted), and a synchronous output goes on writing after Close (C80_closed_writes_refuted)."},
"C81": {"note": "False in the code for formatters of different types: the methods of one may be called on the data of another (C81_torn_refuted), on no data at all for the first formatter (C81_first_refuted), on nil when the formatter is taken away (C81_nil_refuted); two overlapping calls of SetFormatter can leave the output broken for good (C81_mixed_refuted). Proved: the final state with calls of SetFormatter in turn (C81_final), uses that no SetFormatter overlaps (C81_undisturbed), and formatters of one type, as all built by the library are (C81_one_type_partial). The model interleaves single words (no weaker memory order)."},
"C82": {"note": "False in the code in three places: the size 1M is taken for ten megabytes, in every such program (C82_size, C82_size_refuted); name_mode prefix gives 1.rf.log instead of rf.log.1, postfix rf.log.1 instead of rf.1.log (C82_names_refuted); if any logger was got before the file is loaded, all outputs keep the default layout, because formats and outputs are found by the names f1 and c1 of the default configuration (C82_late_refuted). The rest is proved; C82_outputs_partial leaves out the size."},
"C83": {"note": "False in the code for the period: the worker reads the clock when it writes, so an event waiting in the channel or in the buffer goes into the file of the period of the flush (C83_own_period_refuted: logged before a reading at 01, found in the file of 02). The rest is proved with the period of the write."},
"C84": {"note": "False over restarts: whether to roll is decided before the log file is opened, so a process never rolls at its first write. Processes that write once each (a command that logs one line) never roll, by size or by time: the log file has no bound (C84_once_never_rolls, C84_restarts_refuted for every N; C84_time_once_never_rolls, C84_time_refuted). Proved: the bound for one process, sync and async; each start adds at most one write (C84_bounded); if no process writes exactly once the bound is one write more, whatever the number of processes (C84_many_processes). Without faults; between writes."},
"C85": {"note": "Order and content proved for any faults, sync and async, with and without retention (C85_files, C85_sync, C85_async; by time, for a clock that does not come back, C85_files_time, C85_sync_time, C85_async_time). False that only the disturbed records are lost: one failing close or listing during a roll loses that record and every later one, although nothing else fails (C85_one_fault for every program and configuration by size, C85_one_fault_async, C85_own_faults_refuted); by time likewise (C85_one_fault_time). Proved for faults in writing, chmod, removing and archiving, by size and by time (C85_own_faults_partial, and in C85_sync and C85_async). False that the application can tell: answers and loggers do not depend on the disk (C85_nobody_is_told; Send and flush drop the error). By time a failed rename also puts the records of two periods into one backup (C85_rename_mixes_refuted)."},
"C86": {"note": "Proved: content, order, one backup per period (C86_nothing_lost) and other files (C86_others_kept; retention may remove backups). False: each record in the file of its period; what a process leaves in the log file goes into the backup of the period in which the next process first writes (C86_own_period_refuted)."},
"C87": {"note": "By size (C87_runs, maxRolls <= 0, numbers of backups left) and by time (C87_runs_time, the clock does not come back). A run starts in any reachable state of the program with the file writer unused; two runs at the same time are not covered."},
"C88": {"note": "No configuration sets fullName (C52); the branch is in the code. Proved without faults, with maxRolls <= 0 and no files of these periods at the start: for one process (C88_own_period_partial), and for any number of processes, one after the other, if the clock stands still during the first write of each (C88_restarts_partial). False without that condition: a later process may give its file the name of an earlier process's file and destroy it, because the period and the name of the file come from two readings of the clock (C88_restart_loses_refuted); with maxRolls = 1 no backup is kept, because the log file is itself in the history and counts twice (C88_retention_refuted)."}
}

{"id": "C01", "title": "Level names are parsed case-insensitively and deterministically", "statement": "LevelFrom(s) returns level L (other than Uninitialized) exactly when s, upper-cased, is L's name; for ASCII input that means s equals the name up to letter case. Every other string gives Uninitialized. The answer does not depend on the iteration order of the level table, and LevelFrom(L.String()) == L for every named level.", "quantifier": "all byte strings s; all iteration orders of the Go map; all levels", "why_tests_cant": "infinitely many strings, and Go randomises map iteration so a test sees one order per run", "anchors": ["api/logger_level.go:LevelFrom", "api/logger_level.go:levelStrings", "api/logger_level.go:Level.String"]}
{"id": "C02", "title": "A log call below the effective level has no effect", "statement": "If the level of a log call is lower than the effective level of the logger, no output receives anything and no other state changes. In particular a logger whose effective level is Off emits nothing through Trace/Debug/Info/Warn/Error/Critical and their f-variants. If a level is enabled, every higher level is enabled.", "quantifier": "all histories of API calls, all loggers, all levels (any int), all writers (plain, WithFields, WithCtx), all formats and arguments", "why_tests_cant": "the property is a negative statement over all reachable logger trees and all call arguments", "anchors": ["internal/logger.go:defWriter.write", "internal/logger.go:defLogger.LevelEnabled"]}
{"id": "C03", "title": "Effective level is inherited from the nearest ancestor that has one", "statement": "Logger.Level() returns the level most recently set on the logger itself or, if that is Uninitialized, on its nearest ancestor (by name) that has one; Off if no logger on the way up to root has one.", "quantifier": "all histories of API calls, all loggers at any depth", "why_tests_cant": "depth of the tree and history of SetLevel/SetConfig calls are unbounded", "anchors": ["internal/logger.go:defLogger.Level", "internal/logger_factory.go:getParent"]}
{"id": "C04", "title": "SetLevel is local to the subtree below the logger", "statement": "SetLevel(lvl) on a logger changes the effective level only of that logger and of loggers below it in the hierarchy that have no closer ancestor-or-self with its own level. After SetLevel with a level other than Uninitialized the logger itself reports exactly lvl. Outputs, names and hierarchy are unchanged.", "quantifier": "all histories, all pairs of loggers, all levels", "why_tests_cant": "frame property over all other loggers in any reachable tree", "anchors": ["internal/logger.go:defLogger.SetLevel", "internal/logger.go:defLogger.Level"]}
{"id": "C05", "title": "GetLogger returns one logger per name, for ever", "statement": "Two GetLogger calls with the same name return the same logger, whatever happens in between. GetLogger(\"\") and GetLogger(\"root\") return the same logger. Different names (other than that pair) give different loggers, and a logger's name is the name it was asked for.", "quantifier": "all histories of API calls between and before the two calls, all names", "why_tests_cant": "identity has to survive every interleaved history", "anchors": ["internal/logger_factory.go:factory.GetLogger", "internal/logger_factory.go:createLogger", "internal/logger_factory.go:getRootLogger"]}
{"id": "C06", "title": "The logger hierarchy is determined by names only", "statement": "The parent of logger n is the logger named by the longest non-empty proper prefix of n that ends just before a '/' or '.', or root if there is none; this holds whatever order loggers were created in. Following parents from any logger terminates at root.", "quantifier": "all names (any bytes), all creation orders and histories", "why_tests_cant": "creation orders and name shapes are unbounded; termination is an invariant", "anchors": ["internal/logger_factory.go:getParent", "internal/logger_factory.go:createLogger", "log4g.go:GetLogger"]}
{"id": "C07", "title": "A log call is delivered exactly once to the right outputs and nowhere else", "statement": "A log call is delivered to the output list of the nearest logger-or-ancestor that has outputs, once per list entry and in list order, provided the level is enabled at every logger on the way; otherwise nothing is delivered. Every other output, and all configuration, is untouched.", "quantifier": "all histories, all loggers, all levels, all writers, all arguments", "why_tests_cant": "exactly-once and frame over every reachable tree and output sharing pattern", "anchors": ["internal/logger.go:defWriter.write", "internal/logger.go:defLogger.SetOutputs"]}
{"id": "C08", "title": "The delivered event carries the call's own data", "statement": "The event an output receives has the name of the logger that was called (not of the ancestor whose outputs are used), the call's level, format, arguments and time. All events a single call delivers are equal.", "quantifier": "all histories, all loggers, all inheritance depths, all arguments", "why_tests_cant": "holds for every inheritance depth", "anchors": ["internal/logger.go:defWriter.write", "api/logger_api.go:Event"]}
{"id": "C09", "title": "Extension fields given by WithFields/WithCtx reach the output", "statement": "A message logged through WithFields(...) or WithCtx(ctx) is delivered with exactly those fields in the event context, whichever logger's outputs are used.", "quantifier": "all histories, all loggers, all field lists and contexts", "why_tests_cant": "the inherited-outputs case depends on the whole configuration history", "anchors": ["internal/logger.go:defLogger.WithFields", "internal/logger.go:defLogger.WithCtx", "internal/logger.go:defWriter.write"]}
{"id": "C10", "title": "Field lookup: last binding wins, and fields do not leak", "statement": "In the context built by WithFields(fs), looking up key k gives the value of the last field in fs with key k and nil if there is none. Using a WithFields writer never changes what later calls on the logger itself, or on other writers, deliver.", "quantifier": "all field lists, all keys, all histories", "why_tests_cant": "unbounded lists with duplicates; non-interference over histories", "anchors": ["internal/logger.go:defLogger.WithFields", "internal/format_parser.go:extendFormatFunc"]}
{"id": "C11", "title": "Caller information names the user's call site", "statement": "When caller information is captured for a call made through a level method, the reported file/line/function is that of the frame that called the method (shifted by SetCallerSkip), whatever the depth of output inheritance. The same should hold when Printf is called directly.", "quantifier": "all user call stacks, all inheritance depths, all skip values >= 0, all level methods and Printf", "why_tests_cant": "stack depth and inheritance depth are unbounded", "anchors": ["internal/logger.go:callerSkip", "internal/logger.go:defWriter.write", "internal/logger_callerinfo.go:getCallerInfo"]}
{"id": "C12", "title": "Function names are split into package path and function without loss", "statement": "For every runtime function name of the form path/pkg.func the package and function strings rejoin to the original name with a single dot, the function part starts after the first dot of the last path element, and names with no such dot give ??? for both. Slicing never goes out of range.", "quantifier": "all function name strings", "why_tests_cant": "unbounded strings; index arithmetic with LastIndex/Index", "anchors": ["internal/logger_callerinfo.go:getCallerInfo", "internal/format_parser.go:shortfuncFormatFunc"]}
{"id": "C13", "title": "An accepted configuration is well-formed", "statement": "If SetConfig accepts a configuration then format names, output names and logger names are pairwise distinct, every output's format exists and every logger's outputs exist; if it is rejected, one of these fails.", "quantifier": "all configurations", "why_tests_cant": "unbounded lists", "anchors": ["internal/logger_manager.go:validateConfig"]}
{"id": "C14", "title": "A rejected configuration changes nothing", "statement": "If SetConfig returns an error then the active configuration, all loggers, all outputs and all caches are exactly as before.", "quantifier": "all histories, all configurations", "why_tests_cant": "frame property over whole state", "anchors": ["internal/logger_manager.go:setConfig"]}
{"id": "C15", "title": "An accepted configuration is applied to every existing logger it names", "statement": "After SetConfig(cfg) returns nil, every logger that already exists and is named in cfg has the configured level, and outputs with the configured names in the configured order, provided the creators succeed; loggers not named in cfg are untouched. The result does not depend on the iteration order over loggers.", "quantifier": "all histories, all configurations, all iteration orders of the logger map", "why_tests_cant": "Go map order is random and the logger set is unbounded", "anchors": ["internal/logger_factory.go:notify", "internal/logger_manager.go:GetLoggerOutputs", "internal/logger_manager.go:setConfig"]}
{"id": "C16", "title": "A logger obtained after configuration is configured and inherits as documented", "statement": "After a configuration has been accepted, GetLogger(n) for a configured name n returns a logger with the configured level and outputs, and for a name without configuration a logger that behaves as its nearest configured ancestor.", "quantifier": "all histories, all names and configurations", "why_tests_cant": "depends on which loggers were created as intermediate ancestors in the past", "anchors": ["internal/logger_factory.go:GetLogger", "internal/logger_factory.go:getParent", "README.md"]}
{"id": "C17", "title": "Re-configuring an output or format takes effect", "statement": "After SetConfig(cfg) returns nil, the outputs attached to a configured logger behave as described by cfg's output and format entries (threshold, sink, layout), even if an output or format with the same name existed before.", "quantifier": "all histories of configurations", "why_tests_cant": "needs two configurations in sequence with name reuse", "anchors": ["internal/logger_manager.go:GetLoggerOutputs", "internal/logger_manager.go:defManager.outputs", "internal/logger_manager.go:defManager.formats"]}
{"id": "C18", "title": "LoadConfig reports bad input and keeps the old configuration", "statement": "LoadConfig returns an error and leaves the configuration unchanged when the extension is not yaml/yml/json (any case) or when the bytes do not parse.", "quantifier": "all byte strings, all extensions, all histories", "why_tests_cant": "unbounded inputs", "anchors": ["internal/logger_manager.go:LoadConfig"]}
{"id": "C19", "title": "LoadConfigFile fails cleanly on every path", "statement": "LoadConfigFile(path) returns (possibly an error) for every path string; it never panics.", "quantifier": "all path strings and file contents", "why_tests_cant": "all strings", "anchors": ["internal/logger_manager.go:LoadConfigFile"]}
{"id": "C20", "title": "One output instance per output name", "statement": "At any time there is at most one managed output instance per configured output name, loggers that name the same output share it, and once created it stays the same instance for the life of the manager.", "quantifier": "all histories", "why_tests_cant": "sharing invariant over unbounded histories", "anchors": ["internal/logger_manager.go:GetLoggerOutputs"]}
{"id": "C21", "title": "Layout parsing loses nothing", "statement": "If a layout is accepted, writing the parsed items back (literal text as is, verbs as %{name} or %{name:fmt}) gives the layout byte for byte.", "quantifier": "all layout byte strings", "why_tests_cant": "regular-expression matching over all strings", "anchors": ["internal/format_parser.go:StringFormatter.Parser", "internal/format_parser.go:formatRe"]}
{"id": "C22", "title": "Well-formed layouts are parsed as written", "statement": "A layout composed of literal texts that do not contain '%{' and verbs %{name} / %{name:fmt} (alphanumeric name; fmt non-empty, without '}' and newline, not ending in a backslash) with at least one verb is accepted and parsed to exactly these items in order. Text that looks like a verb but is malformed stays literal text.", "quantifier": "all lists of literals and verbs", "why_tests_cant": "unbounded lists of items; leftmost/lazy matching subtleties", "anchors": ["internal/format_parser.go:StringFormatter.Parser", "internal/format_parser.go:formatRe"]}
{"id": "C23", "title": "A layout is rejected exactly when it contains no verb", "statement": "NewTextFormatter returns an error if and only if the layout contains no substring of the verb form %{name} or %{name:fmt}.", "quantifier": "all layout byte strings", "why_tests_cant": "existential over all substrings", "anchors": ["internal/format_parser.go:StringFormatter.Parser", "internal/format_text.go:NewTextFormatter"]}
{"id": "C24", "title": "Formatting is the in-order concatenation of the items", "statement": "Format(e) is the concatenation, in layout order, of each literal verbatim and each verb rendered from the event by its documented meaning (module, msg, level, lvl, pid, program, time, line, files, packages, functions, extension field), a format suffix being applied as fmt verb '%'+suffix and, for time, as time layout.", "quantifier": "all layouts, all events, all behaviours of fmt and time", "why_tests_cant": "unbounded layouts and events", "anchors": ["internal/format_parser.go:StringFormatter.Format", "internal/format_parser.go:formatFuncs"]}
{"id": "C25", "title": "Caller information is captured at call time whenever a layout needs it", "statement": "If any output attached to a logger through SetOutputs or configuration has a layout using line/file verbs (or package/function verbs), then every event the logger creates carries caller information (with package and function) captured inside the call, so formatting never has to consult the stack later.", "quantifier": "all histories in which formatters are set before outputs are attached, all layouts", "why_tests_cant": "the flag is cached per logger across histories", "anchors": ["internal/logger.go:defLogger.SetOutputs", "internal/format_text.go:CallerInfoFlag", "internal/logger_callerinfo.go:getCallerInfo"]}
{"id": "C26", "title": "A synchronous output writes exactly the events at or above its threshold", "statement": "A non-asynchronous console/memory/rolling output performs exactly one write per event whose level is at least the threshold, in the order received, whose bytes are the formatter's result (or the default layout if there is no formatter), and nothing for other events.", "quantifier": "all event sequences, thresholds, formatters", "why_tests_cant": "unbounded sequences", "anchors": ["internal/output_base.go:baseOutput.Send", "internal/output_console.go", "internal/output_memory.go"]}
{"id": "C27", "title": "Syslog severity follows the level", "statement": "The syslog output sends each event at or above the threshold once: Trace and Debug as debug, Info as info, Warn as warning, Error as err, Critical as crit. Events of other levels are not sent.", "quantifier": "all events, all levels (any int), thresholds", "why_tests_cant": "all ints", "anchors": ["internal/output_syslog.go:syslogOutput.Send"]}
{"id": "C28", "title": "Numeric settings are always within their documented range", "statement": "For every string, queue_size resolves to 1..100000, batch_num to 1..500, backups to 1..20, and any permission to 1..0777 or the given default; a plain in-range number resolves to itself.", "quantifier": "all configuration strings", "why_tests_cant": "all strings including overflow and malformed numbers", "anchors": ["internal/output_base.go:GetQueueSize", "internal/output_base.go:GetBatchNum", "internal/output_rolling.go:getMaxRolls", "internal/output_rolling.go:getFileMode"]}
{"id": "C29", "title": "The size setting means what it says", "statement": "size 'n', 'nK', 'nM', 'nG' resolves to n, n*1024, n*1024^2, n*1024^3 bytes, and the resolved size is always positive.", "quantifier": "all configuration strings", "why_tests_cant": "all strings; integer overflow", "anchors": ["internal/output_rolling.go:getMaxSize"]}
{"id": "C30", "title": "Thresholds default to All and otherwise follow level names", "statement": "threshold resolves to the named level (any letter case) and to All for an empty or unknown string; it is never Uninitialized.", "quantifier": "all strings", "why_tests_cant": "all strings", "anchors": ["internal/output_base.go:GetThresholdLvl"]}
{"id": "C31", "title": "Asynchronous output preserves order, without loss or duplication", "statement": "At every moment the bytes written so far, followed by the formatted pending events, are exactly the formatted events (at or above the threshold) in the order the Sends were accepted; each sender's events keep their order.", "quantifier": "all numbers of senders, queue sizes, batch sizes, schedules of senders, the worker goroutine and the ticker", "why_tests_cant": "all interleavings", "anchors": ["internal/output_base.go:asyncOutput.Send", "internal/output_base.go:asyncOutput.loop", "internal/output_base.go:asyncOutput.flush"]}
{"id": "C32", "title": "Close of an asynchronous output waits until everything accepted before it is written", "statement": "When Close returns, every event whose Send returned before Close was called has been written to the underlying writer.", "quantifier": "all schedules, queue sizes and batch sizes", "why_tests_cant": "depends on goroutine start-up and scheduling", "anchors": ["internal/output_base.go:asyncOutput.Close", "internal/output_base.go:asyncOutput.loop", "api/logger_mange.go:Manager.Close"]}
{"id": "C33", "title": "Send and Close never panic and never lose an accepted event", "statement": "Whatever the interleaving of Send and Close calls, no call panics, and an event whose Send returned normally before the output was closed is eventually written.", "quantifier": "all schedules of any number of Send and Close calls", "why_tests_cant": "needs specific interleavings of the check and the channel operation", "anchors": ["internal/output_base.go:asyncOutput.Send", "internal/output_base.go:asyncOutput.Close"]}
{"id": "C34", "title": "At most batch_num - 1 events are held back, and a tick flushes all", "statement": "Between worker steps fewer than batch_num events are buffered; after a ticker step none is. Every non-tick write before Close contains exactly batch_num events.", "quantifier": "all schedules and batch sizes >= 1", "why_tests_cant": "all interleavings", "anchors": ["internal/output_base.go:asyncOutput.loop", "internal/output_base.go:asyncOutput.flush"]}
{"id": "C35", "title": "Repeated Close is harmless; Send after Close is a no-op", "statement": "After a Close has returned, another Close returns at once without effect and Send drops the event without blocking or panicking.", "quantifier": "all schedules after the first Close returned", "why_tests_cant": "all continuations", "anchors": ["internal/output_base.go:asyncOutput.Close", "internal/output_base.go:asyncOutput.Send"]}
{"id": "C36", "title": "Size rolling splits the stream exactly at write boundaries", "statement": "Without I/O faults, after any sequence of writes the rolled files in numeric order followed by the current file contain the written chunks in order, no chunk split or lost except in rolls removed by retention; a file is rolled exactly when its size has reached the limit before the next write, so without its last chunk every file is below the limit.", "quantifier": "all sequences of writes of any lengths, all limits, name modes and retention counts", "why_tests_cant": "unbounded write sequences", "anchors": ["internal/output_rollingwriter.go:rollingFileWriter.Write", "internal/output_rollingwriter.go:roll", "internal/output_rollingwriter.go:rollingFileWriterSize"]}
{"id": "C37", "title": "Retention keeps the newest maxRolls backups", "statement": "After a write that rolls (without removal faults) at most maxRolls backups remain and they are those with the greatest numbers, compared as numbers; removed are only the oldest. With maxRolls <= 0 nothing is removed.", "quantifier": "all directory contents, listing orders, sort implementations, counts", "why_tests_cant": "all directory states and listing orders", "anchors": ["internal/output_rollingwriter.go:deleteOldRolls", "internal/output_rollingwriter.go:getSortedLogHistory", "internal/output_rollingwriter.go:rollSizeFileTailsSlice"]}
{"id": "C38", "title": "Files that are not this log's are never touched", "statement": "No write, roll or retention step creates, changes or removes any directory entry whose name is neither the log file name nor one of its valid roll names, even when operations fail.", "quantifier": "all directory contents, all faults, all histories", "why_tests_cant": "frame property over arbitrary directory contents and faults", "anchors": ["internal/output_rollingwriter.go:hasRollName", "internal/output_rollingwriter.go:roll", "internal/output_rollingwriter.go:deleteOldRolls"]}
{"id": "C39", "title": "Rolling by size never overwrites an existing file", "statement": "The name a log file is rolled to does not exist in the directory before the roll.", "quantifier": "all directory contents, both name modes", "why_tests_cant": "all directory contents", "anchors": ["internal/output_rollingwriter.go:getNewHistoryRollFileName", "internal/output_rollingwriter.go:roll"]}
{"id": "C40", "title": "A crash during a write loses nothing already written", "statement": "If the process stops at any point inside a write (between any two file-system effects), the files on disk still contain everything written before in order, except backups the retention rule was about to remove.", "quantifier": "all crash points in all writes in all histories", "why_tests_cant": "all crash points", "anchors": ["internal/output_rollingwriter.go:roll", "internal/output_rollingwriter.go:Write"]}
{"id": "C41", "title": "The writer recovers from a failed roll", "statement": "If a write fails because closing, listing or renaming failed, a later write succeeds once the fault is gone.", "quantifier": "all fault histories", "why_tests_cant": "needs fault injection at each step and unbounded continuation", "anchors": ["internal/output_rollingwriter.go:roll", "internal/output_rollingwriter.go:Write"]}
{"id": "C42", "title": "Restart appends and continues numbering", "statement": "A writer started on an existing directory appends to the existing log file and numbers new backups above all existing ones.", "quantifier": "all directory contents, any number of restarts", "why_tests_cant": "all pre-existing states", "anchors": ["internal/output_rollingwriter.go:createFileAndFolderIfNeeded", "internal/output_rollingwriter.go:getNewHistoryRollFileName"]}
{"id": "C43", "title": "Time rolling puts each chunk in the file of its period", "statement": "Without I/O faults and with a clock whose formatted period names never repeat, after any sequence of writes the backup named by a period contains exactly the chunks written in that period, in order, and the current file those of the latest period.", "quantifier": "all write sequences and clocks", "why_tests_cant": "unbounded histories of times", "anchors": ["internal/output_rollingwriter.go:rollingFileWriterTime"]}
{"id": "C44", "title": "Time rolling never destroys a backup", "statement": "Rolling by time never overwrites an existing backup and never deletes the backup just made.", "quantifier": "all clocks, patterns and directory contents", "why_tests_cant": "requires particular clock histories", "anchors": ["internal/output_rollingwriter.go:rollingFileWriterTime.getNewHistoryRollFileName", "internal/output_rollingwriter.go:roll", "internal/output_rollingwriter.go:deleteOldRolls"]}
{"id": "C45", "title": "With archive set, backups leaving the retention window are in the archive", "statement": "When archive is zip or gzip, every backup removed by retention is first stored in the archive.", "quantifier": "all histories of writes and configurations", "why_tests_cant": "unbounded histories", "anchors": ["internal/output_rollingwriter.go:archiveUnexplodedLogs", "internal/output_rollingwriter.go:archiveExplodedLogs", "internal/output_rollingwriter.go:deleteOldRolls", "internal/output_rolling.go:NewRollingOutput"]}
{"id": "C46", "title": "archive.Copy copies all entries faithfully", "statement": "Copy(dst, src) with a dst that accepts several files appends exactly src's files to dst, in order, with the same names and contents, whichever formats are involved (directories in tar-to-tar copies are skipped). A gzip dst accepts at most one file.", "quantifier": "all entry lists, all contents, all format pairs", "why_tests_cant": "unbounded lists; reuse of one temporary buffer", "anchors": ["internal/archive/archive.go:Copy", "internal/archive/archive.go:copyBuffer", "internal/archive/archive.go:copyTar", "internal/archive/archive.go:copyZip"]}
{"id": "C47", "title": "Concurrent writes to a rolling file are atomic", "statement": "When several goroutines write to the same rolling file output, the result equals that of executing the writes one after another in some order that respects each goroutine's order; no write is interleaved with another.", "quantifier": "all numbers of goroutines, all schedules", "why_tests_cant": "all interleavings", "anchors": ["internal/output_rollingwriter.go:Write", "internal/output_rollingwriter.go:rollLock"]}
{"id": "C48", "title": "Manager and factory locking cannot deadlock", "statement": "For any set of concurrent GetLogger, SetConfig, Close, Register* and GetLoggerOutputs calls with creators that do not call back into the library, some call can always make progress until all have returned.", "quantifier": "all schedules of any number of calls", "why_tests_cant": "all interleavings", "anchors": ["internal/logger_factory.go:factory.GetLogger", "internal/logger_factory.go:notify", "internal/logger_manager.go:setConfig", "internal/logger_manager.go:Close"]}
{"id": "C49", "title": "Directory listing is complete and independent of chunking", "statement": "The history scan sees every regular file in the directory exactly once and nothing else, whatever the directory size and read chunking.", "quantifier": "all directory contents, all chunkings", "why_tests_cant": "unbounded directory sizes", "anchors": ["internal/output_fsutil.go:getDirFilePaths"]}
{"id": "C50", "title": "End to end: what is logged is what is in the file", "statement": "For a synchronous size_rolling_file output attached to a logger, after any sequence of log calls without I/O faults the retained backups in order followed by the current file are a suffix, cut at event boundaries, of the concatenated formatted events at or above level and threshold.", "quantifier": "all sequences of log calls, all layouts, limits", "why_tests_cant": "composition over unbounded histories", "anchors": ["internal/logger.go:defWriter.write", "internal/output_base.go:baseOutput.Send", "internal/output_rollingwriter.go:Write"]}
{"id": "C51", "title": "Concurrent GetLogger calls agree", "statement": "For any set of concurrent GetLogger, SetConfig, Close, Register* and GetLoggerOutputs calls, two GetLogger calls that return give the same logger if and only if they ask for the same name (\"\" and \"root\" being the same), and the logger has that name; creators and outputs may panic in between.", "quantifier": "all schedules of any number of calls", "why_tests_cant": "all interleavings", "anchors": ["internal/logger_factory.go:factory.GetLogger", "internal/logger_factory.go:getRootLogger", "internal/logger_factory.go:createLogger"]}
{"id": "C52", "title": "A configured output is built as its entry says", "statement": "Each built-in output type has a creator at start-up. From an entry of its type it builds the output the entry describes: asynchronous iff async is true, with the numbers in queue_size and batch_num; the level in threshold; for rolling files directory and file name from file, size (a number of bytes; units: C29) or pattern, backups, archive, name_mode and the three permissions, each from its own key and with its documented default. Only syslog's creator can fail, when it cannot connect. No other key of the entry has an effect. Entries are found by their keys name and type, an output's format by its key format; a format entry of type text gives the formatter for the layout under its key layout, or an error when that has no verb.", "quantifier": "all entries of all built-in types", "why_tests_cant": "all combinations and values of 14 keys", "anchors": ["internal/output_rolling.go:NewRollingOutput", "internal/output_console.go:NewConsoleOutput", "internal/output_memory.go:NewMemoryOutput", "internal/output_syslog.go:NewSyslogOutput", "internal/output_base.go:GetQueueSize"]}
{"id": "C53", "title": "Rolling files get the configured permissions", "statement": "Whatever the faults, a write to a rolling file makes directories only with the configured directory permission and opens the current file only with the file permission; every backup gets the backup permission in the operation right after the rename that made it, unless the process dies between the two; no other permission is changed.", "quantifier": "all writer states, directories, faults, crash points", "why_tests_cant": "all faults and crash points", "anchors": ["internal/output_rollingwriter.go:createFileAndFolderIfNeeded", "internal/output_rollingwriter.go:roll", "internal/output_rollingwriter.go:deleteOldRolls", "internal/output_rollingwriter.go:tempArchiveFile"]}
{"id": "C54", "title": "Manager.Close closes every managed output exactly once", "statement": "After any history of calls, Close calls Close exactly once on each output the manager ever made from a configuration (also those no logger uses any more) and on no other output, and changes nothing else; no other call closes an output. If the user makes no outputs of their own, every asynchronous output any logger has had is among them.", "quantifier": "all histories of API calls", "why_tests_cant": "unbounded histories of configurations and loggers", "anchors": ["internal/logger_manager.go:Close", "internal/logger_manager.go:GetLoggerOutputs", "internal/logger_factory.go:getRootLogger"]}
{"id": "C55", "title": "After concurrent calls have returned the loggers follow the configuration in force", "statement": "Whatever the interleaving of any number of concurrent GetLogger, SetConfig, LoadConfig(File) and Close calls: once all have returned without panicking, the configuration in force is that of one of the accepted calls (or the old one if none was accepted), and each logger whose outputs that configuration can provide has the level and outputs its entry gives it - the loggers created meanwhile, too, except those made merely on the way to one below them.", "quantifier": "all numbers of goroutines, call sequences, configurations, schedules", "why_tests_cant": "unbounded schedules and configurations", "anchors": ["internal/logger_factory.go:GetLogger", "internal/logger_factory.go:notify", "internal/logger_manager.go:setConfig", "internal/logger_manager.go:LoadConfig"]}
{"id": "C56", "title": "Out of the box every logger prints every level on standard output", "statement": "When a program only gets loggers and logs through them, without configuring anything, GetLogger gives a logger for any name, all levels are enabled, and each call of a level method writes exactly one line, time|level|pid|logger >> message (function@package/file:line), on standard output, with the caller's function and line, and nothing else anywhere.", "quantifier": "all histories of GetLogger, log and Close calls; all names, levels, messages, fields", "why_tests_cant": "all histories and names", "anchors": ["internal/log4g.go:init", "internal/logger_factory.go:getRootLogger", "internal/output_console.go:NewConsoleOutput", "internal/logger.go:write"]}
{"id": "C57", "title": "An asynchronous rolling output loses nothing between the log call and the disk once it is closed", "statement": "When one goroutine logs and then closes an asynchronous output rolling by size, whatever the interleaving with the worker and its ticker and as long as the file system does not fail: once the worker has gone (which it has when Close has returned and the worker was running before), exactly the events delivered to the output before Close are on disk, in order, formatted, those below the threshold left out, never an event cut by the change of files; and if the layout does not ask for the call site or the events carry it (those of level methods do), the bytes are those a synchronous output would have written. At every earlier moment what was accepted is on disk, in the worker's buffer or in the channel.", "quantifier": "all API histories, layouts, queue and batch sizes, schedules, directory contents", "why_tests_cant": "unbounded histories and schedules", "anchors": ["internal/output_base.go:asyncOutput", "internal/output_rollingwriter.go:Write", "internal/logger.go:write", "internal/logger_manager.go:Close"]}
{"id": "C58", "title": "A log call among other goroutines behaves as at one moment", "statement": "A log call that runs while other goroutines log, set levels or outputs, or load a configuration sends its own event (its format, arguments, name, level and time), in order and each once, to the whole list of outputs one logger on its way had at one moment, and does not panic; and it sends it where a call made at a single moment between its start and its end would: in particular an event that is enabled and has somewhere to go all along is delivered, one that is disabled all along is not, and the call site is the one reported without the other goroutines.", "quantifier": "all API histories, any number of goroutines, all interleavings at each read and store of a logger's fields and each Send", "why_tests_cant": "unbounded interleavings", "anchors": ["internal/logger.go:defWriter.write", "internal/logger.go:defLogger.Level", "internal/logger.go:defLogger.SetOutputs", "internal/logger_factory.go:notify"]}
{"id": "C59", "title": "Records of goroutines that log at the same time reach the rolling files whole, once, each goroutine's in order", "statement": "Any number of goroutines log at the same time through one output that writes files rolling by size, in a directory without a log of that name. When all their calls have returned (and, for an asynchronous output, one of them has then closed it and the worker has gone), and the file system did not fail, the files hold exactly the formatted events that the calls delivered to the output, those below the threshold left out: every one of them whole and once, each goroutine's in the order of its calls, never split across two files (for an asynchronous output: no group is), the newest maxRolls closed files kept. What a goroutine's calls deliver does not depend on the other goroutines' log calls.", "quantifier": "all histories before, any number of goroutines with any log calls, all interleavings at the channel, the worker, the ticker and the lock of the file writer, all sizes and backup bounds", "why_tests_cant": "unbounded interleavings of unbounded numbers of goroutines", "anchors": ["internal/logger.go:defWriter.write", "internal/output_base.go:baseOutput.Send", "internal/output_base.go:asyncOutput.loop", "internal/output_rollingwriter.go:rollingFileWriter.Write"]}
{"id": "C60", "title": "Closing the file writer leaves the files as they are, and writing afterwards continues the log", "statement": "Closing the rolling file writer changes no file; after a close without error no file is open and closing again does nothing; a write after a close opens the log file again and goes on as a newly started process would on the same directory.", "quantifier": "all configurations, all histories of writes and closes, all file system answers", "why_tests_cant": "the state in which the writer is closed, in particular whether a roll is due, ranges over all histories", "anchors": ["internal/output_rollingwriter.go:rollingFileWriter.Close", "internal/output_rollingwriter.go:rollingFileWriter.Write", "internal/output_rollingwriter.go:rollingFileWriter.roll"]}
{"id": "C61", "title": "No call of the API panics", "statement": "Whatever configurations, formats, fields and contexts a program uses: every call of the API on loggers and outputs it was given returns, after any history of calls, as long as the program's own creators do not panic; and no event it logged makes the worker of an asynchronous output panic.", "quantifier": "all histories of API calls, all next calls with all arguments, all registered creators, all interleavings at an asynchronous output", "why_tests_cant": "unbounded histories and arguments; a panic in a worker goroutine ends the whole process", "anchors": ["internal/logger_callerinfo.go:getCallerInfo", "internal/logger.go:defWriter.write", "internal/logger_manager.go:defManager.GetLoggerOutputs", "internal/logger_manager.go:defManager.LoadConfigFile", "internal/output_base.go:asyncOutput.loop"]}
{"id": "C62", "title": "An interrupt flushes the outputs and ends the process", "statement": "When SIGINT or SIGTERM arrives the library closes every output it manages, once, and the process ends; the handler closes nothing unless such a signal arrived.", "quantifier": "all histories of API calls interleaved with any number of signals and handler steps", "why_tests_cant": "signals arrive at any point of any history; a test process does not survive its own success", "anchors": ["internal/log4g.go:init", "internal/logger_manager.go:defManager.Close"]}
{"id": "C63", "title": "Calls made at the same time act one after the other", "statement": "Whatever the interleaving of calls of GetLogger, GetLoggerOutputs, Register*, Close, SetConfig and LoadConfig(File) of any number of goroutines: there is an order of the calls, in which a call that returned before another started comes first, such that making them one at a time in that order gives the same answers and, when all have returned, the same state.", "quantifier": "all numbers of goroutines, call sequences, creators, schedules", "why_tests_cant": "all interleavings; a wrong one leaves no trace but a logger with the wrong settings", "anchors": ["internal/logger_factory.go:factory.GetLogger", "internal/logger_factory.go:notify", "internal/logger_manager.go:defManager.setConfig", "internal/logger_manager.go:defManager.GetLoggerOutputs"]}
{"id": "C64", "title": "What is logged is in the file of its period", "statement": "For a synchronous time_rolling_file output: whatever calls are made (getting and configuring loggers, changing levels and outputs, logging), if the file system does not fail and the clock never comes back to an earlier period, then every event that the log calls deliver to the output and that passes its threshold is, formatted and in order, in the file of the period in which it was written; the log file holds the latest period, and the other periods' files are missing only if maxRolls is positive.", "quantifier": "all worlds, call sequences, clocks, directories", "why_tests_cant": "tests write to the rolling writer directly and never through a logger; a test would have to wait for a period to end", "anchors": ["internal/output_rollingwriter.go:rollingFileWriterTime.needsToRoll", "internal/output_rollingwriter.go:rollingFileWriter.Write", "internal/output_base.go:baseOutput.Send", "internal/logger.go:defWriter.write"]}
{"id": "C65", "title": "A memory output holds what was logged", "statement": "String of a memory output gives the formatted events that were delivered to it, each once and in order, whatever calls were made and by whichever goroutines; what it held once stays at the beginning.", "quantifier": "all worlds, call sequences, allocators, numbers of goroutines, interleavings", "why_tests_cant": "the tests that read a memory output log from one goroutine; a lost record needs two calls between the same two instructions", "anchors": ["internal/output_memory.go:NewMemoryOutput", "internal/output_memory.go:memoryOutput.String", "internal/output_base.go:baseOutput.Send"]}
{"id": "C66", "title": "Exploded archives hold every old backup", "statement": "With archiveExploded, a backup that is removed from the log directory is in an archive of its own, named after it, with what it held; archives made earlier are kept; the log directory itself is treated as without archiving.", "quantifier": "all configurations, directories, histories of writes and restarts, faults, crash points", "why_tests_cant": "the two test cases look at file names only, after two writes without faults; what an archive holds, what happens when archiving fails, and longer histories are not tested", "anchors": ["internal/output_rollingwriter.go:archiveExplodedLogs", "internal/output_rollingwriter.go:deleteOldRolls", "internal/output_rollingwriter.go:rollingArchiveTypeName", "internal/output_rollingwriter.go:tempArchiveFile"]}
{"id": "C67", "title": "Outputs that format one event at the same time do not disturb one another", "statement": "A log call hands one event to all outputs, and asynchronous outputs format it later, at the same time as others. If outputs get their formatter before they are attached, nobody changes the event any more, and every output writes the text that its layout gives for the event as it was sent.", "quantifier": "all histories, log calls, layouts, numbers of formatters, stacks they run on, interleavings of their accesses", "why_tests_cant": "the tests format one event in one goroutine; a torn read of package and function needs another goroutine between two assignments", "anchors": ["internal/logger_callerinfo.go:getCallerInfo", "internal/logger.go:write", "internal/format_parser.go:Format", "internal/output_base.go:asyncOutput.flush"]}
{"id": "C68", "title": "A creator's panic that the caller recovers from leaves the library usable", "statement": "When a formatter or output creator panics in GetLogger, GetLoggerOutputs, SetConfig, LoadConfig or LoadConfigFile and the caller recovers: loggers and outputs are all there as before, nothing was sent or closed, each logger is as before or set up as the new configuration says, later calls behave as if the stopped call had only got that far, and once no creator panics SetConfig sets everything up.", "quantifier": "all histories (with any number of such panics), configurations, creators, names, visiting orders", "why_tests_cant": "no test has a creator that panics; what is left depends on how far the call got and on the order in which a map is visited", "anchors": ["internal/logger_manager.go:GetLoggerOutputs", "internal/logger_manager.go:setConfig", "internal/logger_manager.go:LoadConfigFile", "internal/logger_factory.go:GetLogger", "internal/logger_factory.go:getRootLogger", "internal/logger_factory.go:notify"]}
{"id": "C69", "title": "A registered creator is used from then on", "statement": "After RegisterOutputCreator or RegisterFormatterCreator, what is made for a configuration entry of that type is made by the creator registered last (the library's own count as registered at the start), from that entry; a registration changes nothing that exists. So every managed output and format was made by one call, by the creator registered last at that time, from the configuration in force at that time.", "quantifier": "all histories (with recovered panics of creators), types, creators, configurations", "why_tests_cant": "the tests register each type once, before the first use", "anchors": ["internal/logger_manager.go:RegisterFormatterCreator", "internal/logger_manager.go:RegisterOutputCreator", "internal/logger_manager.go:GetLoggerOutputs", "internal/log4g.go:init"]}
{"id": "C70", "title": "The caller may change what it passed in once the call has returned", "statement": "What a call was given counts as it was at the time of the call: if the caller afterwards changes the configuration object it gave to SetConfig, the slice of outputs it gave to SetOutputs, the arguments it gave to a log call or the fields it gave to WithFields, nothing in the library changes: loggers have the levels and outputs that the calls gave them, and events are formatted with the arguments they were logged with.", "quantifier": "all histories of calls, of stores by the caller into its own memory at any time between them, and of steps of the workers of asynchronous outputs; any memory", "why_tests_cant": "the tests pass literals and never touch them again", "anchors": ["internal/logger_manager.go:setConfig", "internal/logger.go:SetOutputs", "internal/logger.go:WithFields", "internal/logger.go:write", "internal/output_base.go:Send"]}
{"id": "C71", "title": "A log call that panics stops at the output that panicked and does no other harm", "statement": "When a log call panics (in a formatter, a context or an output of the user) and the caller recovers: the outputs before the one that panicked were sent the event and wrote it as in any other call, that one and those after it were sent nothing, no logger, registration or configuration changed, and the library can be used as before. A panic at one output does not keep the others from the event.", "quantifier": "all reachable states (histories with any number of recovered panics), loggers, contexts, levels, formats, arguments, formatters and outputs", "why_tests_cant": "the tests have no formatter or context that panics", "anchors": ["internal/logger.go:write", "internal/logger.go:Printf", "internal/output_base.go:Send", "internal/output_syslog.go:Send"]}
{"id": "C72", "title": "What was logged has no influence on later calls", "statement": "A log call leaves no trace in the library other than what its outputs received: leave any log calls out of a history, and every other call returns the same, panics the same, sends the same events to the same outputs, which write the same bytes, and makes the same outputs.", "quantifier": "all histories of calls, recovered panics included, and all ways to leave log calls out; all states that differ only in what was written", "why_tests_cant": "tests run one history each; this compares any two", "anchors": ["internal/logger.go:write", "internal/logger.go:Printf", "internal/output_base.go:Send", "internal/logger_manager.go:setConfig", "internal/logger_factory.go:GetLogger"]}
{"id": "C73", "title": "Each level method logs at the level of its name, with the promised text and the writer's fields", "statement": "Trace, Tracef, Debug, ..., Criticalf log at the level that is their name, through a logger as through any writer; the text of the event is Sprintf of format and operands for the methods in f, Sprint of the operands for the others; at the logger's own outputs the event has the fields of its writer (the last of several under one key), or what the writer's context has, and nothing from other writers.", "quantifier": "all reachable states, loggers, writers (plain, WithFields, WithCtx), formats, operands; all behaviours of Sprintf and Sprint", "why_tests_cant": "twelve methods with one body each: tests call some, with some operands", "anchors": ["internal/logger.go:Tracef", "internal/logger.go:Criticalf", "internal/logger.go:Trace", "internal/logger.go:Critical", "internal/logger.go:WithCtx", "api/logger_api.go:Message", "internal/logger.go:WithFields"]}
{"id": "C74", "title": "XEnabled tells whether X has an effect", "statement": "TraceEnabled ... CriticalEnabled answer whether the level of their name is at least the effective level of the logger. When the answer is no, the methods of that level change nothing, so that asking before logging only saves the work; when it is yes and the logger or an ancestor has outputs, the event is sent.", "quantifier": "all reachable states, loggers, levels, writers and arguments", "why_tests_cant": "negative statement over all states; the tests ask no such question", "anchors": ["internal/logger.go:TraceEnabled", "internal/logger.go:DebugEnabled", "internal/logger.go:InfoEnabled", "internal/logger.go:WarnEnabled", "internal/logger.go:ErrorEnabled", "internal/logger.go:CriticalEnabled", "internal/logger.go:LevelEnabled", "internal/logger.go:write"]}
{"id": "C75", "title": "Outputs may share a log file", "statement": "When several outputs that roll by size name the same file (of one process or of several), every Write is complete and without error, every chunk is whole in one of the files, those of one writer in the order in which it wrote them; the log file has the newest record, no file exceeds the limit by more than the last chunk, only full files become backups, and with no maximum of backups nothing is lost, even when calls overlap.", "quantifier": "any number of writers with any limits and maxima, any histories of writes and restarts; any interleaving of the file-system operations of overlapping calls; any other files in the directory", "why_tests_cant": "interleavings of file-system operations of several writers; the tests have one writer per file", "anchors": ["internal/output_rollingwriter.go:Write", "internal/output_rollingwriter.go:roll", "internal/output_rollingwriter.go:createFileAndFolderIfNeeded", "internal/output_rollingwriter.go:getNewHistoryRollFileName", "internal/output_rollingwriter.go:deleteOldRolls", "internal/output_rolling.go:NewRollingOutput"]}
{"id": "C76", "title": "Time-rolling outputs may share a log file", "statement": "When several outputs that roll by time name the same file (of one process or of several), every Write is complete and without error, and after any number of periods the chunks of the present period and of the newest periods that the outputs are to keep are all in the files, whole, those of one writer in the order in which it wrote them.", "quantifier": "any number of writers with any numbers of backups, any histories of writes and restarts over any sequence of periods, one call at a time; any other files in the directory", "why_tests_cant": "histories of several writers over several periods; the tests have one writer per file and one period", "anchors": ["internal/output_rollingwriter.go:Write", "internal/output_rollingwriter.go:roll", "internal/output_rollingwriter.go:needsToRoll", "internal/output_rollingwriter.go:getNewHistoryRollFileName", "internal/output_rollingwriter.go:createFileAndFolderIfNeeded", "internal/output_rolling.go:NewRollingOutput"]}
{"id": "C77", "title": "Rolling and archiving leave nothing open and no archive half done", "statement": "Whatever fails, the functions that list, archive and copy close everything they have opened, exactly once and not before it is open; a rolling writer never has more than one log file open, and none after Close. The temporary archive is put in place only when it is complete - the old archive and all backups copied, the writers closed from the outermost to the innermost, the file closed, all without error - and is removed otherwise; an error is reported unless it was put in place; the buffer file of archive.Copy is always removed.", "quantifier": "all combinations of failing calls, archive types, lists of backups, histories of writes and closings", "why_tests_cant": "each call can fail; tests run the case without failures and look at results, not at open files", "anchors": ["internal/output_rollingwriter.go:archiveUnexplodedLogs", "internal/output_rollingwriter.go:archiveExplodedLogs", "internal/output_rollingwriter.go:tempArchiveFile", "internal/output_rollingwriter.go:createFileAndFolderIfNeeded", "internal/output_fsutil.go:getDirFilePaths", "internal/archive/archive.go:copyBuffer", "internal/archive/archive.go:copyZipFile", "internal/archive/tar/tar.go:Close"]}
{"id": "C78", "title": "Every call on an asynchronous output ends, and Close ends its goroutine", "statement": "With a channel of at least one place and a formatter that does not panic, every Send and Close on an asynchronous output ends, whatever calls any number of goroutines make: a call under way is never stuck for good, the number of steps besides ticks is bounded by the calls, and in every execution that does not put off work for ever a moment comes after which all calls have returned or panicked. If Close was called, the output's goroutine has then ended and all it took is written; if not, all events of all Sends were accepted and the next tick writes the rest. If no call overlaps a Close, all calls return without panic.", "quantifier": "all numbers of goroutines, all sequences of calls, all schedules including infinite ones", "why_tests_cant": "that something happens in the end, on all schedules; a test sees finitely many and cannot tell slow from stuck", "anchors": ["internal/output_base.go:Send", "internal/output_base.go:Close", "internal/output_base.go:loop", "internal/output_base.go:flush", "internal/output_base.go:NewAsyncOutput"]}
{"id": "C79", "title": "A logger's list of outputs stays one list when it is set while events are logged", "statement": "Setting a logger's outputs (by SetOutputs or by loading a configuration) while goroutines log: every log call sends to exactly one of the lists set, never uses anything that is not an output, and afterwards the logger has the list set last with a caller-information flag that is enough for it. Pointer and length of the list are separate words, stored and loaded without a lock.", "quantifier": "all lists, flags, numbers of goroutines and calls, and all interleavings of the single loads and stores, in either order of pointer and length", "why_tests_cant": "the bad interleavings lie within a few instructions; a test would need to stop a goroutine between two loads", "anchors": ["internal/logger.go:SetOutputs", "internal/logger.go:write", "internal/logger_factory.go:notify"]}
{"id": "C80", "title": "Outputs do not pile up, and outputs that are no longer used are released", "statement": "However often configurations are loaded and loggers asked for, the library makes at most one output for each output name that ever was in a configuration in force, one that the root logger may have had to start with, and those the user makes; a call that brings no new name makes none (so loading a configuration again makes none). An output that no logger and no configuration uses any more is closed, and a closed output writes no more.", "quantifier": "all histories of calls (also calls ended by a panic of a user's function), all configurations, creators and outputs", "why_tests_cant": "the number of outputs must be bounded over unbounded histories of reloads", "anchors": ["internal/logger_manager.go:GetLoggerOutputs", "internal/logger_factory.go:getRootLogger", "internal/logger_manager.go:SetConfig", "internal/logger_manager.go:Close"]}
{"id": "C81", "title": "An output's formatter stays one formatter when it is set while events are sent", "statement": "SetFormatter on an output that other goroutines use: each event is formatted by one of the formatters set, whole, and each answer of CallerInfoFlag is one of theirs; nobody calls a method of a nil formatter; afterwards the output has the formatter set last. Type and data of the formatter are separate words, stored and loaded without a lock.", "quantifier": "all formatters, numbers of goroutines and calls, and all interleavings of the single loads and stores, in either order of the words, whether or not the compiler loads the formatter a second time after the comparison with nil", "why_tests_cant": "the bad interleavings lie within a few instructions; a test would need to stop a goroutine between two stores", "anchors": ["internal/output_base.go:SetFormatter", "internal/output_base.go:baseOutput.Send", "internal/output_base.go:CallerInfoFlag", "internal/output_base.go:loop"]}
{"id": "C82", "title": "The example configuration does what the README says", "statement": "A program that loads the example configuration file and then gets and uses loggers: the file is accepted; every logger is at level info; a level method at info or above writes one line, time level logger pid >> message (file:line), to the file log/rf.log and to the console, and nothing below info is written; the file has the permissions, number of backups, size and backup names that the README gives.", "quantifier": "all programs that load the file first and then get, use and close loggers, in any order and number; all logger names, contexts, messages, operands, times and call sites; acceptance in all reachable states", "why_tests_cant": "the README's remarks are checked by no test; the lines depend on process, clock and call site, and the wrong size only shows after a megabyte of log", "anchors": ["internal/logger_manager.go:LoadConfigFile", "internal/output_rolling.go:NewRollingOutput", "internal/output_rolling.go:getMaxSize", "internal/output_console.go:NewConsoleOutput", "internal/output_rollingwriter.go:createFullFileName"]}
{"id": "C83", "title": "An asynchronous output rolling by time keeps every event, in the file of its period", "statement": "What log calls deliver to an asynchronous output rolling by time is, once the output is closed and its worker has gone, on disk: formatted, in order, whole, nothing else; every event is in the file of the period in which it was logged; without a bound on the number of backups nothing is missing.", "quantifier": "all reachable states, all sequences of API calls of one goroutine, all interleavings with worker and ticker, all patterns, backup names and archive kinds, all readings of a clock that does not come back; at any moment, with any number of goroutines for what is on disk", "why_tests_cant": "needs the clock to change period between the log call and the flush, on a real directory, under all interleavings", "anchors": ["internal/output_base.go:loop", "internal/output_base.go:flush", "internal/output_base.go:Send", "internal/output_rollingwriter.go:Write", "internal/output_rollingwriter.go:needsToRoll", "internal/logger.go:write"]}
{"id": "C84", "title": "A log uses no more disk than configured", "statement": "Rolling by size without faults, there are never more than backups + 1 files of the log between two writes, none longer than size - 1 and one write (of an asynchronous output: batch_num events), so that disk use is bounded, also over any number of restarts; rolling by time, the log file holds one period, also over restarts.", "quantifier": "all histories of writes and restarts, all sizes, numbers of backups, lengths of writes, directories; all sequences of log calls; all interleavings of goroutines, worker and ticker", "why_tests_cant": "needs histories of many processes on one directory; every single process behaves well", "anchors": ["internal/output_rollingwriter.go:Write", "internal/output_rollingwriter.go:needsToRoll", "internal/output_rollingwriter.go:createFileAndFolderIfNeeded", "internal/output_rolling.go:getMaxRolls", "internal/output_base.go:loop"]}
{"id": "C85", "title": "A failing disk costs only the records whose own writes fail", "statement": "Whatever file operations fail while an application logs, the files hold the texts of the events delivered, in order, each as far as its own write got, and nothing else; a record is lost or cut only if an operation failed during its own write; and the application can tell.", "quantifier": "all sequences of log calls, all interleavings of goroutines, worker and ticker, all failures of any operations at any time, all sizes, texts and earlier logs; rolling by size or by time", "why_tests_cant": "needs failures of single file-system operations in the middle of long runs", "anchors": ["internal/output_base.go:Send", "internal/output_base.go:flush", "internal/output_rollingwriter.go:Write", "internal/output_rollingwriter.go:roll"]}
{"id": "C86", "title": "A log rolled by time survives faults, crashes and restarts", "statement": "Rolling by time, whatever file operations fail and wherever processes die in the middle of a write and are started again: if the clock does not come back, the backups in the order of their periods and then the log file hold everything that was written, in order and nothing else; no period gets a second backup; other files stay; each record is in the file of its period.", "quantifier": "all sequences of writes, crashes at any operation and restarts, all faults, all clocks that do not come back, texts, configurations and directories", "why_tests_cant": "needs processes killed between two system calls of a roll, over many periods", "anchors": ["internal/output_rollingwriter.go:Write", "internal/output_rollingwriter.go:roll", "internal/output_rollingwriter.go:needsToRoll", "internal/output_rollingwriter.go:getNewHistoryRollFileName"]}
{"id": "C87", "title": "What all runs of a program logged is in the files, also of runs that were killed", "statement": "Runs of a program, one after the other, log to the files of one synchronous rolling output. Each run makes any API calls and ends, or is killed in the middle of a write. Then the files hold, after what was there before, the formatted texts of the events delivered in the first run, in the second and so on: without faults all of them, and of a killed run all before the one it died in and a beginning of that one; with faults a beginning of each.", "quantifier": "all sequences of runs, API calls in each, points at which a run is killed, faults of the file system, events, formatters, configurations and directories", "why_tests_cant": "needs many processes killed between system calls, with every record traced from the call to the bytes in the files", "anchors": ["internal/output_base.go:Send", "internal/output_rollingwriter.go:Write", "internal/output_rollingwriter.go:roll", "internal/output_rollingwriter.go:createFileAndFolderIfNeeded"]}
{"id": "C88", "title": "With full names each period has its own file from the start", "statement": "Rolling by time with the writer's option fullName, which lets the log file itself carry the name of its period: if the clock does not come back, the files of the periods hold all records, in order, each whole and in a file named by a period that the clock showed during its own write; other files stay; this also holds for later processes; the newest maxRolls backups are kept.", "quantifier": "all sequences of writes and restarts, readings of the clock that do not come back, texts, directories, limits", "why_tests_cant": "needs the clock to move between two readings of one write", "anchors": ["internal/output_rollingwriter.go:getCurrentFileName", "internal/output_rollingwriter.go:getNewHistoryRollFileName", "internal/output_rollingwriter.go:createFileAndFolderIfNeeded", "internal/output_rollingwriter.go:roll"]}

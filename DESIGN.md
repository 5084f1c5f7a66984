# log4g in Rocq: design

Subject: `xtfly/log4g` as found in `/repo` (read as text, never run).
Prover: Coq 8.16.1, standard library only (`List`, `Ascii`, `String` for literals, `ZArith`, `Permutation`, `Lia`).

## Layout of the development (`rocq/theories`)

Each area has up to four kinds of file:

* `*Model.v`  -- executable Gallina transcription of the Go code, one definition per Go function, each with a comment citing file and lines. No proofs.
* `*Spec.v`   -- small independent specification (what the English property talks about). Does not mention the model's helper functions.
* `*Proofs.v` -- lemmas.
* `P_*.v`     -- the property theorems `Cnn_name`, for each an example that its hypotheses can be met non-trivially, and `Print Assumptions`.

Areas:

| area | models |
|---|---|
| GoStr, Strconv, Utf8 | the few Go library functions used (`strings.HasPrefix`, `HasSuffix`, `LastIndex`, `ToUpper`; `strconv.Atoi`, `ParseInt`; `%d`) |
| Level | `api/logger_level.go` |
| Layout | `internal/format_parser.go`, `format_text.go` (parser through a literal transcription of the regular expression with backtracking-priority semantics, and Format) |
| Event | `api/logger_api.go` (Event, contexts, fields), `internal/logger_callerinfo.go`, call stacks |
| Conf | option parsing of `output_rolling.go`, `output_base.go`, `output_console.go`, `output_syslog.go` |
| World | `internal/logger.go`, `logger_factory.go`, `logger_manager.go`, `api/logger_mange.go`: one state machine over API calls |
| Output | `internal/output_base.go` (sync), `output_console.go`, `output_memory.go`, `output_syslog.go` |
| Async | `internal/output_base.go` (async): small-step machine with any number of threads |
| Rolling | `internal/output_rollingwriter.go`, `output_fsutil.go`: writer over a directory model, with fault oracles and crash points |
| RollConc | the same writer's `Write` called by any number of goroutines, interleaved at every field access, lock and file-system operation |
| Arch | `internal/archive/*`: `Copy` between readers and writers of the formats; (`archiveUnexplodedLogs` is in Rolling, `archiveExplodedLogs` in Explode) |
| Lock | `GetLogger`, `SetConfig` and the other calls of factory and manager taken apart at their lock operations, with asynchronous outputs' queues and workers |
| Race | log calls, SetLevel, SetOutputs and reconfigurations of several goroutines, taken apart at each read and store of a logger's field and each Send |
| Signal | the signal handler of `internal/log4g.go` in a process that calls the API |
| Mem | the buffer of `internal/output_memory.go`: `bytes.Buffer.Write` by several goroutines |
| Explode | the branch of `internal/output_rollingwriter.go` for `archiveExploded`: `archiveExplodedLogs`, `rollingArchiveTypeName`, `deleteOldRolls` |
| Share | the accesses of `internal/logger_callerinfo.go` and the format functions of `internal/format_parser.go` to an event shared by several outputs |
| Panic | the state left by a panic in a creator (`internal/logger_manager.go`, `internal/logger_factory.go`) |
| Creator | which creator makes an output (no model of its own: World, Panic) |
| Alias | what the library shares with its caller: configuration object, slices of outputs and arguments |
| Stop | log calls in which a formatter or a context panics |
| Frame | runs of calls with log calls left out |
| Method | the methods of loggers and writers, one definition each |
| Same | several size-rolling writers of one file (the programs of Roll over a file system with inodes and open files), in turn and interleaved |
| SameTime | several time-rolling writers of one file, in turn |
| Defer | the functions that open files, call by call with their deferred calls (refines the archiving of Roll) |
| Live | what must happen in the end on an asynchronous output (over the model of Async) |
| Word | a logger's list of outputs as pointer and length, stored and loaded word by word |
| Res | how many outputs there are over a whole history |
| Iface | an output's formatter as type and data, stored and loaded word by word |
| Doc | the example configuration, and the README's description of it |
| Disk | bounds for the number and length of a log's files |
| Fault | what failing file operations cost, from the log call to the disk |
| Lives | several runs of a program, one after the other, on one log |
| Full | rolling by time with the option `fullName` (over the model of Rolling) |
| End, AsyncEnd, Many | World and Rolling put together, directly and through Async; by one goroutine and by many |

## Modelling decisions

* Go strings and byte slices are `str := list ascii` (bytes). Go `int`/`int64` are `Z`; wrap-around (`wrap64`) is written where the code can overflow (`getMaxSize`, new roll number).
* Library behaviour the code only passes through (fmt, time formatting/parsing, yaml/json decoding, sort order of equal keys, directory listing order, map iteration order, faults of the operating system) is an explicit argument (an oracle) of the model; theorems quantify over it. Where a theorem needs a law of an oracle (for example that a sort returns a sorted permutation), the law is a visible hypothesis and an instance is given.
* Pointers to loggers and outputs are indices into heaps. `nil` is `None`. Panics are explicit results.
* Goroutines are small-step machines with one atomic action per channel operation, atomic load/store, wait-group operation or lock operation.

## Per property: plan and outcome

"Partial" means: false as stated in the code as it is. Then there is a theorem `..._refuted` (an explicit witness), the exact condition
under which the property does hold (`..._partial` or an unsuffixed theorem), and often the general statement of what happens instead.
The notes in MANIFEST.json say what is assumed.

| property | files | method | outcome |
|---|---|---|---|
| C01 | P_Level | table lookup for any iteration order of the map, `strings.ToUpper` with an oracle above ASCII | proved |
| C02-C06 | P_Hier | World machine; invariant `inv` (WorldInv) by induction over API histories; levels and parents stated by names only | proved |
| C07 C08 C10 | P_Log | `write` characterised by the climb to the first logger with outputs; dispatch as a fold | proved |
| C09 | P_Log | a logger using an ancestor's outputs loses its fields | partial |
| C11 C25 | P_Log | explicit call stacks through `write`; induction on inheritance depth. C11 is false for Printf called directly | C11 partial, C25 proved |
| C12 | P_Layout | string lemmas against an inductive description of the split | proved |
| C13-C20 | P_Manager | manager part of World; order independence of map iteration. False: duplicate loggers (C13), intermediate loggers (C16), cached outputs (C17), swallowed load errors (C18), missing extension (C19) | C13 C16-C19 partial, rest proved |
| C21-C24 | P_Layout | literal transcription of the regular expression with backtracking priorities; lossless split; rendering | proved |
| C26 C27 | P_Output | fold over events | proved |
| C28-C30 | P_Conf | arithmetic and string lemmas; C29 false (number before a unit ignored) | C29 partial |
| C31-C35 | P_Async | small-step machine, invariants over all schedules; witnesses are explicit schedules | C32 C33 partial |
| C36-C42 C49 | P_RollSize, P_Recover (C41 by time) | writer as a program over file-system operations with arbitrary results; refinement to `log_step`/`segments`; crash points are prefixes of the operation trace | C38 C39 C41 partial |
| C43 C44 | P_RollTime | same, with clock readings | C44 partial |
| C45 | P_RollTime | archiving inside the writer | partial (nothing is archived for configured outputs) |
| C46 | P_Archive | Copy with a fault possible at each operation | partial |
| C47 | P_Conc | interleaving model reduced to sequential histories | proved |
| C48 C51 | P_Lock | lock discipline by a program logic over a free monad; well-founded measure; names invariant | proved |
| C50 | P_End | composition of C07/C08, C26 and C36 | proved |
| C52 C53 | P_Settings | creators unfolded and compared key by key with ConfSpec; a program logic for operation sequences (rename followed by chmod) | proved |
| C54 | P_Close | invariant on the manager's output table and the heap over all histories | proved |
| C55 | P_Settle | state invariant over the lock model with a mode per goroutine (free, configuration stored but loggers not yet told, telling them), on top of the lock discipline of C48 | proved |
| C56 | P_Default | invariant of unconfigured histories; composition of C07, C08, C11, C21 and C24 | proved |
| C57 | P_AsyncEnd | composition of C07/C08, C31-C33 and C36; invariant for one goroutine over all schedules; texts shown independent of the formatting stack | proved |
| C58 | P_Race | one call followed through the worlds the others leave it; run alone it is the call of World. False: a call can find outputs, and find none when it comes to use them; combine an old level with a new one; find outputs whose need for the call site is not yet noted | partial |
| C59 | P_Many | log calls shown to commute with each other as far as one output sees; accepted events tagged by goroutine give an interleaving; then C31, C36 and C47 as in C50 and C57 | proved |
| C60 | P_RollClose | two writers without a file and with no roll due make the same operations; histories with closes become histories with restarts. False when a roll is due: the roll then fails to close the file that is not open, for ever | partial |
| C61 | P_Safe | invariant over histories with recovered panics: creators do not panic on entries of their type, every formatter is from a layout or the user's, the user's own outputs return; every event a proper call sends can be formatted; composition of C07, C15 and C19. False for a field or context value under the library's own key `__caller_info`, a nil context, and a configuration file without extension | partial |
| C62 | P_Signal | invariant tying handler and channel to the trace; C54 for the close itself. False: the process never ends by the signal, and only the first signal closes anything | partial |
| C63 | P_Atom | each call has a moment at which it takes effect (the manager's part of GetLogger; the lock of the others); invariant between the two halves of the state and the state after the calls that took effect. What the calls leave is reached by a history, recovered panics included. False for two configuration calls, and for one among others | partial |
| C64 | P_EndTime | sessions of EndModel.v with the readings of each write exposed; C43 on them | proved |
| C65 | P_Mem | machine of bytes.Buffer.Write at its accesses to the slice; invariant: every call in progress aims beyond what was there; C50's deliveries for the texts. False for overlapping calls: the buffer has no lock | partial |
| C66 | P_Explode | the exploded branch with its own archive directory; simulation by the writer without archiving; by size, induction over the history: numbers increase, so no archive is written twice. False when archiving fails, or over an older archive | partial |
| C67 | P_Share | getCallerInfo and Format taken apart at their accesses; simulation by LayoutModel.v when undisturbed; the flag of the logger covers every attached layout, so that formatting only reads. False with a stale flag | partial |
| C68 | P_Panic | the functions that call creators, returning the state when a panic passes through; they are those of WorldModel.v when nothing panics; recovered panics are steps of the histories, so that the invariants cover them. False for a logger, and for the root logger, whose making was stopped | partial |
| C69 | P_Creator | the last registration as a relation on the list of calls; every step keeps the creators and adds only outputs made by them | proved |
| C70 | P_Alias | the caller's memory by address, with the addresses that the library kept; histories with stores compared with the calls alone | false for configuration, outputs and arguments; holds for fields and for careful callers |
| C71 | P_Stop | the functions of a log call, returning the state when a panic passes through; induction over the outputs. Recovered panics of log calls are steps of the histories. False that the outputs are independent of each other | holds up to the output that panics |
| C72 | P_Frame | the state is split into what was written and the rest; every operation commutes with putting any past of the outputs in front (`fr_exec`), panics included | proved |
| C73 | P_Method | the methods under their Go names against a table of names; the events of C08, the fields of C09 and C10 | level and fields hold; text false without operands or format |
| C74 | P_Method | from the effective level (C02, C03) and the way of an event (C07) | no is exact; yes is not, for inherited outputs |
| C75 | P_Same | a file system with inodes, so that a renamed file stays open; specification by files, who writes where, and what each believes its size to be; invariant over turns; another over interleavings | holds for calls in turn in weakened form, and for overlapping calls below the limits; five counterexamples |
| C76 | P_SameTime | the file system of C75 with a clock; specification by files, backups by period, retention, and the period each writer is in; the periods found over, from the history alone | complete writes and exact contents proved; loss of a period (and of what was written in the next one) in general; the newest backups are kept when no two writers find the same period over |
| C77 | P_Defer | Go functions with deferred calls, every call failing or not; a discipline of deferring that implies balance; the shape of all runs; a one-slot automaton for the log file | holds, except that a temporary archive stays when the final rename fails |
| C78 | P_Live | a measure that every step but the ticker's lowers; an invariant that the nil of Close is in the channel until the worker takes it and that its pusher is still there while the channel is open; who waits, waits for somebody who can go on | holds, for every schedule; the fairness asked for is only that possible work is not put off for ever |
| C79 | P_Word | the fields as words, each load and store a step; a setter's remaining program run by itself predicts the cell; log calls split at the load of the pointer | false for lists of different lengths (4 witnesses, for either order of the words); proved for setters in turn, undisturbed log calls, and lists of one length |
| C80 | P_Res | histories with a tally; each call keeps heap size minus table size, up to the outputs the user makes and the root's first | bound, exact count and "nothing new" proved; release of unused outputs and silence after Close false (2 witnesses) |
| C81 | P_Iface | type and data word of the formatter, each load and store a step; if every word stored is in order, every pair loaded is | false for formatters of different types and for nil (4 witnesses, for either order of the words); proved for setters in turn, undisturbed uses, and formatters of one type |
| C82 | P_Doc | invariant of histories that begin with loading the example file; composition of C07, C08, C11, C21, C24 and C52 as in C56 | size, backup names and late loading false (3 witnesses); the rest proved |
| C83 | P_AsyncTime | composition of C31, C43, C57 and C64: the worker's writes as timed writes | period of the log call false (witness); the rest proved for the period of the write |
| C84 | DiskSpec, P_Disk | invariants of C36's abstract log: file lengths by number of starts, and by writes of the current process; groups of at most batch_num texts; composition with C50, C57, C43 | false over restarts (witnesses for every length, and for time); bounds proved otherwise |
| C85 | FaultSpec, FaultTimeProofs, P_Fault | C40's abstract steps with the files that were ever there; C41's live and dead writers, write by write with the number of failed operations; composition with C50 and C57 | content and order proved for any faults, by size and time; a failed rename mixes two periods (refuted); own faults only: false for close and listing, by size (universal, sync and async) and by time, proved for the rest by size and time; nobody is told |
| C86 | FaultSpec, FaultTimeProofs, P_Crash | invariant over writes, interrupted writes and restarts: periods of backups have been passed by the clock, so no name is used twice | content, order, other files proved for any faults and crashes; own period across restarts refuted |
| C87 | LivesSpec, P_Lives | each run gives a history of writes ended by a restart or a crash; histories are joined and C40 or C86 applied, texts by C50 | proved |
| C88 | FullSpec, P_Full | one write of a writer with full names as a function of its readings; invariant: periods of finished files have been passed by the clock | one process proved; several processes proved if the clock stands still during the first write of each; any restart and retention refuted |

## Trusted base

* Coq 8.16.1: its kernel (including `vm_compute`, used for concrete examples and witnesses), `coqc`, and `coqchk`.
* No axioms. `Print Assumptions` follows every theorem in the `P_*.v` files and prints "Closed under the global context" each time. (The
  list of axioms `coqchk` prints for the whole set of libraries contains entries of the standard library that are not used:
  `Coq.ssr.ssrunder.Under_rel.*`, a module-type artefact of the ssreflect plugin files loaded with `Lia`.)
* That the model says what the Go code does. Nothing checks this mechanically; every definition cites the lines it transcribes. As evidence,
  `TestsLog.v` and `TestsRoll.v` run the project's own tests in the model: all of `logger_level_test.go`, `log4g_test.go`, `format_text_test.go`,
  `logger_manager_test.go`, `output_base_test.go` (every schedule), and the 30 cases of `output_rollingwriter_test.go` (the two that explode the archive in P_Explode.v),
  with the results the Go tests expect. `tools/` holds only the generator of MANIFEST.json.
* That the specifications (`*Spec.v`) say what the English properties mean.

Modelled: all functions of the library that the properties are about, as listed under "Layout" above. In particular the code the task points at:
levels, layouts, formatting, call sites, loggers, factory, manager and configuration, all output types, the asynchronous output, the
rolling writer with archiving, the archive package's copying, and the locks.

Not modelled, or only as a parameter that theorems quantify over:

* Go library code the program passes data through: fmt verbs, time formatting and parsing, YAML and JSON decoding, `filepath`, `os.ReadFile`, `syslog` dialing, `unicode` case tables
  above ASCII (two theorems assume which characters above ASCII have an ASCII letter as their other case), the encodings of zip, tar and gzip. Parameters of the model.
* The operating system: each file-system operation may give any result its relation (`eff`) allows, including failure. Operations are atomic, except that
  Write may write a part. No other process changes the directory (but for C75 and C76, where several writers share it). Nothing is said about loss of buffered pages on power failure.
  Permissions are recorded as arguments, not interpreted.
* File names and patterns with a slash in a roll name; the writer's field `fullName` keeps the value every caller gives it (the other value: C88). With `archiveExploded` (which no caller sets) the archive directory is another one than the log directory.
* The Go memory model: goroutines interleave at the operations named in the models (sequential consistency). Data races are therefore visible only where the racing accesses are steps of their own: a memory output's buffer (Mem, C65), logger fields (Race, C58; the words of the list of outputs in Word, C79), an output's formatter (Iface, C81) and an event that several outputs format (Share, C67). Logger fields read without a lock in `write` are
  interleaved with SetLevel/SetOutputs in Race only (each call is one step in World), where reads and stores of a field, a slice included, are atomic (Word takes the slice apart).
* Panics inside user-supplied creators: histories in World go on after one that the caller recovers from (C68), unless it stopped the making of the root logger; in Lock the panicking call stops where it is, with what it had stored, and keeps the locks that the code keeps. Panics of a user's formatter, context or output in a log call are covered in the same way (C71). A user's own output is taken not to change the event, and to answer CallerInfoFlag as its formatter does.
* Creators that return neither an error nor something: `nil, nil` from an output creator makes the manager panic, from a formatter creator it makes outputs use their default text.
* Memory shared with the caller: only in Alias (C70), where a store replaces a whole configuration or one element of a slice; elsewhere the caller leaves what it passed in alone. What an argument points to is part of its value there.
* SetConfig(nil), which panics at once. `api.Config` tags. `example/`, tests, `internal/io` (test helper).
* Integer width: `int` is 64 bits; overflow is modelled where lengths and sizes are computed from input; other counters are unbounded (`callerSkip`, call depth, number of outputs).
* Timing: a blocked goroutine waits; nothing is said about how long.
* Lock model: what a call does between two lock operations is one step; queue capacity is at least 1 (a configured size of 0 is replaced by the default in the code).

## Mutation experiments

`seeded/LOG.jsonl` records experiments in which one definition of the model was changed to a plausible wrong program in a scratch copy and the development was rebuilt;
each line names the edit, the claims it should break, the theorems that failed, and what was tightened when none did. A claim that begins with "none" marks an edit that turned out not to make any claim false (an unreached branch, or a repair).
In the lines with a `proofs_failed` key a script made the edit, replaced every proof that no longer went through by an assumption, and went on building. `proofs_failed` names those
proofs, which is what was observed. `theorems_failed` is wider: it lists every theorem that then rested on such an assumption, so a theorem stands there also when only a lemma below it broke, and for a basic
definition these are many. Such a theorem was not shown to be false of the edited program; the converse is what the experiment tests, that no theorem named in the claim still proves. `not_built` names files
that could not be repaired in this way, or came after such a file; nothing is known about their theorems. In the lines with neither key the output of the run was not kept.
Lines with a `survey` key come from an automatic survey: 796 single-token edits of the definitions, made by a script. There the claim was not written down first and the build stopped at the
first failing proof, so `theorems_failed` names only that proof; `dependents_inferred` lists theorems that refer to it by name and was not observed. A failing proof script alone does not show that the
statement became false. 69 edits that did not type-check and 5 that only changed the precedence of a notation are left out. The survivors were read one by one: those that showed a weak theorem led to the changes of C46, C67, C70 and C77
(logged by hand), the others are the lines that say "none".

# Formal model of pabo99/quark in Rocq (Coq 8.16.1)

## Method

* `/repo` is read as text; nothing is executed. Every definition of a model
  file carries a comment citing the file and lines it models and the
  simplifications made.
* Each component `X` has four files under `rocq/theories/`:
  `XModel.v` (executable model, no proofs), `XSpec.v` (small independent
  specification used in statements, when the statement needs one),
  `XProofs.v` (lemmas) and `XProps.v` (only property theorems, each closed by
  `exact` of a lemma with `Print Assumptions` underneath, plus non-vacuity
  `Example`s).
* Pure Go functions become total Gallina functions; mutation returns the new
  value; Go errors/panics are explicit constructors; goroutines are explicit
  state machines stepped by an arbitrary scheduler (a list of events), one step
  per atomic Go operation (channel operation, atomic swap, mutex section).
* External calls (OS, network, hash functions, Unicode tables, compiler and
  sandbox processes) are universally quantified parameters (ordinary function
  arguments or `Section` variables, discharged at `End`), never axioms.
* If the faithful model violates the natural property, the model is kept and
  `..._refuted : exists ...` exhibits the witness; what remains true is proved
  as `..._partial` or as a guarded theorem with the guard in the statement.

## Trusted base

* Coq's kernel (8.16.1), `coqc`, and the standard library.
* No axioms of our own. `Print Assumptions` is printed under each property
  theorem; see the section "Assumptions" at the end for the list.
* The reading of the Go code, tied to the model by the line citations.
* The Go runtime semantics of channels, `select`, `sync/atomic`, mutexes, maps,
  as described in the model files.

## Plan per property

What is modelled and how it is proved. File names are those of `rocq/theories/`.

| id | model | how it is proved |
|----|-------|-------|
| C01-C05 | `Queue*.v` (`QueueCalls.v`: the calls and what they return): four bounded FIFO channels and the token channel, any number of producer and consumer threads, one step per channel operation | counting invariant over all schedules: for each k, the scanners at position >= k are at most as many as the runs at priority >= k; tokens + scanners + mid-producers = runs |
| C06-C09 | `Run*.v` (`RunTries*.v`, `RunStopProofs.v`: what a failed or late attempt leads to): RunContext, InflightMonitor, attempt counter; handler and timer threads | invariants over all schedules, linearisation of the race-free ones; race witnesses by computation |
| C10-C12 | `Eph*.v`: EphemeralRunManager, Initialize in the background, RemoveAll and disk as oracles | invariant by induction on operations |
| C13, C14, C46 | `Tok*.v`, `Utf8*.v`: UTF-8 decoding, the split function, bufio.Scanner over an arbitrary reader | refinement of the scanner to a tokenisation of the whole stream, for every chunking; characters against a specification by the UTF-8 encoder |
| C15-C17 | `Val*.v`, `Fold*.v`, `Num*.v` (IEEE binary64 by Flocq) | induction on token lists; error bounds over the reals |
| C18-C24, C47 | `Grade*.v` (`GradeCaseProps.v`: each case): Grade after compilation, with every external process an oracle | induction on groups and cases, exact rationals |
| C25 | `Meta*.v` | case analysis and induction on lines |
| C26 | `Out*.v` | induction on archive entries |
| C27, C28 | `BcFilter*.v`, `GoStr.v` (Go's string functions) | string lemmas |
| C29 | `Bc*.v`: Broadcaster and its channels | invariant over event histories |
| C30 | `Sb*.v`: the scoreboard loop over timed histories | invariant |
| C48, C49 | `Tr*.v`: transports and the loop of a subscriber | induction on histories; parser of event streams written from the standard |
| C31, C34 | `In*.v`: files as a map of paths, every persist as a trace of writes | a crash is a prefix of the trace |
| C32 | `Pool*.v`, `GPool*.v`: several inputs, held and cached, on a runner and on the grader, and PreloadInputs | reference counting invariant; for the addition among others (`GPoolAlone.v`), a simulation by the execution alone; for Transmit (`GPoolSend.v`), induction over the reads, by path instead of through the descriptor; LRUCache by contract |
| C33 | `Hr*.v` | induction on reads |
| C35-C37 | `Lit*.v` | permutation invariance, rational sums |
| C38, C39, C41, C52, C53 | `CiModel.v`, `CiProps.v`, `CiCfgProps.v` | induction; case analysis |
| C40 | `CiSys*.v`: requests, worker, disk and crashes | invariants over all histories |
| C42, C43, C50 | `Up*.v` | refinement over all interleavings; bounds on reals |
| C44, C51 | `Ls*.v` | invariants over histories |
| C45 | `FePathProps.v` | injectivity of decimal numerals, string lemmas |
| C54, C55, C57 | `FeModel.v`, `FeProofs.v`, `FeProps.v`: requests as threads, the files, restarts | invariant over all interleavings and crashes |
| C56, C58 | `FeFinProps.v` | case analysis, and C27 |
| C59, C60 | `Rh{Model,Spec,Props}.v` | induction over bodies; the disk of `InModel`; string lemmas |
| C61 | `RhInProps.v`: requests as threads sharing a variable | invariants over all interleavings |
| C62, C63 | `Eh*.v`: one request with its run | an invariant over all interleavings; string lemmas |
| C64-C68 | `Box*.v`: the file system (names, hard links, where contents come from) and the processes of one grading | an invariant over all executions: where the contents of each path may come from, which names share a file, which processes are still to be started |
| C69 | `Trc{Model,Spec,Proofs,Props}.v`: events, JSON values, encoding/json's decoding of the struct | induction over events and values; bounds on rounding to 53 bits |
| C70 | the same files: goroutines adding to collectors | an invariant over all executions: how far each Add is, who holds which file |
| C71, C72 | `Rr{Model,Spec,Proofs,Props}.v`: JSON of results and runs as values, strings as bytes, outcomes Ok/Err/Crash | structural; UTF-8 by the decoder of C14; invariants of decoding |
| C73 | the same files: NoopSandboxFixupResult | structural |
| C74 | `Pp{Model,Spec,Proofs,Props}.v`: a transition system of both processes, from Close to the request to the frontend, with the channels' lengths; failing requests are labels | invariants; a measure for coming to rest; a bound on what passes while the frontend is silent |
| C75 | `RunLive{Spec,Proofs,Props}.v` over `RunModel.v` | a measure: hand-outs left (C06) and the goroutines' remaining statements; an invariant that every attempt in flight has a timer |
| C76 | `Gt*.v`: the walk of a git tree, Transmit and the runner's Persist, on top of `InModel.v` | induction over trees with the parent's path; executions without refused operations computed; C31 for the rest |
| C77 | `Ul*.v`: gradeAndUploadResults with its goroutine, its channels and deferred calls, the multipart format (writer and reader, byte by byte), the connection; then `RhModel.v` | parser lemmas (whole body read back, every strict prefix shows as cut), an invariant of the interleavings, a decreasing measure; C59 for the rest |
| C78 | `Io*.v`: gradeRun, RunHostBenchmark and PreloadInputs as code over locks, Add, Release and RemoveAll, interleaved with one another and with the operations of the inputs' programs (`InModel.v`); base.LRUCache by its contract | invariant (one goroutine inside, its references are those in the cache, its program confined to its input's files), well-founded measure for the end, concrete execution for the refutation |
| C79 | `St*.v`: the JSON of problem settings in both directions (over `Rr*.v`), the sum of weights Grade starts with; composed with `Lit*.v` and `Grade*.v` | structural induction over slices and maps (generic round-trip lemmas); refutations by computation |
| C80 | `Qm*.v`: the queue events each step of `RunModel.v` posts, queueEventsProcessor and the metrics registry | ledgers: per step, what is posted balances the change of the state (induction over the execution); refutations by concrete schedules |
| C81 | `Bh*.v`: the three HTTP handlers as per-request phases over `BcModel.v`, contestChan, AcceptsMimeType | every system step is at most one step of the broadcaster and each request subscribes at most once, so C29's invariant holds of the composed system; lists of requests tracked by phase; leaks bounded through the log |
| C82 | `Cf*.v`: the configuration as a schema of types, its defaults, json decoding over an old value and encoding on any schema | induction on types: decoding keeps the type and each setting folds over what the document says about it (`says`, an inductive specification); a value is determined by its settings; encode/decode round trip |
| C83 | `Mx*.v`: the servers of the three programs as functions of configuration and flags, the registered patterns, net/http's ServeMux and cleanPath | the sorted list of patterns gives the longest match; path.Clean is a fold that simplifies (`simplifies`) and is the identity on canonical paths; case analysis over servers |
| C84 | `Os*.v`: runOneshotRun, runOneshotBenchmark and main of `cmd/omegaup-runner/main.go` up to line 284, oneshot_input.go, filepath.Walk, os.MkdirAll, path.Ext; files as trees, the results directory as a map from paths | the walk is a fold over the list of (path, node) in preorder (`walk_run`), sorted by `prec`; one visit is characterised by `visit_spec`, and visits of an ordered tree do not hinder each other (`transfer`); the rest by cases on `main` |
| C85 | `Sq*.v` over `RunModel.v`: GetRunData, GetQueueInfo, the handler of /grader/status/ and its JSON; each read of a channel is an event among those of the other goroutines | an invariant ties the table to the hand-outs (`Last`, `Handed`); a counted run is `spent`: retries only go to channel 0, which is read first, so it is never read again; the counted runs are a list without repetition between two sets |
| C86 | `Ce*.v` over `MetaModel.v`: Compile, invokeOmegajail, appendFile, getCompileError and the loop over the binaries; files as a map, the sandbox any writer of its files, each failure a field of the call | by what each step leaves in each file, then induction on the programs |
| C87 | `Vc*.v` over `ValModel.v`: main of cmd/validator, flag.Parse for its two flags, Rat.Float64 and "%.2f" as exact roundings of rationals | flags by induction on their spellings; rounding by the bounds of floor and powers of two |
| C88 | `Lg*.v`: DebugContext's buffer and handlers, AppendLogSection, LogBuffer and what Close stores, as a tree of contexts under an interleaving of lines and single writes; the wording of a record is a parameter | invariant by induction on the history (the buffers behind a context's handler are those that hear it); unambiguity: whole lines can be told apart, then induction on both sequences |
| C89 | `Db*.v`: the joints between `GradeModel`, `RrModel`, `UlModel`, `RhModel` and `FeModel`: what is encoded, decoded, and read by updateDatabase | composition of C77_recorded, C71_round_trip, C56_recorded, C19_score_range and C19_accepted_iff |
| C90 | `Keep*.v`: the requests of `FeModel`, the rows of the database, the runs in memory, restarts | invariant over histories; after a restart a measure that every step lowers |
| C91 | `Stop*.v`: main, the goroutines of RunServer and of the continuous integration, connections, signals, the common deadline, for any list of parts | what main did is a prefix of one fixed sequence; an invariant per part over histories; a measure for the end |

Cannot be expressed: actual wall-clock behaviour, the isolation provided by the
sandbox (`omegajail`), performance, and the contents of third-party libraries
(git2go, websocket, MySQL driver). These are oracles.

## What is modelled and what is not

Modelled, file by file (the definitions cite the lines):

* `grader/queue.go`: all of it (queues, run contexts, inflight monitor and what it and the queues report, ephemeral runs, event listeners, registry).
* `cmd/validator/main.go`: all of it but the log (`Vc*.v`).
* `runner/tokenizer.go`, `runner/validator.go`: all of it. `base.ParseRational` and `unicode.SimpleFold` are parameters.
* `runner/runner.go`: Grade, worseVerdict, parseOutputOnlyFile, validatorLimits. Compilation and execution are oracles that return a result or an error; the zip archive of the output and the upload of files are not modelled; `copyFile` is not.
* `runner/runner.go`, `runner/sandbox.go`, again (`Box*.v`): the files and directories Grade makes, the links, the processes it starts, with which parameters, in which order, what they can see and write, the archive, the cleanup. A process is anything that writes and removes files where the sandbox lets it, for as long as it runs; that it cannot do more is assumed of omegajail. Contents of files are where they come from, not bytes.
* `runner/sandbox.go`: Compile, invokeOmegajail, appendFile (`Ce*.v`), parseMetaFile, isJavaMLE, the limits given to omegajail. The process itself is an oracle.
* `runner/input.go`, `grader/input.go`, `common/inputmanager.go`, `common/literalinput.go`: all but logging. Tar and gzip decoding, SHA-1 and git are parameters; LRUCache (go-base) is taken by its contract (PoolModel.v, GPoolModel.v).
* `common/problemsettings.go`: all of it (JSON as values). `common/run.go`: attempt IDs, JSON.
* `runner/runner.go`, `runner/sandbox.go`: the JSON of results and metadata in both directions (`Rr*.v`); `runner/noop_sandbox.go`: NoopSandboxFixupResult. A text is the JSON value it stands for.
* `broadcaster/`: all of it; websocket and HTTP writes are oracles.
* `cmd/omegaup-broadcaster/main.go`: the scoreboard loop (Sb), the handlers (Bh). Not: CORS headers, cookie passing, metrics registry.
* `cmd/omegaup-grader`: `ci.go` (JSON and git as parameters), `frontend_handler.go` (paths, /run/new/, /run/grade/, /run/resource/, /submission/source/, pending runs, updateDatabase, broadcastRun), `ephemeral.go` (limits, the run manager, the requests), `runner_handler.go` (processRun, the paths of requests, the /input/ handler).
* `cmd/omegaup-grader/main.go`: queueEventsProcessor; `cmd/omegaup-grader/metrics.go`: the registry, GaugeAdd, SummaryObserve (`Qm*.v`; values of durations are dropped).
* `common/tracing.go`: events, factory, collectors, JSON in both directions (texts as JSON values); `common/context.go`: DebugContext's collectors; its logs, AppendLogSection, LogBuffer (`Lg*.v`). The configuration: types, defaults, NewConfig, String (`Cf*.v`). Not: Register's metadata events, Close.
* `cmd/omegaup-runner/main.go`: channelBuffer, backoff, processRun, gradeAndUploadResults, gradeRun (what it uploads; and, in `Io*.v`, its lock and its input); the locks and inputs of `runner/benchmark.go` and of PreloadInputs.
* `cmd/omegaup-runner/main.go` (one-shot mode), `oneshot_input.go` (`Os*.v`). Not: what of Grade is copied where (the tree is a parameter).
* `common/server.go`, the `main` functions and `metrics.go` of the three programs: which servers are started with which handlers and which clients (`Mx*.v`); start-up order, signals, shutdown, failures to listen (`Stop*.v`).

Not modelled: setting up logging and tracing files (`NewContext`, `grader/context.go`), the metrics of the operating system, the benchmark's measurements, command-line programs
(`cmd/benchmark`), the TLS protocol.

## Assumptions

`Print Assumptions` is printed under each theorem during the build.
All theorems of `MANIFEST.json` are "Closed under the global context" but these:
C16_*, C18_run_verdict, C18_order_irrelevant, C19_*, C20_*, C21_*, C22_*, C23_*,
C24_*, C47_*, C79_no_cases_refuted use the four axioms of the standard library's real numbers
`ClassicalDedekindReals.sig_forall_dec`, `ClassicalDedekindReals.sig_not_dec`,
`FunctionalExtensionality.functional_extensionality_dep` and
`Classical_Prop.classic` (Flocq's binary64 is built on them).

## Findings

The `*_refuted` theorems are executions of the model (hence, if the model is right,
of the code) on which a natural statement is false. The most relevant:

* C08, C09: abandoned runs are never post-processed; an I/O error leaves a closed run never ready; two uploads for one attempt race.
* C10, C12: a failed commit leaks its space; the order of the restored runs after a restart.
* C19: if the validator's files cannot be opened the case is accepted.
* C26: the limit on a plain output; C27: anonymous subscribers and user filters; C28: a filter string that panics.
* C29, C48: panics by closing a channel twice.
* C31, C34: a tar entry can leave the input's directory; literal inputs are accepted half-written.
* C40, C52: a commit that stops the grader; finished reports marked as failed.
* C54-C57: 200 although the source is truncated; runs queued twice; a shared error variable.
* C59, C61: an uploaded file name with `..` writes outside the run's directory; the /input/ handler shares `err` between requests: leaked references, panics. A tracing.json can make the upload handler panic (C69): the run waits for the monitor's timeout.
* C71: details.json `null` (or a null group or case) is taken with 200, and then storing it panics; C72: a source that is not valid UTF-8 is compiled as another program; C73: with the no-op sandbox a run whose input could not be had is accepted.
* C62: an input's reference is leaked if no directory can be made; a request hangs for ever if the result cannot be written; tokens that are never served.
* C74: neither request has a timeout: a frontend that does not answer the scoreboard request stops the grader from recording any run, and Close from returning.
* C76: the error of the tree walk is dropped: a lost subtree gives an archive without the files after it.
* C77: an upload cut off after its result and a second attempt in which the runner dies leave the first result as final, with 200; the upload's status is ignored and there is no timeout.
* C78: the grader preloads its cache with a mutex nobody else has (cmd/omegaup-grader/main.go:194-198): when an archive cannot be verified, PreloadInputs' RemoveAll comes after its failed Add has left the cache, and can remove the archive another request has made in between and uses.
* C79: a `null` case in settings.json is decoded, and then grading panics (on every attempt of every run of the problem); settings without cases accept everything that compiles.
* C80: `grader_runs_retry` and `grader_runs_abandoned` are always 0: main.go:156,158 call GaugeAdd, but both are registered as counters (metrics.go:103-114), and GaugeAdd ignores unknown names. The four per-priority length gauges are never set, and gaugesUpdate runs once (metrics.go:205-208 has no loop). A retry decided by a result handler posts no event. A timer that fires while a result is being stored reports a graded run as abandoned. (Not modelled: QueueTime is written after the run is visible to runners and not renewed by a requeue, queue.go:570-571, so a delay sample may be too long, or measured from the zero time.)
* C81: a refused event-stream client (no filter, malformed filter, frontend unreachable) gets 200 with an empty body (main.go:313-320 answers only UpstreamErrors); main.go:270-271 sets the content type after WriteHeader, so it is never sent; a dropped or overtaken unsubscription leaves a dead connection registered and counted until it has missed its channel's length of messages; `/deauthenticate/` without a user disconnects every anonymous client, with any method; `contestChan <-` (268) blocks the answer to an accepted message while a scoreboard request hangs (the client has no timeout).
* C82: nothing validates a configuration: `ChannelLength: -1` or `PingPeriod: 0` load, and then make(chan)/NewTicker panic on every event connection; without `ScoreboardUpdateSecret` the secret is the one in the source. (Not modelled: the runner's loadContext, cmd/omegaup-runner/main.go:73-82, overwrites NewConfig's error, so a malformed file is a nil dereference; /reload-config/ of the grader only logs.)
* C83: runners and the frontend are told apart by port only: one certificate opens both, including /debug/vars (configuration with `DataSourceName` and `ScoreboardUpdateSecret`) and /debug/pprof/ on `Grader.V1.Port`; RunServer always asks for client certificates, so `Proxied: false` makes the public interfaces unusable for browsers; any trusted runner can send the result of any attempt (runner_handler.go:197-225 does not compare names).
* C84: `-oneshot=run -results=DIR` never ends for interactive problems: the copying opens the named pipes of runner.go:631-636 (the result has been printed, the temporary directory stays); for C#, if the host has no /usr/share/dotnet/Main.runtimeconfig.json (it is the sandbox's), it stops at the symbolic link of sandbox.go:166-172, so the cases' files are missing, with status 0; every error but a panic ends with status 0; `-oneshot=bench` (misspelled) starts the daemon: the branch for unknown modes (main.go:279) is dead.
* C85: /grader/status/ is not of one moment: a run that times out meanwhile is both running and waiting, and `run_queue_length` can be 0 although a run waits at every moment (one comes back to channel 0 after it was read, the other leaves channel 1 before it is). `broadcaster_sockets`, `runner_queue_length` and `runners` are constants.
* C86: for Pascal and C# the sandbox's own message is never shown; the compile error can be a path of the runner; with an earlier compile.meta a program is OK although the sandbox could not be started; a full disk cuts the text.
* C89: nothing new; a score of 1-2^-60 is recorded as 1 (rounding), so a recorded 1 does not say AC.
* C91: a signal before READY is lost (`make(chan os.Signal)` without a buffer); READY is said before any port is known to be open; as long as a runner is waiting for work every stop takes the five seconds, and the frontend's requests then get none (one deadline for all, in order); the worker of the continuous integration is stopped before the server that accepts reports: one accepted meanwhile is never made, its directory goes at the next start.
* C90: a failing UPDATE leaves a run not ready with nobody working on it until the next start of the grader or a rejudge; a run whose submission was never sent is skipped at every start and stays not ready for ever.
* C88: a runner can end its own section of a run's log and forge lines and sections of others; contents without a final newline hide the end mark; a section is three Writes to a buffer nothing locks, so what is logged meanwhile (a timeout) lands inside; what is logged after Close is not in logs.txt.gz.
* C87: the validator command prints 1.00 for 0.996 (rounding), and for an unknown validator on two empty files.
* C68: createZipFile leaves out what it cannot open without an error, and keeps every file open until it returns (runner.go:1293-1298), so a problem with many cases can lose results.
* C64, C67: case names with slashes or `..` let a program leave files for the next case, or write into other attempts; C66: the expected output of an earlier case is shown to the validator; C65: Java's extra second is a microsecond.

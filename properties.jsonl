{"id": "C01", "title": "GetRun never observes an empty queue after its wake-up", "statement": "Whatever the interleaving of AddRun/AddWaitingRun/requeue producers and GetRun consumers, a GetRun call that has been woken up always finds a run in one of the priority queues: the 'unreachable' panic is never reached, even though the priority scan is not atomic.", "quantifier": "every number of producers and consumers, every interleaving of their individual channel operations", "why_tests_cant": "The panic would need a particular interleaving between one consumer's scan and other consumers/producers; a test can only sample schedules.", "anchors": ["grader/queue.go: Queue.GetRun, Queue.enqueue, Queue.enqueueBlocking", "grader/queue.go: QueueManager.Add"]}
{"id": "C02", "title": "No run is lost or duplicated by a queue", "statement": "At every moment of every execution, the multiset of runs accepted by a queue equals the multiset of runs handed out by GetRun plus those still waiting in the queue (or in the hands of an in-progress call). Every accepted run is one that some call was asked to add, with the priority asked for, and every run handed out is the result of a GetRun call that has returned it.", "quantifier": "every interleaving of any number of producers and consumers, every reachable state", "why_tests_cant": "Conservation must hold for all schedules and histories.", "anchors": ["grader/queue.go: Queue.GetRun, Queue.enqueue, Queue.enqueueBlocking"]}
{"id": "C03", "title": "FIFO within a priority", "statement": "Runs of the same priority are removed from a queue in exactly the order in which they were inserted. What goes in and out of a queue is what the calls add and return.", "quantifier": "every history of any length and interleaving", "why_tests_cant": "Quantifies over all histories.", "anchors": ["grader/queue.go: Queue.GetRun, Queue.enqueue"]}
{"id": "C04", "title": "Highest priority first", "statement": "A GetRun call that runs without interference removes a run of the highest non-empty priority; under arbitrary interleaving, a GetRun that returns a run of priority p saw every higher priority queue empty at some instant of the call.", "quantifier": "every queue state and every interleaving", "why_tests_cant": "Needs all interleavings of the scan with other calls.", "anchors": ["grader/queue.go: Queue.GetRun, QueuePriority"]}
{"id": "C05", "title": "A full queue rejects or blocks, never drops silently, and the wake-up never blocks", "statement": "enqueue on a full priority queue reports failure and leaves the queue unchanged; a blocking enqueue waits; and after an insertion the wake-up token can always be posted without blocking, so no priority queue ever exceeds its capacity and a producer is never stuck holding an inserted run.", "quantifier": "every capacity, every interleaving", "why_tests_cant": "The token-channel capacity argument is over all schedules.", "anchors": ["grader/queue.go: Queue.enqueue, Queue.enqueueBlocking, QueueManager.Add"]}
{"id": "C06", "title": "A run is attempted a bounded number of times", "statement": "A run is handed out to runners at most max(1, MaxGradeRetries) times over its life, whatever failures, timeouts and last-attempt requests occur; a last-attempt requeue leaves at most one further attempt. If every attempt fails without a last-attempt request, all the tries are used.", "quantifier": "every MaxGradeRetries, every sequence of requeue requests", "why_tests_cant": "All histories of failures of any length.", "anchors": ["grader/queue.go: RunContext.Requeue", "grader/queue.go: NewEmptyRunContext"]}
{"id": "C07", "title": "Every hand-out of a requeued run has a fresh attempt ID", "statement": "As long as fewer than 2^64 identifiers are drawn, the attempt IDs of all attempts of all runs are pairwise distinct, for every interleaving of concurrent draws.", "quantifier": "every number of concurrent draws below 2^64 and every interleaving", "why_tests_cant": "Uniqueness over unbounded histories.", "anchors": ["common/run.go: NewAttemptID", "grader/queue.go: RunContext.Requeue"]}
{"id": "C08", "title": "Closing a run has effect at most once", "statement": "However many times Close is called and from however many goroutines, results are written, the ready channel is closed and the post-processor is notified at most once; the channel-close panic is unreachable.", "quantifier": "every number of concurrent Close calls and interleavings", "why_tests_cant": "Interleavings of an atomic swap with channel closes.", "anchors": ["grader/queue.go: RunContext.Close, RunWaitHandle"]}
{"id": "C09", "title": "Inflight bookkeeping of the timeout monitor", "statement": "Over every sequence of adds, gets, removes and timeouts without a handler/timer race, the inflight table maps exactly the attempts handed out and neither completed nor timed out; a timed-out attempt is requeued exactly once and no later message for its attempt ID reaches the run. A failed upload requeues the run exactly once, with one try less (one in all after a judge error) and a new attempt; without tries left the run is given up: closed, made ready once, in no queue and no longer looked up. The timer of an attempt that has ended stops without touching anything. (The unrestricted version, with the timer racing the handler, is refuted.)", "quantifier": "every sequence of monitor events", "why_tests_cant": "All interleavings of timers and handlers.", "anchors": ["grader/queue.go: InflightMonitor.Add, Get, Remove, timeout", "cmd/omegaup-grader/runner_handler.go: processRun"]}
{"id": "C10", "title": "Ephemeral cache accounting", "statement": "After any interleaving of run creations, writes, commits, evictions with any outcome, and restarts, the accounted total size equals the sum of the sizes of the runs kept, only kept runs are served, and a new run gets a directory no other run has. If each directory is handed to the manager once, the runs served are exactly the runs kept, none twice, and (if nobody else deletes them) they exist on disk. False of the code: that this holds for every schedule (the background Initialize may add a run in progress, which is then committed again), and that a failed commit leaves no untracked directory.", "quantifier": "every history of goroutine steps, removal outcomes and restarts", "why_tests_cant": "Accounting drift only shows after particular histories.", "anchors": ["grader/queue.go: EphemeralRunManager.add, Commit, Get, Initialize"]}
{"id": "C11", "title": "Ephemeral cache stays within its limit", "statement": "At every moment the runs kept fit in the configured limit or there is just one; a commit either succeeds, making the run kept, served and newest, or fails because a removal failed, and then the run is not served and some of the oldest runs may be gone.", "quantifier": "every history of goroutine steps, removal outcomes and restarts", "why_tests_cant": "All histories and sizes.", "anchors": ["grader/queue.go: EphemeralRunManager.add"]}
{"id": "C12", "title": "Ephemeral cache evicts oldest first and no more than needed", "statement": "The runs kept are always the most recent commits since the last restart without gaps, and as long as removals work they are as many as fit in the limit (at least the newest). False of the code: the documented last-in first-out order, and that a restart preserves the order of age.", "quantifier": "every history of goroutine steps, removal outcomes and restarts", "why_tests_cant": "All histories.", "anchors": ["grader/queue.go: EphemeralRunManager.add"]}
{"id": "C13", "title": "Token validators do not depend on how input is chunked", "statement": "The sequence of tokens read from a stream depends only on the bytes of the stream, not on how the operating system splits them into reads (including splits in the middle of a UTF-8 sequence); so the validator's score is a function of the two files' contents.", "quantifier": "every byte string and every way of splitting it into reads", "why_tests_cant": "Infinitely many splits.", "anchors": ["runner/tokenizer.go: Tokenizer.Scan, scanSplit", "runner/validator.go: CalculateScore"]}
{"id": "C14", "title": "Tokens are the maximal runs of token characters", "statement": "The tokens returned are exactly, in order, the maximal non-empty runs of characters satisfying the token predicate; separators are never part of a token and no character satisfying the predicate is lost.", "quantifier": "every valid stream whose tokens are below the maximum token length", "why_tests_cant": "All byte strings.", "anchors": ["runner/tokenizer.go: Tokenizer, IsNonWhitespace, IsNumeric"]}
{"id": "C15", "title": "Token validator score is 1 exactly when token sequences are equal", "statement": "For validators token and token-caseless the score is 1 iff both outputs have the same number of tokens and corresponding tokens are equal (up to case for caseless), and otherwise 0 with the first mismatch reported; whitespace layout never matters.", "quantifier": "every pair of files", "why_tests_cant": "All pairs of contents.", "anchors": ["runner/validator.go: CalculateScore, tokenEquals, tokenCaselessEquals"]}
{"id": "C16", "title": "token-numeric tolerance", "statement": "The numeric validator reads both tokens as correctly rounded float64 values and accepts iff they are equal, or within 1.5*tolerance of each other, or within tolerance*max(|a|,|b|) (up to the rounding of the float operations, relative 2^-50, in the rejecting direction); it is reflexive, symmetric, and widening the tolerance never turns an accepted pair into a rejected one; a number never matches a token that is not one; with tolerance 0 exactly equal float64 values match. (Malformed or overflowing tokens all match each other: refuted.)", "quantifier": "every pair of finite numbers, every tolerance >= 0", "why_tests_cant": "All numbers and tolerances.", "anchors": ["runner/validator.go: tokenNumericEquals"]}
{"id": "C17", "title": "literal/custom validator scores lie in [0,1]", "statement": "The score of the literal and custom validators is always in [0,1], equals the parsed number when that is already in [0,1], and is 0 with an error when the output holds no parseable number.", "quantifier": "every contestant/validator output", "why_tests_cant": "All outputs.", "anchors": ["runner/validator.go: CalculateScore"]}
{"id": "C18", "title": "Verdict aggregation is a minimum", "statement": "The verdict of a run is the worst of its cases' verdicts in the documented order (wrong and partial answers counting as partial, accepted cases as OK), then WA instead of PA when the score is 0 and AC instead of OK; it depends only on the multiset of case verdicts and the score. Combining two verdicts is associative, commutative and idempotent. (Refuted: combining is total; a verdict outside the list panics.)", "quantifier": "every finite list of known verdicts and every permutation of it", "why_tests_cant": "All permutations and lengths.", "anchors": ["runner/runner.go: worseVerdict, Grade", "common/context.go / common/run.go: VerdictList"]}
{"id": "C19", "title": "Run score is bounded and AC means full score", "statement": "Groups and cases are reported in the order and with the names of the settings. A case is given the validator's score of its output if its processes ended well and its files can be opened, and 0 otherwise; its verdict is AC, PA or WA by that score, or that of its processes. With non-negative weights Score is in [0,1], ContestScore = MaxScore*Score, each case's contest score is its maximum times its score; a run whose every case is validated with score 1 gets AC and Score exactly 1, and conversely AC is given only then (with positive weights Score 1 only then) provided the files to compare can be opened. (Refuted without that proviso: a missing output file is accepted with full score.)", "quantifier": "every problem layout (groups, cases, weights) and every outcome of the cases", "why_tests_cant": "All layouts and outcomes, exact rationals.", "anchors": ["runner/runner.go: Grade"]}
{"id": "C20", "title": "Groups are all or nothing", "statement": "When the files to compare can be opened: a group contributes to the score iff every case in it earned a positive score; then it contributes the weighted sum of its cases' scores, else 0; the run's score is the sum of the groups'. Hence improving a case's score never lowers the run's score.", "quantifier": "every layout and outcome", "why_tests_cant": "All layouts and outcomes.", "anchors": ["runner/runner.go: Grade"]}
{"id": "C21", "title": "Case maxima add up to the run's maximum", "statement": "The reported MaxScore of all groups add up to the run's MaxScore, and the maxima of the cases of a group to the group's, for every weight distribution with positive total.", "quantifier": "every layout", "why_tests_cant": "All layouts, exact rational arithmetic.", "anchors": ["runner/runner.go: Grade, NewRunResult"]}
{"id": "C22", "title": "Verdict of a case from its processes, whatever their order", "statement": "A case that is run is decided by the worst verdict of the contestant's processes; if all ended well and the problemsetter's process did not, an exceeded output or time limit of that process is reported as such, a broken dialogue (exit status 239-242) or closed pipe (SIGPIPE) as a runtime error, anything else as a judge error. An output-only case without its file is a runtime error, with too long a file an output limit error. Only a case that ended well is judged by its output. The times of the contestant's processes are added up, the wall time is the longest of theirs, and none of them took more memory than is reported. The time of a run is the sum of those of its cases, its wall time too, its memory the largest. The verdict, wall time and the table of individual results do not depend on the order in which the processes finish; a single-process case is reported as its process ended. (Refuted: memory, total time and the reported exit status do depend on the order, and memory can exceed the sum of the processes' memory.)", "quantifier": "every permutation of process completions", "why_tests_cant": "All schedules.", "anchors": ["runner/runner.go: Grade (metaChan), mergeVerdict"]}
{"id": "C23", "title": "A compile failure is reported as CE and no case is run", "statement": "When a binary fails to compile (whoever wrote it), the run verdict is CE with Score 0 and no group results, no case is executed and no later binary is compiled, and the compiler's error is returned; CE is reported only in this case or for an unusable submission.", "quantifier": "every compile outcome and position of the failing binary", "why_tests_cant": "All positions and outcomes.", "anchors": ["runner/runner.go: Grade"]}
{"id": "C24", "title": "Wall time limit", "statement": "Once the accumulated wall time exceeds the overall limit, every later case is reported TLE without executing it; before that every case is executed.", "quantifier": "every layout and every per-case wall time", "why_tests_cant": "All time assignments.", "anchors": ["runner/runner.go: Grade"]}
{"id": "C25", "title": "Sandbox meta verdict table", "statement": "For every content of the meta file: a file of key:value lines gives, from the last value of each key, MLE when a positive limit is exceeded (or Java reported OutOfMemoryError with a non-zero exit), else TLE for a Karel program with status 1, else by signal (SIGSYS RFE; SIGALRM/SIGXCPU TLE; SIGXFSZ OLE; other RTE), else OK exactly when status is 0 or the language is c, else RTE; any other file gives JE and an error; no verdict a process cannot end with ever appears, and the memory reported is within the limit; the times and system call reported are those of the file. Compilation succeeds only with no signal, status 0 and (Java) the class. False of the code: that OK always means a reported exit of 0 (C, unparsable status), that OutOfMemoryError is found on any line, that a problem without memory limit runs unlimited, that Java gets extra time.", "quantifier": "every meta file content, memory limit, language, error file", "why_tests_cant": "The file is written by another process and may be truncated or hold any bytes.", "anchors": ["runner/sandbox.go: parseMetaFile, isJavaMLE, OmegajailSandbox.Run, OmegajailSandbox.Compile"]}
{"id": "C26", "title": "Output-only archive sanitising", "statement": "Whatever archive is submitted (with a non-negative output limit), the outputs accepted are exactly those named like a case after dropping directories, none containing a separator, each with what the last usable entry of that name holds: unchanged contents within the limit, or an empty file marked oversize. The case's verdict is OK, OLE or RTE accordingly. False of the code: that a plain (non data-URL) submission is held to the limit, and that a negative limit allows nothing.", "quantifier": "every archive (names, sizes, duplicates, corrupt entries), case list and limit", "why_tests_cant": "The archive is chosen by an adversary.", "anchors": ["runner/runner.go: parseOutputOnlyFile"]}
{"id": "C27", "title": "Filter authorisation", "statement": "A message is sent to a subscriber only if one of its filters asks for it, and a subscriber that is logged in, or has no user filter, is only sent messages it may see: it is an admin, the message is public or its own, or it administers the problem, contest or problemset. Every message a filter asks for and the subscriber may see through it matches. The rights used are those the frontend returned. (False of the code, with witnesses: an anonymous subscriber with a user filter is sent non-public messages that carry no user; a user filter ignores the user it names.)", "quantifier": "every message, subscriber and filter", "why_tests_cant": "All combinations of unbounded strings.", "anchors": ["broadcaster/filter.go: Matches", "broadcaster/subscriber.go: Subscriber.Matches"]}
{"id": "C28", "title": "Filter syntax", "statement": "A filter string is accepted exactly when it belongs to the grammar /all-events, /user/U, /problem/P, /problemset/N[/T], /contest/C[/T] with N a decimal int64, and then yields the filter it denotes; parsing '/'+String() of any parsed filter yields the same filter. (False of the code: that all other strings give an error; exactly one string, \"/problemset\", makes NewFilter panic.)", "quantifier": "every string", "why_tests_cant": "All strings.", "anchors": ["broadcaster/filter.go: NewFilter, String"]}
{"id": "C29", "title": "Broadcast delivery", "statement": "For every interleaving of calls and loop steps: each subscriber's channel has delivered or holds exactly the messages, in processing order, that matched it while it was registered; messages are processed once, in the order Broadcast accepted them; a matching subscriber whose channel is full is removed and nobody else is; a channel is closed exactly when its subscriber is removed, at most once; the gauges count the live subscribers; handling a deauthentication removes exactly that user's subscribers and handling an unsubscription that subscriber. (False of the code, with schedules: that a subscriber is gone after Subscribe then Unsubscribe, that Deauthenticate covers earlier subscriptions, and that subscribing twice is harmless.)", "quantifier": "every sequence of subscribe/unsubscribe/broadcast/deauthenticate events, any channel capacity", "why_tests_cant": "All histories.", "anchors": ["broadcaster/subscriber.go: Broadcaster.Run, Subscribe, Unsubscribe, Deauthenticate, Broadcast"]}
{"id": "C30", "title": "Scoreboard update coalescing", "statement": "Every contest event is received once, in order, and answered by a scoreboard update requested after it: at once if none was requested within the interval before it, and never later than an interval after it as long as the loop keeps up (whatever the schedule, the timer stays armed for it). Every update answers a new event; any three updates of a contest span at least an interval; the loop never hangs or panics. (False of the code, with a schedule: that two updates of a contest are at least an interval apart.)", "quantifier": "all sequences of events, timer expirations, delays and loop iterations; all intervals", "why_tests_cant": "All timed histories.", "anchors": ["cmd/omegaup-broadcaster/main.go: updateScoreboardLoop, updateScoreboardForContest"]}
{"id": "C31", "title": "Crash-safe input persistence", "statement": "If the process crashes at any point while the input manager adds an input that the disk does not hold intact, a later Verify either rejects it or the stored data is exactly that of the archive (runner: the directory has the files of the archive and no others; grader: the archive file is what was written from the repository, with its hash and length). If Add ends with no error, the data is stored, the announced hash was right, the reported size is right and the next process accepts it with the same size; if it ends with an error, a later Verify rejects what is on the disk; a truncated or corrupt stream, or one with another hash, is never accepted. A crash while an input is deleted leaves it rejected or untouched. Where it fails (witnesses): if removing the old directory fails, the error is ignored and after a crash unchecked files are accepted; an in-memory input persisted for a runner is written in place and accepted half-written after a crash; the grader ignores errors of closing the compressor and commits a truncated archive; an in-memory input persisted for the grader answers a failed write with nil.", "quantifier": "every crash point (also within a recursive removal), every failure of every operation (except, where said, of the removals), every archive, every initial disk", "why_tests_cant": "All crash points, failures, contents and initial disks.", "anchors": ["grader/input.go: Input.Persist, graderBaseInput.Verify, Delete", "runner/input.go: persistFromTarStream, Verify, Delete", "common/literalinput.go: inMemoryInput.Persist", "common/inputmanager.go: InputManager.Add"]}
{"id": "C32", "title": "Inputs in use are left alone", "statement": "While a caller holds a reference to an input, its files on the disk (on a runner its directory, its .tmp directory and its .sha1 file; on the grader its archive and the .tmp, .sha1 and .len files beside it) do not change and the reference stays valid until the caller releases it, whatever other inputs are added, verified, rejected, deleted, extracted, released or evicted meanwhile, in any interleaving of their single disk operations and whichever of those fail (hashes of one length, on a runner, archive names without '..'; the external LRU cache taken by its contract: one creation per hash at a time, eviction only without references). On the grader, an input that is added among others, in any such interleaving, leaves on the disk, and answers, what its addition alone would from the files it found when it began. What the grader sends to a runner while it holds the input is the whole archive that was verified, with the announced hash, however the reading is cut. Preloading an input directory removes exactly the inputs that Verify rejects, with what belongs to them, and leaves the others as they are, so that Verify answers the same for each afterwards, for the runner and for the grader.", "quantifier": "every interleaving of adds, operations, failures, releases and evictions of any number of inputs; every directory listing and disk", "why_tests_cant": "All interleavings.", "anchors": ["common/inputmanager.go: InputManager.Add, InputRef.Release, PreloadInputs, BaseInput", "runner/input.go: cachedInput", "grader/input.go: graderCachedInput"]}
{"id": "C33", "title": "Stream hashing is independent of read sizes", "statement": "However its underlying stream is cut into reads, and with whatever buffer sizes it is read, the bytes a HashReader returns are the stream, in order; Sum's digest is that of the whole stream, whether or not it was all read before (Sum reads the rest); Length is the number of bytes returned by Read. (False of the code, with a witness: Length after Sum counts bytes twice that Sum had to read itself.)", "quantifier": "every stream, every way its reader cuts it, every sequence of read sizes", "why_tests_cant": "All chunkings.", "anchors": ["common/inputmanager.go or runner/input.go: HashReader"]}
{"id": "C34", "title": "Inputs stay inside their directory", "statement": "Adding an input with any archive whose names have no '..' segment changes nothing but the input's directory, its .tmp directory and its .sha1 file (and makes the directories above them), whatever fails and wherever it crashes. Names with '..' are not rejected and write outside (witness). Verify reads only paths whose text starts with the path of the input, but this includes other inputs' directories whose names start with it: its answer can depend on them (witness).", "quantifier": "every archive, every failure and crash point, every disk", "why_tests_cant": "Adversarial names and all executions.", "anchors": ["runner/input.go: persistFromTarStream, getStoredHashes"]}
{"id": "C35", "title": "LiteralInput is independent of map iteration order", "statement": "If a literal input is accepted, then in whatever order its maps are iterated over the result is the same: settings, files, archive, size and hash. If no entry is nil nothing panics, and a rejected input is rejected in every order for the same reason, except for which negative weight is named. (With a nil entry, the order decides between an error and a panic: witness.)", "quantifier": "every literal input, every iteration order of each loop over its cases and groups", "why_tests_cant": "Go map order is random; a test sees only some orders.", "anchors": ["common/literalinput.go: NewLiteralInputFactory"]}
{"id": "C36", "title": "What a literal input becomes", "statement": "A literal input is accepted exactly if its validator is known (a custom one has a program), it has cases, none nil, with weights that are not negative and not all zero, and an interactive one has a known language and a proper module name. Then the settings have exactly its cases, each in the group named by the text before the first dot of its name, with its weight divided by the total (so weights are between 0 and 1 and add up to exactly 1), groups and cases sorted and no group empty; and the archive has exactly the two files of every case, settings.json, and the validator's and interactive sources, none overwriting another. (Names are not checked: a case or validator language can name a file outside of the input's directory: witness.)", "quantifier": "every literal input and iteration order", "why_tests_cant": "All inputs, exact rationals.", "anchors": ["common/literalinput.go: NewLiteralInputFactory, validateLanguage, validateInterface, createTar"]}
{"id": "C37", "title": "LiteralInput limits are capped", "statement": "The limits of an accepted literal input are the requested ones capped at 10 s, 10 s, 0 s, 1.5 GiB and 2 MiB, or these if none are given; an ephemeral run that gives limits is capped by the configuration as well; the validator is the requested one, with the language or tolerance (default 1e-6) that belongs to it. Where it fails: an ephemeral run without limits escapes the configured caps (with the default configuration it gets 1.5 GiB instead of 1 GiB: witness), and limits asked for a custom validator are never used: it always runs with the default validator limits and the problem's time limit.", "quantifier": "every literal input, limits and configuration", "why_tests_cant": "All numeric limits.", "anchors": ["common/literalinput.go: NewLiteralInputFactory", "cmd/omegaup-grader/ephemeral.go: validateRequest", "runner/runner.go: validatorLimits"]}
{"id": "C38", "title": "CI report state is the worst of its tests", "statement": "The last report written for a configured CI commit shows every test as it ended up (error; or passed/failed according to whether its result has the demanded verdict and a score in the demanded range, AC for the inputs validator) and its state is error if any test errored, else failed if any failed, else passed. Every earlier version is waiting or running and shows the tests being run one after the other. A commit that cannot be configured gets one report: skipped or error.", "quantifier": "every list of tests and every outcome of each (errors before and after running, being seen running or not, verdicts, scores)", "why_tests_cant": "All lists and outcomes.", "anchors": ["cmd/omegaup-grader/ci.go: addRun, processCIRequest"]}
{"id": "C39", "title": "CI state JSON round trip", "statement": "Each of the six states has its own spelling, and survives encoding and decoding; any other text decodes to failed and any other integer is written as failed, without an error.", "quantifier": "every state, integer and string", "why_tests_cant": "All strings.", "anchors": ["cmd/omegaup-grader/ci.go: CIState.MarshalJSON, UnmarshalJSON"]}
{"id": "C40", "title": "CI commits in flight, marks and crashes", "statement": "As long as no directory is removed under a commit in flight, no commit is in flight twice, and (writes and removals succeeding) a report that is not final is always marked as running; after a crash anywhere and a restart without concurrent requests the unfinished runs are gone, no mark is left, and the finished ones that remain are unchanged and in the cache, so every report served is final. A finished run that nothing removes is still there, unchanged, after any number of requests, runs, crashes and restarts. A commit whose first write fails is refused until the next restart. Without the conditions these fail: a late request restarts a finished commit, requests during the startup walk or an eviction put a commit in flight twice, and a crash during the removal of leftovers leaves a non-final report that is served for good.", "quantifier": "every interleaving of requests, runs, evictions, removals (file by file) and crash points; any content of the disk for the restart", "why_tests_cant": "All schedules and crash points.", "anchors": ["cmd/omegaup-grader/ci.go: ServeHTTP, processCIRequest, addRunToCache, run, Write"]}
{"id": "C41", "title": "ScoreRange decoding", "statement": "A JSON score range is accepted iff it is an array of two numbers whose rationals satisfy 0<=min<=max<=1, and then holds exactly these.", "quantifier": "every list of numbers and every conversion of floats to rationals", "why_tests_cant": "All inputs.", "anchors": ["common/problemsettings.go: ScoreRange.UnmarshalJSON"]}
{"id": "C42", "title": "Upload pipe delivers exactly the written bytes", "statement": "The in-memory pipe between grading and upload hands its reader exactly the written bytes, in order, for every chunking, every read size and every interleaving of the two goroutines, as long as the writer it copies to does not fail; end of file is reported only after the writing side closed the pipe and (unless the reader itself closed it) everything was read. No call hangs; a reader with nonempty buffers makes at most as many successful reads as there are bytes and chunks; Close returns after finitely many steps, when every Write has returned. (After a failed WriteTo the bytes its writer had taken are delivered again: a finding.)", "quantifier": "every sequence of writes, every read size, every interleaving", "why_tests_cant": "All chunkings and interleavings.", "anchors": ["cmd/omegaup-runner/main.go: channelBuffer"]}
{"id": "C43", "title": "Backoff between runs stays within bounds", "statement": "The runner's main loop does not pause after a success or a timeout. After an error it sleeps a whole number of seconds between 0 and 2^min(k,6)-1, k being the number of errors in a row just before it, and each of these numbers is possible; so it never pauses after the first error of a row and never for more than 63 seconds.", "quantifier": "every sequence of successes, timeouts and errors and every choice of random numbers", "why_tests_cant": "All histories.", "anchors": ["cmd/omegaup-runner/main.go: main"]}
{"id": "C44", "title": "Listeners get every event once, in order, and are closed once", "statement": "For the broadcaster of finished runs and the one of queue events, with any number of posting and registering goroutines: a listener (each channel being registered once) receives, each once and in the order of posting, all events posted from some moment on that is not later than the return of its registration; when it has been closed, or when nothing more can happen, it has received all of them. Nothing is delivered to a closed listener, none is closed twice, all are closed after shutdown. If Close is called once after all postings returned and nobody posts afterwards, nobody panics. Before Close all calls return as long as listeners accept. (A listener registered after the end never gets an answer: its AddListener blocks forever. A finding.)", "quantifier": "every history of registrations, postings and closing and every interleaving", "why_tests_cant": "All histories.", "anchors": ["grader/queue.go: QueueManager.AddEventListener, AddEvent, RunPostProcessor"]}
{"id": "C45", "title": "Where the files of runs and submissions are", "statement": "The grade directory of run r is <grade path>/aa/bb/r with aa and bb the last four digits of r (aa last two, bb the two before), for r >= 0; different runs have different directories, none inside another; /run/resource/ opens only files directly in the directory of the run it names (no path escapes) and two different (run, file) pairs never open the same file; sources of different submissions are different files; /submission/source/ opens a file iff the request is a GET whose path has three elements the last of which is 32 lower-case hex digits, and then it is that submission's source.", "quantifier": "every pair of run ids, GUIDs, filenames and URLs", "why_tests_cant": "All pairs and all strings.", "anchors": ["cmd/omegaup-grader/frontend_handler.go: gradeDir, /run/resource/, /submission/source/, readSource"]}
{"id": "C46", "title": "Reported token positions", "statement": "When a file arrives in a single read of at most 4096 bytes, every token (and so every reported mismatch) carries the 1-based line and column of its first character.", "quantifier": "all byte contents up to 4096 bytes delivered in one read, all token predicates", "why_tests_cant": "all inputs", "anchors": ["runner/tokenizer.go:NewTokenizer", "runner/tokenizer.go:splitFunc"]}
{"id": "C47", "title": "End to end: accepted iff every output has the right tokens", "statement": "For a problem with the token validator whose files are readable, a run is accepted iff in every case all processes ended well and the output file has the same token sequence as the expected file; each case gets AC or WA accordingly, or the verdict of its processes. The same with token-caseless for tokens that are equal up to case, and with token-numeric for as many numeric tokens of which each matches (C16): a run whose numbers are all within the tolerance is accepted, and in an accepted run each number is within the tolerance up to rounding, or both tokens are malformed. With a custom validator the score of a case is the first token that the validator's program printed, as a number between 0 and 1, whatever the expected file, and 0 if it did not end well.", "quantifier": "every problem (groups, cases, weights), every process outcome, every file contents and chunking", "why_tests_cant": "infinitely many file contents, layouts and case structures; composition of tokenizer, validator and scoring", "anchors": ["runner/runner.go: Grade", "runner/validator.go: CalculateScore", "runner/tokenizer.go: Tokenizer.Scan"]}
{"id": "C48", "title": "Subscriber loop", "statement": "In every interleaving of a subscriber's loop, its read loop, the broadcaster and the network: what was written is an initial part of the messages queued, in order; if the peer stays and no write fails the loop ends only once the broadcaster dropped the subscriber and everything queued was written (a websocket then gets a close frame); a write that fails ends it; nothing is written after it ended; the shared close channel is closed at most once with a websocket, and with SSE unless the client disconnects while being dropped. (False of the code in that last case: the process panics, with a schedule.)", "quantifier": "all interleavings of the goroutines, of message arrivals, write failures and disconnections, both transports", "why_tests_cant": "the double close needs a race between two goroutines; ordering must hold for all schedules", "anchors": ["broadcaster/transport.go: WebSocketTransport, SSETransport", "broadcaster/subscriber.go: Subscriber.Run"]}
{"id": "C49", "title": "SSE framing", "statement": "A browser reading the SSE stream gets exactly the messages sent, in order, whatever pings come between, as long as each message fits in one line. (False of the code for messages with line breaks: they are cut and can forge events.)", "quantifier": "all sequences of messages and pings", "why_tests_cant": "must hold for every message content and interleaving of pings", "anchors": ["broadcaster/transport.go: SSETransport.Send, SSETransport.Ping"]}
{"id": "C50", "title": "Every received run is answered with exactly one result", "statement": "For every run a runner received and whatever happens to its input and its grading, the upload contains exactly one details part: the grading's result, or a JE result if the input was not available or grading failed; logs and traces follow whenever there are any, unless the result could not be encoded. (The status of the grader's answer is ignored: a refused upload counts as a success. A finding.)", "quantifier": "every outcome of input transmission, grading, encoding and upload", "why_tests_cant": "All combinations of failures.", "anchors": ["cmd/omegaup-runner/main.go: processRun, gradeAndUploadResults"]}
{"id": "C51", "title": "The queue registry finds the queue last added under a name", "statement": "After any sequence of Add calls, Get of a name returns the queue made by the last Add of that name, and an error exactly if the name was never added. (Contrary to its documentation, Add never fetches an existing queue: it replaces it, and the old one can no longer be reached. A finding.)", "quantifier": "every sequence of names", "why_tests_cant": "All histories.", "anchors": ["grader/queue.go: QueueManager.Add, Get"]}
{"id": "C52", "title": "CI run configuration", "statement": "A commit is run iff both settings files decode and every file they refer to exists (with languages that can be told), skipped iff one of them does not; then every listed solution is run in order with its own source, language and expectations on the cases, limits, validator and interactive part of the commit, followed by the inputs validator. The maximum score is the sum of the weights. The service panics iff the repository cannot be opened or the validator is custom without a language (so 'no commit can stop the grader' is false), and the interface definition of a module named like a language is looked for under the wrong name.", "quantifier": "every commit content", "why_tests_cant": "All trees and settings.", "anchors": ["cmd/omegaup-grader/ci.go: createCIRunConfigFromGit, addRun"]}
{"id": "C53", "title": "CI URLs and directories", "statement": "A request names problem p and commit h iff its path is /ci/problem/p/h/ with p a nonempty word of letters, digits, - and _ and h 40 lower case hex digits; directories of different commits are different and not nested, have no empty, . or .. element, and the cache key computed when a run finishes and when it is reloaded agree and are different for different commits.", "quantifier": "every path, every pair of problems and hashes", "why_tests_cant": "All strings.", "anchors": ["cmd/omegaup-grader/ci.go: ciURLRegexp, ServeHTTP, addRunToCache, run"]}
{"id": "C54", "title": "/run/new/ stores and queues a submission at most once", "statement": "Whatever requests arrive in parallel and however often the grader dies: the source of a submission is created at most once, by one request, holds a prefix of that request's body, only grows, and is final once that request was answered. 200 means this request created the source and queued the run exactly once with the stored source; 409 means another request created it and this one queued nothing; 500 means nothing was queued. Once a source exists no /run/new/ request for it queues anything again. False (refuted): that 200 means the whole body was stored (the error of io.Copy is dropped); that a run is queued at most once (the goroutine at start-up also queues it, possibly with a partial source).", "quantifier": "every number of concurrent requests, interleaving, failure and crash point", "why_tests_cant": "All interleavings and crashes.", "anchors": ["cmd/omegaup-grader/frontend_handler.go: /run/new/, injectRuns, readSource"]}
{"id": "C55", "title": "/run/grade/ and restarts queue what they were asked for", "statement": "/run/grade/ queues a prefix of the runs it was asked for, in order, each with low priority iff the request is a rejudge or debug one or the problem is slow, and with (a prefix of) what was submitted for it. After a restart the runs that were not ready are queued in order, each at most once. /run/grade/ is not atomic: 500 can be answered although some runs were queued (refuted).", "quantifier": "every request, interleaving, failure and crash point", "why_tests_cant": "All interleavings and crashes.", "anchors": ["cmd/omegaup-grader/frontend_handler.go: /run/grade/, injectRuns, registerFrontendHandlers, getPendingRuns"]}
{"id": "C56", "title": "What is recorded of a finished run", "statement": "When the database can be written, the row of a finished run is ready with its verdict, times 1000 of its time, memory, score and judge; the penalty is the runtime iff the penalty type is runtime, and otherwise unchanged. What is told to subscribers names the score, the contest score, author, problem, contest and problemset of the run, and nothing is told of a run without number or author. The contest score recorded is the one told to subscribers unless the problem is all-or-nothing and the score is neither 0 nor 1; then it is 0. So a full solution of an all-or-nothing problem worth more than a point is recorded as 0 (refuted). If the database cannot be written the run stays not ready.", "quantifier": "every result", "why_tests_cant": "All results and scores.", "anchors": ["cmd/omegaup-grader/frontend_handler.go: updateDatabase, broadcastRun, runPostProcessor"]}
{"id": "C57", "title": "The answer of /run/grade/ is about its own runs", "statement": "If no two /run/grade/ requests are between assigning their error and looking at it at the same time, 200 means all of the request's runs were queued and 500 that not all were. Otherwise false: the error variable is shared by all requests, and a request can be answered with the outcome of another one, both ways (refuted).", "quantifier": "every interleaving of concurrent requests", "why_tests_cant": "A data race: all interleavings.", "anchors": ["cmd/omegaup-grader/frontend_handler.go: registerFrontendHandlers err, /run/grade/"]}
{"id": "C58", "title": "Who is told the outcome of a run", "statement": "The message about a finished run reaches only its author and administrators of the site, or of its problem, contest or problemset; its author gets it if subscribed to himself or to the run's problem, contest or problemset; ephemeral runs (id 0) and runs whose author the database does not know are told to nobody.", "quantifier": "every run and subscriber", "why_tests_cant": "All runs, subscribers and filters.", "anchors": ["cmd/omegaup-grader/frontend_handler.go: broadcastRun", "broadcaster/filter.go: Matches"]}
{"id": "C59", "title": "What a runner uploads about a run", "statement": "An upload is answered with 200 only if it was received completely and its details.json and tracing.json could be decoded; then the run's result is that of the last details.json (and is judged by that runner), its log has the logs uploaded by the runner, its trace the events uploaded, and the run is retried exactly if its verdict is JE. It is answered with 400 and retried if the body is cut off, cannot be decoded or cannot be written, and with 500 and not retried if the directory or a file cannot be created. After 200 the run's directory has exactly the uploaded files (the last one of each name), and nothing of an earlier attempt; nothing outside of that directory changes. It gets no answer only if decoding its tracing.json panics. Refuted: every upload is answered; a file name with .. writes anywhere; the result of an attempt that was answered with 400 can stay the result of a later one without details.json; a run closed with 500 loses the result it was uploaded with.", "quantifier": "every multipart body, also cut off anywhere, every state of the disk, every failure of the file system", "why_tests_cant": "All bodies, disks and failures.", "anchors": ["cmd/omegaup-grader/runner_handler.go: processRun"]}
{"id": "C60", "title": "Which requests are uploads, and which are for inputs", "statement": "A request to /run/ is an upload of the results of attempt n exactly if its path has /run/, digits, /results in it, and n is the value of the digits (at most 2^64-1); a runner's own path for attempt n is understood as n, for every n. A request to /input/ is for the problem and hash that stand in its path; a runner's path for a problem (a word) and a SHA-1 hash is understood as these. Refuted: other paths than a runner's are taken for the same attempt.", "quantifier": "every path, attempt id, problem name and hash", "why_tests_cant": "All strings.", "anchors": ["cmd/omegaup-grader/runner_handler.go: registerRunnerHandlers", "runner/client.go: the URLs"]}
{"id": "C61", "title": "Runners get the inputs that exist", "statement": "If requests for inputs do not race on the variable the handler shares between requests, a runner is told that an input does not exist exactly if the input manager could not get it, and else gets it (or an error when sending), nothing panics, and the reference to it is released afterwards; a reference is released at most once, and only if it was acquired, in every execution. Refuted without that hypothesis: a runner is told that an existing input does not exist and its reference is leaked for ever; a request for an input that does not exist panics.", "quantifier": "every interleaving of any number of requests", "why_tests_cant": "All interleavings.", "anchors": ["cmd/omegaup-grader/runner_handler.go: registerRunnerHandlers (/input/)", "common/context.go, common/input.go: InputRef"]}
{"id": "C62", "title": "What a request for an ephemeral run is answered with, and what it leaves", "statement": "A request whose input has a weight for each case does not panic; it is answered with a compile error exactly if the (capped) input is not acceptable, and the maximum score is the sum of the weights. An acceptable one is answered with 400 if the input cannot be stored, 500 if no directory can be made (nothing is queued then), and else with 200, the token, the states waiting, queueing and possibly running, and then the log, the files and the result, in this order, as they are in the run's directory when the run is finished: all that exist and completely if reading works. Afterwards the run is committed and its directory has result, log, trace and request, or (as long as removing works) no directory is left; no reference to the input is held, except after 500. The handler waits for nothing but the run. Refuted: a request without input does not panic; every token is served later; references are always released (not after 500); every request is answered (not if the result cannot be written).", "quantifier": "every request, every interleaving of the handler with the runners, every failure of the file system", "why_tests_cant": "All inputs, interleavings and failures.", "anchors": ["cmd/omegaup-grader/ephemeral.go: addAndWaitForRun, validateRequest, saveEphemeralRunRequest", "grader/queue.go: RunContext.Close"]}
{"id": "C63", "title": "Which files of ephemeral runs can be read", "statement": "A request below /ephemeral/run/ is for a new run exactly if it is POSTed as application/json to new/, and for a file exactly if it is a GET of t/n with t without a slash and n one of details.json, files.zip, logs.txt, request.json, tracing.json; every other request is refused: with 405 for another method, 400 for another type of content, 404 for another path or file. A file is served only if t is the name of a kept run, from its directory: n.gz if there is one, then with gzip encoding and the type of n, and else n.", "quantifier": "every path, method, content type, set of kept runs and state of the disk", "why_tests_cant": "All strings and disks.", "anchors": ["cmd/omegaup-grader/ephemeral.go: ServeHTTP", "grader/queue.go: EphemeralRunManager.Get"]}
{"id": "C64", "title": "Contestants' programs see only their own", "statement": "Whatever a contestant's program or its compiler can read in the directories given to it is its source, the library generated for it, what its own compiler made of them, or a pipe; never a file of the problem, of the validator or the problemsetter, of another contestant's part, or something a program left. Its standard input is the input of the case, as it was in the beginning, or nothing. From its first run until the cleanup nothing changes in its directory, so it finds the same in every case. The problemsetter's program sees only files of the problem, its library, what its compiler made, and pipes. For problems with sane names: case names and languages without slashes, distinct cases, interfaces that are identifiers and not called validator. Refuted: the same for case names with slashes (a program of one case leaves its output for the next).", "quantifier": "every problem, language, input, every order of map iteration, every interleaving of the processes' writes and removals, every failure of the file operations", "why_tests_cant": "All problems, interleavings of processes and failures of the file system.", "anchors": ["runner/runner.go: Grade, copyFile, normalizedSourceFiles, generateMountpoint, validatorLimits, targetName, createZipFile", "runner/sandbox.go: OmegajailSandbox.Compile, OmegajailSandbox.Run"]}
{"id": "C65", "title": "What is started, with what limits, and when", "statement": "Every process is started at most once, and as the table says: the language, directory, target, arguments, mounts, standard input, the place of output, errors and report, and the limits: the problem's for a contestant's program (with the address sanitizer twice the time and a second, no memory limit, 16 KiB more output), the validator's for the validator and the problemsetter's program (or 256 MiB, 10 KiB and the contestant's time). A compiler or validator runs alone, programs only together with others of the same case; programs after all compilers have ended, the validator after all programs; and no case is over before each program has been started for it. The sandbox is called with at most 640 MiB, and with times in milliseconds, rounded down. Refuted: a Java program has a second more than the limit (it has a microsecond). An interactive problem with a program that cannot be written in the language of the run is a compile error, and nothing is compiled or run.", "quantifier": "every problem, request, order of map iteration, schedule of the processes, failure; all limits", "why_tests_cant": "All problems, interleavings of processes and failures of the file system.", "anchors": ["runner/runner.go: Grade, copyFile, normalizedSourceFiles, generateMountpoint, validatorLimits, targetName, createZipFile", "runner/sandbox.go: OmegajailSandbox.Compile, OmegajailSandbox.Run"]}
{"id": "C66", "title": "What the validator judges", "statement": "While the validator runs for a case, data.in (and data.out if the case has an expected output) in its directory, if there, is the case's file of the problem, unchanged; meta.in is the report of the run of this case; its standard input is the output of this case; output and report are written by the program of this case (the problemsetter's for interactive problems), or by the runner from the submission for output-only problems. All else in its directory is of the problem or by its own compiler. Refuted: data.out is there only if the case has an expected output (that of an earlier case stays); the files are always there (a failed copy goes unnoticed).", "quantifier": "every problem, request, schedule, failure of the file operations", "why_tests_cant": "All problems, interleavings of processes and failures of the file system.", "anchors": ["runner/runner.go: Grade, copyFile, normalizedSourceFiles, generateMountpoint, validatorLimits, targetName, createZipFile", "runner/sandbox.go: OmegajailSandbox.Compile, OmegajailSandbox.Run"]}
{"id": "C67", "title": "Nothing outside the attempt's directory is touched", "statement": "Whatever happens, outside the directory of the attempt no name appears or disappears and no contents change, except that the compilers of the problemsetter's program and of the validator can change these very sources in the problem (they are hard links). No process can write outside the directory of the attempt, and the output, error and report files of a process are never written by another one. Refuted: the same for case names with .. (they write into other attempts), and for generated files that are called like the problemsetter's source (they overwrite it in the problem).", "quantifier": "every problem, request, order of map iteration, schedule of writes and removals, failure of the file operations", "why_tests_cant": "All problems, interleavings of processes and failures of the file system.", "anchors": ["runner/runner.go: Grade, copyFile, normalizedSourceFiles, generateMountpoint, validatorLimits, targetName, createZipFile", "runner/sandbox.go: OmegajailSandbox.Compile, OmegajailSandbox.Run"]}
{"id": "C68", "title": "What is sent back and what is left", "statement": "The archive sent back has no name twice, and each entry is an output, error or report file with the contents written by the process of that name (or, for output-only problems, by the runner). Nothing is left out: every such file that exists when the archive has been made is in it, unless it could not be opened. After the cleanup no process runs, and nothing is left of the attempt's directory unless files are to be preserved. Refuted: a result that exists is in the archive (one that cannot be opened is skipped without an error).", "quantifier": "every problem, request, schedule, failure, set of files that cannot be opened", "why_tests_cant": "All problems, interleavings of processes and failures of the file system.", "anchors": ["runner/runner.go: Grade, copyFile, normalizedSourceFiles, generateMountpoint, validatorLimits, targetName, createZipFile", "runner/sandbox.go: OmegajailSandbox.Compile, OmegajailSandbox.Run"]}
{"id": "C69", "title": "Tracing events from runner to grader", "statement": "Whatever tracing events a runner collected, decoding what it sends gives the same events in the same order: name, phase, times, process, thread, duration, and arguments, whose integers arrive unchanged up to 2^53 and within one part in 2^53 above. Adding them to further collectors changes nothing. The clock_sync event of the grader for a run and the one that comes back from the runner carry the same sync_id, which is no other run's. Decoding an upload panics exactly if it has a complete event without duration or a clock_sync event without a numeric sync_id. Refuted: an upload can not make the handler panic; arguments arrive unchanged (the attempt's ID in the grade event does not).", "quantifier": "every list of events, names, argument values (also nested), times, start of the sync counter, every JSON value uploaded", "why_tests_cant": "All lists of events and all JSON values.", "anchors": ["common/tracing.go: MarshalJSON, UnmarshalJSON, Finalize, NewSyncID, EventFactory", "cmd/omegaup-grader/runner_handler.go: processRun", "cmd/omegaup-runner/main.go: processRun"]}
{"id": "C70", "title": "Collecting tracing events concurrently", "statement": "When goroutines add events to contexts that share collectors: a collector has each event at most once, only events that were added to it, and all collectors of a context have the same version of it (its duration is measured once). An Add that returned without error reached all collectors of its context; one that returned an error failed at a file, and the context's own memory has the event nevertheless. An event whose Add returned before another's began is before it in every collector that has both. The trace file has one whole line per event, in the order of its collector, as long as no write failed. No Add waits forever. Refuted: the trace file has only whole lines after a failed write.", "quantifier": "every number of goroutines and events, every tree of debug contexts, every interleaving, clock and failure of writes", "why_tests_cant": "All interleavings and failures.", "anchors": ["common/tracing.go: WriterEventCollector, MemoryEventCollector, MultiEventCollector, NullEventCollector", "common/context.go: DebugContext"]}
{"id": "C71", "title": "Results arrive as they were", "statement": "A runner's result can be sent exactly if each score is there and representable as a float64 and each time is finite; sending panics only if a score is missing. What the grader decodes is the same result: the same groups and cases in the same order, times, memory, statuses and metadata unchanged, scores as float64, and every text unchanged exactly if it is valid UTF-8 (else each broken byte is U+FFFD). A result the grader decodes can be stored again unless there is null in it in place of the result, a group or a case. Refuted: an upload whose details.json is null (or has a null group or case) is answered with 200 and its result is taken, but storing it panics, so the run is closed without ever being ready or post-processed.", "quantifier": "every result (any number of groups, cases and processes, any strings of bytes), every JSON value a runner could upload", "why_tests_cant": "All results and all JSON values.", "anchors": ["runner/runner.go: CaseResult, GroupResult, RunResult, MarshalJSON, UnmarshalJSON", "runner/sandbox.go: RunMetadata", "cmd/omegaup-grader/runner_handler.go: processRun", "grader/queue.go: Close"]}
{"id": "C72", "title": "Runs arrive as they were queued", "statement": "A run whose maximum score is representable as a float64 reaches the runner with the same attempt ID (all 64 bits), debug flag, language, problem and input hash, and its maximum score as float64; its source is the same exactly if that is valid UTF-8. Refuted: the runner compiles exactly what was submitted; different submissions reach the runner as different programs.", "quantifier": "every run, every string of bytes as source", "why_tests_cant": "All byte strings and all 64-bit IDs.", "anchors": ["common/run.go: Run, MarshalJSON, UnmarshalJSON", "cmd/omegaup-grader/runner_handler.go: /run/request/"]}
{"id": "C73", "title": "The no-op sandbox's results", "statement": "With the no-op sandbox each case of a result is AC with its maximum as score, each group has its maximum, the run is AC with score 1 and its maximum as contest score, and nothing else changes; it panics exactly if a maximum is missing. Refuted: the contest scores of the groups add up to the run's (they add up to the square of the maximum); a run that could not be judged (because its input could not be had) is not accepted.", "quantifier": "every result", "why_tests_cant": "All results.", "anchors": ["runner/noop_sandbox.go: NoopSandboxFixupResult", "cmd/omegaup-runner/main.go: gradeAndUploadResults"]}
{"id": "C74", "title": "Finished runs reach the database and the scoreboard", "statement": "Runs are recorded in the order the post-processor took them, each closed run at most once; whenever nothing new starts the grader and the broadcaster come to rest after a bounded number of steps, never stuck before, and then every closed run was recorded exactly once and the scoreboard of its contest was refreshed after that, unless a request failed in between. One scoreboard at a time is asked for, and the loop does nothing else until the frontend has answered. Scoreboards are refreshed no more often than requests about runs of the contest reach the loop, and the grader's are about recorded runs. A frontend that never answers lets at most three runs of contests be recorded (plus one per failed request); from then on no run is recorded and Close blocks for all but three more. Refuted: a run, say of no contest, is recorded although the frontend does not answer the broadcaster.", "quantifier": "every schedule of the grader's and the broadcaster's goroutines, every choice of failing requests, every set of runs and messages", "why_tests_cant": "Schedules of two processes, unbounded numbers of runs, a peer that never answers.", "anchors": ["grader/queue.go: RunContext.Close, RunPostProcessor", "cmd/omegaup-grader/frontend_handler.go: runPostProcessor, broadcastRun, broadcast", "cmd/omegaup-broadcaster/main.go: /broadcast/ handler, updateScoreboardLoop"]}
{"id": "C75", "title": "Every run comes to an end", "statement": "Whatever the schedule, races included, the number of effective steps of the grader is at most 1+19*max(1,MaxGradeRetries) per run and 16 per upload. Without a race of a timer against a handler it never gets stuck while a run is not closed or somebody works on it: a runner can take a run, a goroutine can go on or a timer can fire, and no upload is needed for that. So when it cannot move any more, every run is closed; and even if no runner ever answers again every run is closed within that bound, by timeouts alone.", "quantifier": "every number of runs, runners, uploads and retries, every schedule, every choice of failing file system calls, full queues and verdicts", "why_tests_cant": "Liveness over all schedules.", "anchors": ["grader/queue.go: RunContext, Requeue, Close, InflightMonitor.Add, timeout, Remove", "cmd/omegaup-grader/runner_handler.go: /run/ handler"]}
{"id": "C76", "title": "The runner gets what is in the repository", "statement": "If no subtree of a problem's git tree is lost, the archive the grader makes has exactly the tree's files, with their contents and each once, its size is the sum of theirs, and a file that cannot be read is an error; an archive is made exactly if the tree has an entry settings.json, and the settings the grader read from the branch are those in the archive of the input hash it found. Whatever fails and wherever grader or runner crash, what a runner accepts of an archive the grader accepted is exactly the files of the tree (even if the end of the archive could not be written); if nothing fails, a tree with valid settings does arrive, with the size the grader announced, and is accepted again after a restart. A request without an answer or without a size is an error. Where it fails: the error of the walk is dropped, so if a subtree cannot be read after settings.json was seen, an archive without the files after it is sent and accepted (witness); and a directory called settings.json counts as settings, but no runner accepts that archive (witness).", "quantifier": "every git tree with proper, distinct names, every content, every place of lost objects, every sequence of failing and crashing disk operations on both machines, every hash function with 40 hexadecimal digits and every archive format that can be read back", "why_tests_cant": "All trees and all crash points; the tests archive two sample problems.", "anchors": ["grader/input.go: GetProblemInformation, CreateArchiveFromGit, Persist, Transmit", "runner/input.go: Persist, persistFromTarStream, Verify"]}
{"id": "C77", "title": "What was graded is what is recorded", "statement": "Whatever pieces a runner writes, however its goroutines, the connection and the grader interleave and wherever the upload is cut off: if the grader answers an upload with 200, it has received all of it, its result is the one of the runner's grading (JE if there was no input or grading failed) as it was encoded, judged by that runner, with the runner's log and trace, and the run's directory has exactly the files.zip the runner wrote; the only exception is a runner that died before it had a result, whose upload changes nothing. If anything is missing or the result could not be encoded, the answer is 400 and the run is retried (or 500, if the grader's disk fails). A whole upload of a decodable result is taken if the disk works. The runner's goroutines neither panic nor close a channel twice nor send on a closed one, make boundedly many steps, and wait for nothing but the HTTP request; processRun returns nil only if the grader answered. (The upload's random boundary does not occur at the beginning of a line of what is uploaded.) Refuted: a run done with 200 has the result of that attempt (an earlier attempt's result can be kept); nil means that the result was recorded; a runner goes on at last (there is no timeout: a grader that does not read stops it for ever).", "quantifier": "every outcome of input, grading and encoding, every splitting of the written data into pieces, every interleaving of the grading goroutine, the uploading goroutine, the HTTP transport and the grader, every point at which the connection can break, every state of the grader's run and disk", "why_tests_cant": "The data passes an unbuffered channel between goroutines, a network connection that can break after any byte, and a parser that searches for delimiters in arbitrary data; a test sees a few contents, a few cut points and one schedule.", "anchors": ["cmd/omegaup-runner/main.go: processRun, gradeAndUploadResults, gradeRun, channelBuffer", "cmd/omegaup-grader/runner_handler.go: processRun"]}
{"id": "C78", "title": "The runner's I/O lock: inputs in use are left alone", "statement": "In a runner, whatever runs, benchmarks and preloading are going on: while a goroutine holds the I/O lock no other goroutine adds, creates, releases, evicts or removes an input, or judges anything; everything with inputs is done with the lock held, and every reference taken is given back before the lock is. The files of an input somebody holds a reference to do not change, nor do those of a cached input until it is evicted, whatever is added, preloaded, found to be broken or evicted meanwhile. Nothing deadlocks: unless everything has ended, something can go on, and what was started ends under any schedule; then all references and the lock have been given back. Refuted: the same for the grader's preloading (it has a mutex of its own: after a failed Add it removes an archive that another request has made meanwhile and uses).", "quantifier": "every disk, every set of runs, benchmarks and preloadings with any sources, every interleaving of their operations on the disk, every operation failing or not, every choice of evictions", "why_tests_cant": "races between goroutines; tests use one goroutine and a working disk", "anchors": ["common/inputmanager.go:PreloadInputs,Add,Release", "cmd/omegaup-runner/main.go:gradeRun,main", "runner/benchmark.go:RunHostBenchmark", "cmd/omegaup-grader/main.go:main", "runner/input.go", "grader/input.go"]}
{"id": "C79", "title": "Problem settings: what is written is what is read, and can be graded", "statement": "The settings of a problem (settings.json) that the grader writes are read back with the same groups and cases in the same order, each weight as the float64 nearest to it, the same limits, validator and tolerance, and for interactive problems the same rules, files and templates; names and texts arrive as they are if they are valid UTF-8 (maps with text keys). Settings can be written exactly if no weight is missing (then writing panics) and all numbers are finite. For a literal input this means that what the runner reads from the archive are the groups, the weights (divided by their sum), the capped limits and the validator of the request. Settings without null in an array never have a case without weight, and the total weight is the sum of the weights of all cases. Refuted: the same with a null case (decoding accepts it, then grading any program panics); settings without cases (also null or {}) are accepted, and every program that compiles gets AC and the full score. What settings.json does not say, or says is null, is empty or zero: no cases, no interactive part, not slow, no validator, no limits, and each limit not given is 0.", "quantifier": "all settings, with any strings, weights, limits, maps; all JSON values; all literal inputs", "why_tests_cant": "depends on the nesting of null, on every combination of optional fields, and on numbers that do not fit a float64", "anchors": ["common/problemsettings.go:CaseSettings.MarshalJSON,CaseSettings.UnmarshalJSON,ProblemSettings", "common/literalinput.go:NewLiteralInputFactory", "runner/runner.go:Grade"]}
{"id": "C80", "title": "Queue metrics count runs, delays and timeouts exactly", "statement": "In every execution the gauge grader_queue_total_length, as the grader's events processor computes it, is the number of runs that were added to a queue and not closed, plus those in the middle of being closed: it is never negative, each run is counted in once and out once, whether it was graded, abandoned, or could not be stored. The overall delay summary has one sample per closed run. The delay summary of each priority has, when goroutines do not race for a run, one sample per attempt that is over (retries included, under the run's own priority) and never more in any execution. Each handled timeout posts exactly one event, retried or abandoned; without races a run is reported abandoned at most once, and then it is closed and unpublished. The result does not depend on the order in which events arrive. Refuted: the counters of retried and abandoned runs count these events (they never move: they are added to as gauges, by a name no gauge has; the per-priority length gauges never move either); every retry posts an event (a retry decided by a result handler posts none); a run reported abandoned was not published (a timer that fires while the result is stored).", "quantifier": "all schedules of runners, timers and handlers, with file-system failures, full queues, races; all priorities; all orders of delivery", "why_tests_cant": "the gauge is a difference of two counts kept by different goroutines: it must balance in every interleaving and on every error path, which no finite set of runs shows", "anchors": ["cmd/omegaup-grader/main.go:queueEventsProcessor", "cmd/omegaup-grader/metrics.go:prometheusMetrics.GaugeAdd", "grader/queue.go:RunContext.Close,InflightMonitor.timeout,InflightMonitor.Remove,Queue.AddRun"]}
{"id": "C81", "title": "The broadcaster's HTTP interface delivers to whom the frontend granted it", "statement": "Whatever requests arrive at the broadcaster's HTTP ports, whatever the frontend answers and however handlers, loop and peers interleave: the broadcaster never panics and its gauges count the registered websockets and event streams, all of them connections whose filters are well formed and were granted by the frontend with 200. A connection is sent, in order, exactly the messages processed between its registration and removal that match its filters under the granted rights, each posted by a request answered 200 (or about to be); nothing after its handler ended. POST /broadcast/ answers 400 to anything but a well-formed POST, 503 when the queue is full, and 200 to messages accepted, once each, in order. The scoreboard loop is given exactly the contests of the accepted messages that announce a graded run. /deauthenticate/ requests answered 200 are passed on once each, in order, with the user the path names. A connection that ended is removed once its request is handled if it was registered and the queue had room; otherwise it remains for at most the channel length of matching messages. Only the filter /problemset makes a handler panic. Refuted: that a refused event-stream client is told so (200 and an empty body); that the answer to POST is declared as JSON; that an ended connection is always removed (two channels; a full queue drops the request); that contests reach the scoreboard in the order of the messages; that deauthenticating nobody disconnects nobody; and an accepted message is not answered while the scoreboard loop hangs.", "quantifier": "all requests, all answers of the frontend, all schedules of handlers, of the broadcaster's loop, of the scoreboard loop and of peers leaving, all channel lengths", "why_tests_cant": "delivery, confidentiality and the absence of a send on a closed channel depend on every interleaving of an unbounded number of connections with the loop; tests fix a few", "anchors": ["cmd/omegaup-broadcaster/main.go:main", "common/server.go:AcceptsMimeType", "broadcaster/subscriber.go:NewSubscriber,Broadcaster.Run,Broadcast,Subscribe,Unsubscribe,Deauthenticate,Subscriber.Run"]}
{"id": "C82", "title": "A configuration file means what it says, over the defaults", "statement": "Loading a configuration (NewConfig) succeeds exactly for JSON texts all of whose settings fit their types; names that are no settings are ignored at any depth and nothing else is. Every loaded configuration has every setting with a value of its type, in particular each port is between 0 and 65535. A boolean, integer or string setting is the last value the file gives for it that is not null, wherever and however often the file mentions it (also under a name that differs in case), and the default if there is none; lengths of time and sizes are read one after another over the default. Setting one thing changes nothing else: two files that say the same about every setting load as the same configuration. A written configuration (what /debug/vars shows) loads as itself if its strings are valid UTF-8. Refuted: that an accepted configuration can be run with (a negative channel length or a ping period of 0 is accepted and makes every event connection panic); that the scoreboard secret is one the operator chose. With a file that says nothing the runner's grader and the grader's broadcaster are at the ports these listen on, all ports are different, and both parts of the grader share a directory. The other numbers are within int64; every number in these ranges can be set.", "quantifier": "all JSON values, all paths, all configurations, any rules for lengths of time, sizes and the case of names", "why_tests_cant": "files nest, repeat and reorder names arbitrarily; the statement is about every setting and every file", "anchors": ["common/context.go:NewConfig,Config,defaultConfig,Config.String", "broadcaster/subscriber.go:NewSubscriber,Subscriber.Run"]}
{"id": "C83", "title": "Who can reach what over HTTP", "statement": "Without the -insecure flag, a client without a certificate that verifies against the grader's can reach on the grader's ports only /metrics and, if the web interface is behind a proxy, /ephemeral/run/ and /ci/: it can create, request, grade, read or regrade no run and fetch no input; at the broadcaster only /metrics and, behind a proxy, the event streams: it can post no message and disconnect nobody; a runner serves /metrics only. A request is given to the handler with the most specific pattern, unchanged, and 404 means there is no handler. Except for CONNECT, handlers only ever see canonical paths (no .., nothing empty); other paths are redirected to the canonical path of the same place, and following a redirect never meets a second one. What runners send (/run/request/, /run/N/results/, /input/.../) reaches the handler it is meant for. A runner is always named after a certificate the grader trusts; the handlers never panic for want of one. Refuted: that runners are confined to their interface (their certificate opens the frontend's port too: /run/new/, /submission/source/, /debug/vars with the database password); that without a proxy the web interface and the events are served to browsers (they would need a client certificate); that CONNECT requests are canonicalised.", "quantifier": "all configurations, requests, paths, certificates and verification rules", "why_tests_cant": "all paths against all patterns, for every configuration; reaching a protected handler by some path is a for-all claim", "anchors": ["common/server.go:RunServer", "cmd/omegaup-grader/main.go:main,peerName", "cmd/omegaup-broadcaster/main.go:main", "cmd/omegaup-grader/runner_handler.go:registerRunnerHandlers", "cmd/omegaup-grader/frontend_handler.go:registerFrontendHandlers", "cmd/omegaup-grader/metrics.go:setupMetrics", "cmd/omegaup-runner/metrics.go:setupMetrics"]}
{"id": "C84", "title": "The runner's one-shot mode", "statement": "With -oneshot=run, Grade is called exactly when an input directory with readable settings and a request or a source is given, once, with the run of the request (its input replaced by the directory), or with the contents of the source file, 100 points, and as language the extension of its name: what follows the last dot of its last component. The standard output has the result exactly if grading gives one. A program that was started ends with status 0 whatever went wrong, unless grading panics or a pipe blocks the copying. Nothing is left of the temporary directory unless the configuration or PRESERVE asks for it, whether or not anything was graded, and when they ask it is left; -results alone keeps nothing. With -results there is afterwards a copy of every file at its relative path and nothing else is changed, if nothing is in the way; otherwise the files before the first obstacle (in the order of their paths) have been copied and those after it have not. An unreadable configuration is never run with. Refuted: a graded run comes to an end (the pipes of interactive problems block for ever); the exit status tells whether something was graded; after status 0 every readable file has been copied (the symbolic link of C# stops the copying); with -oneshot no grader is served (a misspelled mode starts the daemon).", "quantifier": "all command lines, files, settings, directory trees, destinations, failures of the operating system and outcomes of grading", "why_tests_cant": "which files are copied depends on every tree and every failure; that nothing else changes is a for-all claim", "anchors": ["cmd/omegaup-runner/main.go:main,isOneShotMode,loadContext,runOneshotRun,runOneshotBenchmark", "cmd/omegaup-runner/oneshot_input.go:oneshotInput,newOneshotInputFactory"]}
{"id": "C85", "title": "What the grader's status page says", "statement": "In every schedule, races included, /grader/status/ can be made: it has one entry per attempt in flight, whatever the order in which Go goes through its maps, and every entry names a run by its ID and a runner that was handed that run. Without a race it lists exactly the runs in flight, each once, with the runner each was handed to last; GetRunData says of each also the attempt, GUID, queue and tries left. run_queue_length counts every run that waits all the while the page is made, no run twice, and none that did not wait at some time meanwhile; if nothing else happens it is the number of runs waiting, and listed plus waiting runs are no more than the runs not finished. The rest of the page never changes. Refuted: listed plus waiting runs are never more than the runs there are (a run can be in both); run_queue_length is the number of runs waiting at some moment (it can say 0 while one always waits).", "quantifier": "all schedules of additions, hand-outs, uploads, timers and requests, all interleavings with the reads of the queues, all iteration orders of the maps", "why_tests_cant": "the counts are read one channel at a time while runs move between channels; that none is counted twice holds for every interleaving or not at all", "anchors": ["grader/queue.go:GetRunData,GetQueueInfo,Add,Requeue,enqueue", "cmd/omegaup-grader/frontend_handler.go:graderStatusResponse,registerFrontendHandlers"]}
{"id": "C86", "title": "What is said about a failed compilation", "statement": "When all is well with the machine, the compile error is absent exactly if every program is accepted (its meta file is readable and says it ended well and, in Java, its class is there); otherwise it is about the first one that is not: its name, a colon, and on the next lines what the compiler wrote (standard output for Pascal and C#, standard error for the rest), then what the sandbox said, then that the class is missing; and the metadata is that of the programs up to it. Whatever goes wrong: without a text every program was compiled and is OK; with one it names the last program in the metadata, the only one not OK or with an error; what a compiler wrote is kept (only added to), no file of another program or of one not reached changes, the sandbox's log is removed, and a Java program that is OK has its class. If the sandbox cannot be started the run ends with an error and the verdict JE for the program. Refuted: what the sandbox said is shown (not for Pascal and C#); the text has no paths of the runner; a program is accepted only if the sandbox was started (an earlier meta file is read); the text is complete (a full disk cuts it silently).", "quantifier": "all lists of programs with distinct names, all file contents before, all that the sandbox does to its files and says, all failures to start it, to create, open or write files", "why_tests_cant": "the text depends on the contents of files written by two processes and the runner, in every combination of languages and failures", "anchors": ["runner/sandbox.go:Compile,invokeOmegajail,appendFile", "runner/runner.go:Grade,getCompileError"]}
{"id": "C87", "title": "The validator command", "statement": "The options -validator and -tolerance can be spelled with one or two dashes, with or without '=', in any order and repeatedly (the last one counts), before the two files (or before --). Then the files are compared as the judge does with that validator and that tolerance (the default one if it is not given): if a file cannot be opened or the comparison fails the exit status is 1 and nothing is printed; otherwise the status is 0 and one line is printed, the score rounded to two decimals: exactly 1.00 for full marks and 0.00 for none, otherwise within half a hundredth and 2^-53. With -validator token it is 1.00 if both files have the same tokens and 0.00 if not. A missing validator, another number of files, an unknown option or a tolerance that cannot be read gives status 2 and no output. Whatever the arguments and files, something is printed only with status 0, and it is a number from 0.00 to 1.00. Refuted: 1.00 is for full marks only (0.996); halves are rounded up; custom validators work without the expected output; an unknown validator is an error (two empty files).", "quantifier": "all command lines, all files (contents, how they are read, errors), all scores", "why_tests_cant": "command lines, file contents and rational scores are unbounded; the rounding to binary and then to decimal has to be right for every score", "anchors": ["cmd/validator/main.go:main", "runner/validator.go:CalculateScore"]}
{"id": "C88", "title": "The log of a run", "statement": "The log stored with a run (logs.txt.gz) has, in order, exactly what was logged with the run's context and with contexts made from it by DebugContext, and what was added to it as logs of runners; the log of another run never has any of it; what passes the process's level is once in the process's own log too, and sections never are. A log only grows: what Close stores is the beginning of everything that was ever said. Only a section for a context without a log panics. If no call of AppendLogSection is interrupted, the log is a sequence of lines and of whole sections with the name and the contents given; if moreover each contents is made of whole lines other than its own end mark, the log has one reading: two different sequences never give the same text; and what a runner collects meets that, whatever it logged. Refuted: a log can be read without trusting the runners (contents can end their section and forge others); the end of a section is a line of its own (contents without a final newline swallow it); nothing logged meanwhile gets into a section (it is written in three pieces); the stored log has everything said about the run.", "quantifier": "all trees of contexts, all interleavings of lines and writes, all section names and contents, all renderings of records", "why_tests_cant": "which texts are ambiguous, and which log a line ends up in, are claims about all sequences of items and all interleavings", "anchors": ["common/context.go:DebugContext,AppendLogSection,LogBuffer", "grader/queue.go:RunContext.Close,AppendRunnerLogs", "cmd/omegaup-grader/runner_handler.go:processRun"]}
{"id": "C89", "title": "What grading gave is what the database is told", "statement": "If the grader answers 200 to the upload of a runner whose grading ended, the row that is then written for the run is ready and has the verdict of the grading, its judge, its time times 1000, its memory, and the float64s nearest to its score and contest score (1 or 0 for a problem graded all or nothing), whatever the connection, the pieces written and the scheduling were; the run is retried exactly if that verdict is JE. So for a run that was graded the recorded verdict is AC exactly if every case has a score of 1, the recorded score is then 1, and it is between 0 and 1 always; without an input or if grading fails, the verdict is JE, the score 0, and the run is retried.", "quantifier": "every grading, result, settings and outputs, every way of writing, sending, cutting and scheduling an upload that is answered with 200, every previous content of the row, every state of the grader's disk", "why_tests_cant": "It is a property of the composition of runner, wire format, HTTP upload, grader and database update over all results and interleavings; tests exercise each part on a few literals.", "anchors": ["cmd/omegaup-runner/main.go:processRun,gradeAndUploadResults,gradeRun", "runner/runner.go:RunResult.MarshalJSON,UnmarshalJSON,NewRunResult,Grade", "cmd/omegaup-grader/runner_handler.go:processRun", "cmd/omegaup-grader/frontend_handler.go:updateDatabase"]}
{"id": "C90", "title": "No run the grader was told of is forgotten", "statement": "Whatever happens, crashes and restarts included: a run that the grader queued, or that was in the database and not ready when the grader was started, is recorded as ready, or is in the grader's memory or in the list of the goroutine of the start, unless after that the website put it back, the start skipped it, or its UPDATE failed (both are logged). So when the grader is at rest it is recorded. After a restart, if the sources of the runs that are not ready are stored and nothing goes wrong again, the grader comes to rest within 1+3n steps when nothing else comes in, never stuck before, and then no run is left that is not ready: whatever went wrong before, a failed /run/new/ or UPDATE included. Nothing else makes up for it: a run that is not ready and that the grader does not have stays so until the next start or the next request about it. Nor does a start help if no /run/new/ ever sent the submission: such a run is never queued and never recorded. Refuted: what was queued is recorded once the grader is at rest (a failing UPDATE is only logged and nobody tries again).", "quantifier": "every history of submissions, requests, failures, skipped runs, failing updates, crashes and restarts", "why_tests_cant": "Crash points and histories are unbounded.", "anchors": ["cmd/omegaup-grader/frontend_handler.go: getPendingRuns, registerFrontendHandlers, injectRuns, updateDatabase, runPostProcessor, /run/new/, /run/grade/"]}
{"id": "C91", "title": "Starting and stopping", "statement": "The grader and the broadcaster start their parts in order, say READY, and after a SIGINT or SIGTERM that comes when READY was said they tell the same parts to shut down, in the same order, each once, and end; a signal before READY is lost. A server that was told to shut down takes no new connection. A part that returns well has answered every request it ever had and gets no other; the process cuts a request or a report off only after five seconds, which are for all parts together: if a request does not end (a runner waiting for work), the parts after it go on accepting and are only told to shut down when the time is over, with no time left for their own requests. Then the process ends by itself, whatever clients do. Reports are taken by the worker in the order they were left, at most 128 wait; one that is accepted while stopping may never be made.", "quantifier": "all numbers and kinds of parts, all orders of connections, requests, answers, reports, port failures, signals and expiry, unbounded runs", "why_tests_cant": "it depends on when the signal comes relative to every start, request and report, and on the order of concurrent goroutines", "anchors": ["cmd/omegaup-grader/main.go: main", "cmd/omegaup-broadcaster/main.go: main", "common/server.go: RunServer", "cmd/omegaup-grader/ci.go: (*ciHandler).run, (*ciHandler).Shutdown, registerCIHandlers"]}

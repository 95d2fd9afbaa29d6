# Formal model of rjeczalik/notify in Rocq (Coq 8.16.1)

Status of this file: plan first (section 2), kept up to date as the model grows.

## 1. Architecture of the model

* Events are `N` used as 32-bit masks (`N.lor`, `N.land`, `N.ldiff`, `N.lxor`); the code performs no
  arithmetic on events except the comparison `e > eset`, so no wrap-around is needed. `all` is `2^32-1`.
* Strings are byte lists (`list ascii`), sliced by index exactly as the Go code does.
* A watchpoint (`map[chan]Event`, nil key = aggregate) is a `gmap key N`.
* The node tree (`node{Name, Watch, Child}`; Go maps are references, so node values alias the tree) is a heap
  `gmap path node` addressed by the list of child-map keys leading to the node. A Go `node` value is a handle = path.
* Go map iteration order is an arbitrary permutation: every walk takes an order oracle and every theorem
  quantifies over it.
* The OS watcher is a log of calls with their results; results are given by an arbitrary oracle (function of the
  log and the call), so every pattern of failures is covered. The OS watch table is *computed* from the log by a
  five-line specification function.
* The filesystem seen by `ReadDir`/`Lstat`/`Readlink` is an arbitrary finite function.
* Loops over explicit stacks become fuelled loops whose out-of-fuel result is a distinguished error, and the
  theorems prove that it does not occur.
* Go panics are an explicit outcome.
* Goroutines and channels are state machines over explicit steps (files `Conc*.v`).

Files: `Model` files contain definitions only (each with the /repo lines it models), `*Facts.v` contain proofs,
`Spec.v` the independent specification vocabulary, and `Prop_*.v` only the property theorems, each closed by
`exact` and followed by `Print Assumptions`.

## 2. Plan per property

| Prop | what is modelled | how it will be proved |
|---|---|---|
| C01 | `joinevents` | induction on the list, bit-wise statement |
| C02, C65 | the API calls with their arguments on top of both trees (`Api.v`), filesystem and working directory per call | every API history is a history of the tree with cleaned paths; what a path denotes is deterministic; reverse induction over histories |
| C66 | the tables of names of the six systems, `Event.String` with any visiting order (`EventString.v`) | texts are taken apart at the bars; finite checks that the tables are disjoint and the names plain and distinct; bitwise reasoning for all events |
| C67 | the bytes of FILE_NOTIFY_INFORMATION records, `loopevent`'s walk by offsets, UTF16ToString (`ReaddcwBuf.v`, `SpecReaddcwBuf.v`) | induction over the records with an arbitrary prefix and rest; UTF-16 and UTF-8 by arithmetic; UTF-8 is prefix-free |
| C68 | recursive tree and FSEvents watcher together: the watcher's table is driven by the tree's calls, batches in between (`SpecMac.v`) | the table is what the log says (C45); C32 and C35 give exactly one covering watch; C30 for the tree; sums over the flags sent |
| C69 | the macOS watcher as two threads, the calls and the serial dispatch queue, sharing the table of stream functions, the watches and the streams of the OS (`MacConc.v`, `SpecMacConc.v`) | phases of a watch as invariant (`MacConcFacts.v`); refinement of each watch to `fs_hist` and of the calls to `fs_call` |
| C70 | API calls with path arguments on a changing filesystem, non-recursive tree and inotify watcher together (`SpecLinuxApi.v`) | API histories translate to `fexec` histories of the tree; C57, C20, C65 composed |
| C71 | recursive tree and Windows watcher together: the requests of the watcher's execution are the calls of the tree's log (`SpecWin.v`); a record of a completion becomes values, these go to the tree | the requests ask for what `os_watches` says; C48 gives the filters of the handles, C32/C35 that everything registered on the way is in them, C30 what the tree does with the values |
| C72 | non-recursive tree and kqueue/FEN watcher together: the calls in the watcher's history are those of the tree's log, reports of the OS in between (`SpecKq.v`) | what is watched directly is what `os_watches` says (by C23 no path is watched twice), listed entries are watched for what their directory is; C50 ties the roles to the registrations, C49 encoding to decoding, C17/C20 the tree to the channels |
| C73 | API, path cleaning and non-recursive tree with a watcher that refuses every call (`SpecStub.v`) | invariant: no watchpoint holds an event of anybody, so every Watch needs the OS and is undone when it refuses |
| C74 | API calls with path arguments, recursive tree and FSEvents watcher together (`SpecMacApi.v`) | orderly API histories translate to orderly histories of the tree; C68 and C65 composed |
| C75 | API calls with path arguments on a changing filesystem, non-recursive tree and kqueue/FEN watcher together (`SpecNrApi.v`, `SpecKqApi.v`) | as C70 (`NrApiFacts.v`), composed with C72 |
| C76 | `Sys` and `String` of the events of each watcher (`EventSys.v`); for kqueue and FEN the functions that make events, with the native report they pass on, proved to make the events of `Trigger.v`; the loop of the documented example for renames | induction over batches and reports; invariant of the example's map |
| C77 | `watcher_fen_cgo.go` as a heap of file objects, the table `p2fo` and an event port whose associations are keyed by address (`FenMem.v`); the trigger functions over any native layer (`FenGen.v`), proved equal to `Trigger.v` over one association per name; callers, the system and the monitor goroutine as interleaved steps | what holds of each native call holds of all functions; invariants over executions; refutations by computed executions, for every n where growth is claimed |
| C78 | `cleanpath` and `canonical` over the path functions of Windows: volumes (drives and UNC), both separators, `Clean`, `Abs`, `Join`, `VolumeName`; the OS makes a text absolute and says what a name is (`WinPath.v`) | algebra of splitting and cleaning texts (`WinPathFacts.v`); the loop's result by one unfolding, since it meets no '/' |
| C79 | API calls with path arguments on Windows, recursive tree and watcher together (`WinApi.v`, `SpecWinApi.v`) | as C74, composed with C71; `C78_join` discharges what C71 assumes of `filepath.Join` |
| C80 | directories removed and created again on Linux: the composition of C57 (`Linux.v`) with the kernel's mark gone | `C80_lost`: a subscription already held makes Watch return without a call (minimality), so the mark is never made; after Stop of the only holder the difference is not empty |
| C81 | Watch and Unwatch of `Trigger.v` with every answer of the OS (`SpecTriggerNil.v`) | equations for singlewatch and singleunwatch on states that satisfy the table invariant of C50, then induction over the directory listing |
| C82 | `Stop` of both trees with the nil channel, which is the key of the aggregate (`SpecStopNil.v`) | what Del(nil) does to one watchpoint, then the invariants of the two traversals; the calls made are collected in the invariant of the walk |
| C83 | `Close`, `lazyinit` and the end of the loop of the Windows watcher, with the port and the wait group, interleaved with all steps of `Readdcw.v` (`ReaddcwClose.v`) | invariants from the call of Close to the next Watch (closed handles, the loop's remaining work as a measure, the count held back by the loop); for the negative part an invariant over all later steps: what is outstanding belongs to entries younger than the Close |
| C84 | `Close` of the recursive tree and of the FSEvents watcher with `Stop` of the watches and streams, the nil table and the closed channel, interleaved with the dispatch queue of `MacConc.v` (`MacClose.v`) | the loop of Close simulates Unwatch of one path after the other, so that the invariant of C69 carries over; a measure for termination; invariants for what is possible after Close |
| C85 | the loop of `Close` in `watcher_trigger.go` with the table it changes, the error it returns, `Init` and `Close` of a kqueue (`TriggerClean.v`) | an invariant of all histories (every registration has an owner in the table); the loop as a sequence of unwatches, each of which only shrinks the table; for orderly histories the roles of C50; for the negative part invariants of the loop |
| C86 | nothing new: histories of API calls (`SpecApi.v`); histories that are alike (`SpecLaws.v`) | the exact number of offers is a function of the subscriptions (C65); the laws are facts on subscriptions; for the calls of the OS: the internal registration of a recursive Watch in force is an invariant of all histories, adding what is there is the identity, `watchDelMin` is idempotent; recursive tree: along orderly histories (the invariant of C32) the inactive watchpoint of the topmost node already holds what is added again |
| C87 | the descriptor table of the process, the four descriptor fields of `watcher_inotify.go`, one system call per step, the rest of the program between any two (`InotifyFds.v`) | one invariant of all runs: the descriptors of the library are exactly those in the fields, and which fields are set is determined by the program counter |
| C88 | `newWatcher` of `watcher_trigger.go` with `Init`, `Stop` and `Close` of kqueue and FEN over a table of descriptors, each call failing or not (`TriggerInit.v`) | case analysis over which call fails, for every table; that the wait for the monitor does not end is C52 |
| C03 | history refinement of both trees | corollary of C17/C30 abstraction map |
| C04 C05 | `watchpoint.Add/Del/dryAdd/Total` | invariant by induction over operation lists |
| C06 C08 | `watchpoint.Dispatch`, both `matches`/`eventmask` | from the C04 invariant; all permutations of the channel map |
| C07 | bounded channel state machine + `select default` send | invariant over send/receive sequences |
| C09 C10 | `split base indexrel indexSep lastIndexSep` at byte level | list induction |
| C11-C14 | `node.go` functions at byte level on the heap | refinement of byte level to component level; generic stack-loop rule |
| C15 C16 | `canonical`, `cleanpath`, with filesystem oracle | invariant of the loop; expected `_refuted` for chained relative links in `/` |
| C17 C18 C03 | `nonrecursiveTree` | refinement: tree state to abstract map (path, chan) -> event set |
| C19 C20 C21 C23 C26 C27 | same + call log | per-node invariant lifted through the stack-loop rule |
| C22 C24 C25 C29 | same | expected `_refuted` witnesses plus positive `_partial` theorems |
| C28 | same, panic outcome | invariant |
| C30-C35 | `recursiveTree` | refinement and `_refuted` witnesses; an invariant tying the tree to the OS watches (`tidy`, RecOS.v) gives C32, C34, C35 for histories of Watch (RecWatches.v) and for orderly histories with Stop (RecOSStop.v) |
| C36-C41 | `watcher_inotify.go` | bit-level proofs, byte-codec round trip, state machine for lazyinit/Close |
| C42-C45 | `watcher_fsevents.go` | induction over flags / event histories |
| C46-C48 | `watcher_readdcw.go`, `watchpoint_readdcw.go` | bit-level proofs; completion state machine |
| C49-C52 | `watcher_trigger.go`, kqueue and FEN tables | bit-level proofs, invariants, deadlock witness |
| C53-C55 | goroutines around both trees (`TreeConc.v`): callers, dispatcher, one goroutine per event, `internal`, read-write lock, both queues | labelled step relation, any number of goroutines; lock invariant; effects in order are a history of the tree; lexicographic measure; counterexample for the order |
| C89 | the goroutines of `TreeConc.v` (C53-C55) | invariant per goroutine of an event: its offers so far and those left are what dispatching gave in the state in which it got the lock; that state is the one after a history made of the effects so far, for which C17 and C30 are used; reports are taken in order |
| C90 | the loop, the consumers and the two halves (system call, table update) of each call as interleaved steps, with the kernel's queue and its batches (`InotifyPipe.v`) | invariant per batch: where it is, and what has been sent of it and is left is what one table made of it; the table together with the update under way is that of a history of C38; an entry that no call withdraws stays; a decreasing measure for termination |
| C91 | the goroutines of the tree (C53-C55) and of the inotify watcher (C90) in one step relation: they meet in the channel of the dispatcher and in the calls of the watcher made under the write lock (`LinuxConc.v`) | each half of a run is a run of C53 and of C90; between two steps that change the tree the calls made are those in its log; a registered watch stays registered between two states unless stopped or removed (`NonRecBetween.v`), so no call withdraws the bits; then C90 from the kernel to the channel of the dispatcher and C89 from there; for directories below a recursive watch the history of the tree is one of C20 on a filesystem that changes when directory events are processed (`frun`), and the OS watch of such a directory has the bits asked for at every point between two such states |
| C92 | the calls and `process` of `Trigger.v`, the notes the kernel keeps per descriptor, and the monitor, which takes a note without the lock (`KqMon.v`) | a path keeps its structure, descriptor and request through every step that spares it; a note pending or taken then belongs to the path; backwards: every bit of a note came from a note for the same descriptor, whose owner changes only by a step that does not spare it; what is not in the table stays out until a step that opens it (`KqCreate.v`), so the first rescan that finds it reports it (C51); the first note that says a path is gone stays ahead of every step that gives the path up (`KqGone.v`); two counterexamples |
| C93 | the goroutines of the tree (`TreeConc.v`) and the kqueue watcher with its monitor (`KqMon.v`) composed: the monitor sends one event after the other into the dispatcher's channel, whoever holds the tree's lock makes the watcher's calls (`BsdConc.v`) | projections to runs of both; what the Watch registers is in the watcher's table when it has its effect (C23, C72; C20 for the directories below a recursive Watch), stays there while the descriptor is spared (C92), what is processed is sent before the monitor rests, what is sent is offered (C89); for what is created or goes away: the first rescan, or the first processing of that, after the note (C92); two counterexample runs |
| C94 | `Close` of the non-recursive tree around the models of the watchers' `Close` (`TriggerClose.v`, `InotifyConc.v`), with the closed channel, the end of the dispatcher and the panic of a send on a closed channel (`TreeClose.v`) | an invariant (the monitor has ended before the watcher's Close returns without error; C40 for inotify); counting what is sent and received; a counterexample run for a failing `Stop` |
| C95 | `Close` of the recursive tree around the model of the Windows watcher's `Close` (`ReaddcwClose.v`), with the closed channel, the end of the dispatcher and the panic of a send on a closed channel (`RdTreeClose.v`) | an invariant (the loop has ended when the watcher's Close returns, and nothing starts it again); what is sent only grows; counterexample runs for a failing post and for a later Watch |
| C56 | constants of the six platforms | finite check |
| C57 | composition of inotify model and tree model | from C17, C19, C36, C38 |
| C58 | `nonrecursiveTree.dispatch`, forwarding to `internal` | walk invariant over the covered directories |
| C59, C60 | descriptors opened and closed by the kqueue watcher | per-operation relation on the open and the wrongly closed descriptors, induction over histories; counterexamples |
| C61-C64 | events and results of the kqueue and FEN watcher | exact content of every list of events sent by `process`; role invariant of orderly histories; counterexamples |

## 3. Trusted base

1. Coq 8.16.1's kernel (including `vm_compute`) and the standard library. `Print Assumptions` follows every
   property theorem in the `Prop_*.v` files and prints "Closed under the global context" for each: no axiom is
   used, not even one of the standard library. (A checker that lists whole library files also shows
   `Coq.ssr.ssrunder.Under_rel.*`; these are items of a module signature of the standard library, instantiated
   there, and no theorem depends on them.) std++ is used as a library of definitions and lemmas; it has no axioms.
2. The reading of the Go source. Every definition cites the lines it models; `tools/cites.py` prints each
   citation next to the text it points to. `Ex_NonRec.v`, `Ex_Rec.v` and `Ex_Units.v` replay the tables of the unit tests
   of both trees, watchpoints, path functions, `canonical`, `joinevents`, `strip`, `splitflags` and `String` on the model.
3. The models of what is not in /repo:
   * Go maps iterate in an arbitrary order (a permutation oracle, quantified over);
   * `filepath.Clean`, `filepath.Join`, `filepath.Abs` on unix are modelled in `Clean.v`; Windows volumes are
     an arbitrary function `e_vol` in the tree model, and the paths of the theorems are absolute unix paths, or
     Windows paths where the theorem is about Windows (`WinPath.v`);
   * `os.Lstat`/`os.Readlink` (C15, C16) and `ReadDir` (tree) are arbitrary functions that do not change during
     one call; `Lstat` and `Readlink` accept a trailing slash after a regular file; the model of `canonical`
     in `Clean.v` is the unix one;
   * the watcher below the tree is an arbitrary function of the call log that says which call fails;
   * the inotify kernel interface (`Inotify.v`): a watch descriptor belongs to one inode, adding a watch for an
     inode that has one replaces its mask, descriptors are not reused within an instance, the kernel writes a
     record only if the mask of the watch contains the event, and a record has one event bit (theorems that need
     this say so); struct inotify_event has the little-endian layout; removal of a file removes its watch;
   * the completion port (`Readdcw.v`): a read completes once, with data, or without when its handle is closed;
     completions are taken in any order; opening a handle and reading may fail, as an oracle;
   * kqueue and FEN (`Trigger.v`): the values of the native constants are those of the system headers; open,
     kevent, port_associate, stat and directory listings are oracles; open(2) returns a descriptor that is not in
     use; closing a descriptor drops its registration; an event port has one association per name and drops it
     when it reports; registering a closed descriptor fails;
   * the event port below FEN (`FenMem.v`, C77 only): an association belongs to the address of the object it was
     made with, a report ends it, port_dissociate also discards a report that waits and fails if there is
     nothing; malloc returns an address that is not allocated, otherwise any; what is read from memory that is not
     allocated is arbitrary;
   * Windows paths (`WinPath.v`, C78 and C79): `path/filepath` behaves as modelled for drives and \\host\share
     volumes (no \\?\ and device paths, no reserved names); GetFullPathName gives an absolute path and gives back
     what it gave before, tidied up (`full_ok`); names are compared as texts, as the code does;
   * a step of a goroutine is atomic between two accesses to shared state, memory is sequentially consistent,
     mutexes, channels and wait groups behave as documented.

## 4. What is modelled and what is not

| code | model | not modelled |
|---|---|---|
| `event.go`, `event_*.go` | constants, `joinevents`, `Event` as bits, `Event.String` with both tables of names, `Sys` and `String` of the events (`EventSys.v`) | fields of `Kevent_t` and `PortEvent` the package does not look at |
| `watchpoint.go`, `watchpoint_other.go`, `watchpoint_readdcw.go` | all | `String` |
| `util.go` | all, except `joinevents` order of duplicates; for Windows also over its path functions (`WinPath.v`) | error values (only nil or not) |
| `node.go` | all | error values |
| `notify.go`, `tree.go` | `Watch`, `Stop` with the arguments of the caller (`Api.v`) | which tree `newTree` makes is a parameter |
| `tree_nonrecursive.go` | all functions; `dispatch`, `internal`, `Watch` and `Stop` are one atomic step each, as under the tree lock; the goroutines, the lock and the two channels as interleaved steps (`TreeConc.v`), also together with those of the inotify watcher (`LinuxConc.v`) and of the kqueue watcher (`BsdConc.v`); `Close` with the watchers' (`TreeClose.v`) | that nobody closes the channel of `internal`, and two calls of `Close` (the second panics) |
| `tree_recursive.go` | all functions (`Rec.v`); `Watch`, `Stop` and dispatch of one event are one atomic step each, as under the tree lock; the goroutines and the lock as interleaved steps (`TreeConc.v`); `Close` with the macOS watcher (`MacClose.v`) and with the Windows watcher (`RdTreeClose.v`) | two calls of `Close` (the second panics) |
| `watcher_fsevents.go` | `splitflags`, `strip`, `Dispatch`, the table of watches and all calls of the watcher (`Fsev.v`); histories of batches and rewatches; `Close` and `Stop` as interleaved steps (`MacClose.v`) | overlapping calls of `Close` and of other methods |
| `watcher_fsevents_cgo.go` | `gostream`, the table of stream functions, `newStream`, `Start`, `Stop`, interleaved with the calls of the watcher (`MacConc.v`) | the FSEvents library: starting a stream succeeds or fails arbitrarily, running streams hand over arbitrary batches, callbacks run one at a time |
| `watcher_readdcw.go` | `encode`, `decode`, `gensys`, `send`; `watch`, `rewatch`, `unwatch`, `recreate`, `updateGrip`, `closeHandle`, `loopstate` and the loop as interleaved steps (`Readdcw.v`); `loopevent` byte by byte (`ReaddcwBuf.v`); `Close`, `lazyinit` and the end of the loop (`ReaddcwClose.v`) | which error; two calls of `Close` at a time |
| `watcher_inotify.go` | `watch`, `unwatch`, `read`, `transform`, `encode`, `decode` (`Inotify.v`); `lazyinit`, `loop`, `send`, `Close` as interleaved steps (`InotifyConc.v`); `loop`, `send` and the halves of `watch` and `Unwatch` as interleaved steps (`InotifyPipe.v`); every descriptor that `lazyinit`, `epollinit`, `epollclose`, `loop`, `Close` and the finalizer open, use and close, with each system call failing or not (`InotifyFds.v`) | `epoll_wait` failing other than with `EINTR`; what a failing `unix.Pipe` leaves in its slice and whether `close` answers `EINTR` are parameters of `InotifyFds.v` |
| `watcher_trigger.go`, `watcher_kqueue.go`, `watcher_fen.go` | all functions under the lock (`Trigger.v`), histories of calls and events; `Close`, `monitor` and `send` as interleaved steps (`TriggerClose.v`), where the unwatching loop is one step; that loop, `Init` and `Close` of a kqueue (`TriggerClean.v`); calls, notes and `monitor` of a kqueue interleaved (`KqMon.v`), also with the tree (`BsdConc.v`); `newWatcher` with failures inside `Init` (`TriggerInit.v`) | a failing `Pipe` is taken to leave the zeros in `pipefds` |
| `watcher_fen_cgo.go` | `portAssociate`, `portDissociate`, `portGet`, `cfo2fo` with the heap and the event port (`FenMem.v`); `portCreate`, `portAlert` (`TriggerInit.v`, `TriggerClose.v`) | `free`, which is never called; the times in file objects |

For C39 and C40 the interleaving model has the loop, two consumers, any number of callers of `Watch`, and one
`Close`; C40 assumes that no `Watch` starts while `Close` runs (refuted otherwise), that the write to the pipe
succeeds, and that the dispatcher keeps receiving.

Partial properties: MANIFEST.json says for each what is missing. Where the English claim is false of the code, a
theorem with suffix `_refuted` gives the concrete history.

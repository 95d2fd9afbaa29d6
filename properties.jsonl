{"id": "C01", "title": "Event lists are unions", "statement": "Watch(path,c,e1..en) asks for exactly the set-union of the listed events: a bit is requested iff it occurs in some listed event; order and duplicates do not matter; the empty list given to the joining helper means 'All'.", "quantifier": "every list of 32-bit event values, every permutation/duplication of it", "why_tests_cant": "lists of event values are unbounded; tests try five lists", "anchors": ["util.go:joinevents", "event.go:All"]}
{"id": "C02", "title": "Empty event list is a no-op, nil channel is rejected", "statement": "Calling Watch with an empty event list changes neither the set of registrations nor any OS watch, whatever the path and the state; calling it with a nil channel panics before anything is changed.", "quantifier": "every tree state, path, channel", "why_tests_cant": "state space of trees is infinite", "anchors": ["tree_nonrecursive.go:Watch", "tree_recursive.go:Watch"]}
{"id": "C03", "title": "Watch only ever expands", "statement": "A successful Watch never removes an event from what any channel gets on any path; only Stop shrinks, and repeated Watch calls of one channel on one path accumulate the union of all event lists since the last Stop.", "quantifier": "every history of Watch and Stop calls on either tree", "why_tests_cant": "histories are unbounded", "anchors": ["notify.go:Watch", "tree_nonrecursive.go", "tree_recursive.go"]}
{"id": "C04", "title": "Aggregate event set of a watchpoint", "statement": "After any history of adds and deletes on one watchpoint, its aggregate (the value used to program the OS and to pre-filter events) is exactly the union of the sets of the channels present, and is absent when no channel is present.", "quantifier": "every history of Add/Del on a watchpoint, every iteration order of the channel map", "why_tests_cant": "unbounded histories and map iteration orders", "anchors": ["watchpoint.go:Add", "watchpoint.go:Del", "watchpoint.go:Total"]}
{"id": "C05", "title": "Event diffs are exact", "statement": "The diff returned by adding/removing at a watchpoint is 'none' iff the user-visible aggregate did not change, otherwise it is the pair (aggregate before, aggregate after), never mentioning internal flags.", "quantifier": "every watchpoint reachable by a history, every channel and event set", "why_tests_cant": "unbounded histories", "anchors": ["watchpoint.go:Add", "watchpoint.go:Del", "watchpoint.go:dryAdd"]}
{"id": "C06", "title": "Dispatch at a watchpoint is exact", "statement": "An event is offered to a channel of a watchpoint iff every bit of the event is in that channel's set (on Windows: or a shared 'modified' bit) and the internal marker agrees; each such channel is offered it exactly once, no other channel is, and the aggregate pre-filter never hides an event from a channel.", "quantifier": "every reachable watchpoint, event, map iteration order, platform", "why_tests_cant": "map order is random, states unbounded", "anchors": ["watchpoint.go:Dispatch", "watchpoint_other.go:matches", "watchpoint_readdcw.go:matches"]}
{"id": "C07", "title": "Sending never blocks and drops only on a full channel", "statement": "Dispatch to a slow receiver completes; the event is dropped iff the channel's buffer is full and no receiver waits; the buffer never exceeds its capacity, keeps FIFO order, and other channels are unaffected.", "quantifier": "every channel capacity (including 0), buffer content, sequence of sends and receives", "why_tests_cant": "scheduling of receivers cannot be enumerated", "anchors": ["watchpoint.go:Dispatch", "notify.go:Watch"]}
{"id": "C08", "title": "Internal events never reach users", "statement": "No event reported by a watcher for user bits is ever offered to the tree's internal channel through a watchpoint, and an internally marked event is never offered to a user channel.", "quantifier": "every reachable watchpoint and event on every platform", "why_tests_cant": "unbounded states", "anchors": ["watchpoint_other.go:matches", "watchpoint.go:Dispatch"]}
{"id": "C09", "title": "Path splitting laws", "statement": "split returns (dir, base) with dir + separator + base = path whenever a separator exists, base contains no separator, and base(s) is the second component of split(s).", "quantifier": "every byte string", "why_tests_cant": "infinite domain", "anchors": ["util.go:split", "util.go:base", "util.go:lastIndexSep"]}
{"id": "C10", "title": "Strict containment of paths / sibling isolation", "statement": "One path is regarded as below another iff it extends it by a separator and more; a directory whose name is merely a string prefix of another (e.g. /ab vs /a) never receives the other's events.", "quantifier": "every pair of byte strings; every tree state for dispatch", "why_tests_cant": "infinite domain", "anchors": ["util.go:indexrel", "node.go:WalkPath"]}
{"id": "C11", "title": "Watchpoint tree is a faithful map keyed by path", "statement": "Add(p) makes exactly the nodes for p and its ancestors exist, leaves every other node and every existing watchpoint untouched, is idempotent; Get(p) returns the node for p iff it exists, else a not-exist error.", "quantifier": "every tree, every absolute clean path", "why_tests_cant": "infinite domain", "anchors": ["node.go:Add", "node.go:Get"]}
{"id": "C12", "title": "Node deletion is local", "statement": "Del(p) removes p with its subtree and only those ancestors that thereby have no child and no watchpoint; every other node is unchanged; if p does not exist the tree is unchanged and an error returned.", "quantifier": "every well-formed tree and path", "why_tests_cant": "infinite domain", "anchors": ["node.go:Del"]}
{"id": "C13", "title": "Path walk visits ancestors in order", "statement": "WalkPath(p) calls its callback on the ancestors of p from the root down, flags only the node for p itself as base, stops at the first missing node with an error, and stops silently when the callback asks to skip.", "quantifier": "every tree and path", "why_tests_cant": "infinite domain", "anchors": ["node.go:WalkPath"]}
{"id": "C14", "title": "Tree walk visits everything exactly once", "statement": "Walk terminates and calls its callback exactly once on every node of the subtree not below a skipped node, parents before children, for every map iteration order.", "quantifier": "every finite tree, callback and map iteration order", "why_tests_cant": "map order is random; trees unbounded", "anchors": ["node.go:Walk", "tree_nonrecursive.go:walkWatchpoint"]}
{"id": "C15", "title": "Symlink resolution", "statement": "Resolving a path always terminates (after at most 128 steps, error if a cycle), and when it succeeds the result is an absolute clean path, none of whose prefixes is a symlink, denoting the same file.", "quantifier": "every path string and every symlink configuration of the filesystem", "why_tests_cant": "all filesystem shapes", "anchors": ["util.go:canonical", "util.go:cleanpath"]}
{"id": "C16", "title": "Recursive suffix", "statement": "A path argument is treated as recursive iff it ends in '...', and then the watched path is the argument without that suffix.", "quantifier": "every path string", "why_tests_cant": "infinite domain", "anchors": ["util.go:cleanpath"]}
{"id": "C17", "title": "Exact delivery (natively non-recursive platforms)", "statement": "After any history of successful Watch and Stop calls, an event on path q (at least two components deep) is offered to channel c exactly once for each of: its registration on q, its registration on q's directory, and each recursive registration on a proper ancestor of that directory, whose accumulated event set contains the event - and nothing else is offered.", "quantifier": "every history of Watch/Stop, every event path and event, every map order", "why_tests_cant": "unbounded histories", "anchors": ["tree_nonrecursive.go:dispatch", "tree_nonrecursive.go:Watch", "tree_nonrecursive.go:Stop"]}
{"id": "C18", "title": "Stop silences exactly one channel (non-recursive tree)", "statement": "After Stop(c) no event is offered to c until a later Watch with c, and what every other channel is offered is unchanged by Stop(c).", "quantifier": "every reachable state, event, channel", "why_tests_cant": "unbounded states", "anchors": ["tree_nonrecursive.go:Stop", "notify.go:Stop"]}
{"id": "C19", "title": "OS watches equal what is registered (non-recursive tree)", "statement": "As long as the OS calls succeed, after any history of Watch, Stop and directory create/remove processing, the event set programmed in the OS for each watched path is exactly the union of what the tree holds for that path, and paths with nothing to report are not watched.", "quantifier": "every history", "why_tests_cant": "unbounded histories", "anchors": ["tree_nonrecursive.go", "watchpoint.go"]}
{"id": "C20", "title": "Recursive watches cover the subtree (non-recursive tree)", "statement": "After a successful recursive Watch on a directory, every directory below it is watched in the OS for at least the requested events plus Create, and remains so after any further Watch and any Stop of other channels.", "quantifier": "every directory tree and history", "why_tests_cant": "unbounded directory trees and histories", "anchors": ["tree_nonrecursive.go:watchrec", "node.go:AddDir", "tree_nonrecursive.go:watchDelMin"]}
{"id": "C21", "title": "Stopping everyone releases all OS watches (non-recursive tree)", "statement": "Once every channel ever passed to Watch has been stopped, no OS watch remains and the tree holds no watchpoint.", "quantifier": "every history of successful calls", "why_tests_cant": "unbounded histories", "anchors": ["tree_nonrecursive.go:Stop"]}
{"id": "C22", "title": "Stop releases watches nobody needs (non-recursive tree)", "statement": "Stop(c) removes every OS watch for which c was the last channel listening.", "quantifier": "every history", "why_tests_cant": "needs a particular interleaving of recursive and plain registrations", "anchors": ["notify.go:Stop", "tree_nonrecursive.go:watchDelMin"]}
{"id": "C23", "title": "Watcher contract (non-recursive tree)", "statement": "The tree only calls Watch on an unwatched path, Rewatch with the event set currently programmed and a different non-empty new one, and Unwatch only on a watched path; event arguments never carry internal flags.", "quantifier": "every history of successful calls", "why_tests_cant": "unbounded histories", "anchors": ["watcher.go:watcher", "tree_nonrecursive.go"]}
{"id": "C24", "title": "A failed Watch leaves no trace (non-recursive tree)", "statement": "If a non-recursive Watch returns an error because the OS refused it, what every channel is offered is as before the call.", "quantifier": "every reachable state and failing call", "why_tests_cant": "failure injection at every state", "anchors": ["tree_nonrecursive.go:watch"]}
{"id": "C25", "title": "Recursive Watch reports failure (non-recursive tree)", "statement": "If a recursive Watch returns nil, every directory of the subtree is watched in the OS.", "quantifier": "every filesystem and every pattern of OS failures", "why_tests_cant": "failure patterns unbounded", "anchors": ["tree_nonrecursive.go:recFunc", "tree_nonrecursive.go:watchrec"]}
{"id": "C26", "title": "New directories under a recursive watch are picked up", "statement": "After the create event of a directory below a recursive watch is processed, that directory and all directories below it are watched in the OS for the recursive watch's events.", "quantifier": "every reachable state and created subtree", "why_tests_cant": "unbounded", "anchors": ["tree_nonrecursive.go:internal", "node.go:AddDir"]}
{"id": "C27", "title": "Removed directories are forgotten", "statement": "After the remove event of a watched directory is processed no OS watch and no tree node remains at or below it, and nodes elsewhere keep their watchpoints.", "quantifier": "every reachable state", "why_tests_cant": "unbounded", "anchors": ["tree_nonrecursive.go:internal", "node.go:Del"]}
{"id": "C28", "title": "Internal panics are unreachable (non-recursive tree)", "statement": "No sequence of Watch calls with a non-nil channel, Stop calls and filesystem events makes the tree panic.", "quantifier": "every history, including failing OS calls", "why_tests_cant": "unbounded histories", "anchors": ["tree_nonrecursive.go"]}
{"id": "C29", "title": "Watching the filesystem root and its entries", "statement": "A watch on '/' (plain or recursive) and a watch on a top-level entry deliver the events of those paths.", "quantifier": "every event path", "why_tests_cant": "tests only use deep temporary directories", "anchors": ["node.go:Add", "node.go:AddDir", "tree_nonrecursive.go:dispatch", "util.go:split"]}
{"id": "C30", "title": "Exact delivery (natively recursive platforms)", "statement": "Same delivery statement as C17 for the tree used on Windows and macOS.", "quantifier": "every history of Watch/Stop, event", "why_tests_cant": "unbounded histories", "anchors": ["tree_recursive.go:dispatch", "tree_recursive.go:Watch"]}
{"id": "C31", "title": "Stop silences exactly one channel (recursive tree)", "statement": "After Stop(c) no event is offered to c, and what others are offered is unchanged.", "quantifier": "every reachable state", "why_tests_cant": "unbounded states", "anchors": ["tree_recursive.go:Stop"]}
{"id": "C32", "title": "Every registration is covered by an OS watch (recursive tree)", "statement": "After any history of successful Watch/Stop, for each registration there is an OS watch on its path or a recursive one above it, including its events (recursive if the registration is).", "quantifier": "every history", "why_tests_cant": "unbounded histories", "anchors": ["tree_recursive.go:Watch", "tree_recursive.go:Stop"]}
{"id": "C33", "title": "A failed Watch leaves no trace (recursive tree)", "statement": "If Watch returns an error the registrations are as before, and a later identical Watch really programs the OS.", "quantifier": "every reachable state and failing call", "why_tests_cant": "failure injection", "anchors": ["tree_recursive.go:Watch"]}
{"id": "C34", "title": "Internal panics are unreachable (recursive tree)", "statement": "No sequence of Watch calls with a non-nil channel and at least one event, and Stop calls, panics.", "quantifier": "every history", "why_tests_cant": "unbounded histories", "anchors": ["tree_recursive.go:Watch"]}
{"id": "C35", "title": "One OS watch per subtree (recursive tree)", "statement": "The paths programmed in the OS are pairwise unrelated: a new parent watch replaces the watches below it.", "quantifier": "every history of successful Watch", "why_tests_cant": "unbounded", "anchors": ["tree_recursive.go:Watch"]}
{"id": "C36", "title": "inotify event translation", "statement": "For every requested set and raw inotify event: a generic event is produced iff that generic event was requested and the raw mask carries one of its native bits, at most one generic event is produced, the native event produced is exactly requested-intersect-raw, and nothing is produced that was not requested.", "quantifier": "all 32-bit masks", "why_tests_cant": "2^64 combinations", "anchors": ["watcher_inotify.go:encode", "watcher_inotify.go:decode"]}
{"id": "C37", "title": "inotify buffer parsing", "statement": "Any sequence of kernel records laid out in the read buffer is parsed back into exactly that sequence (descriptor, mask, cookie, name without padding); short reads yield nothing.", "quantifier": "every sequence of records, every name length and padding", "why_tests_cant": "unbounded byte strings", "anchors": ["watcher_inotify.go:read"]}
{"id": "C38", "title": "inotify descriptor table", "statement": "Events are reported for exactly the currently watched paths; overflow and ignored records and records of unknown descriptors produce nothing; the path reported is the watched path joined with the record's name.", "quantifier": "every table and batch of records", "why_tests_cant": "unbounded", "anchors": ["watcher_inotify.go:transform", "watcher_inotify.go:watch", "watcher_inotify.go:Unwatch"]}
{"id": "C39", "title": "inotify lazy initialisation happens once", "statement": "However many goroutines call Watch concurrently, at most one inotify instance is live and its goroutines are started once.", "quantifier": "every interleaving of any number of goroutines", "why_tests_cant": "schedules", "anchors": ["watcher_inotify.go:lazyinit"]}
{"id": "C40", "title": "inotify Close", "statement": "Close on a never started watcher returns nil without effect; Close removes all descriptors, returns only after both consumers finished, and nothing is sent to the event channel afterwards; it does not deadlock while the dispatcher drains.", "quantifier": "every interleaving", "why_tests_cant": "schedules", "anchors": ["watcher_inotify.go:Close", "watcher_inotify.go:loop", "watcher_inotify.go:send"]}
{"id": "C41", "title": "Unknown events are rejected", "statement": "A watch request with any bit outside the documented set is refused without touching the OS.", "quantifier": "all 32-bit values", "why_tests_cant": "2^32 values", "anchors": ["watcher_inotify.go:watch", "watcher_readdcw.go:watch"]}
{"id": "C42", "title": "FSEvents flag splitting", "statement": "A coalesced flag set is delivered as its individual flags, each exactly once, in increasing order, and their union is the set.", "quantifier": "all 32-bit sets", "why_tests_cant": "2^32", "anchors": ["watcher_fsevents.go:splitflags"]}
{"id": "C43", "title": "FSEvents path filter", "statement": "A watch forwards events only for its own path and paths strictly below it (component-wise), and only direct children if not recursive; only requested flags; nothing before the history marker.", "quantifier": "every event batch and path", "why_tests_cant": "infinite", "anchors": ["watcher_fsevents.go:Dispatch"]}
{"id": "C44", "title": "FSEvents create/remove alternation", "statement": "For each file, Create is never reported twice without a Remove in between and vice versa, and Write is never reported together with Remove.", "quantifier": "every sequence of flag sets", "why_tests_cant": "unbounded histories", "anchors": ["watcher_fsevents.go:strip"]}
{"id": "C45", "title": "FSEvents watcher meets the watcher contract", "statement": "Watch/Rewatch/Unwatch/RecursiveRewatch produce exactly the documented end state or a documented error and no change.", "quantifier": "every table and arguments", "why_tests_cant": "unbounded", "anchors": ["watcher_fsevents.go:fsevents"]}
{"id": "C46", "title": "ReadDirectoryChangesW filter translation", "statement": "The OS filter derived from a requested set contains exactly the native filters implied by it and no notify-internal bits; directory markers select directory-name changes only.", "quantifier": "all 32-bit filters", "why_tests_cant": "2^32", "anchors": ["watcher_readdcw.go:encode"]}
{"id": "C47", "title": "ReadDirectoryChangesW decoding", "statement": "A generic event is produced iff requested for that action; native action events iff a native filter covers it; unknown actions give nothing.", "quantifier": "all filters and actions", "why_tests_cant": "2^64", "anchors": ["watcher_readdcw.go:decode", "watcher_readdcw.go:gensys"]}
{"id": "C48", "title": "ReadDirectoryChangesW lifecycle", "statement": "For every order of completions, a rewatch or unwatch takes effect exactly when the last outstanding grip reports; conflicting requests meanwhile are refused, and the watch table ends in the requested state.", "quantifier": "every interleaving of completions and requests", "why_tests_cant": "asynchronous completions", "anchors": ["watcher_readdcw.go:loopstate", "watcher_readdcw.go:rewatch", "watcher_readdcw.go:unwatch"]}
{"id": "C49", "title": "kqueue/FEN event translation", "statement": "The native mask requested and the notify events decoded agree with the documented mapping for all sets; decoding yields only requested bits.", "quantifier": "all 32-bit masks", "why_tests_cant": "2^64", "anchors": ["watcher_trigger.go:decode", "watcher_kqueue.go:encode", "watcher_fen.go:encode"]}
{"id": "C50", "title": "kqueue/FEN lookup tables", "statement": "A path is in the watch table iff it is watched directly or as a directory member, both lookup tables agree, and unwatching one role keeps the other.", "quantifier": "every history", "why_tests_cant": "unbounded", "anchors": ["watcher_trigger.go:singlewatch", "watcher_trigger.go:singleunwatch"]}
{"id": "C51", "title": "kqueue/FEN rescans report each new file once", "statement": "After a write event on a watched directory, a Create is generated for exactly the entries not already watched, and they become watched.", "quantifier": "every directory content and table", "why_tests_cant": "unbounded", "anchors": ["watcher_trigger.go:dir"]}
{"id": "C52", "title": "kqueue/FEN Close terminates", "statement": "Close returns under every schedule of the monitor goroutine.", "quantifier": "every interleaving", "why_tests_cant": "a deadlock needs one particular schedule", "anchors": ["watcher_trigger.go:Close", "watcher_trigger.go:process"]}
{"id": "C53", "title": "Stop is a barrier under concurrency", "statement": "Under every interleaving of dispatch goroutines, Watch, Stop and internal processing, once Stop(c) has returned nothing is sent to c unless a later Watch registers it.", "quantifier": "every schedule of any number of goroutines", "why_tests_cant": "schedules cannot be enumerated", "anchors": ["tree_nonrecursive.go:dispatch", "tree_nonrecursive.go:Stop", "tree_recursive.go:dispatch"]}
{"id": "C54", "title": "No deadlock between dispatch and internal processing", "statement": "In every reachable state with pending work some goroutine can make progress, even when the internal queue is full or user channels are full.", "quantifier": "every schedule", "why_tests_cant": "schedules", "anchors": ["tree_nonrecursive.go:dispatch", "tree_nonrecursive.go:internal"]}
{"id": "C55", "title": "Delivery order", "statement": "Events reported in order by the OS arrive in order on a user channel.", "quantifier": "every schedule", "why_tests_cant": "schedules", "anchors": ["tree_nonrecursive.go:dispatch", "watcher_inotify.go:send"]}
{"id": "C56", "title": "Platform event constants are disjoint", "statement": "On every platform Create, Remove, Write, Rename and the two internal flags are six distinct single bits, disjoint from the platform's native event values that can be combined with them.", "quantifier": "every platform", "why_tests_cant": "compile-time constants of six platforms cannot be tested from one", "anchors": ["event_inotify.go", "event_readdcw.go", "event_fsevents.go", "event_kqueue.go", "event_fen.go", "event_stub.go"]}
{"id": "C57", "title": "End to end on Linux", "statement": "If the kernel reports an inotify record for a watched directory, every channel registered for that directory for the corresponding event receives it with the joined path, and channels not registered receive nothing.", "quantifier": "every history, record, name", "why_tests_cant": "unbounded", "anchors": ["watcher_inotify.go:transform", "tree_nonrecursive.go:dispatch"]}
{"id": "C58", "title": "Directory events below a recursive watch are followed up", "statement": "When a directory is created or removed inside a directory covered by a recursive watch in force, the event is queued so that the set of watched directories is adjusted; events about files, events of other kinds and events of unknown entries are never queued.", "quantifier": "every history of Watch, Stop and directory changes, every event", "why_tests_cant": "the decision depends on the whole tree state reached by an unbounded history", "anchors": ["tree_nonrecursive.go:dispatch"]}
{"id": "C59", "title": "kqueue: only open descriptors are closed", "statement": "The kqueue watcher never closes a file descriptor that it does not have open, so it cannot close one that another part of the program has been given in the meantime.", "quantifier": "every history of calls and kernel events, every answer of the OS", "why_tests_cant": "a second close is invisible unless another goroutine opens a file in between; depends on the whole history", "anchors": ["watcher_kqueue.go:kq.Del", "watcher_trigger.go:dir", "watcher_trigger.go:process"]}
{"id": "C60", "title": "kqueue: no descriptor is left open", "statement": "The file descriptors the kqueue watcher holds open are exactly those of the files and directories it watches; in particular none is left when nothing is watched, and failing calls leave none behind.", "quantifier": "every history of calls and kernel events, every answer of the OS", "why_tests_cant": "leaks show only after unbounded histories with refused system calls", "anchors": ["watcher_kqueue.go:NewWatched", "watcher_kqueue.go:Del", "watcher_trigger.go:singlewatch"]}
{"id": "C61", "title": "kqueue/FEN: a file that comes back is reported again", "statement": "If a file in a directory watched for Create is removed and created again, and the directory is rescanned after each change, Create is reported again.", "quantifier": "every history, directory and file", "why_tests_cant": "needs BSD or Solaris and depends on which other events are requested", "anchors": ["watcher_trigger.go:dir", "watcher_trigger.go:process", "watcher_trigger.go:singlewatch"]}
{"id": "C62", "title": "kqueue/FEN: events name something, and only what was requested", "statement": "Every event sent names at least one event, all of those it names were requested for the file or directory the kernel reported about, and its path is that file or directory, an entry of it or a known path below it.", "quantifier": "every history, every native event", "why_tests_cant": "all combinations of requested and reported events after any history", "anchors": ["watcher_trigger.go:process", "watcher_trigger.go:dir", "watcher_trigger.go:decode"]}
{"id": "C63", "title": "kqueue/FEN: Rewatch replaces the events or fails", "statement": "After Rewatch the path (and the entries of a directory) is watched for the new events in place of the old ones, or Rewatch returns an error.", "quantifier": "every history, every answer of the OS", "why_tests_cant": "system calls that fail half-way cannot be provoked in tests", "anchors": ["watcher_trigger.go:Rewatch"]}
{"id": "C64", "title": "kqueue/FEN: the directory flag of events", "statement": "An event is marked as being about a directory iff its path is a directory.", "quantifier": "every history, every native event", "why_tests_cant": "needs BSD or Solaris; depends on the types of all known paths", "anchors": ["watcher_trigger.go:dir", "watcher_trigger.go:file"]}
{"id": "C65", "title": "From the arguments of Watch to the channels", "statement": "After any history of Watch and Stop calls, made with arbitrary path strings in changing working directories and filesystems, an event on an entry of a directory other than the root is offered to a channel iff the channel asked for all its bits, since its last Stop, by successful Watch calls whose path denoted (relative parts and symlinks resolved at the time of the call, '...' cut off) that entry, that directory, or a directory further above for which '...' was given; failed, empty and nil-channel calls count for nothing.", "quantifier": "every history of API calls, path string, working directory, filesystem (whose root-level relative symlinks do not lead to further symlinks, see C15), event list, event and map order; on macOS histories without panic", "why_tests_cant": "composition over all histories, path spellings and filesystems", "anchors": ["notify.go:Watch", "notify.go:Stop", "util.go:cleanpath", "util.go:joinevents", "tree_nonrecursive.go:Watch", "tree_recursive.go:Watch"]}
{"id": "C66", "title": "The text of an event names exactly its constants", "statement": "On every system the text of an event is the names of the constants contained in it, separated by bars, each exactly once (in the changing order of Go maps); every constant prints as its own name; the text is empty only for events that contain no named constant; and two events made of named constants that can print alike are equal.", "quantifier": "every system, every 32-bit event value and every visiting order of the two maps", "why_tests_cant": "all subsets of the constants and all map orders; no two constants of a system may share bits or names", "anchors": ["event.go:String", "event_inotify.go:osestr", "event_kqueue.go:osestr", "event_fen.go:osestr", "event_fsevents.go:osestr", "event_readdcw.go:osestr", "event_stub.go:osestr"]}
{"id": "C67", "title": "Windows: every change in a completed read is reported, with its name", "statement": "When a read of directory changes completes with data, the watcher reports every change in it, each once, in order, whatever padding lies between the records and whatever an earlier read left behind; the name of each event is the UTF-8 form of the file name, so that different files have different names; and the walk through the buffer ends.", "quantifier": "every list of changes, actions, names of up to 2^15 units, paddings, old contents of the buffer", "why_tests_cant": "layouts and names are unbounded; alignment padding and non-ASCII names rarely occur in tests", "anchors": ["watcher_readdcw.go:loopevent", "watcher_readdcw.go:loop", "watcher_readdcw.go:send"]}
{"id": "C68", "title": "macOS: from a report of the OS to the channels", "statement": "After a history of Watch and Stop calls, each flag of an FSEvents report about a directory entry that is not a repetition of Created or Removed is offered to every channel exactly as often as its registrations demand (once for the entry, once for its directory, once for each recursive one above), and nothing else is offered: one OS watch answers for all registrations, so no report is doubled and none is missed.", "quantifier": "every orderly history of Watch and Stop, batches of reports interleaved with it, report, flag, channel", "why_tests_cant": "composition of tree, watcher and heuristics over all histories; doubling and gaps depend on how watches were merged", "anchors": ["tree_recursive.go:Watch", "tree_recursive.go:Stop", "watcher_fsevents.go:Dispatch", "watcher_fsevents.go:RecursiveRewatch", "watcher_fsevents.go:strip"]}
{"id": "C69", "title": "macOS: calls and callbacks at the same time", "statement": "Whatever the interleaving of watcher calls with the callbacks of FSEvents: a watch sends exactly what it would send for the same batches without concurrency, and the batches are those of its own stream; calls have the results and effects they have in isolation; a watch that was removed, or could not be started, never sends anything again once no callback for it is running; a callback that begins after a call has returned works with the set and the kind left by that call; and the table of stream functions holds the functions of the watches in place and nothing else.", "quantifier": "every interleaving of calls, starts that fail or succeed, batches and the steps of the dispatch queue", "why_tests_cant": "races between Stop, Rewatch and callbacks of the OS; failing starts cannot be provoked", "anchors": ["watcher_fsevents_cgo.go:gostream", "watcher_fsevents_cgo.go:streamFuncRegistry", "watcher_fsevents_cgo.go:Start", "watcher_fsevents_cgo.go:Stop", "watcher_fsevents.go:Dispatch", "watcher_fsevents.go:Rewatch"]}
{"id": "C70", "title": "Linux: from the arguments of Watch and the kernel's records to the channels", "statement": "When something happens to an entry of a directory that exists and is watched by the kernel, every channel that called Watch with a path leading to the directory (relative or absolute, through links or not), or with a path leading to a directory at or above it followed by \"...\", naming an event that stands for what happened, is offered that event with the joined path, in whatever batch the record is read; the kernel does have something to report. Directories created since the Watch are included. What happens to a watched file itself is offered likewise. And whatever the kernel reports, each event made of it carries the entry's path and is offered exactly to the channels whose Watch calls in force reach it.", "quantifier": "every history of Watch and Stop calls with arbitrary path arguments, on a filesystem whose directories come and go, every directory and entry, every batch of records", "why_tests_cant": "path resolution, tree, watcher and kernel must agree for every history and every layout of links", "anchors": ["notify.go:Watch", "util.go:canonical", "tree_nonrecursive.go:Watch", "tree_nonrecursive.go:dispatch", "watcher_inotify.go:transform"]}
{"id": "C71", "title": "Windows: from the records of the OS to the channels", "statement": "For every record that ReadDirectoryChangesW delivers on a handle of a watched directory with no operation in progress, each channel is offered the generic event of the action (Create, Remove, Write or Rename) exactly as often as its registrations on the entry, on its directory and recursively above demand, and the native event of the action exactly as often as the registrations for the native filter that covers it demand; nothing else is offered. Whatever a registration names, the OS is asked for: some open handle, on the registered directory or on one above it, has a filter that reports it and includes subdirectories when needed. A channel that asked for Rename is told of renamed directories as well as files.", "quantifier": "every orderly history of Watch and Stop calls, every orderly execution of the watcher serving the calls they lead to, every directory, relative name, action and channel", "why_tests_cant": "the event sets of the tree, of the watch table and of the two handles, and the translation of records, must agree for every combination of registrations and every interleaving of requests and completions", "anchors": ["watcher_readdcw.go:loopevent", "watcher_readdcw.go:send", "watcher_readdcw.go:decode", "watcher_readdcw.go:encode", "watcher_readdcw.go:recreate", "tree_recursive.go:dispatch", "watchpoint_readdcw.go:matches"]}
{"id": "C72", "title": "kqueue and FEN: from a report of the OS to the channels", "statement": "When the OS reports something about a watched file, at most one event is made of it; it carries the file's path, says exactly what was reported and watched for, and is offered exactly to the channels that asked for all of it on the file, on its directory, or recursively above. If a channel asked for an event on a directory (or on the file, or recursively above), the OS is asked to report what the event stands for on every file of the directory's last listing, and when it reports this together with nothing else anybody asked for there, the channel is offered the event. A write to a watched directory makes a Create for exactly the entries not known before, each offered to every channel that asked for Create there. A removed or renamed directory is reported to the channels that asked for it there.", "quantifier": "every history of Watch and Stop calls and of reports of the OS in which calls fail only if the path does not exist, every directory, file, report and channel, for kqueue and for FEN", "why_tests_cant": "what the tree asked of its watcher, the two roles of every path in the watcher's table, the native masks registered and the decoding of reports must agree for every history of calls, listings, rescans and removals", "anchors": ["watcher_trigger.go:process", "watcher_trigger.go:dir", "watcher_trigger.go:singlewatch", "watcher_trigger.go:decode", "watcher_kqueue.go:encode", "watcher_fen.go:encode", "tree_nonrecursive.go:dispatch", "notify.go:Watch"]}
{"id": "C73", "title": "Without a working watcher, Watch says so", "statement": "On a platform without an implementation, or when the OS gave no kqueue or event port, every Watch that names an event returns an error, and no channel is ever offered anything.", "quantifier": "every history of Watch and Stop calls, any paths, channels and events", "why_tests_cant": "no test platform lacks an implementation, and the outcome must not depend on what was asked before", "anchors": ["watcher_stub.go", "watcher_notimplemented.go:newWatcher", "watcher_trigger.go:newWatcher", "tree.go:newTree", "tree_nonrecursive.go:watch", "tree_nonrecursive.go:recFunc"]}
{"id": "C74", "title": "macOS: from the arguments of Watch and the reports of the OS to the channels", "statement": "After a history of Watch and Stop calls, each flag of an FSEvents report about a directory entry that is not a repetition of Created or Removed is offered exactly to the channels that called Watch, naming the flag, with a path leading to the entry or to its directory (relative or absolute, through links or not), or with a path leading to a directory above followed by \"...\", and were not stopped since; other flags are offered to nobody. A channel is offered it once for each of these places, however many calls and however many spellings of the path led there.", "quantifier": "every history of Watch and Stop calls with arbitrary path arguments, filesystems and working directories, batches of reports interleaved with it, report, flag, channel", "why_tests_cant": "path resolution, tree, watcher and heuristics must agree for every history, every layout of links and every grouping of reports", "anchors": ["notify.go:Watch", "util.go:cleanpath", "util.go:canonical", "tree_recursive.go:Watch", "tree_recursive.go:Stop", "watcher_fsevents.go:Dispatch", "watcher_fsevents.go:strip"]}
{"id": "C75", "title": "kqueue and FEN: from the arguments of Watch and the reports of the OS to the channels", "statement": "When a channel called Watch with a path leading to a directory (relative or absolute, through links or not), or with a path leading to a directory at or above it followed by \"...\", the OS is asked to report, on every file of the directory's last listing, what the named events stand for; when it reports this together with nothing else anybody asked for there, the channel is offered the event with the file's path. A path leading to the file itself does likewise. Files that appear in a directory are reported as Create to every channel that asked for it there, directories that vanish to the channels that asked for that. Whatever the OS reports about a file, at most one event is made of it, and it is offered exactly to the channels whose Watch calls in force reach the file and name all of what it says.", "quantifier": "every history of Watch and Stop calls with arbitrary path arguments, on a filesystem whose directories come and go, every report, for kqueue and for FEN", "why_tests_cant": "path resolution, tree, the watcher's two roles of a path and the OS must agree for every history and every layout of links", "anchors": ["notify.go:Watch", "util.go:canonical", "tree_nonrecursive.go:Watch", "tree_nonrecursive.go:dispatch", "watcher_trigger.go:process", "watcher_trigger.go:singlewatch", "watcher_kqueue.go:encode", "watcher_fen.go:encode"]}
{"id": "C76", "title": "Sys returns the native data, String names the event", "statement": "On Linux the value of Sys is a non-nil InotifyEvent with the descriptor, mask and cookie of the record the event was made of; on macOS it is a non-nil FSEvent with path, identifier and flags of the report the event was made of; with kqueue it is a non-nil *Kevent; on Windows it is nil. On Linux, pairing InMovedFrom and InMovedTo events by the cookie, as the documented example does, reports exactly the renames between watched directories, each once, with both paths. Two events that print alike have the same path and the same event.", "quantifier": "every batch of records, every history of reports and every order of map iteration; for renames every sequence of batches over which the two records of each rename may be spread", "why_tests_cant": "the records of a rename can be split over reads, mixed with others and come in either order; all event sets and all paths", "anchors": ["event.go:EventInfo", "event.go:String", "event_inotify.go:Sys", "event_fsevents.go:Sys", "event_trigger.go:Sys", "event_readdcw.go:Sys", "watcher_trigger.go:dir", "watcher_kqueue.go:Wait", "example_inotify_test.go:ExampleWatch_linuxMove"]}
{"id": "C77", "title": "FEN: memory and reports of the event port", "statement": "With FEN: memory given to the event port is never freed twice; the monitor never reads memory that was freed, and what is delivered was reported by the system, for the file it is about; the memory in use is bounded by what is watched, and none remains when nothing is; one change of a file is delivered once.", "quantifier": "every history of Watch, Unwatch, changes of files and reports, every interleaving with the monitor goroutine, every answer of the system and every choice of addresses by malloc", "why_tests_cant": "the fatal interleavings are windows of a few instructions, reuse of an address depends on the allocator, and growth shows only over long runs", "anchors": ["watcher_fen_cgo.go:portAssociate", "watcher_fen_cgo.go:portDissociate", "watcher_fen_cgo.go:portGet", "watcher_fen_cgo.go:cfo2fo", "watcher_fen.go:Watch", "watcher_fen.go:Unwatch", "watcher_trigger.go:process", "watcher_trigger.go:monitor", "watcher_trigger.go:singlewatch"]}
{"id": "C78", "title": "Windows: which path is watched for the argument of Watch", "statement": "On Windows, Watch of a path (relative, with slashes of either kind, with '.' or '..' or with the suffix '...') that leads to an existing file, none of whose components is a symlink, watches the absolute path of that file under its volume, recursively exactly if the suffix is there; if there is no such file Watch fails. A symlink in the path leads to the file it points to. Names of the watched directories put together with the names the OS reports give the paths of the entries.", "quantifier": "every path text, drives and UNC volumes, every working directory, every filesystem with symlinks (also cyclic)", "why_tests_cant": "the path functions of Windows split texts into volumes and components in many ways; tests see a few texts on one drive, and symlinks need privileges on Windows", "anchors": ["util.go:cleanpath", "util.go:canonical", "watcher_readdcw.go:send"]}
{"id": "C79", "title": "Windows: from the arguments of Watch and the records of the OS to the channels", "statement": "When a channel called Watch with a path leading to a directory (in whatever spelling, with or without '...') and has not been stopped since, and a record of the OS tells of a change of an entry in it (or anywhere below it, with '...'), then the channel is offered the generic event of this change if and only if it asked for it in one of these ways, and the native event if and only if it asked for a filter that reports it; nothing else is offered; and the OS is asked for everything a Watch in force asked for.", "quantifier": "every orderly history of Watch and Stop by any number of channels with paths as texts, any state of the OS during each call, every interleaving with the completion loop, every record on every open handle", "why_tests_cant": "it needs the path cleaning, the tree, the watcher's state machine and the completion loop together, over all histories and all paths", "anchors": ["notify.go:Watch", "util.go:cleanpath", "tree_recursive.go:Watch", "tree_recursive.go:Stop", "tree_recursive.go:dispatch", "watcher_readdcw.go:send", "watcher_readdcw.go:loopevent"]}
{"id": "C80", "title": "Linux: a directory that is removed and created again", "statement": "On Linux, after a watched directory was removed and another directory was created under the same name, a Watch of that path that returns nil makes the changes in the new directory be reported; in particular this is so when everyone who was registered for the old directory stopped first.", "quantifier": "every history of Watch and Stop by any number of channels, every directory, every event set, every interleaving of the removal with the calls", "why_tests_cant": "the package documents the loss as a known limitation and no test covers the second Watch; whether it asks the kernel again depends on every registration at and above the path", "anchors": ["notify.go:Watch", "tree_nonrecursive.go:Watch", "tree_nonrecursive.go:watch", "watcher_inotify.go:watch", "watcher_inotify.go:transform"]}
{"id": "C81", "title": "kqueue and FEN: what a nil Watch and a nil Unwatch of the watcher mean", "statement": "On the BSDs and illumos, a Watch of the watcher that returns nil was given a path that exists, and leaves it watched by the OS for the events given in addition to those it was watched for before; for a directory the same holds of every entry it has. An Unwatch that returns nil was given a path that exists and was watched, and leaves it watched only for what it is watched for as an entry of a watched directory, and its entries only for what they are watched for themselves. A path that does not exist makes both fail and change nothing. No other path is affected.", "quantifier": "every history of calls and OS reports, every path, event set and directory listing, every combination of answers and failures of the OS", "why_tests_cant": "needs every combination of failures of open, kevent and port_associate over every history", "anchors": ["watcher_trigger.go:Watch", "watcher_trigger.go:Unwatch", "watcher_trigger.go:watch", "watcher_trigger.go:unwatch", "watcher_trigger.go:singlewatch", "watcher_trigger.go:singleunwatch", "watcher_kqueue.go:NewWatched"]}
{"id": "C82", "title": "Stop(nil) takes nothing away from anybody", "statement": "Calling Stop with a nil channel, any number of times and at any moment, changes nothing for any channel: every later event is offered to each channel exactly as often as its own Watch and Stop calls demand, no call panics, every path somebody watches stays watched by the OS for what was asked for, and every directory below a recursive watch stays watched for its events. The OS is never asked to stop watching anything.", "quantifier": "every history of Watch and Stop calls and directory events with calls Stop(nil) anywhere in it, every event, path and channel; for the OS watches: every history in which the watcher does what it is asked, followed by Stop(nil)", "why_tests_cant": "needs every history and every position of the extra calls; the nil channel is the key under which the program keeps the union of all event sets of a path", "anchors": ["notify.go:Stop", "watchpoint.go:Del", "tree_nonrecursive.go:Stop", "tree_nonrecursive.go:watchDelMin", "tree_recursive.go:Stop", "tree_recursive.go:watchDel"]}
{"id": "C83", "title": "Closing the Windows watcher releases everything, returns, and nothing is reported afterwards", "statement": "When Close is called on the Windows watcher it closes every directory handle the watcher holds, so that no handle is open and no read pending from then on until the next Watch. It returns after a bounded number of steps of the watcher's loop, with the error met in closing handles if there was one. When it has returned nothing more is reported until the next Watch, and closing again returns nil at once. The watcher is then as new: directories can be watched again.", "quantifier": "every history of requests, completions and steps of the loop before the call, every interleaving of the rest of Close with the loop and with other requests, every behaviour afterwards", "why_tests_cant": "needs every interleaving of Close with the completions still to be served, which the OS schedules, and every history before and after", "anchors": ["watcher_readdcw.go:Close", "watcher_readdcw.go:lazyinit", "watcher_readdcw.go:loop", "watcher_readdcw.go:loopstate", "watcher_readdcw.go:closeHandle", "watcher.go:Close"]}
{"id": "C84", "title": "Closing the tree on macOS stops everything and is safe while events arrive", "statement": "When the tree is closed on macOS, Close does not panic and returns after a bounded number of its own steps; then no stream is running, no path is watched and the functions of the streams are unregistered. From then on nothing is reported, callbacks that the OS still makes are harmless, and later calls are refused without a panic.", "quantifier": "every history of calls and callbacks before the call, every interleaving of Close with the dispatch queue, everything that is done afterwards", "why_tests_cant": "needs the callback and Close to meet at every point of each other, which the OS schedules, for every set of watches and every history", "anchors": ["watcher_fsevents.go:Close", "watcher_fsevents.go:Stop", "watcher_fsevents.go:Dispatch", "watcher_fsevents_cgo.go:Stop", "watcher_fsevents_cgo.go:gostream", "tree_recursive.go:Close", "watcher.go:Close"]}
{"id": "C85", "title": "Closing the kqueue or FEN watcher leaves nothing behind", "statement": "When the watcher is closed on BSD or illumos, every file and directory it watches is unwatched and every descriptor it opened for them, and for itself, is closed; if something is left Close reports an error. Close never adds a watch, opens a descriptor or closes one that is not open. The OS never watches anything for the program that the watcher does not know of.", "quantifier": "every history of calls and events before Close, every answer of the OS, every order in which Go walks through the table of watches", "why_tests_cant": "the order of a walk through a Go map is random, the loop changes the table it walks through, and the outcome depends on files that come and go between the last event and Close", "anchors": ["watcher_trigger.go:Close", "watcher_trigger.go:unwatch", "watcher_trigger.go:singleunwatch", "watcher_kqueue.go:Del", "watcher_kqueue.go:Close", "watcher_kqueue.go:Init", "watcher_fen.go:Close", "util.go:nonil"]}
{"id": "C86", "title": "Laws of Watch and Stop", "statement": "Which channels are offered an event, and how often, depends only on the subscriptions. So calls of Watch with neither a Stop nor a removed directory between them may be made in any order; one Watch with several events is as good as several with some of them each; a Watch for something the channel already watches makes no difference, calls nothing of the OS and returns nil; a channel that was stopped behaves like a new one; and stopping a channel that is not in use makes no difference and calls nothing of the OS.", "quantifier": "every history of Watch and Stop calls and directory events before and after the calls concerned, every order and answer of the OS and the Go runtime in either history", "why_tests_cant": "the laws compare two histories of any length, made in different environments; a test compares a few", "anchors": ["tree_nonrecursive.go:Watch", "tree_nonrecursive.go:watchrec", "tree_nonrecursive.go:Stop", "tree_nonrecursive.go:watchDelMin", "tree_recursive.go:Watch", "tree_recursive.go:Stop", "watchpoint.go:Add", "watchpoint.go:Del", "notify.go:Watch", "notify.go:Stop"]}
{"id": "C87", "title": "Linux: the watcher's file descriptors", "statement": "The Linux watcher uses and closes only descriptors that it opened itself and has not closed yet, never one of the rest of the program, whatever number the kernel hands out next. It never has more than four open (inotify, epoll, two ends of a pipe), however often it was set up and closed; it has exactly these four after a Watch that succeeded, and none after a Watch that could not set up the watcher or a Close that succeeded; after either of these a later Watch can succeed. No panic is caused by closing a descriptor.", "quantifier": "every history of Watch, Unwatch and Close calls and finalization, every one of the system calls that set the watcher up failing or not, every interleaving with other parts of the program opening and closing descriptors, every choice of numbers by the kernel", "why_tests_cant": "needs descriptor exhaustion at each single point of the set-up and reuse of the number by another goroutine between two system calls", "anchors": ["watcher_inotify.go:newWatcher", "watcher_inotify.go:lazyinit", "watcher_inotify.go:epollinit", "watcher_inotify.go:epollclose", "watcher_inotify.go:loop", "watcher_inotify.go:Close"]}
{"id": "C88", "title": "BSD and Solaris: a watcher that cannot be set up", "statement": "If the OS refuses one of the resources the kqueue or event port watcher needs, the program starts nevertheless, every Watch reports the error, no descriptor of the program is touched and none of the library's stays open; if it refuses none the watcher starts, with descriptors of its own.", "quantifier": "every set of descriptors the program has open (for writing or not), every one of the set-up calls failing or not, every choice of new descriptor numbers", "why_tests_cant": "the watcher is set up once, before main; the failures are exhaustion of kernel resources at single points", "anchors": ["watcher_trigger.go:newWatcher", "watcher_trigger.go:Close", "watcher_kqueue.go:Init", "watcher_kqueue.go:Stop", "watcher_fen.go:Init", "watcher_fen.go:Stop", "watcher_fen_cgo.go:portCreate", "watcher_fen_cgo.go:portAlert"]}
{"id": "C89", "title": "Delivery under every schedule", "statement": "However the goroutines of callers and of the library interleave: a channel whose Watch returned without error is offered every event the Watch concerns that is reported afterwards, unless a Stop of the channel is called or the path is removed; each event is offered to each channel exactly as often as what had been asked for at one moment between its dispatch and its first send demands; and a channel that is offered an event has Watch calls in effect that ask for it.", "quantifier": "every number of calling goroutines and reports, every interleaving of their steps and of the library's own goroutines, every outcome of the watcher and the OS, every order of map iteration", "why_tests_cant": "a test sees the schedules the runtime happens to choose; an event lost because a Watch or Stop of another channel was under way shows only in some", "anchors": ["tree_nonrecursive.go:dispatch", "tree_nonrecursive.go:internal", "tree_nonrecursive.go:Watch", "tree_nonrecursive.go:Stop", "tree_recursive.go:dispatch", "tree_recursive.go:Watch", "tree_recursive.go:Stop", "watchpoint.go:Dispatch"]}
{"id": "C90", "title": "Linux: records are passed on once under every schedule", "statement": "However the reading goroutine, the two consumers and calls that set or withdraw watches interleave: every record the kernel queues is read once and its batch translated once, as a whole, with the watches in effect at one moment after it was read, and the events made of it are passed on once and in order; what happens to a watched file after Watch returned is passed on under the watched name as long as the watch stays, even if the file goes meanwhile; nothing translated after Unwatch returned is reported for the path; and the goroutines neither block each other nor run on for ever.", "quantifier": "every number and order of calls, records, batches and removals of files, every interleaving of the goroutines' steps with the two halves of each call, every split of the kernel's queue into batches", "why_tests_cant": "a test does not choose when a consumer translates relative to the system call and the table update of a concurrent Watch or Unwatch, nor how records fall into batches", "anchors": ["watcher_inotify.go:loop", "watcher_inotify.go:read", "watcher_inotify.go:send", "watcher_inotify.go:transform", "watcher_inotify.go:watch", "watcher_inotify.go:Unwatch"]}
{"id": "C91", "title": "Linux: from the kernel to the channel under every schedule", "statement": "However calls of Watch and Stop, the library's goroutines and the kernel interleave: once a Watch on a file or directory has returned without error, and as long as no Stop of the channel is called and the path is not removed, the kernel reports what the Watch asks for, and whatever it reports of the file, or of an entry of the directory, is offered to the channel, under the watched path and as the event asked for, by the time nothing is left to do; if the Watch is recursive the same holds for every directory below that is there when the Watch takes effect, or that is created later and whose creation the library has processed; and a channel is offered nothing but events made of records the kernel queued, under a path that was set to be watched, for which the channel has Watch calls in effect.", "quantifier": "every number of calling goroutines, calls, channels, paths and records, every interleaving of callers, dispatcher, event goroutines, the reading goroutine, the consumers, the kernel and the two halves of every system call with its table update", "why_tests_cant": "the event passes through five goroutines and two locks; a test sees the interleavings the scheduler happens to choose, and an event lost between a Watch of another channel and a consumer shows in few of them", "anchors": ["watcher_inotify.go:loop", "watcher_inotify.go:send", "watcher_inotify.go:transform", "watcher_inotify.go:watch", "watcher_inotify.go:Unwatch", "tree_nonrecursive.go:dispatch", "tree_nonrecursive.go:internal", "tree_nonrecursive.go:Watch", "tree_nonrecursive.go:Stop", "tree.go:buffer"]}
{"id": "C92", "title": "kqueue: reports and calls interleaved", "statement": "On the BSDs, however calls of Watch and Stop interleave with what the OS reports and with the goroutine that reads the reports: what happens to a watched file is reported, as the event asked for and under its own path, by the time nothing is left to do, whatever is watched or unwatched elsewhere meanwhile; what is reported for a path happened to the file watched there, and is reported once; and a report about a path no longer watched is dropped.", "quantifier": "every number and order of calls, reports and answers of the OS, every interleaving of the three, every choice of descriptor numbers by the OS", "why_tests_cant": "a test does not choose which calls run between the return of kevent and the lock, nor which descriptor number the OS hands out again", "anchors": ["watcher_trigger.go:monitor", "watcher_trigger.go:process", "watcher_trigger.go:Watch", "watcher_trigger.go:Unwatch", "watcher_trigger.go:Rewatch", "watcher_kqueue.go:Wait", "watcher_kqueue.go:Watched", "watcher_kqueue.go:Del"]}
{"id": "C93", "title": "kqueue: from the report to the channel under every schedule", "statement": "On the BSDs, once Watch has returned nil, whatever it asks for and happens to the watched file, or to a file listed in the watched directory or in a directory below a recursive watch, is offered to the channel with the path of the file by the time nothing is left to do, as long as no Stop of the channel is called and the file stays watched, whatever other calls are made and events happen meanwhile; whatever appears in such a directory is offered as a Create to a channel that asks for that; and what a channel is offered was made of a report of the OS and asked for by Watch calls of that channel. In particular a Watch of another channel on the same file, or on a file just created in a watched directory, takes nothing away.", "quantifier": "every number and order of calls, reports and events, every interleaving of the callers, the goroutine reading the reports, the dispatcher and the goroutines of events", "why_tests_cant": "the guarantee spans the watcher's goroutine, the dispatcher, a goroutine per event and the callers; a test sees few of their interleavings", "anchors": ["watcher_trigger.go:monitor", "watcher_trigger.go:send", "watcher_trigger.go:process", "watcher_trigger.go:Rewatch", "watcher_kqueue.go:Wait", "tree.go:newTree", "tree_nonrecursive.go:dispatch", "tree_nonrecursive.go:internal", "tree_nonrecursive.go:Watch", "tree_nonrecursive.go:Stop"]}
{"id": "C94", "title": "Closing the tree on Linux, the BSDs and Solaris loses nothing and does not panic", "statement": "When the tree of a platform without recursive watches is closed, no event is ever sent on the closed channel between watcher and dispatcher, so that the program does not panic; every event sent before is still received by the dispatcher, which then ends by itself. This holds whether or not closing the watcher reports an error.", "quantifier": "every history of reports before and during Close, every interleaving of Close, the watcher's goroutines, its callers and the dispatcher, every failure of the request to stop the watcher", "why_tests_cant": "the panic needs the monitor to be between two events, or a failing request, at the moment the channel is closed; a test meets one schedule", "anchors": ["tree_nonrecursive.go:Close", "tree_nonrecursive.go:dispatch", "tree.go:newTree", "watcher_trigger.go:Close", "watcher_trigger.go:monitor", "watcher_trigger.go:send", "watcher_inotify.go:Close", "watcher_inotify.go:send"]}
{"id": "C95", "title": "Closing the tree on Windows loses nothing and does not panic", "statement": "When the tree is closed on Windows, no event is ever sent on the closed channel between watcher and dispatcher, so that the program does not panic; every event sent before is still received by the dispatcher, which then ends by itself. This holds whether or not closing the watcher reports an error, and whatever is watched while or after the tree is closed.", "quantifier": "every history of requests and completions before, during and after Close, every interleaving of Close, the watcher's loop, its callers and the dispatcher, every failure of closing a handle or posting to the completion port", "why_tests_cant": "the panic needs a completion to wait, a request of the OS to fail, or another call to run, at the moment the channel is closed; a test meets one schedule", "anchors": ["tree_recursive.go:Close", "tree_recursive.go:dispatch", "tree.go:newTree", "watcher_readdcw.go:Close", "watcher_readdcw.go:loop", "watcher_readdcw.go:send", "watcher_readdcw.go:lazyinit"]}

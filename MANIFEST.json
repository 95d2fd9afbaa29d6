{
 "claims": [
  {
   "property": "C01",
   "status": "proved",
   "theorems": [
    "C01_union",
    "C01_order_duplicates_irrelevant",
    "C01_empty_is_All"
   ],
   "note": ""
  },
  {
   "property": "C02",
   "status": "proved",
   "theorems": [
    "C02_no_effect",
    "C02_possible",
    "C02_outcome",
    "C02_bad_path"
   ],
   "note": "for histories of API calls on either tree: leaving out the vain calls gives the same state and the same OS calls; they may be made at any moment; panic iff the channel is nil"
  },
  {
   "property": "C03",
   "status": "proved",
   "theorems": [
    "C03_watch_expands",
    "C03_accumulates",
    "C03_rec_watch_expands"
   ],
   "note": ""
  },
  {
   "property": "C04",
   "status": "proved",
   "theorems": [
    "C04_aggregate",
    "C04_iteration_order"
   ],
   "note": ""
  },
  {
   "property": "C05",
   "status": "proved",
   "theorems": [
    "C05_add_diff",
    "C05_del_diff",
    "C05_dryAdd"
   ],
   "note": ""
  },
  {
   "property": "C06",
   "status": "proved",
   "theorems": [
    "C06_unix",
    "C06_windows",
    "C06_windows_mask"
   ],
   "note": ""
  },
  {
   "property": "C07",
   "status": "proved",
   "theorems": [
    "C07_channel",
    "C07_dispatch_isolated"
   ],
   "note": ""
  },
  {
   "property": "C08",
   "status": "proved",
   "theorems": [
    "C08_user_event_never_internal",
    "C08_internal_event_reaches_nobody",
    "C08_never_to_internal"
   ],
   "note": ""
  },
  {
   "property": "C09",
   "status": "proved",
   "theorems": [
    "C09_split_with_separator",
    "C09_split_without_separator",
    "C09_base"
   ],
   "note": ""
  },
  {
   "property": "C10",
   "status": "proved",
   "theorems": [
    "C10_containment",
    "C10_component_prefix",
    "C10_unrelated_silent"
   ],
   "note": ""
  },
  {
   "property": "C11",
   "status": "proved",
   "theorems": [
    "C11_add_exact",
    "C11_wf_init",
    "C11_wf_add",
    "C11_add_idempotent",
    "C11_get_exact",
    "C11_get_after_add",
    "C11_spells_unique",
    "C11_get_foreign"
   ],
   "note": ""
  },
  {
   "property": "C12",
   "status": "proved",
   "theorems": [
    "C12_del_exact",
    "C12_del_missing",
    "C12_wf_del"
   ],
   "note": ""
  },
  {
   "property": "C13",
   "status": "proved",
   "theorems": [
    "C13_walkpath",
    "C13_recorded",
    "C13_missing"
   ],
   "note": ""
  },
  {
   "property": "C14",
   "status": "proved",
   "theorems": [
    "C14_walk"
   ],
   "note": ""
  },
  {
   "property": "C15",
   "status": "partial",
   "theorems": [
    "C15_terminates",
    "C15_at_most_128_steps",
    "C15_success_partial",
    "C15_result_clean",
    "C15_error_partial",
    "C15_cycle_partial",
    "C15_real_paths",
    "C15_chained_links_refuted"
   ],
   "note": "proved for every filesystem in which the first step of a relative symlink in the root directory is neither missing nor a symlink itself (root_links_ok), for every path text and working directory; termination and the 128-step bound are unconditional; C15_real_paths: paths without symlinks on every filesystem. The full statement is false: C15_chained_links_refuted (after following a link the scan restarts one component too late)"
  },
  {
   "property": "C16",
   "status": "proved",
   "theorems": [
    "C16_suffix",
    "C16_cleanpath"
   ],
   "note": ""
  },
  {
   "property": "C17",
   "status": "proved",
   "theorems": [
    "C17_exact_delivery",
    "C17_offered_iff",
    "C17_exact_delivery_always"
   ],
   "note": ""
  },
  {
   "property": "C18",
   "status": "proved",
   "theorems": [
    "C18_stopped_silent",
    "C18_others_unchanged"
   ],
   "note": ""
  },
  {
   "property": "C19",
   "status": "proved",
   "theorems": [
    "C19_os_exact",
    "C19_os_only",
    "C19_registered"
   ],
   "note": ""
  },
  {
   "property": "C20",
   "status": "partial",
   "theorems": [
    "C20_covered_partial",
    "C20_dirs_recorded",
    "C20_watch_succeeds",
    "C20_retry_refuted"
   ],
   "note": "proved for every history whose calls on behalf of recursive watches are performed by the OS (C20_covered_partial); the full statement is false: C20_retry_refuted shows a recursive Watch that fails once (directory missing) and, retried after the directory exists, returns nil without any OS call"
  },
  {
   "property": "C21",
   "status": "proved",
   "theorems": [
    "C21_tree_empty",
    "C21_os_empty"
   ],
   "note": ""
  },
  {
   "property": "C22",
   "status": "partial",
   "theorems": [
    "C22_stop_releases_partial",
    "C22_last_on_path_refuted"
   ],
   "note": "proved when the stopped channel is the last one on the path and above it; the full statement is false: C22_last_on_path_refuted"
  },
  {
   "property": "C23",
   "status": "proved",
   "theorems": [
    "C23_contract"
   ],
   "note": ""
  },
  {
   "property": "C24",
   "status": "partial",
   "theorems": [
    "C24_failed_watch_partial",
    "C24_failed_watch_refuted"
   ],
   "note": "other channels and other paths are unaffected and only events already held at the path by somebody are kept; the full statement is false: C24_failed_watch_refuted"
  },
  {
   "property": "C25",
   "status": "partial",
   "theorems": [
    "C25_reliable_partial",
    "C25_reports_failure_refuted"
   ],
   "note": "proved for a watcher that performs all calls; the full statement is false: C25_reports_failure_refuted"
  },
  {
   "property": "C26",
   "status": "partial",
   "theorems": [
    "C26_new_directory_partial",
    "C26_new_directory_refuted"
   ],
   "note": "proved when no earlier Watch touched the new path or something below it; the full statement is false: C26_new_directory_refuted"
  },
  {
   "property": "C27",
   "status": "proved",
   "theorems": [
    "C27_removed_forgotten"
   ],
   "note": ""
  },
  {
   "property": "C28",
   "status": "proved",
   "theorems": [
    "C28_no_panic"
   ],
   "note": ""
  },
  {
   "property": "C29",
   "status": "partial",
   "theorems": [
    "C29_top_level_refuted",
    "C29_root_refuted"
   ],
   "note": "false of the code: C29_top_level_refuted (no event of an entry of / is offered to anybody, for every tree) and C29_root_refuted (a channel that only watches / is never offered anything)"
  },
  {
   "property": "C30",
   "status": "partial",
   "theorems": [
    "C30_exact_delivery",
    "C30_exact_delivery_always",
    "C30_windows_modified",
    "C30_root_refuted",
    "C30_windows_refuted"
   ],
   "note": "proved for every history and every report about an entry of a directory other than a root, except Windows reports of modifications, for which C30_windows_modified gives the exact number of offers; the full statement is false: C30_windows_refuted (a non-recursive registration is offered modifications deep below it) and C30_root_refuted (Watch on / succeeds and delivers nothing)"
  },
  {
   "property": "C31",
   "status": "proved",
   "theorems": [
    "C31_stopped_silent",
    "C31_others_unchanged"
   ],
   "note": ""
  },
  {
   "property": "C32",
   "status": "partial",
   "theorems": [
    "C32_refuted",
    "C32_covered_partial",
    "C32_recursive_partial",
    "C32_events_partial"
   ],
   "note": "the full statement is false of the code: C32_refuted (three histories with all calls successful and a cooperative watcher). Proved: coverage and no excess after every history of successful recursive Watch calls (C32_recursive_partial) and along every orderly history with Stop (C32_covered_partial; orderly is defined in SpecRec.v and excludes exactly the situations of C32_refuted, C34_refuted and C35_refuted); after every history of successful Watch calls of any kind the OS watches all events asked for at or above each registration, and only the kind of that watch may be wrong (C32_events_partial). Paths other than the root"
  },
  {
   "property": "C33",
   "status": "partial",
   "theorems": [
    "C33_refuted"
   ],
   "note": "false of the code: C33_refuted; what a failed Watch may leave behind is bounded by C30_exact_delivery_always, and it takes nothing away (C03_rec_watch_expands)"
  },
  {
   "property": "C34",
   "status": "partial",
   "theorems": [
    "C34_refuted",
    "C34_orderly_partial",
    "C34_watches_partial"
   ],
   "note": "the full statement is false of the code: C34_refuted. Proved: after every history of successful Watch calls the next Watch does not panic whatever the OS answers (C34_watches_partial), and along orderly histories neither Watch nor Stop panics and all succeed (C34_orderly_partial); in both cases every call to the watcher respects its documented preconditions. Paths other than the root"
  },
  {
   "property": "C35",
   "status": "partial",
   "theorems": [
    "C35_refuted",
    "C35_unrelated_partial",
    "C35_replaced_partial",
    "C35_orderly_partial",
    "C35_root_refuted"
   ],
   "note": "proved for every history of successful Watch calls, of any kind, on paths other than the root (C35_unrelated_partial, C35_replaced_partial) and along orderly histories with Stop (C35_orderly_partial); false with the root directory (C35_root_refuted) and with arbitrary Stop calls (C35_refuted)"
  },
  {
   "property": "C36",
   "status": "proved",
   "theorems": [
    "C36_mask_exact",
    "C36_mask_only_events",
    "C36_native",
    "C36_generic_sound",
    "C36_generic_complete",
    "C36_generic_exact",
    "C36_nothing_lost",
    "C36_only_requested"
   ],
   "note": ""
  },
  {
   "property": "C37",
   "status": "proved",
   "theorems": [
    "C37_round_trip",
    "C37_short",
    "C37_terminates"
   ],
   "note": ""
  },
  {
   "property": "C38",
   "status": "partial",
   "theorems": [
    "C38_kernel_table",
    "C38_kernel_only",
    "C38_sound",
    "C38_dropped",
    "C38_complete",
    "C38_kernel_active",
    "C38_only_watched",
    "C38_joined_path",
    "C38_hard_link_refuted",
    "C38_stale_descriptor_refuted"
   ],
   "note": "proved for every history in which no watched path changes its file while it is watched and no file is watched under two names (files may be removed and created anew after Unwatch); the full statement is false: C38_hard_link_refuted (two watched names of one inode share a descriptor, the first name loses its events) and C38_stale_descriptor_refuted (after a watched path was deleted, recreated and watched again, Unwatch may pick the stale table entry: it returns nil and the kernel's reports about the path are still delivered)"
  },
  {
   "property": "C39",
   "status": "proved",
   "theorems": [
    "C39_at_most_one",
    "C39_started_once",
    "C39_exclusive",
    "C39_descriptor",
    "C39_nil_without_instance"
   ],
   "note": ""
  },
  {
   "property": "C40",
   "status": "partial",
   "theorems": [
    "C40_not_started",
    "C40_removes_all",
    "C40_quiet",
    "C40_no_deadlock",
    "C40_bounded",
    "C40_returns",
    "C40_only_inflight",
    "C40_concurrent_watch_refuted"
   ],
   "note": "proved for every schedule of the loop, the consumers and one Close in which no Watch starts between the call of Close and its return, and in which the write to the pipe succeeds and the dispatcher keeps receiving; the statement without that restriction is false: C40_concurrent_watch_refuted (the wait group is shared with the instance a concurrent Watch starts)"
  },
  {
   "property": "C41",
   "status": "proved",
   "theorems": [
    "C41_unknown_rejected",
    "C41_known_accepted"
   ],
   "note": ""
  },
  {
   "property": "C42",
   "status": "proved",
   "theorems": [
    "C42_split"
   ],
   "note": ""
  },
  {
   "property": "C43",
   "status": "partial",
   "theorems": [
    "C43_nothing_else",
    "C43_exact",
    "C43_other_flags_sent",
    "C43_root_refuted"
   ],
   "note": "proved for every watched path other than the root, every history of batches and rewatches with clean paths; a watch of / forwards nothing (C43_root_refuted), so 'its own path and below' is not complete there"
  },
  {
   "property": "C44",
   "status": "partial",
   "theorems": [
    "C44_alternation_partial",
    "C44_no_write_with_remove_partial",
    "C44_refuted"
   ],
   "note": "proved when the first report of the file that carries Created or Removed carries only one of them; the full statement is false: C44_refuted (both in the first report: Write is sent with Remove, and Remove is sent twice)"
  },
  {
   "property": "C45",
   "status": "partial",
   "theorems": [
    "C45_success",
    "C45_accepts",
    "C45_error_unchanged_partial",
    "C45_errors",
    "C45_relocation_refuted",
    "C45_stale_set_refuted"
   ],
   "note": "success has the documented effect, preconditions suffice, documented errors are detected, and errors change nothing except for a failed relocation; the full statement is false: C45_relocation_refuted, C45_stale_set_refuted"
  },
  {
   "property": "C46",
   "status": "partial",
   "theorems": [
    "C46_requested",
    "C46_directories",
    "C46_any",
    "C46_internal_refuted",
    "C46_refused",
    "C46_issued"
   ],
   "note": "proved for every set that can be requested with any internal state, for every set with a directory marker, and in general which bits pass (C46_any); the literal statement is false of sets with one of the bits 7, 9-11, 24, 25, 27, e.g. the tree's internal bit 25 (C46_internal_refuted), but Watch and Rewatch refuse them (C46_refused) and in every execution every read issued to the OS is exactly for a set asked for that directory (C46_issued)"
  },
  {
   "property": "C47",
   "status": "partial",
   "theorems": [
    "C47_generic",
    "C47_unknown",
    "C47_native_partial",
    "C47_native_refuted",
    "C47_delivered"
   ],
   "note": "generic events, unknown actions: as stated; native events are sent whenever covered but also in other cases (C47_native_refuted); after the masks of the tree each registration is offered exactly the generic event it asked for and the native one its filters cover (C47_delivered)"
  },
  {
   "property": "C48",
   "status": "partial",
   "theorems": [
    "C48_refused",
    "C48_rewatch_effect_partial",
    "C48_rewatch_progress_partial",
    "C48_gone_partial",
    "C48_unwatch_effect_partial",
    "C48_settled_partial",
    "C48_watch_fails",
    "C48_no_panic_partial",
    "C48_race_refuted",
    "C48_watch_refuted",
    "C48_unwatch_refuted",
    "C48_unwatch_last_refuted",
    "C48_dirname_refuted",
    "C48_stuck_refuted"
   ],
   "note": "refusal of conflicting Rewatch and Unwatch: in every state (C48_refused). A Watch whose handles the OS refuses returns an error and changes neither the table nor the open handles, in every execution (C48_watch_fails). Along every orderly execution (SpecReaddcw.v: the OS refuses nothing, no request falls between the loop's reading again and its looking at the state, a directory is watched only when it is not in the table, Rewatch names the current set and leaves more than directory names): a rewatch takes effect exactly with the last outstanding completion, there is always one, and the table ends in the requested state with the right open handles. False otherwise: C48_race_refuted, C48_watch_refuted, C48_unwatch_refuted, C48_unwatch_last_refuted, C48_dirname_refuted, C48_stuck_refuted"
  },
  {
   "property": "C49",
   "status": "proved",
   "theorems": [
    "C49_kqueue_requested",
    "C49_fen_requested",
    "C49_decoded",
    "C49_only_requested",
    "C49_order",
    "C49_round_trip",
    "C49_create"
   ],
   "note": ""
  },
  {
   "property": "C50",
   "status": "partial",
   "theorems": [
    "C50_tables_agree",
    "C50_descriptors",
    "C50_orderly_partial",
    "C50_other_role_partial",
    "C50_no_role_refuted",
    "C50_stale_refuted"
   ],
   "note": "in every history, whatever the OS answers, the two lookup tables agree and no two paths share a descriptor (C50_tables_agree, C50_descriptors). The iff and keeping the other role: along orderly histories (SpecTrigger.v: the OS refuses nothing, paths keep their type, a directory reports writes only if it is watched directly, a file that goes away is noticed). False otherwise: entries without a role (C50_no_role_refuted), entries that outlive their directory's watch (C50_stale_refuted)"
  },
  {
   "property": "C51",
   "status": "partial",
   "theorems": [
    "C51_rescan",
    "C51_created_partial",
    "C51_once_partial",
    "C51_ignored_refuted"
   ],
   "note": "C51_rescan says for every state that can occur and every answer of the OS what is reported and what becomes watched; the literal statement holds if the OS refuses nothing (C51_created_partial, C51_once_partial) and is false on kqueue of entries that cannot be opened (C51_ignored_refuted)"
  },
  {
   "property": "C52",
   "status": "partial",
   "theorems": [
    "C52_deadlock_refuted",
    "C52_failed_start_refuted",
    "C52_returns_partial"
   ],
   "note": "false: Close deadlocks with a monitor that has taken a file event (C52_deadlock_refuted) and when Init failed but Stop succeeds (C52_failed_start_refuted). It returns under every schedule if no file event is pending or taken when Close gets the lock and none comes before it returns (C52_returns_partial)"
  },
  {
   "property": "C53",
   "status": "proved",
   "theorems": [
    "C53_barrier",
    "C53_barrier_recursive"
   ],
   "note": "for both trees, with any number of goroutines and every schedule (TreeConc.v): what is offered after a Stop returned is owed to a Watch that had not returned when that Stop was called (C53_barrier, C53_barrier_recursive). Reports with well-formed paths; for the recursive tree paths other than the root and runs without panics"
  },
  {
   "property": "C54",
   "status": "proved",
   "theorems": [
    "C54_progress",
    "C54_no_endless_work",
    "C54_returns",
    "C54_recursive"
   ],
   "note": "C54_progress: every state with pending work has a step, with full queues too; C54_no_endless_work: without new calls and reports every schedule ends; C54_returns: then all calls have returned. Calls to the watcher return; whether user channels take events is left open. For the recursive tree, which has no internal queue, progress holds unless the call that holds the lock panics (C54_recursive)"
  },
  {
   "property": "C55",
   "status": "partial",
   "theorems": [
    "C55_one_by_one_partial",
    "C55_recursive_partial",
    "C55_refuted"
   ],
   "note": "false of the code: C55_refuted (the dispatcher starts a goroutine for each event and a later one may be faster). Proved: the order is kept in runs where each goroutine makes its sends before the next event is taken (C55_one_by_one_partial, C55_recursive_partial)"
  },
  {
   "property": "C56",
   "status": "proved",
   "theorems": [
    "C56_constants",
    "C56_native_disjoint",
    "C56_native_pairwise_disjoint"
   ],
   "note": ""
  },
  {
   "property": "C57",
   "status": "partial",
   "theorems": [
    "C57_delivered",
    "C57_delivered_native",
    "C57_delivered_self",
    "C57_only_registered",
    "C57_recursive"
   ],
   "note": "proved for histories in which the watcher performs what it is asked, no plain Watch failed, no watched path changes its file while watched and no file is watched under two names, and for records with a single event bit; 'receives' means the channel is offered the event (C17: a full channel drops it). Without these restrictions: C38_hard_link_refuted, C24_failed_watch_refuted"
  },
  {
   "property": "C58",
   "status": "proved",
   "theorems": [
    "C58_directory_events_queued",
    "C58_only_directory_events"
   ],
   "note": ""
  },
  {
   "property": "C59",
   "status": "partial",
   "theorems": [
    "C59_stray_partial",
    "C59_double_close_refuted"
   ],
   "note": "false: the removal or renaming of a watched directory closes its descriptor twice (C59_double_close_refuted). C59_stray_partial: in every history this is the only case, and it happens exactly then"
  },
  {
   "property": "C60",
   "status": "partial",
   "theorems": [
    "C60_no_leak_partial",
    "C60_all_closed_partial",
    "C60_leak_refuted"
   ],
   "note": "proved for all histories in which the OS does not refuse to register an open descriptor (C60_no_leak_partial, C60_all_closed_partial); false otherwise, and the loss is unbounded (C60_leak_refuted)"
  },
  {
   "property": "C61",
   "status": "partial",
   "theorems": [
    "C61_recreated_partial",
    "C61_recreated_refuted"
   ],
   "note": "proved for all histories if the removal is noticed, that is if the file is watched for an event that reports it (C61_recreated_partial); false if only Create is requested (C61_recreated_refuted)"
  },
  {
   "property": "C62",
   "status": "partial",
   "theorems": [
    "C62_only_requested",
    "C62_nonempty_partial",
    "C62_kqueue_partial",
    "C62_empty_refuted"
   ],
   "note": "only requested events, and the path: every history on both systems (C62_only_requested). At least one event: if the OS reports removals and renamings only where asked (C62_nonempty_partial), which kqueue does (C62_kqueue_partial, orderly histories); false on FEN (C62_empty_refuted)"
  },
  {
   "property": "C63",
   "status": "partial",
   "theorems": [
    "C63_result",
    "C63_rewatched_partial",
    "C63_lost_refuted"
   ],
   "note": "proved along orderly histories (C63_rewatched_partial); false if the OS refuses: Rewatch returns nil whenever the path exists (C63_result) and can leave nothing watched (C63_lost_refuted)"
  },
  {
   "property": "C64",
   "status": "partial",
   "theorems": [
    "C64_flag_partial",
    "C64_flag_refuted"
   ],
   "note": "proved along orderly histories except below a renamed directory (C64_flag_partial); false there: files are reported as directories (C64_flag_refuted)"
  },
  {
   "property": "C65",
   "status": "proved",
   "theorems": [
    "C65_delivery",
    "C65_exact",
    "C65_macos"
   ],
   "note": "composes C01, C03, C15, C16, C17 (Linux, BSD, Solaris) and C30 (macOS); Watch on the root directory and events of its entries are excluded (C29, C30_root_refuted), as are filesystems on which cleanpath goes wrong (C15_chained_links_refuted); calls on nil channels other than Watch are not modelled"
  },
  {
   "property": "C66",
   "status": "proved",
   "theorems": [
    "C66_parts",
    "C66_constant",
    "C66_faithful",
    "C66_empty"
   ],
   "note": "String of eventInfo values (a formatted text of event and path) is not modelled"
  },
  {
   "property": "C67",
   "status": "partial",
   "theorems": [
    "C67_name",
    "C67_distinct",
    "C67_surrogates_refuted",
    "C67_walk",
    "C67_events",
    "C67_overflow_refuted",
    "C67_terminates"
   ],
   "note": "proved for buffers as Windows lays them out; distinctness for well-formed UTF-16 names, it is false for lone surrogates (C67_surrogates_refuted); a completion with n = 0 (overflow) drops all changes silently (C67_overflow_refuted); termination on arbitrary bytes needs offsets that do not wrap around uint32"
  },
  {
   "property": "C68",
   "status": "partial",
   "theorems": [
    "C68_exact",
    "C68_nothing_else",
    "C68_delivered",
    "C68_created",
    "C68_moved_refuted"
   ],
   "note": "proved along orderly histories (SpecRec.v) in which streams can be started, for reports on entries of directories other than the root, without failure flags; which flags pass is decided by the heuristics of C44; a watch that replaces others starts again before the history marker, reports until then are lost (C68_moved_refuted)"
  },
  {
   "property": "C69",
   "status": "partial",
   "theorems": [
    "C69_history",
    "C69_own_reports",
    "C69_found",
    "C69_calls",
    "C69_quiet",
    "C69_rewatch",
    "C69_registry",
    "C69_hyps",
    "C69_late_refuted",
    "C69_torn_refuted",
    "C69_leak_refuted",
    "C69_release_refuted"
   ],
   "note": "all interleavings at the granularity of shared accesses, ids of streams do not wrap around, Close is the subject of C84; as stated the claim fails in four ways: a callback running during Unwatch sends after it has returned (C69_late_refuted), Rewatch changes set and kind in two stores (C69_torn_refuted), a stream that cannot be started leaves its function in the table (C69_leak_refuted), streams are never released (C69_release_refuted)"
  },
  {
   "property": "C70",
   "status": "partial",
   "theorems": [
    "C70_delivered",
    "C70_native",
    "C70_self",
    "C70_only"
   ],
   "note": "proved for histories in which no plain Watch was refused by the kernel, recursive watches could be set (as C57, C20) and no path passed to Watch before had led to a directory created later (C26_new_directory_refuted), on filesystems on which cleanpath is right (C15)"
  },
  {
   "property": "C71",
   "status": "partial",
   "theorems": [
    "C71_loop",
    "C71_exact",
    "C71_asked",
    "C71_rename_refuted"
   ],
   "note": "C71_exact: per record, generic and native events reach every channel exactly as often as registered (for modifications the native event as in C30: every registration on the way that asks for such a filter, recursive or not); C71_asked: the OS is asked for everything registered; C71_loop ties the per-record statement to the loop. Refuted: a registration for Rename alone opens no handle for the names of directories (C71_rename_refuted). Missing: disorderly histories of the tree (refuted in C32, C35) and of the watcher (refuted in C48), records of handles already closed."
  },
  {
   "property": "C72",
   "status": "partial",
   "theorems": [
    "C72_only_registered_partial",
    "C72_delivered_partial",
    "C72_delivered_self_partial",
    "C72_recursive_partial",
    "C72_created_partial",
    "C72_directory_gone_partial",
    "C72_merged_refuted",
    "C72_both_names_refuted"
   ],
   "note": "C72_only_registered_partial: whatever is reported about a file, exactly who is offered what; C72_delivered_partial / _self / _recursive: asked of the OS and delivered, for generic and native events; C72_created_partial: Creates from rescans; C72_directory_gone_partial. Refuted: the documentation's 'each of them is dispatched separately': a write and a removal merged into one report reach neither the channel that asked for Write nor the one that asked for Remove (C72_merged_refuted), nor does a single write if one channel asked for Write and another for the native event (C72_both_names_refuted). Missing: histories in which the OS refuses calls for other reasons or paths change their type, Stop after a watched path vanished (os_good), entries of the root directory (C29), what the tree does on its own with the events (C26, C27)."
  },
  {
   "property": "C73",
   "status": "partial",
   "theorems": [
    "C73_reported_partial",
    "C73_no_trace_partial",
    "C73_reported_refuted"
   ],
   "note": "C73_reported_partial / C73_no_trace_partial: for histories without recursive Watches. Refuted for recursive ones: C73_reported_refuted, Watch of \"/d/...\" returns nil although nothing is watched, because recFunc ignores the error, and a plain Watch of /d then returns nil, too. That newWatcher may hang instead when the OS gives no queue is C52_failed_start_refuted."
  },
  {
   "property": "C74",
   "status": "partial",
   "theorems": [
    "C74_only",
    "C74_exact",
    "C74_delivered",
    "C74_created"
   ],
   "note": "C74_only: who is offered a flag; C74_exact: how often; C74_delivered / C74_created: flags that pass for certain. Along histories as in C68, stated on the calls (SpecMacApi.orderly_call), on filesystems on which cleanpath is right (C15), for entries of directories other than the root, no Watch on the root. Missing: histories that are not orderly, refuted in C32 and C35; reports before the history marker of a replaced stream, refuted in C68."
  },
  {
   "property": "C75",
   "status": "partial",
   "theorems": [
    "C75_only_partial",
    "C75_delivered_partial",
    "C75_self_partial",
    "C75_created_partial",
    "C75_directory_gone_partial"
   ],
   "note": "C75_only_partial, C75_delivered_partial (plain and recursive Watches), C75_self_partial, C75_created_partial, C75_directory_gone_partial. Missing: what is missing in C72 (reports in which several requested things are merged are refuted there) and in C70 (refused plain Watches, directories created where a path passed to Watch before had led, filesystems on which cleanpath goes wrong)."
  },
  {
   "property": "C76",
   "status": "partial",
   "theorems": [
    "C76_linux",
    "C76_renames",
    "C76_macos",
    "C76_windows_refuted",
    "C76_trigger",
    "C76_kqueue_refuted",
    "C76_text"
   ],
   "note": "C76_linux, C76_renames, C76_macos, C76_text: as stated. C76_trigger: with kqueue and FEN an event carries the native report it was made of, except the events for what is below a renamed directory. Refuted: C76_kqueue_refuted (no event carries a *Kevent, a type the package does not declare; it is a syscall.Kevent_t, or nil below renamed directories), C76_windows_refuted (never nil: a number telling file from directory). The field Len of the record is always 0 on Linux."
  },
  {
   "property": "C77",
   "status": "partial",
   "theorems": [
    "C77_same",
    "C77_frees",
    "C77_names",
    "C77_race_refuted",
    "C77_twice_refuted",
    "C77_grows",
    "C77_leak_refuted",
    "C77_once_partial"
   ],
   "note": "C77_frees: in every execution only allocated memory is freed. C77_names: if no call comes between port_get and the reading of the name, the monitor reads allocated memory only and processes what was reported, in order, for the right files. C77_race_refuted: otherwise it reads freed memory, and a write to one file can be delivered as a write to another. C77_grows, C77_leak_refuted: every processed report of a file takes one more object that is never freed; after n writes and a successful Unwatch n objects remain. C77_once_partial: at most one report per change for plain files watched once at a time and calls outside event handling; missing directories, for which C77_twice_refuted shows one write delivered twice after a rescan. C77_same: over one association per name the functions of this model are those of Trigger.v."
  },
  {
   "property": "C78",
   "status": "partial",
   "theorems": [
    "C78_same_loop",
    "C78_terminates",
    "C78_path",
    "C78_error",
    "C78_located",
    "C78_link_refuted",
    "C78_link_relative",
    "C78_whole_only",
    "C78_volume",
    "C78_join"
   ],
   "note": "C78_path, C78_error: for every path text whose absolute path is not a symlink, cleanpath gives the absolute path and the suffix if the file exists and an error otherwise; C78_located: every text is covered; C78_same_loop: the loop of the Unix model is the same loop over other path functions; C78_terminates; C78_volume, C78_join: filepath.VolumeName and filepath.Join on the paths the library makes. The claim about symlinks is false: C78_link_refuted (an absolute target fails), C78_link_relative (a relative target registers a path that is not the file's), C78_whole_only (symlinks above the last component are never looked at), with instance C78_links_refuted, because canonical looks for '/' only."
  },
  {
   "property": "C79",
   "status": "partial",
   "theorems": [
    "C79_generic",
    "C79_names",
    "C79_modified",
    "C79_nothing_else",
    "C79_exact",
    "C79_asked",
    "C79_again_refuted",
    "C79_outcome",
    "C79_no_effect"
   ],
   "note": "C79_outcome, C79_no_effect: panics, vain calls and bad paths; C79_generic, C79_names, C79_modified, C79_nothing_else: what each channel is offered for a record, in terms of the calls; C79_exact: how often; C79_asked: every subscription is asked of the OS by an open handle. Refuted without the restriction to orderly executions of the watcher: C79_again_refuted (Watch, Stop and Watch of the same directory for other events: all succeed, but the OS is never asked for the new events). Missing: paths that are symlinks (C78), roots of volumes (C30), histories that are not orderly (C32), directories with an operation in progress; a native modification reaches whoever asked for any filter on the way (C30_windows_refuted)."
  },
  {
   "property": "C80",
   "status": "partial",
   "theorems": [
    "C80_lost",
    "C80_after_stop_partial",
    "C80_refuted"
   ],
   "note": "False of the code in general: C80_lost (every history: while somebody is still registered for the same events, a Watch of the removed and created directory returns nil, makes no call, and the kernel reports nothing of the new directory), with instance C80_refuted; this is the limitation documented in notify.go:5-8. Proved when the only channel registered at and above the directory is stopped in between: C80_after_stop_partial (the next nil Watch asks the kernel for the file that is there now)."
  },
  {
   "property": "C81",
   "status": "partial",
   "theorems": [
    "C81_missing",
    "C81_watch_partial",
    "C81_unwatch",
    "C81_socket_refuted"
   ],
   "note": "C81_missing; C81_unwatch: in full; C81_watch_partial: for every history and every answer of the OS, except that what kqueue cannot open is left out although the result is nil; the claim is false there: C81_socket_refuted (Watch of a unix socket on FreeBSD returns nil and nothing is watched). Hypothesis: the names in a directory listing are distinct and are not those of the directory itself."
  },
  {
   "property": "C82",
   "status": "partial",
   "theorems": [
    "C82_delivery",
    "C82_delivery_always",
    "C82_no_panic",
    "C82_nothing_changes",
    "C82_calls",
    "C82_still_registered",
    "C82_still_covered",
    "C82_rec_delivery",
    "C82_rec_nothing_changes",
    "C82_rec_no_panic",
    "C82_contract_refuted",
    "C82_then_watch_refuted"
   ],
   "note": "C82_delivery, C82_delivery_always, C82_nothing_changes, C82_no_panic and their _rec_ counterparts: in full, for histories with Stop(nil) at any number of places, on both trees (on Windows C82_rec_delivery is about reports other than of modifications; C82_rec_nothing_changes has no such restriction). C82_calls, C82_still_registered, C82_still_covered: Linux, BSD and illumos, one Stop(nil) after a history in which the watcher does what it is asked. The calls made violate the watcher's documented contract: C82_contract_refuted (the old set is given as empty). After a recursive Watch that failed, Stop(nil) makes the OS forget events the tree goes on counting, so that a later Watch returns nil and the OS is not asked for its events: C82_then_watch_refuted. The OS watches after Stop(nil) on macOS and Windows are not covered."
  },
  {
   "property": "C83",
   "status": "partial",
   "theorems": [
    "C83_no_handles",
    "C83_returns",
    "C83_silent",
    "C83_reset_refuted",
    "C83_watched_refuted",
    "C83_hang_refuted",
    "C83_concurrent_watch_refuted"
   ],
   "note": "C83_no_handles and C83_returns: after orderly histories (SpecReaddcw.v: the OS refuses nothing, and so on, as for C48), until the next Watch; that posting to the port succeeds is assumed in C83_returns. C83_silent: in every execution, no Watch being called while Close runs. The last sentence is false: C83_reset_refuted and C83_watched_refuted, for every directory in the table when Close returns, which after an orderly history is every directory that was to be watched; whatever happens later Watch returns nil for it and does nothing, Rewatch and Unwatch are refused, and nothing about it is ever reported. If closing a handle fails and posting fails too Close never returns: C83_hang_refuted. A Watch while Close runs leaves an open handle that is never served: C83_concurrent_watch_refuted. One Close at a time."
  },
  {
   "property": "C84",
   "status": "partial",
   "theorems": [
    "C84_released",
    "C84_returns",
    "C84_silent",
    "C84_late_refuted",
    "C84_dead_refuted",
    "C84_twice_refuted"
   ],
   "note": "C84_returns, C84_released: in full (a stream that could not be started leaves its function registered, as in C69_leak_refuted). C84_silent: if no callback is running when Close returns, or only one that has not yet loaded the set of a watch that Close has stopped. Otherwise false: a callback that has something left to send panics, because the channel is closed (C84_late_refuted, for every such state; instance C84_ex_late). After Close no call succeeds and a Watch whose stream can be started panics (the table is nil): C84_dead_refuted; a second Close panics: C84_twice_refuted. Close and other calls do not overlap (the code does not take the tree's lock in Close)."
  },
  {
   "property": "C85",
   "status": "partial",
   "theorems": [
    "C85_registered",
    "C85_only_closes",
    "C85_nil",
    "C85_errors",
    "C85_file",
    "C85_all_partial",
    "C85_removed_refuted",
    "C85_unreadable_refuted",
    "C85_pipe_refuted"
   ],
   "note": "C85_registered, C85_only_closes, C85_nil, C85_errors: in full, for every history, answer and order. C85_file: whatever fails elsewhere, a file watched by itself goes if the OS refuses nothing for it. C85_all_partial: nothing is left and Close returns nil after strictly orderly histories if whoever is watched as a member of a directory is still found in it. Otherwise false: a member that was removed before Close, and a directory that can no longer be read, stay in the table with their descriptors, in every such state and order (C85_removed_refuted, C85_unreadable_refuted; Close does report it); and closing a kqueue does not close its pipe (C85_pipe_refuted, two descriptors for each watcher). The lock and the wait for the monitor are C52; failing calls of Init are C88."
  },
  {
   "property": "C86",
   "status": "partial",
   "theorems": [
    "C86_same_unix",
    "C86_same_macos",
    "C86_order",
    "C86_split",
    "C86_forget",
    "C86_stop_again",
    "C86_again",
    "C86_again_silent",
    "C86_stop_silent",
    "C86_stop_idle_refuted",
    "C86_tree_again",
    "C86_tree_again_watches",
    "C86_tree_stop_idle",
    "C86_tree_stop_idle_watches",
    "C86_again_silent_macos",
    "C86_stop_idle_macos"
   ],
   "note": "Offers (C86_same_unix/_macos, C86_order, C86_split, C86_again, C86_forget, C86_stop_again): in full, on Linux, BSD and Solaris for histories in which the OS refused no plain Watch, on macOS for those in which it refused none and the tree did not panic. Watches of the OS: C86_again_silent (the whole state, and so the list of calls made to the OS, is unchanged, in any environment), C86_stop_silent (a Stop after a Stop), for the non-recursive tree. False without the Stop before it: C86_stop_idle_refuted, Stop with a channel never used can make the OS report more events for a file below a recursively watched directory. On macOS: C86_again_silent_macos, C86_stop_idle_macos, along histories as in C74; C86_tree_again, C86_tree_stop_idle for the recursive tree on macOS and Windows along orderly histories (C32), C86_tree_again_watches, C86_tree_stop_idle_watches after any successful Watches. Missing: the recursive tree after histories that are not orderly (see C32, C35); offers on Windows."
  },
  {
   "property": "C87",
   "status": "partial",
   "theorems": [
    "C87_rightful_partial",
    "C87_bounded_partial",
    "C87_returned_partial",
    "C87_asked_partial",
    "C87_again_partial",
    "C87_closed_partial",
    "C87_zero_refuted",
    "C87_intr_refuted"
   ],
   "note": "C87_rightful_partial, C87_bounded_partial, C87_returned_partial, C87_again_partial, C87_closed_partial: all of it, if a failing unix.Pipe leaves its slice as it is (or never fails) and close does not answer EINTR. Otherwise false: if a failing Pipe leaves zeros in the slice, each Watch that fails there closes descriptor 0 of the program (C87_zero_refuted, any number of times); after an EINTR from closing the pipe the number stays in the field and a later failing Watch closes whoever has it (C87_intr_refuted). Which of them unix.Pipe does is decided by golang.org/x/sys, whose text is not in /repo. Calls of Watch and Close do not overlap in this model; overlapping calls of lazyinit are C39."
  },
  {
   "property": "C88",
   "status": "partial",
   "theorems": [
    "C88_started",
    "C88_stub_partial",
    "C88_stdin_refuted",
    "C88_register_refuted",
    "C88_fen"
   ],
   "note": "C88_fen: in full for the event port. C88_started: the kqueue watcher starts exactly if everything is granted, with three descriptors of its own. C88_stub_partial: if there is no kqueue or no pipe to be had, watcherStub (whose answers are C73) and nothing left open, provided descriptor 0 is not open for writing. Otherwise false: newWatcher then calls Close, whose Stop writes to pipefds[1], still 0: if that is writable, for example a terminal, a zero byte goes to it and Close waits for ever for a monitor that was not started, before main (C88_stdin_refuted); the same, always, and with the pipe left open, if the pipe cannot be registered with the kqueue (C88_register_refuted)."
  },
  {
   "property": "C89",
   "status": "partial",
   "theorems": [
    "C89_exact",
    "C89_exact_always",
    "C89_watched",
    "C89_delivered",
    "C89_only",
    "C89_exact_recursive_partial",
    "C89_exact_modified",
    "C89_watched_recursive_partial",
    "C89_delivered_recursive_partial",
    "C89_only_recursive_partial",
    "C89_late_refuted"
   ],
   "note": "non-recursive tree: in full, for every schedule (C89_exact, C89_exact_always with failing Watch calls, C89_watched, C89_delivered, C89_only). Recursive tree: the same (suffix _recursive_partial) for reports other than native Windows reports of modifications, for which only the number of offers is given (C89_exact_modified; C30_windows_refuted shows why C89_only fails for them), paths other than the root, and runs without panics. An event reported before Stop is called may be lost (C89_late_refuted). Whether a channel has room for what it is offered is left to the receiver"
  },
  {
   "property": "C90",
   "status": "partial",
   "theorems": [
    "C90_read",
    "C90_once",
    "C90_only_batches",
    "C90_idle",
    "C90_sound",
    "C90_withdrawn",
    "C90_reported",
    "C90_delivered",
    "C90_delivered_native",
    "C90_progress",
    "C90_no_endless_work",
    "C90_order_refuted",
    "C90_late_refuted",
    "C90_early_refuted"
   ],
   "note": "in full for every schedule and split into batches, in histories in which no watched path changes its file while watched and no file is watched under two names (needed by C90_sound, C90_withdrawn, C90_reported, C90_delivered: see C38_hard_link_refuted). That events are passed on in the order in which things happened is false: C90_order_refuted (two consumers); an event may be sent after Unwatch returned (C90_late_refuted) and what happens before Watch returned may be lost (C90_early_refuted). Records the kernel drops when its queue overflows are not covered. The calls come one at a time, as the tree makes them; setting up and closing the instance are C39, C40 and C87"
  },
  {
   "property": "C91",
   "status": "partial",
   "theorems": [
    "C91_set",
    "C91_reported",
    "C91_delivered",
    "C91_delivered_self",
    "C91_below_set",
    "C91_below_reported",
    "C91_below_delivered",
    "C91_below_delivered_self",
    "C91_only"
   ],
   "note": "in full for every schedule: C91_set, C91_reported, C91_delivered for what happens to the watched path and to the entries of a watched directory; C91_below_* for every directory at or below a recursively watched one, present when Watch takes effect or created later. Restricted to histories in which no watched path changes its file while watched and no file is watched under two names (C38_hard_link_refuted), and in which the watcher calls of a recursive Watch, of Stop and of the directory goroutine do not fail (C20). For C91_below_*, a new directory comes into what ReadDir sees when its Create is processed, nobody having asked to watch it before, and goes when its Remove is processed (frun in SpecLinuxConc.v; C26, C38); what happens in a new directory before its Create is processed is not reported. What happens to a watched path in the root directory itself is excepted (C29_top_level_refuted). C91_ex is a run in which Stop of another channel holds the lock while the record is on its way, C91_below_ex one in which a directory is made and then a file in it"
  },
  {
   "property": "C92",
   "status": "partial",
   "theorems": [
    "C92_followed_partial",
    "C92_reported_partial",
    "C92_created_partial",
    "C92_gone_partial",
    "C92_watch",
    "C92_unwatch",
    "C92_own_partial",
    "C92_once",
    "C92_names",
    "C92_unknown",
    "C92_reused_refuted",
    "C92_rewatch_refuted"
   ],
   "note": "every schedule and every choice of descriptors. As long as what comes in between leaves the descriptor of the path open (spares in KqMon.v: it is closed by Unwatch and Rewatch of the path or of a directory it is listed in, by its own removal or renaming, by the renaming of a directory above it, or when the OS refuses to register it again) the report is never lost and is processed as one of the path (C92_followed_partial), for a file it is sent as the event asked for (C92_reported_partial; for directories see C50, C58, C61), something new in a directory watched for Create gets a Create if nobody but the processing of the directory opens a descriptor for it (C92_created_partial), and the removal or renaming of a file or directory is reported before the path is given up, if none was waiting before (C92_gone_partial), and Watch calls and Unwatch calls elsewhere leave it alone (C92_watch, C92_unwatch). In general both halves are false: C92_rewatch_refuted (a Watch that widens the request closes and opens the descriptor again, and a pending write is lost), C92_reused_refuted (the descriptor of an unwatched path is reused before the report is looked up: the event appears under the new path). C92_own_partial: only so. Nothing is processed twice (C92_once). Assumed of the kernel: kevent with EV_ADD on a registered descriptor keeps what is pending, EV_DELETE and close drop it"
  },
  {
   "property": "C93",
   "status": "partial",
   "theorems": [
    "C93_delivered_partial",
    "C93_below_partial",
    "C93_created_partial",
    "C93_created_below_partial",
    "C93_gone_partial",
    "C93_gone_below_partial",
    "C93_gone_dir_partial",
    "C93_only",
    "C93_rewatch_refuted",
    "C93_created_refuted"
   ],
   "note": "every schedule of callers, monitor, dispatcher, goroutines of events and the goroutine for directory events, every choice of descriptors. C93_delivered_partial: for a watched file and for a file listed in a watched directory; C93_below_partial: for a file listed in any directory that is below a recursive watch when it has its effect (bfrun: the tree sees a filesystem with these directories); C93_created_partial, C93_created_below_partial: a Create for what appears in the watched directory, or in a directory below a recursive watch, if the watcher does not know it yet, the listings from the OS's report on show it, and nobody but the processing of that directory opens a descriptor for it (leaves_out in KqCreate.v); C93_gone_partial, C93_gone_below_partial, C93_gone_dir_partial: the removal or renaming of the watched file, of a file listed in the watched directory or in a directory below a recursive watch, and of the watched directory (gives_up in KqGone.v), the first since the descriptor was opened; what is missing: files in directories that come after the Watch, and events merged with ones the channel did not ask for (false there: C72_merged_refuted, hence the hypothesis that what is sent for the file has nothing else). Its other hypotheses: the watcher's calls before the Watch were usual ones (kdrives of C72), what comes later leaves the descriptor of the file open (spares of C92), the events sent have an event known to the tree and a clean path (sound). C93_only: nothing is made up, up to reused descriptors (C92_reused_refuted). Without the hypothesis on descriptors the property is false: C93_rewatch_refuted, a second channel's Watch on the same file loses the first channel's event that waits in the kernel, though both calls return nil and nobody calls Stop. For the creation of files the hypothesis on descriptors is not enough: C93_created_refuted, a Watch of another channel on the new file itself, made before the monitor gets to the note for the watched directory, takes the Create away from the channel that watches the directory."
  },
  {
   "property": "C94",
   "status": "partial",
   "theorems": [
    "C94_no_panic_partial",
    "C94_nothing_after",
    "C94_all_received",
    "C94_dispatcher_ends",
    "C94_failed_stop_refuted",
    "C94_inotify_no_panic_partial",
    "C94_inotify_nothing_after",
    "C94_inotify_all_received",
    "C94_inotify_dispatcher_ends"
   ],
   "note": "one Close of the tree. C94_no_panic_partial, C94_nothing_after: kqueue and FEN, if Stop of the trigger succeeds; false otherwise: C94_failed_stop_refuted, the watcher's Close returns the error with its monitor running, the tree closes the channel all the same and the next event panics. C94_all_received, C94_dispatcher_ends: with and without that failure. C94_inotify_*: the same on Linux under the assumptions of C40 (the watcher was started, no Watch during or after Close, the write to the pipe succeeds). That the watcher's Close returns at all is C40 and C52 (refuted for kqueue and FEN when a file event meets it). The goroutine for directory events is not part of the model: nobody closes its channel."
  },
  {
   "property": "C95",
   "status": "partial",
   "theorems": [
    "C95_no_panic_partial",
    "C95_nothing_after",
    "C95_all_received",
    "C95_dispatcher_ends",
    "C95_failed_post_refuted",
    "C95_watch_after_refuted"
   ],
   "note": "one Close of the tree. C95_no_panic_partial: if posting to the completion port succeeds and Watch is not called after the watcher's Close was; closing handles may fail. False otherwise: C95_failed_post_refuted (the watcher's Close returns the error with its loop running, the tree closes the channel all the same, and a completion that was waiting is sent on it) and C95_watch_after_refuted. C95_nothing_after, C95_all_received, C95_dispatcher_ends: in every execution. That the watcher's Close returns is C83. What one completion makes the loop send is sent in one step; the capacity of the channel is left out."
  }
 ]
}
{
 "claims": [
  {
   "property": "C01",
   "status": "partial",
   "theorems": [
    "C01_write_excludes_all",
    "C01_write_not_recursive",
    "C01_reader_gets_mutex",
    "C01_one_upgradable",
    "C01_asserts_hold",
    "C01_one_upgradable_refuted",
    "C01_downgrade_refuted",
    "C01_asserts_refuted"
   ],
   "note": "Mutual exclusion of writers against everyone proved for all interleavings, relocks, timeouts and crashes. At most one upgradable reader is proved for locks whose callers follow good_policy (every lock but the module data lock); for mixed WRITE_URGE use it is refuted (C01_one_upgradable_refuted), as are the unsynchronised downgrade and the asserts. Hence partial: the second half of the claim is false for module data locks."
  },
  {
   "property": "C02",
   "status": "partial",
   "theorems": [
    "C02_blocked_only_by_living",
    "C02_timeout_only_by_living",
    "C02_granted_alone",
    "C02_upgrade_granted",
    "C02_crash_in_table_refuted",
    "C02_table_stores"
   ],
   "note": "Proved for crashes at every point between the critical sections and inside the lock/upgrade/recovery sections; a crash in the middle of removing a reader-table entry can lose a live reader: refuted by C02_crash_in_table_refuted."
  },
  {
   "property": "C03",
   "status": "partial",
   "theorems": [
    "C03_no_trace",
    "C03_all_released_initial",
    "C03_no_trace_overflow_refuted"
   ],
   "note": "For all histories in which the reader table did not overflow; the overflow case of READ_UPGR is refuted by C03_no_trace_overflow_refuted. Hence partial."
  },
  {
   "property": "C04",
   "status": "partial",
   "theorems": [
    "C04_one_round_partial",
    "C04_changes_and_reads_partial",
    "C04_second_round_refuted",
    "C04_mixed_refuted",
    "C04_no_inverse_refuted"
   ],
   "note": "Deadlock freedom for operations that lock modules in one ordered round (every change of data, every read, any number of clients), given that nobody holds module locks when starting. The full claim is false of the code: three refuted theorems exhibit deadlocks (second consolidation round against sr_lock, four mixed clients, instance-identifier dependencies without inverse dependencies); they end only by the lock timeout."
  },
  {
   "property": "C05",
   "status": "partial",
   "theorems": [
    "C05_exclusive",
    "C05_owner_kept",
    "C05_dead_owner",
    "C05_get_lock",
    "C05_after_failed_unlock_refuted"
   ],
   "note": "For every sequence of sr_lock, sr_unlock, changes, crashes and recoveries by any sessions. The refuted theorem records the case of a failed sr_unlock, after which the lock may be stolen. Hence partial: after such a failure the claim is false."
  },
  {
   "property": "C06",
   "status": "partial",
   "theorems": [
    "C06_lock_all_or_nothing",
    "C06_unlock_sid_restored_partial",
    "C06_success_all",
    "C06_unlock_connection_refuted",
    "C06_unlock_time_refuted",
    "C06_candidate_reset_refuted",
    "C06_reverse_mutex_refuted"
   ],
   "note": "sr_lock is proved all or nothing. sr_unlock is proved to restore only the session id of already unlocked modules when it fails, the refuted theorems show that connection id and time are lost and that candidate data may be reset although the lock failed."
  },
  {
   "property": "C07",
   "status": "proved",
   "theorems": [
    "C07_no_shared_byte",
    "C07_add_keeps_bytes",
    "C07_realloc_keeps_bytes",
    "C07_del_keeps_bytes"
   ],
   "note": "Byte-exact model of the allocator (sr_ext_hole_*, sr_shmrealloc*, remap) and of all five kinds of subscription tables on top of it; unbounded histories over any number of tables. Segment under 2 GiB."
  },
  {
   "property": "C08",
   "status": "proved",
   "theorems": [
    "C08_every_byte_accounted",
    "C08_size_exact",
    "C08_all_removed",
    "C08_holes_reused"
   ],
   "note": "Exact accounting of every byte; one hole after everything was removed and truncation to the initial size on unlock."
  },
  {
   "property": "C09",
   "status": "proved",
   "theorems": [
    "C09_tables_are_lists",
    "C09_other_tables_unchanged",
    "C09_add_exact",
    "C09_del_exact",
    "C09_oper_add_exact",
    "C09_oper_del_exact",
    "C09_oper_sorted",
    "C09_oper_add_after_crash_refuted"
   ],
   "note": "Refinement of the shared-memory tables by lists for unbounded histories. The refuted statements record two defects (modify NULL to NULL xpath; crash between the two allocations of sr_shmext_oper_get_sub_add). Conflict checks of UPDATE/DIFF subscriptions and the sub SHM files are not modelled."
  },
  {
   "property": "C10",
   "status": "partial",
   "theorems": [
    "C10_priority_order",
    "C10_at_most_once",
    "C10_everybody_accepted",
    "C10_stops_at_refusal",
    "C10_refused_by_somebody",
    "C10_priority_max_refuted"
   ],
   "note": "Notification of change subscribers: nonincreasing priorities, each called to completion at most once, everybody called when accepted, and nobody called after a refusal, for any number of modules and subscribers. The behaviour of listeners within one event is assumed as in ChangeSpec (proved about the listener model in Prop_ChangeEv). Priority UINT32_MAX is refuted (C10_priority_max_refuted). Hence partial."
  },
  {
   "property": "C11",
   "status": "partial",
   "theorems": [
    "C11_stored_only_if_approved",
    "C11_refused_unchanged",
    "C11_approved_applied",
    "C11_error_means_unchanged_refuted",
    "C11_atomic_refuted"
   ],
   "note": "Stored only if everybody approved, before anything is stored; nothing is stored if anybody refuses; everything is stored if all approve and nothing else fails. The converse (error implies unchanged) and atomicity over modules are refuted: C11_error_means_unchanged_refuted, C11_atomic_refuted. Steps other than notifications are abstract outcomes."
  },
  {
   "property": "C12",
   "status": "partial",
   "theorems": [
    "C12_failed_change_not_aborted_refuted",
    "C12_abort_exactly_acceptors_partial",
    "C12_refuser_died_refuted",
    "C12_published_abort_only_accepted",
    "C12_single_abort_refuted",
    "C12_abort_complete_refuted",
    "C12_generated_abort_accepted_refuted"
   ],
   "note": "When a refused change is aborted, exactly the acceptors get an abort event provided the subscribers stay alive (C12_abort_exactly_acceptors_partial) and no listener fails meanwhile; four counterexamples are proved: dying refuser, failed change sent without a refusal, double abort and never aborted acceptor."
  },
  {
   "property": "C13",
   "status": "partial",
   "theorems": [
    "C13_done_to_everybody",
    "C13_done_only_after_store"
   ],
   "note": "A successful call gives each matching subscriber exactly one done event, and no done event precedes the stores. Without the success hypothesis it is false: C11_error_means_unchanged_refuted also shows stored data with no done event. Timely listeners are a hypothesis."
  },
  {
   "property": "C14",
   "status": "partial",
   "theorems": [
    "C14_all_processed",
    "C14_only_own_events",
    "C14_at_most_once_partial",
    "C14_at_most_once_refuted",
    "C14_all_processed_while_suspending_refuted"
   ],
   "note": "One event record with its originator and any number of listening processes, any interleaving, crashes, timeouts and lock failures. At most once holds unless locking fails after a timeout (refuted then). While a subscription is just being suspended or resumed the property does not hold (refuted). Hence partial."
  },
  {
   "property": "C15",
   "status": "partial",
   "theorems": [
    "C15_meaning",
    "C15_applied",
    "C15_no_assert",
    "C15_explicit_refuted"
   ],
   "note": "For every data tree and every edit tree (any depth, width, mix of operations): if it is applied, the value at every path is that of an independent definition of the operations; an edit with a meaning is applied (proved without before/after anchors, which may be missing); no assert fails. C15_explicit_refuted: replace of a default leaf by an equal explicit value leaves it default. Creating under a missing ether/remove parent is modelled as an error (with empty data the code would insert the node at the top level)."
  },
  {
   "property": "C16",
   "status": "proved",
   "theorems": [
    "C16_conflict_fails"
   ],
   "note": "A conflicting create/delete/none anywhere in the edit tree, with anything else in the edit, ends in an error; not hidden by other operations."
  },
  {
   "property": "C17",
   "status": "partial",
   "theorems": [
    "C17_diff_exact",
    "C17_empty_unchanged",
    "C17_unchanged_empty_partial",
    "C17_unchanged_empty_refuted"
   ],
   "note": "The diff applied to the old data (checking previous values, default flags and places) is exactly the new data; empty diff iff unchanged without user-ordered lists. C17_unchanged_empty_refuted: with user-ordered lists, moves that restore the order are reported."
  },
  {
   "property": "C18",
   "status": "proved",
   "theorems": [
    "C18_placed",
    "C18_replaced",
    "C18_place"
   ],
   "note": "At every place of the edit outside of replaced or deleted data the order is the one after the requested puts/removals one after another, all anchors exist; in replaced data it is the order of the edit. C18_place: the place of the instance and the order of the others."
  },
  {
   "property": "C19",
   "status": "partial",
   "theorems": [
    "C19_decision",
    "C19_groups",
    "C19_operation",
    "C19_name_refuted",
    "C19_quote_refuted",
    "C19_slash_refuted",
    "C19_key_refuted",
    "C19_star_refuted",
    "C19_nested_refuted"
   ],
   "note": "Decision, groups and operations equal an independent RFC 8341 specification for every configuration, user and node, supposing sorted groups with \"*\" first and plain names and values. Outside of it: a rule for \"cont\" matches \"container\", apostrophes or \"/\" and \"[\" in key values lead to reading after the end, a subset of keys does not match, \"*\" is missed after a group sorting before it, nested notifications are never targets of rules with a path (all refuted)."
  },
  {
   "property": "C20",
   "status": "partial",
   "theorems": [
    "C20_returned",
    "C20_not_lost",
    "C20_subtree",
    "C20_subtree_not_lost",
    "C20_items_refuted",
    "C20_module_refuted",
    "C20_key_refuted"
   ],
   "note": "Returned nodes may be read, lead to those that may be, or are keys; nodes that may be read are returned unless below a node refused by default-deny-all; for whole data and for subtrees with parents, all nodes being of one module. Refuted: sr_get_item(s) of nodes that are not top-level, children of other modules, keys asked for explicitly."
  },
  {
   "property": "C21",
   "status": "partial",
   "theorems": [
    "C21_accepted_partial",
    "C21_refused",
    "C21_partial_refuted",
    "C21_move_refuted"
   ],
   "note": "Accepted changes change only nodes that may be changed or below which a rule permits the operation, if children of changed nodes are changed in the same way; a refused change has a refused node. Refuted in general: nodes with something permitted below are changed, children of a moved entry are not checked."
  },
  {
   "property": "C22",
   "status": "partial",
   "theorems": [
    "C22_replayed_partial",
    "C22_stored",
    "C22_written",
    "C22_zero_refuted",
    "C22_clock_refuted",
    "C22_concurrent_refuted",
    "C22_interrupted_refuted",
    "C22_died_refuted"
   ],
   "note": "After any history of stores (any sizes, any splitting into files, any order of readdir, any partial writev) with non-decreasing times: the replay has exactly one run, giving the notifications in [start, min(stop, subscription)) matching the filter in order (start seconds > 0). Storing succeeds unless > 1 MiB falls in one second. Refuted: start of 0 seconds replays only the latest file; clock set back; storing during a replay duplicates; EINTR or a short write of the first vector is an assertion failure; a torn record after a death corrupts later ones."
  },
  {
   "property": "C23",
   "status": "partial",
   "theorems": [
    "C23_stopped",
    "C23_once",
    "C23_order_partial",
    "C23_goes_on_partial",
    "C23_context",
    "C23_timeout_refuted",
    "C23_failed_refuted",
    "C23_order_refuted",
    "C23_full_refuted"
   ],
   "note": "All interleavings of any number of senders, the buffering thread, spurious wakeups, failures and stopping: if stopping succeeded everything accepted was written exactly once; always at most once, never if refused, in order of sending when written by the thread; the thread can always drain the buffer until it fails; the context lock is balanced and the assertion holds. Refuted: the thread's lock timeout is absolute and computed once, so a contended mutex later than 500 ms after the start ends it and later accepted notifications are lost; one failed write loses the later ones; during stopping a direct write overtakes buffered ones; more than 1 MiB in one second is not stored."
  },
  {
   "property": "C24",
   "status": "partial",
   "theorems": [
    "C24_push_get_roundtrip",
    "C24_originator_transport",
    "C24_error_transport",
    "C24_push_total_refuted"
   ],
   "note": "Byte-level round trips of push/get, of the originator part of an event and of the error list; the 2^32 size limit is explicit and shown necessary by the refuted theorem. Hence partial: sizes whose sum exceeds 32 bits are lost."
  },
  {
   "property": "C25",
   "status": "partial",
   "theorems": [
    "C25_add_exact",
    "C25_add_null_exact",
    "C25_add_exact_refuted",
    "C25_cmp_exact",
    "C25_sub_exact",
    "C25_sub_ms_exact",
    "C25_remaining",
    "C25_sub_ms_exact_refuted"
   ],
   "note": "Exact for all normalised times; the 32-bit overflow near UINT32_MAX and the int overflow are shown by the refuted theorems. Hence partial: those timeouts are computed wrongly."
  },
  {
   "property": "C26",
   "status": "partial",
   "theorems": [
    "C26_given",
    "C26_recovered",
    "C26_finishes",
    "C26_finishes_refuted",
    "C26_cursor",
    "C26_walk",
    "C26_node_name",
    "C26_node_name_refuted",
    "C26_node_rel_refuted",
    "C26_current_refuted",
    "C26_position_refuted"
   ],
   "note": "For all paths and all sequences of calls of the 13 helpers results are those of a cursor over the path (C26_cursor, C26_walk) and the string is always got back without leaving its memory, for any string (C26_recovered). Refuted for failed searches (C26_node_rel_refuted, C26_current_refuted), positions (C26_position_refuted, C26_finishes_refuted: endless loop) and sr_xpath_node_name of one node."
  },
  {
   "property": "C27",
   "status": "partial",
   "theorems": [
    "C27_died_partial",
    "C27_stored",
    "C27_loaded",
    "C27_history_partial",
    "C27_died_refuted",
    "C27_backup_refuted",
    "C27_failed_refuted",
    "C27_boot_refuted",
    "C27_reinstall_refuted",
    "C27_access_refuted"
   ],
   "note": "Proved for every content, every death between two system calls and every sequence of failing or dying loads, except for a death while the backup is being made, where the property is false (C27_died_refuted: old data are overwritten by an incomplete backup). Over histories of changes the data are those of the last change done. Also false after a failed write (C27_failed_refuted), a failed chmod of the backup (C27_backup_refuted), at boot (C27_boot_refuted), after reinstallation (C27_reinstall_refuted) and with a failing access(2) (C27_access_refuted). Power failures and concurrent loads are not modelled."
  },
  {
   "property": "C28",
   "status": "partial",
   "theorems": [
    "C28_served_partial",
    "C28_coherent_partial",
    "C28_asserts_partial",
    "C28_died_refuted",
    "C28_failed_refuted",
    "C28_startup_refuted",
    "C28_twice_refuted",
    "C28_content_refuted",
    "C28_version_refuted",
    "C28_version_assert_refuted",
    "C28_wrap_refuted"
   ],
   "note": "Proved for every interleaving of threads of any number of connections (stores, reads, deaths, context changes, failed operations): what is served is what is stored, provided the module was stored fewer than 2^32-1 times, no set of modules was installed twice, nothing went wrong with the module since its last store and its plugin has no data versions of its own; the asserts of the cache code hold too. Each condition is needed: C28_wrap_refuted (bound exact), C28_content_refuted (install and remove a module: the content id repeats), C28_died_refuted and C28_failed_refuted (data stored, id not changed), C28_startup_refuted (running disabled, startup written), C28_twice_refuted (two threads add the module twice, second load fails), C28_version_refuted, C28_version_assert_refuted (data_version callback)."
  },
  {
   "property": "C29",
   "status": "partial",
   "theorems": [
    "C29_order",
    "C29_once",
    "C29_reply",
    "C29_stops",
    "C29_acceptors",
    "C29_aborted",
    "C29_told_partial",
    "C29_concurrent_refuted",
    "C29_abort_once_refuted",
    "C29_context_refuted",
    "C29_priority_refuted",
    "C29_died_refuted",
    "C29_failed_refuted",
    "C29_suspended_refuted",
    "C29_lock_refuted"
   ],
   "note": "Proved for any number of clients, contexts, subscriptions, deaths, timeouts and shelved callbacks of one RPC: callbacks are called by descending priority and once (C29_order, C29_once); an output is that of the callback called last, which has the lowest priority of all present, all present accepted and nobody is ever told to abort (C29_reply); after a failure nobody below is called (C29_stops); only acceptors get the abort event (C29_acceptors); all acceptors with higher priority get it before the client gets the error or do not process it in time (C29_aborted); with one subscription per context also the one that accepted too late (C29_told_partial). Refuted in the code as it is: another client calling the RPC in the window before aborts (C29_concurrent_refuted), a second abort after a slow abort callback (C29_abort_once_refuted), abort delivered to another subscription of the context (C29_context_refuted), priority UINT32_MAX (C29_priority_refuted), subscriber dying in a window crashes the client (C29_died_refuted), other failures send no abort (C29_failed_refuted), suspended acceptor (C29_suspended_refuted), callback called twice after a lock failure (C29_lock_refuted). Not modelled: internal factory-reset subscription, death inside locked sections, subscribing during a call."
  },
  {
   "property": "C30",
   "status": "proved",
   "theorems": [
    "C30_dead_exact",
    "C30_oper_dead_exact",
    "C30_unsubscribe_exact",
    "C30_dead_other_tables"
   ],
   "note": "Removal of dead subscriptions, when a subscription is added, and unsubscribing are exact in all tables after every history; other tables stay. sr_shmext_recover_sub_all only runs on an emptied module memory (see DESIGN.md). Event pipe files are not modelled."
  },
  {
   "property": "C31",
   "status": "partial",
   "theorems": [
    "C31_layers",
    "C31_succeed",
    "C31_others_alone",
    "C31_removed",
    "C31_highest_wins",
    "C31_order_raised_refuted",
    "C31_order_raised_last_refuted",
    "C31_order_raised_read_refuted",
    "C31_order_used_refuted",
    "C31_order_wraps_refuted",
    "C31_dead_twice_refuted",
    "C31_dead_race_refuted",
    "C31_discard_applies_refuted",
    "C31_stop_pending_refuted",
    "C31_other_module_refuted",
    "C31_stop_refused_refuted",
    "C31_stopped_order_refuted",
    "C31_dead_order_refuted",
    "C31_crash_adding_refuted",
    "C31_discard_permission_refuted"
   ],
   "note": "C31_layers: every history of pushes, discards, order changes, stops and crashes that keeps to the rules in OperPushStep.proper refines the layered specification; C31_succeed, C31_others_alone, C31_removed and C31_highest_wins say what is read. Partial since the rules exclude cases refuted in the model: raising of an order (entries lost, memory behind the array), an order that is used (EXT lock kept), wrap of orders, restart after a dead connection with predicates, race of that restart, discard or stop with a pending edit, refused stop, crash before an entry is filled, missing permission check. One module, data as path-value pairs with discard-items."
  },
  {
   "property": "C32",
   "status": "proved",
   "theorems": [
    "C32_validated_with_data",
    "C32_nothing_else",
    "C32_once"
   ],
   "note": "For every dependency graph, also cyclic."
  },
  {
   "property": "C33",
   "status": "proved",
   "theorems": [
    "C33_all_released",
    "C33_failed_lock_same",
    "C33_success_locks_all",
    "C33_relock_back_refuted"
   ],
   "note": "For every set of modules and failing position. The refuted theorem records wrong flags after failing to lock back for reading."
  },
  {
   "property": "C34",
   "status": "proved",
   "theorems": [
    "C34_pending",
    "C34_apply",
    "C34_failed_add_refuted"
   ],
   "note": "Pending changes after any history of adding, batch editing, applying and discarding equal those since the last successful apply or discard of that datastore. Contents of the edits are abstract. C34_failed_add_refuted records that an addition that fails may itself change or discard the pending edit; the property does not promise otherwise."
  },
  {
   "property": "C35",
   "status": "proved",
   "theorems": [
    "C35_module_order"
   ],
   "note": "Module priorities are respected by change and done events for all numbers of modules and subscribers. As in C10, subscription priority UINT32_MAX is excluded (such subscribers are never called)."
  },
  {
   "property": "C36",
   "status": "partial",
   "theorems": [
    "C36_order",
    "C36_order_refuted",
    "C36_groups",
    "C36_list_groups",
    "C36_target",
    "C36_target_refuted"
   ],
   "note": "Order of rule lists and rules, members of groups, sorted groups of a rule list and targets are proved for all sequences of changes; previous instances are found by comparing beginnings of names (C36_order_refuted) and a deleted target leaf resets a target set before it (C36_target_refuted)."
  },
  {
   "property": "C37",
   "status": "partial",
   "theorems": [
    "C37_died",
    "C37_stored",
    "C37_loaded",
    "C37_works",
    "C37_attempts",
    "C37_ends_refuted",
    "C37_mixed_refuted",
    "C37_removed_refuted"
   ],
   "note": "Startup data are not affected; a load gives data of a valid complete text, the running one or the startup one, and always ends when the startup data are valid. False: a half overwritten file can be the text of other data (C37_mixed_refuted), with startup data not valid the load never ends (C37_ends_refuted), other datastores give an error after the removal (C37_removed_refuted)."
  },
  {
   "property": "C38",
   "status": "partial",
   "theorems": [
    "C38_together_partial",
    "C38_sets_together",
    "C38_deletes_together",
    "C38_call_refused",
    "C38_set_then_delete_refuted",
    "C38_delete_then_set_inside_refuted",
    "C38_delete_lost_refuted",
    "C38_delete_creates_refuted",
    "C38_delete_fails_refuted",
    "C38_set_again_fails_refuted",
    "C38_check_lost_refuted",
    "C38_move_ignored_refuted"
   ],
   "note": "sr_set_item_str / sr_delete_item / sr_move_item as they build the stored edit. Proved for any number of calls on any data: plain sets and plain deletions always prepare, apply and give exactly the result of the calls one by one; mixed calls do so whenever they do not overlap (EditAddSpec.clear says exactly when). Refuted for overlapping calls: set then delete, delete then set inside, deletions below an item set before, lost checks of parents, ignored moves (F97-F104). Not modelled: purge of all list instances, keyless lists, isolated edits, origins."
  },
  {
   "property": "C39",
   "status": "partial",
   "theorems": [
    "C39_replay",
    "C39_default_flags_partial",
    "C39_selected",
    "C39_enabled",
    "C39_silent",
    "C39_in_callback",
    "C39_duplicated_refuted",
    "C39_default_flag_refuted"
   ],
   "note": "Any edit, data, schema and selection; playing the reported changes to an independent copy gives exactly the data after, every reported change makes sense and changes something. With default flags proved unless only the flag of a leaf changed. Refuted: duplicated iterators used after the callback read freed memory (F105), changes of only the default flag are not reported (F106). Not modelled: opaque nodes, keyless lists, anydata, oper-data positions, dup-leaf-list positions, XPath evaluation itself (any selection)."
  },
  {
   "property": "C40",
   "status": "partial",
   "theorems": [
    "C40_asked_partial",
    "C40_all",
    "C40_defined_partial",
    "C40_only_needed",
    "C40_other_instances",
    "C40_parent_partial",
    "C40_filter_refuted",
    "C40_or_refuted",
    "C40_names_refuted",
    "C40_relative_refuted",
    "C40_dots_refuted",
    "C40_descendants_refuted",
    "C40_union_refuted",
    "C40_parent_refuted"
   ],
   "note": "Proved for unions of simple XPaths (absolute, named or any nodes, predicates comparing a child with a literal, optional final //.): every subscriber whose data overlap is asked (C40_asked_partial, if names of leaves in predicates are told apart), the decision is defined (C40_defined_partial), without predicates exactly the needed ones are asked (C40_only_needed), other instances are not (C40_other_instances), and the parent is right if the last literal has no '[' (C40_parent_partial). Refuted: filters on data of other subscribers, alternatives, leaf names differing in the first character, relative XPaths, '.' and '..', inner //., unions with an unknown part, parents cut inside literals. Other XPath functions and operators are modelled but no theorem covers them."
  },
  {
   "property": "C41",
   "status": "partial",
   "theorems": [
    "C41_layers_partial",
    "C41_untouched",
    "C41_provided_partial",
    "C41_no_silent_error_partial",
    "C41_part_partial",
    "C41_order_refuted",
    "C41_prefix_refuted",
    "C41_dead_refuted"
   ],
   "note": "Proved for subscriptions of which, pairwise, one XPath is written as an extension of the other or they are about different nodes; refuted for others (order by length of text: C41_order_refuted, C41_prefix_refuted) and for crashed or suspended subscribers (C41_dead_refuted). Polling caches, origins and get options are not modelled; callbacks are taken to return only nodes they are subscribed for."
  },
  {
   "property": "C42",
   "status": "partial",
   "theorems": [
    "C42_reported_partial",
    "C42_all_said",
    "C42_no_failure",
    "C42_refused",
    "C42_netconf",
    "C42_dup_partial",
    "C42_stale_refuted",
    "C42_enabled_refuted",
    "C42_enabled_netconf_refuted",
    "C42_dup_refuted",
    "C42_empty_format_refuted",
    "C42_no_format_refuted"
   ],
   "note": "Proved for callbacks of one listener, errors with a non-empty format (or none, then without data) and sizes below 2^32. Refuted: errors set by an earlier callback that did not fail are reported as the reason of a later failure (C42_stale_refuted), errors of enabled events are lost (C42_enabled_refuted, C42_enabled_netconf_refuted), copying keeps the old errors of the target (C42_dup_refuted), an empty format (C42_empty_format_refuted), reading an error without format (C42_no_format_refuted). Merging of errors of several operational subscribers and of aborted events, and allocation failures, are not modelled."
  },
  {
   "property": "C43",
   "status": "partial",
   "theorems": [
    "C43_immediate_partial",
    "C43_dampened_partial",
    "C43_once_partial",
    "C43_appending",
    "C43_identifiers",
    "C43_spacing",
    "C43_sent_partial",
    "C43_silence",
    "C43_sent_refuted",
    "C43_nested_delete_refuted",
    "C43_point_refuted",
    "C43_created_order_refuted",
    "C43_merged_refuted",
    "C43_apostrophe_refuted"
   ],
   "note": "A tolerant receiver (which ignores deletions of what is not there and reads only the last predicate of a point) follows all histories without dampening, and with dampening if no node is changed while another change of it waits; identifiers, spacing, exclusions and sending before the timer was used once are proved. Refuted: strict receivers (nested deletions, points), order of user-ordered instances created with their parent, changes of a node changed again while dampened, keys with apostrophes, and sending after the timer was used once. Periodic subscriptions, access control (C44) and several modules are not modelled."
  },
  {
   "property": "C44",
   "status": "partial",
   "theorems": [
    "C44_target_partial",
    "C44_value_partial",
    "C44_not_lost_partial",
    "C44_unbroken_partial",
    "C44_no_user",
    "C44_value_refuted",
    "C44_unbroken_refuted",
    "C44_parents_refuted",
    "C44_recovery_refuted",
    "C44_disabled_refuted"
   ],
   "note": "Target: told iff the node itself may be read. Values: proved for created top-level nodes; unbroken if all children may be read. Refuted: nested nodes are checked by a path without parents (leak), a refused child frees the value which is then printed, parents are not checked, changes are hidden from the recovery user and when access control is disabled."
  },
  {
   "property": "C45",
   "status": "partial",
   "theorems": [
    "C45_replaying_partial",
    "C45_completed_partial",
    "C45_live",
    "C45_module",
    "C45_terminated",
    "C45_stop_partial",
    "C45_suspended_partial",
    "C45_access_refuted",
    "C45_once_refuted",
    "C45_suspended_refuted",
    "C45_no_modules_refuted",
    "C45_order_refuted"
   ],
   "note": "Exactly what is received at any time, for histories without failing reads of stored notifications. Refuted: replayed notifications are not checked by access control, a failed replay starts again, replays are sent while suspended, no replay-completed without modules, replays of several modules are not ordered by time."
  },
  {
   "property": "C46",
   "status": "partial",
   "theorems": [
    "C46_intact_partial",
    "C46_all_partial",
    "C46_progress_partial",
    "C46_long_refuted",
    "C46_mixed_refuted"
   ],
   "note": "Proved for notifications that are written at once (PIPE_BUF), any writers and interleavings. Refuted for longer ones: a short read breaks the stream, writers mix."
  },
  {
   "property": "C47",
   "status": "partial",
   "theorems": [
    "C47_selected_partial",
    "C47_nonempty",
    "C47_wildcard_partial",
    "C47_literal_partial",
    "C47_literal_both",
    "C47_literal_refuted",
    "C47_top_content_refuted",
    "C47_opaque_content_refuted",
    "C47_default_namespace_refuted",
    "C47_unknown_namespace_refuted",
    "C47_leaf_list_refuted"
   ],
   "note": "C47_selected_partial: exact for filters of any shape with namespaces of implemented modules and no content match node at the top level, on any data without leaf-lists. C47_nonempty: a filter never becomes no filter. C47_wildcard_partial: top-level selection nodes without a namespace. C47_literal_partial/_both: values are read back as they are unless they have both kinds of quotes, and then never. Refuted: values with both quotes inject XPath (F124), content match nodes at the top level restrict nothing else (F125), opaque content match node at the top level dereferences NULL (F126), default namespace ignored (F127), unknown namespace taken for that of the parent (F128), leaf-lists (F129). Attributes are not modelled."
  },
  {
   "property": "C48",
   "status": "partial",
   "theorems": [
    "C48_due_partial",
    "C48_spacing_partial",
    "C48_times_partial",
    "C48_first",
    "C48_anchor_partial",
    "C48_modified",
    "C48_suspended_partial",
    "C48_terminated",
    "C48_terminate",
    "C48_anchor_refuted",
    "C48_zero_refuted",
    "C48_ended_refuted",
    "C48_drift_refuted",
    "C48_suspended_refuted",
    "C48_resume_refuted",
    "C48_prompt_refuted"
   ],
   "note": "For periods of 1 ms to 49.7 days: C48_due_partial (after any history of an active subscription an update is due within a period), C48_spacing_partial (at least a period apart, never early), C48_times_partial (exact times if each takes d), C48_first, C48_anchor_partial (exactly when the anchor is respected), C48_suspended_partial (unless modified while suspended), C48_terminate(d). Refuted: anchors (F130), division by zero (F131), timer dead after a zero period (F132), drift (F133), modification while suspended (F134), resuming without an anchor (F135), lost signal delays termination (F136)."
  },
  {
   "property": "C49",
   "status": "partial",
   "theorems": [
    "C49_found",
    "C49_gone",
    "C49_safe_partial",
    "C49_progress_partial",
    "C49_terminated_partial",
    "C49_use_after_free_refuted",
    "C49_deadlock_refuted",
    "C49_double_free_refuted",
    "C49_half_terminated_refuted"
   ],
   "note": "C49_found and C49_gone hold in all interleavings, with stop times too: removal keeps all others, an ID once gone is never found again. Without stop times and with no subscription used by one thread while another terminates it: C49_safe_partial (no use of freed memory), C49_progress_partial (no deadlock), C49_terminated_partial (just the given one is removed). Refuted: use after free (F137), deadlock of srsn_terminate() with the stop timer (F138), double unsubscribing (F139), subscription left half terminated (F140)."
  },
  {
   "property": "C50",
   "status": "partial",
   "theorems": [
    "C50_content",
    "C50_inactive",
    "C50_whole",
    "C50_order_partial",
    "C50_order_refuted"
   ],
   "note": "C50_content, C50_inactive and C50_whole: exactly what should be present is, for both ways of getting data, with nothing undefined (no pointer to a node that is gone). C50_order_partial: order kept when no list is ordered by the user; refuted otherwise (F141). Missing: order for user-ordered lists selected by a single XPath."
  },
  {
   "property": "C51",
   "status": "partial",
   "theorems": [
    "C51_read_write_partial",
    "C51_union_partial",
    "C51_buffer_partial",
    "C51_write_decimal_partial",
    "C51_equal",
    "C51_dup_partial",
    "C51_set_text_partial",
    "C51_precision_refuted",
    "C51_range_refuted",
    "C51_union_digits_refuted",
    "C51_union_leafref_refuted",
    "C51_union_overflow_refuted",
    "C51_overflow_refuted",
    "C51_dup_refuted",
    "C51_dup_origin_refuted",
    "C51_set_text_refuted"
   ],
   "note": "C51_read_write_partial (no unions, decimals below 2^52 digits-wise), C51_union_partial, C51_buffer_partial, C51_write_decimal_partial, C51_equal, C51_dup_partial, C51_set_text_partial; refuted in general: precision (F142, documented), range (F143), unions of decimals (F144, F145), stack buffer overflows (F146, F147), copies of anydata and origins (F148), text over a number (F149)."
  },
  {
   "property": "C52",
   "status": "partial",
   "theorems": [
    "C52_install_partial",
    "C52_install_success",
    "C52_remove_success",
    "C52_remove_startable",
    "C52_remove_partial",
    "C52_update_success",
    "C52_update_partial",
    "C52_install_depends_refuted",
    "C52_install_data_refuted",
    "C52_install_crash_refuted",
    "C52_remove_revert_refuted",
    "C52_remove_pushed_refuted",
    "C52_update_startable_refuted"
   ],
   "note": "C52_install_partial (dependencies and data of other modules unchanged, one failure), C52_install_success, C52_remove_success, C52_remove_startable (any failures and deaths), C52_remove_partial, C52_update_success, C52_update_partial; refuted in general: revert with changed dependencies crashes and leaves sysrepo unusable (F150), data of other modules not reverted (F151), death during installation (F152), removal and update not reverted (F153, F155), pushed data lost (F154)."
  },
  {
   "property": "C53",
   "status": "partial",
   "theorems": [
    "C53_context_partial",
    "C53_content_id_partial",
    "C53_restart_partial",
    "C53_enable_partial",
    "C53_restart_refuted",
    "C53_stale_refuted",
    "C53_install_race_refuted",
    "C53_feature_array_refuted",
    "C53_star_refuted",
    "C53_install_crash_refuted"
   ],
   "note": "C53_context_partial, C53_content_id_partial, C53_restart_partial, C53_enable_partial hold for orderly histories; refuted in general: content id of another set after a restart (F156), stale context kept (F157), installation concurrent with a change of a feature (F158), features lost in the context of the installing connection (F159), \"*\" enables nothing (F160), installation concurrent with a removal dies (F161). Collisions of the hash are not modelled."
  },
  {
   "property": "C54",
   "status": "partial",
   "theorems": [
    "C54_order_partial",
    "C54_subtree_partial",
    "C54_growth_refuted",
    "C54_apostrophe_refuted",
    "C54_equal_names_refuted",
    "C54_death_refuted",
    "C54_longer_name_refuted"
   ],
   "note": "C54_order_partial: the order is kept for all histories of fewer than 2^21 changes of lists with distinct names; C54_subtree_partial: deleting is exact without longer names beside the node. Refuted: longer histories (F162), apostrophes in leaf-lists (F163), lists of equal names in different modules (F164), death in the middle of a change (F165), siblings with longer names deleted by Mongo (F166)."
  },
  {
   "property": "C55",
   "status": "partial",
   "theorems": [
    "C55_exact_partial",
    "C55_one",
    "C55_session",
    "C55_race_refuted",
    "C55_failed_map_refuted",
    "C55_failed_first_refuted",
    "C55_first_update_refuted"
   ],
   "note": "C55_exact_partial, C55_one, C55_session for all reachable states. Refuted: success of unsubscribing one subscription although it is still served when another thread removes one before it (F167), failed opening of SHM frees arrays in use (F168), late failure of subscribing detaches the session with its other subscriptions (F169), first update of the cache made for another module (F170)."
  },
  {
   "property": "C56",
   "status": "partial",
   "theorems": [
    "C56_read_partial",
    "C56_edit",
    "C56_commit_partial",
    "C56_copy",
    "C56_discard",
    "C56_unlock",
    "C56_failed",
    "C56_stable",
    "C56_locked",
    "C56_candidate_read_refuted",
    "C56_commit_lost_refuted",
    "C56_factory_refuted",
    "C56_owner_death_refuted"
   ],
   "note": "C56_read_partial, C56_edit, C56_commit_partial, C56_copy, C56_discard, C56_unlock, C56_failed, C56_stable, C56_locked for all reachable states. Refuted: reading an unmodified candidate overwrites running that is being written (F171), committing loses a concurrent change of running in modules not modified in the candidate (F172), factory-reset ignores the lock of the candidate (F173), changes of a dead owner of the lock remain (F174)."
  },
  {
   "property": "C57",
   "status": "partial",
   "theorems": [
    "C57_roundtrip_partial",
    "C57_filter_partial",
    "C57_quotes_refuted",
    "C57_redis_later_xpath_refuted",
    "C57_spelling_refuted",
    "C57_redis_comma_refuted",
    "C57_anydata_refuted",
    "C57_neighbour_refuted",
    "C57_long_key_refuted"
   ],
   "note": "C57_roundtrip_partial for all histories (values quotable in XPath, keys at most 16383 bytes), C57_filter_partial for XPaths written as libyang prints paths. Refuted: keys with both quotes (F175), a later XPath that is no path with Redis (F176), other spellings of a path (F177), commas in keys with Redis (F178), changed format of anydata (F179), neighbours with a quote in user-ordered leaf-lists (F180), long keys (F181)."
  },
  {
   "property": "C58",
   "status": "partial",
   "theorems": [
    "C58_cache_exists",
    "C58_fresh_partial",
    "C58_reports_partial",
    "C58_shared_structure_refuted",
    "C58_nested_provider_refuted",
    "C58_context_switch_refuted",
    "C58_provider_gone_refuted",
    "C58_failed_once_refuted",
    "C58_clock_set_back_refuted",
    "C58_suspended_refuted",
    "C58_long_period_refuted",
    "C58_stop_time_refuted"
   ],
   "note": "C58_cache_exists (caches = subscriptions) for all histories. C58_fresh_partial: every subscription has its own structure and a provider that does not fail, no suspension, no context switch, the clock is not set, periods below 2^31 ms. C58_reports_partial: no provider of polled data disappears and the context is not switched. Refuted outside of that: F182-F189; F190 is about stop times in the same computation."
  },
  {
   "property": "C59",
   "status": "partial",
   "theorems": [
    "C59_exact",
    "C59_order",
    "C59_parents",
    "C59_plain",
    "C59_no_state",
    "C59_depth_one_refuted",
    "C59_nested_depth_refuted",
    "C59_key_no_state_refuted"
   ],
   "note": "C59_exact, C59_order, C59_parents, C59_plain for all trees, selections, depths, options and NACM decisions (given as functions, C20). C59_no_state if no key is selected itself. Refuted: the documented meaning of the depth (F191), nested selections with a depth (F192), selected keys with the options (F193)."
  },
  {
   "property": "C60",
   "status": "partial",
   "theorems": [
    "C60_asked",
    "C60_not_asked",
    "C60_applied",
    "C60_complete",
    "C60_ended_subscriber_refuted",
    "C60_shelved_refuted",
    "C60_orig_filter_refuted",
    "C60_max_priority_refuted"
   ],
   "note": "C60_asked, C60_not_asked, C60_applied, C60_complete for all reachable subscriptions if no subscriber ends in the middle or postpones the event, priorities are below UINT32_MAX and filters checked by the originator select only shown changes. Each of these conditions is needed: F194-F197."
  },
  {
   "property": "C61",
   "status": "partial",
   "theorems": [
    "C61_dead_is_dead",
    "C61_death_detected",
    "C61_check_ends",
    "C61_locked",
    "C61_connects",
    "C61_no_file_left",
    "C61_listing_own_process_refuted",
    "C61_disconnect_succeeds_refuted",
    "C61_listing_after_restart_refuted",
    "C61_failed_connect_refuted"
   ],
   "note": "C61_dead_is_dead, C61_death_detected, C61_check_ends, C61_locked, C61_connects, C61_no_file_left for all schedules if nobody lists connections by their files (F198, F200) and, for C61_death_detected, no sr_connect() fails after adding the connection (F201). Disconnecting may report an error although it is done (F199)."
  },
  {
   "property": "C62",
   "status": "partial",
   "theorems": [
    "C62_not_lost",
    "C62_not_lost_moving",
    "C62_only_old",
    "C62_only_old_notifications",
    "C62_pass",
    "C62_count",
    "C62_names",
    "C62_period",
    "C62_compressing_while_storing_refuted",
    "C62_late_store_refuted",
    "C62_new_notification_archived_refuted",
    "C62_dotted_module_refuted",
    "C62_misleading_module_refuted",
    "C62_long_period_refuted"
   ],
   "note": "C62_not_lost needs that no file is compressed while its module stores (F202) and that stores are not later than the configured time (F203); C62_not_lost_moving needs only the latter. C62_only_old for all schedules; the notifications themselves need that no store of the module is in progress (F204). C62_pass, C62_count, C62_names, C62_period without such conditions, but names of modules without dots (F205, F206) and times that fit (F207)."
  },
  {
   "property": "C63",
   "status": "partial",
   "theorems": [
    "C63_read",
    "C63_read_all",
    "C63_read_works",
    "C63_refused",
    "C63_write",
    "C63_events",
    "C63_granted",
    "C63_set",
    "C63_set_owner",
    "C63_database_rule",
    "C63_push_refuted",
    "C63_cache_refuted",
    "C63_database_set_refuted",
    "C63_database_check_refuted",
    "C63_created_refuted",
    "C63_discard_refuted",
    "C63_copy_refuted",
    "C63_set_half_refuted",
    "C63_candidate_refuted"
   ],
   "note": "Permissions to read need data that are not cached (F209). Refusal and events need a difference to notify about for operational data (F208). Databases only for users for whom their rule agrees (usual, F211), changing permissions in them is not restricted (F210). C63_granted and C63_read_works need files with the configured owner (F212) and startup or running (F216), C63_granted also no SR_GROUP. Discarding (F213), copying (F214) and failed changes of permissions (F215) are refuted only."
  },
  {
   "property": "C64",
   "status": "partial",
   "theorems": [
    "C64_exact",
    "C64_history",
    "C64_refused",
    "C64_candidate",
    "C64_originator_refuted",
    "C64_failed_refuted",
    "C64_place_refuted",
    "C64_nothing_refuted",
    "C64_default_refuted"
   ],
   "note": "C64_exact and C64_history need a sound session (F217), sending and storing of notifications that do not fail (F218). That orders of user-ordered lists can be followed is refuted (F219), instances moved there and back are told (F220), default values set explicitly are not (F221)."
  },
  {
   "property": "C65",
   "status": "partial",
   "theorems": [
    "C65_history",
    "C65_stored",
    "C65_kept",
    "C65_busy",
    "C65_last_refuted",
    "C65_module_refuted",
    "C65_load_refuted",
    "C65_order_refuted",
    "C65_batch_refuted",
    "C65_xpath_refuted"
   ],
   "note": "C65_history needs calls that are safe: loading does not fail (F224), something is left after deleting (F222) and of every module when changes are applied (F223), XPaths have the prefixes of the modules they select (F227), batches replace (F226). XPaths are equal up to their order (F225). C65_stored, C65_kept and C65_busy hold in every state."
  },
  {
   "property": "C66",
   "status": "partial",
   "theorems": [
    "C66_trace",
    "C66_clean",
    "C66_ready",
    "C66_single",
    "C66_gap_refuted",
    "C66_dot_refuted",
    "C66_daemon_refuted",
    "C66_unlink_refuted"
   ],
   "note": "C66_trace and C66_clean hold for every execution. That a failing plugin does not end the daemon without -f is refuted if libyang creates only the next position of a state leaf-list (F228), names with dots without the extension are not found (F229). C66_single is about instances that are not daemonized and whose ends are one step (F230, F231)."
  },
  {
   "property": "C67",
   "status": "partial",
   "theorems": [
    "C67_life",
    "C67_accept",
    "C67_refused_refuted",
    "C67_crash_refuted",
    "C67_init_refuted"
   ],
   "note": "C67_life is for lives in which subscribing works, C67_accept for all failures. That a change refused by a failure leaves everything as before is refuted (F232), with a later crash (F233); failed initialization leaves subscriptions (F234)."
  },
  {
   "property": "C68",
   "status": "partial",
   "theorems": [
    "C68_locked",
    "C68_failed",
    "C68_read",
    "C68_lost_refuted",
    "C68_status_refuted",
    "C68_tmp_refuted"
   ],
   "note": "Export and replacing are steps that succeed or fail as a whole; unlocking is assumed to succeed. Without the lock changes are lost (F235); a failing editor is not noticed (F236); the temporary file stays (F237)."
  }
 ]
}

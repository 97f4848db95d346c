{"id": "C01", "title": "Readers and writers of the same data exclude each other", "statement": "While one client is inside an operation that modifies a module's data in a datastore (for instance the store phase of sr_apply_changes), no other client can be inside an operation that reads or modifies the same data, and at most one client at a time is in the preparatory (upgradable) phase of a modification.", "quantifier": "every number of clients, every interleaving of lock, relock, unlock, timeout and crash-recovery steps, of any length", "why_tests_cant": "the set of interleavings across processes is unbounded and the bad ones need rare timings; a test only ever samples a few schedules", "anchors": ["src/common.c:sr_sub_rwlock", "src/common.c:sr_rwrelock", "src/common.c:sr_rwunlock", "src/shm_mod.c:sr_shmmod_lock"]}
{"id": "C02", "title": "A crashed client never blocks the repository for ever", "statement": "If a client process dies at any point while holding internal locks, then a later client that waits for the lock gets it as soon as the only remaining holders are dead; recovery never takes the lock away from a client that is still alive.", "quantifier": "every crash point of every client, any number of crashed and live clients, every later schedule", "why_tests_cant": "killing a process between two particular instructions is not reproducible in a test, and the crash points multiply with the schedule", "anchors": ["src/common.c:sr_rwlock_recover", "src/common.c:sr_sub_rwlock", "src/common.c:sr_conn_is_alive"]}
{"id": "C03", "title": "Releasing every internal lock gives back an unlocked repository", "statement": "Whatever sequence of read, upgradable-read and write locks a client takes (recursively for reads), upgrades and downgrades, once it has released each of them the lock carries no trace of the client.", "quantifier": "all lock/relock/unlock histories of any length and recursion depth", "why_tests_cant": "leaked lock state only shows after particular long histories (for instance counters reaching their limits)", "anchors": ["src/common.c:sr_rwlock_reader_add", "src/common.c:sr_rwlock_reader_del", "src/common.c:sr_rwunlock"]}
{"id": "C04", "title": "Operations over several modules cannot deadlock on module locks", "statement": "When any number of clients concurrently run operations each of which needs the locks of several modules, some client can always make progress: there is never a cycle of clients waiting for each other's module locks.", "quantifier": "any number of clients, any sets of modules, any interleaving", "why_tests_cant": "deadlock needs a precise interleaving of several processes over the same set of modules", "anchors": ["src/shm_mod.c:sr_shmmod_modinfo_lock", "src/modinfo.c:sr_modinfo_add", "src/shm_mod.c:sr_shmmod_modinfo_unlock"]}
{"id": "C05", "title": "A datastore lock is exclusive", "statement": "After sr_lock succeeded for a module (or the whole datastore) no other session can obtain the lock of that module in that datastore, nor change the module's data there, until the owner calls sr_unlock, its session ends or its process dies.", "quantifier": "all sequences of sr_lock/sr_unlock/sr_apply_changes calls by any number of sessions over any sets of modules", "why_tests_cant": "requires all orders of calls of several sessions, including failing ones in the middle", "anchors": ["src/sysrepo.c:_sr_un_lock", "src/sysrepo.c:sr_change_dslock", "src/shm_mod.c:sr_shmmod_lock"]}
{"id": "C06", "title": "sr_lock and sr_unlock are all or nothing", "statement": "A call of sr_lock or sr_unlock over several modules that returns an error leaves every module's datastore lock owned exactly as it was before the call.", "quantifier": "all states of the module locks, all sets of modules, every position of the failing module", "why_tests_cant": "the partial failure can happen at any module position in any pre-state", "anchors": ["src/sysrepo.c:sr_change_dslock", "src/sysrepo.c:sr_lock", "src/sysrepo.c:sr_unlock"]}
{"id": "C07", "title": "Shared memory of subscriptions is never corrupted by allocation", "statement": "The bytes of any subscription record, string or array stored in the shared subscription memory keep their value when other records are added, enlarged, shrunk or removed; no two live records ever share a byte.", "quantifier": "all histories of allocations, reallocations and frees of any sizes and counts", "why_tests_cant": "corruption needs particular histories of hole splitting and coalescing; the space of histories is infinite", "anchors": ["src/common.c:sr_shmrealloc_add", "src/common.c:sr_shmrealloc", "src/common.c:sr_shmrealloc_del", "src/common.c:sr_ext_hole_add", "src/common.c:sr_ext_hole_del"]}
{"id": "C08", "title": "Shared memory of subscriptions does not leak", "statement": "At any time the shared subscription memory consists exactly of its header, the live records and the recorded free holes; after everything was removed, the whole memory is one free hole which is reused.", "quantifier": "all histories of allocations, reallocations and frees", "why_tests_cant": "leaks accumulate only over long histories in a long-running system", "anchors": ["src/common.c:sr_ext_hole_add", "src/common.c:sr_ext_hole_find", "src/common.c:sr_shmrealloc_use_hole"]}
{"id": "C09", "title": "Subscription tables behave as lists", "statement": "Adding a subscription adds exactly that record, removing one removes exactly it, all other records of the same and all other tables are unchanged.", "quantifier": "all histories of subscribing and unsubscribing on any tables", "why_tests_cant": "the arrays are moved around in shared memory by hand-written code; only specific histories trigger each path", "anchors": ["src/common.c:sr_shmrealloc_add", "src/common.c:sr_shmrealloc_del", "src/shm_ext.c:sr_shmext_change_sub_add", "src/shm_ext.c:sr_shmext_change_sub_del"]}
{"id": "C10", "title": "Change subscribers are called in priority order, once per event", "statement": "For one sr_apply_changes call, every matching subscriber of a changed module gets the change event at most once, and a subscriber of higher priority has always finished before one of lower priority of the same module starts.", "quantifier": "any set of modules and subscriptions with any priorities, any module order", "why_tests_cant": "needs all combinations of priorities, counts, filters and modules", "anchors": ["src/shm_sub.c:sr_shmsub_change_notify_change", "src/shm_sub.c:sr_shmsub_change_notify_next_subscription", "src/shm_sub.c:sr_shmsub_change_notify_has_subscription"]}
{"id": "C11", "title": "A change is applied if and only if nobody refuses it", "statement": "sr_apply_changes modifies the datastore exactly when every subscriber that was asked approved the change; if any subscriber refuses, fails or times out, the data stay as they were and an error is returned.", "quantifier": "any set of modules, subscriptions, callback results, timeouts, any edits", "why_tests_cant": "ranges over every combination of callback outcomes and timings", "anchors": ["src/sysrepo.c:sr_changes_notify_store", "src/shm_sub.c:sr_shmsub_change_notify_change"]}
{"id": "C12", "title": "A refused change is undone at exactly the subscribers that accepted it", "statement": "If a change is refused, an abort event is sent to exactly those subscribers that had successfully processed the change event, and to nobody else.", "quantifier": "any set of modules, subscriptions, priorities, module orders and position of the refusing subscriber", "why_tests_cant": "the set of subscribers to be notified depends on the position of the failure in the whole order", "anchors": ["src/shm_sub.c:sr_shmsub_change_notify_change_abort", "src/shm_sub.c:sr_shmsub_change_listen_relock", "src/shm_sub.c:sr_shmsub_change_filter_is_valid"]}
{"id": "C13", "title": "Everybody learns about an applied change", "statement": "After a change was stored, each matching subscriber that is still alive gets exactly one done event, and nobody gets a done event for a change that was not stored.", "quantifier": "any set of modules, subscriptions and priorities", "why_tests_cant": "ranges over every set of subscriptions and outcomes", "anchors": ["src/shm_sub.c:sr_shmsub_change_notify_change_done", "src/sysrepo.c:sr_changes_notify_store"]}
{"id": "C14", "title": "An event is consumed only after every addressed subscriber processed it", "statement": "The originator of an event continues without an error only after every addressed subscriber has processed that very event; no subscriber processes the same event twice, nor an event addressed to a different priority, whatever the interleaving and retries of the processes.", "quantifier": "any number of subscribers in any number of processes, any interleaving of their steps, shelving and repeated wake-ups", "why_tests_cant": "multi-process protocol over shared memory, the schedules cannot be enumerated by tests", "anchors": ["src/shm_sub.c:sr_shmsub_notify_write_event", "src/shm_sub.c:_sr_shmsub_notify_wait_wr", "src/shm_sub.c:sr_shmsub_listen_write_event", "src/shm_sub.c:sr_shmsub_change_listen_process_module_events"]}
{"id": "C15", "title": "An edit has its RFC 6241 meaning", "statement": "Applying a session's edit to the data gives exactly the tree defined by the operations merge, replace, create, delete, remove, none (and sysrepo's ether and purge) of its nodes.", "quantifier": "all data trees and all edit trees of any depth and width", "why_tests_cant": "trees are unbounded and operations nest arbitrarily", "anchors": ["src/edit_diff.c:sr_edit_apply_r", "src/edit_diff.c:sr_edit_mod_apply"]}
{"id": "C16", "title": "create and delete are checked", "statement": "An edit that creates an instance that already exists, or deletes one that does not, makes sr_apply_changes fail.", "quantifier": "all data trees and edits", "why_tests_cant": "must hold at every depth and combination with other operations", "anchors": ["src/edit_diff.c:sr_edit_apply_create", "src/edit_diff.c:sr_edit_apply_delete"]}
{"id": "C17", "title": "Reported changes account exactly for the difference", "statement": "The list of changes that subscribers are given for an edit, applied to the old data, gives precisely the new data; if nothing changed the list is empty and vice versa.", "quantifier": "all data trees and edits", "why_tests_cant": "unbounded trees; a missing or superfluous reported change only shows for particular shapes", "anchors": ["src/edit_diff.c:sr_edit_diff_add", "src/edit_diff.c:sr_edit_apply_r", "src/edit_diff.c:sr_diff_is_redundant"]}
{"id": "C18", "title": "User-ordered lists keep the requested order", "statement": "Inserting or moving an instance first, last, before or after another one puts it exactly there and keeps the relative order of all the other instances.", "quantifier": "all instance sequences and all insert requests", "why_tests_cant": "any length of the list and position of the anchors", "anchors": ["src/edit_diff.c:sr_edit_insert", "src/edit_diff.c:sr_edit_apply_move", "src/edit_diff.c:sr_edit_userord_is_moved"]}
{"id": "C19", "title": "NACM decides by the first matching rule", "statement": "For a user, access operation and node, the decision is taken by the first rule of the first matching rule list that matches the node, else by the schema extensions, else by the defaults, as RFC 8341 section 3.4 prescribes.", "quantifier": "all rule configurations, groups, users, operations and nodes", "why_tests_cant": "infinite space of configurations; security decisions must hold for all of them", "anchors": ["src/utils/nacm.c:sr_nacm_allowed_node", "src/utils/nacm.c:sr_nacm_rule_group_match", "src/utils/nacm.c:sr_nacm_allowed_path"]}
{"id": "C20", "title": "A denied node is never returned by a read", "statement": "A node which the user may not read is not part of the data returned to a session of the user, and nodes the user may read are not lost.", "quantifier": "all data trees and rule configurations", "why_tests_cant": "unbounded trees times unbounded rule lists", "anchors": ["src/utils/nacm.c:sr_nacm_check_data_read_filter_r", "src/utils/nacm.c:sr_nacm_get_subtree_read_filter"]}
{"id": "C21", "title": "An unauthorised change is never applied", "statement": "A change is accepted only if the user may create, update or delete each node of the change.", "quantifier": "all changes and rule configurations", "why_tests_cant": "unbounded diffs times unbounded rule lists", "anchors": ["src/utils/nacm.c:sr_nacm_check_diff_r", "src/utils/nacm.c:sr_nacm_check_diff", "src/sysrepo.c:sr_changes_notify_store"]}
{"id": "C22", "title": "Replay returns the stored notifications of the interval, in order", "statement": "A replay from start to stop delivers exactly the notifications that were stored with a time in [start, stop), each once, in the order of storing.", "quantifier": "all sequences of stored notifications with any sizes (any splitting into files) and non-decreasing times, all intervals", "why_tests_cant": "the storage is split into files by size; boundaries appear only for particular sequences", "anchors": ["src/plugins/ntf_json.c:srpntf_json_store", "src/plugins/ntf_json.c:srpntf_json_replay_next", "src/plugins/ntf_json.c:srpntf_find_file"]}
{"id": "C23", "title": "Buffered notifications are not lost or reordered", "statement": "With notification buffering on, every notification accepted by sr_notif_send is written to the replay storage exactly once in the order of sending, also when buffering is being stopped.", "quantifier": "all interleavings of senders, the buffering thread and its stopping", "why_tests_cant": "thread interleavings", "anchors": ["src/replay.c:sr_replay_store", "src/replay.c:sr_notif_buf_thread", "src/replay.c:sr_notif_buf_thread_write_notifs"]}
{"id": "C24", "title": "Session data survive the transport", "statement": "Chunks of originator or error data pushed by one side are returned by the other side unchanged, with the same number, order and sizes.", "quantifier": "all lists of chunks of any contents and sizes", "why_tests_cant": "unbounded contents; alignment and size arithmetic bugs show for particular sizes", "anchors": ["src/common.c:sr_ev_data_push", "src/common.c:sr_ev_data_get", "src/common.c:sr_ev_data_size"]}
{"id": "C25", "title": "Timeouts are computed correctly", "statement": "Adding a timeout to a time gives the time that many milliseconds later, normalised; differences and comparisons agree with it.", "quantifier": "all times and all 32-bit timeouts", "why_tests_cant": "arithmetic boundaries", "anchors": ["src/common.c:sr_time_ts_add", "src/common.c:sr_time_sub", "src/common.c:sr_time_cmp", "src/common.c:sr_time_sub_ms"]}
{"id": "C26", "title": "XPath helpers walk the path and restore it", "statement": "sr_xpath_next_node and friends return the node names, key names and key values of a path in order, and sr_xpath_recover gives back the original string.", "quantifier": "all paths with any number of nodes, keys and quoted values", "why_tests_cant": "the helpers destructively modify the string, quoting and predicates can be arbitrary", "anchors": ["src/utils/xpath.c:sr_get_next_node_internal", "src/utils/xpath.c:sr_xpath_next_key_name", "src/utils/xpath.c:sr_xpath_next_key_value", "src/utils/xpath.c:sr_xpath_recover"]}
{"id": "C27", "title": "Startup data survive a crash while being stored", "statement": "If the process dies at any moment while startup data of a module are being stored, the next load gives either the complete old or the complete new data.", "quantifier": "all old and new contents, every crash point of the storing", "why_tests_cant": "crash points inside a write cannot be enumerated by tests", "anchors": ["src/plugins/ds_json.c:srpds_json_store_", "src/plugins/ds_json.c:srpds_json_load_recover"]}
{"id": "C28", "title": "The running cache never serves outdated data", "statement": "Data of a module served from the connection's cache of the running datastore are the data currently stored in it.", "quantifier": "all interleavings of stores by any connection and reads by this one", "why_tests_cant": "cache coherence over all histories of several processes", "anchors": ["src/common.c:sr_conn_run_cache_update", "src/modinfo.c:sr_modinfo_data_load"]}
{"id": "C29", "title": "RPC subscribers are called in order and undone on failure", "statement": "For one RPC, subscribers are called by descending priority, the originator gets the output of the last one; if one fails, exactly the subscribers that had succeeded get the abort event.", "quantifier": "any set of RPC subscriptions, priorities and callback results", "why_tests_cant": "ranges over all combinations of priorities and failures", "anchors": ["src/shm_sub.c:sr_shmsub_rpc_notify", "src/shm_sub.c:sr_shmsub_rpc_notify_abort"]}
{"id": "C30", "title": "Unsubscribing and crashes of others do not affect a subscription", "statement": "Removing subscriptions of one (possibly crashed) connection removes precisely its subscriptions and no subscription of other live connections.", "quantifier": "all tables of subscriptions, any set of dead connections", "why_tests_cant": "depends on the positions of the removed records", "anchors": ["src/shm_ext.c:sr_shmext_change_sub_stop", "src/shm_ext.c:sr_shmext_recover_sub_all", "src/shm_sub.c:sr_shmsub_change_notify_next_subscription"]}
{"id": "C31", "title": "Operational data pushed by sessions are layered in push order", "statement": "The operational datastore content is the base data with the pushed changes of all sessions applied in the defined order; removing one session's data leaves the result the others alone would give.", "quantifier": "any number of sessions and pushes in any order", "why_tests_cant": "all orders of pushes and discards", "anchors": ["src/shm_ext.c:sr_shmext_oper_push_update", "src/modinfo.c:sr_module_oper_data_load"]}
{"id": "C32", "title": "Validation sees all the data it needs", "statement": "On a change every changed module and every module whose validation depends on a module of the edit is validated, with all of its own data and with the data of other modules its leafrefs, instance-identifiers, musts and whens refer to; no module is loaded or locked twice.", "quantifier": "all dependency graphs, including cyclic ones", "why_tests_cant": "arbitrary graphs", "anchors": ["src/modinfo.c:sr_modinfo_collect_deps", "src/shm_mod.c:sr_shmmod_collect_deps"]}
{"id": "C33", "title": "A failed multi-module lock leaves nothing locked", "statement": "If locking the modules of an operation fails at any module, every module lock acquired by the attempt is released again when the operation is cleaned up.", "quantifier": "any set of modules, any failing position, any prior state", "why_tests_cant": "failure position and prior state are arbitrary", "anchors": ["src/shm_mod.c:sr_shmmod_modinfo_rdlock_upgrade", "src/shm_mod.c:sr_shmmod_modinfo_unlock", "src/shm_mod.c:sr_shmmod_lock"]}
{"id": "C34", "title": "Pending edits are kept on failure and dropped on success", "statement": "After sr_apply_changes succeeds the session has no pending changes; after it fails all of them are still there and applying them again is possible; sr_discard_changes drops them.", "quantifier": "all sequences of edits, applies and discards", "why_tests_cant": "histories of arbitrary length", "anchors": ["src/sysrepo.c:sr_apply_changes", "src/sysrepo.c:sr_discard_changes"]}
{"id": "C35", "title": "Module order is respected between modules", "statement": "If one change touches several modules with different configured change orders, all change-event subscribers of a module with a higher order have finished before any subscriber of a module with a lower order is called.", "quantifier": "any assignment of 32-bit orders to any number of modules, any subscriptions", "why_tests_cant": "orders are consolidated by a loop over arbitrary 32-bit values", "anchors": ["src/shm_sub.c:sr_shmsub_change_notify_nsubs_set_mod_prio", "src/shm_sub.c:sr_shmsub_change_notify_change"]}
{"id": "C36", "title": "Access control follows the configuration", "statement": "After any change of the access control configuration is processed, groups with their users and rule lists with their rules used for decisions are those of the configuration, in the configured order, each rule with its configured target.", "quantifier": "any sequence of created, moved and deleted groups, users, rule lists, rules and leaves, any names", "why_tests_cant": "all histories of changes and all names, names that are beginnings of other names included", "anchors": ["src/utils/nacm.c:sr_nacm_group_cb", "src/utils/nacm.c:sr_nacm_rule_list_cb", "src/utils/nacm.c:sr_nacm_rule_cb"]}
{"id": "C37", "title": "Running data after a death are some complete data", "statement": "If the process dies at any moment while running data of a module are being stored, startup data are not affected and the next read of running data succeeds, with the complete old, the complete new or the startup data, and leaves the running data equal to what was read.", "quantifier": "all old, new and startup contents, all moments of the death, all failures of system calls", "why_tests_cant": "moments of death and contents are arbitrary; recovery is tried by no test", "anchors": ["src/plugins/ds_json.c:srpds_json_store_", "src/plugins/ds_json.c:srpds_json_load", "src/plugins/ds_json.c:srpds_json_load_recover"]}
{"id": "C38", "title": "Changes prepared together are the calls in order", "statement": "Changes prepared by several calls setting, deleting and moving items and then applied at once have the same effect on the data as the same calls applied one after another; if every one of these would succeed, applying them together does too.", "quantifier": "all data, all schemas, all sequences of calls with all paths, values and options", "why_tests_cant": "the sequences of calls and the ways they touch each other's nodes are unbounded; tests combine two or three calls", "anchors": ["src/edit_diff.c:sr_edit_add", "src/edit_diff.c:sr_edit_add_merge_op", "src/edit_diff.c:sr_edit_add_update_op", "src/edit_diff.c:sr_edit_is_superior_op", "src/edit_diff.c:sr_edit_add_find_match", "src/sysrepo.c:sr_set_item_str", "src/sysrepo.c:sr_delete_item", "src/sysrepo.c:sr_move_item"]}
{"id": "C39", "title": "Iterating over changes tells exactly what has changed", "statement": "A subscriber that goes through all the changes in its callback and plays them one by one, in the order they come, to its copy of the data before the change always gets the data after it: values, default flags, list keys and the order of user-ordered instances. Selecting some changes by an XPath gives exactly these of them and never fails; an iterator meant to be used outside of the callback can be.", "quantifier": "all schemas, all data, all edits, all selections of nodes, the enabled event of any data", "why_tests_cant": "the shapes of trees, mixtures of operations in one diff and positions of moved instances are unbounded; tests compare a few lists of expected changes", "anchors": ["src/edit_diff.c:sr_diff_set_getnext", "src/sysrepo.c:sr_get_changes_iter", "src/sysrepo.c:sr_dup_changes_iter", "src/sysrepo.c:sr_get_change_next", "src/sysrepo.c:sr_get_change_tree_next", "src/sysrepo.c:sr_change_ly2sr"]}
{"id": "C40", "title": "Reading some operational data asks every subscriber that provides some of them", "statement": "When operational data are read by an XPath, every subscriber that provides data for a path is asked if some node it can provide may be part of the data read (selected, a parent of a selected node or below it) or may decide what is selected; without predicates in the two XPaths no other subscriber is asked, and a subscriber for instances with another value of a leaf is not asked; the decision is always defined; and the parent data handed to a subscriber are those of the path without its last node.", "quantifier": "all XPaths made of named or any nodes with predicates comparing a child with a literal, ended or not by all descendants, and their unions, read or subscribed to, of any length and with any names and literals; other XPaths in the refutations", "why_tests_cant": "which XPaths are read together with which subscriptions is unbounded, and the decision is made on their text by an ad hoc parser; tests use a few fixed paths", "anchors": ["src/modinfo.c:sr_xpath_oper_data_required", "src/modinfo.c:sr_xpath_oper_data_text_atoms_required", "src/modinfo.c:sr_xpath_oper_data_text_atom_pred_match", "src/common.c:sr_xpath_get_text_atoms", "src/common.c:sr_xpath_text_atoms_expr", "src/common.c:sr_xpath_next_qname", "src/common.c:sr_xpath_trim_last_node"]}
{"id": "C41", "title": "Operational data are what was there, overlaid by what subscribers provide", "statement": "Operational data of a module consist, for every node, of what the subscriptions for it give it one after another from the shallowest to the deepest above the stored or enabled data: a node nobody subscribed for is unchanged; a node of the deepest subscription, if that is not to be merged, exists exactly if its parent does and the subscribers return it, with the value they return; data that are to be merged hide only what they return. A failed callback for a parent that exists makes the read fail. Reading by XPaths gives for the nodes that are read the same values as reading everything.", "quantifier": "all data, all histories of subscribing and unsubscribing for paths with predicates, all answers of callbacks, live, crashed or suspended subscribers, all simple XPaths read", "why_tests_cant": "the order of subscriptions, their nesting and the data the callbacks return are arbitrary; tests nest two or three subscriptions in one order", "anchors": ["src/modinfo.c:sr_module_oper_data_update", "src/modinfo.c:sr_xpath_oper_data_get", "src/shm_sub.c:sr_shmsub_oper_get_notify", "src/shm_ext.c:sr_shmext_oper_get_sub_add", "src/common.c:sr_xpath_len_no_predicates", "src/common.c:sr_lyd_xpath_complement"]}
{"id": "C42", "title": "Why a callback failed is what the originator learns", "statement": "If a callback makes an event (update, change, RPC, operational data) fail, the function that caused the event returns an error, and the errors it leaves in the session are exactly those the callback set: codes, messages, formats and all the data, in the order set; if it set none, one with the code it returned and the text of that code. The returned code is that of the last error. A NETCONF error is read with the very type, tag, application tag, path, message and information it was set with. A call with wrong arguments is refused and changes nothing, errors set by a callback that does not fail have no effect, and errors copied from a session to that of a callback are exactly those of the session.", "quantifier": "all sequences of calls setting errors, all messages, formats and data of representable size, all return codes, any number of callbacks called for one event by one subscriber", "why_tests_cant": "the errors are sequences of arbitrary strings and binary blocks packed into shared memory, and several callbacks share one session; tests set one or two errors with fixed texts", "anchors": ["src/sysrepo.c:sr_session_set_error", "src/sysrepo.c:sr_session_set_error_message", "src/sysrepo.c:sr_session_set_error_format", "src/sysrepo.c:sr_session_push_error_data", "src/sysrepo.c:sr_session_dup_error", "src/utils/error_format.c:sr_session_set_netconf_error", "src/utils/error_format.c:sr_err_get_netconf_error", "src/shm_sub.c:sr_shmsub_prepare_error", "src/shm_sub.c:sr_shmsub_change_listen_process_module_events", "src/log.c:sr_api_ret"]}
{"id": "C43", "title": "A receiver of on-change push notifications can follow the data", "statement": "If a receiver of on-change YANG push notifications has a copy of the data at the time the subscription is made and applies the edits of all the notifications it is sent, in their order, its copy equals the data: every node, value, key and order of instances of user-ordered lists. With a dampening period notifications are at least the period apart, and every change is sent at the latest when the period since the last notification is over. Patch identifiers grow from one notification to the next, edit identifiers within a notification; no notification is empty, no edit is of an excluded kind, and all are of nodes that have changed.", "quantifier": "all data, all sequences of committed edits, all dampening periods and their modifications, all times of commits and of the timer", "why_tests_cant": "the result depends on the whole history of edits and on how they fall into dampening periods, and receivers other than a printing one are not tested at all; tests look at notifications of single changes", "anchors": ["src/utils/sn_yang_push.c:srsn_yp_on_change_cb", "src/utils/sn_yang_push.c:srsn_yp_ntf_change_edit_append", "src/utils/sn_yang_push.c:srsn_yp_ntf_change_edit_clear_target", "src/utils/sn_yang_push.c:srsn_yp_ntf_change_ready", "src/utils/sn_yang_push.c:srsn_yp_on_change_modify", "src/utils/sn_common.c:srsn_timer_thread", "src/utils/sn_common.c:srsn_update_timer", "src/utils/subscribed_notifications.c:srsn_yang_push_on_change"]}
{"id": "C44", "title": "On-change push tells a user exactly what they may read", "statement": "If an on-change YANG push subscription is made for a user, its notifications tell of a change exactly when the user may read the changed node, and the sent value of a created node has exactly those nodes of it that the user may read, keys and parents of such nodes. What an ordinary read of the same data by the same user would not return is not told either, and what it would return is not hidden. Producing the notification is free of memory errors.", "quantifier": "all access control configurations, all users and groups, all changed nodes with any subtrees, at any place of the data", "why_tests_cant": "a leak is in the combination of rules, of the place of the node in the data and of the shape of its subtree; the tests of push with access control look at one leaf", "anchors": ["src/utils/nacm.c:sr_nacm_check_yp_change_target", "src/utils/nacm.c:sr_nacm_check_yp_change_value", "src/utils/nacm.c:sr_nacm_check_data_read_filter", "src/utils/nacm.c:sr_nacm_check_data_read_filter_select_r", "src/utils/sn_yang_push.c:srsn_yp_on_change_cb", "src/utils/sn_yang_push.c:srsn_yp_ntf_change_edit_append"]}
{"id": "C45", "title": "A stream subscriber gets the stored notifications, then replay-completed, then the live ones", "statement": "A receiver subscribed to a stream with a start time gets every stored notification of the interval that matches the filter once and in the order it was sent, then replay-completed once, then every matching live notification once, in the order they came, including those that came during the replay; without a start time just the live ones. Only what the user may receive is sent. While suspended nothing is sent. The notification about termination is the last one, and at the stop time the subscription does not end before the replay is completed and all that was received is sent.", "quantifier": "all numbers of modules of the stream, all stored and live notifications, all interleavings of handling of the modules with suspending, resuming, the stop time and termination, all failures of reading", "why_tests_cant": "the order depends on how live notifications of some modules meet replays of others; tests have one or two modules and no live notifications during the replay", "anchors": ["src/utils/sn_common.c:srsn_sn_rpc_subscribe_cb", "src/utils/sn_common.c:srsn_sn_sr_subscribe", "src/utils/sn_common.c:srsn_stop_timer_cb", "src/utils/subscribed_notifications.c:srsn_suspend", "src/utils/subscribed_notifications.c:srsn_resume", "src/utils/subscribed_notifications.c:srsn_terminate", "src/replay.c:sr_replay_notify", "src/shm_sub.c:sr_shmsub_notif_listen_module_replay", "src/shm_sub.c:sr_shmsub_notif_listen_process_module_events", "src/sysrepo.c:sr_subscription_process_events"]}
{"id": "C46", "title": "Notifications written for a receiver are read whole and in order", "statement": "What srsn_read_notif() returns on the descriptor of a subscription are exactly the notifications sent to it by any threads: unchanged, whole, none lost or read twice, in the order of sending; the end of file comes only after all of them were read, and as long as there is one it can be read.", "quantifier": "all numbers of writing threads, all notifications of any size, all interleavings of writing and reading, blocking and non-blocking descriptors", "why_tests_cant": "it depends on sizes with respect to those of a pipe and on when the reader comes; tests read small notifications after they were written", "anchors": ["src/utils/sn_common.c:srsn_ntf_send", "src/utils/subscribed_notifications.c:srsn_read_notif", "src/utils/sn_common.c:srsn_read_dispatch_thread"]}
{"id": "C47", "title": "A subtree filter turned into XPath selects what RFC 6241 says", "statement": "The XPath that srsn_filter_subtree2xpath() makes of a subtree filter selects exactly the data the filter selects by RFC 6241, section 6: containment nodes restrict, selection nodes select whole subtrees, content match nodes restrict their siblings (and are in the output themselves, or the whole sibling set is if there is nothing else), names are matched with namespaces. Values in the filter are compared as they are whatever characters they have.", "quantifier": "all filters of any depth and width, all data, all strings as values", "why_tests_cant": "filters and data are trees of any shape; tests compare the text of a few XPaths", "anchors": ["src/utils/sn_common.c:srsn_filter_create_subtree", "src/utils/sn_common.c:srsn_filter_xpath_create_top", "src/utils/sn_common.c:srsn_filter_xpath_buf_add_r", "src/utils/sn_common.c:srsn_filter_xpath_buf_append_content", "src/utils/sn_common.c:srsn_filter_xpath_print_node_module", "src/utils/sn_common.c:srsn_filter_filter2xpath", "src/utils/subscribed_notifications.c:srsn_filter_subtree2xpath"]}
{"id": "C48", "title": "Updates of a periodic subscription come every period", "statement": "A receiver with a periodic YANG push subscription gets an update every period for as long as the subscription is active, whatever was modified, suspended and resumed before: the first at once, or with an anchor time at multiples of the period from it, and the further ones each a period later. None is sent while the subscription is suspended or after it was terminated, and suspending and terminating do not wait for the next one.", "quantifier": "all periods, anchors and clock times, all histories of modifying, suspending, resuming and terminating, all delays and durations of making the updates", "why_tests_cant": "it depends on the distance of the present time from the anchor and on how delays add up over time; tests wait for a few updates without an anchor", "anchors": ["src/utils/sn_yang_push.c:srsn_yp_schedule_periodic_update", "src/utils/sn_yang_push.c:srsn_yp_periodic_modify", "src/utils/sn_common.c:srsn_timer_thread", "src/utils/sn_common.c:srsn_create_timer", "src/utils/sn_common.c:srsn_update_timer", "src/utils/subscribed_notifications.c:srsn_yang_push_periodic", "src/utils/subscribed_notifications.c:srsn_suspend", "src/utils/subscribed_notifications.c:srsn_resume", "src/common.c:sr_time_ts_add", "src/common.c:sr_time_sub_ms"]}
{"id": "C49", "title": "Subscriptions can be used and terminated by several threads", "statement": "Subscriptions of subscribed notifications may be modified, suspended, resumed and terminated by several threads at once, and may end by themselves at their stop time: no call uses memory that was freed or frees it twice, no call waits for ever, a successful termination removes the subscription with the given identifier and no other, its identifier is never found again, and the other subscriptions stay usable.", "quantifier": "any number of threads and subscriptions, all interleavings of their steps, additions, failures of sending the last notification", "why_tests_cant": "it depends on the interleaving of an unlocked use with a termination and on the moment a stop time fires; tests use one thread", "anchors": ["src/utils/sn_common.c:srsn_find", "src/utils/sn_common.c:srsn_sub_add", "src/utils/sn_common.c:srsn_sub_free", "src/utils/sn_common.c:srsn_sub_free_unsubscribe", "src/utils/sn_common.c:srsn_stop_timer_cb", "src/utils/sn_common.c:srsn_update_timer", "src/utils/subscribed_notifications.c:srsn_terminate", "src/utils/subscribed_notifications.c:srsn_suspend", "src/utils/subscribed_notifications.c:srsn_resume"]}
{"id": "C50", "title": "The operational datastore has exactly the configuration in use", "statement": "A node of the running datastore is present in the operational datastore (before operational data of applications are added) exactly if a live process has a subscription that is not passive to its whole module or to it, an ancestor or a descendant of it, or if it is a key of a list entry that is present or a non-presence container whose parent is present. It makes no difference whether running data are cached, and the order of entries is that of the running datastore.", "quantifier": "all data, sets of subscriptions with any XPaths selecting any nested or overlapping nodes, cached or not", "why_tests_cant": "moving nodes of overlapping selections invalidates pointers to others depending on their order; tests use one or two disjoint XPaths", "anchors": ["src/modinfo.c:sr_module_oper_data_get_enabled", "src/common.c:sr_lyd_get_enabled_xpath", "src/common.c:sr_lyd_get_module_data", "src/common.c:sr_lyd_dup_module_np_cont", "src/common.c:sr_lyd_copy_config_np_cont_r"]}
{"id": "C51", "title": "Values read through the API can be written back, copied and compared", "statement": "Writing a value that was read from a leaf back to a leaf of the same type stores what was there, for all types of leaves; a decimal given by the application is stored as the nearest number the leaf can have. No buffer is overrun whatever the value. A copy of a value is equal to it, and two values compare equal exactly if their paths, types, data, default flags and origins are the same.", "quantifier": "all types of leaves, including leafrefs and unions, all their values, all values an application may pass", "why_tests_cant": "decimals pass through binary floating point and fixed buffers; tests use short numbers and no unions of decimals", "anchors": ["src/common.c:sr_val_ly2sr", "src/common.c:sr_val_sr2ly_str", "src/sysrepo.c:sr_set_item", "src/utils/values.c:sr_dup_val", "src/utils/values.c:sr_equal_val", "src/utils/values.c:sr_val_set_str_data"]}
{"id": "C52", "title": "Installing, removing and updating modules happens completely or not at all", "statement": "Installing modules either succeeds, and then exactly the old and the new modules are installed with the data they should have, or it returns an error and changes nothing, whichever step fails. The same holds for removing and updating modules. If the process dies at any point, sysrepo can be started again: every module it knows has its YANG file and its data.", "quantifier": "all sets of installed and new modules, their dependencies and data, every step that fails, every point at which the process dies", "why_tests_cant": "the steps call plugins and the file system; tests do not make each of them fail or die in turn", "anchors": ["src/sysrepo.c:_sr_install_modules", "src/sysrepo.c:sr_remove_modules", "src/sysrepo.c:sr_update_modules", "src/context_change.c:sr_lycc_add_modules", "src/context_change.c:sr_lycc_add_modules_revert", "src/context_change.c:sr_lycc_del_module", "src/context_change.c:sr_lycc_upd_modules", "src/context_change.c:sr_lycc_store_data_if_differ", "src/lyd_mods.c:sr_lydmods_change_del_module", "src/lyd_mods.c:sr_lydmods_add_deps_all"]}
{"id": "C53", "title": "Every connection works with the installed modules, and the content id identifies them", "statement": "Whenever a connection uses the API, its context holds exactly the installed modules with their current revisions and enabled features, whichever connections installed, removed or updated modules or changed features meanwhile. The content id is the same exactly if the installed modules are the same, also after sysrepo was started anew. Installing an installed module with features enables these features and disables none.", "quantifier": "all sets of modules, all histories of connections, uses, changes of modules by any connection, and restarts", "why_tests_cant": "a stale context needs particular interleavings of several processes, or a restart in between; tests use one connection and a fresh repository", "anchors": ["src/context_change.c:sr_lycc_lock", "src/common.c:sr_conn_ctx_switch", "src/sysrepo.c:sr_connect", "src/sysrepo.c:sr_get_content_id", "src/sysrepo.c:_sr_install_modules", "src/sysrepo.c:sr_install_modules_check_features", "src/lyd_mods.c:sr_lydmods_print", "src/lyd_mods.c:sr_lydmods_change_add_modules"]}
{"id": "C54", "title": "Lists ordered by the user keep their order in databases", "statement": "When the data of a module are kept in a Redis or Mongo database, the instances of a list or leaf-list ordered by the user are loaded in exactly the order in which the user inserted, moved and deleted them, after every history of changes. Deleting a node deletes the node and what is below it and nothing else.", "quantifier": "all histories of changes of any number of lists (insertions, moves, deletions), both plugins, any order in which the database returns the instances, any result of the sorting function", "why_tests_cant": "the numbers that give the order depend on the whole history of insertions; an error shows only after many insertions at one place or a very long history", "anchors": ["src/plugins/ds_redis.c:srpds_create_uo_op", "src/plugins/ds_redis.c:srpds_shift_uo_list_recursively", "src/plugins/ds_redis.c:srpds_delete_uo_op", "src/plugins/ds_redis.c:srpds_store_diff_recursively", "src/plugins/ds_mongo.c:srpds_create_uo_op", "src/plugins/ds_mongo.c:srpds_delete_op", "src/plugins/common_db.c:srpds_order_uo_lists", "src/plugins/common_db.c:srpds_uo_elem_comp", "src/plugins/common_db.c:srpds_get_values"]}
{"id": "C55", "title": "Exactly the subscriptions that were ended are no longer served", "statement": "Every subscription made with a subscription structure is served until it is unsubscribed: subscribing adds exactly the subscription asked for, unsubscribing removes the given subscription or all of the given session and no other, and after it returned success nothing of them is served any more, also when several threads subscribe and unsubscribe at the same time. A failed subscribing changes nothing.", "quantifier": "all histories of subscribing and unsubscribing (one subscription, a session) of all five kinds by any number of threads, all interleavings at the places where the lock of the structure is released", "why_tests_cant": "the arrays of the structure are rearranged by every removal, and indices found before the lock was released are used later; only particular interleavings show an error", "anchors": ["src/subscr.c:sr_subscr_change_sub_add", "src/subscr.c:sr_subscr_change_sub_del", "src/subscr.c:sr_subscr_session_count", "src/subscr.c:sr_change_sub_del", "src/subscr.c:sr_rpc_sub_del", "src/subscr.c:sr_subscr_del_session", "src/subscr.c:sr_subscr_del_id", "src/common.c:sr_ptr_add", "src/common.c:sr_ptr_del", "src/sysrepo.c:sr_unsubscribe_sub", "src/sysrepo.c:sr_oper_poll_subscribe"]}
{"id": "C56", "title": "Calls with startup, running and candidate do not see each other's half-done work", "statement": "Concurrent calls with the conventional datastores are isolated: reading returns data of all modules as they were at one moment, an edit is applied to exactly the data it was made for, committing makes running exactly the candidate and then discards the changes of the candidate, copying copies data of one moment, discarding and unlocking leave an unmodified candidate, a failed call changes nothing, and while a session has locked the candidate nobody else changes or unlocks it.", "quantifier": "all histories of reading, editing, committing, copying, discarding, locking, unlocking and ending a session by any number of threads over any modules, all interleavings of their single actions and all decisions of validation and subscribers", "why_tests_cant": "needs particular interleavings of several calls with different lock modes on two datastores, including the moment when a file is half written", "anchors": ["src/sysrepo.c:sr_copy_config", "src/sysrepo.c:_sr_replace_config", "src/sysrepo.c:sr_apply_changes", "src/sysrepo.c:sr_change_dslock", "src/sysrepo.c:_sr_un_lock", "src/modinfo.c:sr_modinfo_consolidate", "src/modinfo.c:sr_modinfo_candidate_reset", "src/modinfo.c:sr_modinfo_replace", "src/common.c:sr_module_file_data_append", "src/shm_mod.c:sr_shmmod_lock", "src/shm_mod.c:sr_shmmod_release_locks", "src/plugins/ds_json.c:srpds_json_load_recover", "src/plugins/ds_json.c:srpds_json_candidate_modified", "src/shm_sub.c:sr_shmsub_rpc_internal_call_callback"]}
{"id": "C57", "title": "Data kept in a database are loaded again as the same tree", "statement": "When data of a module are kept in a database (Redis or MongoDB), reading returns exactly the tree that results from all changes stored so far: every node below its parent, with its keys, value, format and default flag, and nothing else; reading by XPaths returns a tree that contains all nodes the XPaths select.", "quantifier": "all schemas, all data trees of any size and depth with any names, keys and values, all histories of stored diffs, all lists of XPaths", "why_tests_cant": "the tree is rebuilt from texts of paths sorted bytewise and cut at slashes outside of quotes; the order of any set of paths with any bytes in keys cannot be enumerated by tests", "anchors": ["src/plugins/common_db.c:srpds_path_token", "src/plugins/common_db.c:srpds_get_node_depth", "src/plugins/common_db.c:srpds_get_parent_path", "src/plugins/common_db.c:srpds_get_modif_path", "src/plugins/common_db.c:srpds_concat_key_values", "src/plugins/common_db.c:srpds_parse_keys", "src/plugins/common_db.c:srpds_escape_string", "src/plugins/common_db.c:srpds_add_conv_mod_data", "src/plugins/ds_redis.c:srpds_store_diff_recursively", "src/plugins/ds_redis.c:srpds_load_conv", "src/plugins/ds_redis.c:srpds_process_load_paths", "src/plugins/ds_mongo.c:srpds_process_load_paths"]}
{"id": "C58", "title": "Polled operational data are never older than their validity period", "statement": "While operational data are polled (sr_oper_poll_subscribe()), everything a session of the connection reads under a polled path was the actual state at some moment not longer ago than the validity period of the subscription (plus the time the thread is late and the time retrieving takes); with the option to report differences, all reported changes together are exactly the data being served; the cached data of a subscription exist as long as the subscription.", "quantifier": "all histories of subscribing, unsubscribing, suspending, resuming, providers coming, going and failing, refused updates, context switches, changes of the data, passing time and clock changes; all paths, periods and numbers of subscriptions and structures", "why_tests_cant": "whether data are too old depends on the order and timing of all events and on arithmetic of wake-up times; tests wait for a few periods with one subscription", "anchors": ["src/shm_sub.c:sr_shmsub_oper_poll_listen_process_module_events", "src/shm_sub.c:sr_shmsub_oper_poll_listen_find_get_sub", "src/shm_sub.c:sr_shmsub_oper_poll_listen_is_cache_valid", "src/shm_sub.c:sr_shmsub_oper_poll_get_sub_change_notify_evpipe", "src/shm_sub.c:sr_shmsub_listen_thread", "src/shm_sub.c:sr_shmsub_notif_listen_module_get_stop_time_in", "src/modinfo.c:sr_module_oper_data_update_cached", "src/common.c:sr_conn_oper_cache_add", "src/common.c:sr_conn_oper_cache_del", "src/common.c:sr_conn_oper_cache_flush", "src/sysrepo.c:sr_oper_poll_subscribe", "src/sysrepo.c:sr_subscription_process_events"]}
{"id": "C59", "title": "Reading data returns exactly the selected subtrees with their parents", "statement": "sr_get_data() returns, for every node selected by the XPath, the node with everything below it down to the maximum depth (as far as it may be read and the options do not leave out configuration or state data), its parents and the keys of the list instances above it, and nothing else; no node is returned twice, all are in the order of the data and below the right parent.", "quantifier": "all data trees, all sets of selected nodes (also nested ones and keys), all depths, options and decisions of access control", "why_tests_cant": "overlapping selections, keys, common parents, trimming and depths interact; tests compare the output for a few XPaths", "anchors": ["src/sysrepo.c:sr_get_data", "src/sysrepo.c:sr_oper_data_trim", "src/sysrepo.c:sr_oper_data_trim_r", "src/common.c:sr_xpath_set_filter_subtrees", "src/common.c:sr_lyd_dup_r", "src/modinfo.c:sr_modinfo_get_filter"]}
{"id": "C60", "title": "Updates of changes by subscribers are applied together with the changes", "statement": "Before changes are published, every live and not suspended subscriber of a changed module that asked for it (SR_SUBSCR_UPDATE) and whose XPath selects a change is called once with the originator's changes, in decreasing order of priorities. The changes applied are the originator's followed by the updates in this order, and the event \"change\" is given exactly the difference between the old and the resulting data. If the changes cannot be made or validated, or a subscriber refuses, nothing is applied.", "quantifier": "all histories of subscribing, unsubscribing, suspending and dying subscribers, all data, edits, updates (also of other modules), priorities, filters and results of validation and callbacks", "why_tests_cant": "the order of updates of the same nodes, edits merged into one tree, updates reverting changes and diffs merged twice interact; tests use one or two subscribers", "anchors": ["src/shm_sub.c:sr_shmsub_change_notify_update", "src/shm_sub.c:sr_shmsub_change_notify_has_subscription", "src/shm_sub.c:sr_shmsub_change_notify_next_subscription", "src/shm_sub.c:sr_shmsub_change_listen_process_module_events", "src/shm_sub.c:sr_shmsub_listen_write_event", "src/modinfo.c:sr_modinfo_change_notify_update", "src/modinfo.c:sr_modinfo_edit_apply", "src/modinfo.c:sr_modinfo_diff_merge", "src/sysrepo.c:sr_changes_notify_store", "src/shm_ext.c:sr_shmext_change_sub_add"]}
{"id": "C61", "title": "A connection is considered alive exactly as long as it is connected", "statement": "From the moment sr_connect() added a connection until sr_disconnect() or the death of its process, no process finds this connection dead, so its locks and subscriptions are not taken away. Once it is gone, every check that starts afterwards finds it dead. Every check ends with a result, connecting is never prevented by lock files of other or earlier connections, no two connections have the same connection ID, and after disconnecting no lock file is left.", "quantifier": "all interleavings of threads of any number of processes that connect, disconnect and check connections, with processes killed at any point and restarts of the machine", "why_tests_cant": "record locks belong to processes and are released by closing any descriptor of the file; the races are between single system calls of several processes", "anchors": ["src/shm_main.c:sr_shmmain_conn_check", "src/shm_main.c:sr_shmmain_conn_new_lockfile", "src/shm_main.c:sr_shmmain_conn_list_add", "src/shm_main.c:sr_shmmain_conn_list_del", "src/common.c:sr_conn_info", "src/common.c:sr_conn_is_alive", "src/sysrepo.c:sr_connect", "src/sysrepo.c:sr_disconnect"]}
{"id": "C62", "title": "Rotating stored notifications loses none and takes exactly the old files", "statement": "When sysrepo-plugind moves or compresses files of stored notifications to the archive, every notification that was stored can be replayed or is in the archive. A file is archived only if its last notification is older than the configured time, one pass over the directory takes all such files and leaves the others, the times of files are read from their names as they were written, the configured time is read with its unit, and rotated-files-count is the number of files archived.", "quantifier": "all interleavings of storing notifications of any modules with rotating, changes of the configuration, failures of moving and ends of the daemon at any point; all module names, times and configured values", "why_tests_cant": "storing and rotating are in different processes without a common lock; a loss needs a file to be changed between two system calls of the other process, months after the file was created", "anchors": ["src/executables/srpd_rotation.c:srpd_rotation_loop", "src/executables/srpd_rotation.c:srpd_format_check", "src/executables/srpd_rotation.c:srpd_rotation_change_cb", "src/plugins/ntf_json.c:srpntf_json_store", "src/plugins/ntf_json.c:srpntf_rename_file", "src/plugins/common_json.c:srpjson_get_notif_path"]}
{"id": "C63", "title": "Users read and change data of modules only with the configured permissions", "statement": "sr_get_data() returns data only of modules for which the user has the permission to read, returns all those asked for, and does not fail because of the others. A change of any module without the permission to write is refused as a whole: nothing is stored, no subscriber gets an event. Users with the permissions are not refused and exactly what they change is changed. Permissions that are set are the ones returned and applied afterwards, those of other modules and datastores are kept, and of data in files only root and the owner can change them.", "quantifier": "all users with any real and effective IDs and groups, owners, groups and permissions of modules, contents of files and of the cache, sets of modules, datastores, kinds of storing data and changes of permissions", "why_tests_cant": "tests run as one user, mostly root, with files they have created; the combinations of users, groups, owners of files created by others and datastores are unbounded", "anchors": ["src/common.c:sr_perm_check", "src/modinfo.c:sr_modinfo_perm_check", "src/sysrepo.c:sr_changes_notify_store", "src/sysrepo.c:sr_set_module_ds_access", "src/sysrepo.c:sr_copy_config", "src/plugins/common_json.c:srpjson_chmodown", "src/plugins/ds_json.c:srpds_json_access_set", "src/plugins/ds_redis.c:srpds_redis_access_check"]}
{"id": "C64", "title": "Notifications about changes of configuration tell exactly what was changed and by whom", "statement": "After every successful change of startup or running data subscribers to the notification netconf-config-change get one, and it is stored for replay, with the user and session that made the change, the datastore, and one edit for each node that was created, deleted or got another value, with this operation; other edits are only of instances of user-ordered lists. There is none for refused changes, changes of candidate and operational data, and for those that change nothing. In any history of changes the notifications in their order account for all of the way from the first data to the last.", "quantifier": "all data, edits (any operations, nesting, user-ordered lists), sessions and originator data, numbers of subscribers, settings of replay, and histories of accepted and refused changes", "why_tests_cant": "tests compare the notification for a few edits; which nodes are told depends on the diff of any edit with any data, and that nothing is lost or told twice concerns all histories", "anchors": ["src/modinfo.c:sr_modinfo_generate_config_change_notif", "src/edit_diff.c:sr_diff_set_getnext", "src/edit_diff.c:sr_edit_diff_find_oper", "src/sysrepo.c:sr_changes_notify_store"]}
{"id": "C65", "title": "Operational data a session provides are what its calls made of them", "statement": "Setting, deleting and discarding of operational items on a session work on what it has stored together with what is pending: a set node has the value and its missing parents are created, a deleted node is gone with its descendants, a discarded XPath is added, and everything else is as it was; a batch that replaces takes the place of all of it. A successful sr_apply_changes() makes exactly this the stored data of the session. Changes that are refused or fail leave what is stored and stay pending, sr_discard_changes() goes back to what is stored.", "quantifier": "all sequences of calls on a session, all paths, values, XPaths, assignments of top-level nodes to modules, and refusals of subscribers", "why_tests_cant": "tests make a few calls on one or two modules; what is stored after any sequence depends on the operations gathered for each module, which the code derives from neighbouring nodes", "anchors": ["src/sysrepo.c:sr_set_item_str", "src/sysrepo.c:sr_delete_item", "src/sysrepo.c:sr_discard_items", "src/sysrepo.c:sr_edit_batch", "src/sysrepo.c:sr_apply_oper_changes", "src/edit_diff.c:sr_edit_add", "src/edit_diff.c:sr_oper_edit_mod_apply", "src/modinfo.c:sr_modinfo_oper_ds_diff"]}
{"id": "C66", "title": "The plugin daemon runs plugins in the configured order and cleans up exactly those it initialized", "statement": "sysrepo-plugind loads all its internal plugins and all files of its directory or none, calls their init callbacks once each in the order configured with plugin-order (names may or may not have the extension), those not listed last. With --fatal-plugin-fail it ends at the first failure, otherwise it goes on with the others. It then publishes the names of exactly the initialized plugins and writes its PID only after that. However it ends, the cleanup callback is called once for every plugin that was initialized and for no other. Only one instance runs with a PID file.", "quantifier": "all sets of plugins and names, configured orders, results of init callbacks, failures of every step, options, and sequences of starts and ends of instances", "why_tests_cant": "tests do not run the daemon; what is cleaned up depends on where it fails, the order on any combination of names and configuration, and instances may start and end at any time", "anchors": ["src/executables/sysrepo-plugind.c:main", "src/executables/sysrepo-plugind.c:load_plugins", "src/executables/sysrepo-plugind.c:publish_loaded_plugins", "src/executables/sysrepo-plugind.c:open_pidfile", "src/executables/srpd_common.c:srpd_sort_plugins", "src/executables/srpd_common.c:srpd_plugin_names_cmp", "src/executables/srpd_common.c:srpd_path_len_no_ext"]}
{"id": "C67", "title": "Operational data are polled exactly as configured", "statement": "While sysrepo-plugind runs, exactly the instances of poll-diff-subscription in the running datastore are polled, each once and with the configured interval: after starting, after every accepted change of the configuration (creating, deleting, changing of intervals, in any combination), and after changes another subscriber refused. When it ends nothing is polled any more. A change is accepted exactly if all subscriptions it needs can be made; if not, everything is polled as before.", "quantifier": "all configurations, all changes between them, all histories of accepted and refused changes, starts and ends, and all failures of subscribing", "why_tests_cant": "tests do not run the daemon; the array of subscriptions depends on the whole history of changes, and failures in the middle of a change are not provoked", "anchors": ["src/executables/srpd_oper_poll_diff.c:srpd_oper_poll_diff_change_cb", "src/executables/srpd_oper_poll_diff.c:srpd_opd_add", "src/executables/srpd_oper_poll_diff.c:srpd_opd_del", "src/executables/srpd_oper_poll_diff.c:srpd_oper_poll_diff_init_cb", "src/executables/srpd_oper_poll_diff.c:srpd_oper_poll_diff_cleanup_cb"]}
{"id": "C68", "title": "Editing a datastore in an editor under a lock loses no changes", "statement": "If data of a datastore are edited in a text editor by sysrepocfg with a lock, and it succeeds, the datastore is as if the whole editing had been done at one moment after all the changes accepted from other sessions meanwhile: the user saw the data of that moment, nothing of others is lost, and exactly the changes of modules that are not edited are accepted. If it does not succeed, it changed nothing; in no case a lock is left. An input of any size is read completely.", "quantifier": "all data, all modules to edit, all changes by other sessions before, during and after the editor runs, all edits by the user, all ends of the editor and failures of steps, with and without locks, all input sizes", "why_tests_cant": "tests do not run the editor, and not with concurrent changes; sizes at the boundaries of the growing buffer are not tried", "anchors": ["src/executables/sysrepocfg.c:op_edit", "src/executables/sysrepocfg.c:step_edit_input", "src/executables/sysrepocfg.c:step_read_file", "src/executables/sysrepocfg.c:op_import", "src/executables/sysrepocfg.c:op_export"]}

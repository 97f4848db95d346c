# Formal model of sysrepo in Rocq (Coq 8.16.1)

The code in `/repo` is modelled function by function as total, computable Gallina
definitions in `rocq/theories/`.  Each definition cites the file and lines it models.
Theorems about the definitions are collected, property by property, in files
`Prop_*.v`, which contain only the theorem statements (closed by a lemma proved
elsewhere), a concrete non-vacuity example next to each, and `Print Assumptions`.

## Layout

| file | contents |
|------|----------|
| `X.v` (model files) | definitions only, cited; no proofs |
| `XSpec.v` | the small independent specification the property is stated with |
| `XProofs.v` | proofs |
| `Prop_X.v` | property theorems `Cnn_...`, examples, `Print Assumptions` |

## Conventions

* C integers: `N`/`Z` with the wrap-around written explicitly (`mod 2^32`) where it can happen.
* `assert` failures, reads of uninitialised memory and out-of-bounds accesses are a distinct outcome.
* libyang, the kernel (futex, mmap, file system) and the C library are not part of the
  codebase; what the code relies on is modelled by the smallest interface (stated in the file).
* A statement that is false of the faithful model is kept as `..._refuted` with a concrete
  witness, recorded below under *Findings*, and the property is proved under the explicit
  extra condition (suffix `_partial` if this makes it weaker than the English text).

## Plan per property

| id | what is modelled | how it is proved |
|----|------------------|------------------|
| C01 | `sr_rwlock_t` and `sr_sub_rwlock`, `sr_rwrelock`, `sr_rwunlock`, reader table, recovery (common.c 2213-2865) as atomic steps between mutex operations; clients as threads of an LTS | inductive invariant over all traces, mutual exclusion stated on the set of clients holding a lock |
| C02 | same model with a crash step and `sr_rwlock_recover` | invariant + progress lemma: if all holders are dead, the lock step succeeds; live holders are never removed |
| C03 | same | round-trip theorems over histories |
| C04 | module list sorting by SHM offset and sequential locking (modinfo.c 2921-3118, shm_mod.c 1410-1560) | well-foundedness of the wait-for graph from the lock order |
| C05,C06 | `sr_change_dslock`, `_sr_un_lock`, the ds-lock test of `sr_shmmod_lock`, `sr_shmmod_release_locks` | invariant over call histories; rollback theorem by induction over the module list |
| C07,C08,C09 | byte memory with the hole list: `sr_ext_hole_*`, `sr_shmrealloc_*` (common.c 1498-1965) | refinement of the memory to (holes + live regions) tiling the segment |
| C10-C13,C35 | publisher side of change events: `has_subscription`, `next_subscription`, `nsubs_set_mod_prio`, the loops of `change_notify_change/_done/_abort`, `sr_changes_notify_store` | induction on the rounds; events delivered compared with a declarative specification |
| C14 | shared event record with publisher and listener automata | invariant over all interleavings |
| C15-C18 | `sr_edit_apply_r` and helpers over a tree model of YANG data | refinement to a recursive specification; diff applied to the old tree gives the new one |
| C19-C21 | `sr_nacm_*` decision procedures over data trees | equivalence with a declarative RFC 8341 specification |
| C36 | `sr_nacm_group_cb`, `sr_nacm_rule_list_cb`, `sr_nacm_rule_cb`: lists, arrays and targets changed by a sequence of changes | refinement to user-ordered lists and sets |
| C22 | notification files, `srpntf_json_store`, `srpntf_find_file`, `srpntf_json_replay_next` | refinement: replay = filter of the abstract log |
| C23 | `sr_replay_store`, buffer thread | invariant over interleavings |
| C24 | `sr_ev_data_push/get/size` on bytes | round trip |
| C25 | `sr_time_*` with 32-bit arithmetic | arithmetic |
| C26 | `utils/xpath.c` on a mutable buffer | round trip and refinement to a tokenizer |
| C27 | file operations of `srpds_json_store_` and load with recovery, crash after any step | case analysis over crash points for all contents |
| C28 | `sr_conn_run_cache_update`, ids of the running data in main SHM, filling, reading and flushing the cache of a connection by several connections | invariant over histories of all connections |
| C29 | publisher and listener of RPC events: `sr_shmsub_rpc_notify`, `sr_shmsub_rpc_notify_abort`, `sr_shmsub_rpc_listen_process_rpc_events`, replies and aborts, as labelled transitions | invariant over all interleavings, calls compared with the order of priorities |
| C30 | subscription tables, `*_sub_stop`, `*_recover_*` | list lemmas + C09 refinement |
| C31 | array of pushed data in ext SHM (order, insert, move, delete), files of the plugin, merging of pushed edits, loading with removal of dead connections, discard, order, stop, crash | refinement of a specification with one order and one layer per session, invariant over all histories; uniqueness of what is read |
| C32 | dependency collection loops | closure theorem over graphs |
| C33 | modinfo lock/unlock with state bits | induction over module list |
| C34 | session edit lifecycle in `sr_apply_changes` | history induction |
| C37 | files of the running datastore and copying of startup, crash after any step | case analysis over crash points for all contents |
| C38 | the edit tree built by the calls (matching, merging and raising of operations) on top of the model of C15 | simulation: the meaning of the edit tree after each call is the data after the call, by induction on paths and on calls |
| C39 | the diff tree as the callback sees it (inherited operations, keys, anchors, libyang sibling order), the iterator over it and the lifetime of iterators, on top of the model of C15-C18 | replaying the reported changes to an independently defined copy of the data simulates applying the diff, by induction on the diff |
| C40 | the text atoms of XPaths, their comparison and the parent of a path, character by character | the parser is proved to produce the expected atoms for the text of simple XPaths of any length; a common node of the two XPaths, in an independent semantics of XPaths, makes all the pairs of atoms match |
| C41 | removing, asking per parent instance and merging of all the subscriptions in the order of the table, as functions on maps of instance paths | each iteration is proved to be one layer; parents are final when they are used because the table is sorted and an extended XPath is longer; reading a part follows by induction on depth from C40 |
| C42 | calls setting errors, callbacks of one listener, packing and reading of errors (bytes of C24), the code returned, reading NETCONF errors | what callbacks said is specified as a relation on lists of errors; the stored errors are its image after every call, the transport of C24 gives what is received |
| C43 | the on-change callback over the changes of C39, edits, replaced edits, dampening, its timer and its modification; a receiver of YANG patches as an independent specification | the edits of a diff applied in order lead a copy of the data before to the data after (induction on diffs); what was sent and what waits together are an invariant of histories; identifiers, spacing and the timer by invariants of runs |
| C44 | checks of the target and of the value of a push edit on the decisions and filters of C19 and C20, freed values as a distinct outcome | the target by C19; values of top-level nodes by C20 for each child; totality of the filter by induction on trees; counterexamples for nested nodes, refused children, parents, the recovery user |
| C45 | the callback of stream subscriptions, handling of their modules (replay, live notifications), suspending, stop time, termination; what is to be received as a function of the history | an invariant of histories gives exactly what was received at any time |
| C46 | the pipe with atomic short writes and parts of long ones, the three reads | an invariant: the pipe has the rest of the notification being read followed by whole ones |
| C47 | conversion of subtree filters to a union of paths with predicates, printing of literals; positions selected by RFC 6241 and by XPath | induction on the filter: the paths of a node select what the node does; reading literals back |
| C48 | the timer with its thread, scheduling with C arithmetic of times, modifying, suspending, resuming, terminating; times as numbers of nanoseconds | an invariant of histories: an update is due within a period; times of updates by induction on histories |
| C49 | threads using, terminating and ending subscriptions by their stop time as small steps over the array, its lock and the memory of the structures | an invariant of all interleavings linking the lock, the array and states of the structures; the array as a permutation after a removal |
| C50 | ordered trees of data, merging, duplicating with parents and keys, moving subtrees with the set of pointers still to be processed | membership of paths through each tree operation; an invariant of moving: what is not in the data any more is below a moved node and all that belongs to that is in the result |
| C51 | types and values of leaves, printing and parsing of integers and decimals as texts, doubles with rounding to nearest even, buffers of 22 bytes, the union of data of a value | arithmetic of rounding: the error of a double times the scale is below one half; lengths of texts; case analysis of types |
| C52 | the sequence of external calls of installation, removal and update with their error paths, over registry file, registry in shared memory, YANG files, plugins' installations, data, pushed data, content id and context | every call may fail or kill the process; invariants over the sequence of calls relate flags and files; the revert is shown to restore the world pointwise |
| C53 | registry file, shared memory and context of every connection with their content ids; every operation that changes modules; the array of features of an installation | invariant over all histories: shared memory, content id and registry agree and each connection's id is that of its context |
| C54 | instances with number and predecessor, the record of the maximum, all operations of a diff with the variable shared by siblings, 64-bit arithmetic, the comparison as int, and building the list in the tree when it is read; deleting by a prefix of the path | invariant over all histories: sorted by number the instances have the order of the user, predecessors form a chain and numbers are distinct and at most 1024 times the number of changes |
| C55 | the two levels of arrays of all kinds, adding and removing with replacement by the last item, searching, the unlocked interval with the check of the indices, sessions knowing the structure, failing paths of subscribing | invariant over all interleavings of threads: ids unique, the same in ext SHM, sessions linked, kinds already searched are free of the session; permutations of entries; termination of a thread that runs alone |
| C56 | calls as programs of single actions (locking in read, upgradeable and write mode, loading, storing in place, resetting, owning) executed by any number of threads over startup, running, candidate | a lock discipline (typing) of the programs, an invariant of all threads over all interleavings (rely: nobody writes what is locked by another), and the position of each call in its program |
| C57 | paths as texts of bytes with quotes, rows with their fields, HSET/DEL, recursive storing of diffs with inherited operations, sorting, rebuilding with the array of parents, encoding of keys, filters as texts and the query syntax of RediSearch | rows are the image of the data (invariant over histories); texts determine places; between a place and its descendants in the order there are only descendants, so the array always holds the parents; filters select sets closed under parents |
| C58 | caches of a connection, polling subscriptions in structures, providers with suspension, validity and wake-up times in timespecs, poll() timeouts as int, threads ending on errors, context switches, comparing paths as texts, reports as diffs; time itself is kept beside the clock | invariants over histories: identifiers of caches and subscriptions (no assert), reports applied in order = cache, and deadlines of threads <= time of the cached data + period, the cache being the state at a logged moment |
| C59 | from the set of nodes selected by the XPath on: removing redundant results, trimming configuration or state data, the table of parents already copied, copying with missing parents and keys, to a depth or recursively, removing what may not be read; nodes with their positions and parents in the created tree | the created nodes computed as a recursive function of the data (results are in document order, so parents of later results are in the table), the function compared with a declarative specification by paths; invariants for the table and the parents |
| C60 | the event "update": adding and removing subscriptions, selecting priorities with their wrap-around, a subscriber processing the event and overwriting its data, collecting the edits into one sorted tree, applying it module by module, validating, merging diffs, publishing; data are values of paths, validation and the event "change" are parameters | the loops over priorities equal asking a sorted list (priorities of a module differ, an invariant of the subscriptions); applying an edit depends only on the operations on each node, whose order insertion keeps; exactness of diffs is an invariant of merging |
| C61 | lock files, their names, record locks, lists of processes and threads that make one system call or critical section at a time, killing of processes, restarts | an inductive invariant over all states (every listed connection has its file, locked by its process; a locked file belongs to a listed connection or to the one thread adding it; what each thread knows about the file it opened), and a second one for connections that are gone |
| C62 | names of files and configured times as strings with strtoul() and its overflows, the directory, files and the archive with one system call of a store or of the rotation per step | printing and parsing of names and times by induction on strings; inductive invariants over all reachable states (names belong to different files, names reflect times of stored notifications, archived names are not used again, every written notification is in a file in one of the directories) |
| C63 | users, permissions of modules and of files, both checks (system and databases), the loop removing modules, loading, the cache, storing with creation of files, copying, discarding and changing permissions | equivalence of the checks with an inductive definition of permissions, bit by bit; the loop as filter by induction; frame lemmas of storing by induction over the modules changed |
| C64 | the test whether anything changed, datastores, subscribers and replay, the author of the change, the loop over the diff, sending and storing, commits and histories | the loop gives the list of changes iterated over (C39), whose replay leads from old to new data; every place is told once, hence exact operations; histories by induction |
| C65 | loading of the stored data, adding and freeing nodes, discard-items, batches, learning the operation of every module, replacing and merging its data and XPaths, collecting the modules, applying, discarding | each call has its effect on the view of the data (induction over parents, prefixes); the modules are replaced one after another: invariant over those that are done; histories by induction |
| C66 | names and extensions, loading of files, sorting by swapping, init callbacks with and without -f, publishing by position, cleanup, all exits of main(), opening, locking, closing and removing of the PID file | sorting by an invariant over configured names that are done (the ordered part ranks before the rest, permutation); traces of all exits by cases; the PID file by an invariant over starts and ends |
| C67 | adding and removing in the array, the callback for all events, reversed changes of an abort, init and cleanup | the array is a permutation of the configuration: invariant over the changes, reversed changes lead back, lives by induction |
| C68 | locking, export, editor, import and the growing read buffer; changes of others between the steps | accepted changes do not touch the selected modules, so the exported data are still those at the import; induction over the doubling buffer |

## Trusted base

* Coq's kernel (8.16.1), also re-checked by `coqchk`.
* `Print Assumptions` stands after every property theorem and prints "Closed under the global
  context" for all of them: no axioms, neither own nor of the standard library.
* The reading of the C code into Gallina, cited definition by definition.
* The interfaces of libyang, of the kernel (futex, mmap, files) and of the C library, as stated in the
  headers of the files.

## Modelled

One line per group of files; the headers of the files say what they leave out.

| file(s) in rocq/theories | code |
|---|---|
| `Access.v` | Permissions of users for data of modules |
| `Apply.v` | Applying changes: sr_changes_notify_store() and sr_apply_changes() in src/sysrepo.c and pending edits of a session |
| `Base.v` | Common helpers for the whole model: byte blocks, C integers, option monad |
| `BaseLemmas.v` |  |
| `Candidate.v` | * Model: calls that work with the conventional datastores, the candidate in particular Code modelled (under /repo/src): - sysrepo.c: [sr_get_data] and similar 2759-2830, [sr_apply_changes] 4262-4312, [_sr_replace_config] 4405-4450 |
| `CbErr.v` | Errors of callbacks: setting them, src/sysrepo.c 925-1030 and src/utils/error_format.c 39-155, which of them are reported when a callback of an event fails, src/shm_sub.c 3484-3580, 3253-3335, 4480-4560, what the originator of the |
| `CfgEdit.v` | Editing a datastore in a text editor with sysrepocfg: src/executables/sysrepocfg.c 157-186 (step_edit_input()), 188-226 (step_read_file()), 322-348 (op_import()), 351-404 (op_export()), 406-485 (op_edit() with an editor) |
| `Change.v` | Notifying the subscribers of a change: which events are written for which priorities and modules and in what order, src/shm_sub.c |
| `ChangeEv.v` | Processing of events of change subscriptions of one module and datastore: the shared event record (sr_sub_shm_t), its originator and the listening processes |
| `ChangeEvRun.v` | Running the model of change events: an executable version of [step], used for examples |
| `ChangeIter.v` | Iterating over changes in a callback: sr_get_changes_iter(), sr_dup_changes_iter(), sr_get_change_next() and sr_get_change_tree_next(), src/sysrepo.c 6050-6400, with sr_diff_set_getnext(), src/edit_diff.c 3404-3473 |
| `ChangeIterEn.v` | Iterating over the data of an enabled subscription, and all the theorems about iterating together |
| `ChangeIterPlay.v` | Playing the changes of a diff does the same as applying the diff |
| `ChangeIterShape.v` | Diffs of edits have the required shape; the order of siblings in the diff tree does not matter; the diff of an enabled subscription |
| `ConfNotif.v` | The notification netconf-config-change about applied changes of configuration: sr_modinfo_generate_config_change_notif(), src/modinfo.c 3634-3835, and where it is generated, sr_changes_notify_store(), src/sysrepo.c 4097-4129 |
| `ConnFile.v` | Which connections are alive: lock files of connections |
| `ConnFileMore.v` | Checks end with a result, connecting succeeds, files of closed connections are gone |
| `Context.v` | * Model: the content id and the contexts of connections Code modelled (all under /repo/src): - [sr_lycc_lock] context_change.c 43-117, [sr_conn_ctx_switch] common.c 3302-3341: when a connection notices a changed context; - [sr_con |
| `DbOrder.v` | * Model: lists ordered by the user in the database plugins Code modelled (all under /repo/src/plugins): - ds_redis.c: [srpds_set_maxord] 561-581, [srpds_inc_maxord] 588-595, [srpds_get_maxord] 607-627, [srpds_load_prev] 640-657, [ |
| `DbTree.v` | Data trees in a database: what the Redis and MongoDB plugins store for a module and how they build the tree again |
| `Deps.v` | Collecting of the modules whose data are needed for validating changes (struct sr_mod_info_s) |
| `DsLock.v` | Datastore locks: sr_lock(), sr_unlock(), sr_get_lock(), the tests of the locks by other sessions and their release at the end of a session |
| `Edit.v` | Applying an edit to data and creating the diff, src/edit_diff.c |
| `EditAdd.v` | Preparing an edit call by call: sr_edit_add(), src/edit_diff.c 2691-3402, for conventional datastores |
| `EditAddAlone.v` | A call that must be refused is refused: setting strictly what exists, without the parents that must exist and deleting strictly what does not exist |
| `EditAddBase.v` | The meaning of an edit by identifiers of siblings; paths |
| `EditAddDel.v` | Deleting, and nodes of the edit found by a call: the meaning of the edit |
| `EditAddInv.v` | Invariant of prepared edits: which calls the nodes come from |
| `EditAddMain.v` | All the calls |
| `EditAddPlain.v` | Calls that only set, and calls that only delete, both in the plain way |
| `EditAddPres.v` | The invariant of prepared edits is kept by calls that do not get into each other's way |
| `EditAddSem.v` | The meaning of an edit after one more call |
| `EditAddStep.v` | One call: the meaning of the edit after it |
| `EditAddStep2.v` | One call: setting what is in the edit, deleting of what is not |
| `EditDiff.v` | The diff of an edit is exactly the change |
| `EditMain.v` | Edits do what they mean: induction over the edit |
| `EditMin.v` | Unchanged data have an empty diff if there are no user-ordered lists |
| `EditOps.v` | What the operation of one edit node does with the siblings of its schema node |
| `EditOrder.v` | Orders of user-ordered lists after an edit |
| `EditSafe.v` | No assert fails when applying an edit |
| `EditSem.v` | The result of applying an edit is the one of its meaning |
| `EditTotal.v` | Conflicting edits fail, others do not |
| `Enabled.v` | The configuration data present in the operational datastore: those that somebody is subscribed to |
| `EvData.v` | Originator and error data: src/common.c 1967-2060 and their transport through the subscription data segment |
| `ExtShm.v` | The allocator of the shared subscription memory (ext SHM): src/common.c 1498-1620, 1658-1963 and the truncation in sr_shmext_conn_remap_unlock(), src/shm_ext.c 122-164 |
| `ExtShmAlloc.v` |  |
| `ExtShmHoles.v` |  |
| `ExtShmRealloc.v` |  |
| `GetData.v` | What sr_get_data() returns for the nodes selected by an XPath |
| `GetDataExact.v` | The returned nodes are exactly the ones of the specification, in document order |
| `GetDataIn.v` | Which nodes are copied |
| `GetDataParents.v` | Every returned node is put below a copy of its parent |
| `Install.v` | * Model: installing, removing and updating modules Code modelled (all under /repo/src): - [_sr_install_modules] sysrepo.c 1407-1590; - [sr_remove_modules] sysrepo.c 1755-1880; - [sr_update_modules] sysrepo.c 2026-2115; - [sr_lycc_ |
| `JsonStore.v` | Files with datastore data of one module: storing, loading and recovery, src/plugins/ds_json.c and src/plugins/common_json.c |
| `ModLock.v` | Locks of several modules by one operation (struct sr_mod_info_s) |
| `Nacm.v` | NACM decisions and filtering, src/utils/nacm.c |
| `NacmConf.v` | Rules and groups in memory following changes of the configuration, src/utils/nacm.c 254-945 |
| `NacmDecide.v` | The decision about a node: groups, rules, defaults |
| `NacmPath.v` | Matching of paths: the characters compared by the code against structured targets and paths |
| `NacmTree.v` | Reading and changing of whole trees: decisions about a node against those about its descendants |
| `NtfBuf.v` | Buffering of notifications for replay: senders using one session, its buffering thread and stopping of the session |
| `NtfBufProgress.v` |  |
| `NtfFiles.v` |  |
| `NtfJson.v` | Notifications stored for replay, src/plugins/ntf_json.c, src/plugins/common_json.c and src/replay.c |
| `NtfStore.v` |  |
| `OperData.v` | Composing operational data of a module from what is there already and from what subscribers provide: sr_module_oper_data_update(), src/modinfo.c 1443-1620, sr_xpath_oper_data_get(), src/modinfo.c 1085-1155, sr_shmsub_oper_get_noti |
| `OperItems.v` | Building operational data of a session with calls for items: sr_set_item_str(), src/sysrepo.c 3452-3522, sr_delete_item(), 3524-3585, sr_discard_items(), 3626-3680, sr_edit_batch(), 3715-3830, sr_discard_changes(), 4344-4370, sr_a |
| `OperPoll.v` | Periodic retrieval of operational data into the cache of a connection (sr_oper_poll_subscribe()) and reading from that cache |
| `OperPollFresh.v` | The age of what is read |
| `OperPollOwned.v` | Every cache belongs to a subscription |
| `OperPollReports.v` | Reported changes lead to the data that are served |
| `OperPush.v` | * Operational data pushed by sessions (src/shm_ext.c 2862-3119, src/modinfo.c, src/sysrepo.c) One module |
| `OperPushArr.v` | * Lemmas about the array of pushed operational data |
| `OperPushStep.v` | * Pushed operational data: every operation does what the specification says |
| `OperReq.v` | Which subscribers are asked for operational data when some data are read by an XPath, and the parent of the data they provide: sr_xpath_oper_data_required(), src/modinfo.c 867-1065, on the text atoms of XPaths, sr_xpath_get_text_a |
| `OperTabAdd.v` |  |
| `OperTabDead.v` |  |
| `Periodic.v` | Periodic YANG push subscriptions: when updates are sent |
| `PluginD.v` | The plugin daemon: src/executables/sysrepo-plugind.c 261-383 (load_plugins()), 385-419 (publish_loaded_plugins()), 421-443 (open_pidfile()), 467-651 (main()); src/executables/srpd_common.c 69-76 (srpd_path_len_no_ext()), 133-190 ( |
| `PollDiff.v` | The internal plugin of the plugin daemon that polls operational data: src/executables/srpd_oper_poll_diff.c |
| `Rotate.v` | Rotation of stored notifications by sysrepo-plugind |
| `RotateKeep.v` | Nothing is lost |
| `RotateStr.v` | Names of files and the configured time |
| `Rpc.v` | RPCs and actions: any number of clients calling one RPC, the shared event record of that RPC and the listening subscription contexts, src/shm_sub.c and src/sysrepo.c |
| `RunCache.v` | Cache of the running datastore kept by a connection |
| `RwLock.v` | The sysrepo read-write lock, src/common.c 2205-2865, src/common_types.h 42-68 |
| `RwLockInv.v` | The invariant [inv] is kept by every step |
| `RwLockMain.v` | Lemmas behind the theorems of Prop_RwLock.v |
| `RwLockTable.v` | The arrays of the lock represent a list of (cid, count) |
| `RwLockUpgr.v` | Invariants about the upgradable reader |
| `SnDeliver.v` | Delivery of notifications of a stream subscription (subscribed notifications): replay of the stored ones, the live ones and the state of the subscription; src/utils/sn_common.c 1412-1600, 870-910, src/utils/subscribed_notification |
| `SnLife.v` | Subscriptions of subscribed notifications used and terminated by several threads: the array of subscriptions, its lock, and the timers of stop times |
| `SnPipe.v` | The pipe between a subscription of subscribed notifications or YANG push and its receiver: srsn_ntf_send(), src/utils/sn_common.c 1133-1170, and srsn_read_notif(), src/utils/subscribed_notifications.c 830-880 |
| `SubStruct.v` | * Model: the subscription structure of an application Code modelled (all under /repo/src): - subscr.c: [sr_subscr_change_sub_add]/[_del] 39-172, [sr_subscr_oper_get_sub_add]/[_del] 175-304, [sr_subscr_oper_poll_sub_add]/[_del] 307 |
| `SubSys.v` | All the subscription tables of an installation in one shared memory: a history of operations on any of them |
| `SubTab.v` | Subscription tables in the ext SHM: src/shm_ext.c 511-1725 on top of the allocator of ExtShm.v |
| `SubtreeFilter.v` | Conversion of subtree filters into XPath (srsn_filter_subtree2xpath()) |
| `Time.v` | struct timespec arithmetic, src/common.c 1337-1442 |
| `Update.v` | Subscribers updating changes before they are applied (SR_SUBSCR_UPDATE) |
| `Values.v` | C51: values of the API ([sr_val_t]) |
| `Xpath.v` | Helpers working on paths in place, src/utils/xpath.c |
| `XpathSim.v` | The path helpers are the cursor of the specification |
| `YangPush.v` | On-change YANG push: src/utils/sn_yang_push.c 155-598 and 804-832, with the timer of dampened notifications, src/utils/sn_common.c 1172-1303 |
| `YangPushFollow.v` | A receiver that applies the edits of a diff has the data the diff leads to |
| `YangPushInv.v` | What holds of every history of a subscription: numbers, distances, exclusions, the timer |
| `YangPushLoop.v` | The loop over changes, dampening, and histories of a subscription |
| `YangPushShape.v` | Diffs of edits have every instance once, and what is below a created node is created |
| `YpNacm.v` | Access control of on-change YANG push, src/utils/nacm.c 2214-2292 and its use in src/utils/sn_yang_push.c 349-440 and 486-504 |

## Not modelled

* Scheduling edits, schema mount, context building and module installation except where a property
  speaks about them (the content id, dependencies, run caches, stored files of a reinstalled module).
* libyang itself: parsing, printing, validation, XPath evaluation, diff and merge of trees are interfaces.
* configuration of subscribed notifications, the value helpers in `src/values.c`, error
  formatting, logging, the tools and `sysrepo-plugind`.
* The event pipes and the `poll` loops: a listener may always look for a new event.
* Time passes only through explicit "timed out" steps.

## Findings

Statements that are false of the code as it is; each is a theorem with a concrete execution.

| theorem | what happens |
|---|---|
| `C01_asserts_refuted` | A crash after [upgr] was stored and before the reader was added, together with a waiter that takes the mutex over without a recovery (src/sr_cond/sr_cond_futex.c 98-117): the assert in src/common.c 2507 fails although nobody did anything wrong. |
| `C01_downgrade_refuted` | With a direct urged writer waiting, the READ_UPGR to READ downgrade of another thread runs the code for the downgrade of a write lock, src/common.c 2753. |
| `C01_one_upgradable_refuted` | If WRITE_URGE is used both directly and for upgrades (the data lock of a module), two threads may hold READ_UPGR at once: the upgrade gives up its mark while it waits for a direct urged writer, src/common.c 2694-2696, 2716-2727. |
| `C02_crash_in_table_refuted` | The updates of the reader table are not crash-safe themselves: a connection dying inside of sr_rwlock_reader_del_() after "temporarily" removing the last reader, a living one, makes it disappear; a writer then gets the lock while that reader holds it. |
| `C03_no_trace_overflow_refuted` | After 255 read locks of one connection an attempt to get READ_UPGR fails but leaves its mark, src/common.c 2430-2434: the mark stays when everything is released. |
| `C04_mixed_refuted` | Second: even with every module locked in order and no dependencies: two applies of changes, a reader and an sr_lock(). |
| `C04_no_inverse_refuted` | Third: dependencies without inverse ones (instance-identifiers, whose target modules are only known from the data): two applies of changes. |
| `C04_second_round_refuted` | In general the property does not hold. First: an apply of changes of module 2, whose validation depends on module 1, and sr_lock() (or sr_copy_config(), ...) of both of them. |
| `C05_after_failed_unlock_refuted` | ... so another session then takes over the lock although the owner still lives and its sr_unlock() returned an error: exclusivity is lost. |
| `C06_candidate_reset_refuted` | A failed reset of the candidate datastore makes sr_unlock() return an error after everything was unlocked. |
| `C06_reverse_mutex_refuted` | If a mutex is not obtained while reversing, the module stays locked after the failed call. |
| `C06_unlock_connection_refuted` | A failed sr_unlock() over several modules does not restore the owner connection (src/sysrepo.c 4881-4884): the lock has the session but connection 0, which is never alive ... |
| `C06_unlock_time_refuted` | The time of the lock is not restored either. |
| `C09_oper_add_after_crash_refuted` | sr_shmext_oper_get_sub_add() interrupted by a crash after the new entry was filled but before its first subscription was allocated, src/shm_ext.c 887-911: the entry stays without subscriptions and every later call loops forever at it (src/shm_ext.c 856-859). |
| `C10_priority_max_refuted` | Without the condition on priorities C10 does not hold: a subscriber with the priority UINT32_MAX makes the priority the loop starts with wrap to 0 and nobody of the module is asked. |
| `C11_atomic_refuted` | A change of two modules is not atomic if storing of the second one fails. |
| `C11_error_means_unchanged_refuted` | C11 as stated is false in the other direction: everybody approves, the data are stored and an error is returned anyway because taking the lock back for reading fails; nobody gets the done event then, so that part of C13 is false, too. |
| `C12_abort_complete_refuted` | C12. That abort was meant for the third process, which accepted the change and reported it: the event is finished before it is processed there, so it never learns that the change failed. |
| `C12_failed_change_not_aborted_refuted` | C12: if sending of the change event fails for another reason than a refusal, those that accepted the change so far get no abort event. |
| `C12_generated_abort_accepted_refuted` | C12. The generated abort is for the last subscription in the array of the process, even if that one was never called with the change (it has a different priority). |
| `C12_refuser_died_refuted` | If the subscriber that refused the change dies before the abort, the number of subscribers with the error is subtracted though it is no longer among those found and those of its priority that accepted the change are not told: C12 is false then. |
| `C12_single_abort_refuted` | C12. A subscriber that accepted a change gets two aborts for it: its process noticed before reporting the acceptance that the change failed, generated the abort itself, but the abort written for another subscriber is processed by it as well. |
| `C14_all_processed_while_suspending_refuted` | C14. While a subscription is just being suspended (it is marked in the shared table, but not in its process yet), it takes the event of another subscription, whose originator then continues although the other subscriber was not called at all. |
| `C14_at_most_once_refuted` | C14. If locking of the event fails after the callback was called, the callback is called with the same event once more. |
| `C15_explicit_refuted` | A leaf explicitly replaced by a value that it already has by default is still default afterwards; merging or creating it makes it explicit. |
| `C17_unchanged_empty_refuted` | With user-ordered lists it need not be: moving one instance last and then the other one last is reported although the order is the original one. |
| `C19_key_refuted` | A rule with only the second key of a list covers nothing. |
| `C19_name_refuted` | A rule for the node "cont" permits access also to the node "container". |
| `C19_nested_refuted` | Notifications in data cannot be the target of a rule with a path, not even if the path leads to them. |
| `C19_quote_refuted` | A value with an apostrophe in a key makes it read after the end of the path. |
| `C19_slash_refuted` | "/" and "[" in values of keys are taken for the end of a node name and a predicate. |
| `C19_star_refuted` | A rule list for the groups "!x" and "*" does not apply to users of groups before "!x", although "*" is every group. |
| `C20_items_refuted` | sr_get_item() and sr_get_items() return a node that is refused, if it is not a top-level one. |
| `C20_key_refuted` | A key that is refused is returned if it is asked for. |
| `C20_module_refuted` | Children of other modules: a rule for a module is not used for them if the parent is permitted. |
| `C21_move_refuted` | Moving of a list entry is permitted, then anything may be deleted in it. |
| `C21_partial_refuted` | A change of a node refused by the defaults is accepted, since something below is permitted. |
| `C22_clock_refuted` | If the clock of the system is set back, a notification in the interval is not replayed. |
| `C22_concurrent_refuted` | Another process stores a notification in the middle of the replay (a replay holds no lock of the files), sent before the subscription. The opened file then continues with it, but it is also renamed: notifications of the file are replayed again. |
| `C22_died_refuted` | The process dies in the middle of storing; what is stored next is then read as a part of the torn notification: none of the replayed notifications was ever stored. |
| `C22_interrupted_refuted` | Writing interrupted by a signal, or of a part of the time: a failed assertion or an access out of an array. |
| `C22_zero_refuted` | A start time with 0 seconds (1 ns after the epoch, which is not "no replay"): only the latest file is replayed. |
| `C23_failed_refuted` | One notification cannot be written (there is a file of this second, C22): those accepted later are lost, too. |
| `C23_full_refuted` | More than 1 MiB of notifications in one second: the next one in the same second is never stored. |
| `C23_order_refuted` | While the session is being stopped, a notification is written directly before an earlier buffered one. |
| `C23_timeout_refuted` | The buffering thread ends with an error if, later than 500 ms after it was started, a sender just has the mutex when the thread wants it. No call failed, but what is accepted from then on is never written. |
| `C24_push_total_refuted` | The size limit is needed: the API accepts a chunk of 2^32 - 8 bytes, but the size of the new block wraps around and the block is written outside of its bounds. |
| `C25_add_exact_refuted` | Without the bound it is false: a timeout close to the 32-bit maximum can give a time in the past. |
| `C25_sub_ms_exact_refuted` | The [int] result wraps for differences of more than 24.8 days. |
| `C26_current_refuted` | A node that is not found changes the current node: its key is that of another node. |
| `C26_finishes_refuted` | A key looked for by its name in a node with a position is looked for forever. |
| `C26_node_name_refuted` | Not for a path of one node, although it has a slash, and memory before the empty string is read. |
| `C26_node_rel_refuted` | A node that is not found is documented as NULL; the last node is returned. |
| `C26_position_refuted` | The name of a key is taken from another node if there is a position instead of a key. |
| `C27_access_refuted` | access(2) of the backup failing counts as there being none. |
| `C27_backup_refuted` | The same when setting of permissions of the backup fails: the caller is told about an error, the empty backup is left there. |
| `C27_boot_refuted` | After a death during storing of startup data and a reboot, running data are filled from the startup file and not from its backup. |
| `C27_died_refuted` | The backup file exists before it is filled: a death between these two, and the old data, not even touched by that time, are overwritten by an empty file. |
| `C27_failed_refuted` | Writing of the new text fails after 8 bytes: the backup is removed with the file half overwritten. |
| `C27_reinstall_refuted` | A backup left by a death outlives its module: installed again, the module gets the data of the previous installation, and not the ones it was installed with. |
| `C28_content_refuted` | A module is installed and removed again. The content id is what it was, so a connection that did nothing meanwhile keeps its cache, while the ids of the data started again. |
| `C28_died_refuted` | The process that stored the module died before it changed the id of the data. Other connections go on serving what they had. |
| `C28_failed_refuted` | Storing the module failed although the data were changed, the id is not. |
| `C28_startup_refuted` | The running datastore of the module is disabled, its data are those of startup. Writing startup does not change the id. |
| `C28_twice_refuted` | Two threads of a connection add the module to its cache at the same time, and there are two entries of it. The one that comes second fails to load the data, having removed those the other one loaded: the first entry says that they are current, and from then on nothing is served. |
| `C28_version_assert_refuted` | With data versions an assert can fail: the version of the cached data (1, after a change by others) is compared with the number of stores by sysrepo, which becomes 1 too. |
| `C28_version_refuted` | The plugin of the module has data versions and the version is 2^32 - 1: that is the id of an entry just added, and no data are served. |
| `C28_wrap_refuted` | After exactly 2^32 - 1 stores of the module the id of its data is the one of an entry just added: the bound in C28_served_partial is the best possible. |
| `C29_abort_once_refuted` | A callback that processes an abort so slowly that the client stops waiting is called with an abort again. |
| `C29_concurrent_refuted` | Another client calls the RPC just after a subscriber refused it and before aborts are sent: the error in the event record is taken for an abandoned event and removed. The first client then fails an assert and the one that had accepted is never told. |
| `C29_context_refuted` | Two subscriptions in one context: the first accepts too late, the abort is delivered to the other one, which has never been called. |
| `C29_died_refuted` | The only subscriber dies just after the client has seen it: the client crashes. |
| `C29_failed_refuted` | The client fails for another reason than a refusal or a timeout: those that accepted are not told. |
| `C29_lock_refuted` | A listener fails to lock the event record after its callback accepted: it is called again. |
| `C29_priority_refuted` | The only subscriber has priority UINT32_MAX: it is not found and the client crashes. |
| `C29_suspended_refuted` | A subscription suspended meanwhile is not told to abort what it accepted. |
| `C31_crash_adding_refuted` | A process that dies between the move of the entries and the filling of the new one (src/shm_ext.c 2972-2981) leaves the next entry twice: reading by others fails on an assert. |
| `C31_dead_order_refuted` | The order of a session whose process died stays used until somebody reads the data. |
| `C31_dead_race_refuted` | It also lets the lock of the module go meanwhile (src/shm_mod.c 936-949): the data it returns mix those before and after a change of another session, they were never there together. |
| `C31_dead_twice_refuted` | A reader that finds data of a dead connection starts again with the data merged so far (src/modinfo.c 1292-1303), the layers below are put on twice: discarding of an XPath with a predicate can see the data of its own layer. The next read returns something else. |
| `C31_discard_applies_refuted` | sr_discard_oper_changes() of a session with changes that were not applied yet applies those instead of discarding the pushed data (src/sysrepo.c 4623-4683 uses the edit of the session). |
| `C31_discard_permission_refuted` | Pushed discarding of data of the configuration is stored without the permission to write the module: the comparison is of pushed data only, it finds no difference and the check is skipped (src/sysrepo.c 4053-4057). |
| `C31_order_raised_last_refuted` | If the session is the last one, raising its order writes behind the end of the array in the external SHM: two calls of sr_set_oper_changes_order() are enough. |
| `C31_order_raised_read_refuted` | After the order is raised over another session, an entry is in the array twice and the next read of any client fails on the assert in src/modinfo.c 1310. |
| `C31_order_raised_refuted` | sr_set_oper_changes_order() that raises the order of a session overwrites the entry of the next session (src/shm_ext.c 2994-2998 moves one entry less than it should, and to a place one too high): the data of that session disappear although it did nothing. |
| `C31_order_used_refuted` | sr_set_oper_changes_order() with an order that is used fails and keeps EXT WRITE LOCK (src/shm_ext.c 2962-2964 does not unlock it): nobody can read or change anything until that process ends. |
| `C31_order_wraps_refuted` | A session has the highest order that can be set: the order of the next session that pushes data wraps to 0 and the next read fails on an assert. |
| `C31_other_module_refuted` | Applying changes of another module, if the session has data of this one, fails on the assert in src/edit_diff.c 2423. |
| `C31_stop_pending_refuted` | Stopping of a session that pushed data and has changes that were not applied fails on the assert in src/modinfo.c 3901. |
| `C31_stop_refused_refuted` | If a subscriber refuses the removal, the data of a stopped session stay (src/sysrepo.c 725-728 ignores the result) until its connection ends. |
| `C31_stopped_order_refuted` | The order of a stopped session that discarded its data before, or never had any, stays used. |
| `C33_relock_back_refuted` | If the relock back after a datastore lock is found fails, the module stays locked for writing although it is recorded as upgradable: the cleanup unlocks it wrongly. |
| `C34_failed_add_refuted` | Operations that failed may have an effect on the pending changes. |
| `C36_order_refuted` | Whole names are not compared: a list after "list1" is placed after "list10". |
| `C36_target_refuted` | If the name of an RPC is set instead of a path, and the deleted path comes after it as in the order of the schema, then the rule is for everything. |
| `C37_ends_refuted` | With both files not valid, loading of running data never ends unless a system call fails. |
| `C37_mixed_refuted` | A half overwritten file can be the text of other data: neither the old, nor the new nor the startup ones. |
| `C37_removed_refuted` | Data of other datastores which are not valid are removed, yet the load fails. |
| `C38_check_lost_refuted` | REFUTED (finding F103, edit_diff.c:2760-2766, 3053-3075): an item is set with the flag that its parents must exist, which they do not, so applying the call fails. After a next call that sets another item in the same parent the check is lost and everything is created. |
| `C38_delete_creates_refuted` | REFUTED (finding F100, edit_diff.c:3024-3037): after an item was set, deleting something (not strictly) in a list instance that does not exist creates the instance. |
| `C38_delete_fails_refuted` | REFUTED (finding F101, edit_diff.c:3024-3037): a strict deletion followed by one that is not strict and has nothing to delete. One by one both succeed, together they cannot be applied. |
| `C38_delete_lost_refuted` | REFUTED (finding F99, edit_diff.c:2842-2848): after an item was set, something in another container and then the whole container are deleted. The second deletion is lost. |
| `C38_delete_then_set_inside_refuted` | REFUTED (finding F98, edit_diff.c:3053-3075): a nested item is deleted and something in it is set again. The deletion is forgotten, so what was in the item besides stays in the datastore. |
| `C38_move_ignored_refuted` | REFUTED (finding F104, edit_diff.c:2820-2823): moving an instance that was already set in the same changes is ignored, although the call succeeds. |
| `C38_set_again_fails_refuted` | REFUTED (finding F102, edit_diff.c:2861-2921): a leaf, then its container are deleted and the leaf is set again. One by one all succeed, together they cannot be applied (the prepared changes have a replace in a remove). |
| `C38_set_then_delete_refuted` | REFUTED (finding F97, edit_diff.c:2842-2848): an item is set and then deleted. The deletion only takes the item out of the prepared changes. If it existed before, it is still there afterwards with its original value, although both calls and applying succeed. |
| `C39_default_flag_refuted` | F106: a leaf that has its default value and is set explicitly to the same value (or the other way round) has changed: the edit reports a change and callbacks are called for it. The diff has it as operation "none" with the previous default flag, and sr_diff_set_getnext() skips "none" nodes (src/edit_diff.c 3441-3449), so iterating gives no change at all and the default flag the subscriber knows is wrong from then on, although flags are part of the changes (prev_dflt, src/sysrepo.h 1525). |
| `C39_duplicated_refuted` | F105: an iterator made by sr_dup_changes_iter() "can be used even outside the callback" (src/sysrepo.h 1468-1471), but only the diff is duplicated: the set of nodes it iterates over is of the diff of the session (src/sysrepo.c 6068-6075), which is freed with the session of the event. Every use of the iterator after the callback that would give a change reads freed memory. |
| `C40_descendants_refuted` | Descendants in the middle of an XPath: what follows "//." must be directly below. |
| `C40_dots_refuted` | "." and ".." are compared as if they were names: data selected through them are of nobody. sr_xpath_oper_data_text_atoms_required(), src/modinfo.c 963-966. |
| `C40_filter_refuted` | A filter on a leaf that another subscriber provides: only the subscribers of the selected nodes are asked, nobody asks the one whose data decide what is selected, so nothing is. sr_xpath_oper_data_required(), src/modinfo.c 1035-1038: atoms of predicates do not count unless they match as data to be read. |
| `C40_names_refuted` | Predicates on different leaves whose names differ only in the first character (or that have a single one) are taken for predicates on the same leaf, so differing values exclude each other: the first character of the name is skipped, sr_xpath_oper_data_text_atom_pred_match(), src/modinfo.c 887-888. |
| `C40_or_refuted` | Alternatives: of "[k='1' or k='2']" every part must agree with the predicate of the subscriber, so the one that provides the second is not asked. sr_xpath_oper_data_required(), src/modinfo.c 1042-1046. |
| `C40_parent_refuted` | The parent of data given with a literal that has "/" before "[" is cut inside of the literal. sr_xpath_trim_last_node(), src/common.c 4664-4672. |
| `C40_relative_refuted` | A relative XPath, evaluated at the root, asks nobody: it is joined with "/" and its atom starts with two slashes. sr_xpath_get_text_atoms(), src/common.c 5213. |
| `C40_union_refuted` | A later part of a union that is not understood is forgotten, only the parts before it decide; alone it would ask everybody. sr_xpath_get_text_atoms(), src/common.c 5215-5222. |
| `C41_dead_refuted` | Data that were there are not replaced but lost when the subscriber has crashed or is suspended: they are deleted before the subscriptions are looked at. |
| `C41_order_refuted` | The data of the subscription with the most nodes in its XPath can get lost: subscriptions are ordered by the length of their XPaths, in which the text of predicates is counted (sr_xpath_len_no_predicates() skips only values and brackets), so a subscription for "/m:l[name='x']" is processed after "/m:l/b" and deletes what that one has provided. |
| `C41_prefix_refuted` | A subscription for nodes in a list can be processed before the subscription for the list when the XPath of the latter is not shorter because of a prefix ("/m:c/m:l" and "/m:c/l/b"); the instances it should be asked about do not exist yet, it is not asked at all. |
| `C42_dup_refuted` | Copying errors into a session of a callback leaves the errors it had in place and drops those of the callback whose session is the source instead. |
| `C42_empty_format_refuted` | An empty name of the format of error data is accepted but the originator gets neither the format nor the data. |
| `C42_enabled_netconf_refuted` | Setting a NETCONF error then succeeds but nothing except for its message is stored, it cannot be read. |
| `C42_enabled_refuted` | A callback cannot explain why it refuses the data it is enabled with: setting an error is refused, the subscriber only learns that subscribing failed. |
| `C42_no_format_refuted` | Reading an error that has no format as a NETCONF error is not an error but undefined. |
| `C42_stale_refuted` | What a callback said although it accepted the event is reported as the reason why another one, called later by the same subscriber structure, failed, and replaces the code and the text of that failure. |
| `C43_apostrophe_refuted` | F112: the path of a target is put in an XPath between apostrophes (src/utils/sn_yang_push.c 313); if a key has an apostrophe the XPath is invalid, the callback fails and everything that was to be sent, changes of other nodes too, is dropped: nobody is ever told. |
| `C43_created_order_refuted` | F110: instances of a user-ordered list created together with their parent, where a later one is put before an earlier one, are in the value of the parent in the order of the diff (src/utils/sn_yang_push.c 419-425), not in the order they have: even a tolerant receiver has them in another order. |
| `C43_merged_refuted` | F111: when a node is changed again while its change waits, the first edit of it is removed (srsn_yp_ntf_change_edit_clear_target(), src/utils/sn_yang_push.c 305-333) as if the second one replaced it: an instance created and then moved is only reported as moved, with no value, and no receiver can apply that. |
| `C43_nested_delete_refuted` | F108: a receiver that does what RFC 8072 says cannot apply the edits when a list instance or a subtree is deleted: the deletion of every descendant and key follows the deletion of their parent (only nested creations are skipped, src/utils/sn_yang_push.c 506-512), and "delete" of a target that does not exist is an error (RFC 8072 section 2.5). |
| `C43_point_refuted` | F109: the "point" of insertions and moves of user-ordered list instances is printed as the path of the target, with its predicates, followed by the predicates of the previous instance (src/utils/sn_yang_push.c 381-404): it has the predicates of both and denotes nothing. A receiver that takes it for what it is cannot place the instance. |
| `C43_sent_refuted` | F107: what waits is not sent, ever: two changes within a period and then another one, after the timer. |
| `C44_disabled_refuted` | F116: with access control disabled. |
| `C44_parents_refuted` | F115: only the changed node is checked, not its parents: a leaf in a container refused by the extension default-deny-all (as that of the access control rules) is told to everybody, an ordinary read refuses it. |
| `C44_recovery_refuted` | F116: changes are hidden from the recovery user, and from everybody with access control disabled. |
| `C44_unbroken_refuted` | F114: a refused child of a created node makes the whole value be freed, and once more for every next refused child; freed memory is then printed. |
| `C44_value_refuted` | F113: the value of a created node that has a parent is checked as a tree without the parents, the path of a nested node is then not its path: a secret refused by a rule, which an ordinary read does not return, is sent. |
| `C45_access_refuted` | F117: stored notifications are replayed without looking at access control: one that the user may not receive is sent, a live one is not. |
| `C45_no_modules_refuted` | F120: no module of the stream is selected: replay-completed is never sent. |
| `C45_once_refuted` | F118: if reading of stored notifications fails in the middle, the replay starts again and what was sent is sent once more. |
| `C45_order_refuted` | F121: stored notifications of several modules are not replayed in the order in which they were sent. |
| `C45_suspended_refuted` | F119: notifications are replayed to a suspended subscription. |
| `C46_long_refuted` | F122: a notification longer than what is written at once. The reader comes when a part of it is in the pipe: reading fails, and the rest of it is then read as if it were the next notification. |
| `C46_mixed_refuted` | F123: a notification of another thread (as about suspending) gets into the middle of a long one: the receiver reads a notification that was never sent. |
| `C47_default_namespace_refuted` | F127: an opaque top-level node in a default namespace has no prefix and is taken for one without a namespace: nodes of this name of other modules are selected, too (src/utils/sn_common.c 540). |
| `C47_leaf_list_refuted` | F129: a content match node for a value of a leaf-list, with other nodes beside it, puts all values of the leaf-list in the output (src/utils/sn_common.c 483-497). |
| `C47_literal_refuted` | F124: a value with both an apostrophe and a quotation mark ends the literal early and the rest of it becomes part of the XPath: whoever supplies the value of a content match node supplies XPath. Here what follows the first literal is an "or" with a condition that always holds (src/utils/sn_common.c 369-377, also 131, 170). |
| `C47_opaque_content_refuted` | F126: a content match node at the top level that is opaque (a value not valid for its type, or an unknown node) and has a prefix: the module of its schema node, which it does not have, is read (src/utils/sn_common.c 163-165, 566-568). |
| `C47_top_content_refuted` | F125: content match nodes at the top level restrict nothing else: with "leaf 11 is 4 and leaf 12" as the filter, leaf 12 is selected although leaf 11 has another value (RFC 6241, 6.2.5: none of the sibling set is selected; src/utils/sn_common.c 512-527). |
| `C47_unknown_namespace_refuted` | F128: a nested node in a namespace of no implemented module is printed without a module, which means the one of its parent: it selects a node in another namespace instead of nothing (src/utils/sn_common.c 251-272). |
| `C48_anchor_refuted` | F130: with an anchor in the past the remainder since the anchor is added to the present time instead of being subtracted from the period, and with one in the future (the difference is then -1) the first update comes in 1 ms: updates are not at multiples of the period from the anchor (src/utils/sn_yang_push.c 127-135, src/common.c 1412-1416). |
| `C48_drift_refuted` | F133: the next update is scheduled a period after the end of the previous one, not after its time: if making an update takes 1 ms, updates drift from multiples of the period by 1 ms each (src/utils/sn_common.c 1208-1217). |
| `C48_ended_refuted` | F132: without an anchor a period of zero sends one update, then the thread of the timer ends with its ID still set; a valid period set later has no effect, there is no update ever again (src/utils/sn_common.c 1209-1227, src/utils/sn_yang_push.c 141-149). |
| `C48_prompt_refuted` | F136: a timer stopped before its thread waits loses the signal: the thread waits for the trigger and whoever suspends or terminates the subscription waits for the thread, up to a period (for the timer of the stop time until the stop time), with the lock of all subscriptions in srsn_terminate() (src/utils/sn_common.c 1183-1198, 1289-1301). |
| `C48_resume_refuted` | F135: resuming a subscription without an anchor passes the zeros that stand for no anchor as one: the update that comes at once after subscribing and modifying comes up to a period later (src/utils/subscribed_notifications.c 619). |
| `C48_suspended_refuted` | F134: modifying the period of a suspended subscription creates the timer: updates are sent although it is suspended, and suspending it again has no effect (src/utils/sn_yang_push.c 782-787, 141-145; src/utils/subscribed_notifications.c 538-541). |
| `C48_zero_refuted` | F131: a period of zero is not refused; with an anchor it is a division by zero (src/utils/sn_yang_push.c 133; no check in src/utils/subscribed_notifications.c 271-290, 460-471). |
| `C49_deadlock_refuted` | F138: terminating a subscription at its stop time: srsn_terminate() waits, with the lock of the array, for the thread of the timer, whose callback waits for that lock; neither ever goes on, nor does any other call (src/utils/sn_common.c 873-911, 773, 1295-1301). |
| `C49_double_free_refuted` | F139: the callback of the stop time unsubscribes without the lock while srsn_terminate() does: both read and free the same IDs (src/utils/sn_common.c 890, 737-748; src/utils/subscribed_notifications.c 664). |
| `C49_half_terminated_refuted` | F140: if the notification of termination cannot be written (the reader closed the descriptor), srsn_terminate() returns an error and leaves the subscription, already unsubscribed, in the array: terminating it never succeeds, and suspending it, even by the same thread one after the other, reads an ID from NULL (src/utils/subscribed_notifications.c 664-671, 519). |
| `C49_use_after_free_refuted` | F137: a function finds the subscription under the lock and uses it after unlocking; one terminated in the meantime was freed (src/utils/sn_common.c 1125-1130; srsn_modify_*(), srsn_suspend(), srsn_resume(), srsn_notif_sent() in src/utils/subscribed_notifications.c). |
| `C50_order_refuted` | F141: with subscriptions to parts of a list ordered by the user its entries are in the order of subscriptions and not of the running datastore, since the nodes selected by one XPath are processed after those of another (src/common.c 4458-4475, 4553). |
| `C51_dup_origin_refuted` |  |
| `C51_dup_refuted` | F148: a copy of a value of an anydata node has no data and a copy of any value has no origin (src/utils/values.c 322-325, 283-329), sr_equal_val() says they differ. |
| `C51_overflow_refuted` | F147: a value with a decimal that is too large, as 1e20, is not refused but overflows the buffer of 22 bytes on the stack (src/common.c 4176). |
| `C51_precision_refuted` | F142: a decimal with 16 or more digits read from a leaf and written back is another number because values have it as a double (documented in src/sysrepo_types.h 250): 900719925474099.3 becomes 900719925474099.2. |
| `C51_range_refuted` | F143: a decimal near the limit of its type that was read from a leaf is refused when it is written back, its double is out of the range of the type. |
| `C51_set_text_refuted` | F149: setting a text of a value that has a number uses the number as a pointer (src/utils/values.c 168, 240-247). |
| `C51_union_digits_refuted` | F144: a decimal of a union is written with the fraction digits of the first decimal of the union instead of its own (src/common.c 4166-4172), 1.234 becomes 1.2. |
| `C51_union_leafref_refuted` | F145: a decimal of a member of a union that is a leafref cannot be written at all, no decimal is found in the union (src/common.c 4168) and no text is created. |
| `C51_union_overflow_refuted` | F146: writing a value an application got from a decimal of a union overflows the buffer of 22 bytes on the stack (src/sysrepo.c 3428, src/common.c 4176): 922337203685477580.7 of a member with one fraction digit is printed with 18 of them. |
| `C52_install_crash_refuted` | F152: a process that dies while installing a module can leave sysrepo unusable. The registry file lists the new modules before their YANG files are stored and their data files are created; if the process (or the system) dies in between, the next start loads the registry, does not find the YANG file, and every connection attempt fails. |
| `C52_install_data_refuted` | F151: data of other modules are not reverted. The data of all modules are adapted to the new context (new default values, removed nodes) and stored one module after another ([sr_lycc_store_data_if_differ]); when storing fails, the data of the modules stored before keep their new values although the installation is reverted and returns an error. |
| `C52_install_depends_refuted` | F150: installing a module is not reverted when it makes another module depend on it (it augments that module with a leafref or a when/must expression referencing its own data). If the initial data turn out to be invalid, or anything else fails after the registry was written, [_sr_install_modules] (sysrepo.c 1555) removes the modules from the registry but computes the dependencies in the new context, so the old module still depends on the module just removed from the registry; [sr_lydmods_add_deps_all] does not find it, passes NULL on (lyd_mods.c 847-855) and the process crashes in [sr_lyd_new_term] (ly_wrap.c 682). The registry keeps the module without its YANG file, so after the next restart nobody can connect. |
| `C52_remove_pushed_refuted` | F154: a failed removal deletes pushed operational data. The operational data all sessions pushed for the modules are deleted (sysrepo.c 1822-1827) before the data of the other modules are checked against the new set of modules; when this check fails, the modules stay, their operational data are lost. |
| `C52_remove_revert_refuted` | F153: a failed removal is not reverted. When a plugin fails to uninstall a module or to store the adapted data, [sr_remove_modules] returns the error, but the modules are gone from the registry file and from shared memory while the content id and the context of every connection still have them. |
| `C52_update_startable_refuted` | F155: a failed update can leave sysrepo unusable. [sr_update_modules] writes the new revision into the registry, then removes the YANG file of the old revision and stores that of the new one; when storing fails (disk full) the error is returned and nothing is reverted: the registry names a revision with no YANG file, after the next restart nobody can connect. |
| `C53_feature_array_refuted` | F159: enabling a further feature by installing an installed module stores NULL for the features enabled already into the array of features to enable. The connection goes on with a context in which neither the features enabled before nor the new one are enabled. |
| `C53_install_crash_refuted` | F161: if a module is removed by another connection between the loading of the modules and the context lock of an installation, the installing process ends (failed assertion, or NULL is dereferenced) after the registry was written: the new module is in the registry, and others do not see it. |
| `C53_install_race_refuted` | F158: an installation loads the current modules before it takes the context lock. If a feature is enabled by another connection in between, the installation succeeds but its connection goes on without the feature. |
| `C53_restart_refuted` | F156: removing or updating modules and changing features writes the content id of the modules before the change into the registry file (the tree is parsed with the old context). The next start of sysrepo takes it over: the content id is then that of another set of modules. |
| `C53_stale_refuted` | F157: after such a start, undoing the change gives the content id the other connections have already: they keep a context with the feature enabled although it is disabled, however often they use the API. |
| `C53_star_refuted` | F160: installing an installed module with the features "*" succeeds without enabling any feature: "*" is compared with the names of the features. |
| `C54_apostrophe_refuted` | F163: the predicate of a predecessor in a leaf-list is made of the value in the metadata by putting it between apostrophes, whatever is in it, whereas the instances are stored with the predicates of [lyd_path()], which uses quotation marks if the value has an apostrophe (here the value 1, the predicate made of it is 101). So the predecessor is not found: the Redis plugin crashes (NULL in [strtoull]) and the Mongo plugin takes the number 0 for it and may put the new instance in front of the predecessor. |
| `C54_death_refuted` | F165: an instance is moved by deleting and creating it, and inserted by changing the predecessor of the next one first, with separate commands of the database. A process that dies in between leaves a database without the instance, or one in which no instance has the predecessor any more, so that an instance inserted later at the same place goes to the end of the list. |
| `C54_equal_names_refuted` | F164: the maximum number is kept in a variable while the siblings of the diff have the same name. Two lists with the same name of different modules (one of them augments the parent) are two lists, but share the variable if they are next to each other: an instance added at the end of the second list gets a number based on the maximum of the first one, and may be read before the instance it was put behind. |
| `C54_growth_refuted` | F162: the comparison of the numbers of two instances subtracts them as [int64_t] and returns the difference as [int]. The numbers grow by 1024 with each instance added at the end and never become smaller, so after 2^21 additions (with deletions in between the list may have one instance all the time) the difference of two instances is 2^31 + 1024 and its sign is wrong: the two instances are read in the reversed order by all readers. |
| `C54_longer_name_refuted` | F166: the Mongo plugin deletes a node with children by deleting all documents whose path starts with the path of the node. That is also the case for a sibling with a longer name: deleting the container /m:a deletes /m:ab and everything in it. |
| `C55_failed_first_refuted` | F169: a session has a subscription; a further one fails late (its first update failed). The structure is taken from the session although it serves the first subscription: stopping the session leaves it with a freed session. |
| `C55_failed_map_refuted` | F168: subscribing to a further module fails because its SHM cannot be opened. The array of modules was reallocated and is freed although the structure points to it: all subscriptions of other modules are in freed memory. |
| `C55_first_update_refuted` | F170: the first update of the cache after subscribing is made for the last module of the array, which is another one if the module is known already. |
| `C55_race_refuted` | F167: two subscriptions of one module, ids 1 and 2. A thread ends the second one: it is found at the indices (0, 1) and the lock SUBS is released. Another thread ends the first one: the second is moved to its place. The first thread finds nothing at the indices and returns success; the subscription goes on. |
| `C56_candidate_read_refuted` | F171: [sr_module_file_data_append] reads running for a module that is not modified in the candidate, but only the candidate is locked. While another call is writing the file of running, parsing fails and [srpds_json_load_recover] overwrites running with startup. So a call that only reads the candidate changes running, and returns data that were neither before nor after in running. |
| `C56_commit_lost_refuted` | F172: committing replaces the data of all modules, those not modified in the candidate with the data of running that were read before running was locked. A change of running that another session made in between, with success, is lost. |
| `C56_factory_refuted` | F173: the RPC factory-reset resets the candidate without its lock, and without asking whether another session has locked the candidate datastore. |
| `C56_owner_death_refuted` | F174: when the owner of the lock of the candidate died, [sr_shmmod_lock] recovers the lock but does not discard the changes, so they remain for the next session, which then cannot lock the candidate because it is modified. |
| `C57_anydata_refuted` | F179: replacing anydata stores only the new value, not whether it is XML or JSON; after a change of the format the value is loaded in the old one. |
| `C57_long_key_refuted` | F181: list instances with a key longer than 16383 bytes cannot be stored. |
| `C57_neighbour_refuted` | F180: the neighbour of an instance of a user-ordered leaf-list is recorded by a predicate that always has single quotes, paths have double quotes for a value with a single quote; so when such an instance is deleted or moved, the row of its successor is not found and keeps the old neighbour. |
| `C57_quotes_refuted` | F175: when the key of a list instance contains both kinds of quotes and a slash, the plugins count a wrong number of parents in its path; loading the data reads outside of the array of parents (a crash). |
| `C57_redis_comma_refuted` | F178: the index of Redis splits paths at commas. A list instance with a comma in its key is not loaded when it is selected by its path. |
| `C57_redis_later_xpath_refuted` | F176: with Redis, when data are read by several XPaths and the first is a path but a later one is not, only the data of the paths before it are loaded, not all data as intended; the result lacks what the later XPaths select. |
| `C57_spelling_refuted` | F177: the text of an XPath is compared with stored paths as it was written. XPath allows both kinds of quotes, but a list instance selected with double quotes is not loaded, in Redis and in MongoDB (other spellings of the same path, such as a repeated module name, have the same effect). |
| `C58_clock_set_back_refuted` | F187: ages are computed with the clock of the system (sr_realtime_get()): if it is set back, the cache is valid for that much longer. |
| `C58_context_switch_refuted` | F184: when the context of the connection is switched, all caches are emptied (common.c 3271-3300) but stay in use: until the thread goes on, readers get no data. |
| `C58_failed_once_refuted` | F186: if a provider fails once (or a subscriber refuses the event "update"), the error ends the thread of the structure for good (shm_sub.c 4905-4920); the cache stays and is served from then on, however old it is. |
| `C58_long_period_refuted` | F189: periods from 2^31 ms on make the argument of poll() negative (shm_sub.c 4922-4932): the thread never wakes up. |
| `C58_nested_provider_refuted` | F183: a path is polled that has no provider of its own, but there is a provider of something below it: the thread clears the cache every time (shm_sub.c 3989-3997) and readers are given the empty cache, the provider is never asked (modinfo.c 1195-1224): its data are always missing. |
| `C58_provider_gone_refuted` | F185: when the only provider is gone or suspended, the cached data are dropped without reporting their deletion (shm_sub.c 3989-3997): who has followed the reports still sees them, and is told later that they are created again. |
| `C58_shared_structure_refuted` | F182: two polling subscriptions in one subscription structure: a wake-up due in less than a second has no seconds and is taken for none (shm_sub.c 4013, 4093), so the next subscription overwrites it with its own, later one: data polled every 500 ms are served 899 ms old by a thread that is never late. |
| `C58_stop_time_refuted` | F190: for a stop time of a notification subscription that has passed, only the nanoseconds of the next wake-up are set (shm_sub.c 4795-4797): if something else is due in 9 s, the thread waits these 9 s. |
| `C58_suspended_refuted` | F188: the cache of a suspended subscription is not updated but still served; also resuming it does not wake the thread, which may have nothing to wait for. |
| `C59_depth_one_refuted` | F191: sysrepo.h 837-838 say that a depth of 1 returns no descendants of the selected nodes (except keys), but sr_lyd_dup_r() copies the children: every depth is one level deeper than documented. |
| `C59_key_no_state_refuted` | F193: a key that is selected itself is never left out (sysrepo.c 2958-2960), so without state data an instance of a state list is returned when its key is selected. |
| `C59_nested_depth_refuted` | F192: a selected node below another selected node is not returned if it is deeper than the maximum depth of the other one: redundant results are removed before the depth is applied (sysrepo.c 3163-3168). |
| `C60_ended_subscriber_refuted` | F194: the variable with the edit of a subscriber is not set if the subscriber ended after it was selected and before the event was announced to it; it is then read. |
| `C60_max_priority_refuted` | F197: a subscriber with the highest priority (UINT32_MAX) is never asked to update the changes. |
| `C60_orig_filter_refuted` | F196: the originator checks the filter of a subscription (SR_SUBSCR_FILTER_ORIG) on all the changes, the subscriber on those of its module; if only another module has a selected change, the event is never processed and the changes are refused, although nobody refused them. |
| `C60_shelved_refuted` | F195: a callback postponing the event "update" (SR_ERR_CALLBACK_SHELVE) makes the printed edit overwrite the originator and the diff, so processing the event again reads something else. |
| `C61_disconnect_succeeds_refuted` | F199: sr_disconnect() reports an error when another process finds the connection dead between its close() and unlink() of the lock file and removes the file first (src/shm_main.c 433-447: ENOENT is not tolerated). |
| `C61_failed_connect_refuted` | F201: sr_connect() that fails after it added the connection does not remove it from the list of the process, so the connection that was never made is reported as alive as long as the process runs (src/sysrepo.c 240-345). |
| `C61_listing_after_restart_refuted` | F200: with the lock file of a connection from before a restart still there, a process that lists connections removes the file that a new connection with the same CID put in its place after the process found the old file unlocked: the new connection is considered dead (src/shm_main.c 242-262, 328). |
| `C61_listing_own_process_refuted` | F198: a thread that lists connections (reading the data of sysrepo-monitoring) while another thread of the same process is connecting, after the rename of the lock file and before the connection is in the list of the process, does not see the lock of its own process, releases it by closing the file and removes the file: other processes then consider the connection dead (src/common.c 5434-5540, src/shm_main.c 178-278, 346-396). |
| `C62_compressing_while_storing_refuted` | F202: a notification that is stored between compressing a file and removing it is lost: it is neither in the file that was compressed nor can it be replayed (src/executables/srpd_rotation.c 209-224 takes no lock). |
| `C62_dotted_module_refuted` | F205: files of modules with a dot in their name are never rotated, whatever their age (srpd_rotation.c 119-127 looks for the first dot). |
| `C62_late_store_refuted` | F203: a notification that is stored later than older-than after its time, in the same second as the first and last one of a file already archived, gets a file of the same name, which overwrites the file in the archive: its notifications are lost (srpd_rotation.c 226-241, src/plugins/ntf_json.c 468). |
| `C62_long_period_refuted` | F207: a very long time in older-than, which its type allows, becomes negative: every file is rotated at once, also one with a notification stored in this second (srpd_rotation.c 290-322, 199-200). |
| `C62_misleading_module_refuted` | F206: a module name that itself looks like the name of a file makes all its files look old (srpd_rotation.c 119-141): they are rotated at once. |
| `C62_new_notification_archived_refuted` | F204: a notification that is being stored in an old file while the file is moved is archived although it is new, and can no longer be replayed; storing it reports an error (srpd_rotation.c 185-241, ntf_json.c 328-364). |
| `C63_cache_refuted` | F209: with cached running data, modules that the user may no more read are still returned: all of the cache is used once any module asked for may be read. |
| `C63_candidate_refuted` | F216: reading candidate fails as a whole when running data of a module that is not changed in candidate may not be read, though all modules may be read in candidate. |
| `C63_copy_refuted` | F214: copying a datastore reads the source with no check of the permission to read, so the user who may write and read the target gets data of a module in a database that only others may read. |
| `C63_created_refuted` | F212: a file created when data are stored belongs to who stored them, not to the configured owner and group: the owner, who may write, fails afterwards, after subscribers were told of the change and with other modules stored. |
| `C63_database_check_refuted` | F211: databases check differently from files: an owner without the permission is granted it as a member of the group, root is refused, groups of the user other than the main one do not count, and the real user is meant instead of the effective one. |
| `C63_database_set_refuted` | F210: of modules in databases any user changes the owner and permissions, and so reads and writes everything. |
| `C63_discard_refuted` | F213: discarding candidate changes (copying running to candidate) needs no permission to write; where the directory of files prevents it, success is returned though nothing is discarded. |
| `C63_push_refuted` | F208: operational data pushed by a session that differ in nothing from what is there (or are hidden by data of other sessions) are stored with no check of the permission to write, because the check is made only when there is a difference to notify about. |
| `C63_set_half_refuted` | F215: changing permissions that fails has changed those of the file of data already. |
| `C64_default_refuted` | F221: a value set explicitly in place of the same default value is in no notification. |
| `C64_failed_refuted` | F218: when the notification cannot be sent, the change is stored all the same, an error is returned for it, and it is in no notification, sent or stored. |
| `C64_nothing_refuted` | F220: a notification is sent about instances moved there and back by one edit though nothing is changed by it. |
| `C64_originator_refuted` | F217: a change made in a session with the originator name netopeer2 but without the two pieces of data that server puts there reads behind them (or at address 0) when the notification is made, after the change was stored: any application may set this name. |
| `C64_place_refuted` | F219: the same notification is sent for an instance moved to one place and to another, the place is not told (nor of created instances): orders cannot be followed. |
| `C65_batch_refuted` | F226: an item set after a batch that merges data cannot be applied, even if it is of another module. |
| `C65_last_refuted` | F222: deleting the last of the operational data of a session is lost: nothing is pending afterwards, applying succeeds and the data stay; they are also back in the next change. |
| `C65_load_refuted` | F224: an error of loading the stored data is not returned: setting, deleting and discarding of operational items then succeed without doing anything. |
| `C65_module_refuted` | F223: deleting all operational data of one of the modules a session has data of fails an assert when it is applied (they are deleted if there are no asserts). |
| `C65_order_refuted` | F225: XPaths of discarded items are stored in the opposite order, though what they select may depend on those before. |
| `C65_xpath_refuted` | F227: discarding of an XPath without prefixes of the modules it selects fails an assert when it is applied. |
| `C66_daemon_refuted` | F230: a daemonized instance loses the lock of its PID file by forking, so a second one can be started with it. |
| `C66_dot_refuted` | F229: a plugin with a dot in its name cannot be ordered by its name without the extension, what is behind the dot is taken for an extension. |
| `C66_gap_refuted` | F228: a plugin that fails leaves a gap in the positions of published plugins, so if libyang creates only the position following the last instance, the daemon ends though -f was not used. |
| `C66_unlink_refuted` | F231: an ending instance closes its PID file and then removes it, which may be that of an instance started in between; then another one can be started, even without daemonizing. |
| `C67_crash_refuted` | F233: after such a refused change deleting of the subscription, or a change of its interval, fails an assert. |
| `C67_init_refuted` | F234: if one configured subscription fails when the plugin is initialized, the ones before it go on being polled though the plugin failed. |
| `C67_refused_refuted` | F232: a change that is refused because subscribing fails is not taken back: what it added before is polled, what it deleted or was to change is not polled any more. |
| `C68_lost_refuted` | F235: without the lock an accepted change of the edited data by another session is lost, there is no warning. |
| `C68_status_refuted` | F236: the status of the editor is not checked: if it fails, or cannot be started, the file is imported all the same. |
| `C68_tmp_refuted` | F237: the temporary file with the exported data is never removed. |

Found when reading, not (yet) proved in the model:

* `sr_shmext_recover_sub_all` (src/shm_ext.c 1999-2045) is called only after the module memory was emptied (`sr_shmmod_open` with `zero`), so it does nothing. If it did something: it takes the RPC with the index of the module (`&shm_rpc[i]` instead of `j`, 2039), unlocks the change subscriptions in another mode than they were locked in (1774), and skips every second XPath of operational get subscriptions while using freed records (1800-1814).
* `sr_rwlock`: a condition variable may be signalled while the only waiter able to continue is not the one woken up (src/common.c 2456-2560).
* The running datastore is filled from a half-written startup file although its backup exists (src/plugins/ds_json.c); two readers may recover from one backup at once.
* A notification sent before a subscription with replay, but stored after the replay read the files, is delivered by neither of them.
* `sr_notif_sub_modify_stop_time`: the check of the stop time against the start time is inverted.
* After a failed stop of the buffering thread in `sr_disconnect` the list of buffered notifications is left dangling.
* `_sr_replace_config` has an `assert(!err_info)` that a failing call before it reaches.
* `sr_delete_item` with an empty path.
* `sr_shmsub_change_notify_update` may use an uninitialised `edit`.
* `srpntf_json_access_set` loops forever on a failing directory read.
* `sr_shmsub_rpc_notify`: if the internal factory-reset callback fails in the loop, the lock of the event record is not released and no abort is sent (src/shm_sub.c 2762-2768).
* `sr_set_oper_changes_order` without a module takes EXT READ LOCK and then EXT WRITE LOCK in the same thread, it always times out (src/shm_mod.c 1885-1910).
* `sr_set_item_str`, `sr_delete_item` and `sr_discard_items` ignore a failure of `sr_get_oper_changes` and return success (src/sysrepo.c 3475, 3531, 3636).
* `sr_shmext_oper_push_del` changes the external SHM with only EXT READ LOCK.
* `sr_nacm_check_diff` is not called if there is no diff for subscribers; its recursive part returns "permitted" on an internal error.
* `sr_discard_oper_changes` and other functions without a session (`sr_api_ret(NULL, …)`) drop the errors callbacks reported.
* A change callback that shelves the event leaves its return code in `ret`; the next subscription of the listener, if its XPath selects nothing, is then treated as shelved too although it was not called (src/shm_sub.c 3503-3530).
* `sr_err_get_netconf_error` is documented to return no array if there is no error information but returns `malloc(0)`; on a failure it frees the arrays and leaves the pointers set (src/utils/error_format.c 388, 410).
* An on-change subscription with `sync_on_start` reads the data for push-update before it subscribes to changes (src/utils/subscribed_notifications.c 359-364): changes committed in between are in neither. A resynchronisation (398-413) leaves the pending patch in place, which then describes changes the push-update already has.
* When the path of a node or the access check of an edit fails, srsn_yp_on_change_cb() leaves with the lock of the timer held (src/utils/sn_yang_push.c 483-598); the next change blocks for ever.
* The previous value of an empty leaf-list instance is "" and is taken for "first" in on-change notifications (src/utils/sn_yang_push.c 381-404).
* The first periodic notification is planned at now + |now − anchor| mod period (src/utils/sn_yang_push.c 106-150), not at the next multiple of the period since the anchor.
* A stream subscription with a stop time in the past also replays notifications sent after the stop time: srsn_sn_sr_subscribe() does not pass it on (src/utils/sn_common.c 1563-1565).
* The start of the replay is never reported as revised: `replay_start` is zeroed first, no time is lower (src/utils/sn_common.c 1535, 1557-1560).
* A receiver that does not read blocks the thread handling sysrepo subscriptions in writev(), with locks held (src/utils/sn_common.c 1159); if the same thread terminates the subscription, it waits for ever.
* `srsn_timer_thread` may see `tid` still 0 if it times out before pthread_create() stored it (POSIX does not say it is stored first) and end, so that there are no updates (src/utils/sn_common.c 1194, 1246).
* Failure to get the data of a periodic update is ignored, the receiver does not learn of it (src/utils/sn_yang_push.c 112-114).
* The subscribe functions call `srsn_sub_free()` on failures without the lock, which changes the array `snstate.subs`, and after the descriptor was given to the dispatch thread (src/utils/subscribed_notifications.c 255-268).
* `srsn_sub_add()` returns NULL also when there is no memory, so that the subscription is never found (src/utils/sn_common.c 931-954).
* `srsn_suspend()` and `srsn_resume()` of a subscription to a stream with no modules read the first ID of an empty array (src/utils/subscribed_notifications.c 519, 594).
* An XPath of a subscription that also selects nodes of other modules (a union) enables these in the operational datastore when running data are cached (src/modinfo.c 2717, src/common.c 4458).
* sr_val_to_str(), sr_val_to_buff() and sr_print_val() print a decimal with %g, that is only 6 significant digits (src/utils/values.c 545, 736, 851).
* sr_dup_values() of a value without a path calls strlen(NULL), unlike sr_dup_val() (src/utils/values.c 360, 168).
* Passing a decimal value for a leaf of a type that is no decimal reads fraction digits out of another structure (src/common.c 4161-4176).
* Installing an already installed module with a list of features stores NULL in the middle of the array of features for every feature enabled before, which cuts it short: features enabled before, and requested ones after them, are not set in the new context (src/sysrepo.c 1284).
* A YANG file that already exists is not overwritten when a module is installed, and files of submodules and imports stored before a failure are not removed (src/common.c 818-855).
* ds_mongo.c 2300: whether a deleted sibling has children is passed as `(int64_t)lyd_child_no_keys(sibling)`, a pointer truncated to `int`; it is 0 for a child at a multiple of 4 GiB.
* common_db.c 733-787: the predecessor of an instance of a leaf-list with an empty value is printed like `first instance`.
* shm_sub.c 4816-4860: sr_shmsub_notif_listen_module_stop_time keeps a pointer into the array of notification subscriptions while SUBS is released; a concurrent subscription reallocates the array.
* subscr.c 1026-1115: sr_oper_get_sub_del fails when an event pipe cannot be notified after the subscription was removed from ext SHM; the structure keeps it.
* Subscribing with a session while its subscriptions are being ended leaves a subscription whose session does not know the structure.
* ds_mongo.c 2985-3000, ds_redis.c 3492: storing into an unmodified candidate first copies running as it is at that time and applies a diff made from running loaded earlier without its lock.
* sysrepo.c 4443: assert(!err_info) in _sr_replace_config fails when both a callback error and another error are set.
* shm_sub.c 2400-2500: factory-reset with only candidate listed does nothing.
* shm_mod.c 1599-1663: when a session ends the lock of the candidate is cleared before the candidate is reset; changes that another session makes in between are lost.
* sr_copy_config does not check the right to read of the source with NACM.
* ds_redis.c 2649-2750: when an error is found the filter is freed but not set to NULL.
* common_db.c 155-198: in direction -1 a text without a slash outside of quotes is read before its beginning.
* ds_redis.c 2441-2454: the fields prev and path_no_pred are split at commas too, so neighbours in user-ordered lists with commas in their keys are not found.
* modinfo.c 1195-1224: cached data include the ancestors of the polled nodes; list instances deleted from the configuration reappear with them until the next update of the cache.
* shm_sub.c 4045: the retrieved data are not freed when the event update is refused.
* srpd_oper_poll_diff.c: when one of several new subscriptions fails, the earlier ones stay although the change is refused.
* sysrepo.c 3207-3218: with a maximum depth, NACM sees only the copied part: a partially readable container whose readable descendants are deeper is left out.
* common.c 4241: sr_lyd_dup_r() dereferences the schema of opaque nodes, which is NULL.
* sysrepo.c 3214: when checking NACM fails, the copied nodes are not freed.
* shm_sub.c 3505-3525: the result of a shelved subscription is kept for the next one whose filter does not match, which is then treated as shelved too.
* modinfo.c 3508-3631: updates of modules the originator did not change are not checked by NACM for the originator nor for the subscriber.
* src/common.c 5510 (sr_conn_info()): dead_cids is reallocated for dead_count items and the item dead_count is written, one past the end; no caller passes dead_cids.
* src/common.c 5535: *count is written on errors also if count is NULL.
* src/sysrepo.c 326-345: a failed first sr_connect() removes the main SHM, so CIDs start at 1 again while the list of the process still has the failed connection: a later connection of another process with this CID is considered alive by this process for ever.
* src/executables/srpd_rotation.c 185-241: output-dir can be changed (and freed, 340-360) by the subscription thread while the loop uses the old string.
* src/executables/srpd_rotation.c: a changed output-dir is not created, so nothing is rotated until it is.
* src/executables/srpd_rotation.c 226-241: rename() to another file system fails for ever (EXDEV).
* src/executables/srpd_rotation.c 160-215: with SR_NOTIFICATION_PATH without a final slash the paths of the files are wrong.
* src/executables/srpd_rotation.c: if output-dir is the directory of notifications, archives match the format and are compressed again in every pass.
* src/sysrepo.c sr_replace_config(): replacing all modules needs the permission to write also for modules that do not change.
* src/modinfo.c 3722-3730: a session with the originator name netopeer2 and fewer than two pieces of data leads to an assert or use of NULL in the configuration change notification.
* src/sysrepo.c 2231-2333: permissions 0 mean not to change them, so sr_set_module_ds_access() cannot remove all permissions.
* src/modinfo.c 3746-3757: targets are paths of nodes in the diff, so positions of instances of lists without keys and of leaf-lists with equal values are those in the diff, not in the data.
* src/sysrepo.c 3498-3505: sr_edit_add() failing after the stored data were loaded leaves them pending with replace, so a later sr_edit_batch() of the session is refused.
* src/executables/srpd_common.c 177-181: swapping changes the order of plugins that are not configured, so it depends on those that are.
* src/executables/sysrepo-plugind.c 631-641: plugins are cleaned up in the order of their initialization, not in the opposite one.

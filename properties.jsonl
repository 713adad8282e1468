{"id": "C01", "title": "Keys are ordered by one strict total order", "statement": "The order used by every lookup, insert and cursor is a strict total order on byte strings: comparing a key with itself gives equal, exchanging the arguments flips the sign, it is transitive, two keys compare equal only when they are the same bytes, and a proper prefix sorts before its extensions.", "quantifier": "every pair and triple of keys of every length, including empty keys and prefixes of each other", "why_tests_cant": "Transitivity and antisymmetry range over all triples of byte strings; a single inconsistent triple silently makes keys unreachable.", "anchors": ["src/napr_db_tree.c: db_key_compare"]}
{"id": "C02", "title": "In-page lookup finds a stored key or its unique insertion point", "statement": "On a page whose keys are strictly increasing, looking up a key reports 'found' with the index of that key exactly when the key is stored, and otherwise 'not found' with the number of stored keys smaller than it. It never reads outside the 4096-byte page.", "quantifier": "every well-formed leaf or branch page with any number of keys and every probe key of at most 65535 bytes (the range of the on-disk key size field; longer probes are C52)", "why_tests_cant": "Binary search is wrong only at particular sizes and positions; the set of pages is unbounded.", "anchors": ["src/napr_db_tree.c: db_page_search, db_key_compare"]}
{"id": "C03", "title": "Page insert adds exactly one entry and damages nothing", "statement": "Inserting a node at an index of a well-formed page either reports 'no space' and changes nothing, exactly when the contiguous free area is smaller than the node plus its slot, or produces a well-formed page whose entry list is the old one with the new entry spliced in at that index. All other entries keep their key and value bytes. No byte outside the page is touched.", "quantifier": "every well-formed page, index, key and value whose node size fits 16 bits", "why_tests_cant": "Corruption of a neighbouring node depends on exact offsets and fragmentation patterns reached only by particular histories.", "anchors": ["src/napr_db_tree.c: db_page_insert"]}
{"id": "C04", "title": "Page delete removes exactly one entry and damages nothing", "statement": "Deleting index i of a well-formed page produces a well-formed page whose entry list is the old one without entry i, with every other key and value byte-identical and the node's bytes returned to the free area; an index past the end is rejected without change.", "quantifier": "every well-formed page (however fragmented) and every index", "why_tests_cant": "The compaction moves bytes and rewrites slots; off-by-one errors show only for specific physical layouts.", "anchors": ["src/napr_db_tree.c: db_page_delete"]}
{"id": "C05", "title": "Splitting a page loses and duplicates nothing", "statement": "Splitting a well-formed leaf or branch page yields two well-formed pages whose entry lists, concatenated, are the original entry list; the divider handed to the parent is the first key of the right page, and for two or more entries both halves are non-empty.", "quantifier": "every well-formed page with at least one entry", "why_tests_cant": "Depends on every combination of entry count and sizes.", "anchors": ["src/napr_db_tree.c: db_split_leaf, db_split_branch"]}
{"id": "C06", "title": "No input size makes a page write go out of bounds", "statement": "Storing a key and value of any size either fails with a status code or writes only inside the page.", "quantifier": "every key size and value size representable in the API (size_t)", "why_tests_cant": "The failing sizes sit just above a 16-bit boundary (node size computed modulo 65536).", "anchors": ["src/napr_db_tree.c: db_page_insert", "src/napr_db.c: napr_db_put"]}
{"id": "C07", "title": "Inside a transaction a successful put is a map update", "statement": "After a successful put(k,v), get(k) in the same transaction returns exactly v, and get of every other key returns what it returned before the put.", "quantifier": "every tree shape and content, every key and value, including puts that split leaves and branches up to the root", "why_tests_cant": "Quantifies over all tree shapes and over all other keys at once; tests only probe a few keys after a few shapes.", "anchors": ["src/napr_db.c: napr_db_put, handle_page_split, propagate_split_up_tree, handle_root_split, napr_db_get", "src/napr_db_tree.c: db_find_leaf_page_with_path_in_tree"]}
{"id": "C08", "title": "Delete removes exactly the given key", "statement": "del(k) succeeds exactly when k is present; afterwards get(k) reports not found and every other key reads as before. When k is absent del reports not found and changes no visible binding.", "quantifier": "every tree shape and content, every key", "why_tests_cant": "Same as for put: ranges over all shapes and all untouched keys.", "anchors": ["src/napr_db.c: napr_db_del", "src/napr_db_tree.c: db_page_delete, db_find_leaf_page_with_path_in_tree"]}
{"id": "C09", "title": "A failed put changes nothing", "statement": "If put returns an error, every key still reads as it did before the call.", "quantifier": "every transaction state and every failing put", "why_tests_cant": "Failure happens only for particular physical page layouts (fragmentation, large values) that fixed tests do not hit.", "anchors": ["src/napr_db.c: napr_db_put, handle_page_split", "src/napr_db_tree.c: db_split_leaf, db_page_insert"]}
{"id": "C10", "title": "put updates an existing key", "statement": "put(k,v) on a key that already has a value replaces the value ('inserts or updates').", "quantifier": "every key and every history inside the transaction", "why_tests_cant": "The result depends on whether the page was already modified earlier in the same transaction, i.e. on the history.", "anchors": ["src/napr_db.c: napr_db_put", "src/napr_db.h: napr_db_put"]}
{"id": "C11", "title": "Conditional delete honours the given value", "statement": "del(k, v) with a non-NULL v deletes k only if its current value equals v.", "quantifier": "every key, stored value and argument value", "why_tests_cant": "A behavioural promise over all pairs of values.", "anchors": ["src/napr_db.c: napr_db_del", "src/napr_db.h: napr_db_del"]}
{"id": "C12", "title": "Insertion order does not matter", "statement": "Any sequence of successful puts of distinct keys leaves all of them retrievable with their values, whatever the order of the keys.", "quantifier": "every sequence of distinct keys (ascending, descending, random)", "why_tests_cant": "The set of permutations is unbounded; only some orders put the split divider in front of the left sibling.", "anchors": ["src/napr_db.c: napr_db_put, propagate_split_up_tree, handle_root_split"]}
{"id": "C13", "title": "Open selects the newest valid meta page", "statement": "Opening a database takes the state of the valid meta page (right magic and version) with the highest transaction id, falls back to the other one when only one is valid, and refuses to open when none is valid.", "quantifier": "every pair of meta page contents", "why_tests_cant": "Range over all contents of two pages after any crash.", "anchors": ["src/napr_db.c: select_live_meta, validate_meta_page, db_init_meta"]}
{"id": "C14", "title": "Commits alternate meta pages and advance the transaction id by one", "statement": "Each successful commit with changes overwrites only the meta page that is not live, leaves the live one untouched, makes the new one live, and its transaction id is the previous id plus one; a commit without changes writes nothing.", "quantifier": "every history of begin/put/del/commit/abort", "why_tests_cant": "An invariant over unbounded histories.", "anchors": ["src/napr_db.c: commit_meta_page, napr_db_txn_commit, napr_db_txn_begin"]}
{"id": "C15", "title": "Commit is atomic under crashes", "statement": "If the machine crashes at any point of a commit, reopening shows either exactly the bindings before the transaction or exactly those after it.", "quantifier": "every committed transaction and every crash point, with any subset of un-synced page writes having reached the disk", "why_tests_cant": "Crash points and write-reordering subsets cannot be enumerated by running the program.", "anchors": ["src/napr_db.c: napr_db_txn_commit, write_dirty_pages_to_disk, commit_meta_page, napr_db_env_open", "src/napr_db_tree.c: db_page_get_writable"]}
{"id": "C16", "title": "Committed data is durable", "statement": "Once commit has returned success, a crash at any later point before the next commit starts writing still leaves exactly the committed bindings on reopen.", "quantifier": "every history and every crash after a successful commit", "why_tests_cant": "Needs all crash images.", "anchors": ["src/napr_db.c: napr_db_txn_commit, commit_meta_page, write_dirty_pages_to_disk"]}
{"id": "C17", "title": "Readers see a stable snapshot", "statement": "A read transaction returns the same answer for every key from begin to end, whatever writers commit meanwhile.", "quantifier": "every interleaving of one reader with any number of committing writers", "why_tests_cant": "Interleavings are unbounded and the reader reads the shared mapping directly.", "anchors": ["src/napr_db.c: napr_db_txn_begin, write_dirty_pages_to_disk, napr_db_get", "src/napr_db_tree.c: db_get_page, db_page_get_writable"]}
{"id": "C18", "title": "Uncommitted changes are private and abort discards them", "statement": "Puts and deletes of an open write transaction never change what any other transaction, or a process that reopens the file, reads; aborting leaves the database exactly as before begin.", "quantifier": "every sequence of operations in a write transaction, every key", "why_tests_cant": "Universal over operation sequences and observers.", "anchors": ["src/napr_db.c: napr_db_put, napr_db_del, napr_db_txn_abort", "src/napr_db_tree.c: db_page_get_writable, db_page_alloc"]}
{"id": "C19", "title": "At most one writer, and the lock is always released", "statement": "Two write transactions are never open at once, and every commit or abort path, including failing ones, releases the writer lock.", "quantifier": "every interleaving of begin/commit/abort by any number of threads", "why_tests_cant": "Requires all interleavings and all failure paths.", "anchors": ["src/napr_db.c: db_writer_lock, db_writer_unlock, napr_db_txn_begin, napr_db_txn_commit, napr_db_txn_abort"]}
{"id": "C20", "title": "The reader table tracks exactly the open readers", "statement": "While every transaction is ended by the thread that began it, the registered snapshots are exactly the multiset of open read transactions (at most 126; begin fails when full), and the oldest-reader query returns their minimum.", "quantifier": "every sequence of reader begins and ends by any threads", "why_tests_cant": "Slot reuse bugs appear only for particular begin/end orders.", "anchors": ["src/napr_db.c: napr_db_txn_begin, napr_db_txn_commit, napr_db_txn_abort, db_get_oldest_reader_txnid"]}
{"id": "C21", "title": "Freed pages are reused only when nobody can see them", "statement": "A page handed out for reuse is not part of the current tree and not reachable from the snapshot of any registered reader.", "quantifier": "every history of write transactions with any readers open", "why_tests_cant": "Depends on multi-transaction histories; a wrong reuse only shows up as lost keys later.", "anchors": ["src/napr_db.c: db_reclaim_page_from_free_db, find_reclaimable_entry, update_or_delete_reclaimed_entry, populate_free_db", "src/napr_db_tree.c: db_page_alloc, db_page_get_writable"]}
{"id": "C22", "title": "Fresh pages never overlap anything", "statement": "Without reuse, allocating n pages returns n consecutive page numbers beyond every page used so far in the file or the transaction, and two allocations never overlap.", "quantifier": "every sequence of allocations of any sizes", "why_tests_cant": "Unbounded sequences.", "anchors": ["src/napr_db_tree.c: db_page_alloc"]}
{"id": "C23", "title": "A forward scan visits every binding once in key order", "statement": "FIRST followed by NEXT until 'not found' yields exactly the bindings of the transaction, each once, in ascending key order.", "quantifier": "every tree shape and content", "why_tests_cant": "Ranges over all tree shapes, including trees that contain emptied leaves.", "anchors": ["src/napr_db_cursor.c: db_cursor_seek, db_cursor_next, napr_db_cursor_get"]}
{"id": "C24", "title": "A backward scan visits every binding once in reverse order", "statement": "LAST followed by PREV until 'not found' yields exactly the bindings of the transaction, each once, in descending key order.", "quantifier": "every tree shape and content", "why_tests_cant": "Ranges over all tree shapes.", "anchors": ["src/napr_db_cursor.c: db_cursor_seek, db_cursor_prev, descend_rightmost, napr_db_cursor_get"]}
{"id": "C25", "title": "SET positions exactly on the key", "statement": "SET on a present key returns that key and its value; on an absent key it reports not found.", "quantifier": "every tree shape, content and key", "why_tests_cant": "Ranges over all tree shapes.", "anchors": ["src/napr_db_cursor.c: db_cursor_seek, napr_db_cursor_get"]}
{"id": "C26", "title": "SET_RANGE finds the smallest key not below the probe", "statement": "SET_RANGE(k) returns the binding with the smallest key >= k, and reports not found only when no such key exists.", "quantifier": "every tree shape, content and probe", "why_tests_cant": "Fails only when the answer is in the next leaf.", "anchors": ["src/napr_db_cursor.c: db_cursor_seek, napr_db_cursor_get", "src/napr_db.h: NAPR_DB_SET_RANGE"]}
{"id": "C27", "title": "Cache sweep deletes exactly the unvisited paths", "statement": "After a successful sweep the cache contains exactly the entries whose path was marked visited, with unchanged values.", "quantifier": "every cache content and every visited set", "why_tests_cant": "Ranges over all cache shapes and visited sets.", "anchors": ["src/napr_cache.c: napr_cache_sweep, napr_cache_mark_visited"]}
{"id": "C28", "title": "Cache lookup returns what was last stored", "statement": "After a successful upsert of (path, entry), lookup of the path returns exactly that entry; a path never stored is reported not found; a stored value of the wrong size is rejected instead of being returned.", "quantifier": "every path and entry, every cache content", "why_tests_cant": "Universal over contents and paths.", "anchors": ["src/napr_cache.c: napr_cache_upsert_in_txn, napr_cache_lookup_in_txn"]}
{"id": "C29", "title": "The priority queue always yields a maximum", "statement": "Extract returns an element that no other queued element exceeds, for any total preorder given as the comparison callback, after any sequence of inserts and extracts; on an empty queue it returns nothing.", "quantifier": "every comparison preorder, every sequence of inserts and extracts", "why_tests_cant": "Heap-order violations occur only for particular shapes.", "anchors": ["src/napr_heap.c: napr_heap_insert, napr_heap_extract"]}
{"id": "C30", "title": "The priority queue neither loses nor duplicates elements", "statement": "The multiset of inserted elements equals the multiset of extracted elements plus those still queued, for any comparison callback, also across array growth; draining n inserted elements yields a descending permutation of them.", "quantifier": "every sequence of inserts and extracts, every queue size", "why_tests_cant": "Unbounded sequences and resizes.", "anchors": ["src/napr_heap.c: napr_heap_insert, napr_heap_extract, napr_heap_get_nth, napr_heap_size"]}
{"id": "C31", "title": "The hash table behaves as a map", "statement": "After any sequence of 'search, then set if absent' and remove operations, search(k) returns exactly the element stored under k, or nothing, whatever the hash function and across table growth.", "quantifier": "every hash function, key comparison, fill factor >= 2 and operation sequence on which growth terminates", "why_tests_cant": "Collisions and rebuilds are data dependent.", "anchors": ["src/napr_hash.c: napr_hash_search, napr_hash_set, napr_hash_remove, napr_hash_rebuild"]}
{"id": "C32", "title": "Hash iteration visits each element exactly once", "statement": "first/next/this over a table with no concurrent modification enumerates exactly the stored elements, each once.", "quantifier": "every table content", "why_tests_cant": "Depends on empty and full buckets in every arrangement.", "anchors": ["src/napr_hash.c: napr_hash_first, napr_hash_next, napr_hash_this"]}
{"id": "C33", "title": "Inserting into the hash table terminates", "statement": "Every set operation terminates.", "quantifier": "every hash function and every sequence of set operations", "why_tests_cant": "Non-termination needs colliding keys or duplicates that tests do not contain.", "anchors": ["src/napr_hash.c: napr_hash_set, napr_hash_rebuild", "src/ft_config.c: ft_hash_add_ignore_list"]}
{"id": "C34", "title": "Every queued task is processed exactly once", "statement": "Every task added to the thread pool is handed to the processing callback exactly once, by one worker.", "quantifier": "every number of workers, every number of tasks, every interleaving of adders, workers and waiter", "why_tests_cant": "Schedules are unbounded.", "anchors": ["src/napr_threadpool.c: napr_threadpool_add, napr_threadpool_loop, process_task"]}
{"id": "C35", "title": "wait returns only after all tasks are done", "statement": "When napr_threadpool_wait returns, every task added before the call has been fully processed and none has been discarded.", "quantifier": "every interleaving, every number of workers and tasks", "why_tests_cant": "Depends on wakeup order of condition variables.", "anchors": ["src/napr_threadpool.c: napr_threadpool_wait, wait_for_task"]}
{"id": "C36", "title": "The thread pool cannot deadlock", "statement": "As long as callbacks terminate, from every reachable state the waiter can still reach completion: there is no reachable state with a blocked waiter in which no thread can make progress.", "quantifier": "every reachable state of every interleaving", "why_tests_cant": "Lost wakeups show only in rare schedules.", "anchors": ["src/napr_threadpool.c: napr_threadpool_wait, napr_threadpool_loop, wait_for_task"]}
{"id": "C37", "title": "Only files with identical content are reported as duplicates", "statement": "Two files reported in the same group were compared byte for byte and found equal (equal size and content at comparison time).", "quantifier": "every set of files, every hash function (collisions included), every priority assignment", "why_tests_cant": "Requires all hash collision patterns.", "anchors": ["src/ft_report.c: process_and_report_duplicates_for_file, compare_and_report_pair, ft_report_duplicates", "src/ft_file.c: filecmp"]}
{"id": "C38", "title": "All duplicates are reported", "statement": "Any two non-ignored files of equal content and admissible size appear in the same reported group.", "quantifier": "every set of files, sizes and contents", "why_tests_cant": "Quantifies over all file populations and heap/sort orders.", "anchors": ["src/ft_process.c: categorize_files, dispatch_hashing_tasks, collect_hashing_results", "src/ft_report.c: ft_report_duplicates"]}
{"id": "C39", "title": "No file is reported twice", "statement": "In one run every file path occurs at most once in the report.", "quantifier": "every set of files and contents", "why_tests_cant": "Universal over populations.", "anchors": ["src/ft_report.c: process_and_report_duplicates_for_file, compare_and_report_pair", "src/ft_report_json.c: ft_report_json"]}
{"id": "C40", "title": "Reporting never crashes", "statement": "Reporting terminates normally for every population of files and every outcome of the file comparisons.", "quantifier": "every pattern of equal hashes, comparison results and comparison failures", "why_tests_cant": "The crash needs a comparison failure or a hash collision between specific entries.", "anchors": ["src/ft_report.c: process_and_report_duplicates_for_file, compare_and_report_pair"]}
{"id": "C41", "title": "Prioritized files come first", "statement": "In every reported group, files under the priority path are listed before the others.", "quantifier": "every group with any mixture of prioritized and other files", "why_tests_cant": "Universal over groups and sort orders.", "anchors": ["src/ft_report.c: ft_chksum_cmp", "src/ft_traverse.c: process_file"]}
{"id": "C42", "title": "Files are compared correctly", "statement": "Comparing two readable files reports 'equal' exactly when they have the same bytes.", "quantifier": "every pair of file contents and sizes, both comparison strategies, every chunk size", "why_tests_cant": "Chunk boundaries and size changes between scan and comparison.", "anchors": ["src/ft_file.c: filecmp, small_filecmp, big_filecmp"]}
{"id": "C43", "title": "Only files of unique size are dropped before hashing", "statement": "A file is excluded from comparison exactly when no other collected file has the same size.", "quantifier": "every multiset of file sizes", "why_tests_cant": "Universal over size distributions.", "anchors": ["src/ft_process.c: categorize_files", "src/ft_traverse.c: process_file"]}
{"id": "C44", "title": "Size limits are inclusive and exact", "statement": "A regular file is collected exactly when minsize <= size and (maxsize = 0 or size <= maxsize).", "quantifier": "every size and every pair of limits", "why_tests_cant": "Boundary arithmetic over 64-bit sizes.", "anchors": ["src/ft_traverse.c: process_file"]}
{"id": "C45", "title": "Permission filter follows the owner/group/world rule", "statement": "A file is considered readable exactly when the matching class bit is set: owner bit for the owner, else group bit for members of the group, else world bit; root passes always.", "quantifier": "every uid, gid set, mode bits", "why_tests_cant": "Universal over identities and modes.", "anchors": ["src/ft_traverse.c: check_permissions"]}
{"id": "C46", "title": "The last matching ignore pattern decides", "statement": "Within one ignore file, a path is ignored exactly when the last pattern that matches it is not negated.", "quantifier": "every pattern list and path", "why_tests_cant": "Universal over pattern lists.", "anchors": ["src/ft_ignore.c: ft_ignore_match"]}
{"id": "C47", "title": "Ignore files closer to the path take precedence", "statement": "A decision of a directory's own ignore file overrides those of its ancestors (Git semantics).", "quantifier": "every chain of ignore files and path", "why_tests_cant": "Needs conflicting patterns at different levels.", "anchors": ["src/ft_ignore.c: ft_ignore_match"]}
{"id": "C48", "title": "Glob translation preserves meaning", "statement": "The regular expression produced for a pattern made of literals, '?', '*' and '**' matches a path exactly when the glob does.", "quantifier": "every such pattern and every path", "why_tests_cant": "Infinite sets of patterns and paths; escaping errors are pattern specific.", "anchors": ["src/ft_ignore.c: ft_glob_to_pcre, convert_glob_body_to_pcre, handle_star"]}
{"id": "C49", "title": "Pattern translation never overruns its buffer", "statement": "Translating an ignore pattern writes only inside the 4096-byte output buffer.", "quantifier": "every pattern line accepted by the loader", "why_tests_cant": "Only long patterns with expanding characters overflow.", "anchors": ["src/ft_ignore.c: ft_glob_to_pcre, convert_glob_body_to_pcre, ft_ignore_load_file"]}
{"id": "C50", "title": "Human-readable sizes parse to the right byte count", "statement": "A decimal integer with optional whitespace and K/M/G/T suffix parses to the integer times 1024^i; anything else is rejected with -1.", "quantifier": "every digit string and suffix", "why_tests_cant": "Universal over strings and magnitudes, including precision and overflow limits.", "anchors": ["src/human_size.c: parse_human_size"]}
{"id": "C51", "title": "JSON and text reports agree", "statement": "For the same population and comparison outcomes without failures, the JSON report has exactly one set per text group with the same members in the same order.", "quantifier": "every population", "why_tests_cant": "Universal over populations.", "anchors": ["src/ft_report_json.c: ft_report_json", "src/ft_report.c: ft_report_duplicates"]}
{"id": "C52", "title": "An oversized key is never mistaken for a stored key", "statement": "Looking up a key of any length reports found only if exactly that key is stored.", "quantifier": "every page and every probe key, including keys longer than 65535 bytes", "why_tests_cant": "Tests use short keys; the length is silently truncated to 16 bits in the comparison call, so only keys of 64 KiB and more show the problem.", "anchors": ["src/napr_db_tree.c:db_page_search", "src/napr_db.c:napr_db_get"]}
{"id": "C53", "title": "Commit publishes exactly the transaction's contents", "statement": "After a successful commit every later transaction, in this process or after reopening, reads exactly the bindings the committing transaction saw; hence every history of committed transactions reads as the sequential application of its puts and deletes to a map.", "quantifier": "every sequence of transactions, every sequence of operations in each, every key", "why_tests_cant": "Pages recorded as free by one transaction are handed out again by a later one; the loss only shows up after particular multi-transaction histories.", "anchors": ["src/napr_db.c: napr_db_txn_commit", "src/napr_db.c: build_pgno_map", "src/napr_db.c: write_dirty_pages_to_disk", "src/napr_db.c: commit_meta_page", "src/napr_db_tree.c: db_page_alloc"]}
{"id": "C54", "title": "A checksum depends on the bytes of the file only", "statement": "The checksum computed for a readable file of the recorded size is the hash of its bytes, whichever strategy is chosen, however the reads are split and whether or not mapping works.", "quantifier": "every content, threshold, chunk size, every splitting of the reads", "why_tests_cant": "The splitting of reads and the failure of mmap are chosen by the system, not by a test.", "anchors": ["src/ft_file.c: checksum_file, checksum_small_file, checksum_big_file"]}
{"id": "C55", "title": "A run reports exactly the files with equal bytes", "statement": "For any set of collected files, two different files appear in one reported group exactly when they have the same bytes, in the text and in the JSON report.", "quantifier": "every population of files, contents, sizes, options, order of the table, sort order of equal elements, every behaviour of the reads", "why_tests_cant": "The whole pipeline (collection, size table, hashing, sorting, comparing) over all populations; tests run a few directories.", "anchors": ["src/ftwin.c: run_ftwin_processing", "src/ft_process.c", "src/ft_report.c", "src/ft_report_json.c", "src/ft_file.c"]}
{"id": "C56", "title": "Default ignore patterns apply wherever the walk starts", "statement": "The built-in ignore patterns mean what their names say and decide about every scanned path that no ignore file mentions.", "quantifier": "every path, absolute or relative", "why_tests_cant": "Tests use one working directory and absolute temporary paths; relative roots take another way.", "anchors": ["src/ft_config.c: default_ignores, ft_load_defaults, ft_config_create", "src/ft_ignore.c: ft_ignore_match"]}
{"id": "C57", "title": "Fractional sizes parse to the integer part of the exact product", "statement": "A decimal fraction with an optional K/M/G/T suffix, such as 1.44M, parses to the integer part of the exact decimal number times 1024^i, although the number is read as a binary floating point number first.", "quantifier": "every digit string before and after the decimal point and every suffix", "why_tests_cant": "Binary rounding before truncation can be off by one for particular digit strings; only an argument about the rounding error covers all of them.", "anchors": ["src/human_size.c:37-71 parse_human_size"]}
{"id": "C58", "title": "The walk hands over exactly the files reachable through names and directories that are not excluded", "statement": "When the walk over the arguments succeeds, the files compared are exactly the regular files that can be reached from an argument through directories that pass the permission check and the ignore files in force, by names that are not hidden, not in the ignore list, not excluded by the regular expressions and, without recursion, not directories.", "quantifier": "every file system, every set of options, every list of arguments, any behaviour of the regular expression library", "why_tests_cant": "Unbounded directory trees and all combinations of options.", "anchors": ["src/ft_traverse.c:92-176", "src/ftwin.c:85-102"]}
{"id": "C59", "title": "No file is examined twice", "statement": "The walk hands over each path at most once, whatever the arguments.", "quantifier": "every file system and every list of arguments", "why_tests_cant": "Requires an argument about all pairs of paths produced in different subtrees.", "anchors": ["src/ft_traverse.c:112-176", "src/ftwin.c:85-102"]}
{"id": "C60", "title": "A run gets through whatever it meets", "statement": "A file that vanishes, a directory that cannot be opened, a broken or circular symbolic link does not keep the run from comparing the other files; the walk ends.", "quantifier": "every file system", "why_tests_cant": "All failure positions in all trees; termination.", "anchors": ["src/ft_traverse.c:18-37", "src/ft_traverse.c:112-151"]}
{"id": "C61", "title": "Hidden and listed names are never entered", "statement": "Every path met below an argument consists of names that are not in the ignore list and, unless hidden files are asked for, do not begin with a dot.", "quantifier": "every file system, option set and path", "why_tests_cant": "All paths at all depths.", "anchors": ["src/ft_traverse.c:135-137", "src/ft_config.c:249-253"]}
{"id": "C62", "title": "Without recursion only direct entries are examined", "statement": "With --no-recurse the files examined are the arguments and direct entries of argument directories.", "quantifier": "every file system and path", "why_tests_cant": "All trees, including those with links.", "anchors": ["src/ft_traverse.c:138-140"]}
{"id": "C63", "title": "The regular expressions select files by path", "statement": "With a whitelist expression exactly the files whose path matches it are compared, in all subdirectories; with an ignore expression exactly those that do not match.", "quantifier": "every file system, every pair of expressions", "why_tests_cant": "Interaction of the filters with the descent into directories.", "anchors": ["src/ft_traverse.c:95-98", "src/ft_config.c:491-496"]}
{"id": "C64", "title": "A run reports exactly the sets of selected files with equal bytes", "statement": "From arguments to output: two different paths are printed in one group if and only if both are selected by the options and their contents are equal.", "quantifier": "every file system, option set, argument list and content", "why_tests_cant": "Composition of walk, collection, hashing, comparison and reporting over all inputs.", "anchors": ["src/ftwin.c:74-131", "src/ft_traverse.c", "src/ft_process.c", "src/ft_report.c"]}
{"id": "C65", "title": "A file is never reported as its own duplicate", "statement": "No path occurs twice in the output.", "quantifier": "every file system and argument list", "why_tests_cant": "Depends on all pairs of arguments and on the whole pipeline.", "anchors": ["src/ftwin.c:85-102", "src/ft_report.c"]}
{"id": "C66", "title": "Every option sets what it names; the last one counts", "statement": "After a successful parse each setting has the value given by the last option that names it, or its default; flags are on exactly if given (-r and -R: the later one; -v unless -J); the walk and the collection get exactly these settings.", "quantifier": "every sequence of options, every argument list", "why_tests_cant": "The number of option sequences is unbounded and settings interact (-I, -J, -r/-R).", "anchors": ["src/ft_config.c:223-272", "src/ft_config.c:337-672"]}
{"id": "C67", "title": "A command line is accepted exactly if every option and argument is valid", "statement": "Unknown options, missing arguments and malformed values make the program stop with an error; nothing valid is rejected.", "quantifier": "every sequence of options", "why_tests_cant": "Both directions over all argument texts.", "anchors": ["src/ft_config.c:443-482", "src/ft_config.c:611-620"]}
{"id": "C68", "title": "The ignore list is split at commas", "statement": "A name is skipped exactly if it is '.', '..' or one of the comma separated names of some -i option.", "quantifier": "every option sequence, every list text, every non-empty name", "why_tests_cant": "All texts, including adjacent and trailing commas and several -i options.", "anchors": ["src/ft_config.c:140-165", "src/ft_config.c:418-441"]}
{"id": "C69", "title": "-j accepts exactly the integers from 1 to 256", "statement": "The argument of -j is accepted exactly if it is an optionally signed decimal integer between 1 and 256, and then this is the number of threads.", "quantifier": "every argument text", "why_tests_cant": "All texts, including overflowing and signed ones.", "anchors": ["src/ft_config.c:443-455"]}
{"id": "C70", "title": "JSON output is never mixed with progress messages", "statement": "Whatever the order of -v and -J, with JSON output the progress display is off.", "quantifier": "every option sequence", "why_tests_cant": "All orders and repetitions.", "anchors": ["src/ft_config.c:410-415", "src/ft_config.c:546-553"]}
{"id": "C71", "title": "All groups of the user count", "statement": "A file readable through any of the groups of the process, including the effective one, is recognised as readable.", "quantifier": "every list of supplementary groups, every effective group", "why_tests_cant": "Needs accounts with hundreds of groups.", "anchors": ["src/ft_config.c:103-138"]}
{"id": "C72", "title": "Each line of an ignore file is one pattern", "statement": "Reading an ignore file yields, in order, one pattern for each line that is neither blank nor a comment; line ends may be LF or CR LF and white space before a pattern does not count.", "quantifier": "every file content", "why_tests_cant": "All splits of all texts into lines, with the fixed line buffer.", "anchors": ["src/ft_ignore.c:316-386"]}
{"id": "C73", "title": "The last line of an ignore file that hits a path decides", "statement": "For an ignore file as written, a path is ignored exactly if the last line whose pattern hits it is not negated; patterns ending in a slash only count for directories.", "quantifier": "every ignore file, every path, file or directory", "why_tests_cant": "Composition of reading, translation, matching and precedence over all texts and paths.", "anchors": ["src/ft_ignore.c:63-442"]}
{"id": "C74", "title": "The printed text is the groups and can be read back", "statement": "In text mode standard output consists of exactly the groups, each once and in order: its size if asked for, its paths joined by the separator, an empty line. From the text the groups of paths can be recovered.", "quantifier": "every set of files, hash and comparison behaviour, separator, with and without sizes", "why_tests_cant": "Absence of any other or missing output, and unambiguity, over all runs.", "anchors": ["src/ft_report.c:67-146", "src/ft_report.c:215-273"]}
{"id": "C75", "title": "The documented clean-up loses no content", "statement": "Deleting the first path of every line with a separator, as the README's pipeline does, leaves at least one file with each content among the files examined.", "quantifier": "every set of files, separator, also after an aborted run", "why_tests_cant": "Data loss must be excluded for all file sets and names.", "anchors": ["README.md:108-122", "src/ft_report.c:67-146"]}
{"id": "C76", "title": "Larger files are reported first", "statement": "Groups are listed in order of decreasing file size, in text and JSON mode.", "quantifier": "every set of files", "why_tests_cant": "The order comes from the heap over all insertion orders.", "anchors": ["src/ft_report.c:103-146", "src/ft_report_json.c:133-224"]}
{"id": "C77", "title": "Every pair of similar images is named exactly once", "statement": "In image mode the report names each pair of distinct files that both decode and whose vectors are closer than the threshold exactly once, the larger file first, and nothing else; files that do not decode do not disturb the others.", "quantifier": "every set of files, every decoder and distance, every separator", "why_tests_cant": "All orders in which the heap delivers the files while it is searched.", "anchors": ["src/ft_image.c:102-120", "src/ft_image.c:189-239", "src/napr_heap.c:199-210"]}
{"id": "C78", "title": "Cleaning up similar images keeps a similar one", "statement": "Deleting the first path of every line of the image report leaves, for each deleted image, a similar image.", "quantifier": "every set of files, every symmetric similarity", "why_tests_cant": "Similarity is not transitive; chains of any length have to be considered.", "anchors": ["README.md:108-122", "src/ft_image.c:189-239"]}
{"id": "C79", "title": "A size shown is the size, rounded", "statement": "The size shown with --display-size is, below 1024 bytes, the exact number of bytes; otherwise the number of the largest fitting 1024-unit rounded to the nearest tenth, always below 1024.", "quantifier": "every file size", "why_tests_cant": "All sizes up to 2^63, with two roundings: to a double and to a tenth.", "anchors": ["src/human_size.c:19-35", "src/ft_report.c:252-262"]}
{"id": "C80", "title": "A size shown can be typed back", "statement": "Giving a size as the report shows it to -m or -M means that size again, up to the rounding of the display.", "quantifier": "every file size", "why_tests_cant": "Composes a formatter and a parser through floating point for all sizes.", "anchors": ["src/human_size.c:19-35", "src/human_size.c:37-71"]}
{"id": "C81", "title": "Parallel hashing gives the sequential result", "statement": "Whatever the number of threads and the schedule, once the wait returns every chosen file's cell holds the hash of that file, nothing else has changed, the progress counter is the number of files hashed, and no two threads ever worked on the same cell.", "quantifier": "every table of sizes, every number of threads, every schedule", "why_tests_cant": "The number of schedules is unbounded; a race or a lost task shows up in a few of them only.", "anchors": ["src/ft_process.c:20-80", "src/ft_process.c:171-241", "src/napr_threadpool.c:245-405"]}
{"id": "C82", "title": "The task list is a queue", "statement": "The linked list of the pool hands out its elements in the order in which they were put in, also after it has been emptied or renewed, and never touches memory that is not a cell.", "quantifier": "every sequence of enqueue, take and renew", "why_tests_cant": "The tail pointer is stale after the list runs empty; all interleavings of uses have to be considered.", "anchors": ["src/napr_threadpool.c:36-155", "src/napr_threadpool.c:257", "src/napr_threadpool.c:310-311", "src/napr_threadpool.c:326-328"]}
{"id": "C83", "title": "The JSON document is exact", "statement": "A JSON run writes an array of sets; each set gives the size and the hash of the common content of its files and, for each file, its path, its modification time and whether it is prioritized; no path comes twice; two collected files are in one set exactly when their bytes are equal.", "quantifier": "every list of files, every content, every hash without collisions on them", "why_tests_cant": "The document depends on hashing, sorting, pairwise comparison and text encoding together; a name that is no valid UTF-8 drops a member silently.", "anchors": ["src/ft_report_json.c:47-77", "src/ft_report_json.c:119-170", "src/ft_report_json.c:173-215"]}
{"id": "C84", "title": "Times in the document sort chronologically", "statement": "The texts written for two modification times have the fixed ISO 8601 form, compare byte by byte as the seconds do, and are equal exactly for the same second.", "quantifier": "all pairs of times", "why_tests_cant": "Order of texts against order of times over all calendar dates, with leap years and field widths.", "anchors": ["src/ft_report_json.c:44-55"]}
{"id": "C85", "title": "Exit status 0 means the report is complete", "statement": "If ftwin exits with status 0, everything under the arguments that the options do not exclude was examined, and two of these files stand in one group of the report exactly if their contents are equal; the run exits with status 0 whenever there is a file to compare and all could be examined.", "quantifier": "for all command lines, file trees, contents and directory orders", "why_tests_cant": "A test sees single exit codes of single trees; the claim ties the status to completeness over all trees and all options.", "anchors": ["src/ftwin.c:74-180", "src/ft_traverse.c:92-176", "src/ft_report.c", "src/ft_report_json.c"]}
{"id": "C86", "title": "With -J standard output is one JSON document or nothing of it", "statement": "With -J a run that exits with status 0 has written exactly one JSON document to standard output, a failing run writes none, and without -J no document is written.", "quantifier": "for all command lines, file trees, failures and contents", "why_tests_cant": "Combinations of options and failures cannot be enumerated by tests.", "anchors": ["src/ftwin.c:104-131", "src/ft_config.c:206-215", "src/ft_config.c:527-553"]}
{"id": "C87", "title": "Every path in the document is absolute", "statement": "Every path in the JSON document is an absolute path, however the arguments were written.", "quantifier": "for all arguments, file trees and failures", "why_tests_cant": "Paths are composed by recursion over trees of any depth.", "anchors": ["src/ftwin.c:85-102", "src/ft_traverse.c:134-147", "src/ft_report_json.c:65-77"]}
{"id": "C88", "title": "What is found does not depend on order or on the machine", "statement": "Two runs over the same files and contents with the same selecting options find the same pairs of duplicates, whatever the order of arguments and directory entries, the sort and iteration order, the number of processors and threads, the mapping threshold and the output options.", "quantifier": "for all pairs of runs over trees with the same content", "why_tests_cant": "Orders, thread counts and listings cannot all be tried.", "anchors": ["src/ftwin.c:74-131", "src/ft_traverse.c:92-176", "src/ft_process.c", "src/ft_report.c", "src/ft_config.c:337-672"]}
{"id": "C89", "title": "No run has undefined behaviour", "statement": "No accepted command line leads to undefined behaviour, whatever the files are.", "quantifier": "for all accepted command lines, trees, ignore files and contents", "why_tests_cant": "Undefined behaviour may look harmless in any number of test runs.", "anchors": ["src/ftwin.c:74-180", "src/ft_traverse.c:18-90", "src/ft_ignore.c", "src/ft_process.c:38-54", "src/ft_report.c:157-220"]}
{"id": "C90", "title": "No page is handed out twice", "statement": "When a page is taken from the list of free pages it is struck off that list, nothing else on the list changes, and no page outside the Free DB changes. In one write transaction no page is handed out twice.", "quantifier": "for all database files, transactions and numbers of allocations", "why_tests_cant": "A page handed out twice shows only when two later writes land on it, in databases with a history of deletions.", "anchors": ["src/napr_db.c:1047-1127", "src/napr_db_tree.c:272-302"]}
{"id": "C91", "title": "Archive mode leaves no temporary file", "statement": "When hashing with -t is finished, by however many threads, and after each comparison of two files, every temporary file made for it is gone again, whichever call failed on the way.", "quantifier": "for all archives, answers of libarchive, numbers of threads, interleavings and failures", "why_tests_cant": "The clean-up has a different path for each call that can fail, and threads interleave in unboundedly many ways.", "anchors": ["src/ft_archive.c:67-155", "src/ft_process.c:20-85", "src/ft_report.c:157-208", "src/ft_report_json.c:79-105"]}
{"id": "C92", "title": "Archive mode never changes a file of the user", "statement": "No file, link or directory that existed before is written, replaced or removed by hashing or comparing with -t, at any moment.", "quantifier": "for all archives, answers of libarchive, numbers of threads, interleavings and failures", "why_tests_cant": "A wrong path handed to the removal of temporary files deletes the user's data only in one particular combination of plain files, members and failures.", "anchors": ["src/ft_archive.c:67-155", "src/ft_process.c:52-54", "src/ft_report.c:172-208", "src/ft_report_json.c:79-89"]}
{"id": "C93", "title": "Archive members are hashed and compared by their bytes", "statement": "A job of hashing with -t ends with the hash of exactly the bytes the first member of that name has in the archive, and a comparison compares exactly these bytes, whatever other threads do; it fails only if a call of the libraries fails.", "quantifier": "for all archives, block structures of members, numbers of threads and interleavings", "why_tests_cant": "Threads sharing a temporary name or a wrong offset in a sparse member show only in particular schedules and archives.", "anchors": ["src/ft_archive.c:44-155", "src/ft_process.c:38-50", "src/ft_report.c:157-190"]}
{"id": "C94", "title": "Extracting a member leaves the process as it was", "statement": "After extraction the file creation mask is the one before and no archive handle is in use.", "quantifier": "for all archives, failures and interleavings", "why_tests_cant": "The mask is shared by all threads; only some interleavings lose it.", "anchors": ["src/ft_archive.c:75-155"]}
{"id": "C95", "title": "Opening leaves an existing database as it is", "statement": "napr_db_env_open on a path where a database lies never changes a byte of it, whatever call fails, and shows exactly the keys stored there; where nothing lies it makes an empty database or fails.", "quantifier": "for all files, flags, map sizes, outcomes of every system call and actions of other processes during the call", "why_tests_cant": "Which system calls fail, and what another process does between stat and open, cannot be chosen by a test.", "anchors": ["src/napr_db.c:34-390", "src/napr_db_internal.h:278-304"]}
{"id": "C96", "title": "Nothing stays open", "statement": "After a failed open and after close no descriptor and no map of the file remains, and close may be called again.", "quantifier": "for all outcomes of the system calls, flags, handles and files", "why_tests_cant": "Each of the failing calls would have to be injected, at each position.", "anchors": ["src/napr_db.c:60-390"]}
{"id": "C97", "title": "Opening never crashes", "statement": "napr_db_env_open returns a status for every file it finds.", "quantifier": "for all files, lengths, map sizes, flags and failures", "why_tests_cant": "Files of unusual length and odd map sizes are an unbounded set.", "anchors": ["src/napr_db.c:60-330"]}
{"id": "C98", "title": "Several processes can share a database", "statement": "What a process commits is seen by every process that opens the file afterwards, and no committed change is lost as long as each process uses the functions as documented.", "quantifier": "for all numbers of processes, programs and interleavings", "why_tests_cant": "Interleavings of processes cannot be enumerated by tests.", "anchors": ["src/napr_db.c:34-390", "src/napr_db.c:560-1000"]}
{"id": "C99", "title": "A cache is open at most once", "statement": "Two processes, or two handles of one process, never have the same cache open at the same time, and after the last one is closed or its process has ended it can be opened again.", "quantifier": "for all interleavings of opening, closing, failing and exiting of any number of processes and handles", "why_tests_cant": "Interleavings of processes; the effect of closing one descriptor on the locks of the process.", "anchors": ["src/napr_cache.c:38-184"]}
{"id": "C100", "title": "The tables tell sizes, groups and names apart exactly", "statement": "With the comparison and hash callbacks of the program, the table of file sizes, the table of groups and the table of ignored names answer as maps keyed by 64-bit sizes, group numbers and byte strings.", "quantifier": "for all sequences of insertions, searches and removals of any keys", "why_tests_cant": "Sizes that agree in their lower half or in their hash value are too rare to be met by chance.", "anchors": ["src/key_hash.c:14-57", "src/ftwin.c:60-72", "src/ft_config.c:105-138", "src/napr_hash.c:37-330", "src/vendor/xxhash/xxhash.h:2560-2806"]}
{"id": "C101", "title": "A failed open can be repeated", "statement": "An open that failed because a system call failed succeeds when it is repeated and no call fails.", "quantifier": "for all outcomes of the system calls, flags and files", "why_tests_cant": "Each of the failing calls would have to be injected, at each position.", "anchors": ["src/napr_db.c:60-390"]}
{"id": "C102", "title": "Filling the tables ends", "statement": "Every sequence of insertions of file sizes and of groups into the tables of the program ends.", "quantifier": "for all sequences of sizes and of group numbers", "why_tests_cant": "The sizes that make the table grow without end are a handful among 2^64.", "anchors": ["src/key_hash.c:14-57", "src/napr_hash.c:37-330", "src/vendor/xxhash/xxhash.h:2560-2806"]}
{"id": "C103", "title": "Tasks are handed out in order and never twice", "statement": "In every use of the thread pool the tasks handed to the callback are a subsequence of the tasks added: none is handed out twice, none in another order, none that was not added; each worker runs one callback at a time and finishes it before the next.", "quantifier": "for all numbers of workers, clients, calls, interleavings and spurious wakeups", "why_tests_cant": "A test sees a few interleavings.", "anchors": ["src/napr_threadpool.c: napr_threadpool_add, napr_threadpool_loop, wait_for_task"]}
{"id": "C104", "title": "A cache lookup answers exactly what is stored", "statement": "In every transaction a lookup answers the entry whose 40 bytes are stored under the path, \"not found\" for a path that is not bound, and an error for a value of another size.", "quantifier": "for all cache contents, transactions and paths", "why_tests_cant": "Universal over contents and paths.", "anchors": ["src/napr_cache.c: napr_cache_lookup_in_txn"]}
{"id": "C105", "title": "The next process sees what the last one would have seen", "statement": "After a process has closed the database, the next process that opens it finds for every key exactly the answer that a new transaction of the first process would have given before the close.", "quantifier": "for all histories whose commits meet no I/O error", "why_tests_cant": "Histories are unbounded.", "anchors": ["src/napr_db.c:34-390", "src/napr_db.c: napr_db_txn_commit"]}
{"id": "C106", "title": "No two threads work on the same file cell", "statement": "While the files are hashed in parallel, no two workers ever run a task for the same cell of the size table, in any interleaving.", "quantifier": "for all tables, numbers of workers and interleavings", "why_tests_cant": "Data races show only in rare schedules.", "anchors": ["src/ft_process.c: ft_process_files, dispatch_hashing_tasks, hashing_worker_callback"]}
{"id": "C107", "title": "Nothing but the groups is printed", "statement": "The text output is exactly the groups found, each once and in their order; only after an error the last group may lack its empty line.", "quantifier": "for all files, options, orders of iteration and errors", "why_tests_cant": "Universal over runs.", "anchors": ["src/ft_report.c:41-273"]}
{"id": "C108", "title": "Keys put in ascending order stay retrievable", "statement": "Puts into an empty database in strictly ascending order of the keys, that all succeed, leave exactly these keys, each with its value, however many pages, splits and levels it takes; and so it is after commit for every new reader.", "quantifier": "for all ascending sequences of keys and values of which any two fit in one page", "why_tests_cant": "The number of splits and levels is unbounded.", "anchors": ["src/napr_db.c: napr_db_put, propagate_split_up_tree, handle_root_split", "src/napr_db_tree.c: db_split_leaf, db_split_branch"]}
{"id": "C109", "title": "A put succeeds while there is room", "statement": "A put of a pair that fits in a page succeeds as long as pages can be allocated; in particular whether a set of pairs can be stored does not depend on the order in which they are put.", "quantifier": "for all trees, keys and values", "why_tests_cant": "Depends on the sizes and the order of all pairs put before.", "anchors": ["src/napr_db_tree.c: db_split_leaf, db_split_branch", "src/napr_db.c: napr_db_put"]}
{"id": "C110", "title": "With -I every pair of similar images is named", "statement": "If a run with -I exits with status 0, two different selected picture files whose signatures could be computed and whose distance is below the threshold are both named on a line of the output, and every pair a line names is such a pair.", "quantifier": "for all command lines with -I, file trees, signatures and distances, also with failing reads", "why_tests_cant": "All pairs of all trees and all signatures; a test compares a few pictures.", "anchors": ["src/ftwin.c:74-180", "src/ft_image.c", "src/ft_traverse.c:92-176"]}
{"id": "C111", "title": "The exit status tells how the run ended", "statement": "The status is 0, 1 or -1. It is 1 exactly if the command line is unusable and no help or version was asked for before the first mistake; status 0 comes with a report or with the help text that was asked for; with -1 no complete report was written.", "quantifier": "for all command lines and file trees", "why_tests_cant": "All combinations and orders of options, arguments and failures.", "anchors": ["src/ftwin.c:133-180", "src/ft_config.c:337-672"]}
{"id": "C112", "title": "A cache that no other process uses can be opened", "statement": "Opening the cache is refused as busy only while another process has it open, and fails otherwise only if the database cannot be opened; an open that does not succeed changes no handle, one that succeeds adds its own.", "quantifier": "for all histories of opens, closes and exits of all processes", "why_tests_cant": "All interleavings of any number of processes.", "anchors": ["src/napr_cache.c: napr_cache_open, napr_cache_close"]}
{"id": "C113", "title": "An aborted cache transaction leaves no trace and calls outside one are refused", "statement": "Abort undoes whatever was stored since begin, also when calls in between failed, and keeps only the marks; after a transaction ended, by whatever outcome, lookups, upserts, commits and aborts are refused and change nothing until the next begin.", "quantifier": "for all caches and all sequences of calls", "why_tests_cant": "Sequences of calls and failures are unbounded.", "anchors": ["src/napr_cache.c: begin_write, upsert, lookup, commit_write, abort_write, end_read, sweep"]}
{"id": "C114", "title": "Loading a new database in key order succeeds", "statement": "A write transaction that puts pairs into an empty database in strictly ascending order of the keys succeeds from begin to commit, and every later reader finds exactly these pairs, provided the sizes of the keys and of the pairs do not differ too much: no put is refused for want of room and no level is added beyond the 32 that can be searched.", "quantifier": "for all ascending lists of fewer than 2^32 pairs whose keys have at most 1007 bytes and whose sizes satisfy the balance condition; in particular all lists with keys of one length and values of one length of which two pairs fit in a page, and all lists of pairs up to 576 bytes whose sizes differ by up to three fifths", "why_tests_cant": "Success depends on the room in every page on the way to the last leaf after any number of splits; C109 has lists of five pairs that are refused.", "anchors": ["src/napr_db.c: napr_db_put, handle_page_split, propagate_split_up_tree, handle_root_split, napr_db_txn_commit", "src/napr_db_tree.c: db_split_leaf, db_split_branch, db_page_insert"]}
{"id": "C115", "title": "The write transactions of all threads form one chain", "statement": "However threads interleave, down to single memory accesses: at most one is in a write transaction; each write transaction starts from exactly the state published last, with the next id; a commit publishes exactly what it was given; and the published meta page is never altered while it is the live one.", "quantifier": "every number of threads, every interleaving of reads and writes of shared fields, every failure of file operations", "why_tests_cant": "The number of interleavings is unbounded; a test sees a handful of them.", "anchors": ["src/napr_db.c: napr_db_txn_begin, commit_meta_page, napr_db_txn_commit, napr_db_txn_abort, db_writer_lock"]}
{"id": "C116", "title": "A reader's snapshot is one committed state", "statement": "The id, root, Free DB root and last page of a read transaction are those of one committed state.", "quantifier": "every interleaving of the four reads of begin with any number of commits", "why_tests_cant": "The window between two reads is a few instructions wide.", "anchors": ["src/napr_db.c: napr_db_txn_begin 536-542, commit_meta_page 1178-1179"]}
{"id": "C117", "title": "The reader table is exact at every moment", "statement": "At every moment, also while other threads are in the middle of registering or leaving, the occupied slots are exactly the registered read transactions; begin reports a full table only if 126 are registered; and the oldest-reader query answers the least registered id.", "quantifier": "every number of threads, every interleaving of accesses to the slots", "why_tests_cant": "Half-written slots exist only between two instructions.", "anchors": ["src/napr_db.c: napr_db_txn_begin 572-594, napr_db_txn_commit 1203-1215, napr_db_txn_abort 1289-1301, db_get_oldest_reader_txnid"]}
{"id": "C118", "title": "A reader is protected from the moment it sees a state", "statement": "Once a reader has taken its snapshot, the oldest-reader query of a writer answers at most the id of that snapshot until the reader ends.", "quantifier": "every interleaving of a starting reader with any number of writers", "why_tests_cant": "The window between snapshot and registration is a few instructions wide.", "anchors": ["src/napr_db.c: napr_db_txn_begin 536-589, db_get_oldest_reader_txnid, find_reclaimable_entry"]}
{"id": "C119", "title": "No database call waits for ever", "statement": "Begin, commit, abort and the oldest-reader query of any threads never block each other for ever: whenever some thread is inside a call, one of them can go on, unless all wait for a write transaction whose owner has not ended it; and no call goes round in circles.", "quantifier": "every number of threads, every reachable state", "why_tests_cant": "Deadlocks need particular interleavings.", "anchors": ["src/napr_db.c: napr_db_txn_begin, napr_db_txn_commit, napr_db_txn_abort, db_get_oldest_reader_txnid"]}
{"id": "C120", "title": "Threads sharing an environment do not race", "statement": "No two threads access the same shared field at the same time, one of them writing, without a lock or other order between them.", "quantifier": "every number of threads, every reachable state", "why_tests_cant": "A race is undefined behaviour of the C program that usually has no visible effect.", "anchors": ["src/napr_db.c: napr_db_txn_begin 536-542, commit_meta_page 1168-1179"]}
{"id": "C121", "title": "Insertions by several threads are all kept", "statement": "When threads insert into one queue made with napr_heap_make_r through napr_heap_insert_r, then, while memory lasts, no interleaving of their memory accesses is undefined, and the queue is what one thread would have built by making the same calls one after the other; in the end everything inserted comes out, in descending order.", "quantifier": "every number of threads, list of data, comparison function and interleaving of single accesses", "why_tests_cant": "Interleavings of single accesses cannot be enumerated by tests.", "anchors": ["src/napr_heap.c:85-138", "src/napr_heap.c:215-251"]}
{"id": "C122", "title": "An insertion always lets the others go on", "statement": "Every call of napr_heap_insert_r returns and leaves the queue usable by other threads, whether it succeeds or not.", "quantifier": "every interleaving and every outcome of the allocations", "why_tests_cant": "Failing allocations and waiting threads are not exercised by tests.", "anchors": ["src/napr_heap.c:85-138", "src/napr_heap.c:233-251"]}
{"id": "C123", "title": "The queue can take any number of files", "statement": "Inserting ends whatever the number of elements already in the queue.", "quantifier": "every number of elements", "why_tests_cant": "A test cannot insert 2^31 elements.", "anchors": ["src/napr_heap.c:85-110"]}
{"id": "C124", "title": "Marks of several threads are all kept", "statement": "Threads that mark paths on one cache handle at the same time never touch a half-changed table and never block each other for ever, also when memory runs out; a path is marked once some call for it succeeded, earlier marks stay, nothing else is marked, and after all calls returned exactly the asked paths are marked.", "quantifier": "every number of threads, every list of paths per thread, every interleaving of their accesses, every pattern of failing allocations", "why_tests_cant": "Interleavings are unbounded and a lost mark shows only in rare ones.", "anchors": ["src/napr_cache.c: napr_cache_mark_visited", "src/napr_cache.h: thread safety of mark_visited and sweep"]}
{"id": "C125", "title": "Beginning a cache transaction while one is open does no harm", "statement": "A begin (or a sweep) on a handle whose transaction is still open is refused, or the open transaction can still be ended: no reader stays registered and no thread waits for itself.", "quantifier": "every cache and every order of begins, ends and sweeps on one handle", "why_tests_cant": "The damage is a reader that stays registered, which shows much later as a file that only grows.", "anchors": ["src/napr_cache.c: napr_cache_begin_read, napr_cache_begin_write, napr_cache_end_read, napr_cache_sweep"]}
{"id": "C126", "title": "Every ending call ends the open cache transaction", "statement": "Whichever of commit, abort and end-read is called on a handle, the open transaction is over afterwards, also when the commit fails: a writer has released the lock, a reader is unregistered and nothing else has changed; a write transaction ended with end-read is undone.", "quantifier": "for all caches, all sequences of calls inside the transaction, both kinds of transaction and all three ending calls", "why_tests_cant": "Sequences of calls and failing commits are unbounded; a reader or lock left behind shows later.", "anchors": ["src/napr_cache.c: napr_cache_end_read, napr_cache_commit_write, napr_cache_abort_write", "src/napr_db.c: napr_db_txn_commit, napr_db_txn_abort"]}
{"id": "C127", "title": "A value stays where get said until the transaction ends", "statement": "The pointer that get and the cache lookup return (no copy is made) points to the value stored under the key, and reads the same bytes until the transaction ends, whatever is put, deleted or committed meanwhile.", "quantifier": "for all databases, transactions, keys and sequences of operations, by the same transaction or committed by others", "why_tests_cant": "Whether a page is moved, split or overwritten depends on everything stored before; a stale pointer mostly still reads the old bytes.", "anchors": ["src/napr_db.h: napr_db_val_t, napr_db_get", "src/napr_cache.h: napr_cache_lookup_in_txn", "src/napr_db.c: napr_db_get", "src/napr_db_tree.c: db_page_delete, db_split_leaf"]}
{"id": "C128", "title": "The image mode reports the same whatever its threads do", "statement": "With -I the report is the one obtained when every image is decoded by one thread: before the comparison starts every file has been decoded exactly once and holds its vector, and no two threads ever work on the same file.", "quantifier": "for all sets of files, all image decoders, all numbers of threads and all schedules", "why_tests_cant": "Schedules are unbounded; a file whose vector is missing is silently left out of the report.", "anchors": ["src/ft_image.c: compute_vector, compute_image_vectors, compare_image_vectors, ft_image_twin_report", "src/napr_threadpool.c: napr_threadpool_wait"]}
{"id": "C129", "title": "Free pages are used before the file grows, and none is forgotten", "statement": "If the list of free pages has an entry older than every reader, the allocation of one page succeeds, takes a listed page and does not extend the file; every other listed page stays listed under the same transaction.", "quantifier": "for all database files, all write transactions and all states within a transaction", "why_tests_cant": "A forgotten page is only lost disk space; it shows in databases with a long history of deletions and several allocations in one transaction.", "anchors": ["src/napr_db.c:1019-1127"]}
{"id": "C130", "title": "A scan never invents, repeats or reorders pairs", "statement": "A forward scan returns the first pairs of the database and a backward scan the last ones, each pair once, in order and without gaps, and then ends with NOTFOUND; the only place where it may end early is a leaf emptied by deletions.", "quantifier": "for all sorted trees (also with empty leaves), all transactions and all earlier positions of the cursor", "why_tests_cant": "The shapes of the tree and the places of emptied leaves are unbounded; a repeated or skipped pair shows only for special page boundaries.", "anchors": ["src/napr_db_cursor.c: napr_db_cursor_get, db_cursor_next, db_cursor_prev, descend_rightmost"]}
{"id": "C131", "title": "The sweep never deletes the entry of a marked file", "statement": "Whatever the shape of the tree, the sweep loop runs to its end without error, deletes exactly those unmarked paths that its scan reaches, and leaves the entry of every marked path and of every path it does not reach as it was.", "quantifier": "for all sorted trees, all sets of marked paths and all numbers of entries", "why_tests_cant": "The deletions change the pages under the running scan; whether a cursor then skips or repeats an entry depends on the exact layout of all pages.", "anchors": ["src/napr_cache.c: napr_cache_sweep", "src/napr_db.c: napr_db_del"]}
{"id": "C132", "title": "SET_RANGE never answers with a wrong key", "statement": "When a SET_RANGE positioning succeeds, the pair returned is stored and its key is the smallest stored key not below the probe; when it answers NOTFOUND the probe itself is not stored; it gives no other error.", "quantifier": "for all sorted trees (also with empty leaves), all transactions and all probe keys", "why_tests_cant": "Keys, tree shapes and the position of the probe relative to page boundaries are unbounded.", "anchors": ["src/napr_db_cursor.c: napr_db_cursor_get (NAPR_DB_SET_RANGE)", "src/napr_db_tree.c: db_page_search"]}
{"id": "C133", "title": "User data is never written over a meta page", "statement": "Every page a commit writes, apart from the meta page itself, has a page number of at least 2, so pages 0 and 1 only ever hold meta data.", "quantifier": "for all histories of transactions on a new database and all keys and values", "why_tests_cant": "The page numbers handed out depend on the whole history of frees and reuses; the violating histories are rare and need particular values.", "anchors": ["src/napr_db.c: db_reclaim_page_from_free_db, find_reclaimable_entry, write_dirty_pages_to_disk, commit_meta_page"]}
{"id": "C134", "title": "What is read was put under exactly that key", "statement": "As long as no tree page has been written over a meta page (C133), a get, or a cursor call, that succeeds with a key whose length is not eight bytes returns a value that some put call gave for exactly this key at some time since the file was created. This also holds after failed puts and commits, aborts, restarts, crashes at any point of a commit, and after the tree has been damaged by page reuse.", "quantifier": "for all sequences of calls of any number of threads on a new database, all crash points, all keys of other than eight bytes and all values", "why_tests_cant": "The histories, crash points and tree shapes are unbounded; a test sees single ones, and mixed-up values would show only on rare histories.", "anchors": ["src/napr_db.c: napr_db_get, napr_db_put, napr_db_del, napr_db_txn_commit, db_reclaim_page_from_free_db, populate_free_db", "src/napr_db_tree.c: db_page_insert, db_page_delete, db_split_leaf", "src/napr_db_cursor.c: napr_db_cursor_get"]}
{"id": "C135", "title": "Keys of eight bytes are not mixed up with the Free DB", "statement": "A get of a key of eight bytes, the length of the keys of the internal Free DB, returns only values that were put under this key.", "quantifier": "for all histories of transactions on a database and all keys of eight bytes", "why_tests_cant": "It takes several transactions with particular page splits and reuses before the two trees share a page.", "anchors": ["src/napr_db.c: napr_db_get, populate_free_db, db_reclaim_page_from_free_db"]}
{"id": "C136", "title": "The database file can always be opened again", "statement": "As long as no tree page has been written over a meta page (C133), the file can be opened after any restart and after a crash at any point of any commit. If the meta page that is not live was the older one, the database is then at the state last committed or at that of the interrupted commit.", "quantifier": "for all sequences of calls of any number of threads on a new database, including failing ones, all crash points and all subsets of the unsynchronised writes", "why_tests_cant": "Crash points and the sets of writes that reach the disk cannot be enumerated by tests, and histories are unbounded.", "anchors": ["src/napr_db.c: napr_db_env_open, select_live_meta, validate_meta_page, commit_meta_page, write_dirty_pages_to_disk"]}
{"id": "C137", "title": "A lookup reads nothing outside the pages", "statement": "No get has undefined behaviour: every slot and node it reads lies inside a page of the database.", "quantifier": "for all sequences of calls of any number of threads on a new database, including failing ones and crashes, and all keys", "why_tests_cant": "It depends on the shapes of all branch pages that any sequence of puts and failed puts can leave behind.", "anchors": ["src/napr_db_tree.c: db_find_leaf_page_in_tree, db_page_search, db_split_branch", "src/napr_db.c: napr_db_get"]}
{"id": "C138", "title": "A lookup ends", "statement": "Every get returns: its descent from the root reaches a leaf or reports an error after finitely many pages.", "quantifier": "for all sequences of calls of any number of threads on a new database, including failing ones and crashes, and all keys", "why_tests_cant": "A descent that goes in a circle needs a page handed out twice, which depends on the whole history of freed and reused pages; a hanging test shows nothing about other histories.", "anchors": ["src/napr_db_tree.c: db_find_leaf_page_in_tree (loop without bound), db_page_alloc", "src/napr_db.c: napr_db_get, db_reclaim_page_from_free_db, napr_db_put"]}
{"id": "C139", "title": "The committed state never goes back", "statement": "As long as no tree page has been written over a meta page (C133), the number of the committed state never gets smaller, one call, restart or crash moves it by at most one, and while the number is the same the committed root, Free DB and file end are the same. An open reader shows the committed state or one with a smaller number.", "quantifier": "for all sequences of calls of any number of threads on a new database, including failing ones, restarts and crashes at any point of a commit", "why_tests_cant": "A failed commit leaves a half-written meta page that later commits, restarts and crashes build on; the combinations are unbounded.", "anchors": ["src/napr_db.c: select_live_meta, napr_db_txn_begin, commit_meta_page, napr_db_txn_commit"]}
{"id": "C140", "title": "Colours change nothing but the colours", "statement": "The report written to a terminal is the report written to a file with colour switches put in between, with the same exit status. A terminal shows the same characters, the sizes in bold blue, the paths in bold cyan, everything else as usual, and is back to normal at the end, as long as no path contains an escape character.", "quantifier": "for all runs that end without error, all files, separators and options", "why_tests_cant": "Tests compare the output on pipes; what a terminal gets depends on all combinations of groups, sizes and separators.", "anchors": ["src/ft_report.c:74-100", "src/ft_report.c:102-150", "src/ft_report.c:215-270", "src/ft_types.h:50-53"]}
{"id": "C141", "title": "A read transaction changes nothing", "statement": "Putting or deleting in a read transaction fails and leaves the transaction as it was.", "quantifier": "for all histories of a database (calls of any number of threads, restarts, crashes) in which no tree page is written over a meta page, all open readers, keys and values", "why_tests_cant": "The read-only mark must hold for every transaction the library hands out, at any point of any history.", "anchors": ["src/napr_db.c:1436-1540", "src/napr_db.c:1856-1900", "src/napr_db.c: napr_db_txn_begin"]}
{"id": "C142", "title": "A deletion takes one pair out of one page and always ends", "statement": "A deletion that succeeds takes exactly one pair, one with the given key, out of the leaf the key leads to; every other page, the roots and the end of the file stay as they were. A deletion that fails changes nothing. Every deletion ends, also when lookups do not (C138).", "quantifier": "for all histories of a database (calls of any number of threads, restarts, crashes) in which no tree page is written over a meta page, all open writers and keys below 64 KiB; deletions that read outside a page are under C137", "why_tests_cant": "Earlier operations can leave trees in any of the states of C21, C22, C137 and C138; tests see a few of them.", "anchors": ["src/napr_db.c:1856-1921", "src/napr_db_tree.c:838-916", "src/napr_db_tree.c:320-376"]}
{"id": "C143", "title": "A put that finds room changes one page", "statement": "A put whose leaf has room puts the pair into that leaf, in place of the pair with the same key found there if there is one; every other page, the roots and the end of the file stay as they were. If it fails, nothing is changed.", "quantifier": "for all histories of a database (calls of any number of threads, restarts, crashes) in which no tree page is written over a meta page, all open writers, keys and values below 64 KiB together, and all leaves with room for the pair", "why_tests_cant": "Earlier operations can leave trees in any of the states of C21, C22, C137 and C138; tests see a few of them.", "anchors": ["src/napr_db.c:1436-1540", "src/napr_db_tree.c:320-376"]}
{"id": "C144", "title": "A database loaded in key order is listed completely and in order", "statement": "After a load in ascending order of the keys (C114), a cursor of any later reading transaction gives each pair loaded exactly once and nothing else: in ascending order from FIRST with NEXT, in descending order from LAST with PREV, then 'not found'.", "quantifier": "for all lists of pairs as in C114, and all readers begun after the commit", "why_tests_cant": "Cursors stop early at leaves without pairs and fail in trees of more than 31 levels (C23, C24); that a load of any length makes no such tree depends on every split on the way.", "anchors": ["src/napr_db_cursor.c:382-443", "src/napr_db.c:1436-1540", "src/napr_db.c:1184-1270"]}
{"id": "C145", "title": "Any number of keys can be deleted in one transaction", "statement": "A transaction that deletes keys can be committed whatever the number of keys and of pages it touches; after the commit the keys deleted are gone and all others keep their values.", "quantifier": "for all databases loaded as in C114 and all sets of their keys; the bound on freed pages: for all lives of a database", "why_tests_cant": "The commit stores the numbers of all pages the transaction replaced as one value of the Free DB, and the value has to fit in one page; tests delete a few dozen keys and never come near the limit.", "anchors": ["src/napr_db.c:794-950", "src/napr_db.c:1184-1270"]}
{"id": "C146", "title": "A cache that was filled can be swept", "statement": "After files have been cached in path order in one run and some of them have been found again in the next, the sweep succeeds and keeps exactly the entries of the files found again, with what was stored for them.", "quantifier": "for all lists of paths in ascending order with lengths as in C114, all entries, all sets of marked paths", "why_tests_cant": "Whether the sweep can be committed depends on how many leaves the fill made and how many of them the sweep has to replace; tests sweep a handful of entries.", "anchors": ["src/napr_cache.c:398-513", "src/napr_cache.c:330-354", "src/napr_db.c:794-950"]}
{"id": "C147", "title": "No transaction is so large that its commit writes outside its pages", "statement": "However many keys a transaction deletes, its commit either succeeds or is refused with an error; it never writes outside the pages it allocated.", "quantifier": "for all databases loaded as in C114 and all sets of their keys", "why_tests_cant": "The size of the list of freed pages is kept in 16 bits, so the check for room goes wrong only when more than 8190 pages are freed at once; no test database has so many pages.", "anchors": ["src/napr_db_tree.c:398-467", "src/napr_db.c:794-837", "src/napr_db.c:922-950"]}
{"id": "C148", "title": "The database stays within its memory map", "statement": "Whatever has been committed, a lookup reads only pages inside the memory map, whose size was given with napr_db_env_set_mapsize; a commit that would make the database larger than the map is refused.", "quantifier": "for all map sizes, all databases and all keys", "why_tests_cant": "Tests use maps far larger than the data; the failure needs as much data as the map is large.", "anchors": ["src/napr_db.c:222-240", "src/napr_db_tree.c:142-157", "src/napr_db_tree.c:172-238", "src/napr_db.c:1184-1270", "src/napr_cache.c:102-103"]}
{"id": "C149", "title": "Sorted pairs may be loaded in several transactions", "statement": "Pairs given in ascending order of the keys may be loaded in any number of transactions: each commit succeeds, and after it lookups and cursors show exactly the pairs given so far.", "quantifier": "for all ascending lists of pairs of even sizes and all ways to cut them into transactions", "why_tests_cant": "The number of pairs, their sizes and the places where the list is cut are unbounded; the failure needs a page split in a transaction that finds freed pages.", "anchors": ["src/napr_db.c:1436-1540", "src/napr_db.c:923-950", "src/napr_db_tree.c:272-302", "src/napr_db_tree.c:305-352", "src/napr_db.c:1184-1270"]}
{"id": "C150", "title": "A run names only selected files", "statement": "Whatever a run writes to standard output - the text report, the report on images or the JSON document - it names only files that the options select: found by the walk from one of the arguments, a regular file (or a link with -f), within the size limits, not excluded by name, by regex, by an ignore file or by its permissions. The files of one text group or one JSON set have the same size, and a printed group has at least two files.", "quantifier": "for all command lines, file trees, contents, hash functions, failing reads, exit statuses", "why_tests_cant": "The trees, the options, the failing reads and the collisions are unbounded, and the claim has to hold for runs that end with an error as well.", "anchors": ["src/ftwin.c:74-180", "src/ft_traverse.c:64-195", "src/ft_process.c:20-265", "src/ft_report.c:95-260", "src/ft_report_json.c:60-215", "src/ft_image.c:102-239"]}
{"id": "C151", "title": "Any number of processes may read a database at the same time", "statement": "Processes that open the same database file and only read, or write and give up, do not disturb each other: the file does not change, and each of them reads what the file stores.", "quantifier": "for all files, numbers of processes and interleavings of opening, reading, writing and giving up", "why_tests_cant": "Interleavings of several processes on one file are unbounded and not controlled by a test.", "anchors": ["src/napr_db.c:300-505", "src/napr_db.c:506-640", "src/napr_db.c:1275-1320"]}
{"id": "C152", "title": "Nothing is ignored without a rule", "statement": "A regular file that the walk meets and that is not compared is left out because its permissions exclude it or because, in one of the ignore files in force, the last pattern that applies to it is not a negated one.", "quantifier": "for all trees, ignore files, regex engines and paths", "why_tests_cant": "Trees, nesting of ignore files and patterns are unbounded.", "anchors": ["src/ft_ignore.c: ft_ignore_match", "src/ft_traverse.c:64-195"]}
{"id": "C153", "title": "A size that makes no sense never lets a run start", "statement": "If the argument of -m, -M or -x is blank, does not begin with a number, or has an unknown unit behind its number, the run ends with status 1 and the usage text (or the text asked for by an earlier -h or -V), wherever the option stands; nothing is walked or compared.", "quantifier": "for all command lines and all such texts", "why_tests_cant": "Texts and command lines are unbounded.", "anchors": ["src/human_size.c:37-71", "src/ft_config.c:443-482", "src/ft_config.c:611-620", "src/ftwin.c:133-180"]}
{"id": "C154", "title": "A small database can be updated any number of times", "statement": "As long as the pairs of a database fit in one page, any number of successful transactions leaves exactly the pairs that were put and not deleted.", "quantifier": "for all sequences of transactions, keys and values", "why_tests_cant": "The contents are lost after a number of transactions, with no error from any of them; a test that makes fewer sees nothing.", "anchors": ["src/napr_db.c:837-950", "src/napr_db.c:1084-1127", "src/napr_db.c:1184-1262", "src/napr_db_tree.c:320-376"]}
{"id": "C155", "title": "A cache of a few files can be refreshed any number of times", "statement": "As long as the entries of a cache fit in one page, a lookup after any number of successful refreshes (begin a write, store entries, commit) answers the entry stored last under the path, or that there is none.", "quantifier": "for all sequences of refreshes, paths and entries", "why_tests_cant": "Refreshes succeed without error far beyond the number a test makes; the loss appears only at a certain count.", "anchors": ["src/napr_cache.c:191-354", "src/napr_db.c:837-950", "src/napr_db.c:1084-1127", "src/napr_db.c:1184-1262"]}
{"id": "C156", "title": "The first transaction is all or nothing", "statement": "As long as nothing has been committed to a database file, a crash at any point of a commit leaves a file that can be opened and holds either nothing or everything the transaction would have published. In particular pairs in key order can be loaded into a new file by trying until they are there, however often and wherever the attempts are cut off.", "quantifier": "for all histories of calls, restarts and crashes, all transactions, all points of a crash and all subsets of unsynced writes that reach the disk", "why_tests_cant": "A crash between two page writes cannot be produced by a unit test, and the subsets of writes that survive are too many to try.", "anchors": ["src/napr_db.c:743-774", "src/napr_db.c:1135-1262", "src/napr_db.c:128-162"]}
{"id": "C157", "title": "Repeating the documented clean-up leaves every content exactly once", "statement": "Each round of running the program and removing what the README's pipeline removes takes away exactly one of the files of every content that several compared files have, and no file whose content no other one has. After n rounds a content with m files has one file left if n >= m-1 and m-n otherwise. A run that prints nothing shows that every content is there once.", "quantifier": "for all trees, options, separators and numbers of rounds", "why_tests_cant": "A statement about any number of rounds over any tree; an example tree settles neither.", "anchors": ["README.md:108-122", "src/ft_report.c:67-146", "src/ft_process.c:87-131"]}
{"id": "C158", "title": "Cleaning up an import removes the imported copies and nothing else", "statement": "With -p P, each round of the README's clean-up (run, cut off the first file of each line, keep the lines under P, remove) takes away exactly one file under P of every content that such a file and another compared file have. Files that are not under P stay. After n rounds a content that is also found outside has n fewer files under P, and a content found only under P keeps one.", "quantifier": "for all trees, options, priority paths and numbers of rounds", "why_tests_cant": "It speaks of any tree and any number of rounds; a test tree shows one order of one directory.", "anchors": ["README.md:108-122", "src/ft_traverse.c:64-90", "src/ft_report.c:67-146"]}
{"id": "C159", "title": "Progress lines count up one by one to the right total and never beyond", "statement": "With -v, the progress lines of a run count up by one from line to line, show the number of tasks as total, never exceed it, and reach it when every file could be read or decoded. This holds for hashing, for image vectors and for image comparisons. Percentages stay between 0 and 100, do not go down, and are 100 at the end.", "quantifier": "for all collected files, thread schedules, numbers of workers, heaps of images and monotone roundings", "why_tests_cant": "The counters are shared by all workers, so the lines depend on the schedule; the wrong total of the comparisons shows only with 65537 images.", "anchors": ["src/ft_process.c:57-69", "src/ft_process.c:82-170", "src/ft_image.c:74-82", "src/ft_image.c:189-235"]}
{"id": "C160", "title": "A narrower search finds exactly the part of the wider one that lies within it", "statement": "With size limits -m and -M a run reports exactly the pairs that the run with wider limits reports and whose size lies within the limits; -p changes no pair. With more files or directories as arguments every pair that was reported is still reported, and a new pair involves a file that was not compared before.", "quantifier": "for all trees, options, limits, sets of arguments, orders and thread counts", "why_tests_cant": "It relates two runs over any tree; tests look at single runs on small trees.", "anchors": ["src/ft_traverse.c:64-90", "src/ft_config.c:592-672", "src/ft_process.c:115-170", "src/ft_report.c:67-146"]}
{"id": "C161", "title": "A higher -T level only adds similar images", "statement": "With -I the pairs named are exactly the compared images whose distance lies below the threshold of the level. Level 1 is the strictest and level 5 the most permissive: a run with a higher level, the same or more arguments and the same or wider size limits names every pair that the first run names.", "quantifier": "for all trees, options, levels, distances and ascending library constants", "why_tests_cant": "It relates two runs over any set of images and any distance function.", "anchors": ["docs/ftwin.8:51-54", "src/ft_config.c:269-274", "src/ft_config.c:498-518", "src/ft_image.c:208-209"]}
{"id": "C162", "title": "What could not be read is named on stderr", "statement": "A run that ends with a failing exit status has named on stderr the path or argument at which it could not go on, or said that there was nothing to compare. A run that ends with status 0 has named every file among those to compare that could not be opened or read, and names no file that could.", "quantifier": "for all trees, arguments, options without archives and images, file contents, read sizes and failing opens and reads", "why_tests_cant": "Which open or read fails, and at which point of the walk, the hashing or a comparison, is the system's choice; a test provokes a few.", "anchors": ["src/ft_traverse.c:34", "src/ft_traverse.c:104-108", "src/ft_traverse.c:117-121", "src/ftwin.c:90-101", "src/ftwin.c:124-127", "src/ftwin.c:167-174", "src/ft_process.c:71-75", "src/ft_file.c:118-123", "src/ft_file.c:263-267", "src/ft_report.c:240-249", "src/ft_report_json.c:103-112"]}
{"id": "C163", "title": "Files that cannot be opened do not disturb the report on the others", "statement": "When some of the files to compare cannot be opened, the run still ends with status 0 and reports exactly the sets of equal files among the others, in text and in JSON, whichever hash values collide.", "quantifier": "for all trees, arguments, options without archives and images, contents, sets of files that cannot be opened, hash functions, contents of fresh memory, orders left open by qsort and the hash table", "why_tests_cant": "Whether the report goes wrong depends on the hash values of files that could not be hashed, that is on what memory held before, and on the order qsort gives to equal values.", "anchors": ["src/ft_process.c:50-80", "src/ft_report.c:74-100", "src/ft_report.c:225-272", "src/ft_report_json.c:91-115", "src/ft_report_json.c:133-170"]}
{"id": "C164", "title": "Deleting the pairs a scan returns while it goes on", "statement": "In a write transaction, a loop that asks a cursor for FIRST and then NEXT and deletes each returned pair it does not want to keep, before it asks for the next one, visits every pair of the database once: the pairs not to be kept are gone afterwards and the others are as before.", "quantifier": "for all databases, write transactions, sets of keys to keep", "why_tests_cant": "A cursor keeps pointers to pages and an index; whether a deletion moves the entries under it depends on whether the page was already copied by the transaction and on the shape of the tree.", "anchors": ["src/napr_db_cursor.c:21-31", "src/napr_db_cursor.c:83-90", "src/napr_db_cursor.c:213-289", "src/napr_db_cursor.c:382-443", "src/napr_db.c:1856-1921", "src/napr_cache.c:437-473"]}
{"id": "C165", "title": "What a transaction gave up can be looked up", "statement": "After a commit the list found in the Free DB under the number of the transaction has exactly the pages the transaction gave up, in that order; what is found under the numbers of earlier transactions stays the same, however many transactions follow.", "quantifier": "for all databases, histories of write transactions, transaction numbers", "why_tests_cant": "The lists are entries of a second tree that every commit changes; a list can be lost or cut long after it was written, by a later commit with other sizes.", "anchors": ["src/napr_db.c:837-921", "src/napr_db.c:923-950", "src/napr_db.c:966-1017", "src/napr_db_tree.c:320-375"]}
{"id": "C166", "title": "What happens to one file does not touch the report on the others", "statement": "Between two runs files and directories are created, removed, written to or given other permissions. Of the files that were left alone, the same ones are reported together by both runs; a file that changed is reported together with exactly those untouched files that have its new content.", "quantifier": "for all file trees, sets of changed paths, changes, options, arguments, directory orders and schedules", "why_tests_cant": "Every file passes through one table by size, one queue and shared arrays of hashes; a new file can displace others only for particular sizes, hashes and orders.", "anchors": ["src/ft_traverse.c:64-90", "src/ft_config.c:592-672", "src/ft_process.c:115-170", "src/ft_report.c:67-146"]}
{"id": "C167", "title": "The first filling of a cache is all or nothing, and the next process finds it", "statement": "However often processes that fill a new cache are cut off by a crash, and wherever, a process that opens the cache afterwards is answered for every path from all the entries or as if there were none. When there are none it can fill the cache, and every process that opens the file later is answered exactly the entries stored.", "quantifier": "for all lists of entries, numbers of attempts, points of a crash and sets of writes that reached the disk", "why_tests_cant": "A test can cut a run off at a few points; which of the writes since the last sync reached the disk it cannot choose.", "anchors": ["src/napr_cache.c:38-184", "src/napr_cache.c:209-265", "src/napr_cache.c:291-354", "src/napr_db.c:743-774", "src/napr_db.c:1135-1262"]}
{"id": "C168", "title": "Keeping one file of every reported set leaves every content exactly once", "statement": "When of every set that a run reports all files but one are deleted, every content that was among the compared files is still there, in exactly one of them, and the next run reports nothing. After any other deletions the next run reports exactly the pairs of the first run of which both files are left.", "quantifier": "for all file trees, options, arguments, choices of the files to delete", "why_tests_cant": "It is the promise users delete files on; it joins two runs and any choice of deletions, and a single pair left out of the report breaks it.", "anchors": ["src/ftwin.c:74-180", "src/ft_traverse.c:92-176", "src/ft_report.c", "src/ft_report_json.c"]}
{"id": "C169", "title": "A commit that reports an error has published nothing", "statement": "When a commit returns an error, every key reads as before the transaction, in this process and in every process that opens the file later. It does not matter which file operation failed, what the transaction did and what happened to the file before.", "quantifier": "for all histories of calls, crashes and reopenings, all transactions, all file operations that can fail, all keys", "why_tests_cant": "Each of the commit's writes and syncs can fail, in any state of the file; tests do not make a sync fail, and the fault only shows in a later process.", "anchors": ["src/napr_db.c:743-774", "src/napr_db.c:1135-1262", "src/napr_db.c:128-162"]}
{"id": "C170", "title": "Until a commit takes effect a new database can still be loaded", "statement": "Whatever a new database has gone through without a commit taking effect - transactions with any puts and deletions that were aborted or whose commit failed at any file operation, readers, crashes during commits, closing and opening - it reads as empty. When no write transaction is open, loading any number of pairs in key order, of sizes that do not differ much, succeeds, and afterwards exactly these pairs are there.", "quantifier": "for all histories without an effective commit, all sorted lists of pairs of even sizes, all keys", "why_tests_cant": "Pages written by failed attempts stay in the file; that none of them is ever read needs an argument over all histories.", "anchors": ["src/napr_db.c:497-605", "src/napr_db.c:743-774", "src/napr_db.c:1135-1262", "src/napr_db.c:1274-1313"]}
{"id": "C171", "title": "After a commit that failed or was cut off the database can still be updated", "statement": "When a commit returns an error, or the machine stops in the middle of it, later write transactions can be committed as before, in this process and in every process that opens the file.", "quantifier": "for all histories, all transactions, all points of failure, all later transactions", "why_tests_cant": "It needs a failing sync or a crash between two file operations, followed by ordinary use; tests do neither, and a database that refuses every commit from then on shows only there.", "anchors": ["src/napr_db.c:837-950", "src/napr_db.c:743-774", "src/napr_db.c:1135-1262"]}

{"claims": [
  {"property": "C01", "status": "proved", "theorems": ["key_order_total"], "note": ""},
  {"property": "C02", "status": "proved", "theorems": ["page_search_correct"], "note": "Probes of 65536 bytes and more: see C52."},
  {"property": "C03", "status": "proved", "theorems": ["page_insert_leaf_correct", "page_insert_branch_correct"], "note": ""},
  {"property": "C04", "status": "proved", "theorems": ["page_delete_leaf_correct", "page_delete_branch_correct"], "note": ""},
  {"property": "C05", "status": "proved", "theorems": ["page_split_correct"], "note": ""},
  {"property": "C06", "status": "partial", "theorems": ["page_insert_in_bounds_partial", "page_functions_in_bounds", "page_insert_out_of_bounds_refuted"], "note": "Holds when the node size fits 16 bits. The code violates the full statement: the node size is truncated to uint16_t before the space check while the copies use the full size_t sizes; page_insert_out_of_bounds_refuted is a witness."},
  {"property": "C07", "status": "partial", "theorems": ["put_without_split_correct", "put_map_update_partial", "put_no_ub_partial", "operations_beside_free_db_partial", "put_map_update_refuted"], "note": "Holds for every put that needs no split (any well-shaped tree, any Free DB) and for every put whose splits are clean (splits up to the root, Free DB empty or with nothing to reuse). The code violates the full statement: put_map_update_refuted is a witness (key that falls between the two halves of the leaf being split)."},
  {"property": "C08", "status": "proved", "theorems": ["del_correct"], "note": "For every tree of well-formed pages with sorted keys (shaped) and keys below 65536 bytes."},
  {"property": "C09", "status": "partial", "theorems": ["failed_put_changes_nothing_partial", "failed_put_changes_nothing_refuted"], "note": "Holds for every put that needs no split. The code violates the full statement: ENOSPC after the leaf was split loses the upper half."},
  {"property": "C10", "status": "partial", "theorems": ["put_updates_existing_partial", "put_updates_existing_refuted"], "note": "Holds when the key's leaf has not been modified in the transaction. The code violates the full statement: otherwise EEXIST."},
  {"property": "C100", "status": "proved", "theorems": ["sizes_exact", "names_exact", "groups_exact", "group_member_exact"], "note": "For all three tables, with XXH32 itself modelled. Whether filling the tables ends is C102 and C33."},
  {"property": "C101", "status": "partial", "theorems": ["retry_partial", "failed_creation_is_final", "retry_refuted"], "note": "Proved for files that exist, and for missing files when nothing was to be created. The code violates the rest: a creation that fails half way leaves a file that no later open accepts."},
  {"property": "C102", "status": "partial", "theorems": ["groups_exact", "sizes_terminate_partial", "seven_sizes", "sizes_hang_refuted"], "note": "Proved in full for groups (XXH32 is one to one on four bytes); for sizes when fewer than eight different sizes share a hash value. The code violates the full statement: eight files of given sizes below 30 GiB make the insertion loop for ever."},
  {"property": "C103", "status": "proved", "theorems": ["handed_at_most_once"], "note": "In every use whatsoever of the pool. That every task is handed out is C34."},
  {"property": "C104", "status": "proved", "theorems": ["lookup_exact"], "note": "For every transaction whose tree can be read. What upsert stores is C28."},
  {"property": "C105", "status": "proved", "theorems": ["handover"], "note": "Quantifies over all histories of the model of the database whose commits meet no I/O error."},
  {"property": "C106", "status": "proved", "theorems": ["no_shared_cell"], "note": "In every interleaving of the model of the pool."},
  {"property": "C107", "status": "proved", "theorems": ["text_exact"], "note": "For every run of the report over the files found."},
  {"property": "C108", "status": "proved", "theorems": ["ascending_puts", "ascending_committed"], "note": "Any number of pairs and splits; the 40 pages per put bound and 2^64 pages only exclude page numbers that no file reaches."},
  {"property": "C109", "status": "partial", "theorems": ["put_without_split_correct", "put_room_refuted", "put_room_uneven_refuted", "deep_tree_refused", "tree_height_refuted"], "note": "Proved for puts whose leaf has room. The code violates the full statement: the left half of a split leaf is not compacted, so the pairs that moved keep their room; three pairs of 1900 bytes can be put in ascending order but not in descending order, and a small pair between large ones is refused. A tree of 32 levels refuses every put, and five long keys already stand on four levels. In ascending order of keys and with sizes that do not differ too much every put succeeds (C114)."},
  {"property": "C11", "status": "partial", "theorems": ["conditional_del_partial", "conditional_del_refuted"], "note": "The code ignores the value argument; proved when it is NULL or equal to the stored value."},
  {"property": "C110", "status": "proved", "theorems": ["exit_zero_images"], "note": "Whole runs with -I, not with -t. Computing signatures and distances (libpuzzle) are arbitrary functions; a picture whose signature could not be computed is left out by the statement."},
  {"property": "C111", "status": "proved", "theorems": ["exit_status_exact"], "note": "Whole runs from the command line; what the report of a run with status 0 contains is C85 and C110."},
  {"property": "C112", "status": "proved", "theorems": ["cache_open_outcome"], "note": "For all histories in the model of the advisory lock, also such in which one process opens several handles."},
  {"property": "C113", "status": "proved", "theorems": ["cache_abort_exact", "cache_outside"], "note": "For all sequences of upserts, lookups and marks. One thread; marks of several threads are C124."},
  {"property": "C114", "status": "proved", "theorems": ["bulk_load", "bulk_load_uniform", "bulk_load_varied"], "note": "One transaction on a database without keys and without a Free DB. Page numbers up to 2^64; that the file system and the memory map have room for the pages is assumed (the code does not check the map size)."},
  {"property": "C115", "status": "proved", "theorems": ["write_chain", "commit_publishes_exactly"], "note": "One environment in one process; sequentially consistent memory; pages other than the meta pages are not part of this model (C14, C18, C53)."},
  {"property": "C116", "status": "partial", "theorems": ["snapshot_consistent_partial", "snapshot_consistent_refuted"], "note": "Proved when nothing is published while the four fields are read, even if a commit is writing the other meta page. The code violates the full statement: a commit between two of the reads gives the id of one state with the root of another."},
  {"property": "C117", "status": "proved", "theorems": ["reader_table_always"], "note": "Sequentially consistent memory."},
  {"property": "C118", "status": "partial", "theorems": ["reader_protected_partial", "reader_protected_refuted"], "note": "Proved once the slot is written. The code violates the full statement: the snapshot is taken before the reader registers, and a writer in between is told that there is no reader."},
  {"property": "C119", "status": "proved", "theorems": ["no_db_deadlock", "calls_end"], "note": "Mutex calls are assumed not to fail; fairness of the mutexes is not modelled."},
  {"property": "C12", "status": "partial", "theorems": ["operations_are_map_updates_partial", "operations_beside_free_db_partial", "distinct_puts_retrievable_partial", "insertion_order_refuted"], "note": "Holds for sequences whose splits are all clean (any length, any height up to 32, Free DB empty or with nothing to reuse); ascending order always is (C108). The code violates the full statement: insertion_order_refuted."},
  {"property": "C120", "status": "partial", "theorems": ["race_free_partial", "race_refuted"], "note": "Proved for the reader table and for writers among themselves. The code violates the full statement: a reader reads env->live_meta and the meta page without a lock while a commit writes them."},
  {"property": "C121", "status": "proved", "theorems": ["concurrent_inserts", "all_inserted"], "note": "Sequentially consistent memory; lock and unlock are assumed not to fail."},
  {"property": "C122", "status": "partial", "theorems": ["inserts_end_partial", "inserts_end_refuted"], "note": "Proved while memory lasts, with a bound on the number of steps. The code violates the full statement: when the array cannot grow, the call returns -1 with the lock taken and the array dropped."},
  {"property": "C123", "status": "partial", "theorems": ["heap_growth_partial", "heap_growth_refuted"], "note": "Proved below 2^31 elements. The code violates the full statement: new_max overflows to 0 and the loop never ends."},
  {"property": "C124", "status": "proved", "theorems": ["concurrent_marks", "marks_end", "all_marked"], "note": "Sequentially consistent memory; lock and unlock are assumed not to fail; apr_hash_set is two accesses, and a second thread between them is undefined behaviour. The sweep that follows is threads_then_sweep_partial of C27."},
  {"property": "C125", "status": "partial", "theorems": ["one_at_a_time_partial", "second_begin_refuted", "begin_in_write_refuted", "sweep_in_read_refuted"], "note": "Proved for read transactions begun while none is open. The code violates the full statement: begin overwrites active_txn, so a second reader is never unregistered, and a second write begin waits for the mutex of its own thread."},
  {"property": "C126", "status": "proved", "theorems": ["any_ending_write", "any_ending_read"], "note": "One thread per handle; a commit that runs into undefined behaviour of the tree code is left out."},
  {"property": "C127", "status": "partial", "theorems": ["pointer_is_value", "pointer_lasts_partial", "read_pointer_lasts_partial", "pointer_after_delete_refuted", "pointer_after_upsert_refuted", "read_pointer_refuted"], "note": "Proved for puts that find room in their leaf and deletions in other leaves, and for readers while no commit writes the page. The code violates the full statement: a deletion moves the values of its page, a split frees the room a pointer points to, and a commit overwrites pages in place."},
  {"property": "C128", "status": "partial", "theorems": ["parallel_vectors_partial", "image_threads_partial", "no_shared_image", "image_threads_refuted"], "note": "Every schedule without spurious return of the wait, fewer than 2^32 files; libpuzzle is a parameter. The code violates the full statement: the condition wait is not in a loop, so a spurious return drops the queue and the images are left out of the report."},
  {"property": "C129", "status": "partial", "theorems": ["free_page_taken_partial", "free_page_taken_refuted"], "note": "Proved when the transaction has not changed the Free DB before or every entry has one page, the Free DB has no empty leaf and at most 65535 entries. The code violates the full statement: update_or_delete_reclaimed_entry deletes the entry and then inserts its rest with a key pointer into the page it has just compacted; in the witness that key exists already, the insertion fails, the pages of the entry are forgotten and the file grows."},
  {"property": "C13", "status": "proved", "theorems": ["open_selects_newest"], "note": ""},
  {"property": "C130", "status": "proved", "theorems": ["scan_exact", "scan_sound"], "note": "One transaction; nothing else changes the tree during the scan."},
  {"property": "C131", "status": "proved", "theorems": ["sweep_deletes"], "note": "About the loop, that is the state of the write transaction before its commit. The cursor of the model keeps copies of pages where the code keeps pointers: the same, as the transaction of a sweep has no dirty page when the scan meets a page first; the commit is sweep_any_tree_partial of C27."},
  {"property": "C132", "status": "proved", "theorems": ["set_range_sound"], "note": "Keys shorter than 65536 bytes, as everywhere."},
  {"property": "C133", "status": "partial", "theorems": ["meta_pages_safe_partial", "meta_page_overwritten_refuted"], "note": "Proved for every history of transactions, on a database with two proper trees, in which no page has to be split (bulk_load of C114 covers first transactions that split). The code violates the full statement: the live page of the Free DB is handed out as free, user data is then read as Free DB entries, and the page number found there may be 0."},
  {"property": "C134", "status": "proved", "theorems": ["only_what_was_put"], "note": "Limits of the file format are assumed: entries shorter than 64 KiB (longer ones write out of bounds, C06), page numbers below 2^64, and for cursors trees of fewer than 32 levels. A commit that would write over a meta page (C133) is outside the model. For keys of eight bytes see C135."},
  {"property": "C135", "status": "partial", "theorems": ["eight_byte_keys_partial", "eight_byte_keys_refuted"], "note": "Proved for every history in which no page has to be split. The code violates the full statement: once the live page of the Free DB has been handed out as free (C21), it is part of both trees, and a get of the id of a transaction as a key of eight bytes returns the list of the pages that transaction freed."},
  {"property": "C136", "status": "proved", "theorems": ["file_always_opens"], "note": "A page or meta page is written as a whole or not at all, as in C15. What the trees hold after the crash is C15 and C134."},
  {"property": "C137", "status": "partial", "theorems": ["lookup_stays_inside_partial", "lookup_stays_inside_refuted"], "note": "Proved for every life of a file: undefined behaviour needs a branch page without entries. The code violates the full statement: a branch page with one entry that has no room for a second is split into an empty page and one that is never linked, and the next lookup reads slot 65535."},
  {"property": "C138", "status": "partial", "theorems": ["lookup_ends_partial", "lookup_ends_refuted"], "note": "Proved for every life of a file: a descent that does not end comes back to a page it has passed. The code violates the full statement: pages in use are listed as free (C22), so the split of a leaf that is the root can get the number of that leaf for the new root, which becomes its own child. Six puts in four committed transactions suffice, after which no get ever returns."},
  {"property": "C139", "status": "proved", "theorems": ["never_goes_back"], "note": "Transaction numbers are unbounded in the model; in C they wrap after 2^64 commits. A page or meta page is written as a whole or not at all, as in C15."},
  {"property": "C14", "status": "partial", "theorems": ["commit_alternates_partial", "meta_page_overwritten_refuted"], "note": "Proved for every history and every commit that writes no tree page over a meta page. The code violates the full statement: meta_page_overwritten_refuted, the live meta page is overwritten by a page of user data."},
  {"property": "C140", "status": "proved", "theorems": ["colours_only", "colours_status", "terminal_shows"], "note": "Runs on all files with the separator and size option given; colours_only and colours_status for all paths, terminal_shows for paths without an escape character. The terminal is a small interpreter of ESC [ n m in PropColour."},
  {"property": "C141", "status": "proved", "theorems": ["reader_writes_nothing"], "note": "For every life of a file (PropFileLife): calls, restarts and crashes."},
  {"property": "C142", "status": "proved", "theorems": ["deletion_is_local", "deletion_ends"], "note": "For every life of a file (PropFileLife), without any assumption on the shape of the tree."},
  {"property": "C143", "status": "proved", "theorems": ["put_is_local"], "note": "For every life of a file (PropFileLife), without any assumption on the shape of the tree. Puts without room are under C07 and C109."},
  {"property": "C144", "status": "proved", "theorems": ["load_then_list"], "note": "For the lists of C114."},
  {"property": "C145", "status": "partial", "theorems": ["delete_any_number_partial", "commit_frees_few", "delete_all_refused", "delete_any_number_refuted"], "note": "Refuted in general: the list of replaced pages must fit in one Free DB node, that is at most 508 page numbers (commit_frees_few: every successful commit of every life); otherwise the commit returns ENOSPC and all changes are lost (delete_all_refused: every load whose pairs need more than 508 leaves; delete_any_number_refuted: 1100 pairs). Proved: after a load with at most 254 pairs, or in a file of at most 510 pages, any set of keys can be deleted in one transaction."},
  {"property": "C146", "status": "partial", "theorems": ["fill_mark_sweep_partial", "sweep_refused", "fill_mark_sweep_refuted"], "note": "Refuted in general: when the entries to remove are spread over more than 508 leaves the commit of the sweep fails with ENOSPC, the cache is unchanged, and so every later sweep fails as well (sweep_refused; fill_mark_sweep_refuted: 2000 paths of 992 bytes). Proved: with at most 254 entries, or in a file of at most 510 pages, the whole cycle fill, mark, sweep works for all marks."},
  {"property": "C147", "status": "partial", "theorems": ["delete_defined_partial", "delete_all_never", "delete_many_overflows", "delete_defined_refuted"], "note": "Refuted for large databases: whenever the pairs loaded need more than 8192 leaves there are keys (a prefix of all keys) such that the commit of their deletion copies a list of more than 64 KiB into a page of 4 KiB (delete_many_overflows; delete_defined_refuted: every load of 17510 or more pairs of 1902 bytes). Proved: with at most 4095 pairs or in a file of at most 8192 pages the commit succeeds or returns ENOSPC."},
  {"property": "C148", "status": "partial", "theorems": ["reads_in_map_partial", "load_leaves_map", "reads_in_map_refuted"], "note": "Refuted: nothing compares the size of the database with the size of the map. Whatever the map size M, a load of M bytes is committed without an error and the lookup of one of its keys then reads beyond the map (load_leaves_map; reads_in_map_refuted for all M up to 4 TiB). Proved: in a healthy database (C15) whose committed pages lie in the map, lookups read nothing outside it."},
  {"property": "C149", "status": "partial", "theorems": ["load_in_batches_partial", "load_in_batches_refuted"], "note": "Refuted: loading three pairs in three transactions, each committed without an error, loses the first pair, a fourth transaction the second one (load_in_batches_refuted): the pages a transaction copies keep their numbers but are put on the list of free pages. Proved: two transactions of any sizes are safe, all pairs are then found and listed in order; the second frees at most the pages on the way to the last leaf."},
  {"property": "C15", "status": "partial", "theorems": ["crash_atomic_first_partial", "crash_atomic_one_page_partial", "single_operation_crash_atomic_partial", "crash_atomic_refuted"], "note": "Holds for the first committed transaction and for transactions changing one page. The code violates the full statement: dirty pages are written to their old place, a crash between two page writes leaves half of the transaction visible."},
  {"property": "C150", "status": "proved", "theorems": ["shown_chosen", "chosen_obeys"], "note": "For whole runs in every world: no assumption on reads, contents, hashes, options or the exit status; assumed are a sorting qsort, a table walk that visits every entry, and sizes that are not negative. chosen_obeys spells out what selected means."},
  {"property": "C151", "status": "proved", "theorems": ["shared_reading"], "note": "Any interleaving of any number of processes none of which commits."},
  {"property": "C152", "status": "proved", "theorems": ["left_out_by_rule"], "note": "For any regex engine; which patterns an ignore file yields is C72, what they mean is C73."},
  {"property": "C153", "status": "proved", "theorems": ["bad_size_refused"], "note": "Blank texts, texts that begin with a character that cannot begin a number, and numbers followed by a character that is no unit."},
  {"property": "C154", "status": "partial", "theorems": ["small_database_updates_partial", "small_database_updates_refuted"], "note": "Proved for up to 186 transactions. The 187th destroys the contents of every such database, whatever was put before: no lookup finds a value any more, and some lookups never end."},
  {"property": "C155", "status": "partial", "theorems": ["cache_refreshed_partial", "cache_refreshed_refuted"], "note": "Proved for up to 186 refreshes. After the 187th, which succeeds, no lookup in any such cache finds an entry."},
  {"property": "C156", "status": "proved", "theorems": ["first_commit_all_or_nothing", "load_all_or_nothing"], "note": "A page or meta page is written as a whole or not at all, as in C15; the meta page that is not live is the older one, which fails only after a commit whose last sync failed. What a commit publishes is C53; for loads in key order the contents are stated."},
  {"property": "C157", "status": "partial", "theorems": ["one_round_partial", "rounds_leave_one_partial", "nothing_left_partial", "exit_zero_complete_refuted"], "note": "Proved for runs in which every examined file can be read, arguments that do not contain each other, and names without the separator and newlines. Missing and false: a file that cannot be read makes the program print nothing and end with status 0 although two compared files are equal (exit_zero_complete_refuted). The pipeline is cut -d SEP -f 1 -s followed by rm; the grep of the README is left out."},
  {"property": "C158", "status": "partial", "theorems": ["import_round_partial", "import_cleaned_partial", "import_cleaned_refuted"], "note": "Proved with 'under P' read as the textual prefix the program uses (letter case ignored with -c), the lines kept being those with that prefix, for runs as in C157. Read as a directory it is false for a path without trailing slash: with -p /d/su the file /d/sub/b is listed first and removed."},
  {"property": "C159", "status": "partial", "theorems": ["hash_progress_counts", "hash_progress_ends_partial", "vector_progress_counts", "vector_progress_ends_partial", "compare_progress_partial", "compare_progress_refuted", "percent_sound"], "note": "Hashing and vectors: proved at every moment of every schedule, that the total is reached for a wait that does not return spuriously (C35). Comparisons: proved up to 65536 files; from 65537 on the product is taken modulo 2^32 and the count runs past the total. percent_sound is about the integer percentages of hashing and vectors, for any monotone rounding that keeps 0, 1 and 100; the decimals of the comparison line are not modelled."},
  {"property": "C16", "status": "partial", "theorems": ["commit_durable_partial", "crash_at_end_durable_partial", "meta_page_overwritten_refuted"], "note": "Proved for every commit that writes no tree page over a meta page (C133). The code violates the rest: when a page of the data tree lies on a meta page, its pairs are destroyed by the meta data. Durability of what the commit wrote: metadata and pages as they were in memory. See C53 for whether those are the transaction's bindings."},
  {"property": "C160", "status": "partial", "theorems": ["limits_select_partial", "more_arguments_partial", "more_arguments_refuted"], "note": "Proved for pairs of runs that end with status 0 while reads succeed, files do not change and hashes do not collide. The code violates the full statement when hashes collide: a further argument ends a run that reported a pair with a NULL pointer (more_arguments_refuted)."},
  {"property": "C161", "status": "proved", "theorems": ["level_exact", "higher_level_more"], "note": "For whole runs that end with status 0. The constants of libpuzzle are not part of the repository; assumed is that LOWER <= LOW <= 0.5 <= THRESHOLD <= HIGH, that the distance is symmetric and that decoding depends on the path."},
  {"property": "C162", "status": "partial", "theorems": ["failure_explained", "unreadable_named_partial", "read_error_named", "only_failures_named", "quiet_when_readable", "same_run", "unreadable_named_refuted"], "note": "failure_explained, read_error_named, only_failures_named and quiet_when_readable hold in full. A file that cannot be opened is named only with -v (unreadable_named_partial); unreadable_named_refuted: without -v, and so always with -J, it is left out without a message and with status 0; with -v too, a file the user may not read is skipped without a message, and a failing first read while two files are compared says nothing when the result cell holds a value other than 0. same_run ties the exit status to the run of MainModel."},
  {"property": "C163", "status": "partial", "theorems": ["others_exact", "others_apart", "others_end_partial", "not_confused", "others_end_refuted"], "note": "others_exact: a run that ends normally is exact, with no assumption on hash values; others_apart: no file is in two sets. others_end_partial: it ends normally unless a file has the hash value of two equal files of its size, although its bytes differ or it cannot be opened; not_confused gives a condition that excludes this. The code violates the full statement: the cell of a file that cannot be opened keeps what memory held, and when that is the hash value of two equal files and the sort puts it between them the report dereferences NULL (others_end_refuted). An empty file that cannot be opened counts as equal to the other empty ones."},
  {"property": "C164", "status": "partial", "theorems": ["delete_while_scanning_partial", "live_same", "sweep_pointers", "delete_while_scanning_refuted"], "note": "LiveModel gives the cursor the page pointers of the code. live_same: between two updates it answers as the cursor of CursorModel does. delete_while_scanning_partial: in a transaction that has not changed a leaf yet the loop deletes exactly what the undisturbed scan returns, which is everything when no leaf is empty. sweep_pointers: the sweep of the cache is such a loop, so modelling it without pointers is exact. The code violates the full statement: a leaf the transaction has already copied is changed in place under the cursor, and the entry after a deleted one is skipped (delete_while_scanning_refuted)."},
  {"property": "C165", "status": "partial", "theorems": ["freed_listed_partial", "freed_found_partial", "freed_listed_refuted"], "note": "freed_listed_partial: one commit whose list fits the leaf of the Free DB. freed_found_partial: any history of transactions whose changes fit the pages; the list is found after any number of later commits. Missing: commits that split a page of the Free DB, and transactions that take pages from the lists. The code violates the full statement: the pages of the Free DB itself that the commit copies are given up after the list was written and are listed nowhere (freed_listed_refuted)."},
  {"property": "C166", "status": "partial", "theorems": ["others_unaffected_partial", "others_unaffected_refuted"], "note": "Two runs of the whole program over worlds that differ on any set of paths closed downwards. Missing: hash collisions, failing reads, changed ignore files, -t and -I. The code violates the full statement: a new file with the size and hash of two others but another content ends the run in a NULL pointer (others_unaffected_refuted)."},
  {"property": "C167", "status": "partial", "theorems": ["first_fill_partial", "upsert_then_lookup_refuted"], "note": "Proved for entries in path order whose path lengths are close enough for pages to be split evenly (C114): any number of attempts, each cut off before or during its commit. The code violates the full statement for paths in another order: every call succeeds and an entry is lost (upsert_then_lookup_refuted)."},
  {"property": "C168", "status": "partial", "theorems": ["dedup_partial", "dedup_refuted"], "note": "Two runs of the whole program, text or -J, with deletions between them. Missing: hash collisions, failing reads, -t and -I. The code violates the full statement: a file that cannot be read is left out while the status is 0, so that a content remains twice (dedup_refuted)."},
  {"property": "C169", "status": "partial", "theorems": ["failed_commit_partial", "failed_operation_partial", "failed_commit_refuted"], "note": "Proved: a commit that finds no room or fails at its first file operation, in any state of the file in which the newer meta page is in use; and a failure at any operation but the last as long as nothing is committed; and on a file with data, for one put that fits or one deletion, that all keys read as before or all as in the transaction (failed_operation_partial). The code violates the full statement: when the sync after the meta page fails, this process goes on with the old data but the next one finds the new; and on a file with data the pages are overwritten in place, so that a failed change is read at once (failed_commit_refuted)."},
  {"property": "C17", "status": "partial", "theorems": ["snapshot_stable_partial", "snapshot_stable_refuted"], "note": "Holds for runs whose commits do not write a page of the snapshot (in particular runs without a commit). The code violates the full statement: pages are overwritten in place."},
  {"property": "C170", "status": "proved", "theorems": ["load_after_failures"], "note": "Calls of any threads, failing commits, crashes and reopenings; a commit on which the meta page was written but the last sync failed is included as long as the process goes on."},
  {"property": "C171", "status": "partial", "theorems": ["update_after_failure_partial", "update_after_failure_refuted"], "note": "Proved: when the second transaction of a small database fails at any operation, the process can commit the next one; before the first transaction see C170. The code violates the full statement: the Free DB page is written in place under the id of the failed transaction, which the next transaction has too, so that insert_into_free_db finds the key and returns EEXIST. Proved for every small database made by 2 to 185 transactions and every further one: once its pages are written and the commit fails or the machine stops, every later commit that changes anything is refused, and after a crash in every later process too (update_after_failure_refuted)."},
  {"property": "C18", "status": "proved", "theorems": ["uncommitted_private", "abort_restores"], "note": ""},
  {"property": "C19", "status": "proved", "theorems": ["single_writer", "lock_released"], "note": ""},
  {"property": "C20", "status": "proved", "theorems": ["reader_table_exact"], "note": "Readers register and unregister atomically in the model (one step); the window between taking the snapshot and registering is not modelled."},
  {"property": "C21", "status": "partial", "theorems": ["reuse_only_from_free_db_partial", "page_reuse_refuted"], "note": "Proved: a reused page is listed in the Free DB by a transaction older than the writer and every registered reader. The code violates the full statement: pages still in use are recorded as freed; the third transaction of the witness is handed the live root page."},
  {"property": "C22", "status": "proved", "theorems": ["fresh_allocation"], "note": "'Without reuse' is no_reuse: a scan of the Free DB meets no reclaimable entry."},
  {"property": "C23", "status": "partial", "theorems": ["forward_scan_partial", "navigation_partial", "scan_refuted"], "note": "Proved for ordered trees without empty leaves, where any mixture of NEXT and PREV after any seek is also a walk over the sorted binding list. The code violates the full statement: scan_refuted, an emptied leaf ends the scan."},
  {"property": "C24", "status": "partial", "theorems": ["backward_scan_partial", "navigation_partial", "backward_scan_refuted"], "note": "Proved for ordered trees without empty leaves. The code violates the full statement: backward_scan_refuted."},
  {"property": "C25", "status": "proved", "theorems": ["set_exact"], "note": "Every ordered tree, including ones with emptied leaves."},
  {"property": "C26", "status": "partial", "theorems": ["set_range_partial", "set_range_refuted"], "note": "Proved when the leaf responsible for the probe holds a key not below it. The code violates the full statement: set_range_refuted."},
  {"property": "C27", "status": "partial", "theorems": ["sweep_exact_partial", "sweep_any_tree_partial", "threads_then_sweep_partial", "sweep_exact_refuted"], "note": "Proved for ordered trees without empty leaves when the Free DB leaf has room; for trees with empty leaves exactly the part the scan reaches is swept. The code violates the full statement: a sweep stops at the first emptied leaf."},
  {"property": "C28", "status": "partial", "theorems": ["lookup_exact", "upsert_then_lookup_partial", "upsert_then_lookup_refuted"], "note": "Lookup is proved in full. Upsert inherits the limits of put (C07): refuted by three long paths."},
  {"property": "C29", "status": "proved", "theorems": ["heap_extracts_maximum"], "note": ""},
  {"property": "C30", "status": "proved", "theorems": ["heap_conservation", "heap_drain_sorted"], "note": ""},
  {"property": "C31", "status": "proved", "theorems": ["hash_refines_map"], "note": ""},
  {"property": "C32", "status": "proved", "theorems": ["hash_iteration_exact"], "note": ""},
  {"property": "C33", "status": "partial", "theorems": ["hash_set_terminates_partial", "hash_set_terminates_refuted", "ignore_list_duplicates_diverge_refuted"], "note": "The code violates the full statement: growth loops for ever when as many elements as the fill factor share a full hash value; proved when fewer different keys than the fill factor share one. C100 gives the tables of the program."},
  {"property": "C34", "status": "partial", "theorems": ["handed_at_most_once", "handed_exactly_once_partial", "handed_exactly_once_refuted"], "note": "At most once, in order, one callback per worker: every use and schedule. Completeness: one client thread, no spurious return of its wait, fewer than 2^32 tasks. The code violates the full statement with a second adding thread."},
  {"property": "C35", "status": "partial", "theorems": ["wait_returns_after_all_partial", "wait_returns_after_all_refuted"], "note": "One client thread, no spurious return of its wait, every schedule. The code violates the full statement: the condition wait is not in a loop."},
  {"property": "C36", "status": "proved", "theorems": ["pool_progress", "pool_terminates", "pool_completes"], "note": "One waiting client, any number of adding clients, at least one worker, spurious wakeups allowed. Outside that use: two_waiters_deadlock, no_workers_deadlock."},
  {"property": "C37", "status": "proved", "theorems": ["groups_sound"], "note": "Text and JSON report; any hash values, any failures, any sort that permutes. The byte comparison itself is C42."},
  {"property": "C38", "status": "partial", "theorems": ["report_complete_partial", "others_exact", "report_complete_refuted"], "note": "Proved for readable files without hash collision inside one size (text and JSON). The code violates the full statement: a collision makes the report stop (NULL dereference) before later groups. others_exact: a run with status 0 is exact even with collisions and files that cannot be opened."},
  {"property": "C39", "status": "proved", "theorems": ["reported_once"], "note": "Text and JSON report, for distinct paths met by the walk (a directory given twice on the command line is met twice)."},
  {"property": "C40", "status": "partial", "theorems": ["report_complete_partial", "others_end_partial", "report_no_crash_refuted"], "note": "Normal end proved for readable files without hash collision. The code violates the full statement: one file of three equal ones becoming unreadable before the report leads to a NULL dereference."},
  {"property": "C41", "status": "partial", "theorems": ["priority_first_partial", "priority_dir_first_partial", "priority_first_refuted"], "note": "Proved with 'under' read as a textual prefix, and for a priority path with trailing slash as directory. Without the slash the directory reading is violated: path A also takes in AB."},
  {"property": "C42", "status": "partial", "theorems": ["filecmp_exact_partial", "filecmp_true_partial", "filecmp_read_error_refuted", "filecmp_short_read_refuted", "filecmp_resized_refuted", "filecmp_bus_refuted"], "note": "Exact when both files still have the recorded size, no read fails and no read of the second file is shorter than that of the first; the code reports equal after a read error or a short read on the second file and for files whose length changed after the scan."},
  {"property": "C43", "status": "proved", "theorems": ["unique_sizes_dropped"], "note": ""},
  {"property": "C44", "status": "proved", "theorems": ["size_limits_exact"], "note": ""},
  {"property": "C45", "status": "proved", "theorems": ["permission_rule"], "note": "Directories need the execute bit, other files the read bit."},
  {"property": "C46", "status": "proved", "theorems": ["last_match_decides"], "note": "For any behaviour of pcre_exec."},
  {"property": "C47", "status": "partial", "theorems": ["closest_decides_partial", "outermost_decides", "silent_chain", "closest_decides_refuted"], "note": "The code lets the outermost context that has a matching pattern decide; precedence of the closer file holds only where the outer ones are silent or agree."},
  {"property": "C48", "status": "partial", "theorems": ["glob_translation_partial", "glob_total", "glob_newline_refuted", "glob_escape_refuted", "glob_negated_set_refuted", "glob_middle_slash_refuted", "glob_deep_dir_refuted"], "note": "For patterns of literals, escapes of non-alphanumerics, ?, *, **, **/ and positive sets and all paths without newline, against a specification of PCRE for the produced syntax; the refutations show the remaining cases."},
  {"property": "C49", "status": "partial", "theorems": ["glob_buffer_partial", "glob_buffer_refuted"], "note": "Patterns of up to 817 characters; 1100 question marks overrun the buffer while the loader accepts 4095 characters."},
  {"property": "C50", "status": "partial", "theorems": ["size_integer_partial", "size_sign", "size_no_number", "size_bad_unit", "size_exact_refuted"], "note": "Exact for integers below 2^53 whose product is below 2^63; text without a number and unknown suffixes are rejected. Refuted beyond that: text behind the suffix is ignored (1Kbogus), numbers above 2^53 are rounded, negative numbers are returned as such, products from 2^63 on are undefined behaviour. Exponent, hexadecimal, inf and nan forms of strtod are not modelled."},
  {"property": "C51", "status": "proved", "theorems": ["json_text_agree"], "note": "Readable files without hash collision inside one size; qsort depends on its elements only through the comparison."},
  {"property": "C52", "status": "partial", "theorems": ["page_search_correct", "long_probe_mistaken_refuted"], "note": "Holds for probes below 65536 bytes. The code violates the full statement (key size cast to uint16_t); long_probe_mistaken_refuted is a witness."},
  {"property": "C53", "status": "partial", "theorems": ["commit_publishes_partial", "history_is_map_partial", "early_transaction_is_map_partial", "page_reuse_refuted"], "note": "Holds for every history in which no page has to be split, and for transactions with clean splits while there is no Free DB. The code violates the full statement: see page_reuse_refuted."},
  {"property": "C54", "status": "proved", "theorems": ["checksum_exact"], "note": "XXH3 is a parameter; streaming updates hash the concatenation."},
  {"property": "C55", "status": "partial", "theorems": ["duplicates_exact_partial", "duplicates_exact_refuted"], "note": "Under stable sizes, clean reads and no hash collision; refuted when a read of the second file fails."},
  {"property": "C56", "status": "partial", "theorems": ["default_ignores_exact", "default_ignores_absolute_partial", "default_ignores_relative_refuted"], "note": "The patterns mean what they say, but they are attached to the directory / and never apply when the walk starts at a relative path."},
  {"property": "C57", "status": "partial", "theorems": ["size_fraction_partial", "size_fraction_refuted"], "note": "Exact when digits * 2^m < 2^(53 + min(m, number of fraction digits)); refuted for longer fractions, which are rounded up before truncation."},
  {"property": "C58", "status": "proved", "theorems": ["walk_exact"], "note": "For any behaviour of apr_stat, directory reading and pcre that does not change during the walk."},
  {"property": "C59", "status": "partial", "theorems": ["walk_once_partial", "walk_once_refuted"], "note": "Holds when no argument lies under another one; refuted for overlapping arguments."},
  {"property": "C60", "status": "partial", "theorems": ["walk_succeeds_partial", "walk_succeeds_refuted", "walk_loop_refuted"], "note": "On a finite tree the run gets through if and only if nothing it meets fails. Refuted: one directory that cannot be opened or one vanished entry ends the run; a broken link with --follow-symlink makes the code read an uninitialised structure; circular links are followed without end."},
  {"property": "C61", "status": "proved", "theorems": ["hidden_skipped"], "note": ""},
  {"property": "C62", "status": "partial", "theorems": ["no_recurse_partial", "no_recurse_refuted"], "note": "Holds when directory entries have the type of what they lead to; refuted with --follow-symlink, where links to directories are entered."},
  {"property": "C63", "status": "partial", "theorems": ["regex_filter_partial", "regex_filter_refuted"], "note": "Files that are compared satisfy the expressions; but the whitelist is applied to directories too, so matching files in directories whose path does not match are lost."},
  {"property": "C64", "status": "partial", "theorems": ["run_exact_partial", "run_exact_refuted"], "note": "For walks that succeed, reads that succeed and a collision-free hash. The code violates the full statement: with four files of one hash value a group is lost (run_exact_refuted); failing walks and reads are under C42, C55 and C60."},
  {"property": "C65", "status": "partial", "theorems": ["no_self_twin_partial", "no_self_twin_refuted"], "note": "Holds when no argument lies under another one; otherwise the file is reported as its own duplicate."},
  {"property": "C66", "status": "proved", "theorems": ["settings_exact", "setup_exact"], "note": "Starts from the options returned by apr_getopt_long."},
  {"property": "C67", "status": "partial", "theorems": ["accepted_exact_partial", "accepted_exact_refuted"], "note": "Exact for the options apr_getopt_long returns; refuted in full: its error status is ignored, and text behind a size or level is accepted."},
  {"property": "C68", "status": "proved", "theorems": ["ignore_names_exact"], "note": ""},
  {"property": "C69", "status": "proved", "theorems": ["threads_exact"], "note": ""},
  {"property": "C70", "status": "proved", "theorems": ["json_not_verbose"], "note": ""},
  {"property": "C71", "status": "partial", "theorems": ["groups_exact_partial", "groups_exact_refuted"], "note": "Exact below 256 groups; with exactly 256 the effective group can be lost, with more the program stops."},
  {"property": "C72", "status": "partial", "theorems": ["gitignore_lines_partial", "gitignore_lines_refuted", "lines_exist", "lines_unique"], "note": "For lines shorter than 4095 bytes without NUL; a longer comment line is split and its tail becomes a pattern."},
  {"property": "C73", "status": "partial", "theorems": ["gitignore_meaning_partial", "gitignore_meaning_refuted"], "note": "For lines in the syntax of IgnoreSpec of at most 817 bytes and paths without newline; a path with a newline at its end is ignored by a line that does not hit it; what goes wrong elsewhere is under C48, C49 and C72."},
  {"property": "C74", "status": "partial", "theorems": ["text_exact", "text_readable_partial", "text_readable_refuted"], "note": "The text is exact for every run; it can be read back if no path is empty or holds a newline or the separator and output is not a terminal. A newline in a name makes two results look alike."},
  {"property": "C75", "status": "partial", "theorems": ["cleanup_first_partial", "cleanup_safe_partial", "run_cleanup_partial", "cleanup_safe_refuted"], "note": "For paths without newline or separator and files met once, for the report stage and for whole runs from the command line, hash collisions included; a separator in a name or a file met twice (overlapping arguments) can lose content."},
  {"property": "C76", "status": "proved", "theorems": ["larger_first"], "note": ""},
  {"property": "C77", "status": "proved", "theorems": ["image_pairs_exact", "image_twins"], "note": "libpuzzle's decoder and distance are parameters; the second theorem assumes the distance test symmetric and files met once."},
  {"property": "C78", "status": "partial", "theorems": ["image_cleanup_partial", "image_cleanup_refuted"], "note": "A chain of similar images leads to one that is kept, which need not be similar itself."},
  {"property": "C79", "status": "partial", "theorems": ["size_shown_partial", "size_shown_refuted"], "note": "Proved for sizes below 2^53, except that the number can be shown as 1024.0; from 2^53 on the first rounding can spoil the tenth. The behaviour of apr_psprintf is assumed."},
  {"property": "C80", "status": "partial", "theorems": ["size_round_trip_partial", "size_round_trip_refuted"], "note": "Proved for KiB to TiB; sizes shown in B, PiB and EiB are rejected."},
  {"property": "C81", "status": "partial", "theorems": ["parallel_hashing_partial", "parallel_is_sequential", "no_shared_cell", "parallel_hashing_refuted"], "note": "Every schedule without spurious return of the wait, fewer than 2^32 tasks. The code violates the full statement: the condition wait is not in a loop, so a spurious return leaves the hashes unset."},
  {"property": "C82", "status": "proved", "theorems": ["task_list_is_queue"], "note": "Fresh cells are distinct; allocation does not fail."},
  {"property": "C83", "status": "partial", "theorems": ["json_document_exact_partial", "json_path_lost_refuted"], "note": "Proved for readable files, a hash without collisions and paths that are well-formed UTF-8. The code violates the full statement: the path of a file whose name is not UTF-8 is left out of the document. The behaviour of jansson is assumed; archive mode is excluded."},
  {"property": "C84", "status": "partial", "theorems": ["json_time_order_partial", "json_time_order_refuted"], "note": "Proved from 1970 to the end of the year 9999, for any apr_time_exp_gmt that follows the Gregorian calendar; later years have five digits and sort before."},
  {"property": "C85", "status": "partial", "theorems": ["exit_zero_complete_partial", "exit_zero_exact_partial", "exit_zero_complete_refuted"], "note": "Whole runs from the command line to exit status and output, for text and document. Proved when reads do not fail, hashes do not collide and, with -J, names are UTF-8; not for -I and -t. The code violates the full statement: a file that cannot be read is left out while the status is 0."},
  {"property": "C86", "status": "partial", "theorems": ["json_output_partial", "json_output_refuted"], "note": "Proved for all worlds, also with failing reads, without -I. With -I and -J together the text of the image mode is written instead of a document."},
  {"property": "C87", "status": "proved", "theorems": ["json_paths_absolute"], "note": "Assumes that apr_filepath_merge with APR_FILEPATH_TRUENAME returns an absolute path. No assumption on reads or hashes."},
  {"property": "C88", "status": "partial", "theorems": ["order_irrelevant_partial", "order_irrelevant_refuted"], "note": "Proved for runs whose reads do not fail and whose hashes do not collide; options -j -x -o -v -n -d -s may differ. The code violates the full statement: when hashes collide, one order of a directory gives the report and another one a NULL dereference."},
  {"property": "C89", "status": "partial", "theorems": ["run_defined_partial", "archive_mode_undefined", "run_defined_refuted"], "note": "With -t, undefined exactly when two places of what was found hold files of one size (archive_mode_undefined). Proved without -t; with -f only if no link met is broken; without -I when reads do not fail and hashes do not collide; ignore files have lines of at most 817 characters. The code violates the full statement: -t reads a field that is never set, -f with a broken link reads a structure that was not filled."},
  {"property": "C90", "status": "partial", "theorems": ["reused_page_struck_off_partial", "reused_page_struck_off_refuted", "no_page_twice_partial", "no_page_twice_refuted"], "note": "One allocation: proved for every Free DB without an empty leaf, when the transaction has not changed the Free DB before or every entry has one page. A whole transaction: proved when the Free DB is one leaf that lists no page twice, whatever the aliased key pointer does to the keys. The code violates the full statement in two ways. The key passed to the write-back points into the page being changed, so an entry can come back under a different key (reused_page_struck_off_refuted). Every commit records the pages it copied, although the copies keep their numbers, so the list names pages in use, and names them repeatedly; the witness hands out the data root page three times (no_page_twice_refuted)."},
  {"property": "C91", "status": "partial", "theorems": ["no_temporary_left_partial", "compare_no_temporary_left_partial", "temporaries_left_refuted"], "note": "Every interleaving and every failure; members that are directories are excluded: the code removes the temporary directory with unlink, which fails. Functions of archive mode with subpath set; the traversal never sets it (C89)."},
  {"property": "C92", "status": "proved", "theorems": ["user_files_untouched", "compare_user_files_untouched"], "note": "Every interleaving, every failure, all kinds of members that have a name. mkstemp is taken to make a file that did not exist."},
  {"property": "C93", "status": "partial", "theorems": ["member_hash_partial", "member_compare_partial", "solo_run", "member_link_refuted", "nameless_member_refuted"], "note": "Regular files in archives whose members all have a name. The code violates the full statement: a member that is a link is replaced by the file outside the archive it points to; a nameless member leads to strcmp on NULL."},
  {"property": "C94", "status": "partial", "theorems": ["process_state_partial", "mask_left_refuted", "mask_race_refuted", "handles_left_refuted"], "note": "One thread that extracts successfully. The code violates the full statement: a failing mkstemp and two threads at the same time leave the mask at 077; every failure after opening loses the handles."},
  {"property": "C95", "status": "partial", "theorems": ["open_leaves_file_partial", "open_shows_database", "open_creates", "open_empties_refuted"], "note": "Proved for every outcome of every call when no other process acts between the stat and the open. The code violates the full statement: a file that another process creates in between is truncated and initialised again."},
  {"property": "C96", "status": "proved", "theorems": ["failed_open_closes", "close_closes"], "note": "Descriptors and maps are counted in the model."},
  {"property": "C97", "status": "partial", "theorems": ["open_defined_partial", "open_crash_refuted", "read_only_creation_refuted"], "note": "Proved for files and maps of more than 4096 bytes; exactly the others end the process with SIGBUS. A page behind the end of the file is taken to fault when touched."},
  {"property": "C98", "status": "partial", "theorems": ["handover", "taking_turns_partial", "shared_reading_partial", "lost_update_refuted", "two_writers_refuted", "stale_process_refuted"], "note": "Proved for processes that take turns and for processes that only read. The code violates the full statement: the writer lock is a mutex of one process and the live meta page is chosen at open time only."},
  {"property": "C99", "status": "partial", "theorems": ["cache_exclusive_partial", "cache_exclusive_refuted"], "note": "Proved when each process has at most one handle of the cache at a time. The code violates the full statement: POSIX record locks belong to the process, so a second handle in the same process is let in, and closing either drops the lock for both."}
]}

# Formal model of ftwin (fpesce/ftwin) in Coq 8.16.1

Everything lives in `rocq/theories` (logical path `Verif`). The code in `/repo` is
read as text only; it is neither built nor run. Statements about the code are
therefore statements about the model, tied to the code by the citations
(`file:lines`) carried by every model definition.

## 1. Method

* Model files (`*Model.v`) contain total, computable Gallina functions, one per C
  function; each carries a comment with file and lines. Pointers become values
  returned by the function; loops become structural or fuelled recursion with a
  distinct out-of-fuel outcome.
* Undefined behaviour is a distinct outcome (`UB`) of the modelled function, never a
  default value: out-of-page access, NULL dereference, overflow of a buffer,
  unbounded recursion (`OutOfFuel`).
* 16-bit wrap-around is written explicitly where the C code computes in `uint16_t`.
* `*Spec.v` files and the specification sections at the top of `Prop*.v` files hold the
  definitions theorems are stated with; they do not use helpers of the model.
* Proof files prove lemmas; `Prop*.v` files contain the property theorems,
  `Print Assumptions`, and `Example`s showing that the hypotheses can be met.
* A property that the modelled code violates gets a `..._refuted` theorem with a
  concrete witness evaluated by `vm_compute`, plus the strongest conditional
  theorem (`..._partial`) that we can prove.

## 2. Model architecture

| Model file | Code | Model |
| --- | --- | --- |
| `HeapModel` | `napr_heap.c` | array as `list`, sift-up / sift-down loops, any comparison callback |
| `HeapLockModel` | `napr_heap.c` | threads inserting into one heap, one step for every access to the structure and the lock; failing allocations; growth on 32 bits |
| `HashModel` | `napr_hash.c` | buckets as `list (list elt)`, nested rebuild with fuel, any hash function |
| `KeyModel` | `key_hash.c`, callbacks of `napr_hash.c`, `ftwin.c`, XXH32 of `xxhash.h` | the callbacks and XXH32 on bytes |
| `PageModel` | page functions of `napr_db_tree.c` | byte-level 4096-byte page, every access checked, slots and header fields as bytes |
| `TxnModel`, `TreeModel` | `napr_db_tree.c`, `napr_db.c` | file pages, dirty map, root, Free DB root, freed list, last page number; get, put with splits, del, allocation, reclaim (with the key pointer into the Free DB page that `update_or_delete_reclaimed_entry` passes on) |
| `DbModel` | `napr_db.c` | open, meta selection, begin, commit, abort; commit as a list of disk writes with sync barriers, a crash keeps any subset of the writes behind the last barrier |
| `LifeModel` | `napr_db.c:34-390`, `napr_cache.c:38-184` | open and close with one answer per system call, descriptors and maps counted; several processes over one disk; the lock file of the cache |
| `SysModel` | `napr_db.c` | interleavings of API calls of any number of threads, writer lock, reader table of 126 slots |
| `FineModel` | `napr_db.c` | begin, commit, abort and the oldest-reader query of any number of threads, one step for every lock, unlock and access to the live pointer, the meta pages and the reader table |
| `CursorModel` | `napr_db_cursor.c` | explicit stack of (page, index) |
| `CacheModel` | `napr_cache.c` | on top of transactions and cursors; entries as 40 bytes |
| `MarkModel` | `napr_cache.c` | threads marking paths, one step for every access to the table and the lock; failing allocations |
| `PtrModel` | `napr_db.c`, `napr_cache.c` | the pointers returned by `napr_db_get` and `napr_cache_lookup_in_txn`: block, offset, length, read again later |
| `PoolModel` | `napr_threadpool.c` | interleaving transition system, critical sections as steps, condition variables with spurious wakeups |
| `QueueModel` | list of `napr_threadpool.c` | cells in a memory of addresses |
| `JsonModel` | `ft_report_json.c` | the document as a tree; UTF-8 check of the library |
| `MainModel` | `ftwin.c` | whole runs: command line to exit status and standard output; of archive mode only the read of `subpath` |
| `ArchModel` | `ft_archive.c`, `ft_process.c:20-85`, `ft_report.c:157-208`, `ft_report_json.c:79-105` | extraction of archive members to temporary files, hashing and comparing them; libarchive by its answers; worker threads in any interleaving |
| `ParModel` | `ft_process.c` | tasks, callback and memory on top of `PoolModel` |
| `CollectModel` | `ft_traverse.c`, `ft_config.c` | permission and size filters, heap and hash of sizes |
| `ProcessModel` | `ft_process.c`, `ft_report.c`, `ft_report_json.c` | arrays of optional files, comparison and hashing as parameters that may fail, any `qsort` that permutes and sorts |
| `FileModel` | `ft_file.c` | contents as byte lists, chunked reads with short reads and failures, memory maps; XXH3 a parameter |
| `IgnoreModel` | `ft_ignore.c` | pattern text to regex text with its buffer, pattern lists, contexts, reading of ignore files; PCRE a parameter, for C48 specified by `PcreSpec` |
| `WalkModel` | `ft_traverse.c`, `ftwin.c` | recursive walk over any file system answering `apr_stat` and directory reads |
| `ConfigModel` | `ft_config.c` | options as returned by `apr_getopt_long` |
| `HumanModel`, `FormatModel` | `human_size.c` | decimal strings, doubles as integers times powers of two, rounding explicit |
| `OutputModel` | `ft_report.c` | bytes written to stdout |
| `ImageModel` | `ft_image.c` | libpuzzle's decoder and distance are parameters |
| `ImgParModel` | `ft_image.c` | the image mode with its threads: vectors computed by the pool, stored in the files, compared from there |
| `LevelModel` | `ft_config.c`, `ft_image.c` | the thresholds of `-T`; libpuzzle's constants and distance are parameters |
| `MsgModel` | `ft_traverse.c`, `ft_process.c`, `ft_file.c`, `ft_report*.c`, `ftwin.c` | the messages on stderr about paths, files and pairs that could not be read, as kind and paths; archives, close and unmap errors and headings left out |
| `LiveModel` | `napr_db_cursor.c`, `napr_cache.c` | the cursor with the page pointers of the code (map or copy of the transaction), and a loop that deletes what it returns |
| `FreedModel` | `napr_db.c` | `read_from_free_db`: the look-up of the pages a transaction gave up |
| `ProgModel` | `ft_process.c`, `ft_image.c` | the progress lines of `-v`: counters, totals, integer percentages under any rounding |

## 3. Plan per property

Statements are in `properties.jsonl`, the theorems in the files named in section 5. A theorem
whose name ends in `_partial` proves the statement under conditions stated in it; one whose
name ends in `_refuted` is a concrete case in which the modelled code violates the full
statement.

* **C01** Keys are ordered by one strict total order. `db_key_compare` as `memcmp` on the common prefix, then the sizes; equivalence with the inductive lexicographic order and the laws of a strict total order.
* **C02** In-page lookup finds a stored key or its unique insertion point. Binary search on the byte-level page under the page invariant (slots, disjoint nodes, header); loop invariant. *Proved:* Probes of 65536 bytes and more: see C52.
* **C03** Page insert adds exactly one entry and damages nothing. Refinement of the insertion to insertion into the list of entries; page invariant kept; no UB.
* **C04** Page delete removes exactly one entry and damages nothing. Refinement of the deletion to deletion from the list of entries; page invariant kept; no UB.
* **C05** Splitting a page loses and duplicates nothing. Refinement of the split to cutting the list of entries.
* **C06** No input size makes a page write go out of bounds. Case analysis of the 16-bit size computation, and a witness in which it wraps. *Status partial:* Holds when the node size fits 16 bits. The code violates the full statement: the node size is truncated to uint16_t before the space check while the copies use the full size_t sizes; page_insert_out_of_bounds_refuted is a witness.
* **C07** Inside a transaction a successful put is a map update. Tree invariant relating the pages reachable from the root to a sorted list of bindings; induction over the path and over the chain of splits. *Status partial:* Holds for every put that needs no split (any well-shaped tree, any Free DB) and for every put whose splits are clean (splits up to the root, Free DB empty or with nothing to reuse). The code violates the full statement: put_map_update_refuted is a witness (key that falls between the two halves of the leaf being split).
* **C08** Delete removes exactly the given key. Same tree invariant; deletion replaces one leaf. *Proved:* For every tree of well-formed pages with sorted keys (shaped) and keys below 65536 bytes.
* **C09** A failed put changes nothing. As C07; the failing branch keeps the bindings when no split happened. *Status partial:* Holds for every put that needs no split. The code violates the full statement: ENOSPC after the leaf was split loses the upper half.
* **C10** put updates an existing key. As C07 for a key that is present. *Status partial:* Holds when the key's leaf has not been modified in the transaction. The code violates the full statement: otherwise EEXIST.
* **C100** The tables tell sizes, groups and names apart exactly. Instances of C31 with the callbacks of the program. *Proved:* For all three tables, with XXH32 itself modelled. Whether filling the tables ends is C102 and C33.
* **C101** A failed open can be repeated. Case analysis over the failing calls; witness of a half made file. *Status partial:* Proved for files that exist, and for missing files when nothing was to be created. The code violates the rest: a creation that fails half way leaves a file that no later open accepts.
* **C102** Filling the tables ends. Instances of C33; XXH32 on four bytes is a composition of bijections; eight colliding sizes by computation. *Status partial:* Proved in full for groups (XXH32 is one to one on four bytes); for sizes when fewer than eight different sizes share a hash value. The code violates the full statement: eight files of given sizes below 30 GiB make the insertion loop for ever.
* **C103** Tasks are handed out in order and never twice. Invariant over all executions of the pool. *Proved:* In every use whatsoever of the pool. That every task is handed out is C34.
* **C104** A cache lookup answers exactly what is stored. Byte codec of the entries and the exactness of the tree lookup. *Proved:* For every transaction whose tree can be read. What upsert stores is C28.
* **C105** The next process sees what the last one would have seen. Invariant over all histories; opening selects the meta page of the last commit. *Proved:* Quantifies over all histories of the model of the database whose commits meet no I/O error.
* **C106** No two threads work on the same file cell. The tasks are distinct and each is handed out at most once. *Proved:* In every interleaving of the model of the pool.
* **C107** Nothing but the groups is printed. Induction over the heap of sizes and the groups. *Proved:* For every run of the report over the files found.
* **C108** Keys put in ascending order stay retrievable. Invariant: every page on the way to the last leaf has two entries, so that every split happens behind the middle; induction over the path. *Proved:* Any number of pairs and splits; the 40 pages per put bound and 2^64 pages only exclude page numbers that no file reaches.
* **C109** A put succeeds while there is room. Total correctness of a put that finds room in its leaf; a run of three puts as counterexample to the rest. *Status partial:* Proved for puts whose leaf has room. The code violates the full statement: the left half of a split leaf is not compacted, so the pairs that moved keep their room; three pairs of 1900 bytes can be put in ascending order but not in descending order, and a small pair between large ones is refused. A tree of 32 levels refuses every put, and five long keys already stand on four levels. In ascending order of keys and with sizes that do not differ too much every put succeeds (C114).
* **C11** Conditional delete honours the given value. Follows from C08; witness for a differing value. *Status partial:* The code ignores the value argument; proved when it is NULL or equal to the stored value.
* **C110** With -I every pair of similar images is named. Composition of walk, collection and the pairwise comparison of ft_image over whole runs. *Proved:* Whole runs with -I, not with -t. Computing signatures and distances (libpuzzle) are arbitrary functions; a picture whose signature could not be computed is left out by the statement.
* **C111** The exit status tells how the run ended. Case analysis of the main program over all scans of the command line. *Proved:* Whole runs from the command line; what the report of a run with status 0 contains is C85 and C110.
* **C112** A cache that no other process uses can be opened. Invariant over all histories: the owner of the lock has a handle. *Proved:* For all histories in the model of the advisory lock, also such in which one process opens several handles.
* **C113** An aborted cache transaction leaves no trace and calls outside one are refused. Induction over the calls; the environment is restored field by field. *Proved:* For all sequences of upserts, lookups and marks. One thread; marks of several threads are C124.
* **C114** Loading a new database in key order succeeds. Invariant along the way to the last leaf: pages without gaps, every branch with two children; counting pairs bounds the height; every new page is dirty, so nothing is freed and the commit has no Free DB to write. *Proved:* One transaction on a database without keys and without a Free DB. Page numbers up to 2^64; that the file system and the memory map have room for the pages is assumed (the code does not check the map size).
* **C115** The write transactions of all threads form one chain. Invariant of the fine-grained transition system: the lock holder is the only writer and writes only the page that is not live. *Proved:* One environment in one process; sequentially consistent memory; pages other than the meta pages are not part of this model (C14, C18, C53).
* **C116** A reader's snapshot is one committed state. Invariant while the live pointer does not move; an executable schedule refutes the rest. *Status partial:* Proved when nothing is published while the four fields are read, even if a commit is writing the other meta page. The code violates the full statement: a commit between two of the reads gives the id of one state with the root of another.
* **C117** The reader table is exact at every moment. Invariant: occupied slots are a permutation of the registered agents, through every half-written slot. *Proved:* Sequentially consistent memory.
* **C118** A reader is protected from the moment it sees a state. From C117 for registered readers; an executable schedule refutes the rest. *Status partial:* Proved once the slot is written. The code violates the full statement: the snapshot is taken before the reader registers, and a writer in between is told that there is no reader.
* **C119** No database call waits for ever. Case analysis of the holder of each lock; a rank that falls with every step of a call. *Proved:* Mutex calls are assumed not to fail; fairness of the mutexes is not modelled.
* **C12** Insertion order does not matter. Induction over the sequence of operations with the tree invariant. *Status partial:* Holds for sequences whose splits are all clean (any length, any height up to 32, Free DB empty or with nothing to reuse); ascending order always is (C108). The code violates the full statement: insertion_order_refuted.
* **C120** Threads sharing an environment do not race. Lock ownership excludes all pairs but reader begin against commit; an executable schedule shows that one. *Status partial:* Proved for the reader table and for writers among themselves. The code violates the full statement: a reader reads env->live_meta and the meta page without a lock while a commit writes them.
* **C121** Insertions by several threads are all kept. Small-step model of every access; the owner of the lock is always at a point from which the sequential insertion finishes with the same array, so the calls have a linear order. *Proved:* Sequentially consistent memory; lock and unlock are assumed not to fail.
* **C122** An insertion always lets the others go on. Owner of the lock can always step and a weight decreases; a failing allocation leaves a state from which the other thread never returns. *Status partial:* Proved while memory lasts, with a bound on the number of steps. The code violates the full statement: when the array cannot grow, the call returns -1 with the lock taken and the array dropped.
* **C123** The queue can take any number of files. The loop on 32 bits; powers of two up to 2^31, then 0 for ever; the size of the array after n insertions. *Status partial:* Proved below 2^31 elements. The code violates the full statement: new_max overflows to 0 and the loop never ends.
* **C124** Marks of several threads are all kept. Small-step model of every access; mutual exclusion keeps the table and the copy a thread looked at equal; a weight decreases with every step. *Proved:* Sequentially consistent memory; lock and unlock are assumed not to fail; apr_hash_set is two accesses, and a second thread between them is undefined behaviour. The sweep that follows is threads_then_sweep_partial of C27.
* **C125** Beginning a cache transaction while one is open does no harm. Filling and clearing a slot as permutations of the open readers; the second begin adds a slot that no end removes. *Status partial:* Proved for read transactions begun while none is open. The code violates the full statement: begin overwrites active_txn, so a second reader is never unregistered, and a second write begin waits for the mutex of its own thread.
* **C126** Every ending call ends the open cache transaction. The calls inside keep the kind and the number of the transaction; commit cases give lock and readers. *Proved:* One thread per handle; a commit that runs into undefined behaviour of the tree code is left out.
* **C127** A value stays where get said until the transaction ends. Where the pointer points is computed beside get; insertion leaves all bytes above the upper bound of the page alone; a commit writes only its dirty pages. *Status partial:* Proved for puts that find room in their leaf and deletions in other leaves, and for readers while no commit writes the page. The code violates the full statement: a deletion moves the values of its page, a split frees the room a pointer points to, and a commit overwrites pages in place.
* **C128** The image mode reports the same whatever its threads do. The pool theorems of C34 and C81 give that every task is done once; the work of different tasks commutes; the heap of files with their vectors is the image of the heap of files. *Status partial:* Every schedule without spurious return of the wait, fewer than 2^32 files; libpuzzle is a parameter. The code violates the full statement: the condition wait is not in a loop, so a spurious return drops the queue and the images are left out of the report.
* **C129** Free pages are used before the file grows, and none is forgotten. The scan stops at the first reclaimable entry or at the end of the list; one that exists is found. Then the theorem of C90 for one allocation applies. *Status partial:* Proved when the transaction has not changed the Free DB before or every entry has one page, the Free DB has no empty leaf and at most 65535 entries. The code violates the full statement: update_or_delete_reclaimed_entry deletes the entry and then inserts its rest with a key pointer into the page it has just compacted; in the witness that key exists already, the insertion fails, the pages of the entry are forgotten and the file grows.
* **C13** Open selects the newest valid meta page. Decision logic of the meta selection, all validity combinations.
* **C130** A scan never invents, repeats or reorders pairs. A zipper describes the leaves still ahead of a cursor; a step goes to the next leaf and stops if that leaf is empty. Induction over the leaves ahead. *Proved:* One transaction; nothing else changes the tree during the scan.
* **C131** The sweep never deletes the entry of a marked file. The stack of the cursor holds copies of the pages it came through; deletions during the sweep change only pages already passed or the current one. Induction over the scan. *Proved:* About the loop, that is the state of the write transaction before its commit. The cursor of the model keeps copies of pages where the code keeps pointers: the same, as the transaction of a sweep has no dirty page when the scan meets a page first; the commit is sweep_any_tree_partial of C27.
* **C132** SET_RANGE never answers with a wrong key. The theorem of C26 restricted to what it says about the answer. *Proved:* Keys shorter than 65536 bytes, as everywhere.
* **C133** User data is never written over a meta page. Which pages an operation makes dirty: those on the path, found through the shape of the two trees, and fresh ones; induction on the history. A six-transaction counterexample computed by the kernel. *Status partial:* Proved for every history of transactions, on a database with two proper trees, in which no page has to be split (bulk_load of C114 covers first transactions that split). The code violates the full statement: the live page of the Free DB is handed out as free, user data is then read as Free DB entries, and the page number found there may be 0.
* **C134** What is read was put under exactly that key. An invariant over every page of the file and of every open transaction: each leaf entry was put or has a key of eight bytes. Kept by every function that changes a page, by each file operation of a commit and so by any crash; induction on the life of the file. *Proved:* Limits of the file format are assumed: entries shorter than 64 KiB (longer ones write out of bounds, C06), page numbers below 2^64, and for cursors trees of fewer than 32 levels. A commit that would write over a meta page (C133) is outside the model. For keys of eight bytes see C135.
* **C135** Keys of eight bytes are not mixed up with the Free DB. From the theorem about histories (C53); a five-transaction counterexample computed by the kernel. *Status partial:* Proved for every history in which no page has to be split. The code violates the full statement: once the live page of the Free DB has been handed out as free (C21), it is part of both trees, and a get of the id of a transaction as a key of eight bytes returns the list of the pages that transaction freed.
* **C136** The database file can always be opened again. Both meta pages carry magic number and version at every point of the life of the file; which of the two a crash can have replaced. *Proved:* A page or meta page is written as a whole or not at all, as in C15. What the trees hold after the crash is C15 and C134.
* **C137** A lookup reads nothing outside the pages. With the page invariant of C134: on well-formed pages only an empty branch page leads outside. Seven puts that leave one behind. *Status partial:* Proved for every life of a file: undefined behaviour needs a branch page without entries. The code violates the full statement: a branch page with one entry that has no room for a second is split into an empty page and one that is never linked, and the next lookup reads slot 65535.
* **C138** A lookup ends. Only finitely many pages were ever written, so a descent that goes on for ever meets a page twice (pigeonhole). Six puts after which the root is its own child, for all keys. *Status partial:* Proved for every life of a file: a descent that does not end comes back to a page it has passed. The code violates the full statement: pages in use are listed as free (C22), so the split of a leaf that is the root can get the number of that leaf for the new root, which becomes its own child. Six puts in four committed transactions suffice, after which no get ever returns.
* **C139** The committed state never goes back. Invariant: the number in the spare meta page is smaller than the live one or exactly the next one, a writer has the next one, a reader shows the live meta or an older number. Kept by every call, opening and crash. *Proved:* Transaction numbers are unbounded in the model; in C they wrap after 2^64 commits. A page or meta page is written as a whole or not at all, as in C15.
* **C14** Commits alternate meta pages and advance the transaction id by one. Invariant over histories of commits. *Status partial:* Proved for every history and every commit that writes no tree page over a meta page. The code violates the full statement: meta_page_overwritten_refuted, the live meta page is overwritten by a page of user data.
* **C140** Colours change nothing but the colours. PropColour: both texts are exact (C74), groups compared piece by piece; the terminal is a state machine, pieces of text compose. *Proved:* Runs on all files with the separator and size option given; colours_only and colours_status for all paths, terminal_shows for paths without an escape character. The terminal is a small interpreter of ESC [ n m in PropColour.
* **C141** A read transaction changes nothing. PropTime: the read-only mark is part of the invariant of C139. *Proved:* For every life of a file (PropFileLife): calls, restarts and crashes.
* **C142** A deletion takes one pair out of one page and always ends. PropLocal: pages of every life are well formed and carry their own number (C134), so copying changes no view; then C04. *Proved:* For every life of a file (PropFileLife), without any assumption on the shape of the tree.
* **C143** A put that finds room changes one page. PropLocal: as C142, with C03. *Proved:* For every life of a file (PropFileLife), without any assumption on the shape of the tree. Puts without room are under C07 and C109.
* **C144** A database loaded in key order is listed completely and in order. PropLoad: the tree of C114 has no empty leaf and fewer than 32 levels, so the scans of C23 and C24 apply to what the commit wrote. *Proved:* For the lists of C114.
* **C145** Any number of keys can be deleted in one transaction. PropMany: the pages a deleting transaction frees are exactly those it copied; counting the leaves a load makes from below (room) and all pages from above bounds their number on both sides of the 508 that fit in a Free DB node. *Status partial:* Refuted in general: the list of replaced pages must fit in one Free DB node, that is at most 508 page numbers (commit_frees_few: every successful commit of every life); otherwise the commit returns ENOSPC and all changes are lost (delete_all_refused: every load whose pairs need more than 508 leaves; delete_any_number_refuted: 1100 pairs). Proved: after a load with at most 254 pairs, or in a file of at most 510 pages, any set of keys can be deleted in one transaction.
* **C146** A cache that was filled can be swept. PropSweep: the upserts are the puts of C114, the sweep is the transaction of C145 that deletes the unmarked keys. *Status partial:* Refuted in general: when the entries to remove are spread over more than 508 leaves the commit of the sweep fails with ENOSPC, the cache is unchanged, and so every later sweep fails as well (sweep_refused; fill_mark_sweep_refuted: 2000 paths of 992 bytes). Proved: with at most 254 entries, or in a file of at most 510 pages, the whole cycle fill, mark, sweep works for all marks.
* **C147** No transaction is so large that its commit writes outside its pages. PropWrap: each deletion frees at most 32 pages, so some prefix of all deletions frees a number of pages just above 8191, where the 16-bit size of their list wraps to a small number. *Status partial:* Refuted for large databases: whenever the pairs loaded need more than 8192 leaves there are keys (a prefix of all keys) such that the commit of their deletion copies a list of more than 64 KiB into a page of 4 KiB (delete_many_overflows; delete_defined_refuted: every load of 17510 or more pairs of 1902 bytes). Proved: with at most 4095 pairs or in a file of at most 8192 pages the commit succeeds or returns ENOSPC.
* **C148** The database stays within its memory map. PropMap: pages reached in a search are pages of the tree; of n different page numbers one is greater than n, the number of leaves is at least the room the pairs take, and every leaf is the home of one of its keys. *Status partial:* Refuted: nothing compares the size of the database with the size of the map. Whatever the map size M, a load of M bytes is committed without an error and the lookup of one of its keys then reads beyond the map (load_leaves_map; reads_in_map_refuted for all M up to 4 TiB). Proved: in a healthy database (C15) whose committed pages lie in the map, lookups read nothing outside it.
* **C149** Sorted pairs may be loaded in several transactions. PropBatch: behind the last key every put goes down the same right edge; the first put copies it, then it stays dirty (a dirty page has dirty ancestors, the leaf with the newest key is dirty), so at most 32 pages are freed and the first entry of the Free DB fits. *Status partial:* Refuted: loading three pairs in three transactions, each committed without an error, loses the first pair, a fourth transaction the second one (load_in_batches_refuted): the pages a transaction copies keep their numbers but are put on the list of free pages. Proved: two transactions of any sizes are safe, all pairs are then found and listed in order; the second frees at most the pages on the way to the last leaf.
* **C15** Commit is atomic under crashes. A commit is a list of disk writes with sync barriers; a crash keeps any subset of the writes after the last barrier; case analysis over all crash images. *Status partial:* Holds for the first committed transaction and for transactions changing one page. The code violates the full statement: dirty pages are written to their old place, a crash between two page writes leaves half of the transaction visible.
* **C150** A run names only selected files. PropSelect: the collected files are those the walk takes (C58), every printed group and set is a subset of them (C37 for an arbitrary compare function), the text is that of the groups (C107). *Proved:* For whole runs in every world: no assumption on reads, contents, hashes, options or the exit status; assumed are a sorting qsort, a table walk that visits every entry, and sizes that are not negative. chosen_obeys spells out what selected means.
* **C151** Any number of processes may read a database at the same time. PropSound: the part of C98 without commits; induction over the interleaving. *Proved:* Any interleaving of any number of processes none of which commits.
* **C152** Nothing is ignored without a rule. PropSound: induction over the chain of ignore files from the walk relation of C58. *Proved:* For any regex engine; which patterns an ignore file yields is C72, what they mean is C73.
* **C153** A size that makes no sense never lets a run start. PropSound: the size texts rejected by C50, carried through the options to whole runs. *Proved:* Blank texts, texts that begin with a character that cannot begin a number, and numbers followed by a character that is no unit.
* **C154** A small database can be updated any number of times. PropTiny: explicit form of the file after each transaction, with the chain of Free DB leaves; the last commit is computed with the user's page left open. *Status partial:* Proved for up to 186 transactions. The 187th destroys the contents of every such database, whatever was put before: no lookup finds a value any more, and some lookups never end.
* **C155** A cache of a few files can be refreshed any number of times. PropRefresh: a refresh is a transaction of puts; C154 carried through the cache functions and the entry format. *Status partial:* Proved for up to 186 refreshes. After the 187th, which succeeds, no lookup in any such cache finds an entry.
* **C156** The first transaction is all or nothing. PropFirst: crash_mix of C15 with the invariants of lives (C134, C139); loads by the facts of C114. *Proved:* A page or meta page is written as a whole or not at all, as in C15; the meta page that is not live is the older one, which fails only after a commit whose last sync failed. What a commit publishes is C53; for loads in key order the contents are stated.
* **C157** Repeating the documented clean-up leaves every content exactly once. PropRounds: the exact text of C51/C75 read by the pipeline of C75, and induction over the rounds. *Status partial:* Proved for runs in which every examined file can be read, arguments that do not contain each other, and names without the separator and newlines. Missing and false: a file that cannot be read makes the program print nothing and end with status 0 although two compared files are equal (exit_zero_complete_refuted). The pipeline is cut -d SEP -f 1 -s followed by rm; the grep of the README is left out.
* **C158** Cleaning up an import removes the imported copies and nothing else. PropImport: the groups of C157 with the order of C41; induction over the rounds. *Status partial:* Proved with 'under P' read as the textual prefix the program uses (letter case ignored with -c), the lines kept being those with that prefix, for runs as in C157. Read as a directory it is false for a path without trailing slash: with -p /d/su the file /d/sub/b is listed first and removed.
* **C159** Progress lines count up one by one to the right total and never beyond. PropProg: the counters of C34 and ImgParModel as lines; invariant of the categorisation for the total; heap extraction for the comparisons. *Status partial:* Hashing and vectors: proved at every moment of every schedule, that the total is reached for a wait that does not return spuriously (C35). Comparisons: proved up to 65536 files; from 65537 on the product is taken modulo 2^32 and the count runs past the total. percent_sound is about the integer percentages of hashing and vectors, for any monotone rounding that keeps 0, 1 and 100; the decimals of the comparison line are not modelled.
* **C16** Committed data is durable. As C15 for crashes after the last sync. *Status partial:* Proved for every commit that writes no tree page over a meta page (C133). The code violates the rest: when a page of the data tree lies on a meta page, its pairs are destroyed by the meta data. Durability of what the commit wrote: metadata and pages as they were in memory. See C53 for whether those are the transaction's bindings.
* **C160** A narrower search finds exactly the part of the wider one that lies within it. PropNarrow: the exact report of C85 for two configurations; the walk does not look at limits and priority. *Status partial:* Proved for pairs of runs that end with status 0 while reads succeed, files do not change and hashes do not collide. The code violates the full statement when hashes collide: a further argument ends a run that reported a pair with a NULL pointer (more_arguments_refuted).
* **C161** A higher -T level only adds similar images. PropLevel: C110 with the thresholds of the levels, and the configurations of C160. *Proved:* For whole runs that end with status 0. The constants of libpuzzle are not part of the repository; assumed is that LOWER <= LOW <= 0.5 <= THRESHOLD <= HIGH, that the distance is symmetric and that decoding depends on the path.
* **C162** What could not be read is named on stderr. PropMsg: messages follow the control flow of the models of the walk, the hashing and the report; every pair of files of one size has each file looked at once. *Status partial:* failure_explained, read_error_named, only_failures_named and quiet_when_readable hold in full. A file that cannot be opened is named only with -v (unreadable_named_partial); unreadable_named_refuted: without -v, and so always with -J, it is left out without a message and with status 0; with -v too, a file the user may not read is skipped without a message, and a failing first read while two files are compared says nothing when the result cell holds a value other than 0. same_run ties the exit status to the run of MainModel.
* **C163** Files that cannot be opened do not disturb the report on the others. PropOthers: the loop over one sorted array is characterised exactly (it crashes iff a run of one hash value is tangled or has a hole); sizes, then the walk, are added on top. *Status partial:* others_exact: a run that ends normally is exact, with no assumption on hash values; others_apart: no file is in two sets. others_end_partial: it ends normally unless a file has the hash value of two equal files of its size, although its bytes differ or it cannot be opened; not_confused gives a condition that excludes this. The code violates the full statement: the cell of a file that cannot be opened keeps what memory held, and when that is the hash value of two equal files and the sort puts it between them the report dereferences NULL (others_end_refuted). An empty file that cannot be opened counts as equal to the other empty ones.
* **C164** Deleting the pairs a scan returns while it goes on. PropLive: the cursor with pointers refines that of CursorModel; a deletion changes only the copy of its leaf and the branches on its way keep their entries, so the pages ahead of the cursor stay as they were. *Status partial:* LiveModel gives the cursor the page pointers of the code. live_same: between two updates it answers as the cursor of CursorModel does. delete_while_scanning_partial: in a transaction that has not changed a leaf yet the loop deletes exactly what the undisturbed scan returns, which is everything when no leaf is empty. sweep_pointers: the sweep of the cache is such a loop, so modelling it without pointers is exact. The code violates the full statement: a leaf the transaction has already copied is changed in place under the cursor, and the entry after a deleted one is skipped (delete_while_scanning_refuted).
* **C165** What a transaction gave up can be looked up. PropFreed: the insertion into the Free DB is followed leaf by leaf; operations that fit change no page of the Free DB; induction over the history. *Status partial:* freed_listed_partial: one commit whose list fits the leaf of the Free DB. freed_found_partial: any history of transactions whose changes fit the pages; the list is found after any number of later commits. Missing: commits that split a page of the Free DB, and transactions that take pages from the lists. The code violates the full statement: the pages of the Free DB itself that the commit copies are given up after the list was written and are listed nowhere (freed_listed_refuted).
* **C166** What happens to one file does not touch the report on the others. PropChange: a path outside the changed set is reached through directories outside it; the rest is C85 in both worlds. *Status partial:* Two runs of the whole program over worlds that differ on any set of paths closed downwards. Missing: hash collisions, failing reads, changed ignore files, -t and -I. The code violates the full statement: a new file with the size and hash of two others but another content ends the run in a NULL pointer (others_unaffected_refuted).
* **C167** The first filling of a cache is all or nothing, and the next process finds it. PropFirstFill: the calls of the cache are those of C156 on the database; reopening selects the meta page written last; lookups decode what was stored. *Status partial:* Proved for entries in path order whose path lengths are close enough for pages to be split evenly (C114): any number of attempts, each cut off before or during its commit. The code violates the full statement for paths in another order: every call succeeds and an entry is lost (upsert_then_lookup_refuted).
* **C168** Keeping one file of every reported set leaves every content exactly once. PropDedup: C85 before and after the deletions; paths that are left are compared in both runs (C166). *Status partial:* Two runs of the whole program, text or -J, with deletions between them. Missing: hash collisions, failing reads, -t and -I. The code violates the full statement: a file that cannot be read is left out while the status is 0, so that a content remains twice (dedup_refuted).
* **C169** A commit that reports an error has published nothing. PropFailedCommit: a prefix of the commit's operations writes no meta page until the last but one; with an empty committed state no page is reachable. *Status partial:* Proved: a commit that finds no room or fails at its first file operation, in any state of the file in which the newer meta page is in use; and a failure at any operation but the last as long as nothing is committed; and on a file with data, for one put that fits or one deletion, that all keys read as before or all as in the transaction (failed_operation_partial). The code violates the full statement: when the sync after the meta page fails, this process goes on with the old data but the next one finds the new; and on a file with data the pages are overwritten in place, so that a failed change is read at once (failed_commit_refuted).
* **C17** Readers see a stable snapshot. Invariant over interleavings: pages of the snapshot are not written. *Status partial:* Holds for runs whose commits do not write a page of the snapshot (in particular runs without a commit). The code violates the full statement: pages are overwritten in place.
* **C170** Until a commit takes effect a new database can still be loaded. PropRetry: such a history keeps the meta page in use and well formed pages (C134); then C114. *Proved:* Calls of any threads, failing commits, crashes and reopenings; a commit on which the meta page was written but the last sync failed is included as long as the process goes on.
* **C171** After a commit that failed or was cut off the database can still be updated. PropStuck: the Free DB page of C154 with the entry of the next transaction already in it; the commit leaves the state as it is, so induction over all that follows. *Status partial:* Proved: when the second transaction of a small database fails at any operation, the process can commit the next one; before the first transaction see C170. The code violates the full statement: the Free DB page is written in place under the id of the failed transaction, which the next transaction has too, so that insert_into_free_db finds the key and returns EEXIST. Proved for every small database made by 2 to 185 transactions and every further one: once its pages are written and the commit fails or the machine stops, every later commit that changes anything is refused, and after a crash in every later process too (update_after_failure_refuted).
* **C18** Uncommitted changes are private and abort discards them. Invariant over operation sequences of one transaction.
* **C19** At most one writer, and the lock is always released. Invariant of the transition system `SysModel` (any number of threads).
* **C20** The reader table tracks exactly the open readers. Refinement of the slot table to the set of open readers. *Proved:* Readers register and unregister atomically in the model (one step); the window between taking the snapshot and registering is not modelled.
* **C21** Freed pages are reused only when nobody can see them. Invariant of the reclaim loop; witness of three transactions. *Status partial:* Proved: a reused page is listed in the Free DB by a transaction older than the writer and every registered reader. The code violates the full statement: pages still in use are recorded as freed; the third transaction of the witness is handed the live root page.
* **C22** Fresh pages never overlap anything. Allocation invariant over operation sequences. *Proved:* 'Without reuse' is no_reuse: a scan of the Free DB meets no reclaimable entry.
* **C23** A forward scan visits every binding once in key order. Cursor stack related to a position in the sorted list of bindings. *Status partial:* Proved for ordered trees without empty leaves, where any mixture of NEXT and PREV after any seek is also a walk over the sorted binding list. The code violates the full statement: scan_refuted, an emptied leaf ends the scan.
* **C24** A backward scan visits every binding once in reverse order. As C23 in the other direction. *Status partial:* Proved for ordered trees without empty leaves. The code violates the full statement: backward_scan_refuted.
* **C25** SET positions exactly on the key. As C23; positions by descent and in-page search. *Proved:* Every ordered tree, including ones with emptied leaves.
* **C26** SET_RANGE finds the smallest key not below the probe. As C25. *Status partial:* Proved when the leaf responsible for the probe holds a key not below it. The code violates the full statement: set_range_refuted.
* **C27** Cache sweep deletes exactly the unvisited paths. Induction over the scan and the list of collected paths, on top of C23 and C08. *Status partial:* Proved for ordered trees without empty leaves when the Free DB leaf has room; for trees with empty leaves exactly the part the scan reaches is swept. The code violates the full statement: a sweep stops at the first emptied leaf.
* **C28** Cache lookup returns what was last stored. Encoding of entries as 40 bytes on top of get and put. *Status partial:* Lookup is proved in full. Upsert inherits the limits of put (C07): refuted by three long paths.
* **C29** The priority queue always yields a maximum. Heap invariant of the array under sift-up and sift-down, any comparison.
* **C30** The priority queue neither loses nor duplicates elements. Permutation and sortedness of the drained sequence.
* **C31** The hash table behaves as a map. Bucket invariant (each element in the bucket of its hash), refinement to a finite map, rebuilds included.
* **C32** Hash iteration visits each element exactly once. Iteration order equals the concatenation of the buckets.
* **C33** Inserting into the hash table terminates. Measure on the rebuild; witness of colliding keys. *Status partial:* The code violates the full statement: growth loops for ever when as many elements as the fill factor share a full hash value; proved when fewer different keys than the fill factor share one. C100 gives the tables of the program.
* **C34** Every queued task is processed exactly once. Inductive invariant of the interleaving transition system of the pool. *Status partial:* At most once, in order, one callback per worker: every use and schedule. Completeness: one client thread, no spurious return of its wait, fewer than 2^32 tasks. The code violates the full statement with a second adding thread.
* **C35** wait returns only after all tasks are done. Counting invariant (pending = queued + being processed) of the same system. *Status partial:* One client thread, no spurious return of its wait, every schedule. The code violates the full statement: the condition wait is not in a loop.
* **C36** The thread pool cannot deadlock. Progress from every reachable state and a measure that every non-spurious step decreases. *Proved:* One waiting client, any number of adding clients, at least one worker, spurious wakeups allowed. Outside that use: two_waiters_deadlock, no_workers_deadlock.
* **C37** Only files with identical content are reported as duplicates. Loop invariants of the pairwise comparison loops; groups are classes of equal comparison. *Proved:* Text and JSON report; any hash values, any failures, any sort that permutes. The byte comparison itself is C42.
* **C38** All duplicates are reported. As C37; completeness of the pairwise loops. *Status partial:* Proved for readable files without hash collision inside one size (text and JSON). The code violates the full statement: a collision makes the report stop (NULL dereference) before later groups. others_exact: a run with status 0 is exact even with collisions and files that cannot be opened.
* **C39** No file is reported twice. As C37; reported entries are set to NULL. *Proved:* Text and JSON report, for distinct paths met by the walk (a directory given twice on the command line is met twice).
* **C40** Reporting never crashes. As C37; no NULL entry is used; witness. *Status partial:* Normal end proved for readable files without hash collision. The code violates the full statement: one file of three equal ones becoming unreadable before the report leads to a NULL dereference.
* **C41** Prioritized files come first. Sort order of the comparison callback, any sort that permutes and sorts. *Status partial:* Proved with 'under' read as a textual prefix, and for a priority path with trailing slash as directory. Without the slash the directory reading is violated: path A also takes in AB.
* **C42** Files are compared correctly. Chunked comparison with arbitrary short reads and failures, and the memory-mapped one; induction over chunks. *Status partial:* Exact when both files still have the recorded size, no read fails and no read of the second file is shorter than that of the first; the code reports equal after a read error or a short read on the second file and for files whose length changed after the scan.
* **C43** Only files of unique size are dropped before hashing. Heap and hash table drained; count per size.
* **C44** Size limits are inclusive and exact. Decision function against the mathematical condition.
* **C45** Permission filter follows the owner/group/world rule. Decision function against the owner/group/world rule. *Proved:* Directories need the execute bit, other files the read bit.
* **C46** The last matching ignore pattern decides. Fold over the pattern list. *Proved:* For any behaviour of pcre_exec.
* **C47** Ignore files closer to the path take precedence. Recursion over the context chain. *Status partial:* The code lets the outermost context that has a matching pattern decide; precedence of the closer file holds only where the outer ones are silent or agree.
* **C48** Glob translation preserves meaning. Denotation of glob patterns (`IgnoreSpec`) against a matching relation for the produced regular expressions (`PcreSpec`). *Status partial:* For patterns of literals, escapes of non-alphanumerics, ?, *, **, **/ and positive sets and all paths without newline, against a specification of PCRE for the produced syntax; the refutations show the remaining cases.
* **C49** Pattern translation never overruns its buffer. Length of the translation against the buffer size. *Status partial:* Patterns of up to 817 characters; 1100 question marks overrun the buffer while the loader accepts 4095 characters.
* **C50** Human-readable sizes parse to the right byte count. Decimal digits, rounding to a double in `Z`, multiplication by a power of two. *Status partial:* Exact for integers below 2^53 whose product is below 2^63; text without a number and unknown suffixes are rejected. Refuted beyond that: text behind the suffix is ignored (1Kbogus), numbers above 2^53 are rounded, negative numbers are returned as such, products from 2^63 on are undefined behaviour. Exponent, hexadecimal, inf and nan forms of strtod are not modelled.
* **C51** JSON and text reports agree. Both loops produce the same groups. *Proved:* Readable files without hash collision inside one size; qsort depends on its elements only through the comparison.
* **C52** An oversized key is never mistaken for a stored key. As C02, with the cast to 16 bits. *Status partial:* Holds for probes below 65536 bytes. The code violates the full statement (key size cast to uint16_t); long_probe_mistaken_refuted is a witness.
* **C53** Commit publishes exactly the transaction's contents. Commit followed by a new transaction reads the same bindings; induction over histories. *Status partial:* Holds for every history in which no page has to be split, and for transactions with clean splits while there is no Free DB. The code violates the full statement: see page_reuse_refuted.
* **C54** A checksum depends on the bytes of the file only. Induction over reads of any sizes. *Proved:* XXH3 is a parameter; streaming updates hash the concatenation.
* **C55** A run reports exactly the files with equal bytes. Composition of C37, C38, C42, C54. *Status partial:* Under stable sizes, clean reads and no hash collision; refuted when a read of the second file fails.
* **C56** Default ignore patterns apply wherever the walk starts. Meaning of the default patterns (C48) under the base directory given to them. *Status partial:* The patterns mean what they say, but they are attached to the directory / and never apply when the walk starts at a relative path.
* **C57** Fractional sizes parse to the integer part of the exact product. As C50 with a decimal point. *Status partial:* Exact when digits * 2^m < 2^(53 + min(m, number of fraction digits)); refuted for longer fractions, which are rounded up before truncation.
* **C58** The walk hands over exactly the files reachable through names and directories that are not excluded. Induction over the walk against an inductive reachability predicate. *Proved:* For any behaviour of apr_stat, directory reading and pcre that does not change during the walk.
* **C59** No file is examined twice. Distinctness of the walked paths. *Status partial:* Holds when no argument lies under another one; refuted for overlapping arguments.
* **C60** A run gets through whatever it meets. The walk ends without error iff no reachable object fails. *Status partial:* On a finite tree the run gets through if and only if nothing it meets fails. Refuted: one directory that cannot be opened or one vanished entry ends the run; a broken link with --follow-symlink makes the code read an uninitialised structure; circular links are followed without end.
* **C61** Hidden and listed names are never entered. From C58.
* **C62** Without recursion only direct entries are examined. From C58. *Status partial:* Holds when directory entries have the type of what they lead to; refuted with --follow-symlink, where links to directories are entered.
* **C63** The regular expressions select files by path. From C58. *Status partial:* Files that are compared satisfy the expressions; but the whitelist is applied to directories too, so matching files in directories whose path does not match are lost.
* **C64** A run reports exactly the sets of selected files with equal bytes. Composition of the walk with C55. *Status partial:* For walks that succeed, reads that succeed and a collision-free hash. The code violates the full statement: with four files of one hash value a group is lost (run_exact_refuted); failing walks and reads are under C42, C55 and C60.
* **C65** A file is never reported as its own duplicate. From C59 and C64. *Status partial:* Holds when no argument lies under another one; otherwise the file is reported as its own duplicate.
* **C66** Every option sets what it names; the last one counts. Fold over the options against 'the last option naming the setting'. *Proved:* Starts from the options returned by apr_getopt_long.
* **C67** A command line is accepted exactly if every option and argument is valid. Acceptance of each option against its own condition. *Status partial:* Exact for the options apr_getopt_long returns; refuted in full: its error status is ignored, and text behind a size or level is accepted.
* **C68** The ignore list is split at commas. Splitting against concatenation with commas.
* **C69** -j accepts exactly the integers from 1 to 256. Digit strings against integers.
* **C70** JSON output is never mixed with progress messages. Case analysis of the flag updates.
* **C71** All groups of the user count. Loop over the group array with its bound. *Status partial:* Exact below 256 groups; with exactly 256 the effective group can be lost, with more the program stops.
* **C72** Each line of an ignore file is one pattern. fgets buffer loop against lines. *Status partial:* For lines shorter than 4095 bytes without NUL; a longer comment line is split and its tail becomes a pattern.
* **C73** The last line of an ignore file that hits a path decides. Composition of C46, C48 and C72. *Status partial:* For lines in the syntax of IgnoreSpec of at most 817 bytes and paths without newline; a path with a newline at its end is ignored by a line that does not hit it; what goes wrong elsewhere is under C48, C49 and C72.
* **C74** The printed text is the groups and can be read back. Text as a concatenation of lines; unique decoding. *Status partial:* The text is exact for every run; it can be read back if no path is empty or holds a newline or the separator and output is not a terminal. A newline in a name makes two results look alike.
* **C75** The documented clean-up loses no content. Composition of C74 with C37 and C39. *Status partial:* For paths without newline or separator and files met once, for the report stage and for whole runs from the command line, hash collisions included; a separator in a name or a file met twice (overlapping arguments) can lose content.
* **C76** Larger files are reported first. From C30 on the heap of sizes.
* **C77** Every pair of similar images is named exactly once. Draining loop against ordered pairs. *Proved:* libpuzzle's decoder and distance are parameters; the second theorem assumes the distance test symmetric and files met once.
* **C78** Cleaning up similar images keeps a similar one. Finite chains with decreasing position. *Status partial:* A chain of similar images leads to one that is kept, which need not be similar itself.
* **C79** A size shown is the size, rounded. Rounding in `Z`. *Status partial:* Proved for sizes below 2^53, except that the number can be shown as 1024.0; from 2^53 on the first rounding can spoil the tenth. The behaviour of apr_psprintf is assumed.
* **C80** A size shown can be typed back. Composition of C79 with C57. *Status partial:* Proved for KiB to TiB; sizes shown in B, PiB and EiB are rejected.
* **C81** Parallel hashing gives the sequential result. Callbacks on different cells commute; with C35 the events before the return of the wait are a permutation of the queued tasks. *Status partial:* Every schedule without spurious return of the wait, fewer than 2^32 tasks. The code violates the full statement: the condition wait is not in a loop, so a spurious return leaves the hashes unset.
* **C82** The task list is a queue. Cells in memory represent a sequence; refinement to a list under every use. *Proved:* Fresh cells are distinct; allocation does not fail.
* **C83** The JSON document is exact. The document as a tree; UTF-8 check against the encoding of scalar values; composition with C55 and C39. *Status partial:* Proved for readable files, a hash without collisions and paths that are well-formed UTF-8. The code violates the full statement: the path of a file whose name is not UTF-8 is left out of the document. The behaviour of jansson is assumed; archive mode is excluded.
* **C84** Times in the document sort chronologically. Calendar as counting of days; lexicographic order of fixed-width fields. *Status partial:* Proved from 1970 to the end of the year 9999, for any apr_time_exp_gmt that follows the Gregorian calendar; later years have five digits and sort before.
* **C85** Exit status 0 means the report is complete. Put the layers together into ftwin_main (MainModel.v); a run on quiet surroundings ends with status 0 exactly if the walk succeeds and a file is compared, and then the report is exact by C64 and C83. *Status partial:* Whole runs from the command line to exit status and output, for text and document. Proved when reads do not fail, hashes do not collide and, with -J, names are UTF-8; not for -I and -t. The code violates the full statement: a file that cannot be read is left out while the status is 0.
* **C86** With -J standard output is one JSON document or nothing of it. Case distinction over ftwin_main for all worlds. *Status partial:* Proved for all worlds, also with failing reads, without -I. With -I and -J together the text of the image mode is written instead of a document.
* **C87** Every path in the document is absolute. Paths in the document come from collected files, those from the walk; joining keeps a path absolute. *Proved:* Assumes that apr_filepath_merge with APR_FILEPATH_TRUENAME returns an absolute path. No assumption on reads or hashes.
* **C88** What is found does not depend on order or on the machine. Two worlds with the same files: configurations agree up to neutral options, reached paths agree, C85 on both sides. *Status partial:* Proved for runs whose reads do not fail and whose hashes do not collide; options -j -x -o -v -n -d -s may differ. The code violates the full statement: when hashes collide, one order of a directory gives the report and another one a NULL dereference.
* **C89** No run has undefined behaviour. Each layer returns its undefined outcome only under the excluded conditions; C49 bounds the conversion of patterns. *Status partial:* With -t, undefined exactly when two places of what was found hold files of one size (archive_mode_undefined). Proved without -t; with -f only if no link met is broken; without -I when reads do not fail and hashes do not collide; ignore files have lines of at most 817 characters. The code violates the full statement: -t reads a field that is never set, -f with a broken link reads a structure that was not filled.
* **C90** No page is handed out twice. Deleting an entry leaves room for its shorter version, so without the aliased key the update of the entry cannot fail or split; with it, an order on the first four bytes of the keys survives in a single leaf, so searches stay right and the set of listed pages only shrinks; induct over the allocations. *Status partial:* One allocation: proved for every Free DB without an empty leaf, when the transaction has not changed the Free DB before or every entry has one page. A whole transaction: proved when the Free DB is one leaf that lists no page twice, whatever the aliased key pointer does to the keys. The code violates the full statement in two ways. The key passed to the write-back points into the page being changed, so an entry can come back under a different key (reused_page_struck_off_refuted). Every commit records the pages it copied, although the copies keep their numbers, so the list names pages in use, and names them repeatedly; the witness hands out the data root page three times (no_page_twice_refuted).
* **C91** Archive mode leaves no temporary file. Cut the callback into the steps on shared state; invariant: every file beyond the initial ones is the temporary file of exactly one thread. *Status partial:* Every interleaving and every failure; members that are directories are excluded: the code removes the temporary directory with unlink, which fails. Functions of archive mode with subpath set; the traversal never sets it (C89).
* **C92** Archive mode never changes a file of the user. The same invariant: temporary names are fresh, so existing files are nobody's temporary file. *Proved:* Every interleaving, every failure, all kinds of members that have a name. mkstemp is taken to make a file that did not exist.
* **C93** Archive members are hashed and compared by their bytes. The invariant also records what the temporary file of each thread holds; specify the content byte by byte. *Status partial:* Regular files in archives whose members all have a name. The code violates the full statement: a member that is a link is replaced by the file outside the archive it points to; a nameless member leads to strcmp on NULL.
* **C94** Extracting a member leaves the process as it was. Case analysis of one extraction; witnesses by computation. *Status partial:* One thread that extracts successfully. The code violates the full statement: a failing mkstemp and two threads at the same time leave the mask at 077; every failure after opening loses the handles.
* **C95** Opening leaves an existing database as it is. Model open with one answer per system call; case analysis of the answers; witness for the race by computation. *Status partial:* Proved for every outcome of every call when no other process acts between the stat and the open. The code violates the full statement: a file that another process creates in between is truncated and initialised again.
* **C96** Nothing stays open. Count descriptors and maps in the model; case analysis over the failing calls. *Proved:* Descriptors and maps are counted in the model.
* **C97** Opening never crashes. Touching a page behind the end of the file or map is the outcome Crash; characterise exactly when it occurs. *Status partial:* Proved for files and maps of more than 4096 bytes; exactly the others end the process with SIGBUS. A page behind the end of the file is taken to fault when touched.
* **C98** Several processes can share a database. Processes are copies of the model of C19 over one disk; induction over the run for turns and readers; witnesses by computation. *Status partial:* Proved for processes that take turns and for processes that only read. The code violates the full statement: the writer lock is a mutex of one process and the live meta page is chosen at open time only.
* **C99** A cache is open at most once. Locks as pairs of process and file; invariant over all interleavings; witness by computation. *Status partial:* Proved when each process has at most one handle of the cache at a time. The code violates the full statement: POSIX record locks belong to the process, so a second handle in the same process is let in, and closing either drops the lock for both.

## 4. Trusted base

* the Coq 8.16.1 kernel, including `vm_compute`;
* the reading of the C code recorded in the comments of the model files: each definition
  cites the lines it stands for and says what it leaves out;
* the behaviour of the libraries and of the operating system listed in section 6;
* no axioms: see section 5.

## 5. Assumptions per theorem

`Print Assumptions` prints `Closed under the global context` for every theorem below; no axiom,
none of the standard library's either, is used by any of them. (A listing of the axioms of all
loaded libraries shows `Coq.ssr.ssrunder.Under_rel.*`: these come with the standard library's
`ssreflect`, loaded by `lia`'s `Zify` files, and no theorem depends on them.)

| Property | Theorem | File | Assumptions |
| --- | --- | --- | --- |
| C01 | `key_order_total` | `PropPage.v` | none |
| C02 | `page_search_correct` | `PropPage.v` | none |
| C03 | `page_insert_leaf_correct` | `PropPage.v` | none |
| C03 | `page_insert_branch_correct` | `PropPage.v` | none |
| C04 | `page_delete_leaf_correct` | `PropPage.v` | none |
| C04 | `page_delete_branch_correct` | `PropPage.v` | none |
| C05 | `page_split_correct` | `PropPage.v` | none |
| C06 | `page_insert_in_bounds_partial` | `PropPage.v` | none |
| C06 | `page_functions_in_bounds` | `PropPage.v` | none |
| C06 | `page_insert_out_of_bounds_refuted` | `PropPage.v` | none |
| C07 | `put_without_split_correct` | `PropTree.v` | none |
| C07 | `put_map_update_partial` | `PropTree.v` | none |
| C07 | `put_no_ub_partial` | `PropTree.v` | none |
| C07 | `operations_beside_free_db_partial` | `PropOrder.v` | none |
| C07 | `put_map_update_refuted` | `PropTree.v` | none |
| C08 | `del_correct` | `PropTree.v` | none |
| C09 | `failed_put_changes_nothing_partial` | `PropTree.v` | none |
| C09 | `failed_put_changes_nothing_refuted` | `PropTree.v` | none |
| C10 | `put_updates_existing_partial` | `PropTree.v` | none |
| C10 | `put_updates_existing_refuted` | `PropTree.v` | none |
| C100 | `sizes_exact` | `PropKey.v` | none |
| C100 | `names_exact` | `PropKey.v` | none |
| C100 | `groups_exact` | `PropKey.v` | none |
| C100 | `group_member_exact` | `PropKey.v` | none |
| C101 | `retry_partial` | `PropLife.v` | none |
| C101 | `failed_creation_is_final` | `PropLife.v` | none |
| C101 | `retry_refuted` | `PropLife.v` | none |
| C102 | `groups_exact` | `PropKey.v` | none |
| C102 | `sizes_terminate_partial` | `PropKey.v` | none |
| C102 | `seven_sizes` | `PropKey.v` | none |
| C102 | `sizes_hang_refuted` | `PropKey.v` | none |
| C103 | `handed_at_most_once` | `PropPool.v` | none |
| C104 | `lookup_exact` | `PropCache.v` | none |
| C105 | `handover` | `PropLife.v` | none |
| C106 | `no_shared_cell` | `PropPar.v` | none |
| C107 | `text_exact` | `PropOutput.v` | none |
| C108 | `ascending_puts` | `PropOrder.v` | none |
| C108 | `ascending_committed` | `PropOrder.v` | none |
| C109 | `put_without_split_correct` | `PropTree.v` | none |
| C109 | `put_room_refuted` | `PropOrder.v` | none |
| C109 | `put_room_uneven_refuted` | `PropOrder.v` | none |
| C109 | `deep_tree_refused` | `PropOrder.v` | none |
| C109 | `tree_height_refuted` | `PropOrder.v` | none |
| C11 | `conditional_del_partial` | `PropTree.v` | none |
| C11 | `conditional_del_refuted` | `PropTree.v` | none |
| C110 | `exit_zero_images` | `PropMain.v` | none |
| C111 | `exit_status_exact` | `PropMain.v` | none |
| C112 | `cache_open_outcome` | `PropLife.v` | none |
| C113 | `cache_abort_exact` | `PropCache.v` | none |
| C113 | `cache_outside` | `PropCache.v` | none |
| C114 | `bulk_load` | `PropTotal.v` | none |
| C114 | `bulk_load_uniform` | `PropTotal.v` | none |
| C114 | `bulk_load_varied` | `PropTotal.v` | none |
| C115 | `write_chain` | `PropFine.v` | none |
| C115 | `commit_publishes_exactly` | `PropFine.v` | none |
| C116 | `snapshot_consistent_partial` | `PropFine.v` | none |
| C116 | `snapshot_consistent_refuted` | `PropFine.v` | none |
| C117 | `reader_table_always` | `PropFine.v` | none |
| C118 | `reader_protected_partial` | `PropFine.v` | none |
| C118 | `reader_protected_refuted` | `PropFine.v` | none |
| C119 | `no_db_deadlock` | `PropFine.v` | none |
| C119 | `calls_end` | `PropFine.v` | none |
| C12 | `operations_are_map_updates_partial` | `PropTree.v` | none |
| C12 | `operations_beside_free_db_partial` | `PropOrder.v` | none |
| C12 | `distinct_puts_retrievable_partial` | `PropTree.v` | none |
| C12 | `insertion_order_refuted` | `PropTree.v` | none |
| C120 | `race_free_partial` | `PropFine.v` | none |
| C120 | `race_refuted` | `PropFine.v` | none |
| C121 | `concurrent_inserts` | `PropHeapLock.v` | none |
| C121 | `all_inserted` | `PropHeapLock.v` | none |
| C122 | `inserts_end_partial` | `PropHeapLock.v` | none |
| C122 | `inserts_end_refuted` | `PropHeapLock.v` | none |
| C123 | `heap_growth_partial` | `PropHeapLock.v` | none |
| C123 | `heap_growth_refuted` | `PropHeapLock.v` | none |
| C124 | `concurrent_marks` | `PropMark.v` | none |
| C124 | `marks_end` | `PropMark.v` | none |
| C124 | `all_marked` | `PropMark.v` | none |
| C125 | `one_at_a_time_partial` | `PropMark.v` | none |
| C125 | `second_begin_refuted` | `PropMark.v` | none |
| C125 | `begin_in_write_refuted` | `PropMark.v` | none |
| C125 | `sweep_in_read_refuted` | `PropMark.v` | none |
| C126 | `any_ending_write` | `PropCache.v` | none |
| C126 | `any_ending_read` | `PropCache.v` | none |
| C127 | `pointer_is_value` | `PropPtr.v` | none |
| C127 | `pointer_lasts_partial` | `PropPtr.v` | none |
| C127 | `read_pointer_lasts_partial` | `PropPtr.v` | none |
| C127 | `pointer_after_delete_refuted` | `PropPtr.v` | none |
| C127 | `pointer_after_upsert_refuted` | `PropPtr.v` | none |
| C127 | `read_pointer_refuted` | `PropPtr.v` | none |
| C128 | `parallel_vectors_partial` | `PropImgPar.v` | none |
| C128 | `image_threads_partial` | `PropImgPar.v` | none |
| C128 | `no_shared_image` | `PropImgPar.v` | none |
| C128 | `image_threads_refuted` | `PropImgPar.v` | none |
| C129 | `free_page_taken_partial` | `PropOnce.v` | none |
| C129 | `free_page_taken_refuted` | `PropOnce.v` | none |
| C13 | `open_selects_newest` | `PropDb.v` | none |
| C130 | `scan_exact` | `PropScan.v` | none |
| C130 | `scan_sound` | `PropScan.v` | none |
| C131 | `sweep_deletes` | `PropScan.v` | none |
| C132 | `set_range_sound` | `PropScan.v` | none |
| C133 | `meta_pages_safe_partial` | `PropMeta.v` | none |
| C133 | `meta_page_overwritten_refuted` | `PropMeta.v` | none |
| C134 | `only_what_was_put` | `PropPair.v` | none |
| C135 | `eight_byte_keys_partial` | `PropPair.v` | none |
| C135 | `eight_byte_keys_refuted` | `PropPair.v` | none |
| C136 | `file_always_opens` | `PropFileLife.v` | none |
| C137 | `lookup_stays_inside_partial` | `PropFileLife.v` | none |
| C137 | `lookup_stays_inside_refuted` | `PropFileLife.v` | none |
| C138 | `lookup_ends_partial` | `PropEnds.v` | none |
| C138 | `lookup_ends_refuted` | `PropEnds.v` | none |
| C139 | `never_goes_back` | `PropTime.v` | none |
| C14 | `commit_alternates_partial` | `PropDb.v` | none |
| C14 | `meta_page_overwritten_refuted` | `PropMeta.v` | none |
| C140 | `colours_only` | `PropColour.v` | none |
| C140 | `colours_status` | `PropColour.v` | none |
| C140 | `terminal_shows` | `PropColour.v` | none |
| C141 | `reader_writes_nothing` | `PropTime.v` | none |
| C142 | `deletion_is_local` | `PropLocal.v` | none |
| C142 | `deletion_ends` | `PropLocal.v` | none |
| C143 | `put_is_local` | `PropLocal.v` | none |
| C144 | `load_then_list` | `PropLoad.v` | none |
| C145 | `delete_any_number_partial` | `PropMany.v` | none |
| C145 | `commit_frees_few` | `PropMany.v` | none |
| C145 | `delete_all_refused` | `PropMany.v` | none |
| C145 | `delete_any_number_refuted` | `PropMany.v` | none |
| C146 | `fill_mark_sweep_partial` | `PropSweep.v` | none |
| C146 | `sweep_refused` | `PropSweep.v` | none |
| C146 | `fill_mark_sweep_refuted` | `PropSweep.v` | none |
| C147 | `delete_defined_partial` | `PropWrap.v` | none |
| C147 | `delete_all_never` | `PropWrap.v` | none |
| C147 | `delete_many_overflows` | `PropWrap.v` | none |
| C147 | `delete_defined_refuted` | `PropWrap.v` | none |
| C148 | `reads_in_map_partial` | `PropMap.v` | none |
| C148 | `load_leaves_map` | `PropMap.v` | none |
| C148 | `reads_in_map_refuted` | `PropMap.v` | none |
| C149 | `load_in_batches_partial` | `PropBatch.v` | none |
| C149 | `load_in_batches_refuted` | `PropBatch.v` | none |
| C15 | `crash_atomic_first_partial` | `PropCommit.v` | none |
| C15 | `crash_atomic_one_page_partial` | `PropCommit.v` | none |
| C15 | `single_operation_crash_atomic_partial` | `PropCommit.v` | none |
| C15 | `crash_atomic_refuted` | `PropCommit.v` | none |
| C150 | `shown_chosen` | `PropSelect.v` | none |
| C150 | `chosen_obeys` | `PropSelect.v` | none |
| C151 | `shared_reading` | `PropSound.v` | none |
| C152 | `left_out_by_rule` | `PropSound.v` | none |
| C153 | `bad_size_refused` | `PropSound.v` | none |
| C154 | `small_database_updates_partial` | `PropTiny.v` | none |
| C154 | `small_database_updates_refuted` | `PropTiny.v` | none |
| C155 | `cache_refreshed_partial` | `PropRefresh.v` | none |
| C155 | `cache_refreshed_refuted` | `PropRefresh.v` | none |
| C156 | `first_commit_all_or_nothing` | `PropFirst.v` | none |
| C156 | `load_all_or_nothing` | `PropFirst.v` | none |
| C157 | `one_round_partial` | `PropRounds.v` | none |
| C157 | `rounds_leave_one_partial` | `PropRounds.v` | none |
| C157 | `nothing_left_partial` | `PropRounds.v` | none |
| C157 | `exit_zero_complete_refuted` | `PropMain.v` | none |
| C158 | `import_round_partial` | `PropImport.v` | none |
| C158 | `import_cleaned_partial` | `PropImport.v` | none |
| C158 | `import_cleaned_refuted` | `PropImport.v` | none |
| C159 | `hash_progress_counts` | `PropProg.v` | none |
| C159 | `hash_progress_ends_partial` | `PropProg.v` | none |
| C159 | `vector_progress_counts` | `PropProg.v` | none |
| C159 | `vector_progress_ends_partial` | `PropProg.v` | none |
| C159 | `compare_progress_partial` | `PropProg.v` | none |
| C159 | `compare_progress_refuted` | `PropProg.v` | none |
| C159 | `percent_sound` | `PropProg.v` | none |
| C16 | `commit_durable_partial` | `PropDb.v` | none |
| C16 | `crash_at_end_durable_partial` | `PropDb.v` | none |
| C16 | `meta_page_overwritten_refuted` | `PropMeta.v` | none |
| C160 | `limits_select_partial` | `PropNarrow.v` | none |
| C160 | `more_arguments_partial` | `PropNarrow.v` | none |
| C160 | `more_arguments_refuted` | `PropNarrow.v` | none |
| C161 | `level_exact` | `PropLevel.v` | none |
| C161 | `higher_level_more` | `PropLevel.v` | none |
| C162 | `failure_explained` | `PropMsg.v` | none |
| C162 | `unreadable_named_partial` | `PropMsg.v` | none |
| C162 | `read_error_named` | `PropMsg.v` | none |
| C162 | `only_failures_named` | `PropMsg.v` | none |
| C162 | `quiet_when_readable` | `PropMsg.v` | none |
| C162 | `same_run` | `PropMsg.v` | none |
| C162 | `unreadable_named_refuted` | `PropMsg.v` | none |
| C163 | `others_exact` | `PropOthers.v` | none |
| C163 | `others_apart` | `PropOthers.v` | none |
| C163 | `others_end_partial` | `PropOthers.v` | none |
| C163 | `not_confused` | `PropOthers.v` | none |
| C163 | `others_end_refuted` | `PropOthers.v` | none |
| C164 | `delete_while_scanning_partial` | `PropLive.v` | none |
| C164 | `live_same` | `PropLive.v` | none |
| C164 | `sweep_pointers` | `PropLive.v` | none |
| C164 | `delete_while_scanning_refuted` | `PropLive.v` | none |
| C165 | `freed_listed_partial` | `PropFreed.v` | none |
| C165 | `freed_found_partial` | `PropFreed.v` | none |
| C165 | `freed_listed_refuted` | `PropFreed.v` | none |
| C166 | `others_unaffected_partial` | `PropChange.v` | none |
| C166 | `others_unaffected_refuted` | `PropChange.v` | none |
| C167 | `first_fill_partial` | `PropFirstFill.v` | none |
| C167 | `upsert_then_lookup_refuted` | `PropCache.v` | none |
| C168 | `dedup_partial` | `PropDedup.v` | none |
| C168 | `dedup_refuted` | `PropDedup.v` | none |
| C169 | `failed_commit_partial` | `PropFailedCommit.v` | none |
| C169 | `failed_operation_partial` | `PropFailedOne.v` | none |
| C169 | `failed_commit_refuted` | `PropFailedCommit.v` | none |
| C17 | `snapshot_stable_partial` | `PropCommit.v` | none |
| C17 | `snapshot_stable_refuted` | `PropCommit.v` | none |
| C170 | `load_after_failures` | `PropRetry.v` | none |
| C171 | `update_after_failure_partial` | `PropStuck.v` | none |
| C171 | `update_after_failure_refuted` | `PropStuck.v` | none |
| C18 | `uncommitted_private` | `PropDb.v` | none |
| C18 | `abort_restores` | `PropDb.v` | none |
| C19 | `single_writer` | `PropDb.v` | none |
| C19 | `lock_released` | `PropDb.v` | none |
| C20 | `reader_table_exact` | `PropDb.v` | none |
| C21 | `reuse_only_from_free_db_partial` | `PropReuse.v` | none |
| C21 | `page_reuse_refuted` | `PropCommit.v` | none |
| C22 | `fresh_allocation` | `PropReuse.v` | none |
| C23 | `forward_scan_partial` | `PropCursor.v` | none |
| C23 | `navigation_partial` | `PropCursor.v` | none |
| C23 | `scan_refuted` | `PropCursor.v` | none |
| C24 | `backward_scan_partial` | `PropCursor.v` | none |
| C24 | `navigation_partial` | `PropCursor.v` | none |
| C24 | `backward_scan_refuted` | `PropCursor.v` | none |
| C25 | `set_exact` | `PropCursor.v` | none |
| C26 | `set_range_partial` | `PropCursor.v` | none |
| C26 | `set_range_refuted` | `PropCursor.v` | none |
| C27 | `sweep_exact_partial` | `PropCache.v` | none |
| C27 | `sweep_any_tree_partial` | `PropScan.v` | none |
| C27 | `threads_then_sweep_partial` | `PropMark.v` | none |
| C27 | `sweep_exact_refuted` | `PropCache.v` | none |
| C28 | `lookup_exact` | `PropCache.v` | none |
| C28 | `upsert_then_lookup_partial` | `PropCache.v` | none |
| C28 | `upsert_then_lookup_refuted` | `PropCache.v` | none |
| C29 | `heap_extracts_maximum` | `PropHeap.v` | none |
| C30 | `heap_conservation` | `PropHeap.v` | none |
| C30 | `heap_drain_sorted` | `PropHeap.v` | none |
| C31 | `hash_refines_map` | `PropHash.v` | none |
| C32 | `hash_iteration_exact` | `PropHash.v` | none |
| C33 | `hash_set_terminates_partial` | `PropHash.v` | none |
| C33 | `hash_set_terminates_refuted` | `PropHash.v` | none |
| C33 | `ignore_list_duplicates_diverge_refuted` | `PropHash.v` | none |
| C34 | `handed_at_most_once` | `PropPool.v` | none |
| C34 | `handed_exactly_once_partial` | `PropPool.v` | none |
| C34 | `handed_exactly_once_refuted` | `PropPool.v` | none |
| C35 | `wait_returns_after_all_partial` | `PropPool.v` | none |
| C35 | `wait_returns_after_all_refuted` | `PropPool.v` | none |
| C36 | `pool_progress` | `PropPool.v` | none |
| C36 | `pool_terminates` | `PropPool.v` | none |
| C36 | `pool_completes` | `PropPool.v` | none |
| C37 | `groups_sound` | `PropReport.v` | none |
| C38 | `report_complete_partial` | `PropReport.v` | none |
| C38 | `others_exact` | `PropOthers.v` | none |
| C38 | `report_complete_refuted` | `PropReport.v` | none |
| C39 | `reported_once` | `PropReport.v` | none |
| C40 | `report_complete_partial` | `PropReport.v` | none |
| C40 | `others_end_partial` | `PropOthers.v` | none |
| C40 | `report_no_crash_refuted` | `PropReport.v` | none |
| C41 | `priority_first_partial` | `PropReport.v` | none |
| C41 | `priority_dir_first_partial` | `PropReport.v` | none |
| C41 | `priority_first_refuted` | `PropReport.v` | none |
| C42 | `filecmp_exact_partial` | `PropFile.v` | none |
| C42 | `filecmp_true_partial` | `PropFile.v` | none |
| C42 | `filecmp_read_error_refuted` | `PropFile.v` | none |
| C42 | `filecmp_short_read_refuted` | `PropFile.v` | none |
| C42 | `filecmp_resized_refuted` | `PropFile.v` | none |
| C42 | `filecmp_bus_refuted` | `PropFile.v` | none |
| C43 | `unique_sizes_dropped` | `PropReport.v` | none |
| C44 | `size_limits_exact` | `PropCollect.v` | none |
| C45 | `permission_rule` | `PropCollect.v` | none |
| C46 | `last_match_decides` | `PropIgnore.v` | none |
| C47 | `closest_decides_partial` | `PropIgnore.v` | none |
| C47 | `outermost_decides` | `PropIgnore.v` | none |
| C47 | `silent_chain` | `PropIgnore.v` | none |
| C47 | `closest_decides_refuted` | `PropIgnore.v` | none |
| C48 | `glob_translation_partial` | `PropIgnore.v` | none |
| C48 | `glob_total` | `PropIgnore.v` | none |
| C48 | `glob_newline_refuted` | `PropIgnore.v` | none |
| C48 | `glob_escape_refuted` | `PropIgnore.v` | none |
| C48 | `glob_negated_set_refuted` | `PropIgnore.v` | none |
| C48 | `glob_middle_slash_refuted` | `PropIgnore.v` | none |
| C48 | `glob_deep_dir_refuted` | `PropIgnore.v` | none |
| C49 | `glob_buffer_partial` | `PropIgnore.v` | none |
| C49 | `glob_buffer_refuted` | `PropIgnore.v` | none |
| C50 | `size_integer_partial` | `PropHuman.v` | none |
| C50 | `size_sign` | `PropHuman.v` | none |
| C50 | `size_no_number` | `PropHuman.v` | none |
| C50 | `size_bad_unit` | `PropHuman.v` | none |
| C50 | `size_exact_refuted` | `PropHuman.v` | none |
| C51 | `json_text_agree` | `PropReport.v` | none |
| C52 | `page_search_correct` | `PropPage.v` | none |
| C52 | `long_probe_mistaken_refuted` | `PropPage.v` | none |
| C53 | `commit_publishes_partial` | `PropCommit.v` | none |
| C53 | `history_is_map_partial` | `PropCommit.v` | none |
| C53 | `early_transaction_is_map_partial` | `PropCommit.v` | none |
| C53 | `page_reuse_refuted` | `PropCommit.v` | none |
| C54 | `checksum_exact` | `PropFile.v` | none |
| C55 | `duplicates_exact_partial` | `PropEnd.v` | none |
| C55 | `duplicates_exact_refuted` | `PropEnd.v` | none |
| C56 | `default_ignores_exact` | `PropIgnore.v` | none |
| C56 | `default_ignores_absolute_partial` | `PropIgnore.v` | none |
| C56 | `default_ignores_relative_refuted` | `PropIgnore.v` | none |
| C57 | `size_fraction_partial` | `PropHuman.v` | none |
| C57 | `size_fraction_refuted` | `PropHuman.v` | none |
| C58 | `walk_exact` | `PropWalk.v` | none |
| C59 | `walk_once_partial` | `PropWalk.v` | none |
| C59 | `walk_once_refuted` | `PropWalk.v` | none |
| C60 | `walk_succeeds_partial` | `PropWalk.v` | none |
| C60 | `walk_succeeds_refuted` | `PropWalk.v` | none |
| C60 | `walk_loop_refuted` | `PropWalk.v` | none |
| C61 | `hidden_skipped` | `PropWalk.v` | none |
| C62 | `no_recurse_partial` | `PropWalk.v` | none |
| C62 | `no_recurse_refuted` | `PropWalk.v` | none |
| C63 | `regex_filter_partial` | `PropWalk.v` | none |
| C63 | `regex_filter_refuted` | `PropWalk.v` | none |
| C64 | `run_exact_partial` | `PropRun.v` | none |
| C64 | `run_exact_refuted` | `PropWhole.v` | none |
| C65 | `no_self_twin_partial` | `PropRun.v` | none |
| C65 | `no_self_twin_refuted` | `PropRun.v` | none |
| C66 | `settings_exact` | `PropConfig.v` | none |
| C66 | `setup_exact` | `PropConfig.v` | none |
| C67 | `accepted_exact_partial` | `PropConfig.v` | none |
| C67 | `accepted_exact_refuted` | `PropConfig.v` | none |
| C68 | `ignore_names_exact` | `PropConfig.v` | none |
| C69 | `threads_exact` | `PropConfig.v` | none |
| C70 | `json_not_verbose` | `PropConfig.v` | none |
| C71 | `groups_exact_partial` | `PropConfig.v` | none |
| C71 | `groups_exact_refuted` | `PropConfig.v` | none |
| C72 | `gitignore_lines_partial` | `PropIgnoreFile.v` | none |
| C72 | `gitignore_lines_refuted` | `PropIgnoreFile.v` | none |
| C72 | `lines_exist` | `PropIgnoreFile.v` | none |
| C72 | `lines_unique` | `PropIgnoreFile.v` | none |
| C73 | `gitignore_meaning_partial` | `PropIgnoreFile.v` | none |
| C73 | `gitignore_meaning_refuted` | `PropWhole.v` | none |
| C74 | `text_exact` | `PropOutput.v` | none |
| C74 | `text_readable_partial` | `PropOutput.v` | none |
| C74 | `text_readable_refuted` | `PropOutput.v` | none |
| C75 | `cleanup_first_partial` | `PropOutput.v` | none |
| C75 | `cleanup_safe_partial` | `PropOutput.v` | none |
| C75 | `run_cleanup_partial` | `PropWhole.v` | none |
| C75 | `cleanup_safe_refuted` | `PropOutput.v` | none |
| C76 | `larger_first` | `PropOutput.v` | none |
| C77 | `image_pairs_exact` | `PropImage.v` | none |
| C77 | `image_twins` | `PropImage.v` | none |
| C78 | `image_cleanup_partial` | `PropImage.v` | none |
| C78 | `image_cleanup_refuted` | `PropImage.v` | none |
| C79 | `size_shown_partial` | `PropFormat.v` | none |
| C79 | `size_shown_refuted` | `PropFormat.v` | none |
| C80 | `size_round_trip_partial` | `PropFormat.v` | none |
| C80 | `size_round_trip_refuted` | `PropFormat.v` | none |
| C81 | `parallel_hashing_partial` | `PropPar.v` | none |
| C81 | `parallel_is_sequential` | `PropPar.v` | none |
| C81 | `no_shared_cell` | `PropPar.v` | none |
| C81 | `parallel_hashing_refuted` | `PropPar.v` | none |
| C82 | `task_list_is_queue` | `PropQueue.v` | none |
| C83 | `json_document_exact_partial` | `PropJson.v` | none |
| C83 | `json_path_lost_refuted` | `PropJson.v` | none |
| C84 | `json_time_order_partial` | `PropJson.v` | none |
| C84 | `json_time_order_refuted` | `PropJson.v` | none |
| C85 | `exit_zero_complete_partial` | `PropMain.v` | none |
| C85 | `exit_zero_exact_partial` | `PropMain.v` | none |
| C85 | `exit_zero_complete_refuted` | `PropMain.v` | none |
| C86 | `json_output_partial` | `PropMain.v` | none |
| C86 | `json_output_refuted` | `PropMain.v` | none |
| C87 | `json_paths_absolute` | `PropMain.v` | none |
| C88 | `order_irrelevant_partial` | `PropMain.v` | none |
| C88 | `order_irrelevant_refuted` | `PropWhole.v` | none |
| C89 | `run_defined_partial` | `PropMain.v` | none |
| C89 | `archive_mode_undefined` | `PropSubpath.v` | none |
| C89 | `run_defined_refuted` | `PropMain.v` | none |
| C90 | `reused_page_struck_off_partial` | `PropOnce.v` | none |
| C90 | `reused_page_struck_off_refuted` | `PropOnce.v` | none |
| C90 | `no_page_twice_partial` | `PropOnce.v` | none |
| C90 | `no_page_twice_refuted` | `PropOnce.v` | none |
| C91 | `no_temporary_left_partial` | `PropArch.v` | none |
| C91 | `compare_no_temporary_left_partial` | `PropArch.v` | none |
| C91 | `temporaries_left_refuted` | `PropArch.v` | none |
| C92 | `user_files_untouched` | `PropArch.v` | none |
| C92 | `compare_user_files_untouched` | `PropArch.v` | none |
| C93 | `member_hash_partial` | `PropArch.v` | none |
| C93 | `member_compare_partial` | `PropArch.v` | none |
| C93 | `solo_run` | `PropArch.v` | none |
| C93 | `member_link_refuted` | `PropArch.v` | none |
| C93 | `nameless_member_refuted` | `PropArch.v` | none |
| C94 | `process_state_partial` | `PropArch.v` | none |
| C94 | `mask_left_refuted` | `PropArch.v` | none |
| C94 | `mask_race_refuted` | `PropArch.v` | none |
| C94 | `handles_left_refuted` | `PropArch.v` | none |
| C95 | `open_leaves_file_partial` | `PropLife.v` | none |
| C95 | `open_shows_database` | `PropLife.v` | none |
| C95 | `open_creates` | `PropLife.v` | none |
| C95 | `open_empties_refuted` | `PropLife.v` | none |
| C96 | `failed_open_closes` | `PropLife.v` | none |
| C96 | `close_closes` | `PropLife.v` | none |
| C97 | `open_defined_partial` | `PropLife.v` | none |
| C97 | `open_crash_refuted` | `PropLife.v` | none |
| C97 | `read_only_creation_refuted` | `PropLife.v` | none |
| C98 | `handover` | `PropLife.v` | none |
| C98 | `taking_turns_partial` | `PropLife.v` | none |
| C98 | `shared_reading_partial` | `PropLife.v` | none |
| C98 | `lost_update_refuted` | `PropLife.v` | none |
| C98 | `two_writers_refuted` | `PropLife.v` | none |
| C98 | `stale_process_refuted` | `PropLife.v` | none |
| C99 | `cache_exclusive_partial` | `PropLife.v` | none |
| C99 | `cache_exclusive_refuted` | `PropLife.v` | none |

## 6. What is assumed and what is not modelled

Assumed of the environment (parameters of the models or stated in their comments):

* APR pools never run out of memory; mutex and condition variable calls do not fail.
* `qsort` returns a sorted permutation; for C51 its result depends on the comparison only.
* XXH3 is a function of the hashed bytes; hash functions of the tables are arbitrary, for C100 XXH32
  as written in `xxhash.h` on a little-endian machine.
* `pcre_exec` is arbitrary, except for C48, C56, C73 where `PcreSpec` gives the meaning of the
  syntax produced by the translation.
* The file system answers of one walk do not change during the walk; file contents may be
  unreadable and reads may be short or fail (C42, C55).
* Disk: writes before a completed `fsync`/`msync` barrier are durable, those behind it reach the
  disk in any subset; a page write is atomic.
* `strtod` rounds to nearest, ties to even; `apr_psprintf` formats as described in `FormatModel`.
* libpuzzle's decoder and distance are arbitrary.
* libarchive's answers are arbitrary; archive_write_header replaces the temporary file by the entry,
  archive_write_data_block writes at the given offset; mkstemp makes a file that did not exist.
* `apr_file_lock` is an `fcntl` lock: owned by the process, dropped when it closes any descriptor of the
  file; `apr_proc_mutex` without a name is not shared with unrelated processes; touching a mapped page
  behind the end of the file is SIGBUS (C95-C99).

Not modelled:

* `apr_getopt_long` itself: the option list it returns is the input;
* what happens after a commit that writes a tree page over one of the two meta pages: such a commit has
  the outcome UB in `DbModel` and ends the run, so theorems about histories say nothing about what
  follows it. The code can be brought to do it (C133, `meta_page_overwritten_refuted`);
* the end of the memory map: `get_page` is defined for every page number, so the other theorems hold as long
  as the pages lie inside the map; C148 says when they do and that the code does not see to it;
* the byte format of JSON text (jansson), messages on stderr (except the progress lines, `ProgModel`, and those about what cannot be read, `MsgModel`), colours only as byte prefixes;
* weak memory: threads see sequentially consistent memory (FineModel, HeapLockModel, MarkModel, PoolModel);
* APR pools, leaks, allocation failures, signals.

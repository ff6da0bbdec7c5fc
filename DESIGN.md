# Formal model of radixdb in Rocq: design

The source is /repo (Rust, read as text, never built). The model and all proofs are in `rocq/theories`; property theorems are in the files `Props*.v`, which contain only the statements, `exact` proofs, `Print Assumptions` and examples.

## Approach

* One Gallina function per Rust function, with file and lines of the Rust source cited in its comment. Simplifications are in the same comment.
* Results are `Ok | Err | Panic | Fuel`. `Err` is a Rust `Err(_)`, `Panic` is a panic, `Fuel` is not a Rust outcome: recursive functions take a step bound. Theorems say that the result is the given one for all sufficiently large bounds (`f ⇓ r`), which includes termination.
* `debug_assert!` and arithmetic overflow checks depend on a boolean `dbg`; statements quantify over it unless they say otherwise.
* Nodes carry blobs that are data or store ids, as the header byte tells; children are an owned vector or an id. A relation `Rep` (Rep.v, only in proofs) links a node under a store reading function with a plain tree.
* Specifications are in separate files that do not use the model of the code: Spec.v (maps, orders, listings, joins), Format.v (stored format), World.v (histories of trees on a store), StoreSpec.v (store contract), FailSpec.v, PagedSpec.v, HeapSpec.v, HeapIterSpec.v, HeapTreeSpec.v, HeapGroupSpec.v, HeapWholeSpec.v, WebSpec.v, WebFsSpec.v, WebSyncSpec.v, PagingSpec.v, BlobSpec.v.
* Client.v defines the programs of API calls on trees in memory (`reachable`: built by some program) and what a client observes (`holds`: what `get` returns for every key).
* Stores are abstract with an explicit contract `lawful` (a write that succeeded is read back; a failed write may or may not have happened; nothing that was acknowledged changes). MemStore, PagedFileStore with crashes and I/O errors, browser cache files, paging files and files of the browser file system are proved to satisfy it, so theorems on attached trees apply to each.
* Refuted properties are stated as `*_refuted` theorems with a concrete witness, and recorded below as findings. What remains true is proved with suffix `_partial` under hypotheses that name the excluded case.
* Every theorem has an `Example` beside it that instantiates the hypotheses on a non-trivial case.

## Trusted base

* Coq 8.16.1: kernel, `vm_compute` (used in examples and witnesses), the standard library.
* Axioms: `Print Assumptions` under every theorem of `Props*.v` says "Closed under the global context". Nothing is admitted, no axiom, parameter or section-less variable is declared. `coqchk -o` lists seven entries `Coq.ssr.ssrunder.Under_rel.*` (`Under_rel`, `Under_rel_from_rel`, `Under_relE`, `Over_rel`, `over_rel`, `over_rel_done`, `under_rel_done`): these are module parameters in the standard library file ssrunder, which the standard library itself loads; no theorem here depends on them.
* The models of the environment, which are not code in /repo: files and the operating system (File.v), the browser cache (`jcache` in WebFs.v, `cache` in WebFile.v), the memory allocator and `Arc` (Heap.v, Blob.v), channels (WebSync.v), `u64`/`usize` arithmetic (U64.v, Chunk.v: 32 bits for the browser; Blob.v: 64 bits).
* That the Gallina functions are what the Rust code does: checked by reading, with line references.

## Which file models what

| Rust | Coq | remarks |
|---|---|---|
| src/node/mod.rs 220-314 (header) | Header.v | |
| src/node/mod.rs 316-1430 (owned and borrowed nodes, canonicalize, split, load) | Node.v | as values; memory in Heap.v |
| src/node/mod.rs 1431-1567, 1988-2009, 2966-3220 (find, iterators, GroupBy) | Iter.v | GroupBy also in memory: HeapGroup.v |
| src/node/mod.rs 1574-1755, 2011-2964 (combine operations) | Combine.v | errors of a combiner inside an in-place combine end the history |
| src/node/mod.rs 3222-3820 (RadixTree) | Api.v | |
| src/node/mod.rs serialize, reattach, detach | Store.v | |
| src/node/mod.rs 23-214, 256-314, 520-1138 (unions, Drop, Clone, setters, unsafe accessors) | Heap.v | memory with counts; freed or mistyped access is `Undefined` |
| src/node/mod.rs 1757-1834, 2966-3124 (raw pointer iterators, shared key buffer) | HeapIter.v | in memory nodes |
| src/node/mod.rs 616-632, 719-731, 839-985, 1576-1668, 1743-1829, 2121-2219, 2398-2492, 2675-2964, 3513-3539 (in-place operations on memory) | HeapTree.v | in memory nodes; closures do not panic |
| src/node/mod.rs 1516-1567, 1988-2009, 2966-3013 (first, last, scan_prefix; programs over the whole in-memory API) | HeapWhole.v | in memory nodes |
| src/store/blob_store.rs 11-30 | StoreSpec.v | contract |
| src/store/blob_store.rs 33-217 | Blob.v | |
| src/store/mem_store.rs | MemStore.v | |
| src/store/paged_file_store.rs | PagedFile.v over File.v | every file operation can fail or be the last |
| browser/src/lib.rs 46-76 | Chunk.v | |
| browser/src/web_cache_fs.rs 298-556, 593-752 | WebFile.v, Chunk.v | one file; every cache operation can fail |
| browser/src/web_cache_fs.rs 22-296 | WebFs.v | directories, all files of a directory in one cache |
| browser/src/sync_fs.rs | WebFs.v (commands), WebSync.v (threads) | |
| browser/src/paging_file.rs | Paging.v | |
| browser/src/vfs.rs | WebVfs.v | |

## Assumptions made by the environment models

* Files (File.v): read, write, seek and truncate; an operation can fail; a write that fails or is interrupted leaves any prefix of its bytes. The 8 byte header field of the paged file is written whole or not at all. Writes are not reordered (the code never calls fsync, so a power failure is outside).
* Browser cache: `put` and `delete` are atomic; a failing operation has no effect; deleting a cache leaves its entries to those who hold it; the names of chunks are byte strings (URL escaping is not modelled); sizes are below 2^63.
* The mutex in the stores makes their reads and writes sequential. ThreadsSpec.v (C72) models threads that share a store as interleavings of these; elsewhere a store is used by one thread. WebSync.v models threads for the browser file system.
* Heap: an allocation never fails; `Arc` counts are natural numbers; addresses are never reused (a read after free is always noticed).
* Reads made by trees in C56, C59, C60, C65 do not fail; failing reads are C34.

## Properties: what is modelled and how it is proved

Status and exact theorem names are those of MANIFEST.json. The notes say what is missing where a theorem is `_partial`.

* **C01** insert is a point update (proved). Model `single`, `outer_combine_with`, `split`, `canonicalize`, `load_children_mut` on a node type with inline data / ids; refine to a ghost tree; pointwise lemma for merging sorted child lists; induction on tree size. Theorems: `C01_insert`.
* **C02** remove is a point deletion (proved). Same, via `left_combine_with` with the deleting combiner. Theorems: `C02_remove`.
* **C03** contains_key agrees with get (proved). `find` on the model; lookup function on ghost trees; both observers reduce to it. Theorems: `C03_contains_key`.
* **C04** has_prefix answers whether a key starts with the prefix (partial). Same `find`; full statement refuted on the empty tree with the empty prefix (finding), proved for every nonempty tree. *Refuted as stated: has_prefix("") on the empty tree, and has_prefix(s) after filter_prefix("", s) on the empty tree. Proved for every other case.* Theorems: `C04_has_prefix_partial`, `C04_has_prefix_refuted`, `C04_has_prefix_after_filter_refuted`.
* **C05** remove_prefix deletes exactly the keys with that prefix (proved). `remove_prefix_with` with `single`; 'covered' observation instead of lookup, same merge lemmas. Theorems: `C05_remove_prefix`.
* **C06** iter yields every entry once in ascending key order (proved). `KeyValueIter` as a stack machine; invariant: entries still to come = entries of the stack; collected output equals the sorted entry list; order proved against a separate lexicographic order. Theorems: `C06_iter`.
* **C07** values yields the values in key order (proved). `ValueIter` the same way. Theorems: `C07_values`.
* **C08** scan_prefix yields exactly the entries below a prefix (partial). Refuted when the prefix ends exactly at a node with a nonempty edge (finding); proved in the other cases (`_partial`). The repeated edge is described by where the map forks. *Refuted as stated: when the keys of the tree fork at the prefix, the last edge is repeated in the yielded keys. Proved exactly for the other prefixes. C08_exact_partial says for every prefix exactly which keys are yielded, in memory and in stores. Missing: the right keys at forks, where the statement is false.* Theorems: `C08_scan_prefix_partial`, `C08_scan_prefix_values_partial`, `C08_scan_prefix_refuted`, `C08_exact_partial`.
* **C09** filter_prefix selects and renames a subtree (proved). `filter_prefix` on top of `find`; the tree it returns for the empty tree is not canonical (finding). *Contents proved for all cases; the result of filter_prefix("", s) on an empty tree is not a well-formed tree (see C04).* Theorems: `C09_filter_prefix`, `C09_filter_prefix_reachable`.
* **C10** first and last entry and value are the extremes (partial). Recursion over ghost tree, with canonicity (no dead subtree). *Refuted for trees made by filter_prefix("", s) on an empty tree, s not empty (excluded from the reachable trees): after inserting another key, first_value and first_entry find nothing.* Theorems: `C10_first_last`, `C10_first_after_filter_refuted`.
* **C11** group_by partitions the tree (proved). `GroupBy` stack machine with an arbitrary descend function; the cuts are specified on the key set (GroupSpec.v). Theorems: `C11_groups`, `C11_group_by`.
* **C12** outer_combine is the pointwise outer join (proved). Model the Rust function and its children loop; pointwise theorem with g = join of options, by induction on the sum of the sizes. Theorems: `C12_outer_combine`.
* **C13** inner_combine is the pointwise inner join (proved). Model the Rust function and its children loop; pointwise theorem with g = join of options, by induction on the sum of the sizes. Theorems: `C13_inner_combine`.
* **C14** left_combine is the pointwise left join (proved). Model the Rust function and its children loop; pointwise theorem with g = join of options, by induction on the sum of the sizes. Theorems: `C14_left_combine`.
* **C15** inner_combine_pred decides existence over common keys (proved). Model the function; theorem 'returns true iff exists key'. Theorems: `C15_inner_combine_pred`.
* **C16** left_combine_pred decides existence over the left tree (proved). Model the function; theorem 'returns true iff exists key'. Theorems: `C16_left_combine_pred`.
* **C17** outer_combine_with is the in-place outer join (proved). Model the in-place function; same merge lemmas; also for a tree that is partly loaded from a store. Theorems: `C17_outer_combine_with`.
* **C18** inner_combine_with is the in-place inner join (proved). Model the in-place function; same merge lemmas; also for a tree that is partly loaded from a store. Theorems: `C18_inner_combine_with`.
* **C19** left_combine_with is the in-place left join (proved). Model the in-place function; same merge lemmas; also for a tree that is partly loaded from a store. Theorems: `C19_left_combine_with`.
* **C20** retain_prefix_with keeps exactly the keys below selected prefixes (partial). Refuted for a predicate that rejects a key of b and accepts a longer one (finding); proved for predicates that are hereditary (in particular constant). For any selector: the recursion again, with the result specified by where the first map forks. *Refuted as stated: a rejected prefix can hide selected prefixes below it. Proved as stated when no selected prefix is below a rejected one. For any selector, proved exactly what is kept: the keys below a selected prefix p such that at every rejected prefix on the way to p the keys of the first tree fork (C20_any_selector_partial in memory, C20_any_place_partial for stored and mixed trees). Missing: the statement itself, which is false.* Theorems: `C20_retain_prefix_with_partial`, `C20_retain_prefix_with_refuted`, `C20_any_selector_partial`, `C20_any_place_partial`.
* **C21** remove_prefix_with drops exactly the keys below selected prefixes (proved). Model and prove by the 'covered' observation. Theorems: `C21_remove_prefix_with`.
* **C22** any history of calls behaves like an ordered map and never panics (proved). Inductive set of API programs, interpreter over the model and over finite maps; simulation theorem. Theorems: `C22_history`.
* **C23** the tree shape is determined by the contents (proved). Canonical ghost trees with equal lookup are equal; serialization factors through the ghost tree. Theorems: `C23_shape`.
* **C24** equality of trees is equality of contents (partial). Refuted in both directions (findings); proved that equality implies equal contents without empty values, and characterised exactly for all trees made by insertions alone (which childless nodes carry an empty vector is a function of the insertion history; `MarkProofs.v`, `EqTop.v`). *Refuted in both directions (empty values; children stored as an empty vector). Proved: equal trees without empty values have the same contents. Also proved (C24_exact_partial): for trees made by insertions alone, without empty values, == holds exactly when the contents agree and the same childless keys were inserted again.* Theorems: `C24_exact_partial`, `C24_equality_partial`, `C24_equality_true_refuted`, `C24_equality_false_refuted`.
* **C25** attaching and detaching preserves the contents (proved). Abstract store with read-after-write and stability laws; serialize/deserialize in a state monad. Theorems: `C25_attach_detach`, `C25_detached`.
* **C26** reattach/load round trip and snapshots (proved). Representation relation is monotone in the store; snapshots follow. Theorems: `C26_load`, `C26_load_nothing`, `C26_history`.
* **C27** reads on an attached tree agree with the in-memory tree (proved). `find`, iterators, first/last over borrowed nodes with the representation relation indexed by the store. Theorems: `C27_groups`, `C27_get`, `C27_contains_key`, `C27_has_prefix`, `C27_iter`, `C27_values`, `C27_first_last`, `C27_scan_prefix`, `C27_group_by`, `C27_filter_prefix`.
* **C28** inserting into an attached tree (proved). `outer_combine_with` proved for a left operand that is attached and partly loaded. Theorems: `C28_insert`, `C28_history`.
* **C29** removing from an attached tree (partial). Refuted: long keys corrupt in release builds, and debug builds panic (findings). Proved for release builds when every edge is below 128 bytes. *Refuted as stated: panics in debug builds (removing an absent key), corrupts keys over 127 bytes in release builds. Proved, for keys under 128 bytes: release builds always; debug builds for every key that does not leave the tree inside an edge, and on a tree just read back the others are exactly the keys that panic.* Theorems: `C29_remove_no_stray_partial`, `C29_remove_panics_partial`, `C29_present_partial`, `C29_remove_partial`, `C29_remove_debug_partial`, `C29_remove_debug_refuted`, `C29_remove_release_refuted`.
* **C30** removing a prefix from an attached tree (partial). Same as C29. *As C29.* Theorems: `C30_remove_prefix_no_stray_partial`, `C30_remove_prefix_panics_partial`, `C30_remove_prefix_partial`, `C30_remove_prefix_debug_partial`, `C30_remove_prefix_debug_refuted`, `C30_remove_prefix_release_refuted`.
* **C31** combining attached trees (partial). Refuted: `todo!()` paths (finding). Proved: the result is either that panic or the right tree. *Refuted as stated: the calls reach todo!() and panic. Proved: whenever they return, the result is right; and they do return when the keys of the two trees line up (in particular when both have the same keys).* Theorems: `C31_outer_fits_partial`, `C31_inner_fits_partial`, `C31_left_fits_partial`, `C31_inner_pred_fits_partial`, `C31_left_pred_fits_partial`, `C31_same_keys_partial`, `C31_outer_combine_partial`, `C31_inner_combine_partial`, `C31_left_combine_partial`, `C31_inner_combine_pred_partial`, `C31_left_combine_pred_partial`, `C31_outer_left_refuted`, `C31_inner_refuted`, `C31_left_pred_refuted`.
* **C32** node encoding round trip and documented format (proved). Codec functions on byte lists; the documented format as a separate inductive specification (Format.v); round trip for all inputs. *Format proved for trees in memory; round trip for single nodes; unambiguity.* Theorems: `C32_format`, `C32_unambiguous`, `C32_node_round_trip`.
* **C33** decoding arbitrary bytes does not panic (partial). Refuted: a children header without the id bit panics (finding); exact characterisation of the panicking inputs. *Refuted as stated: 00 80 00 panics on load, 80 80 80 on the first lookup. Proved: the exact set of byte strings on which load returns Ok, returns Err and panics.* Theorems: `C33_decode_partial`, `C33_decode_refuted`, `C33_later_refuted`.
* **C34** store errors are never turned into wrong answers (proved). Simulation between the run with and without failing reads, by induction on fuel for every function. *Failures are any set of ids whose reads fail (for all readers rd', rd); a read of the same id does not fail once and succeed later within one call.* Theorems: `C34_reads`, `C34_mutations`, `C34_combines`, `C34_iterators`.
* **C35** MemStore returns what was written (proved). MemStore state = finite map with max key; instance of the store laws. *For less than 2^64 blobs (the counter does not overflow).* Theorems: `C35_mem_store`, `C35_mem_lawful`.
* **C36** PagedFileStore returns what was written (proved). PagedFileStore: file as a byte list, file position, page and recent caches; invariant: list of acknowledged blocks laid out in pages. *Size: only C36_accepted (a write is accepted) needs that the file stays below 2^63 bytes (hypothesis room); all else holds for any history. File operations are modelled in File.v.* Theorems: `C36_read`, `C36_ids_increase`, `C36_accepted`, `C36_no_panic`.
* **C37** PagedFileStore survives reopening (proved). Same invariant with `Inner::new` run on the file. *Same page size at every opening. C38 covers reopening after faults.* Theorems: `C37_reopen`.
* **C38** PagedFileStore is crash consistent (proved). Trace of file operations of `append`, crash = any prefix with a torn last data write. *Crash of the process: any prefix of the file operations took effect, the last write torn at any byte (the 8 byte header field is written atomically). Reordering of writes by the operating system at a power failure is not modelled; the code never calls fsync.* Theorems: `C38_crash`.
* **C39** last_id identifies the last acknowledged block (partial). Refuted: crash after close_page (finding); proved for histories without crash. *Refuted as stated: a crash after a page was closed and before the next block is written leaves last_id on a page boundary, where nothing can be read. Proved: exact without faults; otherwise on a page boundary or readable as a block passed to some write, and never before an acknowledged write.* Theorems: `C39_refuted`, `C39_last_id_no_faults_partial`, `C39_last_id_partial`.
* **C40** rejected writes change nothing (proved). Direct from the model. *In every state of the store.* Theorems: `C40_rejected`.
* **C41** reading an arbitrary id does not panic (partial). Refuted: id of length other than 8, and id 0 in debug builds (finding); proved for the other ids. *Refuted as stated: ids that do not have eight bytes panic, and in a debug build also 0 and ids from 2^64-4096. Proved for all others in every reachable state, also under I/O errors.* Theorems: `C41_refuted`, `C41_read_any_partial`.
* **C42** compact blob representation (proved). A field is an 8 byte word that is inline bytes or a pointer (Heap.v); reads selected by the header find what was written. *Setters and reads over any memory; that clones, moves and all other operations keep fields consistent is C57_values.* Theorems: `C42_data`, `C42_id`.
* **C43** chunk names round trip (browser) (proved). Hex formatting/parsing on byte lists. *Names of chunks are modelled as byte strings with the hexadecimal printer and parser; that a name of a file survives being part of a URL (spaces, '?', '#', non ASCII characters) is not modelled.* Theorems: `C43_round_trip`, `C43_distinct`, `C43_found`.
* **C44** range intersection arithmetic (browser) (proved). Arithmetic in N with explicit bounds. *ranges is proved right for all overlapping ranges on a 32 bit target, and to fail with an error, never a wrong result, when a number does not fit.* Theorems: `C44_ranges`, `C44_ranges_or_error`, `C44_overlap`.
* **C45** write then read on a browser cache file (partial). Chunk set as ordered list with contents; content of the file = topmost level chunk at each position. *Refuted as stated (C45_refuted): a write into the first of two chunks makes the second unreadable, since the length is taken from the last chunk in the order of levels. Proved instead, for every history with any faults: reads that succeed return the bytes last written, and reads up to what length() says succeed when the cache works.* Theorems: `C45_contents_partial`, `C45_read_accepted_partial`, `C45_refuted`.
* **C46** browser cache file writes are atomic under crashes (proved). Crash = any prefix of the plan. *For every history of the file and every fault point of the write; the operations of the browser's cache are taken as atomic.* Theorems: `C46_atomic`, `C46_append_atomic`.
* **C47** browser cache file length (partial). Refuted: the maximum of (level, offset, length) is not the chunk with the greatest end (finding). For page-aligned use, exact: an invariant relating each page's newest chunk level to how often the page was overwritten. *Refuted as stated: length() is too short after a write into the middle, and append then overwrites data; after truncate a second append overwrites the first. Proved for files that are only appended to, with faults and reopenings. For files written one whole page at a time, with faults, cuts at page ends and reopenings, the length is characterised exactly: it is the end of the last of the pages overwritten most often (C47_pages_partial), so it is right iff no page was overwritten more often than the last one (C47_last_page_partial). Missing: an exact length for writes of other shapes.* Theorems: `C47_length_refuted`, `C47_append_refuted`, `C47_append_only_partial`, `C47_pages_partial`, `C47_last_page_partial`.
* **C48** browser cache file truncate (proved). Same content function. *Also says what remains if truncate fails half way; it is not atomic.* Theorems: `C48_truncate`.
* **C49** paging file returns what was appended (browser) (partial). PagingFile over an abstract byte file; refuted for blocks within 8 bytes of the page size (finding), proved below. *Refuted as stated: blobs of page_size-7 to page_size-4 bytes panic, of page_size-8 bytes are lost at once, and over a file in the browser cache data that was synced twice can be gone after reopening, its id given to other data. Proved for all other sizes: over any file that knows its length, with any faults; over browser cache files within a session, and through reopening if there is one sync.* Theorems: `C49_history_partial`, `C49_web_session_partial`, `C49_web_once_partial`, `C49_web_refuted`, `C49_panic_refuted`, `C49_lost_refuted`.
* **C50** blob slicing (partial). Blobs as slices of regions of a memory with owners (Blob.v); whole programs of slicing, cloning and dropping against a specification on values. *Refuted in release builds only for a range that starts after usize::MAX; proved for all other ranges, in whole programs. usize has 64 bits here.* Theorems: `C50_programs_partial`, `C50_compose`, `C50_refuted`.
* **C51** is_empty is exact (proved). Canonicity gives both directions. Theorems: `C51_is_empty`.
* **C52** is_leaf reflects the contents (partial). Refuted: inserting the same key twice leaves an allocated empty child list (finding); soundness direction proved. Characterised exactly for trees made by insertions alone. *Refuted: a one-key tree need not be a leaf. Proved: a leaf has at most one key. Also proved (C52_exact_partial): a tree made by insertions alone is a leaf exactly when there was none, or one of a non-empty key.* Theorems: `C52_exact_partial`, `C52_is_leaf_partial`, `C52_is_leaf_refuted`.
* **C53** root prefix is the longest common prefix (proved). Canonicity. Theorems: `C53_prefix`.
* **C54** collecting pairs: last one wins (proved). Fold of C01. Theorems: `C54_collect`, `C54_macro`, `C54_set`.
* **C55** PagedFileStore survives I/O errors (proved). File operations fail at any point, with any part of the write done; invariant of PagedFileProofs.v holds after every failure and reopening. *Same model of faults as C38.* Theorems: `C55_io_errors`.
* **C56** saved trees on a PagedFileStore survive crashes (proved). Paged file store with faults and crashes satisfies the weak store contract; any history of trees (World.v) is durable. *End to end over the file model: serialization, paged file, faults and reopening. Reads made by trees are taken without I/O errors (failing reads are C34). Histories are those of World.v (history_ok).* Theorems: `C56_lawful`, `C56_durable`.
* **C57** nodes share memory safely (proved). Programs on a heap of reference counted cells against programs on plain values; ghost map from addresses to values, counts equal the number of pointers. *For every program that is valid on values (f_run succeeds) the run on reference counted memory succeeds, without undefined behaviour, and shows the same values. Programs that panic are not covered after the panic (unwinding is not modelled).* Theorems: `C57_values`, `C57_clones_independent`.
* **C58** dropped trees free their memory (partial). Same invariant; after dropping all variables only forgotten pointers remain. *Refuted: canonicalize overwrites an empty children vector without dropping it, so each removal that empties a node leaks one allocation. Proved: nothing else is ever leaked, exactly as many references as canonicalize forgets; also for programs of API calls on trees, of which those that never delete an entry leak nothing.* Theorems: `C58_all_freed_refuted`, `C58_freed_partial`, `C58_freed_all_partial`, `C58_leak_refuted`, `C58_trees_freed_refuted`, `C58_trees_leftover_partial`, `C58_trees_freed_partial`.
* **C59** saved trees on a browser cache file survive faults (proved). Append only use of a cache file as a blob store; weak contract; durability as in C56. *The blob store over one cache file, used through append and reopening; proved by the weak contract of blob stores of C56.* Theorems: `C59_lawful`, `C59_durable`.
* **C60** trees saved on a paging file survive (partial). Paging file over any file below; weak contract. *Partial as C49: trees writing blobs of the sizes that panic are counted as refused; on browser cache files one sync at the end.* Theorems: `C60_lawful_partial`, `C60_durable_partial`, `C60_web_durable_partial`.
* **C61** blobs keep their memory alive and release it (proved). Counts of owners in Blob.v; released exactly when the last blob is dropped. *Owners are the memory itself (Arc<Vec>, Arc<[u8; N]>); owned_new with another owner is a promise by the caller. Blob is declared Send and Sync though its owner need not be; threads are not modelled.* Theorems: `C61_memory`.
* **C62** A file system in the browser cache keeps files apart (partial). Directories share one list of caches, files share the cache of their directory by name; simulation by one file with its own cache per name (WebFsSim.v). Histories that delete open directories are simulated by histories in which the deletion comes after the next restart (WebFsStale.v). *Refuted in general: C62_stale_refuted and C62_lost_refuted (deleting an open directory), C62_name_refuted (a question mark in a file name). Proved for names without question mark: exactly as stated for histories that delete directories only before opening them, and for all histories with the behaviour that the code has, that a directory deleted while open stays until the next restart (C62_any_history_partial). Errors are always allowed for reads (see C47 for when lengths shrink). C62_restarted: at every restart the file system is exactly as after a history that deletes no open directory.* Theorems: `C62_history_partial`, `C62_read_your_writes_partial`, `C62_stale_refuted`, `C62_lost_refuted`, `C62_name_refuted`, `C62_any_history_partial`, `C62_any_read_your_writes_partial`, `C62_restarted`.
* **C63** Calls on the browser file system are linearizable (proved). Threads send commands over a channel to one loop; interleaving semantics; every run has the results of the sequential run in the order the loop took the commands. *The panic of a command is modelled as ending the loop; its caller and later callers get an error or wait.* Theorems: `C63_linear`, `C63_contents`, `C63_progress`, `C63_any_contents`.
* **C64** SQLite database files read back what was written (partial). The calls of vfs.rs as clients of the file system model; for page-wise writes, a projection of histories of the file system to the chunks of one file (WebFsFile.v) and a count of overwrites per page. *Refuted: rewriting an earlier page shrinks the length (C64_size_refuted). Proved: whatever is read are bytes of the file; for a file written page by page, in any history of the file system that does not delete its own directory while it is open, exactly what the size is and where reads are cut (C64_pages_partial), and exactly when the size is right (C64_last_page_partial).* Theorems: `C64_read_partial`, `C64_size_refuted`, `C64_pages_partial`, `C64_last_page_partial`.
* **C65** Blobs and trees in a file of the browser file system are kept (proved). Blob store over SyncFile on the whole file system, with other commands in between; weak contract. *The whole stack: tree, blob store, command loop, directory, file, cache entries. Reads have no fault and reopen the file when it is not open; blobs of 2^31-4 bytes and more (impossible slices on wasm32) count as refused; other threads may do anything, including deleting other directories, open or not; only the file's own directory is not deleted.* Theorems: `C65_blob_kept`, `C65_lawful`, `C65_durable`.
* **C66** Iterators are safe snapshots in memory (proved). Iterators added to the heap programs of C57; an iterator is a pointer to a vector plus the elements it saw when made; reading is undefined unless they are still there. Counts make them unchanged, since [get_mut] copies shared vectors. *Memory level model with reference counts and raw pointers; a read through a raw pointer whose vector was freed or changed is Undefined. Iterators over nodes in a store and GroupBy are not in this model (Iter.v models them as values).* Theorems: `C66_values`, `C66_freed`, `C66_snapshot`, `C66_listing`.
* **C67** A failed in-place operation leaves a usable tree (partial). InPlace.v repeats the in-place operations so that they return the tree together with the outcome; C67_agree shows both versions agree. For failures an invariant weaker than the canonical form (ordered children with non-empty edges) and a relation "old, new or lost" between the lookups is carried through the recursion (InPlaceProofs.v), parameterised by what the vector builder keeps; get and iter are proved on such trees (WeakFind.v, WeakIter.v). *The tree stays readable (get and iteration) in all cases. No key is lost, up to the key whose values the closure failed for, if InPlaceVecBuilder keeps the unprocessed rest of a vector when it is dropped; if it drops it, other keys are lost (refuted). Missing: (later modifications and the other queries are property C81) trees with keys stored as blobs only for insertion; iterators other than iter.* Theorems: `C67_agree`, `C67_insert_partial`, `C67_insert_retry_partial`, `C67_remove_partial`, `C67_combine_partial`, `C67_prefix_partial`, `C67_atomic_refuted`, `C67_insert_loss_refuted`, `C67_combine_loss_refuted`.
* **C68** Storing a tree succeeds (proved). A store is described by how many writes up to which size it accepts (AcceptSpec.takes). By induction on the tree, serialize makes at most three writes per node, each field of a record has at most 128 bytes and a node at most 256 children; a canonical tree with n entries has at most 2n+1 nodes (AcceptProofs.v). The paged store is shown to accept by the theorem about single writes behind C36 and C55 (AcceptTop.v). *The number of writes is bounded by 6 per entry plus 4, the size of a block by 98304 bytes (256 children with three fields of at most 128 bytes). C68_small_page_example: with pages of 4096 bytes a tree of 64 short entries is refused, so the bound on the page size is not an artefact.* Theorems: `C68_attach`, `C68_reattach`, `C68_mem_store`, `C68_paged_attach`, `C68_paged_reattach`.
* **C69** Clones of trees are independent in memory (proved). The in-place operations and the joins that make a new tree are modelled again on the heap (HeapTree.v). A simulation by induction on the steps shows that each refines the operation on values, keeps what is borrowed and what others own, and owes to memory only vectors that canonicalize forgets (HeapBorrow.v, HeapMerge.v, HeapTreeOps.v, HeapTreeRec.v, HeapTreeOuter.v, HeapJoinPure.v, HeapJoin.v); then an invariant over programs (HeapTreeTop.v). *In-place operations and the operations that make a new tree (joins, filter_prefix) on the memory model of C57, refining the operations on values of Combine.v; programs that Rust rejects (use of a dropped variable, a tree combined in place with itself) are excluded by m_step, retain_prefix_with and filter_prefix where C08 and C04 exclude them by may. Closures that panic and nodes on a store are not covered.* Theorems: `C69_values`, `C69_clones_independent`.
* **C70** Saving is incremental (proved). The store is wrapped with a counter of writes. The blocks that serialize would write for a tree are counted by a function on the tree (CostProofs.dirty: parts already stored count nothing); each operation of a history is shown to raise it by an amount that depends on its argument only, by induction along the recursion of each combine with the sum of the edges of the second operand as measure (CostProofs.v, CostTop.v). *C70_writes bounds every history by an account kept next to it (CostSpec.book), C70_resave and C70_load_save are the bound for one tree between two saves. Counted are calls of BlobStore::write; the bytes per block are not (a block with children holds all records of one node, C68 bounds it). For a tree that was filtered by prefix the account adds one block.* Theorems: `C70_writes`, `C70_resave`, `C70_load_save`.
* **C71** Calls on an attached tree read only what they need (proved). A call is modelled as a function of the reading function of the store (as everywhere in the model). The theorem: for every attached tree there is a list of block ids, with the stated bound on its length, such that for every reader that agrees about these ids the call converges to the same outcome. Proof: the dependency of each internal function is bounded by induction over the recursion (LazyProofs.v for search and the in-place merges, LazyIter.v for the iterators), against the represented tree; the sizes of subtrees are bounded by the number of their entries. *The bounds count loads of blocks, each of which is a call of read of the store; a block that is needed twice is counted twice. The values found are included. Not covered: values() and group_by (which visit the whole tree), the combines that return a new tree, and combines whose second tree is attached.* Theorems: `C71_lookup`, `C71_update`, `C71_combine`, `C71_first_last`, `C71_scan`, `C71_iterator`.
* **C72** Threads that share a store do not disturb each other (proved). ThreadsSpec.v: the store as one thread experiences it, with the writes of the others interleaved at every access, and logs of all writes in lock order. That store is lawful, so every theorem on histories applies to it; what is written stays readable in every later state of the shared store. *Each store call is atomic under its lock; a thread is a history of API calls over the store as that thread sees it (others write in between; reads see any moment in between). Trees that are moved or shared between threads as values are immutable from the point of view of other owners (C66, C69); loading an id another thread saved is covered by C72_shared.* Theorems: `C72_progress`, `C72_shared`.
* **C73** Trees can be combined wherever they live (partial). Generic join theorems (WithProofs, PrefixProofs, JoinProofs) with two independent readers, the detaching converter for outer; panics allowed for borrowed nodes. Panic-freedom for a second tree in memory; a witness of panics otherwise. *In-place and out-of-place operations and predicates return the right result or panic, for all placements of the two trees (tree_of). With a second tree in memory outer and inner in place always succeed; left, remove_prefix_with and retain_prefix_with too unless the first is attached in a debug build. "No such call panics" is refuted: with an attached second tree each in-place operation can panic (todo!() in TreeNodeRef::clone_shortened). Missing: attached trees with keys too long to be stored inline; combining with IdentityConverter across two stores (private in the code).* Theorems: `C73_in_place_partial`, `C73_new_partial`, `C73_second_in_memory`, `C73_second_attached_refuted`.
* **C74** Calls on browser files succeed when the browser works (proved). Lock-step simulation of a file with its own cache by one that shares it (WebFsAccept.v), on top of an induction over the plans of add and truncate with a bound on the bytes they write (WebAccept.v). *File level and command level (after any history, also one that deletes open directories), with the exact result of each call; reads of one file are C45_read_accepted_partial and here; length-prefixed loads are C65. Which files are open is determined by the results (C74_open). Missing: sizes from 2 GiB on (where slicing in the browser fails), and a level counter that reached 2^64.* Theorems: `C74_file`, `C74_commands`, `C74_open`.
* **C75** Paging files accept data when the file below works (proved). On top of the invariant of C49: no step of open, sync and append can return an error but the calls on the file below, which do not fail in good states (PagingAccept.v). *For any file below that is usable (PagingUsable.v), and for files in the browser cache when the browser works and the data of the file ends below 2^31. Blobs of ps - 11 (or ps - 8) to ps - 4 bytes are the refuted cases of C49.* Theorems: `C75_paging`, `C75_web`.
* **C76** Trees can be stored in browser files (proved). A file that was only appended to gets each append as one new chunk, so the space taken is known; the store then accepts any number of writes that fit (WebTakes.v), and C68 gives the rest. *For a single file and for a file of the file system. The room asked for is writes_max n blobs of b + 4 bytes each, b at least 98304. Not covered: paging files (appends to them are C75).* Theorems: `C76_file_attach`, `C76_file_reattach`, `C76_attach`, `C76_reattach`.
* **C77** Synced blocks survive power failures (partial). A machine whose file has a set of versions seen since the last flush; a power failure picks length, size field and every byte from any of them. The store invariant (which no longer needs the file to be as long as its size field says) holds for whatever remains, restricted to the flushed blocks; induction over what happens. sync is refuted by a witness in which only the first page of the file reached the disk. *Refuted for sync (it is a no-op). Proved for blocks written before a flush of the file made by its owner through another handle: they survive any number of later power failures that undo, byte by byte, any of the later changes.* Theorems: `C77_flushed_partial`, `C77_sync_refuted`.
* **C78** What is saved depends only on the contents (proved). Trees in memory with equal contents have the same logical shape (canonical form, Canon.v), and serialization reads only that shape; so attached and reattach run the same computation in the store monad, for any store. *Includes failing stores: the store is any pair of a read and a write function over any state.* Theorems: `C78_saved_form`.
* **C79** Space is linear in the contents (proved). Induction over canonical shapes: an inner node without value has at least two children, so nodes are fewer than twice the entries; edges and depth are bounded through the listing of the entries. *shape_of lists every node that exists in memory, also ones a lookup would never reach.* Theorems: `C79_space`.
* **C80** Tidying up browser files loses nothing (proved). Model open and get_file_range with range sets as normalised lists (WebOpen.v). Invariant of the loop: the chunks that are not yet looked at are below all others, the others are disjoint and cover exactly the set of covered positions; each deletion is hidden by a higher chunk or lies behind the gap (WebOpenProofs.v). Counting positions gives the size. *open and get_file_range are called only by tests in /repo; the theorem runs the plan with execute_plan, as add and truncate plans are run. RangeSet of the crate range_collections is modelled as a sorted list of ranges that do not touch (WebOpen.v); the plans of the tests in /repo are checked on the model (open_tests).* Theorems: `C80_tidy_safe`, `C80_tidy_succeeds`.
* **C81** Trees keep working through failing operations (partial). InPlace.v models the operations with the states they leave behind. SurviveSpec.v: inductive set of trees closed under attempts. Invariant: the node represents a trie with sorted children and non-empty edges, nothing about values (WeakFind.v, WeakJoin.v, WeakWith.v for success, WeakMid.v for failure, WeakRead.v for queries); mutual induction in Survive.v. WeakNew.v and WeakPred.v do the same for the combines that build a new tree and the predicates; that a failing closure makes them fail follows by running the same operation with two total closures that differ only where it fails (SurviveMore.v). *Operations: proved for all histories of the eight in-place operations and filter_prefix, with flaky readers and closures, trees in memory or stored (keys stored inline), the other tree possibly used too; success gives exactly the specified contents, errors only when something failed, panics only where a stored tree is involved (findings 6 and 7). Queries: get, iter, contains_key, values, filter_prefix are right, scan_prefix as in C08, has_prefix only in one direction; refuted for first_value/first_entry and has_prefix: a failing closure leaves a node without value and without children behind, so first_value can be None although there are entries and has_prefix true although there are none. Saving: such trees in memory can be attached, reattached, loaded and detached with their contents; stored ones can be detached. New trees: outer, inner and left combines of two such trees give exactly the specified contents or, only if a read or a closure call fails, an error (in memory: exactly if the closure fails for some common key), and their results count as such trees again. inner_combine_pred is right for such trees in memory; left_combine_pred never misses an entry but can answer true for a branch without entries, refuted as an exact test. group_by with a total predicate gives trees that can be used further and together hold the contents in order; which entries go into which group is proved only for trees no operation failed on (C11); a group can be empty here.* Theorems: `C81_keeps_working`, `C81_queries_partial`, `C81_groups`, `C81_joins`, `C81_join_fails`, `C81_preds_partial`, `C81_subset_refuted`, `C81_saved`, `C81_detached`, `C81_first_refuted`, `C81_has_prefix_refuted`.
* **C82** Merging is independent of order (proved). MergeSpec.v: merge plans over a family of trees and their execution. By induction on the plan the result holds the pointwise sum (C12, C13, C17, C18); the sum is a fold with a commutative and associative operation on optional values, hence invariant under permutation (and under repetition if idempotent). The saved form follows with C78. *Trees in memory; the combining function is total (never drops a key): with one that drops keys the order matters even for plain maps.* Theorems: `C82_order`, `C82_again`, `C82_keys`.
* **C83** Reading stored nodes stays within the block (proved). Raw.v models borrowed nodes as addresses with headers over a partial memory, where reading outside is undefined behaviour. Refinement of the byte string functions of Node.v: field by field, then for the iterator by induction on the calls with the invariant that the offset is within the block. *Addresses are unbounded numbers; that the block stays mapped while nodes point into it is C61 (lifetimes are checked by the compiler). Rust aliasing rules (a slice of several bytes made from a reference to one byte) are not modelled.* Theorems: `C83_iterator`, `C83_load`.
* **C84** Values taken from a tree stay valid (proved). get is modelled on the heap of C57 (HeapTree.v); it refines the lookup on values and gives a counted reference (HeapFind.v); then the invariant over programs of C69. *On the memory model of C57 and C69. Iterators that hand out values are not covered.* Theorems: `C84_values_stay`.
* **C85** Questions to trees that share memory (proved). Model the questions on the heap of HeapTree.v (HeapAsk.v), with the temporaries they drop, and add conditional instructions to the programs; refine the questions on nodes as values (C03, C04, C15, C16, C51). *C85_questions: the answer and the state of all variables afterwards, on reference counted memory.  [has_prefix] of the empty prefix is excluded on an empty tree (C04).  Programs that branch on answers are covered by C69_values, and that the temporaries are freed by C58_trees_freed_partial and C58_trees_leftover_partial, whose programs include such branches.* Theorems: `C85_questions`.
* **C86** Grouping shares memory safely and is a snapshot (proved). Model GroupBy on the heap of HeapIter.v (HeapGroup.v); an iterator over groups means the list of the trees it has still to give (HeapGroupSpec.v); refine with the invariant of C66, and show that the list is what group_by gives by value (C11). *C86_values, C86_freed and C86_snapshot are about HeapGroup.v, which adds GroupBy to the memory model of Heap.v and HeapIter.v; C86_grouping links the groups to the map of a reachable tree (C11). The predicate is a function of the path and the value.* Theorems: `C86_values`, `C86_freed`, `C86_snapshot`, `C86_grouping`.
* **C87** The whole in-memory API at once behaves like plain maps (proved). Model programs over trees, iterators, groups, keys, blobs and values together on the heap (HeapWhole.v), with the reads not yet modelled on memory: first and last value and entry, scan_prefix, to_owned_blob. State what they mean on maps and lists (HeapWholeSpec.v). Generalise the invariant of C69 to hold beside iterators and keys, and join it with those of C66 and C86. *Programs (w_run, HeapWhole.v) run on reference counted memory where a read of freed memory is Undefined; the meaning (w_runs, HeapWholeSpec.v) has a map for each tree and a list for each iterator. C87_values: no undefined behaviour or panic, and all that the program has and reads agrees. C87_determined and C87_defined: the meaning is a function and is never stuck as long as the program uses what is there. C87_leftover and C87_freed: what is left in memory after all is dropped. C87_snapshot: iterators. Left out are uses of filter_prefix, has_prefix and retain_prefix_with that C04, C10 and C20 refute; scan_prefix is given with the keys it really has (C08).* Theorems: `C87_values`, `C87_determined`, `C87_defined`, `C87_leftover`, `C87_freed`, `C87_snapshot`.
* **C88** Closures that panic inside combines and in-place operations leave memory sound and all trees usable (proved). Model the in-place operations and the combines into new trees on the heap once more, with closures that may panic and what unwinding drops and keeps (HeapFail.v). State on maps what a panicking call may leave (HeapFailSpec.v). Refine the failing operations by value (InPlace.v, C67; Combine.v, C81), whose trees need not be canonical, with the invariant of C66. *Closures that panic inside the in-place operations and the combines that make new trees, on the reference counted memory of C65/C69, for both behaviours of the vector builder (its crate is not in /repo). Panics of other calls, panics in the closures of inner_combine_pred and left_combine_pred, and attached trees are not in these programs (C67, C71, C81 have the values that failing stores leave).* Theorems: `C88_values`, `C88_scoped`, `C88_determined`, `C88_others`, `C88_leftover`.
* **C89** Damaged stores: no panic outside four kinds of damage, and lookups end (proved). Call a record tolerable if its edge, value and children fields do not lead to a panic by themselves, close this under following children ids with a set of ids (so cycles are allowed), and prove that every reading and changing operation preserves it and never panics (DamageProofs.v). For each exception a store on which the operation panics (DamageExamples.v). *The store is any function from ids to bytes or errors (within one call; C34 and C81 are about stores that fail now and then). Not included: reattach and combines that make new trees of damaged trees, combines with another attached tree (todo!(), finding 6), and changes in debug builds, where canonicalize panics on attached trees anyway (C29).* Theorems: `C89_no_panic`, `C89_loaded`, `C89_lookups_end`, `C89_edge_panics`, `C89_children_panic`, `C89_blob_panics`, `C89_endless`.
* **C90** A tree database in a file of the browser file system, while other threads use it (proved). Make the file system with its threads, faults and restarts a file below a paging file (sync_dev, SyncDev.v): before each call of the paging file any events of others happen. Carry the invariant of C52/C62 for the one file through these events (SyncDevProofs.v), so that it satisfies the interface of C49, and instantiate the theorems on paging files and trees (SyncTop.v). *The number of events altogether is taken to be less than 2^64, and no file reaches 2^63 bytes. Others may delete other directories, open or not, but not the directory of the file while the paging file is used: see finding 11 for what a stale directory does.* Theorems: `C90_session`, `C90_once`, `C90_lawful`, `C90_durable`.
* **C91** The browser's test program counts right, with every tree and every fault (proved). Model do_test and tree_test_sync statement by statement over the models of the tree, the paging file and the file system (BrowserMain.v). The attached tree is represented in every reader that knows what was written (as for C43), a sync keeps the blobs of the session (C49, C90), so all four traversals see the entries of the collected tree (BrowserMainProofs.v). For success the acceptance proof of C68 is done for a budget that counts writes and bytes, and the empty file of a fresh browser cache has it (SyncAccept.v, BrowserAccept.v); the decimal numbers are different and short (Decimals.v). *The theorems are for arbitrary pairs and names; C91_two_million is the program with its own. Success is proved when no browser operation fails and the files stay below 2^63 bytes; otherwise an error is allowed. A blob within a few bytes of the page size counts as refused by the paging file, while the code panics or loses it (C49); the program's own data has no such blob. Reading does not change the store in the model (the pages that are read stay in the paging file in the code).* Theorems: `C91_program`, `C91_succeeds`, `C91_two_million`, `C91_any_store`, `C91_accepted`.
* **C92** Files opened with different page sizes, and page sizes that do not work (partial). Histories of calls in which every opening chooses a page size; the invariant of the paged store without the list of writes holds for each page size in turn, and separately the blobs up to the size in the header are kept by every call. The page sizes that do not work by computation, the one above 2^32 symbolically. *C92_sizes is the positive part for histories with arbitrary page sizes. Refuted: reading with another page size may fail (C92_other_size_refuted), page size 0 is accepted and every read and write then panics (C92_zero_refuted), page sizes above 2^32 lose the high bits of lengths (C92_large_refuted).* Theorems: `C92_sizes`, `C92_other_size_refuted`, `C92_refused`, `C92_zero_refuted`, `C92_large_refuted`.
* **C93** Loading a record by its position in a file of the browser file system (partial). Two invariants of one file over any history of the file system (with the equivalence for deleted open directories of C64): the record is one chunk of some level and all other chunks are before or after it, kept by plans that write elsewhere even if they fail; and the chunks do not overlap, kept by plans that succeed. Loading is then the contents, by the lemma on the loading loop. The refuted parts by computation. *C93_kept_partial and C93_bytes_partial are the positive parts. Refuted: loading in a hole or at the end panics and ends the file system's loop (C93_hole_refuted, C93_end_refuted), records written in pieces cannot be loaded (C93_pieces_refuted), after a write that failed while cleaning up loading and reading differ (C93_torn_refuted).* Theorems: `C93_kept_partial`, `C93_bytes_partial`, `C93_hole_refuted`, `C93_end_refuted`, `C93_pieces_refuted`, `C93_torn_refuted`, `C93_large_refuted`.
* **C94** What printing a tree shows (proved). Model the printed lines and whether the call failed (Dump.v). Trees in memory: the text is a function of the plain tree the node stands for, injective by a unique-decomposition argument on the indentation; canonical trees are determined by their contents. Attached trees: induction over the plain tree. Failing reads: the text with a flaky reader is a first part of the text without. *The text without the reference counts that owned nodes append to some lines; these depend on what else shares the nodes.* Theorems: `C94_memory`, `C94_same`, `C94_attached`, `C94_failing`.
* **C95** Walking a tree group by group ends and shows the shape of the keys (proved). Model the recursion of `examples/dump.rs` on top of the model of `group_by` (Walk.v). Show that each group is a leaf or has a longer prefix, so that the recursion ends by induction over the size of the tree, and that the lines are the nodes of the canonical tree, which are the forks of the keys. *walk: the recursion of examples/dump.rs, with the groups of the model of group_by; the text that Debug makes of prefix and value is not part of the claim. The lines printed before a panic are not modelled, but there is no panic. C54_set: the macro radixtree! with keys only.* Theorems: `C95_walk`, `C95_own_group`.
* **C96** Combining trees in place equals a loop of single calls (proved). Model the loops over the entries that `iter` yields (Bulk.v). Show by induction over the entries, whose keys differ, what the tree holds after the loop, compare it with what the join gives, and use that trees with the same contents are saved as the same bytes (C78). *Outer, left and inner for trees in memory, all closures. C96_union: the union with a tree in memory also for a first tree in a store (lookups; there the bytes saved are not compared). The loops read the value with get, and store the outcome with insert or remove.* Theorems: `C96_outer`, `C96_left`, `C96_inner`, `C96_union`, `C96_outer_stored`, `C96_left_stored`.
* **C97** A tree taken apart can be put together again (proved). Show that collecting a listing without repeated keys holds the listed map, that each group's own iterator yields its part of the entries of the whole, and that two trees in memory with the same contents are alike (canonical shape, C78). Compare with detaching for stored trees. For the split at a prefix, show that each key is in exactly one of the two parts. *In memory and in stores; the split at a prefix is for trees in memory, moving a part for parts that are not empty (see finding 3 for empty ones).* Theorems: `C97_collect`, `C97_collect_stored`, `C97_groups`, `C97_groups_stored`, `C97_split`, `C97_move`, `C97_move_stored`.
* **C98** What the directory example prints (partial). Model the program as a call of group_by with a closure that may panic (Dirs.v). Use the characterisation of groups by forks (C11): all forks lie below the first one, so the predicate is decided there, for the whole tree. *Refuted as wished; what the program prints is characterised for all depths.* Theorems: `C98_dirs_apart_refuted`, `C98_one_line_partial`, `C98_each_line_partial`, `C98_deep_refuted`.
* **C99** When a tree is flushed does not matter (proved). Model the loop of the example with the steps as a parameter (Fill.v). Show that it is a history of the kind of C26 with one tree, so that the theorem about histories applies; then compute the map that this history should give. *The loop of examples/large_tree.rs for any entries and any times of flushing. Its keys are the subject of C100; the printing is not modelled.* Theorems: `C99_fill`, `C99_flush_times`.
* **C100** Numbers in words as keys (partial). Model the three functions over Z with indexing that panics (Words.v). Split a name at spaces, hyphens and commas and evaluate the words from left to right: the value is the number, so names are different. The names of the 1000 groups are checked by computation, all of them; the loop over the groups by induction. For the tree use C99. *Refuted from a trillion on (the list of big names ends at billion); proved below, and for the tree filled with such keys. The least i64 is not modelled.* Theorems: `C100_named_partial`, `C100_apart_partial`, `C100_named_refuted`, `C100_tree`.

## Findings

Behaviour of the code that contradicts the natural property. Those with a theorem name are proved on the model.

1. `==` compares only slices: `{"" => ""} == {}` (`C24_equality_true_refuted`).
2. `==` can be false on equal contents: an empty children vector differs from no children; for the same reason `is_leaf` can be false on one key (`C24_equality_false_refuted`, `C52_is_leaf_refuted`).
3. `has_prefix("")` is true on the empty tree (`C04_has_prefix_refuted`); `filter_prefix("", s)` of an empty tree returns a node with an edge and nothing below it, on which `has_prefix(s)` is true (`C04_has_prefix_after_filter_refuted`); after a key is inserted into that tree, `first_value` and `first_entry` may find nothing (`C10_first_after_filter_refuted`).
4. `scan_prefix` repeats the edge of the node at which the prefix ends (`C08_scan_prefix_refuted`).
5. `retain_prefix_with`: a rejected prefix hides selected prefixes below it (`C20_retain_prefix_with_refuted`).
6. Combines that build new trees reach `todo!()` on attached trees (`C31_*_refuted`), in-place ones if the second tree is attached, even when the first is in memory (`C73_second_attached_refuted`).
7. Removing from an attached tree: `canonicalize` asserts that children are loaded and panics in debug builds (`C29_remove_debug_refuted`); in release builds merging with an edge stored as an id (128 bytes and more) corrupts keys (`C29_remove_release_refuted`).
8. `try_load` of malformed bytes: `00 80 00` panics (`C33_decode_refuted`), `80 80 80` loads and panics at the first lookup (`C33_later_refuted`).
9. PagedFileStore: a crash between closing a page and appending leaves `last_id` on a page boundary, which cannot be read (`C39_refuted`); ids whose length is not 8 panic, 0 and ids near 2^64 panic in debug builds (`C41_refuted`). A page size of 0 is accepted and panics later (`C92_zero_refuted`); lengths are truncated to 32 bits for page sizes above 2^32, so that a blob of 2^32 bytes is read as an empty one (`C92_large_refuted`); a file opened with another page size than before gives errors for some of the ids (`C92_other_size_refuted`). Not theorems: the assertion `id % 1024 > 4` never fires; there is no fsync; blobs above page size - 8 are refused, and with them trees in which one node has many children: 64 keys of one byte with values of 100 bytes cannot be stored with pages of 4096 bytes (`C68_small_page_example`).
10. WebCacheFile: the length is taken from the last chunk in the order (level, offset, length). After a write into the first of two chunks the second cannot be read (`C45_refuted`), `length` shrinks and `append` overwrites (`C47_length_refuted`, `C47_append_refuted`); after `truncate` a second append overwrites the first (`C47_append_refuted`). `truncate` is not atomic (`C48_truncate` says what is left). `load_length_prefixed` panics in holes and at the end, which ends the loop that serves all files (`C93_hole_refuted`, `C93_end_refuted`), fails across chunks (`C93_pieces_refuted`), and misses chunks of higher level that do not touch the four bytes of the length (`C93_torn_refuted`). Blobs from 2^31-4 bytes can be written and not read (`C93_large_refuted`).
11. Browser file system: deleting an open directory leaves its handle in the table (`C62_stale_refuted`, `C62_lost_refuted`); a question mark in a file name breaks the file (`C62_name_refuted`).
12. PagingFile: the size check is too weak. Blobs of page_size-7 to page_size-4 bytes panic (`C49_panic_refuted`), of page_size-8 bytes are lost at once (`C49_lost_refuted`); over a cache file synced data can be gone after reopening and its id reused (`C49_web_refuted`).
13. SQLite: rewriting page 0 after page 1 shrinks the file and page 1 reads as empty (`C64_size_refuted`). Reading past the end passes a reversed range (harmless).
14. `canonicalize` overwrites an empty children vector without dropping it: a leak per removal that empties a node, and one when an empty tree is combined in place with an empty tree (`C58_all_freed_refuted`, `C58_trees_freed_refuted`).
15. `Blob::slice((Excluded(usize::MAX), _))` wraps around in release builds (`C50_refuted`). `unsafe impl Send/Sync for Blob` although the owner is any `Arc<dyn Any>` (not a theorem, threads are not modelled there).
16. An error in the middle of an in-place operation (C67). The value has been replaced although insertion reports an error (`C67_atomic_refuted`). If the closure of a combine fails the value it was called with is lost (`C67_combine_loss_refuted`: the code takes the value out of the node before calling the closure). If `InPlaceVecBuilder` drops its source part when it is dropped early, which is what we remember of that crate but cannot check here, a read error during an insertion deletes sibling subtrees from the tree (`C67_insert_loss_refuted`). A closure that fails leaves a node without value and children behind: `first_value` and `first_entry` can then be `None` although there are entries, and `has_prefix` true although there are none (`C81_first_refuted`, `C81_has_prefix_refuted`). `left_combine_pred`, the subset test, can answer that the left tree has an entry the right one lacks although the left tree has no entries (`C81_subset_refuted`).
17. Not theorems: a value with the header NONE that a combiner returns as `Some` becomes a present empty value; a store that returns empty ids would make values vanish; `set_children_id` drops the old children before the header may panic. `BorrowedBlobRef::bytes` makes a slice of several bytes from a reference to a single one, which the proposed aliasing rules of Rust forbid.
18. `PagedFileStore::sync` does nothing (the trait says "Ensure all data is persisted") and the file is never flushed to the disk (`commit` calls `File::flush`, which has no effect). After a power failure a block that was written before a successful `sync` may be read as other bytes, without an error (`C77_sync_refuted`).
19. Damaged stores: after loading has succeeded, a record with an edge header 0x80 or with children data, and an empty blob of children, panic at the first operation that comes across them instead of giving an error (`C89_edge_panics`, `C89_children_panic`, `C89_blob_panics`); a long edge that is stored as an empty blob makes lookups loop for ever if its node is its own child (`C89_endless`).
20. examples/filesystem.rs groups by a predicate that is the wrong way round: it prints its whole tree on one line (`C98_dirs_apart_refuted`).
21. `number_to_words` of examples/large_tree.rs panics for every number from a trillion on, as `BIG_NAMES` ends at billion (`C100_named_refuted`). The example itself stops at a million.

## What is not modelled

* Debug output apart from what `dump` prints of blobs, the reference counts in the text of `dump`, `downcast`, util.rs apart from `Hex`, conversions between error types, tests, and examples other than dump.rs, filesystem.rs and the comparison in bulk_union.rs.
* The contents of errors (only that there is one).  What a failed in-place operation leaves behind is modelled separately (InPlace.v, C67).
* Unwinding after a panic, except of closures that panic inside the in-place operations and combines (HeapFail.v, C88).
* Heap.v and HeapIter.v: nodes in a store (`BorrowedTreeNodeIter` keeps its buffer in a Blob, see C61); the combine operations are there as sequences of the node operations, not as recursive functions.  HeapGroup.v: a predicate sees the path and the value of a node, no other fields.  HeapTree.v: iterators, `GroupBy` and the reads of single values (in HeapIter.v, HeapGroup.v and HeapWhole.v).  HeapWhole.v: nothing else of the in-memory API; a program has one thread.
* Weak memory; two threads using one tree, as opposed to one store (trees are `Send + Sync` through `Arc`, all mutation needs `&mut`).
* Dead code in web_cache_fs.rs: `retain_relevant` 559-590, `WebCacheFile::load` 410-415, `mk_chunk` 417-431 and the function `delete` 523-533 (never called).
* Rust code generated by the compiler (layout, `transmute` of lifetimes) beyond what Heap.v says.

## Testing the theorems

`seeded/LOG.jsonl` has one line per edit of the model that a realistic bug would make, the claim it breaks and the theorems that no longer hold. The edits were made in scratch copies; lemmas that failed were admitted there, and a property theorem counts as failed when its `Print Assumptions` is no longer closed.

{
 "claims": [
  {
   "property": "C01",
   "status": "proved",
   "theorems": [
    "C01_insert"
   ],
   "note": ""
  },
  {
   "property": "C02",
   "status": "proved",
   "theorems": [
    "C02_remove"
   ],
   "note": ""
  },
  {
   "property": "C03",
   "status": "proved",
   "theorems": [
    "C03_contains_key"
   ],
   "note": ""
  },
  {
   "property": "C04",
   "status": "partial",
   "theorems": [
    "C04_has_prefix_partial",
    "C04_has_prefix_refuted",
    "C04_has_prefix_after_filter_refuted"
   ],
   "note": "Refuted as stated: has_prefix(\"\") on the empty tree, and has_prefix(s) after filter_prefix(\"\", s) on the empty tree. Proved for every other case."
  },
  {
   "property": "C05",
   "status": "proved",
   "theorems": [
    "C05_remove_prefix"
   ],
   "note": ""
  },
  {
   "property": "C06",
   "status": "proved",
   "theorems": [
    "C06_iter"
   ],
   "note": ""
  },
  {
   "property": "C07",
   "status": "proved",
   "theorems": [
    "C07_values"
   ],
   "note": ""
  },
  {
   "property": "C08",
   "status": "partial",
   "theorems": [
    "C08_scan_prefix_partial",
    "C08_scan_prefix_values_partial",
    "C08_scan_prefix_refuted",
    "C08_exact_partial"
   ],
   "note": "Refuted as stated: when the keys of the tree fork at the prefix, the last edge is repeated in the yielded keys. Proved exactly for the other prefixes. C08_exact_partial says for every prefix exactly which keys are yielded, in memory and in stores. Missing: the right keys at forks, where the statement is false."
  },
  {
   "property": "C09",
   "status": "proved",
   "theorems": [
    "C09_filter_prefix",
    "C09_filter_prefix_reachable"
   ],
   "note": "Contents proved for all cases; the result of filter_prefix(\"\", s) on an empty tree is not a well-formed tree (see C04)."
  },
  {
   "property": "C10",
   "status": "partial",
   "theorems": [
    "C10_first_last",
    "C10_first_after_filter_refuted"
   ],
   "note": "Refuted for trees made by filter_prefix(\"\", s) on an empty tree, s not empty (excluded from the reachable trees): after inserting another key, first_value and first_entry find nothing."
  },
  {
   "property": "C11",
   "status": "proved",
   "theorems": [
    "C11_groups",
    "C11_group_by"
   ],
   "note": ""
  },
  {
   "property": "C12",
   "status": "proved",
   "theorems": [
    "C12_outer_combine"
   ],
   "note": ""
  },
  {
   "property": "C13",
   "status": "proved",
   "theorems": [
    "C13_inner_combine"
   ],
   "note": ""
  },
  {
   "property": "C14",
   "status": "proved",
   "theorems": [
    "C14_left_combine"
   ],
   "note": ""
  },
  {
   "property": "C15",
   "status": "proved",
   "theorems": [
    "C15_inner_combine_pred"
   ],
   "note": ""
  },
  {
   "property": "C16",
   "status": "proved",
   "theorems": [
    "C16_left_combine_pred"
   ],
   "note": ""
  },
  {
   "property": "C17",
   "status": "proved",
   "theorems": [
    "C17_outer_combine_with"
   ],
   "note": ""
  },
  {
   "property": "C18",
   "status": "proved",
   "theorems": [
    "C18_inner_combine_with"
   ],
   "note": ""
  },
  {
   "property": "C19",
   "status": "proved",
   "theorems": [
    "C19_left_combine_with"
   ],
   "note": ""
  },
  {
   "property": "C20",
   "status": "partial",
   "theorems": [
    "C20_retain_prefix_with_partial",
    "C20_retain_prefix_with_refuted",
    "C20_any_selector_partial",
    "C20_any_place_partial"
   ],
   "note": "Refuted as stated: a rejected prefix can hide selected prefixes below it. Proved as stated when no selected prefix is below a rejected one. For any selector, proved exactly what is kept: the keys below a selected prefix p such that at every rejected prefix on the way to p the keys of the first tree fork (C20_any_selector_partial in memory, C20_any_place_partial for stored and mixed trees). Missing: the statement itself, which is false."
  },
  {
   "property": "C21",
   "status": "proved",
   "theorems": [
    "C21_remove_prefix_with"
   ],
   "note": ""
  },
  {
   "property": "C22",
   "status": "proved",
   "theorems": [
    "C22_history"
   ],
   "note": ""
  },
  {
   "property": "C23",
   "status": "proved",
   "theorems": [
    "C23_shape"
   ],
   "note": ""
  },
  {
   "property": "C24",
   "status": "partial",
   "theorems": [
    "C24_exact_partial",
    "C24_equality_partial",
    "C24_equality_true_refuted",
    "C24_equality_false_refuted"
   ],
   "note": "Refuted in both directions (empty values; children stored as an empty vector). Proved: equal trees without empty values have the same contents. Also proved (C24_exact_partial): for trees made by insertions alone, without empty values, == holds exactly when the contents agree and the same childless keys were inserted again."
  },
  {
   "property": "C25",
   "status": "proved",
   "theorems": [
    "C25_attach_detach",
    "C25_detached"
   ],
   "note": ""
  },
  {
   "property": "C26",
   "status": "proved",
   "theorems": [
    "C26_load",
    "C26_load_nothing",
    "C26_history"
   ],
   "note": ""
  },
  {
   "property": "C27",
   "status": "proved",
   "theorems": [
    "C27_groups",
    "C27_get",
    "C27_contains_key",
    "C27_has_prefix",
    "C27_iter",
    "C27_values",
    "C27_first_last",
    "C27_scan_prefix",
    "C27_group_by",
    "C27_filter_prefix"
   ],
   "note": ""
  },
  {
   "property": "C28",
   "status": "proved",
   "theorems": [
    "C28_insert",
    "C28_history"
   ],
   "note": ""
  },
  {
   "property": "C29",
   "status": "partial",
   "theorems": [
    "C29_remove_no_stray_partial",
    "C29_remove_panics_partial",
    "C29_present_partial",
    "C29_remove_partial",
    "C29_remove_debug_partial",
    "C29_remove_debug_refuted",
    "C29_remove_release_refuted"
   ],
   "note": "Refuted as stated: panics in debug builds (removing an absent key), corrupts keys over 127 bytes in release builds. Proved, for keys under 128 bytes: release builds always; debug builds for every key that does not leave the tree inside an edge, and on a tree just read back the others are exactly the keys that panic."
  },
  {
   "property": "C30",
   "status": "partial",
   "theorems": [
    "C30_remove_prefix_no_stray_partial",
    "C30_remove_prefix_panics_partial",
    "C30_remove_prefix_partial",
    "C30_remove_prefix_debug_partial",
    "C30_remove_prefix_debug_refuted",
    "C30_remove_prefix_release_refuted"
   ],
   "note": "As C29."
  },
  {
   "property": "C31",
   "status": "partial",
   "theorems": [
    "C31_outer_fits_partial",
    "C31_inner_fits_partial",
    "C31_left_fits_partial",
    "C31_inner_pred_fits_partial",
    "C31_left_pred_fits_partial",
    "C31_same_keys_partial",
    "C31_outer_combine_partial",
    "C31_inner_combine_partial",
    "C31_left_combine_partial",
    "C31_inner_combine_pred_partial",
    "C31_left_combine_pred_partial",
    "C31_outer_left_refuted",
    "C31_inner_refuted",
    "C31_left_pred_refuted"
   ],
   "note": "Refuted as stated: the calls reach todo!() and panic. Proved: whenever they return, the result is right; and they do return when the keys of the two trees line up (in particular when both have the same keys)."
  },
  {
   "property": "C32",
   "status": "proved",
   "theorems": [
    "C32_format",
    "C32_unambiguous",
    "C32_node_round_trip"
   ],
   "note": "Format proved for trees in memory; round trip for single nodes; unambiguity."
  },
  {
   "property": "C33",
   "status": "partial",
   "theorems": [
    "C33_decode_partial",
    "C33_decode_refuted",
    "C33_later_refuted"
   ],
   "note": "Refuted as stated: 00 80 00 panics on load, 80 80 80 on the first lookup. Proved: the exact set of byte strings on which load returns Ok, returns Err and panics."
  },
  {
   "property": "C34",
   "status": "proved",
   "theorems": [
    "C34_reads",
    "C34_mutations",
    "C34_combines",
    "C34_iterators"
   ],
   "note": "Failures are any set of ids whose reads fail (for all readers rd', rd); a read of the same id does not fail once and succeed later within one call."
  },
  {
   "property": "C35",
   "status": "proved",
   "theorems": [
    "C35_mem_store",
    "C35_mem_lawful"
   ],
   "note": "For less than 2^64 blobs (the counter does not overflow)."
  },
  {
   "property": "C36",
   "status": "proved",
   "theorems": [
    "C36_read",
    "C36_ids_increase",
    "C36_accepted",
    "C36_no_panic"
   ],
   "note": "Size: only C36_accepted (a write is accepted) needs that the file stays below 2^63 bytes (hypothesis room); all else holds for any history. File operations are modelled in File.v."
  },
  {
   "property": "C37",
   "status": "proved",
   "theorems": [
    "C37_reopen"
   ],
   "note": "Same page size at every opening. C38 covers reopening after faults."
  },
  {
   "property": "C38",
   "status": "proved",
   "theorems": [
    "C38_crash"
   ],
   "note": "Crash of the process: any prefix of the file operations took effect, the last write torn at any byte (the 8 byte header field is written atomically). Reordering of writes by the operating system at a power failure is not modelled; the code never calls fsync."
  },
  {
   "property": "C39",
   "status": "partial",
   "theorems": [
    "C39_refuted",
    "C39_last_id_no_faults_partial",
    "C39_last_id_partial"
   ],
   "note": "Refuted as stated: a crash after a page was closed and before the next block is written leaves last_id on a page boundary, where nothing can be read. Proved: exact without faults; otherwise on a page boundary or readable as a block passed to some write, and never before an acknowledged write."
  },
  {
   "property": "C40",
   "status": "proved",
   "theorems": [
    "C40_rejected"
   ],
   "note": "In every state of the store."
  },
  {
   "property": "C41",
   "status": "partial",
   "theorems": [
    "C41_refuted",
    "C41_read_any_partial"
   ],
   "note": "Refuted as stated: ids that do not have eight bytes panic, and in a debug build also 0 and ids from 2^64-4096. Proved for all others in every reachable state, also under I/O errors."
  },
  {
   "property": "C42",
   "status": "proved",
   "theorems": [
    "C42_data",
    "C42_id"
   ],
   "note": "Setters and reads over any memory; that clones, moves and all other operations keep fields consistent is C57_values."
  },
  {
   "property": "C43",
   "status": "proved",
   "theorems": [
    "C43_round_trip",
    "C43_distinct",
    "C43_found"
   ],
   "note": "Names of chunks are modelled as byte strings with the hexadecimal printer and parser; that a name of a file survives being part of a URL (spaces, '?', '#', non ASCII characters) is not modelled."
  },
  {
   "property": "C44",
   "status": "proved",
   "theorems": [
    "C44_ranges",
    "C44_ranges_or_error",
    "C44_overlap"
   ],
   "note": "ranges is proved right for all overlapping ranges on a 32 bit target, and to fail with an error, never a wrong result, when a number does not fit."
  },
  {
   "property": "C45",
   "status": "partial",
   "theorems": [
    "C45_contents_partial",
    "C45_read_accepted_partial",
    "C45_refuted"
   ],
   "note": "Refuted as stated (C45_refuted): a write into the first of two chunks makes the second unreadable, since the length is taken from the last chunk in the order of levels. Proved instead, for every history with any faults: reads that succeed return the bytes last written, and reads up to what length() says succeed when the cache works."
  },
  {
   "property": "C46",
   "status": "proved",
   "theorems": [
    "C46_atomic",
    "C46_append_atomic"
   ],
   "note": "For every history of the file and every fault point of the write; the operations of the browser's cache are taken as atomic."
  },
  {
   "property": "C47",
   "status": "partial",
   "theorems": [
    "C47_length_refuted",
    "C47_append_refuted",
    "C47_append_only_partial",
    "C47_pages_partial",
    "C47_last_page_partial"
   ],
   "note": "Refuted as stated: length() is too short after a write into the middle, and append then overwrites data; after truncate a second append overwrites the first. Proved for files that are only appended to, with faults and reopenings. For files written one whole page at a time, with faults, cuts at page ends and reopenings, the length is characterised exactly: it is the end of the last of the pages overwritten most often (C47_pages_partial), so it is right iff no page was overwritten more often than the last one (C47_last_page_partial). Missing: an exact length for writes of other shapes."
  },
  {
   "property": "C48",
   "status": "proved",
   "theorems": [
    "C48_truncate"
   ],
   "note": "Also says what remains if truncate fails half way; it is not atomic."
  },
  {
   "property": "C49",
   "status": "partial",
   "theorems": [
    "C49_history_partial",
    "C49_web_session_partial",
    "C49_web_once_partial",
    "C49_web_refuted",
    "C49_panic_refuted",
    "C49_lost_refuted"
   ],
   "note": "Refuted as stated: blobs of page_size-7 to page_size-4 bytes panic, of page_size-8 bytes are lost at once, and over a file in the browser cache data that was synced twice can be gone after reopening, its id given to other data. Proved for all other sizes: over any file that knows its length, with any faults; over browser cache files within a session, and through reopening if there is one sync."
  },
  {
   "property": "C50",
   "status": "partial",
   "theorems": [
    "C50_programs_partial",
    "C50_compose",
    "C50_refuted"
   ],
   "note": "Refuted in release builds only for a range that starts after usize::MAX; proved for all other ranges, in whole programs. usize has 64 bits here."
  },
  {
   "property": "C51",
   "status": "proved",
   "theorems": [
    "C51_is_empty"
   ],
   "note": ""
  },
  {
   "property": "C52",
   "status": "partial",
   "theorems": [
    "C52_exact_partial",
    "C52_is_leaf_partial",
    "C52_is_leaf_refuted"
   ],
   "note": "Refuted: a one-key tree need not be a leaf. Proved: a leaf has at most one key. Also proved (C52_exact_partial): a tree made by insertions alone is a leaf exactly when there was none, or one of a non-empty key."
  },
  {
   "property": "C53",
   "status": "proved",
   "theorems": [
    "C53_prefix"
   ],
   "note": ""
  },
  {
   "property": "C54",
   "status": "proved",
   "theorems": [
    "C54_collect",
    "C54_macro",
    "C54_set"
   ],
   "note": ""
  },
  {
   "property": "C55",
   "status": "proved",
   "theorems": [
    "C55_io_errors"
   ],
   "note": "Same model of faults as C38."
  },
  {
   "property": "C56",
   "status": "proved",
   "theorems": [
    "C56_lawful",
    "C56_durable"
   ],
   "note": "End to end over the file model: serialization, paged file, faults and reopening. Reads made by trees are taken without I/O errors (failing reads are C34). Histories are those of World.v (history_ok)."
  },
  {
   "property": "C57",
   "status": "proved",
   "theorems": [
    "C57_values",
    "C57_clones_independent"
   ],
   "note": "For every program that is valid on values (f_run succeeds) the run on reference counted memory succeeds, without undefined behaviour, and shows the same values. Programs that panic are not covered after the panic (unwinding is not modelled)."
  },
  {
   "property": "C58",
   "status": "partial",
   "theorems": [
    "C58_all_freed_refuted",
    "C58_freed_partial",
    "C58_freed_all_partial",
    "C58_leak_refuted",
    "C58_trees_freed_refuted",
    "C58_trees_leftover_partial",
    "C58_trees_freed_partial"
   ],
   "note": "Refuted: canonicalize overwrites an empty children vector without dropping it, so each removal that empties a node leaks one allocation. Proved: nothing else is ever leaked, exactly as many references as canonicalize forgets; also for programs of API calls on trees, of which those that never delete an entry leak nothing."
  },
  {
   "property": "C59",
   "status": "proved",
   "theorems": [
    "C59_lawful",
    "C59_durable"
   ],
   "note": "The blob store over one cache file, used through append and reopening; proved by the weak contract of blob stores of C56."
  },
  {
   "property": "C60",
   "status": "partial",
   "theorems": [
    "C60_lawful_partial",
    "C60_durable_partial",
    "C60_web_durable_partial"
   ],
   "note": "Partial as C49: trees writing blobs of the sizes that panic are counted as refused; on browser cache files one sync at the end."
  },
  {
   "property": "C61",
   "status": "proved",
   "theorems": [
    "C61_memory"
   ],
   "note": "Owners are the memory itself (Arc<Vec>, Arc<[u8; N]>); owned_new with another owner is a promise by the caller. Blob is declared Send and Sync though its owner need not be; threads are not modelled."
  },
  {
   "property": "C62",
   "status": "partial",
   "theorems": [
    "C62_history_partial",
    "C62_read_your_writes_partial",
    "C62_stale_refuted",
    "C62_lost_refuted",
    "C62_name_refuted",
    "C62_any_history_partial",
    "C62_any_read_your_writes_partial",
    "C62_restarted"
   ],
   "note": "Refuted in general: C62_stale_refuted and C62_lost_refuted (deleting an open directory), C62_name_refuted (a question mark in a file name). Proved for names without question mark: exactly as stated for histories that delete directories only before opening them, and for all histories with the behaviour that the code has, that a directory deleted while open stays until the next restart (C62_any_history_partial). Errors are always allowed for reads (see C47 for when lengths shrink). C62_restarted: at every restart the file system is exactly as after a history that deletes no open directory."
  },
  {
   "property": "C63",
   "status": "proved",
   "theorems": [
    "C63_linear",
    "C63_contents",
    "C63_progress",
    "C63_any_contents"
   ],
   "note": "The panic of a command is modelled as ending the loop; its caller and later callers get an error or wait."
  },
  {
   "property": "C64",
   "status": "partial",
   "theorems": [
    "C64_read_partial",
    "C64_size_refuted",
    "C64_pages_partial",
    "C64_last_page_partial"
   ],
   "note": "Refuted: rewriting an earlier page shrinks the length (C64_size_refuted). Proved: whatever is read are bytes of the file; for a file written page by page, in any history of the file system that does not delete its own directory while it is open, exactly what the size is and where reads are cut (C64_pages_partial), and exactly when the size is right (C64_last_page_partial)."
  },
  {
   "property": "C65",
   "status": "proved",
   "theorems": [
    "C65_blob_kept",
    "C65_lawful",
    "C65_durable"
   ],
   "note": "The whole stack: tree, blob store, command loop, directory, file, cache entries. Reads have no fault and reopen the file when it is not open; blobs of 2^31-4 bytes and more (impossible slices on wasm32) count as refused; other threads may do anything, including deleting other directories, open or not; only the file's own directory is not deleted."
  },
  {
   "property": "C66",
   "status": "proved",
   "theorems": [
    "C66_values",
    "C66_freed",
    "C66_snapshot",
    "C66_listing"
   ],
   "note": "Memory level model with reference counts and raw pointers; a read through a raw pointer whose vector was freed or changed is Undefined. Iterators over nodes in a store and GroupBy are not in this model (Iter.v models them as values)."
  },
  {
   "property": "C67",
   "status": "partial",
   "theorems": [
    "C67_agree",
    "C67_insert_partial",
    "C67_insert_retry_partial",
    "C67_remove_partial",
    "C67_combine_partial",
    "C67_prefix_partial",
    "C67_atomic_refuted",
    "C67_insert_loss_refuted",
    "C67_combine_loss_refuted"
   ],
   "note": "The tree stays readable (get and iteration) in all cases. No key is lost, up to the key whose values the closure failed for, if InPlaceVecBuilder keeps the unprocessed rest of a vector when it is dropped; if it drops it, other keys are lost (refuted). Missing: (later modifications and the other queries are property C81) trees with keys stored as blobs only for insertion; iterators other than iter."
  },
  {
   "property": "C68",
   "status": "proved",
   "theorems": [
    "C68_attach",
    "C68_reattach",
    "C68_mem_store",
    "C68_paged_attach",
    "C68_paged_reattach"
   ],
   "note": "The number of writes is bounded by 6 per entry plus 4, the size of a block by 98304 bytes (256 children with three fields of at most 128 bytes). C68_small_page_example: with pages of 4096 bytes a tree of 64 short entries is refused, so the bound on the page size is not an artefact."
  },
  {
   "property": "C69",
   "status": "proved",
   "theorems": [
    "C69_values",
    "C69_clones_independent"
   ],
   "note": "In-place operations and the operations that make a new tree (joins, filter_prefix) on the memory model of C57, refining the operations on values of Combine.v; programs that Rust rejects (use of a dropped variable, a tree combined in place with itself) are excluded by m_step, retain_prefix_with and filter_prefix where C08 and C04 exclude them by may. Closures that panic and nodes on a store are not covered."
  },
  {
   "property": "C70",
   "status": "proved",
   "theorems": [
    "C70_writes",
    "C70_resave",
    "C70_load_save"
   ],
   "note": "C70_writes bounds every history by an account kept next to it (CostSpec.book), C70_resave and C70_load_save are the bound for one tree between two saves. Counted are calls of BlobStore::write; the bytes per block are not (a block with children holds all records of one node, C68 bounds it). For a tree that was filtered by prefix the account adds one block."
  },
  {
   "property": "C71",
   "status": "proved",
   "theorems": [
    "C71_lookup",
    "C71_update",
    "C71_combine",
    "C71_first_last",
    "C71_scan",
    "C71_iterator"
   ],
   "note": "The bounds count loads of blocks, each of which is a call of read of the store; a block that is needed twice is counted twice. The values found are included. Not covered: values() and group_by (which visit the whole tree), the combines that return a new tree, and combines whose second tree is attached."
  },
  {
   "property": "C72",
   "status": "proved",
   "theorems": [
    "C72_progress",
    "C72_shared"
   ],
   "note": "Each store call is atomic under its lock; a thread is a history of API calls over the store as that thread sees it (others write in between; reads see any moment in between). Trees that are moved or shared between threads as values are immutable from the point of view of other owners (C66, C69); loading an id another thread saved is covered by C72_shared."
  },
  {
   "property": "C73",
   "status": "partial",
   "theorems": [
    "C73_in_place_partial",
    "C73_new_partial",
    "C73_second_in_memory",
    "C73_second_attached_refuted"
   ],
   "note": "In-place and out-of-place operations and predicates return the right result or panic, for all placements of the two trees (tree_of). With a second tree in memory outer and inner in place always succeed; left, remove_prefix_with and retain_prefix_with too unless the first is attached in a debug build. \"No such call panics\" is refuted: with an attached second tree each in-place operation can panic (todo!() in TreeNodeRef::clone_shortened). Missing: attached trees with keys too long to be stored inline; combining with IdentityConverter across two stores (private in the code)."
  },
  {
   "property": "C74",
   "status": "proved",
   "theorems": [
    "C74_file",
    "C74_commands",
    "C74_open"
   ],
   "note": "File level and command level (after any history, also one that deletes open directories), with the exact result of each call; reads of one file are C45_read_accepted_partial and here; length-prefixed loads are C65. Which files are open is determined by the results (C74_open). Missing: sizes from 2 GiB on (where slicing in the browser fails), and a level counter that reached 2^64."
  },
  {
   "property": "C75",
   "status": "proved",
   "theorems": [
    "C75_paging",
    "C75_web"
   ],
   "note": "For any file below that is usable (PagingUsable.v), and for files in the browser cache when the browser works and the data of the file ends below 2^31. Blobs of ps - 11 (or ps - 8) to ps - 4 bytes are the refuted cases of C49."
  },
  {
   "property": "C76",
   "status": "proved",
   "theorems": [
    "C76_file_attach",
    "C76_file_reattach",
    "C76_attach",
    "C76_reattach"
   ],
   "note": "For a single file and for a file of the file system. The room asked for is writes_max n blobs of b + 4 bytes each, b at least 98304. Not covered: paging files (appends to them are C75)."
  },
  {
   "property": "C77",
   "status": "partial",
   "theorems": [
    "C77_flushed_partial",
    "C77_sync_refuted"
   ],
   "note": "Refuted for sync (it is a no-op). Proved for blocks written before a flush of the file made by its owner through another handle: they survive any number of later power failures that undo, byte by byte, any of the later changes."
  },
  {
   "property": "C78",
   "status": "proved",
   "theorems": [
    "C78_saved_form"
   ],
   "note": "Includes failing stores: the store is any pair of a read and a write function over any state."
  },
  {
   "property": "C79",
   "status": "proved",
   "theorems": [
    "C79_space"
   ],
   "note": "shape_of lists every node that exists in memory, also ones a lookup would never reach."
  },
  {
   "property": "C80",
   "status": "proved",
   "theorems": [
    "C80_tidy_safe",
    "C80_tidy_succeeds"
   ],
   "note": "open and get_file_range are called only by tests in /repo; the theorem runs the plan with execute_plan, as add and truncate plans are run. RangeSet of the crate range_collections is modelled as a sorted list of ranges that do not touch (WebOpen.v); the plans of the tests in /repo are checked on the model (open_tests)."
  },
  {
   "property": "C81",
   "status": "partial",
   "theorems": [
    "C81_keeps_working",
    "C81_queries_partial",
    "C81_groups",
    "C81_joins",
    "C81_join_fails",
    "C81_preds_partial",
    "C81_subset_refuted",
    "C81_saved",
    "C81_detached",
    "C81_first_refuted",
    "C81_has_prefix_refuted"
   ],
   "note": "Operations: proved for all histories of the eight in-place operations and filter_prefix, with flaky readers and closures, trees in memory or stored (keys stored inline), the other tree possibly used too; success gives exactly the specified contents, errors only when something failed, panics only where a stored tree is involved (findings 6 and 7). Queries: get, iter, contains_key, values, filter_prefix are right, scan_prefix as in C08, has_prefix only in one direction; refuted for first_value/first_entry and has_prefix: a failing closure leaves a node without value and without children behind, so first_value can be None although there are entries and has_prefix true although there are none. Saving: such trees in memory can be attached, reattached, loaded and detached with their contents; stored ones can be detached. New trees: outer, inner and left combines of two such trees give exactly the specified contents or, only if a read or a closure call fails, an error (in memory: exactly if the closure fails for some common key), and their results count as such trees again. inner_combine_pred is right for such trees in memory; left_combine_pred never misses an entry but can answer true for a branch without entries, refuted as an exact test. group_by with a total predicate gives trees that can be used further and together hold the contents in order; which entries go into which group is proved only for trees no operation failed on (C11); a group can be empty here."
  },
  {
   "property": "C82",
   "status": "proved",
   "theorems": [
    "C82_order",
    "C82_again",
    "C82_keys"
   ],
   "note": "Trees in memory; the combining function is total (never drops a key): with one that drops keys the order matters even for plain maps."
  },
  {
   "property": "C83",
   "status": "proved",
   "theorems": [
    "C83_iterator",
    "C83_load"
   ],
   "note": "Addresses are unbounded numbers; that the block stays mapped while nodes point into it is C61 (lifetimes are checked by the compiler). Rust aliasing rules (a slice of several bytes made from a reference to one byte) are not modelled."
  },
  {
   "property": "C84",
   "status": "proved",
   "theorems": [
    "C84_values_stay"
   ],
   "note": "On the memory model of C57 and C69. Iterators that hand out values are not covered."
  },
  {
   "property": "C85",
   "status": "proved",
   "theorems": [
    "C85_questions"
   ],
   "note": "C85_questions: the answer and the state of all variables afterwards, on reference counted memory.  [has_prefix] of the empty prefix is excluded on an empty tree (C04).  Programs that branch on answers are covered by C69_values, and that the temporaries are freed by C58_trees_freed_partial and C58_trees_leftover_partial, whose programs include such branches."
  },
  {
   "property": "C86",
   "status": "proved",
   "theorems": [
    "C86_values",
    "C86_freed",
    "C86_snapshot",
    "C86_grouping"
   ],
   "note": "C86_values, C86_freed and C86_snapshot are about HeapGroup.v, which adds GroupBy to the memory model of Heap.v and HeapIter.v; C86_grouping links the groups to the map of a reachable tree (C11). The predicate is a function of the path and the value."
  },
  {
   "property": "C87",
   "status": "proved",
   "theorems": [
    "C87_values",
    "C87_determined",
    "C87_defined",
    "C87_leftover",
    "C87_freed",
    "C87_snapshot"
   ],
   "note": "Programs (w_run, HeapWhole.v) run on reference counted memory where a read of freed memory is Undefined; the meaning (w_runs, HeapWholeSpec.v) has a map for each tree and a list for each iterator. C87_values: no undefined behaviour or panic, and all that the program has and reads agrees. C87_determined and C87_defined: the meaning is a function and is never stuck as long as the program uses what is there. C87_leftover and C87_freed: what is left in memory after all is dropped. C87_snapshot: iterators. Left out are uses of filter_prefix, has_prefix and retain_prefix_with that C04, C10 and C20 refute; scan_prefix is given with the keys it really has (C08)."
  },
  {
   "property": "C88",
   "status": "proved",
   "theorems": [
    "C88_values",
    "C88_scoped",
    "C88_determined",
    "C88_others",
    "C88_leftover"
   ],
   "note": "Closures that panic inside the in-place operations and the combines that make new trees, on the reference counted memory of C65/C69, for both behaviours of the vector builder (its crate is not in /repo). Panics of other calls, panics in the closures of inner_combine_pred and left_combine_pred, and attached trees are not in these programs (C67, C71, C81 have the values that failing stores leave)."
  },
  {
   "property": "C89",
   "status": "proved",
   "theorems": [
    "C89_no_panic",
    "C89_loaded",
    "C89_lookups_end",
    "C89_edge_panics",
    "C89_children_panic",
    "C89_blob_panics",
    "C89_endless"
   ],
   "note": "The store is any function from ids to bytes or errors (within one call; C34 and C81 are about stores that fail now and then). Not included: reattach and combines that make new trees of damaged trees, combines with another attached tree (todo!(), finding 6), and changes in debug builds, where canonicalize panics on attached trees anyway (C29)."
  },
  {
   "property": "C90",
   "status": "proved",
   "theorems": [
    "C90_session",
    "C90_once",
    "C90_lawful",
    "C90_durable"
   ],
   "note": "The number of events altogether is taken to be less than 2^64, and no file reaches 2^63 bytes. Others may delete other directories, open or not, but not the directory of the file while the paging file is used: see finding 11 for what a stale directory does."
  },
  {
   "property": "C91",
   "status": "proved",
   "theorems": [
    "C91_program",
    "C91_succeeds",
    "C91_two_million",
    "C91_any_store",
    "C91_accepted"
   ],
   "note": "The theorems are for arbitrary pairs and names; C91_two_million is the program with its own. Success is proved when no browser operation fails and the files stay below 2^63 bytes; otherwise an error is allowed. A blob within a few bytes of the page size counts as refused by the paging file, while the code panics or loses it (C49); the program's own data has no such blob. Reading does not change the store in the model (the pages that are read stay in the paging file in the code)."
  },
  {
   "property": "C92",
   "status": "partial",
   "theorems": [
    "C92_sizes",
    "C92_other_size_refuted",
    "C92_refused",
    "C92_zero_refuted",
    "C92_large_refuted"
   ],
   "note": "C92_sizes is the positive part for histories with arbitrary page sizes. Refuted: reading with another page size may fail (C92_other_size_refuted), page size 0 is accepted and every read and write then panics (C92_zero_refuted), page sizes above 2^32 lose the high bits of lengths (C92_large_refuted)."
  },
  {
   "property": "C93",
   "status": "partial",
   "theorems": [
    "C93_kept_partial",
    "C93_bytes_partial",
    "C93_hole_refuted",
    "C93_end_refuted",
    "C93_pieces_refuted",
    "C93_torn_refuted",
    "C93_large_refuted"
   ],
   "note": "C93_kept_partial and C93_bytes_partial are the positive parts. Refuted: loading in a hole or at the end panics and ends the file system's loop (C93_hole_refuted, C93_end_refuted), records written in pieces cannot be loaded (C93_pieces_refuted), after a write that failed while cleaning up loading and reading differ (C93_torn_refuted)."
  },
  {
   "property": "C94",
   "status": "proved",
   "theorems": [
    "C94_memory",
    "C94_same",
    "C94_attached",
    "C94_failing"
   ],
   "note": "The text without the reference counts that owned nodes append to some lines; these depend on what else shares the nodes."
  },
  {
   "property": "C95",
   "status": "proved",
   "theorems": [
    "C95_walk",
    "C95_own_group"
   ],
   "note": "walk: the recursion of examples/dump.rs, with the groups of the model of group_by; the text that Debug makes of prefix and value is not part of the claim. The lines printed before a panic are not modelled, but there is no panic. C54_set: the macro radixtree! with keys only."
  },
  {
   "property": "C96",
   "status": "proved",
   "theorems": [
    "C96_outer",
    "C96_left",
    "C96_inner",
    "C96_union",
    "C96_outer_stored",
    "C96_left_stored"
   ],
   "note": "Outer, left and inner for trees in memory, all closures. C96_union: the union with a tree in memory also for a first tree in a store (lookups; there the bytes saved are not compared). The loops read the value with get, and store the outcome with insert or remove."
  },
  {
   "property": "C97",
   "status": "proved",
   "theorems": [
    "C97_collect",
    "C97_collect_stored",
    "C97_groups",
    "C97_groups_stored",
    "C97_split",
    "C97_move",
    "C97_move_stored"
   ],
   "note": "In memory and in stores; the split at a prefix is for trees in memory, moving a part for parts that are not empty (see finding 3 for empty ones)."
  },
  {
   "property": "C98",
   "status": "partial",
   "theorems": [
    "C98_dirs_apart_refuted",
    "C98_one_line_partial",
    "C98_each_line_partial",
    "C98_deep_refuted"
   ],
   "note": "Refuted as wished; what the program prints is characterised for all depths."
  },
  {
   "property": "C99",
   "status": "proved",
   "theorems": [
    "C99_fill",
    "C99_flush_times"
   ],
   "note": "The loop of examples/large_tree.rs for any entries and any times of flushing. Its keys are the subject of C100; the printing is not modelled."
  },
  {
   "property": "C100",
   "status": "partial",
   "theorems": [
    "C100_named_partial",
    "C100_apart_partial",
    "C100_named_refuted",
    "C100_tree"
   ],
   "note": "Refuted from a trillion on (the list of big names ends at billion); proved below, and for the tree filled with such keys. The least i64 is not modelled."
  }
 ]
}
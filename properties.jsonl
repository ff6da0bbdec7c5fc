{"id": "C01", "title": "insert is a point update", "statement": "After insert(k, v) on a tree built through the public API, get(k) returns v and get(k') returns exactly what it returned before for every k' other than k. The call terminates and does not panic.", "quantifier": "every tree reachable by any sequence of in-memory API calls, every key, every value, every other key (all byte strings, no length bound)", "why_tests_cant": "keys interact through shared prefixes at arbitrary depth; node splitting, prefix lengths around the 8/127/128 byte representation boundaries and 256-way fan-out cannot all be sampled", "anchors": ["src/node/mod.rs:RadixTree::insert", "src/node/mod.rs:RadixTree::try_insert", "src/node/mod.rs:outer_combine_with", "src/node/mod.rs:TreeNode::split", "src/node/mod.rs:TreeNode::canonicalize"]}
{"id": "C02", "title": "remove is a point deletion", "statement": "After remove(k), get(k) is None and every other key maps to what it mapped to before; removing an absent key changes no key. The call terminates and does not panic.", "quantifier": "every reachable in-memory tree and every key", "why_tests_cant": "a removal can empty a node, merge a parent with its only remaining child and cascade upward; the shapes are unbounded", "anchors": ["src/node/mod.rs:RadixTree::remove", "src/node/mod.rs:left_combine_with", "src/node/mod.rs:left_combine_children_with", "src/node/mod.rs:TreeNode::canonicalize"]}
{"id": "C03", "title": "contains_key agrees with get", "statement": "contains_key(k) returns true exactly when get(k) returns a value, in particular for keys mapped to the empty value and for keys that exist only as inner branch points.", "quantifier": "every reachable tree and every key", "why_tests_cant": "the two calls must agree on all keys including proper prefixes and extensions of stored keys", "anchors": ["src/node/mod.rs:TreeNode::contains_key", "src/node/mod.rs:TreeNode::get", "src/node/mod.rs:find"]}
{"id": "C04", "title": "has_prefix answers whether a key starts with the prefix", "statement": "has_prefix(p) returns true exactly when the tree holds at least one key that starts with p.", "quantifier": "every reachable tree and every prefix", "why_tests_cant": "prefixes may end inside a compressed edge, at a node or beyond a leaf; and the boundary tree (empty) is rarely generated with the boundary prefix (empty)", "anchors": ["src/node/mod.rs:RadixTree::has_prefix", "src/node/mod.rs:TreeNode::has_prefix", "src/node/mod.rs:find"]}
{"id": "C05", "title": "remove_prefix deletes exactly the keys with that prefix", "statement": "After remove_prefix(p), get(k) is None for every k starting with p and unchanged for every other k.", "quantifier": "every reachable in-memory tree, every prefix, every key", "why_tests_cant": "prefixes may fall inside edges; both the set removed and the set kept must be exact", "anchors": ["src/node/mod.rs:RadixTree::remove_prefix", "src/node/mod.rs:remove_prefix_with"]}
{"id": "C06", "title": "iter yields every entry once in ascending key order", "statement": "iter() yields exactly the pairs (k, v) with get(k) = v, each exactly once, with keys strictly ascending in lexicographic byte order, and then ends.", "quantifier": "every reachable tree", "why_tests_cant": "completeness, absence of duplicates and global order over unbounded trees; the iterator keeps an incremental path buffer whose pops must match its pushes", "anchors": ["src/node/mod.rs:RadixTree::iter", "src/node/mod.rs:KeyValueIter::next0", "src/node/mod.rs:IterKey"]}
{"id": "C07", "title": "values yields the values in key order", "statement": "values() yields exactly the second components of iter(), in the same order.", "quantifier": "every reachable tree", "why_tests_cant": "two independently written traversals must agree on all trees", "anchors": ["src/node/mod.rs:RadixTree::values", "src/node/mod.rs:ValueIter::next0"]}
{"id": "C08", "title": "scan_prefix yields exactly the entries below a prefix", "statement": "scan_prefix(p) yields exactly the pairs (k, v) of iter() whose key starts with p, with their full original keys, in ascending key order.", "quantifier": "every reachable tree and every prefix", "why_tests_cant": "the prefix can end at a node boundary or inside an edge; random tests practically never hit the node boundary case", "anchors": ["src/node/mod.rs:RadixTree::scan_prefix", "src/node/mod.rs:scan_prefix", "src/node/mod.rs:find"]}
{"id": "C09", "title": "filter_prefix selects and renames a subtree", "statement": "filter_prefix(p, s) returns a tree in which get(s ++ r) is what get(p ++ r) was in the original for every r, and which holds no key that does not start with s.", "quantifier": "every reachable tree, every prefix p, every substitution s, every key", "why_tests_cant": "all split points of p relative to the edges and all substitutions must work", "anchors": ["src/node/mod.rs:RadixTree::filter_prefix", "src/node/mod.rs:filter_prefix"]}
{"id": "C10", "title": "first and last entry and value are the extremes", "statement": "first_entry(p)/last_entry(p) return (p ++ k, v) for the lexicographically least/greatest key k of the tree with its value v, first_value/last_value return the same v, and all return None exactly when the tree holds no key.", "quantifier": "every reachable tree and every passed-in prefix buffer", "why_tests_cant": "must hold for every key set; relies on a structural invariant (no dead subtrees) that every operation has to maintain", "anchors": ["src/node/mod.rs:first_value", "src/node/mod.rs:last_value", "src/node/mod.rs:first_entry", "src/node/mod.rs:last_entry"]}
{"id": "C11", "title": "group_by partitions the tree", "statement": "For any descend predicate, concatenating the entries of the trees yielded by group_by in order gives exactly the entries of the original tree in order. The cuts are where the predicate says: if the predicate declines to descend at a fork of the key set (a key, or a point where keys diverge) below forks at all of which it descended, everything that starts with that path is one group; where it descends, a key that ends there is a group of its own.", "quantifier": "every reachable tree and every predicate on paths and nodes", "why_tests_cant": "the predicate is an arbitrary function; path bookkeeping must be right for every descend/stop pattern", "anchors": ["src/node/mod.rs:RadixTree::group_by", "src/node/mod.rs:GroupBy::next0"]}
{"id": "C12", "title": "outer_combine is the pointwise outer join", "statement": "outer_combine(a, b, f) holds at key k: f(a[k], b[k]) if both have k, a[k] or b[k] if exactly one has it, nothing otherwise; a and b are unchanged.", "quantifier": "every pair of reachable trees, every combiner function (including ones that delete), every key", "why_tests_cant": "two trees with arbitrary relative edge structure; the combiner may empty nodes anywhere, which triggers merging", "anchors": ["src/node/mod.rs:outer_combine", "src/node/mod.rs:outer_combine_children", "src/node/mod.rs:OuterJoin"]}
{"id": "C13", "title": "inner_combine is the pointwise inner join", "statement": "inner_combine(a, b, f) holds f(a[k], b[k]) at k if both trees have k, nothing otherwise.", "quantifier": "every pair of reachable trees, every combiner function, every key", "why_tests_cant": "as for outer_combine; additionally intermediate nodes must disappear when nothing is left below them", "anchors": ["src/node/mod.rs:inner_combine", "src/node/mod.rs:inner_combine_children"]}
{"id": "C14", "title": "left_combine is the pointwise left join", "statement": "left_combine(a, b, f) holds at k: f(a[k], b[k]) if both have k, a[k] if only a has it, nothing if a lacks it.", "quantifier": "every pair of reachable trees, every combiner function, every key", "why_tests_cant": "as for outer_combine", "anchors": ["src/node/mod.rs:left_combine", "src/node/mod.rs:left_combine_children"]}
{"id": "C15", "title": "inner_combine_pred decides existence over common keys", "statement": "inner_combine_pred(a, b, f) is true exactly when some key k is in both trees and f(a[k], b[k]) holds.", "quantifier": "every pair of reachable trees and every predicate", "why_tests_cant": "false negatives need one particular structural alignment of the two trees", "anchors": ["src/node/mod.rs:inner_combine_pred", "src/node/mod.rs:inner_combine_children_pred"]}
{"id": "C16", "title": "left_combine_pred decides existence over the left tree", "statement": "left_combine_pred(a, b, f) is true exactly when some key k of a is missing in b, or is in both and f(a[k], b[k]) holds. With f = false it is the negation of 'a is a key subset of b'.", "quantifier": "every pair of reachable trees and every predicate", "why_tests_cant": "the code returns true as soon as it sees an unmatched subtree; soundness of that shortcut is a global invariant", "anchors": ["src/node/mod.rs:left_combine_pred", "src/node/mod.rs:left_combine_children_pred"]}
{"id": "C17", "title": "outer_combine_with is the in-place outer join", "statement": "a.outer_combine_with(b, f) changes a so that at k it holds f(a[k], b[k]) if both had k, else whichever existed; b is unchanged; the result has the same contents as outer_combine with the corresponding combiner.", "quantifier": "every pair of reachable trees, every in-place combiner, every key", "why_tests_cant": "in-place variant with splitting, vector compaction and sorting; an independent implementation that must agree", "anchors": ["src/node/mod.rs:outer_combine_with", "src/node/mod.rs:outer_combine_children_with"]}
{"id": "C18", "title": "inner_combine_with is the in-place inner join", "statement": "a.inner_combine_with(b, f) changes a so that at k it holds f(a[k], b[k]) if both had k and nothing otherwise.", "quantifier": "every pair of reachable trees, every in-place combiner, every key", "why_tests_cant": "as for outer_combine_with", "anchors": ["src/node/mod.rs:inner_combine_with", "src/node/mod.rs:inner_combine_children_with"]}
{"id": "C19", "title": "left_combine_with is the in-place left join", "statement": "a.left_combine_with(b, f) changes a so that at k it holds f(a[k], b[k]) if both had k, a[k] if only a had it, nothing otherwise.", "quantifier": "every pair of reachable trees, every in-place combiner, every key", "why_tests_cant": "as for outer_combine_with", "anchors": ["src/node/mod.rs:left_combine_with", "src/node/mod.rs:left_combine_children_with"]}
{"id": "C20", "title": "retain_prefix_with keeps exactly the keys below selected prefixes", "statement": "a.retain_prefix_with(b, f) keeps a[k] exactly for those k that start with some key p of b with f(b[p]) true, and removes all others.", "quantifier": "every pair of reachable trees, every predicate on values of b, every key", "why_tests_cant": "the predicate can reject a short prefix and accept a longer one below it; unit tests only use the constant true predicate", "anchors": ["src/node/mod.rs:retain_prefix_with", "src/node/mod.rs:retain_prefix_children_with"]}
{"id": "C21", "title": "remove_prefix_with drops exactly the keys below selected prefixes", "statement": "a.remove_prefix_with(b, f) removes exactly those keys k of a that start with some key p of b with f(b[p]) true and keeps all other entries unchanged.", "quantifier": "every pair of reachable trees, every predicate on values of b, every key", "why_tests_cant": "as for retain_prefix_with", "anchors": ["src/node/mod.rs:remove_prefix_with", "src/node/mod.rs:remove_prefix_children_with"]}
{"id": "C22", "title": "any history of calls behaves like an ordered map and never panics", "statement": "For any program of API calls that builds trees from default/leaf/single/collect, insert, remove, remove_prefix, the three combines, the three in-place combines and remove_prefix_with, the resulting tree exists (every call terminates without panic) and answers get on every key like a plain finite map on which the same program is run with the textbook meaning of each call.", "quantifier": "all finite programs over all keys, values and combiner functions", "why_tests_cant": "composition: an invariant broken by one operation only shows in a later one, after an unbounded number of steps", "anchors": ["src/node/mod.rs:impl RadixTree", "src/node/mod.rs:FromIterator", "src/node/mod.rs:TreeNode::canonicalize"]}
{"id": "C23", "title": "the tree shape is determined by the contents", "statement": "Two in-memory trees with the same contents, however they were built, have the same shape: same prefix, value and children recursively; consequently is_empty, prefix(), value(), group_by and the bytes produced by serialization are functions of the contents only.", "quantifier": "all pairs of API histories ending in the same contents", "why_tests_cant": "history independence quantifies over pairs of histories", "anchors": ["src/node/mod.rs:TreeNode::canonicalize", "src/node/mod.rs:RadixTree::prefix", "src/node/mod.rs:TreeNode::serialize"]}
{"id": "C24", "title": "equality of trees is equality of contents", "statement": "t1 == t2 is true exactly when both trees hold the same keys with the same values.", "quantifier": "every pair of reachable in-memory trees", "why_tests_cant": "needs all pairs of histories; tests compare via BTreeMap and never exercise == on interesting pairs", "anchors": ["src/node/mod.rs:impl PartialEq for TreeNode<Detached>", "src/node/mod.rs:impl PartialEq for RadixTree"]}
{"id": "C25", "title": "attaching and detaching preserves the contents", "statement": "For any in-memory tree and any store that returns what was written, try_attached followed by try_detached gives a tree with the same entries.", "quantifier": "every reachable tree, every lawful store (any id scheme with ids up to 126 bytes), any previous contents of the store", "why_tests_cant": "covers all keys/values around the inline/127/128 byte limits, all fan-outs and all stores at once", "anchors": ["src/node/mod.rs:RadixTree::try_attached", "src/node/mod.rs:RadixTree::try_detached", "src/node/mod.rs:TreeNode::serialize", "src/node/mod.rs:BorrowedTreeNode::read_one"]}
{"id": "C26", "title": "reattach/load round trip and snapshots", "statement": "The id returned by try_reattach can be loaded with try_load, at that time and after any number of later writes to the store, and the loaded tree has the entries the tree had at the reattach; the reattached tree itself keeps its entries.", "quantifier": "every reachable tree (in memory, attached or partly loaded), every lawful store, every later sequence of store writes", "why_tests_cant": "history of writes after the snapshot is unbounded", "anchors": ["src/node/mod.rs:RadixTree::try_reattach", "src/node/mod.rs:RadixTree::try_load", "src/node/mod.rs:TreeNode::deserialize"]}
{"id": "C27", "title": "reads on an attached tree agree with the in-memory tree", "statement": "On an attached tree, try_get, try_contains_key, try_has_prefix, try_iter, try_values, try_first/last_value/entry (loading values through the store) return what the corresponding in-memory calls return on the tree it was attached from.", "quantifier": "every reachable tree, every lawful store, every key", "why_tests_cant": "a second set of code paths (zero copy nodes parsed from buffers, linear search instead of binary search) must agree everywhere", "anchors": ["src/node/mod.rs:BorrowedTreeNode", "src/node/mod.rs:BorrowedTreeNodeIter", "src/node/mod.rs:TreeNodeIter", "src/node/mod.rs:find"]}
{"id": "C28", "title": "inserting into an attached tree", "statement": "On an attached tree, any interleaving of try_insert, try_reattach and try_get behaves like the plain map; no call panics.", "quantifier": "every history of inserts and reattaches, every lawful store, every key and value length", "why_tests_cant": "partly loaded trees mix borrowed and owned nodes in unboundedly many ways", "anchors": ["src/node/mod.rs:RadixTree::try_insert", "src/node/mod.rs:TreeNode::load_children_mut", "src/node/mod.rs:TreeNode::split", "src/node/mod.rs:RadixTree::try_reattach"]}
{"id": "C29", "title": "removing from an attached tree", "statement": "On an attached tree, try_remove(k) removes exactly k and leaves every other key with its value, as for an in-memory tree; it does not panic.", "quantifier": "every attached tree, every lawful store, every key (including keys longer than 127 bytes), debug and release builds", "why_tests_cant": "the failing shape needs a key longer than the inline limit whose sibling is removed after reattaching", "anchors": ["src/node/mod.rs:RadixTree::try_remove", "src/node/mod.rs:left_combine_with", "src/node/mod.rs:TreeNode::canonicalize"]}
{"id": "C30", "title": "removing a prefix from an attached tree", "statement": "On an attached tree, try_remove_prefix(p) removes exactly the keys starting with p; it does not panic.", "quantifier": "every attached tree, every lawful store, every prefix, debug and release builds", "why_tests_cant": "as for remove on attached trees", "anchors": ["src/node/mod.rs:RadixTree::try_remove_prefix", "src/node/mod.rs:remove_prefix_with", "src/node/mod.rs:TreeNode::canonicalize"]}
{"id": "C31", "title": "combining attached trees", "statement": "try_outer_combine/try_inner_combine/try_left_combine and their predicates, applied to attached trees, give the same contents as on the detached copies of these trees and never panic.", "quantifier": "every pair of attached trees over lawful stores", "why_tests_cant": "needs the alignment of a borrowed node with a longer edge, or a value above 127 bytes; tests only combine in-memory trees", "anchors": ["src/node/mod.rs:TreeNodeRef::clone_shortened", "src/node/mod.rs:ValueRef::detached", "src/node/mod.rs:outer_combine", "src/node/mod.rs:inner_combine", "src/node/mod.rs:left_combine"]}
{"id": "C32", "title": "node encoding round trip and documented format", "statement": "Serializing a node and deserializing the bytes gives back the same prefix, value and children references; the bytes follow the documented format (header byte with id bit and 7 bit length, first prefix byte before an indirect prefix, record size byte before a children id, 0x80 for none).", "quantifier": "every node, every payload length, every store id up to 126 bytes", "why_tests_cant": "all lengths and contents, in particular 126/127/128", "anchors": ["src/node/mod.rs:TreeNode::serialize", "src/node/mod.rs:OwnedBlobRef::serialize", "src/node/mod.rs:Header", "src/lib.rs:Serialized format"]}
{"id": "C33", "title": "decoding arbitrary bytes does not panic", "statement": "try_load on a store that returns arbitrary bytes for the id returns Ok or Err; it never panics.", "quantifier": "every byte string", "why_tests_cant": "fuzzing cannot exhaust all byte strings", "anchors": ["src/node/mod.rs:TreeNode::deserialize", "src/node/mod.rs:BorrowedTreeNode::read_one", "src/node/mod.rs:BorrowedTreeNode::to_owned"]}
{"id": "C34", "title": "store errors are never turned into wrong answers", "statement": "If some store reads fail with an error, every read operation and every mutation either returns an error or returns exactly what it would have returned had no read failed; and an iterator that has reported an error yields nothing afterwards.", "quantifier": "every subset of failing reads, every attached tree, every operation", "why_tests_cant": "the number of failure patterns is exponential in the number of reads", "anchors": ["src/node/mod.rs:find", "src/node/mod.rs:KeyValueIter::next", "src/node/mod.rs:ValueIter::next", "src/node/mod.rs:TreeNode::load_children_mut"]}
{"id": "C35", "title": "MemStore returns what was written", "statement": "For any sequence of writes to a MemStore, every returned id is distinct and read(id) returns exactly the bytes of that write, now and after all later writes; an id never returned gives an error, not a panic.", "quantifier": "all sequences of writes, all byte strings, all ids", "why_tests_cant": "unbounded histories", "anchors": ["src/store/mem_store.rs:MemStore::read", "src/store/mem_store.rs:MemStore::write"]}
{"id": "C36", "title": "PagedFileStore returns what was written", "statement": "For any sequence of writes to a PagedFileStore, every accepted write returns an id for which read returns exactly those bytes at any later time, across page boundaries and page caching; ids are distinct and increasing.", "quantifier": "all sequences of writes and reads, all block sizes, all page sizes that are multiples of 8 and at most 2^32", "why_tests_cant": "page boundary arithmetic for all sizes and offsets; the cache state depends on the whole history of reads", "anchors": ["src/store/paged_file_store.rs:Inner::append", "src/store/paged_file_store.rs:Inner::bytes", "src/store/paged_file_store.rs:Page::bytes", "src/store/paged_file_store.rs:Inner::close_page"]}
{"id": "C37", "title": "PagedFileStore survives reopening", "statement": "Closing and reopening the file at any time keeps every id returned so far readable with its bytes, and writes after reopening work as before.", "quantifier": "all histories of writes, reads and reopens with the same page size", "why_tests_cant": "unbounded histories with reopen at any point", "anchors": ["src/store/paged_file_store.rs:Inner::new", "src/store/paged_file_store.rs:read_size"]}
{"id": "C38", "title": "PagedFileStore is crash consistent", "statement": "If the process stops at any point inside a write (any prefix of the file operations having reached the file, the last data write possibly partial), reopening succeeds and every write acknowledged before the crash is still readable with its exact bytes.", "quantifier": "every history of writes, every crash point, every torn data write", "why_tests_cant": "crash points inside each write times all histories", "anchors": ["src/store/paged_file_store.rs:Inner::append", "src/store/paged_file_store.rs:Inner::commit", "src/store/paged_file_store.rs:Inner::new"]}
{"id": "C39", "title": "last_id identifies the last acknowledged block", "statement": "After any history including crashes and reopening, PagedFileStore::last_id is None or an id that can be read, namely that of the last block that was durably written.", "quantifier": "every history with crashes", "why_tests_cant": "needs a crash between padding a page and writing the next block", "anchors": ["src/store/paged_file_store.rs:PagedFileStore::last_id", "src/store/paged_file_store.rs:Inner::close_page"]}
{"id": "C40", "title": "rejected writes change nothing", "statement": "A write to a PagedFileStore that is refused because the block is larger than page_size - 8 leaves file, ids and all later behaviour unchanged.", "quantifier": "every store state and every oversized block", "why_tests_cant": "all states", "anchors": ["src/store/paged_file_store.rs:Inner::append"]}
{"id": "C41", "title": "reading an arbitrary id does not panic", "statement": "PagedFileStore::read with any byte string as id returns Ok or Err; it never panics.", "quantifier": "all ids of all lengths, all store states", "why_tests_cant": "all ids", "anchors": ["src/store/paged_file_store.rs:PagedFileStore::read", "src/store/paged_file_store.rs:Inner::bytes", "src/store/paged_file_store.rs:Page::bytes"]}
{"id": "C42", "title": "compact blob representation", "statement": "A prefix, value or id stored in the 8 byte inline-or-pointer field reads back exactly as the bytes that were put in; the header alone always selects the variant that was stored (no inline bytes are ever used as a pointer or vice versa).", "quantifier": "all byte strings of all lengths, data and ids, through every setter and clone", "why_tests_cant": "a mismatch is undefined behaviour that tests may not notice; all lengths around 8 and 127", "anchors": ["src/node/mod.rs:CompactOwnedBlob", "src/node/mod.rs:Header", "src/node/mod.rs:TreeNode::set_prefix_slice", "src/node/mod.rs:TreeNode::set_value_slice", "src/node/mod.rs:ChildrenRef"]}
{"id": "C43", "title": "chunk names round trip (browser)", "statement": "Parsing the name under which a chunk is stored in the browser cache gives back its level, offset and length; two different chunks of a file never share a name.", "quantifier": "all levels, offsets and lengths in u64", "why_tests_cant": "all of u64^3, including values wider than the padded width", "anchors": ["browser/src/web_cache_fs.rs:ChunkMeta::to_request_str", "browser/src/web_cache_fs.rs:ChunkMeta::from_str"]}
{"id": "C44", "title": "range intersection arithmetic (browser)", "statement": "For a stored chunk and a requested range, the source and target slices computed by ranges have equal length, lie inside the two buffers, refer to the same file positions and cover exactly the intersection.", "quantifier": "all pairs of overlapping ranges below 2^63", "why_tests_cant": "all relative positions of two ranges", "anchors": ["browser/src/lib.rs:ranges", "browser/src/lib.rs:overlap", "browser/src/lib.rs:contains"]}
{"id": "C45", "title": "write then read on a browser cache file", "statement": "After write(o, d) on a file, reading any range inside the file returns d on the overlap with o..o+|d| and the previous bytes elsewhere.", "quantifier": "every history of writes and truncates, every range", "why_tests_cant": "chunk sets produced by arbitrary overlapping writes", "anchors": ["browser/src/web_cache_fs.rs:add", "browser/src/web_cache_fs.rs:execute_plan", "browser/src/web_cache_fs.rs:read"]}
{"id": "C46", "title": "browser cache file writes are atomic under crashes", "statement": "If execution stops after any number of the cache operations of a write, the bytes read afterwards are either all as before or all as after the write.", "quantifier": "every chunk set, every write, every crash point", "why_tests_cant": "crash points times chunk sets", "anchors": ["browser/src/web_cache_fs.rs:add", "browser/src/web_cache_fs.rs:execute_plan"]}
{"id": "C47", "title": "browser cache file length", "statement": "length() is the end of the last byte ever written and not truncated away; append therefore never overwrites existing data.", "quantifier": "every history of writes and truncates", "why_tests_cant": "needs a write into the middle of a file with several chunks", "anchors": ["browser/src/web_cache_fs.rs:WebCacheFile::prev", "browser/src/web_cache_fs.rs:WebCacheFile::length", "browser/src/web_cache_fs.rs:WebCacheFile::append"]}
{"id": "C48", "title": "browser cache file truncate", "statement": "After truncate(n) with n at most the length, the bytes before n are unchanged and no byte at or after n remains.", "quantifier": "every history of writes and truncates, every n", "why_tests_cant": "all chunk layouts and cut points", "anchors": ["browser/src/web_cache_fs.rs:truncate"]}
{"id": "C49", "title": "paging file returns what was appended (browser)", "statement": "For any sequence of writes, reads and syncs of a PagingFile, every returned id reads back exactly the bytes written, and after sync all of them remain readable when the file is reopened; no call panics.", "quantifier": "all histories, all block sizes accepted by the size check, all page sizes that are multiples of 8", "why_tests_cant": "alignment and page boundary arithmetic for all sizes", "anchors": ["browser/src/paging_file.rs:PagingFileInner::append", "browser/src/paging_file.rs:PagingFileInner::load_length_prefixed", "browser/src/paging_file.rs:PagingFileInner::sync"]}
{"id": "C50", "title": "blob slicing", "statement": "Blob::slice(range) returns exactly the requested bytes for every range inside the blob, panics exactly for the others, and slices of slices compose.", "quantifier": "all blobs and all ranges with all bound kinds", "why_tests_cant": "all bound combinations", "anchors": ["src/store/blob_store.rs:Blob::slice"]}
{"id": "C51", "title": "is_empty is exact", "statement": "is_empty() returns true exactly when the tree holds no key.", "quantifier": "every reachable in-memory tree", "why_tests_cant": "depends on an invariant that all operations have to keep", "anchors": ["src/node/mod.rs:RadixTree::is_empty", "src/node/mod.rs:TreeNode::is_empty"]}
{"id": "C52", "title": "is_leaf reflects the contents", "statement": "is_leaf() returns true exactly when no key of the tree extends beyond the root prefix, i.e. the tree holds at most one key.", "quantifier": "every reachable in-memory tree", "why_tests_cant": "depends on which representation of 'no children' the history of calls left behind", "anchors": ["src/node/mod.rs:RadixTree::is_leaf", "src/node/mod.rs:TreeNode::load_children_mut"]}
{"id": "C53", "title": "root prefix is the longest common prefix", "statement": "prefix() of a nonempty in-memory tree is the longest common prefix of all its keys, and value() is what get(prefix) returns.", "quantifier": "every reachable in-memory tree", "why_tests_cant": "depends on canonical form after every history", "anchors": ["src/node/mod.rs:RadixTree::prefix", "src/node/mod.rs:RadixTree::value"]}
{"id": "C54", "title": "collecting pairs: last one wins", "statement": "Collecting a sequence of pairs into a tree gives a tree that maps each key to the value of its last occurrence in the sequence and holds no other key.", "quantifier": "all finite sequences of pairs", "why_tests_cant": "all sequences with repeated and prefix-related keys", "anchors": ["src/node/mod.rs:FromIterator"]}
{"id": "C55", "title": "PagedFileStore survives I/O errors", "statement": "If file operations fail in the middle of writes, reads or opening, and the store is used further without reopening, every write acknowledged before or after can still be read and later writes are accepted with fresh ids.", "quantifier": "all histories of calls, every failing file operation in each of them", "why_tests_cant": "every failure point times every history; leftovers of failed writes stay in the file", "anchors": ["src/store/paged_file_store.rs:Inner::append", "src/store/paged_file_store.rs:Inner::commit", "src/store/paged_file_store.rs:Inner::bytes"]}
{"id": "C56", "title": "saved trees on a PagedFileStore survive crashes", "statement": "Take any history of tree operations (attach, insert, merge, remove, clone, reattach, load) on a PagedFileStore, during which writes fail at arbitrary points, the process crashes and the file is reopened. Each tree has the contents its successful operations gave it, no call panics, and after any further failures and crashes the file can be reopened and every id returned by a successful reattach loads a tree with exactly the contents the tree had at that time.", "quantifier": "all histories of tree operations within the limits of C26, all schedules of I/O errors, crashes, reopenings and other users' calls", "why_tests_cant": "every crash point inside the many writes of one reattach, combined with every history", "anchors": ["src/store/paged_file_store.rs:PagedFileStore", "src/node/mod.rs:try_reattach, try_attached, try_load, serialize"]}
{"id": "C57", "title": "nodes share memory safely", "statement": "Programs that create, clone, change, split, merge, move and drop tree nodes never read the wrong variant of a field, never use freed memory and never free twice, and every node has the value it would have if clones were full copies: changing one tree never changes another that shares nodes with it.", "quantifier": "all sequences of node operations at all places of all trees, with any sharing", "why_tests_cant": "undefined behaviour need not show in a test; sharing patterns are unbounded", "anchors": ["src/node/mod.rs:CompactOwnedBlob", "src/node/mod.rs:ChildrenRef", "src/node/mod.rs:TreeNode::manual_drop", "src/node/mod.rs:Clone for TreeNode", "src/node/mod.rs:Drop for TreeNode", "src/node/mod.rs:split", "src/node/mod.rs:canonicalize", "src/node/mod.rs:load_children_mut"]}
{"id": "C58", "title": "dropped trees free their memory", "statement": "When all trees, values and iterators are dropped, all reference counted memory they allocated is freed.", "quantifier": "all sequences of node operations", "why_tests_cant": "leaks are invisible to functional tests", "anchors": ["src/node/mod.rs:canonicalize", "src/node/mod.rs:Drop for TreeNode", "src/node/mod.rs:manual_drop"]}
{"id": "C59", "title": "saved trees on a browser cache file survive faults", "statement": "Take any history of tree operations (attach, insert, merge, remove, clone, reattach, load) on a file in the browser cache used as a blob store, during which operations of the cache fail at arbitrary points and the file is reopened. Each tree has the contents the history gives it; and after any further appends by others, failing operations and reopenings, every id returned by a successful reattach loads the contents the tree had at that time.", "quantifier": "all tree histories, all fault schedules, all later appends and reopenings of the file", "why_tests_cant": "fault points times histories of writes and reopenings", "anchors": ["browser/src/sync_fs.rs:BlobStore for SyncFile", "browser/src/web_cache_fs.rs:WebCacheFile::append_length_prefixed", "browser/src/web_cache_fs.rs:WebCacheFile::load_length_prefixed", "src/node/mod.rs:Tree::try_reattach"]}
{"id": "C60", "title": "trees saved on a paging file survive", "statement": "Take any history of tree operations (attach, insert, merge, remove, clone, reattach, load) on an open PagingFile, during which operations of the file below fail at arbitrary points and others append, load and sync. Each tree has the contents the history gives it; and once a sync succeeded, after any further use and reopenings of the file every id returned by a successful reattach before the sync loads the contents the tree had at that time.", "quantifier": "all tree histories, all page sizes, all fault schedules of the file below, all later uses", "why_tests_cant": "fault points times page boundaries times histories", "anchors": ["browser/src/paging_file.rs:BlobStore for PagingFile", "browser/src/paging_file.rs:PagingFileInner::sync", "src/node/mod.rs:Tree::try_reattach"]}
{"id": "C61", "title": "blobs keep their memory alive and release it", "statement": "For every program that makes, clones, slices, converts and drops blobs, no blob is ever read after its memory was freed, no memory is freed twice, and the memory of an owned blob is freed exactly when the last blob that shows a part of it is dropped.", "quantifier": "all programs over the Blob API, all places the allocator chooses", "why_tests_cant": "use after free shows only under particular orders of slicing and dropping", "anchors": ["src/store/blob_store.rs:Blob::slice", "src/store/blob_store.rs:Blob::slice_ref", "src/store/blob_store.rs:Blob::to_owned", "src/store/blob_store.rs:Blob::from_arc_vec"]}
{"id": "C62", "title": "A file system in the browser cache keeps files apart", "statement": "Commands to the browser file system (open and delete directories and files, read, write, append, truncate, length) act on files that have separate contents: every result is right for the contents of the file it names, no command changes another file, and the contents survive closing and reopening the page.", "quantifier": "all histories of commands on any directories and files, with any faults of the browser cache during them and any number of page restarts", "why_tests_cant": "Histories, file names and faults are unbounded; all files of a directory share one cache whose entries are told apart only by request strings", "anchors": ["browser/src/web_cache_fs.rs: WebCacheFs, WebCacheDir, WebCacheFile, request_str, parse_and_filter_request", "browser/src/sync_fs.rs: Command"]}
{"id": "C63", "title": "Calls on the browser file system are linearizable", "statement": "Calls on SyncFs, SyncDir and SyncFile from any number of threads return what the same calls return one after the other in the order in which they were sent, also when the file system is shut down in between; and every call can return.", "quantifier": "all numbers of threads, all interleavings of sending, executing and returning, all commands and faults", "why_tests_cant": "The number of interleavings is unbounded and tests see few of them", "anchors": ["browser/src/sync_fs.rs: SyncFs, SyncDir, SyncFile", "browser/src/web_cache_fs.rs: WebCacheFs::run"]}
{"id": "C64", "title": "SQLite database files read back what was written", "statement": "Reading a range of a SQLite database file in the browser file system gives the bytes that were written there, is short only at the end of the file, and file_size is the end of the file.", "quantifier": "all histories of the file system, all ranges, all faults, all commands of other threads between the two commands of a read", "why_tests_cant": "Depends on all earlier writes and on interleavings", "anchors": ["browser/src/vfs.rs: DatabaseFile"]}
{"id": "C65", "title": "Blobs and trees in a file of the browser file system are kept", "statement": "A blob that was appended to a file of the browser file system with success is read back under its id, and a tree saved in such a file loads with the contents it had then, whatever other threads do to other files and directories, whatever faults happen and however often the page restarts, as long as the file is not written into, truncated or deleted otherwise. Appending never panics.", "quantifier": "all histories of commands on any files (names without question mark), all faults, restarts and interleavings between the writes of the tree, all histories of trees", "why_tests_cant": "All files of a directory share one cache; the interleavings with other files, faults and restarts are unbounded", "anchors": ["browser/src/sync_fs.rs: SyncFile, BlobStore for SyncFile", "browser/src/web_cache_fs.rs: append_length_prefixed, load_length_prefixed, WebCacheDir::open_file", "src/store: BlobStore"]}
{"id": "C66", "title": "Iterators are safe snapshots in memory", "statement": "An iterator over the entries or values of a tree in memory gives exactly the entries the tree had when the iterator was made, in ascending key order and then the end, whatever is done in between to the tree, to clones of it, to other iterators and to keys and values given out; keys and values given out keep their contents while the iterator moves on. No such program reads freed or overwritten memory, and when trees, iterators, keys and values are dropped all their memory is freed, up to the pointers that canonicalize forgets.", "quantifier": "all programs of node operations, creation, advancing and dropping of any number of iterators, keys and values, all trees in memory, with and without debug assertions", "why_tests_cant": "The iterator holds a raw pointer with its lifetime extended by transmute and a key buffer that is shared with the keys given out; whether that is sound depends on every interleaving of mutation, cloning and dropping", "anchors": ["src/node/mod.rs: OwnedTreeNodeIter::new_owned, TreeNodeIter::from_arc, IterKey::append, IterKey::pop, KeyValueIter, ValueIter, RadixTree::iter, RadixTree::values"]}
{"id": "C67", "title": "A failed in-place operation leaves a usable tree", "statement": "If an operation that modifies a tree in place (insertion, removal of a key or a prefix, the combines, retain/remove by another tree) returns an error, because a blob cannot be read or because the closure given to it fails, the tree can still be read completely; every key has the value it had before or the value the operation would have given it, and no other key appears; a failed insertion can simply be repeated.", "quantifier": "all trees in memory or attached to a lawful store and their histories, all subsets of blobs that cannot be read, all closures and all inputs on which they fail, all keys", "why_tests_cant": "the error can occur at any of the blob reads and closure calls of a recursive merge, for every shape of the two trees; what is left is a half merged tree that no test constructs", "anchors": ["src/node/mod.rs: TreeNode::outer_combine_with, inner_combine_with, left_combine_with, retain_prefix_with, remove_prefix_with and their _children_with loops", "src/node/mod.rs: try_insert, try_remove, try_remove_prefix, try_outer_combine_with", "inplace-vec-builder (not in the repository)"]}
{"id": "C68", "title": "Storing a tree succeeds", "statement": "Attaching a tree to a store and reattaching it succeed whenever the store accepts the blocks: with a paged file store whose pages have at least 98312 bytes, every tree whose keys and values each fit into a page can be stored at any time, also after I/O errors and crashes, as long as the file has room; the id returned by reattach then loads the tree.", "quantifier": "all trees in memory or on a store and the histories that made them, all page sizes from 98312 bytes, all histories of the store including I/O errors and crashes", "why_tests_cant": "the size of the block written for a node depends on the number of its children and on the lengths of their edges, values and ids, so the worst case is a tree of a shape no test builds", "anchors": ["src/node/mod.rs: TreeNode::serialize", "src/node/mod.rs: RadixTree::try_attached, RadixTree::try_reattach", "src/store/paged_file_store.rs: PagedFileStore::write, Inner::append", "src/store/mem_store.rs: MemStore::write"]}
{"id": "C69", "title": "Clones of trees are independent in memory", "statement": "Trees share memory with their clones and are changed in place where memory is not shared; nevertheless every program of creations, clones, insert, remove, remove_prefix, in-place joins, prefix filters and drops on any number of trees runs without undefined behaviour and without panic, and every tree holds exactly what the operations on it alone say, also when it is the second operand of an in-place operation on a tree that shares memory with it.", "quantifier": "all programs on any number of in-memory trees, all keys, values and closures that do not panic, debug and release builds", "why_tests_cant": "the sharing pattern depends on the whole history of clones and changes, and a wrong reference count or an in-place change of a shared vector shows only in particular histories, as memory corruption", "anchors": ["src/node/mod.rs: TreeNode, NodeData, Drop, Clone, load_children_mut, outer_combine_with, inner_combine_with, left_combine_with, retain_prefix_with, remove_prefix_with, InPlaceVecBuilder use", "src/lib.rs: RadixTree clone"]}
{"id": "C70", "title": "Saving is incremental", "statement": "Storing a tree again writes only what was changed since the tree was loaded or last stored: one block for the root and, for each insert, remove or remove_prefix in between, at most the length of the key plus five blocks, and for each in-place combine with an in-memory tree at most its key bytes plus eight blocks per entry plus five; the number of entries of the stored tree does not matter, and saving an unchanged tree writes one block. Storing an in-memory tree of n entries the first time writes at most 6n+3 blocks and one for the root when it is saved.", "quantifier": "all stores that return what was written, all histories of creating, loading, cloning, changing, attaching and reattaching trees (with writes of other users and refused writes in between), all keys, values and closures", "why_tests_cant": "the parts of a tree that are rewritten depend on how its edges are split and merged and on what was loaded before, and a node wrongly treated as changed costs a rewrite of everything below it only in particular histories", "anchors": ["src/node/mod.rs: TreeNode::serialize, TreePrefix::serialize, TreeValue::serialize, TreeChildren serialize, split, canonicalize, load_children_mut, outer_combine_with, inner_combine_with, left_combine_with, remove_prefix_with, retain_prefix_with", "src/node/mod.rs: try_reattach, try_attached, try_load"]}
{"id": "C71", "title": "Calls on an attached tree read only what they need", "statement": "A call on a tree attached to a store depends on few blocks of the store. Looking up a key (get, contains_key, has_prefix, filter_prefix) or changing one key or prefix (insert, remove, remove_prefix) depends on at most two blocks per byte of the key and a constant; an in-place combine with an in-memory tree on a number of blocks bounded by the key bytes of the in-memory tree; first/last entry and value on a number bounded by the length of the key found; a prefix scan on a number bounded by the prefix and the entries found; the first j items of an iterator on a number bounded by the keys of these items. None of these bounds mentions the size of the tree. If all other blocks are lost or damaged, or read slowly, the outcome is the same.", "quantifier": "all lawful stores, all histories of calls that lead to the attached tree, all keys, prefixes, in-memory trees, combining functions, all numbers of items, and all readers that agree about the needed blocks and give anything for the others", "why_tests_cant": "a test can count the reads for one tree and one key; that no layout of any tree makes a lookup read siblings, and that damage elsewhere never changes an answer, ranges over all trees and all ways of damaging the store", "anchors": ["src/node/mod.rs: find, load_children, load_prefix, outer_combine_with, left_combine_with, inner_combine_with, remove_prefix_with, retain_prefix_with, KeyValueIter::next0, scan_prefix, first_entry, last_entry, first_value, last_value", "src/node/mod.rs: RadixTree<S>::try_get, try_contains_key, try_has_prefix, try_filter_prefix, try_insert, try_remove, try_remove_prefix, try_iter, try_scan_prefix"]}
{"id": "C72", "title": "Threads that share a store do not disturb each other", "statement": "Several threads may use trees attached to clones of the same store at the same time. Whatever the other threads write, and however their accesses interleave with those inside a call, every call of a thread returns, fails only if the store refuses a write, and has the effect it would have if the thread were alone. What a thread attached or saved can be read by every thread, then and after all later writes.", "quantifier": "all lawful stores, all histories of calls of each thread, all interleavings of the accesses to the store (each read and each write is one step under the lock of the store)", "why_tests_cant": "Interleavings are unbounded and a test sees only the few its scheduler happens to produce.", "anchors": ["src/store/mem_store.rs: MemStore (Arc<Mutex>)", "src/store/paged_file_store.rs: PagedFileStore (Arc<Mutex<Inner>>)", "src/store/blob_store.rs: BlobStore (Send + Sync)", "src/node/mod.rs: try_attached, try_load"]}
{"id": "C73", "title": "Trees can be combined wherever they live", "statement": "The combining calls take a second tree with a store of its own. Whether each tree is in memory or attached, and to the same store or to different ones, outer/inner/left combine (in place or into a new tree), the predicates, remove_prefix_with and retain_prefix_with give exactly the result the two contents determine, and the result never needs the second tree's store. No such call panics.", "quantifier": "All pairs of trees, each built in memory by any program or attached to any lawful store by any history with keys stored inline; all combining functions, predicates and selectors; debug and release builds.", "why_tests_cant": "Tests combine trees of the same kind. Whether entries of one store leak into a tree of the other as unreadable references depends on which subtrees are copied, shortened or converted, for every pair of shapes.", "anchors": ["src/node/mod.rs: outer_combine_with, inner_combine_with, left_combine_with, try_remove_prefix_with, try_retain_prefix_with, try_outer_combine, try_inner_combine, try_left_combine", "src/node/mod.rs: DetachConverter, TreeNodeRef::clone_shortened"]}
{"id": "C74", "title": "Calls on browser files succeed when the browser works", "statement": "After any past, including failed operations of the browser and closed pages, a browser file and the browser file system are never stuck: as long as the browser's own operations succeed from now on, files are below 2 GiB and space is left, opening and deleting directories and files, writing, appending, truncating, flushing, asking the length, and reading below it all succeed, and the reads return the bytes of the file.", "quantifier": "All histories of calls with any pattern of failing browser operations and restarts, names without '?', directories deleted only while closed; all next calls with offsets and lengths below 2^31; less than 2^61 bytes stored.", "why_tests_cant": "A file left by an unlucky sequence of partial failures might refuse every later call; tests try few such sequences, and a specification that always allows an error does not notice.", "anchors": ["browser/src/web_cache_fs.rs: WebCacheFile::write, append, truncate, read, length, execute_plan, add, truncate", "browser/src/web_cache_fs.rs: WebCacheFs::run, WebCacheDir", "browser/src/sync_fs.rs: SyncFs, SyncDir, SyncFile"]}
{"id": "C75", "title": "Paging files accept data when the file below works", "statement": "After any past, a paging file is never stuck: as long as the operations of the file below succeed from now on, opening succeeds; and while it is open and the file has room for one more page, sync succeeds and so does appending any blob that fits into a page with its header.", "quantifier": "All page sizes, all files below that keep what was written, in particular files in the browser cache; all histories of calls with any faults of the file below; all blobs of at most page size minus 12 bytes.", "why_tests_cant": "Errors are always allowed by the properties about what was stored; that a history of failures cannot leave the paging file refusing everything needs all histories.", "anchors": ["browser/src/paging_file.rs: PagingFile::new, append_length_prefixed, sync, close_page, remaining", "browser/src/web_cache_fs.rs: WebCacheFile::write"]}
{"id": "C76", "title": "Trees can be stored in browser files", "statement": "After any past of a browser file that was only appended to, with failed browser operations, restarts and other files next to it: if the browser works now, the file is open and there is room, attaching a tree to the file and reattaching a tree on it succeed, and the id returned loads the same contents.", "quantifier": "All trees built by any program, or on the file by any history, whatever parts are loaded or changed; all histories of the file and the file system; keys and values up to any size below 2 GiB.", "why_tests_cant": "The number and sizes of the blobs depend on the shape of the tree, and whether a write is refused depends on the whole past of the file.", "anchors": ["src/node/mod.rs: RadixTree::attached, reattach, serialize", "browser/src/sync_fs.rs: BlobStore for SyncFile", "browser/src/web_cache_fs.rs: append_length_prefixed, add, execute_plan"]}
{"id": "C77", "title": "Synced blocks survive power failures", "statement": "Once PagedFileStore::sync has returned Ok, every block written before can be read, with the bytes written, after a power failure and reopening the file, and the store goes on working. (Holds for blocks written before the file was flushed by its owner; fails for sync, which does not flush.)", "quantifier": "all sequences of writes, reads, reopenings, I/O errors, crashes, syncs, flushes and power failures, all page sizes, and all ways in which the changes since the last flush can be partly lost", "why_tests_cant": "what is lost depends on the order in which the operating system writes to the disk; a test cannot cut the power at every moment with every such order", "anchors": ["src/store/paged_file_store.rs: PagedFileStore::sync, Inner::commit, Inner::append, Inner::new", "src/store/blob_store.rs: BlobStore::sync"]}
{"id": "C78", "title": "What is saved depends only on the contents", "statement": "Saving a tree in memory (attached, reattach) to a store has an effect that depends only on the tree's entries and the store: two trees with the same entries, built by different programs, make the store write the same blobs and return the same id, or fail in the same way.", "quantifier": "all pairs of trees in memory made by any programs in any builds with equal contents, all stores (also failing ones) and all their states", "why_tests_cant": "two trees can reach equal contents through endlessly many histories of insertions, removals and combinations, with different node layouts in memory; a test compares a few", "anchors": ["src/node/mod.rs: TreeNode::try_attached, NodeConverter::attach/serialize, RadixTree::try_attached, try_reattach"]}
{"id": "C79", "title": "Space is linear in the contents", "statement": "A tree in memory with n keys never has more than 2n - 1 nodes (one if empty), its edges together are never longer than its keys together, and no path from the root has more nodes than the longest key has bytes after the root's edge, plus one, whatever was inserted and removed before.", "quantifier": "all trees in memory made by any programs of API calls", "why_tests_cant": "a removal or combination that leaves an empty or single-child node behind shows only for particular histories and is invisible through lookups", "anchors": ["src/node/mod.rs: TreeNode::unsplit, split, insert/remove, outer_combine_with, inner_combine_with, left_combine_with, retain_prefix_with"]}
{"id": "C80", "title": "Tidying up browser files loses nothing", "statement": "The plan computed by open for the chunks left behind by crashes, executed on the file and itself interrupted anywhere, never changes a byte before the first gap of the file nor where that gap is; once it has been executed completely, exactly the bytes before the gap are stored, each once, and the plan for the result is empty.", "quantifier": "all histories of writes, appends, truncations, failed cache operations, closings of the page, reopenings and interrupted tidyings, and all points at which the tidying is interrupted", "why_tests_cant": "the tests compare five plans with expected lists; that executing a plan preserves the contents at every crash point, for every set of chunks that crashes can leave, cannot be enumerated", "anchors": ["browser/src/web_cache_fs.rs: open, get_file_range, execute_plan, read"]}
{"id": "C81", "title": "Trees keep working through failing operations", "statement": "After any sequence of operations in place on a tree - insert, remove, remove_prefix, the in-place combines and the removal or retention by a prefix tree - each of which succeeded or returned an error because a store could not be read or a closure failed, the tree can still be read and any further such operation on it (whose other tree may itself have such a past) either succeeds with exactly the contents it should give, or, only if a store or a closure fails again, returns an error leaving every key with its old or its new value or among those the operation may lose. It does not panic unless a stored tree is involved. Queries on such trees, also the predicates over two of them, agree with their entries; two of them can be combined into a new tree with exactly the contents it should have, or an error only if a store or the closure fails; and such a tree can be detached, saved and loaded with its contents.", "quantifier": "all histories of in-place operations on trees in memory or stored, all points at which readers and closures fail, all further operations", "why_tests_cant": "the trees left behind by failures have shapes (nodes without values, unmerged edges) that no successful operation produces; tests would have to inject every combination of failures before every operation", "anchors": ["src/node/mod.rs:outer_combine_with", "src/node/mod.rs:left_combine_with", "src/node/mod.rs:remove_prefix_with", "src/node/mod.rs:retain_prefix_with", "src/node/mod.rs:try_insert", "src/node/mod.rs:outer_combine", "src/node/mod.rs:inner_combine", "src/node/mod.rs:left_combine", "src/node/mod.rs:left_combine_pred"]}
{"id": "C82", "title": "Merging is independent of order", "statement": "Merging any number of trees in memory pairwise into one, with outer combines (keys of either) or inner combines (common keys) and a commutative and associative function for the values of common keys, gives the same tree - same lookups, same iteration, same saved form - whatever the order and grouping of the merges and whether they work in place or return new trees. If the function also maps two equal values to that value, merging the same tree in repeatedly makes no difference. The result has exactly the keys of any (or of all) of the trees.", "quantifier": "all finite families of trees in memory built by any programs, all merge plans over them, all commutative and associative functions", "why_tests_cant": "the number of orders and groupings is exponential in the number of trees, and replicas that disagree after merging in different orders only show up on particular combinations of keys", "anchors": ["src/node/mod.rs:outer_combine", "src/node/mod.rs:outer_combine_with", "src/node/mod.rs:inner_combine", "src/node/mod.rs:inner_combine_with", "src/lib.rs:RadixTree"]}
{"id": "C83", "title": "Reading stored nodes stays within the block", "statement": "Whatever bytes a block read from a store has - also garbage - and whatever is in memory around it: loading a tree from it, iterating over it, searching it and reading the nodes found, in any order and number of calls, only reads bytes of the block, does not panic on a bounds check, and returns what the bytes of the block say.", "quantifier": "all contents of blocks, all contents of the memory around them, all sequences of calls on an iterator over a block and of reads of the nodes it returned", "why_tests_cant": "nodes in a block are raw pointers with lengths taken from the data, read without a check; whether a read leaves the block depends on the bytes, and a test rarely notices when it does", "anchors": ["src/node/mod.rs:BorrowedBlobRef", "src/node/mod.rs:BorrowedTreeNode::read_one", "src/node/mod.rs:BorrowedTreeNodeIter", "src/node/mod.rs:TreeNode::deserialize"]}
{"id": "C84", "title": "Values taken from a tree stay valid", "statement": "A value that get has returned for a tree in memory can be read as long as it is not dropped and always has the bytes it had when it was taken, whatever is done afterwards to the tree it came from, including changing the entry and dropping the tree, and to any other tree.", "quantifier": "all programs of tree operations before and after the lookup, all trees in memory with any sharing, all keys", "why_tests_cant": "values longer than eight bytes are shared with the tree by reference counting through unions; a wrong count shows only in particular histories, and need not show at all", "anchors": ["src/node/mod.rs:TreeNode::get", "src/node/mod.rs:ValueRef::to_owned", "src/node/mod.rs:CompactOwnedBlob", "src/node/mod.rs:Value"]}
{"id": "C85", "title": "Questions to trees that share memory", "statement": "contains_key, has_prefix, is_empty, inner_combine_pred and left_combine_pred on trees that share memory with others, or that are the same tree, give the answer that the contents of the trees determine, read no freed memory, free every temporary copy they make, also when they return early, and leave all trees and values as they are.", "quantifier": "all programs of tree operations before the question, all questions about all trees they leave, all user predicates", "why_tests_cant": "which memory the trees share depends on the whole history, and the temporary copies depend on where the keys of the two trees split; tests see the answer, not a freed or leaked block", "anchors": ["src/node/mod.rs: inner_combine_pred, inner_combine_children_pred, left_combine_pred, left_combine_children_pred, TreeNode::contains_key, TreeNode::has_prefix, OuterJoin"]}
{"id": "C86", "title": "Grouping shares memory safely and is a snapshot", "statement": "Programs that create, clone, share, change and drop trees while iterators over groups (group_by) are in use have no undefined behaviour and leak nothing beyond C58. Each iterator gives the groups of the tree as it was when the iterator was made, in order and then the end, whatever is done in between to the tree, its clones, the trees already given and other iterators. Changing a group never changes the tree it came from. The groups are where the predicate says to cut and together hold the map.", "quantifier": "All programs over trees, values, iterators over entries, values and groups, of any length and in any order; all predicates on path and value; debug and release builds", "why_tests_cant": "The iterator holds raw pointers into shared, reference counted vectors of nodes. A test runs one order of operations; use after free, double drop or a changed group shows only for particular sharing patterns.", "anchors": ["src/node/mod.rs: GroupBy, GroupBy::next0, try_group_by", "src/node/mod.rs: TreeNodeIter, OwnedTreeNodeIter, IterKey", "src/node/mod.rs: TreeNode::set_prefix_slice, set_children_arc_opt, Clone for TreeNode"]}
{"id": "C87", "title": "The whole in-memory API at once behaves like plain maps", "statement": "Take any program over any number of in-memory trees that mixes creation, clone, insert, remove, all combines, prefix operations, get, first and last values and entries, iterators over entries, values, scans and groups, keys and blobs taken out of them, questions that decide what is done next, reads of bytes and drops, in any order; apart from the uses of filter_prefix and has_prefix on an empty tree and of retain_prefix_with that C04, C10 and C20 describe, and with the keys that scan_prefix really gives (C08). It has no undefined behaviour and does not panic; every tree, value, key and blob it has and every byte it reads is what the same program gives when each tree is a map of its own and each iterator a list; iterators are snapshots; and when all is dropped the memory is freed, up to the empty vectors of C58. What the program gives is defined and determined as long as it only uses what has not been dropped.", "quantifier": "all programs of any length over the in-memory API, all keys, values, closures and prefixes, all sharing that arises, debug and release builds", "why_tests_cant": "each operation alone is tested; a wrong reference count, a stale raw pointer or a node changed while shared shows only where particular operations, iterators and drops are interleaved over a particular sharing of memory", "anchors": ["src/node/mod.rs: TreeNode, NodeIter, ValueIter, GroupBy, first_value, last_value, first_entry, last_entry, scan_prefix", "src/node/mod.rs: IterKey::to_owned_blob", "src/node/mod.rs: RadixTree"]}
{"id": "C88", "title": "Closures that panic inside combines and in-place operations leave memory sound and all trees usable", "statement": "If a closure passed to outer_combine_with, inner_combine_with, left_combine_with, remove_prefix_with, retain_prefix_with, outer_combine, inner_combine or left_combine panics (or a predicate of the prefix operations does) and the panic is caught, no memory is used after it was freed, freed twice or leaked; the tree that was being changed in place can still be read, changed, cloned and dropped, and each of its entries is as before the call, as after it, or gone (only where the closure panicked, or where the vector builder drops the rest of its source); a combine into a new tree changes nothing; clones, the second tree and values taken before are unchanged. A combine panics exactly if the closure panics for the values of a key that both trees have.", "quantifier": "all programs of in-memory calls on any number of trees that share memory, with any closures panicking for any values, any number of times, and any calls afterwards", "why_tests_cant": "which closure call panics, what memory is shared at that moment and what is done afterwards are unbounded", "anchors": ["src/node/mod.rs:TreeNode::outer_combine_with", "src/node/mod.rs:TreeNode::inner_combine_with", "src/node/mod.rs:TreeNode::left_combine_with", "src/node/mod.rs:TreeNode::remove_prefix_with", "src/node/mod.rs:TreeNode::retain_prefix_with", "src/node/mod.rs:NodeSeqBuilder", "src/node/mod.rs:TreeNode::take_value_opt", "src/node/mod.rs:TreeNode::outer_combine", "src/node/mod.rs:TreeNode::inner_combine", "src/node/mod.rs:TreeNode::left_combine"]}
{"id": "C89", "title": "Damaged stores: no panic outside four kinds of damage, and lookups end", "statement": "On a store with arbitrary contents (wrong bytes, cut off or missing blobs, ids that point anywhere, cycles) a loaded tree answers get, contains_key, has_prefix, iter, values, scan_prefix, group_by and detached with a result or an error and does not panic, also after any number of insertions, removals and in-place combines with trees in memory in a release build, which do not panic either; the only exceptions are a reachable record whose edge is an id without bytes, one whose children field is not an id, an id for which the store panics, and, for first and last entries, a blob of children without a record. Each of these does lead to panics. A lookup looks at no more nodes than the key has bytes and two more, even if blobs form cycles, unless a long edge is stored as an empty blob; then it may never return.", "quantifier": "all stores and contents, all trees on them, all sequences of changes and questions, all keys", "why_tests_cant": "the damage is arbitrary; fuzzing cannot exhaust contents and histories", "anchors": ["src/node/mod.rs:BorrowedTreeNode::read_one", "src/node/mod.rs:BorrowedTreeNode::load_children", "src/node/mod.rs:BorrowedTreeNode::load_prefix", "src/node/mod.rs:TreeNode::load_children_mut", "src/node/mod.rs:find", "src/node/mod.rs:first_value", "src/node/mod.rs:KeyValueIter"]}
{"id": "C90", "title": "A tree database in a file of the browser file system, while other threads use it", "statement": "Take a file of the browser file system that was never written, or was deleted and not written since, whatever was done with the file system before. A paging file in it, used through the synchronous handles while other threads use the file system for other files and whatever browser operations fail: an id returned by append since the paging file was opened loads its bytes until it is opened again, and nothing panics; after one sync at the end the blobs stay through faults, restarts and calls of others; trees on it keep the contract of C25-C34, and after a successful sync every id that reattach returned loads the contents the tree had then, when the file system works and the file has less than 2^31 bytes. Not meant: blobs of the sizes where paging files fail (C49), names with a question mark (C52), and deleting directories while the paging file is used.", "quantifier": "all histories of the file system, all names, page sizes, calls, blobs, tree histories, all faults and calls of other threads at every point between the calls", "why_tests_cant": "the interleavings of threads, faults and restarts cannot be enumerated, and browser caches are not available in unit tests", "anchors": ["browser/src/sync_fs.rs:SyncFile::length", "browser/src/sync_fs.rs:SyncFile::read", "browser/src/sync_fs.rs:SyncFile::write", "browser/src/paging_file.rs:PagingFile", "browser/src/web_cache_fs.rs:WebCacheFs", "browser/src/browser.rs:tree_test_sync"]}
{"id": "C91", "title": "The browser's test program counts right, with every tree and every fault", "statement": "The program that the browser crate runs deletes and opens a directory and a file, makes a paging file in it, collects pairs into a tree, counts its entries, attaches it, syncs, counts the values and the entries of the attached tree, detaches it and counts again. Whatever was stored in the browser cache before, whatever pairs are given and whichever browser operations fail, it ends without a panic and either returns an error or logs four times the number of different keys, and the last tree has for each key the value of its last pair. When no browser operation fails and there is room it succeeds; with its own two million numbers it logs two million four times. On any other store the same holds, and it succeeds when the store accepts the writes.", "quantifier": "all earlier histories of the browser cache, all names, page sizes, lists of pairs and faults, debug and release builds; all stores that keep their contract", "why_tests_cant": "runs over all inputs and faults; the program runs only in a browser", "anchors": ["browser/src/browser.rs:tree_test_sync", "browser/src/browser.rs:do_test", "browser/src/paging_file.rs:PagingFile::new", "browser/src/sync_fs.rs:SyncDir::open_file"]}
{"id": "C92", "title": "Files opened with different page sizes, and page sizes that do not work", "statement": "A file of the paged store may be opened with a different page size each time. Whatever the sizes (1 to 2^32, most of which are refused), no call panics, reading an id returned by an earlier successful write gives exactly the data written or an error and never other bytes, new ids are larger than all earlier ones, and once the file is opened with the page size the data was written with, the data can be read. A page size that is not a multiple of 8 is refused and leaves the file as it is. (Expected but false: that data can be read with every page size; that page size 0 is refused; that page sizes above 2^32 work.)", "quantifier": "all sequences of openings with any page sizes, writes and reads with any data and ids, with I/O errors or crashes at any point", "why_tests_cant": "the sequences of page sizes, writes, reads and faults are unbounded; a test tries a few page sizes", "anchors": ["src/store/paged_file_store.rs: PagedFileStore::new, Inner::new, append, bytes, load_recent"]}
{"id": "C93", "title": "Loading a record by its position in a file of the browser file system", "statement": "A file of the browser file system may hold records (a length in four bytes, then the data) at known positions next to other data. A record that was put at a position by one successful call (a write of its bytes or an append) is what loading at this position gives, whenever the file is open, with any faults, restarts and calls on other files in between, as long as no later call writes to its bytes, cuts them off or deletes the file or its directory; the rest of the file may be written, with success or without. While all changes of the file succeeded, what loading returns is always a record whose bytes are the contents of the file at this position, for any position; and loading never panics where the last byte of the length is not zero. (Expected but false: that loading at any position gives the record there or an error: it panics in holes and at the end of the file, after which calls on all files fail; it fails for records written in pieces; and after a write that failed at its last step it returns data that reading no longer shows.)", "quantifier": "all histories of commands on any files and directories with any data, faults during them and restarts; all positions and records", "why_tests_cant": "the histories, the positions of other writes around the record and the points of failure are unbounded; a test loads a few records from a few files", "anchors": ["browser/src/web_cache_fs.rs: WebCacheFile::load_length_prefixed, append_length_prefixed, load_chunks, intersecting_chunks, add, truncate, execute_plan"]}
{"id": "C94", "title": "What printing a tree shows", "statement": "Printing a tree of the in-memory kind always ends without an error, and the lines that show a value show exactly the values of the entries of the tree, in hexadecimal, each once and in the order of the keys. Two such trees print the same text (reference counts aside) exactly if they have the same contents. Printing a tree that is attached to a working store always ends without an error too and shows, in the order of the keys, for every entry the value or an id under which the store has the value. If reads of the store fail, what is printed is the same text or a first part of it, followed by the error.", "quantifier": "all in-memory trees built by any program of calls; all attached trees after any history on any lawful store; all patterns of failing reads", "why_tests_cant": "the text depends on the whole shape of the tree; that no two trees with different contents print alike, and that no tree with the same contents prints differently after another history, cannot be covered by examples", "anchors": ["src/node/mod.rs: RadixTree::dump, RadixTree::try_dump, TreeNode::dump, BorrowedTreeNode::dump, TreeNodeRef::dump, Debug for OwnedBlobRef, Debug for BorrowedBlobRef", "src/util.rs: Hex"]}
{"id": "C95", "title": "Walking a tree group by group ends and shows the shape of the keys", "statement": "A program that prints a tree in memory, asks it for the groups that are longer than its own prefix, and does the same with each of them unless the tree is a leaf, ends without a panic for every tree. The lines it prints, in order, show exactly the places at which the keys fork (keys, and common prefixes after which keys continue differently), each with the value that is there, and indented by the number of such places above it; a value at which keys continue is shown once more, one step to the right, among the groups of its tree. The check for leaves is needed: a tree with one entry is its own only group.", "quantifier": "all trees in memory that can be made by calls of the library, in debug and release builds", "why_tests_cant": "The recursion has no visible bound: it ends only because each group of a tree is a leaf or has a longer prefix, which must hold for all trees, including those with one key that are not marked as leaves. A test runs it on a few trees.", "anchors": ["examples/dump.rs:dump", "src/node/mod.rs:RadixTree::group_by", "src/node/mod.rs:RadixTree::is_leaf", "src/node/mod.rs:ValueRef::data", "src/lib.rs:radixtree!"]}
{"id": "C96", "title": "Combining trees in place equals a loop of single calls", "statement": "Combining a tree in place with another one (outer, left and inner), with a closure that keeps, replaces or deletes the value, gives a tree that cannot be told apart, by lookups, iteration or what is written when it is saved, from the one that a loop of single calls makes: insert or combine each entry of the second tree (outer), combine those that are present (left), or go through the first tree and combine or remove each entry (inner). In particular the union in one call equals inserting the entries one by one. For closures that do not delete, the outer combination (and the left one in release builds) also equals the loop, for lookups, if the first tree is in a store.", "quantifier": "all pairs of trees in memory that can be made by calls of the library, all closures on the two values, debug and release builds; with closures that do not delete also all first trees in stores", "why_tests_cant": "The joins walk two trees at once and the single calls walk one path; that they agree, down to the saved bytes, must hold for all shapes of the two trees and all closures, while a test compares a few.", "anchors": ["examples/bulk_union.rs:do_test", "src/node/mod.rs:RadixTree::outer_combine_with", "src/node/mod.rs:RadixTree::left_combine_with", "src/node/mod.rs:RadixTree::inner_combine_with", "src/node/mod.rs:RadixTree::insert", "src/node/mod.rs:RadixTree::remove"]}
{"id": "C97", "title": "A tree taken apart can be put together again", "statement": "Collecting the entries that the iterator of a tree yields gives a tree that cannot be told apart from it by lookups, iteration or what is written when it is saved. The same holds for the entries of all the groups that group_by yields, read group by group, wherever the closure splits. For a tree in a store, both give the tree that detaching gives. The part of a tree below a prefix (filter_prefix to the same prefix) and the rest (remove_prefix) give the tree again when they are combined, in either order and whatever the closure for common keys does. Moving the part below a prefix to a second prefix and from there to a third is the same as moving it there at once, if the part is not empty; for trees in stores this is meant for lookups.", "quantifier": "all trees in memory that can be made by calls of the library and all trees in lawful stores, all prefixes, all closures for splitting that return and all closures for common keys, debug and release builds", "why_tests_cant": "A lost, duplicated or changed entry, or a shape that depends on the order of insertion, may only show for some shapes of tree, split or prefix; tests compare a few.", "anchors": ["src/node/mod.rs:RadixTree::iter", "src/node/mod.rs:RadixTree::group_by", "src/node/mod.rs:RadixTree::from_iter", "src/node/mod.rs:RadixTree::filter_prefix", "src/node/mod.rs:RadixTree::remove_prefix", "src/node/mod.rs:RadixTree::detached"]}
{"id": "C98", "title": "What the directory example prints", "statement": "The example that groups a tree of paths with `group_by`, descending while the path has a slash after the given depth, prints entries of different directories on different lines. (Refuted: by its own tree. What holds: if the place where the keys first fork has no slash after the depth, the whole tree is printed on one line; if it has one, each entry is printed on a line of its own; with a depth larger than the length of that place the program panics.)", "quantifier": "all trees in memory that can be made by calls of the library, all depths, debug and release builds", "why_tests_cant": "Which lines are printed depends on where the keys fork, for trees of any shape; the example has one tree and no test.", "anchors": ["examples/filesystem.rs:print_dirs", "src/node/mod.rs:RadixTree::group_by", "src/node/mod.rs:GroupBy::next0"]}
{"id": "C99", "title": "When a tree is flushed does not matter", "statement": "A program that starts with an empty tree in a store, inserts entries, calls `try_reattach` whenever it likes and once at the end, and stops at the first error, ends with a tree that holds and lists exactly the inserted entries (the last value of each key); the tree loaded from the last id holds the same. It ends with an error only if the store refuses a write, and never panics. Two such programs that insert the same entries and end without an error, flushing at different times and to different stores, end with trees that answer every `get` alike.", "quantifier": "all sequences of insertions and flushes, all keys and values, all stores that keep the BlobStore contract and their states, debug and release builds", "why_tests_cant": "The flushes can be at any place in a sequence of any length, between any insertions; the example flushes one sequence at fixed places and has no test.", "anchors": ["examples/large_tree.rs:main", "src/node/mod.rs:RadixTree::try_insert", "src/node/mod.rs:RadixTree::try_reattach", "src/node/mod.rs:RadixTree::try_load"]}
{"id": "C100", "title": "Numbers in words as keys", "statement": "The example's program that names numbers in words gives every 64 bit number a name, and different numbers different names; so a tree filled with values under the names of different numbers has exactly one entry for each number, wherever the program flushes. (The first part is refuted: from a trillion on, and from minus a trillion down, the program panics. Below that both parts hold.)", "quantifier": "all numbers of an i64 but the least, all lists of different numbers, all values, all places of flushing, all stores that keep the BlobStore contract, debug and release builds", "why_tests_cant": "There are too many numbers to try, and two names that agree would overwrite an entry silently; the example stops at a million.", "anchors": ["examples/large_tree.rs:number_to_words", "examples/large_tree.rs:convert999", "examples/large_tree.rs:convert99", "examples/large_tree.rs:main"]}

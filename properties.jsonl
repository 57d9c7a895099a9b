{"id": "C01", "title": "The tree behaves like an ordered map over any history", "statement": "Starting from an empty tree, for any finite sequence of insert, remove, get, get_mut, first, last, len, is_empty, iterate and clear calls, every call returns exactly what the same call on a plain sorted key->value list returns.", "quantifier": "all finite operation histories, all keys and values, every total order on keys (as long as fewer than 2^64 entries are stored; augmentations without drop glue, see C37)", "why_tests_cant": "Behaviour depends on the whole history of splits, merges, rotations and the leaf cache; tests sample a few histories.", "anchors": ["src/tree/mod.rs:BPlusTree", "src/map.rs:BPlusTreeMap"]}
{"id": "C02", "title": "insert: return value and effect", "statement": "insert(k,v) returns the previous value iff a key equal to k was present, otherwise None; afterwards k maps to v, every other entry is unchanged, and when the key was present the originally stored key object is kept.", "quantifier": "every reachable tree (after any history, including bulk loaded ones), every k and v", "why_tests_cant": "The insert path differs for each combination of full/non-full nodes along the path.", "anchors": ["src/tree/mod.rs:insert", "src/tree/mod.rs:insert_inner", "src/tree/mod.rs:insert_leaf", "src/tree/leaf_node.rs:try_upsert", "src/tree/leaf_node.rs:split_new_leaf", "src/tree/inner_node.rs:split"]}
{"id": "C03", "title": "remove: return value and effect", "statement": "remove(k) returns the value iff k was present and None otherwise; afterwards k is absent and all other entries are unchanged; removing an absent key changes nothing.", "quantifier": "every tree reachable from an empty tree, every key (augmentations without drop glue, see C37)", "why_tests_cant": "Each delete may rotate or merge at every level; which one depends on the sizes of all siblings on the path.", "anchors": ["src/tree/mod.rs:remove", "src/tree/tree_remove.rs:remove_by_ref", "src/tree/tree_remove.rs:handle_leaf_under_size", "src/tree/tree_remove.rs:handle_inner_under_size"]}
{"id": "C04", "title": "len and is_empty count the stored entries", "statement": "len() always equals the number of entries iteration yields, and is_empty() is true exactly when there are none.", "quantifier": "every reachable tree", "why_tests_cant": "Behaviour depends on the whole history of splits, merges, rotations and the leaf cache; tests sample a few histories.", "anchors": ["src/tree/mod.rs:len", "src/tree/mod.rs:is_empty", "src/map.rs:len", "src/set.rs:len"]}
{"id": "C05", "title": "iter yields every entry once, in strictly ascending key order", "statement": "Calling next on a fresh iter() until None yields exactly the stored entries, each once, keys strictly ascending, and continues to return None afterwards.", "quantifier": "every reachable tree", "why_tests_cant": "Relies on the leaf linked list staying consistent under every split and merge.", "anchors": ["src/tree/mod.rs:iter", "src/tree/iterator.rs:Iter::next"]}
{"id": "C06", "title": "reverse iteration is the exact reverse of forward iteration", "statement": "Calling only next_back on a fresh iter() yields the stored entries in exactly descending order and then None for ever.", "quantifier": "every reachable tree", "why_tests_cant": "Relies on every prev link after arbitrary histories.", "anchors": ["src/tree/iterator.rs:Iter::next_back"]}
{"id": "C07", "title": "iter mixed from both ends yields each entry at most once", "statement": "Any interleaving of next and next_back on one iter() yields each entry at most once, the two ends meet and then both return None (the DoubleEndedIterator contract).", "quantifier": "every reachable tree and every interleaving of next/next_back", "why_tests_cant": "Exponentially many interleavings.", "anchors": ["src/tree/iterator.rs:Iter::next", "src/tree/iterator.rs:Iter::next_back", "src/map.rs:iter", "src/set.rs:Iter"]}
{"id": "C08", "title": "iter reports its exact remaining length", "statement": "size_hint()/len() of iter() equals the number of entries it will still yield, at every point (the ExactSizeIterator contract).", "quantifier": "every reachable tree, every point of every traversal", "why_tests_cant": "Must hold after every prefix of every traversal.", "anchors": ["src/tree/iterator.rs:Iter::size_hint", "src/tree/iterator.rs:ExactSizeIterator for Iter"]}
{"id": "C09", "title": "into_iter yields every entry exactly once from both ends", "statement": "Any interleaving of next and next_back on into_iter() hands out every entry exactly once: fronts ascending, backs descending, meeting in the middle; len() is exact at every point; after that both return None for ever; it never panics.", "quantifier": "every reachable tree and every interleaving", "why_tests_cant": "Exponentially many interleavings; the unreachable!() branches and moved-out slots depend on exact bookkeeping.", "anchors": ["src/tree/iterator.rs:IntoIter"]}
{"id": "C10", "title": "first and last are the minimum and maximum entries", "statement": "first()/last() return the entry with the smallest/largest key, and None iff the tree is empty.", "quantifier": "every reachable tree", "why_tests_cant": "Behaviour depends on the whole history of splits, merges, rotations and the leaf cache; tests sample a few histories.", "anchors": ["src/tree/mod.rs:first", "src/tree/mod.rs:last", "src/set.rs:first", "src/set.rs:last"]}
{"id": "C11", "title": "get does not depend on the leaf cache, even with concurrent readers", "statement": "get returns the same result whatever value the cached leaf id holds, so any number of threads calling get through a shared reference, interleaved in any way at their atomic cache load and store, each get the stored value.", "quantifier": "every reachable tree, every cache content, every number of reader threads and every interleaving of their atomic steps", "why_tests_cant": "Schedules cannot be enumerated; the cache is a racy atomic.", "anchors": ["src/tree/mod.rs:get", "src/tree/node_stores/vec_backed.rs:try_cache", "src/tree/node_stores/vec_backed.rs:cache_leaf", "src/tree/leaf_node.rs:in_range"]}
{"id": "C12", "title": "get_mut changes one value and nothing else", "statement": "get_mut(k) refers to the value stored at k (None iff absent); writing through it changes that value only: keys, len and the other entries stay, and later gets see the new value. This holds for every augmentation, even those the write leaves out of sync.", "quantifier": "every reachable tree, every key, every write", "why_tests_cant": "Behaviour depends on the whole history of splits, merges, rotations and the leaf cache; tests sample a few histories.", "anchors": ["src/tree/mod.rs:get_mut", "src/tree/mod.rs:find_descend_mut"]}
{"id": "C13", "title": "Cursor::next moves to the next larger key of the current tree", "statement": "next/next_with_value on a cursor for key k returns a cursor (and value) for the smallest key larger than k in the tree as it is now, None iff there is none, however stale the cursor's hints are.", "quantifier": "every reachable tree, every cursor key, every leaf and offset hint (so every mutation since the cursor was made)", "why_tests_cant": "Any mutation history can separate cursor creation and use.", "anchors": ["src/tree/cursor.rs:next_with_value", "src/tree/cursor.rs:locate_leaf"]}
{"id": "C14", "title": "Cursor::prev moves to the next smaller key of the current tree", "statement": "prev/prev_with_value on a cursor for key k returns a cursor (and value) for the largest key smaller than k in the tree as it is now, None iff there is none, however stale the hints are.", "quantifier": "every reachable tree, every cursor key, every leaf and offset hint", "why_tests_cant": "Any mutation history can separate cursor creation and use.", "anchors": ["src/tree/cursor.rs:prev_with_value"]}
{"id": "C15", "title": "Cursor::value and exists read the current tree", "statement": "value returns what get would return for the cursor's key in the tree as it is now, and exists is true iff that is Some.", "quantifier": "every reachable tree, every cursor key and hints", "why_tests_cant": "Any mutation history can separate cursor creation and use.", "anchors": ["src/tree/cursor.rs:value", "src/tree/cursor.rs:exists"]}
{"id": "C16", "title": "cursor_first / Cursor::first / Cursor::last point at the extreme entries if they exist", "statement": "On a non-empty tree they return a cursor for the smallest/largest entry; on an empty tree they return None.", "quantifier": "every reachable tree, including empty ones", "why_tests_cant": "The empty case after an arbitrary history reads whatever memory the leaf holds.", "anchors": ["src/tree/cursor.rs:first", "src/tree/cursor.rs:last", "src/tree/mod.rs:cursor_first"]}
{"id": "C17", "title": "get_cursor returns a cursor for the key with its current value", "statement": "get_cursor(k) returns a cursor whose key is k together with the value stored at k (None iff absent).", "quantifier": "every reachable tree, every key", "why_tests_cant": "Behaviour depends on the whole history of splits, merges, rotations and the leaf cache; tests sample a few histories.", "anchors": ["src/tree/mod.rs:get_cursor"]}
{"id": "C18", "title": "no operation on an insert/remove-built tree panics or executes undefined behaviour", "statement": "Starting from an empty tree, no sequence of map operations ever reaches a panic, an unreachable branch, an out-of-bounds or uninitialised slot access, an access to a freed node, a debug assertion failure or a non-terminating descent.", "quantifier": "all finite operation histories below 2^64 entries, for augmentations without drop glue", "why_tests_cant": "Memory safety of unsafe code holds for all histories or not at all.", "anchors": ["src/tree/mod.rs", "src/tree/tree_remove.rs", "src/tree/leaf_node.rs", "src/tree/inner_node.rs", "src/tree/slice_utils.rs", "src/tree/node_stores/vec_backed.rs"]}
{"id": "C19", "title": "bulk_load of sorted data equals inserting it", "statement": "bulk_load on data sorted by key yields a tree holding, for every key, the last pair given for it, with len equal to the number of distinct keys.", "quantifier": "all sorted inputs of any length and with any duplicates", "why_tests_cant": "Chunk boundaries at every level depend on the length.", "anchors": ["src/tree/bulk_load.rs:bulk_load", "src/tree/bulk_load.rs:build_inner_layer", "src/tree/bulk_load.rs:DeDupKeepLast"]}
{"id": "C20", "title": "from_iter / collect equals inserting in order", "statement": "Collecting any iterator of pairs (or keys for the set) gives a map whose value for each key is the last value the iterator produced for it.", "quantifier": "all finite input sequences in any order with any duplicates", "why_tests_cant": "Unbounded inputs.", "anchors": ["src/map.rs:from_iter", "src/set.rs:from_iter"]}
{"id": "C21", "title": "a bulk loaded tree supports every later operation", "statement": "After bulk_load/from_iter of any data, any history of insert, get and remove calls behaves like the ordered map and never panics.", "quantifier": "all input lengths, all later histories", "why_tests_cant": "The failing lengths (one child left over at some level) are sparse.", "anchors": ["src/tree/bulk_load.rs:build_inner_layer", "src/tree/tree_remove.rs:handle_leaf_under_size"]}
{"id": "C22", "title": "root augmentation Count equals len", "statement": "For a tree with the Count augmentation, root_augmentation().count() == len() in every reachable state.", "quantifier": "every reachable tree", "why_tests_cant": "Behaviour depends on the whole history of splits, merges, rotations and the leaf cache; tests sample a few histories.", "anchors": ["src/augment/count.rs:Count", "src/tree/mod.rs:root_augmentation"]}
{"id": "C23", "title": "Count: get_by_augmentation(i) is the i-th smallest entry", "statement": "get_by_augmentation(i) returns the i-th entry in key order and None iff i >= len().", "quantifier": "every reachable tree, every index", "why_tests_cant": "Descent depends on all stored subtree counts.", "anchors": ["src/augment/count.rs:locate_in_inner", "src/augment/count.rs:locate_in_leaf", "src/tree/mod.rs:get_by_augmentation"]}
{"id": "C24", "title": "Count: rank_by_augmentation is the number of smaller keys", "statement": "rank_by_augmentation(k) is Ok(r) if k is present and Err(r) otherwise, r being the number of stored keys smaller than k.", "quantifier": "every reachable tree, every key", "why_tests_cant": "Sums stored subtree counts along the path.", "anchors": ["src/augment/count.rs:fold_inner", "src/augment/count.rs:fold_leaf", "src/tree/mod.rs:rank_by_augmentation"]}
{"id": "C25", "title": "Count: remove_by_augmentation(i) removes exactly the i-th entry", "statement": "remove_by_augmentation(i) returns and removes the i-th entry in key order (None and no change iff i >= len()).", "quantifier": "every tree reachable from an empty tree, every index", "why_tests_cant": "Behaviour depends on the whole history of splits, merges, rotations and the leaf cache; tests sample a few histories.", "anchors": ["src/tree/mod.rs:remove_by_augmentation", "src/tree/tree_remove.rs:remove_by_ref"]}
{"id": "C26", "title": "Count: get_mut_by_augmentation(i) changes exactly the i-th value", "statement": "get_mut_by_augmentation(i) refers to the i-th value (None iff i >= len()); writing through it changes only that value.", "quantifier": "every reachable tree, every index and write", "why_tests_cant": "Behaviour depends on the whole history of splits, merges, rotations and the leaf cache; tests sample a few histories.", "anchors": ["src/tree/mod.rs:get_mut_by_augmentation"]}
{"id": "C27", "title": "user augmentations stay in sync", "statement": "For any user augmentation that summarises a run of entries compositionally, root_augmentation() is the summary of exactly the currently stored entries after any history of insert, remove and clear (and of get_mut when the summary ignores values).", "quantifier": "every compositional augmentation, every reachable tree", "why_tests_cant": "The set of augmentations and of histories is unbounded.", "anchors": ["src/tree/mod.rs:new_augmentation_for_id", "src/tree/mod.rs:insert_inner", "src/tree/tree_remove.rs:remove_by_ref", "src/augment/mod.rs:Augmentation"]}
{"id": "C28", "title": "GroupCount: group_count is the number of distinct groups", "statement": "root_augmentation().group_count() equals the number of distinct groups among the stored keys.", "quantifier": "every reachable tree, every group function monotone in the key", "why_tests_cant": "Behaviour depends on the whole history of splits, merges, rotations and the leaf cache; tests sample a few histories.", "anchors": ["src/augment/group.rs:from_leaf", "src/augment/group.rs:merge_with"]}
{"id": "C29", "title": "GroupCount: max_group is the last group with its size", "statement": "root_augmentation().max_group() is the largest group present together with the number of stored keys in it.", "quantifier": "every reachable tree, every monotone group function", "why_tests_cant": "Behaviour depends on the whole history of splits, merges, rotations and the leaf cache; tests sample a few histories.", "anchors": ["src/augment/group.rs:max_group", "src/augment/group.rs:from_leaf"]}
{"id": "C30", "title": "GroupCount: get_by_augmentation((g,i)) is the i-th entry of group g", "statement": "It returns the i-th entry (in key order) among those whose group is g, None iff the group has at most i entries.", "quantifier": "every reachable tree, every monotone group function, every (g,i)", "why_tests_cant": "Behaviour depends on the whole history of splits, merges, rotations and the leaf cache; tests sample a few histories.", "anchors": ["src/augment/group.rs:locate_in_inner", "src/augment/group.rs:locate_in_leaf"]}
{"id": "C31", "title": "GroupCount: rank_by_augmentation gives group and offset in the group", "statement": "rank_by_augmentation(k) is Ok/Err(Some((group of k, number of stored keys of that group smaller than k))), Ok iff k is present.", "quantifier": "every reachable tree, every monotone group function, every key", "why_tests_cant": "Behaviour depends on the whole history of splits, merges, rotations and the leaf cache; tests sample a few histories.", "anchors": ["src/augment/group.rs:fold_inner", "src/augment/group.rs:fold_leaf"]}
{"id": "C32", "title": "ExtractGroupSize returns the size of a group", "statement": "descend_visit(ExtractGroupSize::new(g)) returns the number of stored keys in group g.", "quantifier": "every reachable tree, every monotone group function, every g", "why_tests_cant": "Behaviour depends on the whole history of splits, merges, rotations and the leaf cache; tests sample a few histories.", "anchors": ["src/augment/group.rs:ExtractGroupSize"]}
{"id": "C33", "title": "descend_visit walks one root-to-leaf path chosen by the visitor", "statement": "descend_visit calls the visitor on the root, then on the child it names, down to one leaf, always with that node's current keys, child summaries and values; Cancel gives None, Complete(r) gives Some(r), an out-of-range child index panics.", "quantifier": "every reachable tree, every visitor", "why_tests_cant": "Unbounded visitors.", "anchors": ["src/tree/visit.rs:descend_visit"]}
{"id": "C34", "title": "clear empties the tree and it stays usable", "statement": "After clear the tree is indistinguishable from a new one, and cursors created before still work against the new contents.", "quantifier": "every reachable tree", "why_tests_cant": "Behaviour depends on the whole history of splits, merges, rotations and the leaf cache; tests sample a few histories.", "anchors": ["src/tree/mod.rs:clear"]}
{"id": "C35", "title": "clone is an equal, independent tree", "statement": "clone succeeds on every reachable tree, the clone has the same entries, and later operations on either do not affect the other.", "quantifier": "every reachable tree, all later histories of both", "why_tests_cant": "Slot-level copying of partially initialised arrays depends on every node's size.", "anchors": ["src/tree/leaf_node.rs:Clone", "src/tree/inner_node.rs:Clone", "src/tree/node_stores/vec_backed.rs:Clone"]}
{"id": "C36", "title": "dropping a tree drops every entry exactly once", "statement": "Dropping a tree (or a partially consumed into_iter) drops every entry not yet handed out exactly once, and every inner node it frees owns the slots it drops.", "quantifier": "every reachable tree, every partial consumption", "why_tests_cant": "Double drops hide in rarely reached states.", "anchors": ["src/tree/mod.rs:Drop", "src/tree/iterator.rs:IntoIter::drop", "src/tree/inner_node.rs:Drop"]}
{"id": "C37", "title": "no augmentation value is dropped twice", "statement": "For augmentations owning memory (drop glue), no operation drops an augmentation value that was already moved or dropped.", "quantifier": "all histories, all augmentations with drop glue", "why_tests_cant": "Needs a merge of two inner nodes and a heap-owning augmentation to surface.", "anchors": ["src/tree/inner_node.rs:merge_next", "src/tree/inner_node.rs:Drop", "src/tree/tree_remove.rs:merge_inner_node"]}
{"id": "C38", "title": "tree height stays below the fixed visit stack capacity", "statement": "With fewer than 2^64 entries, the number of inner levels never exceeds the capacity of the breadcrumb stack, so its assertion never fires; the height is logarithmic in the number of entries.", "quantifier": "every reachable tree", "why_tests_cant": "A tree that could violate it does not fit in memory.", "anchors": ["src/tree/entry_ref.rs:VisitStack", "src/tree/consts.rs:MAX_DEPTH"]}
{"id": "C39", "title": "node occupancy", "statement": "In a tree built by insert/remove from empty, every node other than the root is at least a quarter full and none holds more than its capacity; all leaves are at the same depth.", "quantifier": "every tree reachable from an empty tree by insert, get_mut and remove", "why_tests_cant": "Behaviour depends on the whole history of splits, merges, rotations and the leaf cache; tests sample a few histories.", "anchors": ["src/tree/leaf_node.rs:minimum_size", "src/tree/inner_node.rs:minimum_size"]}
{"id": "C40", "title": "BPlusTreeSet behaves like an ordered set", "statement": "insert returns true iff the key was absent, remove returns true iff it was present, contains tells membership, first/last/iter/len/clear agree with the ordered set, over any history.", "quantifier": "all finite histories from an empty set, all keys; histories with removals on a collected set under the condition of C21; without it, right up to a removal that stops at a left-over node", "why_tests_cant": "Behaviour depends on the whole history of splits, merges, rotations and the leaf cache; tests sample a few histories.", "anchors": ["src/set.rs:BPlusTreeSet"]}
{"id": "C41", "title": "union yields the sorted union", "statement": "a.union(&b) yields every key in a or b exactly once in ascending order (the key object of a when in both), and its size_hint always brackets the number of keys left.", "quantifier": "every two reachable sets, every point of the traversal", "why_tests_cant": "Merging interleavings are unbounded.", "anchors": ["src/set.rs:union", "src/set.rs:Union", "src/merge_iter.rs:MergeIterInner"]}
{"id": "C42", "title": "lookups through a borrowed key form agree with lookups by key", "statement": "get, get_mut, remove and contains accept any borrowed form ordered consistently with the keys and return what the lookup by an equal key returns.", "quantifier": "every reachable tree, every consistent borrowed form", "why_tests_cant": "The set of Borrow types is unbounded.", "anchors": ["src/tree/mod.rs:get", "src/tree/mod.rs:remove", "src/tree/leaf_node.rs:locate_slot", "src/tree/inner_node.rs:locate_child"]}
{"id": "C43", "title": "removed nodes leave no garbage behind", "statement": "The node store keeps exactly the nodes of the current tree alive: no leaf or inner node stays allocated after it left the tree.", "quantifier": "every reachable tree", "why_tests_cant": "Only long grow/shrink histories show it.", "anchors": ["src/tree/tree_remove.rs:remove_by_ref", "src/tree/node_stores/vec_backed.rs:NodeStoreVec"]}
{"id": "C44", "title": "the leaf list follows the key order", "statement": "Walking the next links from the first leaf visits exactly the leaves of the tree in key order, and the prev links are the exact inverse.", "quantifier": "every reachable tree", "why_tests_cant": "Links are rewritten by splits, merges and the bulk loader; a wrong link only shows when an iteration crosses it after a particular history.", "anchors": ["src/tree/leaf_node.rs:set_next", "src/tree/leaf_node.rs:split_new_leaf", "src/tree/tree_remove.rs:merge_leaf_node_left", "src/tree/bulk_load.rs"]}
{"id": "C45", "title": "an inconsistent comparison cannot break memory safety", "statement": "Whatever the key comparison answers (not transitive, not antisymmetric, not reflexive), no sequence of calls reads an uninitialised slot, leaves a node, panics or loops; insert adds or replaces at most one entry and only one that compared equal, remove deletes at most one such entry, and lookups return values of entries that compared equal.", "quantifier": "all comparison functions, all probes, all finite histories from an empty tree or from bulk_load of arbitrary (also unsorted) data", "why_tests_cant": "Ord is a safe trait, so soundness must hold for every implementation; a test fixes one comparison and a few keys.", "anchors": ["src/tree/leaf_node.rs:locate_slot", "src/tree/inner_node.rs:locate_child", "src/tree/mod.rs:insert", "src/tree/tree_remove.rs:remove"]}
{"id": "C46", "title": "cursors are safe under any comparison", "statement": "Moving a cursor, reading its value or making one is memory safe and panic free whatever the comparison answers and wherever the cursor came from; what it shows is an entry of the tree.", "quantifier": "all comparison functions, all reachable trees, all cursors (any key, any hint)", "why_tests_cant": "Cursors outlive changes of the tree; their hints can be arbitrarily stale.", "anchors": ["src/tree/cursor.rs"]}
{"id": "C47", "title": "shared lookups are safe under any comparison", "statement": "Readers running get at the same time never get stuck and return values of entries that compared equal, whatever the comparison answers and however their steps interleave.", "quantifier": "all comparison functions, all reachable trees, any number of readers, all interleavings", "why_tests_cant": "Interleavings and comparisons cannot be enumerated.", "anchors": ["src/tree/mod.rs:get", "src/tree/node_stores/vec_backed.rs:try_cache"]}
{"id": "C48", "title": "every entry is dropped once under any comparison", "statement": "Dropping the tree, or draining it with into_iter from both ends and dropping the rest, yields every entry exactly once whatever the comparison answers.", "quantifier": "all comparison functions, all reachable trees, all sequences of next/next_back", "why_tests_cant": "Leaks and double frees only show for particular shapes.", "anchors": ["src/tree/iterator.rs:IntoIter", "src/tree/mod.rs:drop"]}
{"id": "C49", "title": "access through a user's search augmentation", "statement": "For every SearchAugmentation, get_by_augmentation, get_mut_by_augmentation and remove_by_augmentation return normally, agree on one entry of the map or on none, and write or remove that entry only.", "quantifier": "all search implementations, all queries, all reachable trees, all writes", "why_tests_cant": "SearchAugmentation is a safe public trait with user-written methods; its answers index nodes without bounds checks, so soundness is a statement about every implementation.", "anchors": ["src/tree/mod.rs:get_ref_by_augmentation", "src/tree/mod.rs:get_by_augmentation", "src/tree/mod.rs:get_mut_by_augmentation", "src/tree/mod.rs:remove_by_augmentation", "src/augment/mod.rs:SearchAugmentation"]}
{"id": "C50", "title": "iter is safe under any mix of next and next_back", "statement": "Whatever mix of next and next_back is called on Iter, no call panics or reads outside a leaf. The front walk gives the entries in order, the back walk gives them in reverse order independently of the front walk, both give None once next was called len times, and size_hint is len minus the number of next calls.", "quantifier": "all reachable trees, all finite sequences of next and next_back, every position in them", "why_tests_cant": "Double-ended iterators have exponentially many call patterns, and the interesting ones cross leaf borders in the middle.", "anchors": ["src/tree/iterator.rs:Iter"]}
{"id": "C51", "title": "local rules suffice for a user-written search", "statement": "If a SearchAugmentation answers in every node what a function S of the entries below says, given summaries that describe the entries below the children, then get_by_augmentation and remove_by_augmentation return and remove the entry S designates in the whole map.", "quantifier": "all search augmentations and summaries satisfying the rules, all histories, all queries", "why_tests_cant": "The trait is open: the property is about every implementation users may write, on trees of any height.", "anchors": ["src/tree/mod.rs:get_ref_by_augmentation", "src/augment/mod.rs:SearchAugmentation"]}
{"id": "C52", "title": "local rules suffice for a user-written visitor", "statement": "If what a visitor does in each single node meets a specification D of the entries below, given right summaries, its final answer meets D of the whole map; the visit never panics or leaves the tree.", "quantifier": "all visitors and summaries satisfying the rules, all histories, all visitor states", "why_tests_cant": "Visitors are arbitrary stateful programs; tests try a few on a few trees.", "anchors": ["src/tree/visit.rs:descend_visit"]}
{"id": "C53", "title": "local rules suffice for a user-written rank", "statement": "If a RankAugmentation accounts for the entries it is handed, node by node, then rank_by_augmentation accounts for exactly the entries with smaller keys in the whole map, and tells whether the key is present.", "quantifier": "all rank augmentations and summaries satisfying the rules, all histories, all keys", "why_tests_cant": "The trait is open, and the accounting has to be right on every path of every tree.", "anchors": ["src/tree/mod.rs:rank_by_augmentation", "src/augment/mod.rs:RankAugmentation"]}
{"id": "C54", "title": "EvenCount is an index of the even keys", "statement": "With the augmentation of examples/augment_even_count.rs the root summary is the number of even keys and get_by_augmentation(i) is entry number i among those with even keys, None past the end.", "quantifier": "all reachable trees, all offsets", "why_tests_cant": "The example asserts it for one run of insertions and removals.", "anchors": ["examples/augment_even_count.rs:EvenCount"]}
{"id": "C55", "title": "duplicate_key implements a sorted multiset", "statement": "After any sequence of the insert and delete functions of examples/duplicate_key.rs in which no missing key is deleted, the root summary is the size of the multiset and get_by_augmentation(i) gives its i-th smallest element; a deletion of a missing key panics.", "quantifier": "all call sequences shorter than 2^64, all ordered key types, all offsets", "why_tests_cant": "The example runs one fixed sequence.", "anchors": ["examples/duplicate_key.rs:insert", "examples/duplicate_key.rs:delete", "examples/duplicate_key.rs:Count"]}
{"id": "C56", "title": "DateStatistic and CountForYear count right", "statement": "With the augmentation of examples/date_statistic.rs the root statistic gives the first and last date with the number of entries in their year, month and day, computing it never panics, and the visitor CountForYear returns the number of entries of the year.", "quantifier": "all reachable trees, all years", "why_tests_cant": "The merging of statistics has eight cases per child and its errors show only for dates on node borders.", "anchors": ["examples/date_statistic.rs:DateStatistic", "examples/date_statistic.rs:CountForYear"]}
{"id": "C57", "title": "GetTreeDepth gives the height", "statement": "The visitor of examples/visit_depth.rs returns one more than the number of inner levels above every leaf, and the number of entries is between 16*17^(h-1) and 64*65^h for h inner levels.", "quantifier": "all reachable trees, all augmentations", "why_tests_cant": "Tests check one depth for one size.", "anchors": ["examples/visit_depth.rs:GetTreeDepth"]}
{"id": "C58", "title": "an insert interrupted by a panicking augmentation leaves a searchable tree", "statement": "If a call of the user's Augmentation panics at any point of an insert and the panic is caught, the tree still answers every lookup without undefined behaviour; the answers are those of the finished insert except that one contiguous run of entries may not be found; the length is the old one; when the key was already present nothing is lost. If no call panics the insert is the ordinary one.", "quantifier": "all augmentations, all reachable trees, all keys and values, every call of the augmentation as the one that panics, every later lookup and cache content", "why_tests_cant": "Unwinding from the middle of an update needs one test per call site and tree shape; the damage shows only in lookups that go to a particular child.", "anchors": ["src/tree/mod.rs:insert", "src/tree/mod.rs:insert_inner", "src/augment/mod.rs:Augmentation"]}
{"id": "C59", "title": "an interrupted removal leaves a searchable tree unless it was merging two leaves", "statement": "A call of the user's Augmentation panics at some point of a removal and the panic is caught. If the call that panicked is not the one in the merge of two leaves, the tree still answers every lookup without undefined behaviour, with entries that were in it. If it is, the parent still lists the leaf taken out of the store: there is a non-empty run of stored entries (those of that leaf) whose keys all lead a lookup into undefined behaviour.", "quantifier": "all augmentations, all reachable trees (ordered or not), all keys, every call of the augmentation as the one that panics, every later lookup and cache content", "why_tests_cant": "As for C58; reading the freed leaf may even give the right answer in a test.", "anchors": ["src/tree/tree_remove.rs:remove_by_ref", "src/tree/tree_remove.rs:merge_leaf_node_left", "src/tree/tree_remove.rs:merge_leaf_node_with_right", "src/augment/mod.rs:Augmentation"]}
{"id": "C60", "title": "threads sharing a tree cannot tell that they share it", "statement": "Several threads hold a shared reference and each runs its own program of lookups, cursor steps, first/last, len and iteration, choosing later calls by earlier answers. However their steps interleave, and whatever value each relaxed load of the cached leaf returns among those stored so far, a thread that finishes has the result it would have got alone, every answer it saw is right for the stored entries, no thread panics or reads invalid memory, an unfinished thread can always go on, and every schedule ends.", "quantifier": "all reachable trees, all numbers of threads, all programs, all schedules, all values of the cached leaf", "why_tests_cant": "The cached leaf is shared mutable state behind a shared reference; a stale value matters only in particular interleavings, which no test enumerates.", "anchors": ["src/tree/node_stores/vec_backed.rs:cached_leaf", "src/tree/mod.rs:get", "src/tree/mod.rs:locate_leaf", "src/tree/cursor.rs:next_with_value", "src/tree/cursor.rs:prev_with_value"]}
{"id": "C61", "title": "no comparison code, not even one that panics or changes its mind, can corrupt the tree", "statement": "Let the comparison of keys be arbitrary code: it may keep state, answer differently each time it is asked, disagree with ==, or panic (and the caller catches the panic and goes on). Then every program of insert, remove, get, get_mut, cursor calls, first, last, len, iteration, clear and clone, on a new or bulk-loaded tree, runs without undefined behaviour or a panic of its own. Each call does what its name says to some one entry that the comparison called equal at least once, or reports none; a call during which the comparison panics leaves the entries as they were; afterwards iteration, len and drop agree on the entries.", "quantifier": "all comparison code, all program states, all programs and data that fit a usize (removals as in C01)", "why_tests_cant": "Tests use lawful orders. The unsafe code indexes nodes by the results of comparisons, so its safety depends on what adversarial Ord implementations may answer, at every call, in every state.", "anchors": ["src/tree/mod.rs:insert", "src/tree/mod.rs:key_to_ref", "src/tree/leaf_node.rs:locate_slot", "src/tree/leaf_node.rs:in_range", "src/tree/inner_node.rs:locate_child", "src/tree/cursor.rs:next_with_value", "src/tree/bulk_load.rs:bulk_load"]}
{"id": "C62", "title": "dropping a tree drops every value once, even when destructors panic", "statement": "Dropping a tree calls the destructor of every key, value and augmentation it owns (entries, separator keys, child summaries, garbage inner nodes, the root summary) exactly once, and of nothing else; the entries in iteration order. If destructors panic, still none is called twice; a panic while unwinding aborts the process and a single one does not; and what a panic costs is exactly the destructors later in the same loop: of the entries with greater keys (panic in an entry) or of the rest of the same inner node.", "quantifier": "every reachable tree, every set of panicking destructors, dropped in normal running or during unwinding", "why_tests_cant": "Double drops and leaks depend on which slots are initialised after an arbitrary history, and the panicking case on every possible place of the panic.", "anchors": ["src/tree/mod.rs:drop", "src/tree/iterator.rs:IntoIter", "src/tree/inner_node.rs:drop", "src/tree/node_stores/vec_backed.rs:NodeStoreVec"]}
{"id": "C63", "title": "a tree turned into an iterator hands out or drops everything it owned", "statement": "After into_iter, whatever is taken from either end and whenever the iterator is dropped, every value the tree owned has been handed out or its destructor is called exactly once (up to panics of destructors, as in C62).", "quantifier": "every reachable tree, every sequence of next and next_back, every set of panicking destructors", "why_tests_cant": "Needs an account of every owned slot after an arbitrary history and an arbitrary partial consumption.", "anchors": ["src/tree/mod.rs:into_parts", "src/tree/iterator.rs:IntoIter", "src/tree/iterator.rs:drop"]}
{"id": "C64", "title": "clone is safe when Clone code panics", "statement": "Cloning a tree makes exactly one clone of every value the tree owns. If making a clone panics, no clone is dropped twice, the tree itself is untouched, and every clone made is given back except those of entries (panic in an entry) or of the inner node being cloned.", "quantifier": "every reachable tree, every set of panicking clones and panicking destructors of clones", "why_tests_cant": "The panic can come at any of the values, in any shape of the tree.", "anchors": ["src/tree/mod.rs:BPlusTree", "src/tree/inner_node.rs:clone", "src/tree/leaf_node.rs:clone", "src/tree/node_stores/vec_backed.rs:clone"]}
{"id": "C65", "title": "what GroupCount reports, exactly", "statement": "For a group g let the count of a leaf be its entries of g, and, if g is the last group of the leaf and not its first, one ghost more for every entry between the first and the last group of the leaf whose group occurs again there. max_group() is the largest group with its count over all leaves; the query (g, i) returns what is at i when the counts of all leaves are laid one after the other (nothing, if a ghost is there); a rank counts only the leaves from the last node on whose first child the search went into, and in the leaf of the key only the smaller entries of the group; ExtractGroupSize counts no ghosts of the last leaf of the tree. All groups are counted right if and only if in every leaf each group other than its first and its last has one entry.", "quantifier": "every reachable tree, every monotone grouping, every group, index and key", "why_tests_cant": "The counts depend on where the leaves are cut, which depends on the whole history; the library's tests use one grouping and few sizes.", "anchors": ["src/augment/group.rs:from_leaf", "src/augment/group.rs:from_inner", "src/augment/group.rs:locate_in_leaf", "src/augment/group.rs:fold_inner", "src/augment/group.rs:fold_leaf", "src/augment/group.rs:ExtractGroupSize"]}
{"id": "C66", "title": "number of key comparisons", "statement": "A call on a map with n entries compares keys at most 12 + 7 * floor(log2(n) / 4) times, and on a tree with h inner levels at most 7 * (h + 1) times for insert, remove and get_cursor, 2 more for get and get_mut, 5 more for moving or reading a cursor; first, last, len, iteration, clear and clone compare nothing. bulk_load of m items compares at most m - 1 times. The bounds hold whatever the comparisons answer, also if they panic, and counting changes nothing.", "quantifier": "every program of calls on a new or bulk-loaded map, every comparison of every call (arbitrary code with state), every next call; every tree an ordered program reaches", "why_tests_cant": "A test sees a few sizes; that no shape a history can leave, no stale cache or hint and no answer of the comparison makes a call compare more is a statement about all of them.", "anchors": ["src/tree/mod.rs:insert", "src/tree/mod.rs:remove", "src/tree/mod.rs:get", "src/tree/mod.rs:get_mut", "src/tree/mod.rs:locate_leaf", "src/tree/cursor.rs:next_with_value", "src/tree/cursor.rs:locate_leaf", "src/tree/leaf_node.rs:locate_slot", "src/tree/inner_node.rs:locate_child", "src/tree/bulk_load.rs:bulk_load"]}
{"id": "C67", "title": "release builds behave like debug builds", "statement": "Every call and every history gives the same result and the same tree in a release build (no debug_assert!, wrapping subtraction) as in a debug build, unless the debug build panics; for legal histories there is no exception, every tree a debug build reaches is reached by a release build, and conversely if no bulk load left a node over.", "quantifier": "all starts and histories (legal or not), all states of trees, iterators and cursors, all comparisons and augmentations", "why_tests_cant": "Tests run in one profile; the unsafe code behind a debug_assert! is never run in the other one on the same inputs.", "anchors": ["src/tree/tree_remove.rs:merge_inner_node", "src/tree/slice_utils.rs:slice_insert", "src/tree/leaf_node.rs:pop", "src/tree/inner_node.rs:merge_next"]}
{"id": "C68", "title": "no safe call is undefined behaviour in a release build", "statement": "After bulk_load of any sorted data, removing keys is never undefined behaviour in a release build.", "quantifier": "all input lengths, all later removals", "why_tests_cant": "The smallest failing input has 270465 keys, needs a release build, and reads uninitialised memory without necessarily crashing.", "anchors": ["src/tree/tree_remove.rs:merge_inner_node", "src/tree/bulk_load.rs:build_inner_layer"]}
{"id": "C69", "title": "the library's own check of the leaf links passes", "statement": "validate, which test builds run after every bulk load, accepts a tree exactly if the leaves from the first one on form a finite list whose back links agree, and it accepts every tree that any history gives, whatever the comparison does.", "quantifier": "all trees (first half); all starts and legal histories, all comparisons (second half)", "why_tests_cant": "Tests run the check on the few trees they build, and only after bulk loads; a check that loops for ever or accepts too much is never tested.", "anchors": ["src/tree/mod.rs:validate", "src/tree/mod.rs:first_leaf", "src/tree/leaf_node.rs:set_prev"]}

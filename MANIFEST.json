{"claims": [
 {"property": "C01", "status": "proved", "theorems": ["history_refines"], "note": "Every legal history from new, bulk_load or collect. Removal is covered for starts without an undersized last inner node (see C21) and, with drop glue, below 272 entries (see C37); those two limits are part of `legal`."},
 {"property": "C02", "status": "proved", "theorems": ["insert_effect", "history_refines"], "note": ""},
 {"property": "C03", "status": "proved", "theorems": ["remove_effect", "remove_right_or_stops", "history_refines"], "note": "remove_effect is under removal_ok, the limits of C21 and C37; remove_right_or_stops has no condition on bulk loads: the removal is right, or it stops as in C21."},
 {"property": "C04", "status": "proved", "theorems": ["len_counts_entries"], "note": ""},
 {"property": "C05", "status": "proved", "theorems": ["iter_forward"], "note": ""},
 {"property": "C06", "status": "proved", "theorems": ["iter_backward"], "note": ""},
 {"property": "C07", "status": "partial", "theorems": ["iter_mixed_partial", "iter_mixed_refuted"], "note": "False of the code: Iter::next_back has no crossing check. Proved as long as the two ends have not met."},
 {"property": "C08", "status": "partial", "theorems": ["iter_forward", "iter_size_refuted"], "note": "False of the code once next_back was called (it does not decrement len). Proved for forward iteration."},
 {"property": "C09", "status": "proved", "theorems": ["into_iter_both_ends"], "note": ""},
 {"property": "C10", "status": "proved", "theorems": ["first_last_extremes"], "note": ""},
 {"property": "C11", "status": "proved", "theorems": ["get_any_cache", "concurrent_gets"], "note": "concurrent_gets: any interleaving of any number of readers sharing the cache word."},
 {"property": "C12", "status": "proved", "theorems": ["get_mut_effect"], "note": ""},
 {"property": "C13", "status": "proved", "theorems": ["cursor_next_above"], "note": ""},
 {"property": "C14", "status": "proved", "theorems": ["cursor_prev_below"], "note": ""},
 {"property": "C15", "status": "proved", "theorems": ["cursor_value_current"], "note": ""},
 {"property": "C16", "status": "partial", "theorems": ["cursor_ends_partial", "cursor_ends_refuted", "cursor_ends_exact"], "note": "False of the code for the empty tree (cursor_first reads an uninitialised key). Proved for non-empty trees. Missing: nothing more can hold; cursor_ends_exact shows that every empty tree behaves like that."},
 {"property": "C17", "status": "proved", "theorems": ["get_cursor_value"], "note": ""},
 {"property": "C18", "status": "proved", "theorems": ["history_refines", "augmentation_drops_partial"], "note": "Every outcome is Ok: no Panic, UB, Leak or OutOfFuel."},
 {"property": "C19", "status": "proved", "theorems": ["bulk_load_contents"], "note": ""},
 {"property": "C20", "status": "proved", "theorems": ["from_iter_contents"], "note": ""},
 {"property": "C21", "status": "partial", "theorems": ["bulk_history_partial", "bulk_remove_panics", "bulk_remove_always_stops", "bulk_history_safe", "remove_right_or_stops", "collect_remove_refuted"], "note": "False of the code: 4161 keys leave a single leaf under the last inner node and a removal there panics. Proved for every size without such an orphan, in particular up to 4160 keys. Missing: nothing more can hold; bulk_remove_always_stops shows that for every other size removing the greatest keys one by one panics, or is undefined behaviour in a release build when the node left over stands above an inner node (augmentations without drop glue). bulk_history_safe covers every size and every history: the answers are right up to a removal of a stored key, which may panic, or in a release build be undefined, only after such a load."},
 {"property": "C22", "status": "proved", "theorems": ["count_root_is_len"], "note": ""},
 {"property": "C23", "status": "proved", "theorems": ["count_get_nth"], "note": ""},
 {"property": "C24", "status": "proved", "theorems": ["count_rank_smaller"], "note": ""},
 {"property": "C25", "status": "proved", "theorems": ["count_remove_nth", "count_remove_or_stops"], "note": "count_remove_nth has the start condition of C21; count_remove_or_stops has none: the removal is right, or it stops as in C21."},
 {"property": "C26", "status": "proved", "theorems": ["count_get_mut_nth"], "note": ""},
 {"property": "C27", "status": "proved", "theorems": ["root_augmentation_in_sync", "visit_walks_path"], "note": "Any augmentation and any relation its from_leaf/from_inner respect; histories writing through get_mut need an augmentation of the keys only, as the crate documents."},
 {"property": "C28", "status": "proved", "theorems": ["group_count_distinct"], "note": ""},
 {"property": "C29", "status": "partial", "theorems": ["max_group_partial", "max_group_refuted"], "note": "False of the code: from_leaf does not restart the counter at a third group. Proved if every group but the first and last has 1 or at least 63 entries. C65 says exactly what is reported on every tree."},
 {"property": "C30", "status": "partial", "theorems": ["group_get_partial", "group_remove_partial", "group_get_refuted"], "note": "False of the code for the same reason as C29; proved under the same condition. C65 says exactly what is reported on every tree."},
 {"property": "C31", "status": "partial", "theorems": ["group_rank_partial", "group_rank_refuted"], "note": "False of the code: fold_inner forgets the rank when it goes down to the first child. Proved exactly below 272 entries and as an upper bound above, under the condition of C29. C65 says exactly what is reported on every tree."},
 {"property": "C32", "status": "partial", "theorems": ["group_extract_partial", "group_extract_refuted"], "note": "False of the code for the same reason as C29; proved under the same condition. C65 says exactly what is reported on every tree."},
 {"property": "C33", "status": "proved", "theorems": ["visit_walks_path"], "note": ""},
 {"property": "C34", "status": "proved", "theorems": ["clear_is_new"], "note": ""},
 {"property": "C35", "status": "proved", "theorems": ["clone_equal"], "note": ""},
 {"property": "C36", "status": "proved", "theorems": ["drop_once", "into_iter_both_ends"], "note": ""},
 {"property": "C37", "status": "partial", "theorems": ["augmentation_drops_partial", "augmentation_double_drop_refuted", "augmentation_drops_exact"], "note": "False of the code: merging inner nodes drops moved augmentations. Missing: nothing more can hold; augmentation_drops_exact shows that with drop glue exactly the histories merging two inner nodes are undefined behaviour. augmentation_drops_partial: none do while fewer than 272 entries are stored at each removal."},
 {"property": "C38", "status": "proved", "theorems": ["height_logarithmic"], "note": ""},
 {"property": "C39", "status": "proved", "theorems": ["node_occupancy"], "note": ""},
 {"property": "C40", "status": "proved", "theorems": ["set_history_refines", "set_history_safe", "set_into_both_ends"], "note": "set_history_safe: without the condition of C21 every call is right up to a removal of a present key that stops at a node the load left over."},
 {"property": "C41", "status": "proved", "theorems": ["union_sorted"], "note": ""},
 {"property": "C42", "status": "proved", "theorems": ["borrowed_lookups"], "note": ""},
 {"property": "C43", "status": "partial", "theorems": ["live_nodes_partial", "inner_garbage_refuted", "inner_garbage_nodes", "inner_garbage_step", "inner_garbage_start", "inner_garbage_unbounded"], "note": "Proved for leaves; false of the code for inner nodes: the old root stays in the store when the tree shrinks. Exact for inner nodes: a live inner node is outside the tree iff it has no keys; the number of such nodes starts at 0, grows by the levels a removal takes off, is unchanged by every other call but clear, and is unbounded for a map of at most 70 entries."},
 {"property": "C44", "status": "proved", "theorems": ["leaf_links"], "note": ""},
 {"property": "C45", "status": "proved", "theorems": ["any_order_history", "any_order_bulk_safe"], "note": "collect is left out: the standard sort may panic on an inconsistent comparison. bulk_load compares keys with ==, taken to agree with the comparison answering Equal. Removal under the same start and drop conditions as C21 and C37; any_order_bulk_safe drops the start condition: nothing but the stop of C21 can happen, so a dev build is never undefined."},
 {"property": "C46", "status": "proved", "theorems": ["any_order_cursors"], "note": "cursor_first and cursor_last on an empty tree are C16."},
 {"property": "C47", "status": "proved", "theorems": ["any_order_readers"], "note": ""},
 {"property": "C48", "status": "proved", "theorems": ["any_order_owned"], "note": ""},
 {"property": "C49", "status": "partial", "theorems": ["search_access_partial", "search_access_refuted", "search_access_exact", "search_remove_or_stops"], "note": "Missing: false as stated. search_access_partial assumes the answers are in range (search_in_range); search_access_refuted shows safe implementations whose out-of-range answer makes the calls read outside the initialised part of a node. search_access_exact has no condition on the answers: they decide where the search lands (follow), and the calls are defined exactly if that is not outside a node; a removal then panics or is undefined. A moved-out slot counts as uninitialised, as everywhere in the model. Removal under the condition of C37; search_access_exact and search_remove_or_stops cover every bulk load (the removal is right, or stops at a left-over node), search_access_partial states it under the condition of C21."},
 {"property": "C50", "status": "proved", "theorems": ["iter_any_calls"], "note": "The exact behaviour behind the refutations of C07 and C08."},
 {"property": "C51", "status": "proved", "theorems": ["search_follows_rules"], "note": "Removal under the same conditions as C21 and C37."},
 {"property": "C52", "status": "proved", "theorems": ["visit_follows_rules"], "note": ""},
 {"property": "C53", "status": "proved", "theorems": ["rank_follows_rules"], "note": ""},
 {"property": "C54", "status": "proved", "theorems": ["even_count_index"], "note": ""},
 {"property": "C55", "status": "proved", "theorems": ["duplicate_multiset"], "note": "Deleting a missing key panics in a debug build (prev_count - 1 underflows); stated in the theorem. In a release build the theorem covers the programs that delete no missing key."},
 {"property": "C56", "status": "partial", "theorems": ["date_statistics_partial", "date_statistics_refuted", "date_statistics_exact"], "note": "Missing: false as stated. Removing the last entry calls from_leaf on no keys, which panics (date_statistics_refuted). date_statistics_partial gives the statistic of every non-empty tree and the count of CountForYear on every tree. date_statistics_exact: a removal panics exactly if it takes the last entry. A panic in a summary that is overwritten later is not modelled."},
 {"property": "C57", "status": "proved", "theorems": ["tree_depth"], "note": ""},
 {"property": "C58", "status": "proved", "theorems": ["interrupted_insert"], "note": "Lookups only: what iterators, cursors and further updates do with such a tree is not claimed; interrupted_resume_refuted (C59) shows a later removal can panic."},
 {"property": "C59", "status": "proved", "theorems": ["interrupted_remove", "interrupted_remove_any", "interrupted_remove_refuted", "interrupted_resume_refuted"], "note": "The call inside a merge of two leaves is the first call of the removal (n = 0) with a counter of leaf merges moved (leaf_merges). interrupted_remove_any is the first half for a comparison that is no order. interrupted_remove_refuted shows that the second half happens; interrupted_resume_refuted that a later removal of an interrupted tree can panic. Lookups only, as in C58."},
 {"property": "C60", "status": "proved", "theorems": ["shared_programs"], "note": "Programs are finite trees of calls. The calls are get, get_cursor, cursor_first/last (non-empty tree), cursor steps and value, first, last, len and whole iterations; augmentation queries and visitors, which never touch the cached leaf, are not among them. As in C11 a relaxed load may return any value stored so far."},
 {"property": "C61", "status": "proved", "theorems": ["any_code_program", "any_code_bulk_load", "any_code_bulk_safe", "pure_code_is_the_tree"], "note": "vlegal bounds the number of entries by 2^64 and gives removals the conditions of C01 (no left-over node, no drop glue or fewer than 272 entries); any_code_bulk_safe is for every load: nothing but the stop of C21 can happen. pure_code_is_the_tree ties the operations of Volatile.v to those of the other claims: they are equal when the comparison only compares. What a panic inside bulk_load drops of the half-built store is not modelled; set operations and iterators over keys do not take part."},
 {"property": "C62", "status": "proved", "theorems": ["drop_each_once", "drop_with_panics"], "note": "The order of drop glue and the rule that a panic during unwinding aborts are Rust's, written down in Owned.v. Trees reached by histories with the conditions of C01 and C37."},
 {"property": "C63", "status": "partial", "theorems": ["into_iter_owned_partial", "into_iter_owned_refuted"], "note": "Missing: false as stated. into_parts wraps the tree in ManuallyDrop, so the root augmentation is neither handed out nor dropped (into_iter_owned_refuted). into_iter_owned_partial is the statement for everything else."},
 {"property": "C64", "status": "proved", "theorems": ["clone_with_panics"], "note": "That the tree itself is untouched is by construction: the model of clone only reads."},
 {"property": "C65", "status": "proved", "theorems": ["max_group_exact", "group_get_exact", "group_remove_exact", "group_rank_exact", "group_extract_exact", "group_counts_right"], "note": "No condition on the sizes of the groups. Removal under the same conditions as C21 and C37."},
 {"property": "C66", "status": "proved", "theorems": ["comparisons_logarithmic", "bulk_comparisons", "reachable_comparisons"], "note": "The number of steps of std's binary search is that of BinSearch.v (slice::binary_search_by of the standard library, which is modelled and not part of the repository). vlegal as in C61. The sort before a bulk load (union, from_iter) is not counted."},
 {"property": "C67", "status": "proved", "theorems": ["release_same", "release_same_calls", "release_same_set", "release_legal", "release_reachable"], "note": "Function by function (ReleaseProof.v). The profile is a parameter of the model, so all other theorems hold in both builds as well. release_reachable: the debug build's trees are all trees of the release build; the converse is proved for starts without a left-over node only."},
 {"property": "C68", "status": "partial", "theorems": ["bulk_remove_always_stops", "bulk_history_partial", "bulk_history_safe", "release_removal_refuted", "release_removal_least"], "note": "False of the code: 270465 bulk loaded keys. bulk_history_partial proves it for every size without a left-over node; bulk_remove_always_stops says for every other size whether removing the greatest keys panics or is undefined; no size below 270465 is (release_removal_least). bulk_history_safe: every history of a dev build is free of undefined behaviour, and of a release build after every other load. Missing: nothing more can hold for such sizes."},
 {"property": "C69", "status": "proved", "theorems": ["validate_exact", "validate_passes", "validate_passes_any"], "note": "A loop that does not end is OutOfFuel in the model, so validate_exact also says when the check ends in acceptance."}
]}

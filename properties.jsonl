{"id": "C01", "title": "AvlMap insert is map update", "statement": "After m.insert(k,v) on an AvlMap, the ascending entries of m are exactly the old entries with any entry whose key equals k removed and (k,v) placed at its sorted position; the call returns the value previously stored under k, or None; len() grows by one exactly when None was returned.", "quantifier": "for every reachable map, every key and value, every total order on keys (keys that compare equal may still be distinguishable)", "why_tests_cant": "Rebalancing has many shape-dependent cases (four rotations, at any depth); tests only reach the shapes they happen to build.", "anchors": ["src/avl.rs::AvlMap::insert", "src/avl.rs::ins", "src/avl.rs::rebal_lf_to_rt", "src/avl.rs::rebal_rt_to_lf", "src/avl.rs::rot_lf", "src/avl.rs::rot_rt", "src/avl.rs::rot_lf_rt", "src/avl.rs::rot_rt_lf"]}
{"id": "C02", "title": "AvlMap remove is map deletion", "statement": "m.remove(q) / m.remove_entry(q) return exactly the entry whose key equals q (or None) and leave exactly the other entries in order; len() drops by one exactly when an entry was returned; removing an absent key changes nothing.", "quantifier": "for every reachable map and every borrowed query key", "why_tests_cant": "Deletion rebalances bottom-up along an arbitrary path and replaces a two-child node by its successor; the space of shapes is unbounded.", "anchors": ["src/avl.rs::AvlMap::remove", "src/avl.rs::AvlMap::remove_entry", "src/avl.rs::rm", "src/avl.rs::rm_leftmost", "src/avl.rs::rm_rightmost"]}
{"id": "C03", "title": "AvlMap lookups agree with contents", "statement": "get, get_key_value, contains_key and get_mut find the entry whose key equals the query exactly when iteration would show one, and return that entry; writing through get_mut changes only that entry's value.", "quantifier": "for every reachable map and every query key", "why_tests_cant": "Requires the search-tree order on every path of every reachable tree.", "anchors": ["src/avl.rs::AvlMap::get", "src/avl.rs::AvlMap::get_key_value", "src/avl.rs::AvlMap::contains_key", "src/avl.rs::AvlMap::get_mut", "src/avl.rs::Index for AvlMap"]}
{"id": "C04", "title": "AvlMap structural check always succeeds", "statement": "Whatever operations built a map, its self check (Map::check) returns Ok: keys strictly ascending, every node height-balanced with exact recorded heights, and len() equal to the number of entries.", "quantifier": "for every finite history of public operations", "why_tests_cant": "An invariant over all histories; tests only sample histories.", "anchors": ["src/avl.rs::AvlMap::chk", "src/avl.rs::chk", "src/avl.rs::Node::chk", "src/lib.rs::Map::check"]}
{"id": "C05", "title": "AvlMap depth is logarithmic and its 8-bit heights never overflow", "statement": "The depth of a map with n entries satisfies fib(depth+2) <= n+1; so any map with fewer than 2^64 entries has depth at most 91, and no operation on it overflows the 8-bit height arithmetic.", "quantifier": "for every reachable map with fewer than 2^64 entries", "why_tests_cant": "Maps large enough to exercise the limit cannot be built in memory.", "anchors": ["src/avl.rs::Node::height", "src/avl.rs::Node::bal", "src/avl.rs::Node::is_bal", "src/avl.rs::Node::left_ht"]}
{"id": "C06", "title": "AvlMap first/last access and removal", "statement": "first_key_value/last_key_value return the entry with the least/greatest key or None iff empty; pop_first/pop_last return that entry and leave exactly the remaining entries.", "quantifier": "for every reachable map", "why_tests_cant": "Needs order and rebalancing correctness at every depth.", "anchors": ["src/avl.rs::AvlMap::first_key_value", "src/avl.rs::AvlMap::last_key_value", "src/avl.rs::AvlMap::pop_first", "src/avl.rs::AvlMap::pop_last"]}
{"id": "C07", "title": "AvlMap iteration from both ends", "statement": "Any interleaving of next() and next_back() on iter() (also keys, values, iter_mut, into_iter) yields every entry exactly once: the front calls give the ascending sequence, the back calls the descending one, and once they meet every call returns None; len() is always the number of entries still to come.", "quantifier": "for every reachable map and every sequence of next/next_back calls", "why_tests_cant": "The two ends share one work list; the number of interleavings is exponential.", "anchors": ["src/avl.rs::InnerIter", "src/avl.rs::Iter", "src/avl.rs::IterMut", "src/avl.rs::IntoIter"]}
{"id": "C08", "title": "AvlMap range yields exactly the entries in bounds", "statement": "range(lo..hi) with included, excluded or missing bounds yields exactly the entries whose keys satisfy both bounds, ascending from the front and descending from the back under any interleaving; it never panics and yields nothing for inverted bounds; size_hint's upper bound is never below the number of remaining items.", "quantifier": "for every reachable map, every pair of bounds, every interleaving", "why_tests_cant": "Sub-trees are pruned lazily depending on bounds and on which end reaches a node first.", "anchors": ["src/avl.rs::AvlMap::range", "src/avl.rs::AvlMap::range_mut", "src/avl.rs::Range", "src/avl.rs::RangeMut"]}
{"id": "C09", "title": "AvlMap append and union prefer the right operand", "statement": "a.append(&mut b) and AvlMap::new_union(a,b) contain exactly the keys of either map, the entry coming from b where both have the key; append leaves b empty; len() is exact.", "quantifier": "for every pair of reachable maps (sharing nodes or not)", "why_tests_cant": "Split/join based merging over two arbitrary shapes.", "anchors": ["src/avl.rs::AvlMap::append", "src/avl.rs::AvlMap::new_union", "src/avl.rs::union", "src/avl.rs::Merger"]}
{"id": "C10", "title": "AvlMap intersection, difference, symmetric difference", "statement": "new_intersect keeps exactly the left entries whose key is in the right map; new_diff exactly the left entries whose key is not; new_sym_diff exactly the entries whose key is in one map only; len() is exact.", "quantifier": "for every pair of reachable maps", "why_tests_cant": "Recursion over two arbitrary shapes with joins of arbitrarily different heights.", "anchors": ["src/avl.rs::AvlMap::new_intersect", "src/avl.rs::AvlMap::new_diff", "src/avl.rs::AvlMap::new_sym_diff", "src/avl.rs::Merger", "src/avl.rs::join", "src/avl.rs::join2", "src/avl.rs::split"]}
{"id": "C11", "title": "AvlMap join concatenates", "statement": "AvlMap::new_join(l,k,v,r), when every key of l is below k and k below every key of r, has exactly the entries of l, then (k,v), then those of r, and is a valid map whatever the two depths are.", "quantifier": "for all pairs of reachable maps of any depth difference", "why_tests_cant": "The join descends an arbitrary spine and rebalances on the way up.", "anchors": ["src/avl.rs::AvlMap::new_join", "src/avl.rs::join", "src/avl.rs::join_lf", "src/avl.rs::join_rt"]}
{"id": "C12", "title": "AvlMap split_off partitions by key", "statement": "m.split_off(q) leaves in m exactly the entries with key < q and returns a map of exactly those with key >= q; both are valid maps with exact len().", "quantifier": "for every reachable map and query key", "why_tests_cant": "Every search path of every shape must be re-joined correctly, and the length is recomputed separately.", "anchors": ["src/avl.rs::AvlMap::split_off", "src/avl.rs::split"]}
{"id": "C13", "title": "AvlMap retain keeps exactly the chosen entries", "statement": "m.retain(f) calls f exactly once per entry and keeps exactly the entries for which that call returned true, with the values as the call left them; keys and order are unchanged.", "quantifier": "for every reachable map and every predicate, including ones that mutate the value", "why_tests_cant": "The tree is taken apart and re-joined while filtering.", "anchors": ["src/avl.rs::AvlMap::retain", "src/avl.rs::retain"]}
{"id": "C14", "title": "Finding: AvlMap retain does not visit in ascending key order", "statement": "Unlike std's BTreeMap::retain and this crate's BTreeMap::retain, AvlMap::retain(f) does not always call f on the entries in ascending key order: there is a two-entry map built by insertions for which f sees the larger key first, so a stateful predicate can keep other entries than it would on an iterator.", "quantifier": "there is a reachable map and a predicate", "why_tests_cant": "A sampled predicate without state cannot see the order.", "anchors": ["src/avl.rs::retain"]}
{"id": "C15", "title": "AvlMap mutable traversal updates values only", "statement": "iter_mut, values_mut, for_each_mut and range_mut let the caller rewrite the values of exactly the visited entries, in key order, and change no key, no other value and no structure.", "quantifier": "for every reachable map and every per-entry update", "why_tests_cant": "All shapes; also checked for shared nodes in the sharing model.", "anchors": ["src/avl.rs::AvlMap::iter_mut", "src/avl.rs::AvlMap::for_each_mut", "src/avl.rs::AvlMap::range_mut", "src/avl.rs::Node::for_each_mut"]}
{"id": "C16", "title": "AvlMap equality, order and hash depend on contents only", "statement": "Two maps compare equal / less / greater exactly as their ascending entry sequences do lexicographically, and equal maps feed identical data to the hasher, whatever shapes their histories gave them.", "quantifier": "for every pair of reachable maps", "why_tests_cant": "Different histories give different shapes with equal contents.", "anchors": ["src/avl.rs::PartialEq for AvlMap", "src/avl.rs::Ord for AvlMap", "src/avl.rs::Hash for AvlMap"]}
{"id": "C17", "title": "Entry API", "statement": "entry(k).or_insert(v)/or_insert_with/or_insert_with_key/or_default give access to the value already stored under k, and otherwise insert the supplied one and give access to it; the supplier runs only when the key is absent; and_modify changes the value only when the key is present; nothing else changes. first_entry/last_entry exist iff the map is non-empty and denote the least/greatest key.", "quantifier": "for every reachable map, key, value and closure", "why_tests_cant": "Combines lookup, insertion and a second lookup on arbitrary shapes, with an unwrap in between.", "anchors": ["src/lib.rs::Entry", "src/lib.rs::OccupiedEntry", "src/lib.rs::VacantEntry", "src/avl.rs::AvlMap::entry", "src/btree.rs::BTreeMap::entry"]}
{"id": "C18", "title": "Extend and FromIterator: last pair wins", "statement": "from_iter/extend of any sequence of pairs leaves the map that successive insertions would: for each key the last pair with that key, over what was there before.", "quantifier": "for every map and every sequence of pairs with repeats", "why_tests_cant": "Unbounded sequences.", "anchors": ["src/avl.rs::Extend for AvlMap", "src/avl.rs::FromIterator for AvlMap", "src/btree.rs::FromIterator for BTreeMap"]}
{"id": "C19", "title": "AvlMap refines an ordered map over all histories", "statement": "Any finite sequence of operations on an AvlMap starting from new() gives the same results, entry by entry and call by call, as the same sequence on a plain sorted list of pairs, and never panics.", "quantifier": "for every finite history of operations with arbitrary arguments", "why_tests_cant": "Unbounded histories.", "anchors": ["src/avl.rs::AvlMap"]}
{"id": "C20", "title": "AvlMap clones are independent", "statement": "After let c = m.clone(), no operation on m (insert, remove, get_mut, pops, ...) can change anything observable through c, and vice versa, for any number of clones made at any time.", "quantifier": "for every history interleaving clone, drop and mutation over any number of handles", "why_tests_cant": "Clones share nodes; a missed copy-on-write on one path corrupts another handle only for particular sharing patterns.", "anchors": ["src/avl.rs::AvlMap (derive Clone)", "src/avl.rs::ins", "src/avl.rs::rm", "src/avl.rs::AvlMap::get_mut"]}
{"id": "C21", "title": "AvlMap never trips over shared nodes", "statement": "No operation panics because a node is shared with another map: the internal 'node must be unique' checks always hold, whatever clones exist.", "quantifier": "for every sharing pattern reachable by cloning, mutating and dropping handles", "why_tests_cant": "The checks fire only for specific reference-count patterns.", "anchors": ["src/avl.rs::take_node", "src/avl.rs::rebal_lf_to_rt", "src/avl.rs::rebal_rt_to_lf"]}
{"id": "C22", "title": "AvlMap reference counts are exact and nothing leaks", "statement": "At all times each node's reference count equals the number of handles and nodes pointing at it; after the last handle is dropped no node remains.", "quantifier": "for every history of operations and drops", "why_tests_cant": "Leaks and over-releases depend on the whole history.", "anchors": ["src/avl.rs::Node", "src/avl.rs::take_node", "src/avl.rs::AvlMap::clear"]}
{"id": "C23", "title": "Cloning is lazy", "statement": "Cloning a collection copies no element and allocates no node; a later insert or remove clones only nodes on the path it walks (plus rotation neighbours), and clones nothing if no node is shared.", "quantifier": "for every reachable state", "why_tests_cant": "Needs a count for all states, not a sample.", "anchors": ["src/avl.rs::ins", "src/avl.rs::rm", "src/stack.rs::Stack::push", "src/stack.rs::Stack::pop", "src/lib.rs crate docs"]}
{"id": "C24", "title": "AvlSet is a set", "statement": "insert, contains, remove, take, replace, get, first/last, pops, split_off and retain on AvlSet act as on the mathematical ordered set; insert returns true iff the element was absent; replace returns the previously stored equal element.", "quantifier": "for every reachable set and element", "why_tests_cant": "Inherits all shapes of the map.", "anchors": ["src/avl/avl_set.rs::AvlSet"]}
{"id": "C25", "title": "AvlSet subset and superset tests", "statement": "a.is_subset(&b) is true iff every element of a is in b (is_superset symmetric), also when a and b share nodes so that the pointer-equality shortcut fires.", "quantifier": "for every pair of reachable sets and every sharing pattern between them", "why_tests_cant": "A bespoke two-tree walk with an explicit stack and a pointer shortcut.", "anchors": ["src/avl/avl_set.rs::AvlSet::is_subset", "src/avl/avl_set.rs::AvlSet::is_superset", "src/avl/avl_set.rs::has_all"]}
{"id": "C26", "title": "Set-operation iterators", "statement": "union/intersection/difference/symmetric_difference yield, in ascending order without repeats, exactly the elements of the corresponding set operation; is_disjoint is true iff there is no common element.", "quantifier": "for every pair of reachable sets", "why_tests_cant": "Merge of two arbitrary ascending sequences under four keep-policies.", "anchors": ["src/lib.rs::SetOpIter", "src/lib.rs::SortedMergeIter", "src/avl/avl_set.rs::AvlSet::union", "src/btree/btree_set.rs::BTreeSet::union", "src/avl/avl_set.rs::AvlSet::is_disjoint"]}
{"id": "C27", "title": "AvlSet algebra by value", "statement": "new_union/new_intersection/new_diff/new_sym_diff and the operators | & - ^ on references give valid sets with exactly the elements of the set operation.", "quantifier": "for every pair of reachable sets", "why_tests_cant": "Tree-merging on arbitrary shapes.", "anchors": ["src/avl/avl_set.rs::AvlSet::new_union", "src/avl/avl_set.rs::BitOr", "src/avl/avl_set.rs::BitAnd", "src/avl/avl_set.rs::BitXor", "src/avl/avl_set.rs::Sub"]}
{"id": "C28", "title": "BTreeMap insert is map update", "statement": "Same contract as C01 for BTreeMap<K,V,N>, for every minimum occupancy N >= 1.", "quantifier": "for every N >= 1, every reachable map, key and value", "why_tests_cant": "Splits cascade through arbitrary levels; N is a free parameter.", "anchors": ["src/btree.rs::BTreeMap::insert", "src/btree.rs::Node::insert", "src/btree.rs::Node::split"]}
{"id": "C29", "title": "BTreeMap remove is map deletion", "statement": "Same contract as C02 for BTreeMap<K,V,N>, N >= 1; the internal assertions during rotation and merging never fail.", "quantifier": "for every N >= 1, every reachable map and query", "why_tests_cant": "Borrow/merge cascades through arbitrary levels.", "anchors": ["src/btree.rs::BTreeMap::remove", "src/btree.rs::Node::remove", "src/btree.rs::Node::rebal", "src/btree.rs::Node::rot_lf", "src/btree.rs::Node::rot_rt", "src/btree.rs::Node::merge_kids", "src/btree.rs::BTreeMap::rm_and_rebal"]}
{"id": "C30", "title": "BTreeMap lookups agree with contents", "statement": "get, get_key_value, contains_key, get_mut, first_key_value and last_key_value on BTreeMap<K,V,N> agree with the ascending entry sequence.", "quantifier": "for every N >= 1, every reachable map and query", "why_tests_cant": "All shapes.", "anchors": ["src/btree.rs::Node::get_key_value", "src/btree.rs::Node::get_mut", "src/btree.rs::BTreeMap::first_key_value", "src/btree.rs::BTreeMap::last_key_value"]}
{"id": "C31", "title": "BTreeMap structural check always succeeds", "statement": "Whatever operations built a BTreeMap<K,V,N> with N >= 1, Map::check returns Ok: every non-root node holds between N and 2N+1 entries, all leaves are at one depth, keys strictly ascend and len() is exact; hence depth is at most 1 + log base (N+1) of (len+1)/2.", "quantifier": "for every N >= 1 and every finite history", "why_tests_cant": "Invariant over all histories and all N.", "anchors": ["src/btree.rs::chk", "src/btree.rs::Node::chk", "src/btree.rs::BTreeMap::check"]}
{"id": "C32", "title": "Finding: BTreeMap with minimum occupancy zero is broken", "statement": "The type admits BTreeMap<K,V,0>, but its operations do not behave like an ordered map: there is a short history of insertions and removals with N = 0 after which an operation panics or the structural check fails.", "quantifier": "there is a history with N = 0", "why_tests_cant": "No test instantiates N = 0.", "anchors": ["src/btree.rs::BTreeMap", "src/btree.rs::BTreeMap::rm_and_rebal", "src/btree.rs::Node::pop_first"]}
{"id": "C33", "title": "BTreeMap iteration from both ends", "statement": "Same contract as C07 for BTreeMap<K,V,N>: any interleaving of next/next_back on iter/iter_mut/into_iter yields each entry once, in order from each end, and the iterator's internal assertions never fail.", "quantifier": "for every N >= 1, reachable map and call sequence", "why_tests_cant": "Both ends mutate one deque of partially consumed nodes.", "anchors": ["src/btree.rs::InnerIter", "src/btree.rs::BorrowedNodeIter", "src/btree.rs::Iter", "src/btree.rs::IntoIter"]}
{"id": "C34", "title": "BTreeMap range yields exactly the entries in bounds", "statement": "For bounds that are not inverted, range yields exactly the entries within the bounds under any interleaving of next/next_back, without panicking; size_hint brackets the true number of remaining items.", "quantifier": "for every N >= 1, reachable map, bounds and call sequence", "why_tests_cant": "The two search paths diverge at an arbitrary node; edges are computed per node.", "anchors": ["src/btree.rs::find_range_edges", "src/btree.rs::make_worklist", "src/btree.rs::Range", "src/btree.rs::cmp_bd"]}
{"id": "C35", "title": "BTreeMap range with bad bounds; finding: the panic depends on the contents", "statement": "range panics when start > end, whatever the map. With start == end both excluded it panics exactly when that key is present in the map, unlike std's BTreeMap, which always panics.", "quantifier": "for every map and bounds", "why_tests_cant": "Whether it panics turns out to depend on the map contents.", "anchors": ["src/btree.rs::Range::new", "src/btree.rs::find_range_edges"]}
{"id": "C36", "title": "BTreeMap pops, append, split_off, retain", "statement": "pop_first/pop_last, append (right operand wins, leaves it empty), split_off (keys < q stay, keys >= q leave) and retain (ascending visits, each once, value updates kept) act exactly as on the sorted sequence of entries.", "quantifier": "for every N >= 1, reachable maps, queries and predicates (also stateful)", "why_tests_cant": "All shapes.", "anchors": ["src/btree.rs::BTreeMap::pop_first", "src/btree.rs::BTreeMap::pop_last", "src/btree.rs::BTreeMap::append", "src/btree.rs::BTreeMap::split_off", "src/btree.rs::BTreeMap::retain"]}
{"id": "C37", "title": "BTreeMap refines an ordered map over all histories", "statement": "Any finite sequence of operations on a BTreeMap<K,V,N>, N >= 1, starting from new() gives the same results as on a plain sorted list, and never panics; hence AvlMap and BTreeMap are observationally interchangeable.", "quantifier": "for every N >= 1 and every finite history", "why_tests_cant": "Unbounded histories.", "anchors": ["src/btree.rs::BTreeMap", "src/avl.rs::AvlMap"]}
{"id": "C38", "title": "BTreeMap clones are independent", "statement": "Same contract as C20 and C22 for BTreeMap: mutation through one handle is invisible to every other handle, and reference counts stay exact.", "quantifier": "for every history over any number of handles", "why_tests_cant": "Depends on sharing patterns.", "anchors": ["src/btree.rs::BTreeMap (derive Clone)", "src/btree.rs::Node::insert", "src/btree.rs::Node::remove"]}
{"id": "C39", "title": "BTreeSet is a set", "statement": "insert, contains, remove, take, replace, get, first/last, pops, split_off, retain on BTreeSet act as on the mathematical ordered set.", "quantifier": "for every N >= 1, reachable set and element", "why_tests_cant": "All shapes.", "anchors": ["src/btree/btree_set.rs::BTreeSet"]}
{"id": "C40", "title": "Finding: BTreeSet subset and superset tests are wrong for sets of equal size", "statement": "a.is_subset(&b) is true iff a is empty, or every element of a is in b and a is strictly smaller than b: it returns false for equal sets, so no nonempty set is a subset of itself. The same for is_superset.", "quantifier": "for every pair of sets", "why_tests_cant": "Random pairs of sets are almost never equal, so tests miss the equal case.", "anchors": ["src/btree/btree_set.rs::BTreeSet::is_subset", "src/btree/btree_set.rs::BTreeSet::is_superset"]}
{"id": "C41", "title": "BTreeSet algebra by value", "statement": "new_union/new_intersection/new_diff/new_sym_diff and append give valid sets with exactly the elements of the set operation, whichever size-dependent strategy they choose; new_intersection keeps the elements of the smaller set.", "quantifier": "for every pair of sets", "why_tests_cant": "Strategies switch on relative sizes.", "anchors": ["src/btree/btree_set.rs::BTreeSet::new_union", "src/btree/btree_set.rs::BTreeSet::new_intersection", "src/btree/btree_set.rs::BTreeSet::new_diff", "src/btree/btree_set.rs::BTreeSet::new_sym_diff"]}
{"id": "C42", "title": "fixed::BTreeMap insert, get, remove", "statement": "The array-based btree::fixed::BTreeMap obeys the map contract for insert, get, get_mut, remove, len and forward iteration, and its nodes keep 5..11 entries (root excepted) with all leaves at one depth.", "quantifier": "for every reachable map, key and value", "why_tests_cant": "All shapes.", "anchors": ["src/btree/fixed.rs::BTreeMap", "src/btree/core.rs::Node::insert", "src/btree/core.rs::Node::remove", "src/btree/core.rs::Node::rebal"]}
{"id": "C43", "title": "fixed::BTreeMap node split moves every slot exactly once", "statement": "When a full node splits, the raw copies of keys, values and children put every old element and the new one into exactly one live slot of the two result nodes, in order, and never outside the arrays: nothing is lost, duplicated or left uninitialised.", "quantifier": "for every insert position and all contents", "why_tests_cant": "Unsafe raw copies; a duplicated or lost slot is undefined behaviour a test may not notice.", "anchors": ["src/btree/core.rs::Node::ins_split", "src/btree/core.rs::Splitter"]}
{"id": "C44", "title": "Finding: fixed::BTreeMap reverse iteration is not in descending order", "statement": "iter().rev() (next_back) of the array-based map does not yield the entries in descending key order: there is a map built by insertions whose next_back yields them otherwise.", "quantifier": "there is a reachable map", "why_tests_cant": "No test calls next_back on the fixed map.", "anchors": ["src/btree/core.rs::InnerIter::next_back", "src/btree/core.rs::NodeIter"]}
{"id": "C45", "title": "Stack is LIFO with exact length", "statement": "push, pop, top, len, is_empty, iter, contains on Stack behave as on a plain list; pops return pushed elements in reverse order; len is always the number of elements.", "quantifier": "for every history", "why_tests_cant": "Unbounded histories.", "anchors": ["src/stack.rs::Stack"]}
{"id": "C46", "title": "Stack::remove indexes from the bottom", "statement": "s.remove(i) removes and returns the element that is i-th from the bottom, keeps the order of the others, and panics exactly when i >= len().", "quantifier": "for every stack and index, shared or not", "why_tests_cant": "Must hold for every sharing pattern at every depth.", "anchors": ["src/stack.rs::Stack::remove"]}
{"id": "C47", "title": "Stack::split_off splits from the bottom", "statement": "s.split_off(i) keeps the bottom i elements in s and returns a stack with the others in order; lengths are exact; it panics exactly when i > len().", "quantifier": "for every stack and index, shared or not", "why_tests_cant": "Pointer surgery on a possibly shared list.", "anchors": ["src/stack.rs::Stack::split_off"]}
{"id": "C48", "title": "Stack clones are independent", "statement": "Operations on one Stack handle never change what any other handle shows, for any number of clones, including writes through top_mut and iter_mut.", "quantifier": "for every history interleaving clone, drop and mutation over any number of handles", "why_tests_cant": "Depends on sharing patterns.", "anchors": ["src/stack.rs::Stack::push", "src/stack.rs::Stack::pop", "src/stack.rs::Stack::top_mut", "src/stack.rs::IterMut", "src/stack.rs::Stack::remove", "src/stack.rs::Stack::split_off"]}
{"id": "C49", "title": "Stack memory is exact", "statement": "Each list cell's reference count equals the number of pointers to it; dropping every handle frees every cell; clear/drop of any stack frees it iteratively, never recursing into the next cell.", "quantifier": "for every history", "why_tests_cant": "Leaks and stack overflow depend on history and size.", "anchors": ["src/stack.rs::Drop for Stack", "src/stack.rs::Stack::clear"]}
{"id": "C50", "title": "Stack pop moves when unshared and clones when shared", "statement": "pop (and into_iter) clones the element iff its cell is shared; otherwise it moves it; push never clones.", "quantifier": "for every history", "why_tests_cant": "Count over all sharing patterns.", "anchors": ["src/stack.rs::Stack::pop", "src/stack.rs::IntoIter"]}
{"id": "C51", "title": "Stack equality and order", "statement": "== and cmp on stacks compare the top-to-bottom sequences lexicographically (cmp is a total order consistent with ==) whatever the sharing.", "quantifier": "for every pair of stacks", "why_tests_cant": "All pairs.", "anchors": ["src/stack.rs::PartialEq for Stack", "src/stack.rs::PartialOrd for Stack", "src/stack.rs::Ord for Stack"]}
{"id": "C52", "title": "Stack extend and collect", "statement": "extend/from_iter/From<Vec> push the items in order, so iteration shows them last first, above what was there before.", "quantifier": "for every stack and sequence", "why_tests_cant": "Unbounded sequences.", "anchors": ["src/stack.rs::Extend for Stack", "src/stack.rs::FromIterator for Stack", "src/stack.rs::From<Vec>"]}
{"id": "C53", "title": "Serde round trip", "statement": "Deserialising what a map serialises to gives an equal, valid map.", "quantifier": "for every reachable AvlMap or BTreeMap<K,V,N>", "why_tests_cant": "The deserialiser builds the tree bottom-up by halving the length; every length and N gives a different shape.", "anchors": ["src/lib.rs::MapVisitor", "src/lib.rs::build_map_by_halves", "src/avl.rs::Serialize for AvlMap", "src/btree.rs::Serialize for BTreeMap"]}
{"id": "C54", "title": "Deserialisation tolerates any size hint and order", "statement": "For any sequence of pairs (unsorted, with repeats) and any size hint (absent, right, too small or too large), deserialising into AvlMap gives the map that inserting the pairs in sequence would, valid and without panicking.", "quantifier": "for every sequence and every hint below the machine maximum", "why_tests_cant": "The hint is attacker-controlled and independent of the data.", "anchors": ["src/lib.rs::MapVisitor::visit_map", "src/avl.rs::Map::make_whole", "src/avl.rs::Map::stitch", "src/avl.rs::Map::make_half"]}
{"id": "C55", "title": "BTreeMap deserialisation tolerates any size hint and order", "statement": "Same contract for BTreeMap<K,V,N>.", "quantifier": "for every N >= 1, sequence and hint below the machine maximum", "why_tests_cant": "The stitched halves meet several internal assertions.", "anchors": ["src/lib.rs::MapVisitor::visit_map", "src/btree.rs::Node::stitch", "src/btree.rs::Map::make_whole"]}
{"id": "C56", "title": "Finding: deserialisation with the maximal size hint panics", "statement": "With a size hint of usize::MAX the computation (len + 1) / 2 of the first half overflows: deserialisation panics in a build with overflow checks, instead of treating it like any other oversized hint.", "quantifier": "for hint = usize::MAX", "why_tests_cant": "A single extreme value that random hints do not hit.", "anchors": ["src/lib.rs::build_map_by_halves"]}
{"id": "C57", "title": "Finding: exact-size iterators of AvlMap do not report their size", "statement": "iter(), iter_mut() and into_iter() of AvlMap implement ExactSizeIterator, whose contract is size_hint() == (len, Some(len)), but they keep the default size_hint (0, None): there is a map for which the two differ.", "quantifier": "there is a reachable map", "why_tests_cant": "A provided method that nobody overrides is easy to miss; adaptors hit it only in combination.", "anchors": ["src/avl.rs::Iter", "src/avl.rs::IterMut", "src/avl.rs::IntoIter"]}
{"id": "C58", "title": "Stack survives panics of the elements' clone", "statement": "If T::clone panics inside pop, top_mut, iter_mut, remove, split_off or into_iter, the stack is left showing either its old elements, or those with the finished writes, or without the element being taken out; its len() stays exact, all other handles are unchanged and reference counts stay exact.", "quantifier": "for every history, every sharing and every clone call that panics", "why_tests_cant": "The crash points multiply with the sharing patterns.", "anchors": ["src/stack.rs::Stack::pop", "src/stack.rs::Stack::remove", "src/stack.rs::Stack::split_off", "src/stack.rs::IterMut"]}
{"id": "C59", "title": "BTreeMap check is exact except for surplus children (finding)", "statement": "On a BTreeMap<K,V,N> whose nodes have no children or one more child than entries, check() returns Ok exactly if occupancies, leaf depths, strict key order and len() are all right. Without that proviso it is not: check() returns Ok on a node with a surplus child in the middle, on which iteration then panics.", "quantifier": "for every N >= 1 and every tree, well-formed or not; the finding by a concrete tree", "why_tests_cant": "Tests only run check() on maps the code built; whether it would notice every defect needs all defective trees.", "anchors": ["src/btree.rs::Node::chk", "src/btree.rs::chk_node_ptr", "src/btree.rs::BTreeMap::chk"]}
{"id": "C60", "title": "BTreeMap equality and ordering are those of the entry sequences", "statement": "a == b holds exactly if the ascending entry sequences have equal length and pairwise equal keys and values; cmp is their lexicographic order. The shapes of the trees do not matter.", "quantifier": "for every N >= 1, every pair of reachable maps and any key/value equality and comparison functions", "why_tests_cant": "Two maps with the same entries have unboundedly many different shapes.", "anchors": ["src/btree.rs::BTreeMap::eq", "src/btree.rs::BTreeMap::partial_cmp", "src/btree.rs::BTreeMap::cmp"]}
{"id": "C61", "title": "Entry API on BTreeMap", "statement": "entry(k).or_insert_with(f) calls f exactly when k is absent, inserts its result, and returns a reference to the value stored under k, through which writes reach the map; an existing key stays as stored. and_modify changes the value under k only. first_entry/last_entry carry the least/greatest key.", "quantifier": "for every N >= 1, every reachable map, key, closure (also stateful) and write", "why_tests_cant": "The reference must reach the right entry in every tree shape, including right after a split.", "anchors": ["src/lib.rs::Entry", "src/btree.rs::BTreeMap::entry", "src/btree.rs::BTreeMap::first_entry", "src/btree.rs::BTreeMap::last_entry"]}
{"id": "C62", "title": "Set iteration, ranges, comparison and hashing", "statement": "iter() of a set (both ends for BTreeSet, owning iteration too) and range() yield exactly the elements (in the bounds) in order with exact lengths; ==, cmp and hash see exactly the sequence of elements.", "quantifier": "for every reachable AvlSet and BTreeSet, all bounds, all sequences of calls from both ends", "why_tests_cant": "infinitely many sets, bounds and interleavings of front and back calls", "anchors": ["src/avl/avl_set.rs::Iter", "src/avl/avl_set.rs::AvlSet::range", "src/btree/btree_set.rs::Iter", "src/btree/btree_set.rs::BTreeSet::range", "src/btree/btree_set.rs::Hash"]}
{"id": "C63", "title": "Any history on AvlSets", "statement": "Any sequence of calls of the AvlSet API on any number of sets returns what the mathematical ordered sets return, never panics, and leaves sets that pass check().", "quantifier": "for every history, any number of sets, every pointer-sharing pattern", "why_tests_cant": "histories of unbounded length over unboundedly many sets", "anchors": ["src/avl/avl_set.rs::AvlSet"]}
{"id": "C64", "title": "Any history on BTreeSets", "statement": "Any sequence of calls of the BTreeSet API (range bounds not inverted) on any number of sets returns what the mathematical ordered sets return, with the subset test of C40, never panics, and leaves sets that pass check().", "quantifier": "for every N >= 1, history and number of sets", "why_tests_cant": "histories of unbounded length over unboundedly many sets", "anchors": ["src/btree/btree_set.rs::BTreeSet"]}
{"id": "C65", "title": "AvlSet and BTreeSet are interchangeable up to the subset test", "statement": "If elements that compare equal are identical, an AvlSet client and a BTreeSet client that make the same calls (without is_subset/is_superset) get the same answers.", "quantifier": "for every history without subset tests and every N >= 1", "why_tests_cant": "relates two implementations over all histories", "anchors": ["src/avl/avl_set.rs::AvlSet", "src/btree/btree_set.rs::BTreeSet"]}
{"id": "C66", "title": "AvlMap insert and get_mut have the strong exception guarantee", "statement": "If a user clone panics during insert or get_mut (hence entry) on a map that shares nodes, the map still shows exactly what it showed before, check() succeeds, all other maps are untouched and all reference counts stay exact.", "quantifier": "for every sharing state, every key, and every clone call that panics", "why_tests_cant": "Needs a panic injected at every clone call of every sharing pattern.", "anchors": ["src/avl.rs::ins", "src/avl.rs::AvlMap::insert", "src/avl.rs::AvlMap::get_mut"]}
{"id": "C67", "title": "A removal that unwinds loses entries but corrupts nothing else", "statement": "If a user clone panics during remove, remove_entry, pop_first or pop_last, then what is left in the map is a subsequence of its entries, all other maps are untouched and counts are exact. Expected but false: the entries that were not to be removed are still there; all may be lost while len() keeps its old value.", "quantifier": "for every sharing state, every key, and every clone call that panics", "why_tests_cant": "Needs a panic injected at every clone call of every sharing pattern.", "anchors": ["src/avl.rs::rm", "src/avl.rs::rm_leftmost", "src/avl.rs::rm_rightmost", "src/avl.rs::AvlMap::remove_entry"]}
{"id": "C68", "title": "retain, append and split_off that unwind leave len() stale", "statement": "If the predicate of retain or a user clone panics during retain or append, the maps involved are left without entries; during split_off, without entries or with exactly the entries below the key. If retain returns, the predicate was called once per entry and the map holds the kept entries. Other maps are untouched and counts are exact. Expected but false: len() is the number of entries afterwards (it stays the old number after the root was taken).", "quantifier": "for every sharing state and every panicking call", "why_tests_cant": "Needs a panic injected at every call of the predicate and of clone.", "anchors": ["src/avl.rs::AvlMap::retain", "src/avl.rs::AvlMap::append", "src/avl.rs::AvlMap::split_off"]}
{"id": "C69", "title": "retain clones even when nothing is shared", "statement": "A retain that returns calls V::clone once per entry of the map and K::clone once per kept entry, however many nodes are shared, and leaves a map none of whose nodes is shared. Expected but false: like the other mutators it clones nothing if no node is shared.", "quantifier": "for every sharing state, map and predicate; the negation by a witness", "why_tests_cant": "Cost is invisible to functional tests.", "anchors": ["src/avl.rs::retain"]}
{"id": "C70", "title": "fixed::BTreeMap chk() is exact", "statement": "On a map whose arrays have their declared lengths and whose live value slots are written, BTreeMap::chk() of the array-based map passes if and only if the map is well formed (ascending keys, 5..11 entries per non-root node, one more child than entries, equal leaf depth, matching len); it passes after every history of calls.", "quantifier": "for every map value, well formed or not, and every history", "why_tests_cant": "Tests only see chk() pass on the maps they build; they cannot show that it would reject every broken map.", "anchors": ["src/btree/core.rs::Node::chk", "src/btree/fixed.rs::BTreeMap::chk"]}
{"id": "C71", "title": "fixed::BTreeMap iterators under any alternation of next and next_back", "statement": "For any sequence of next and next_back calls, iter() and into_iter() of the array-based map yield every entry at most once, len() counts down exactly, after as many calls as entries each has been yielded exactly once, and then only None follows, although the order is not the double-ended one (C44).", "quantifier": "for every map and every sequence of calls, whichever nodes are shared", "why_tests_cant": "Exponentially many call sequences.", "anchors": ["src/btree/core.rs::InnerIter", "src/btree/core.rs::NodeIter", "src/btree/core.rs::NodeIntoIter"]}
{"id": "C72", "title": "fixed::BTreeMap: dropping a partly consumed into_iter drops every remaining entry exactly once", "statement": "When an owning iterator over a map with no shared node is dropped after any calls, the yielded entries, the entries dropped from the arrays of the nodes in progress and the entries below the dropped children are together exactly the entries of the map, each once; no unwritten slot is read. With shared nodes none is dropped or yielded twice.", "quantifier": "for every map, every sequence of calls before the drop, every sharing pattern", "why_tests_cant": "Double drops and leaks in unsafe code are silent.", "anchors": ["src/btree/core.rs::NodeIntoIter (Drop)", "src/btree/core.rs::InnerIter"]}
{"id": "C73", "title": "Finding: NodeIntoIter::next_back underflows", "statement": "Expected but false: next_back of the owning node iterator returns the last entry of a leaf. On every new iterator over a leaf it subtracts one from the front index 0 (overflow panic; in release mode it wraps and reads the slot past the last entry). InnerIter::next_back calls next instead, so the method is dead code.", "quantifier": "for every leaf", "why_tests_cant": "Nothing calls it.", "anchors": ["src/btree/core.rs::NodeIntoIter::next_back"]}
{"id": "C74", "title": "fixed::BTreeMap iter_mut", "statement": "iter_mut of the array-based map hands out one reference per entry, in ascending order under next and each exactly once under any calls; any number of writes through these references in any order changes exactly the values written to, keeps the keys, the length and the well-formedness.", "quantifier": "for every map, every call sequence, every list of writes", "why_tests_cant": "All shapes and write orders.", "anchors": ["src/btree/fixed.rs::BTreeMap::iter_mut", "src/btree/core.rs::NodeIterMut"]}
{"id": "C75", "title": "fixed::BTreeMap drop and node clone", "statement": "Dropping an array-based map drops every entry exactly once and reads no unwritten slot; if some nodes are shared with other maps, no entry is dropped twice. The clone of a node (made when a shared node is written to) holds the same entries.", "quantifier": "for every map, every set of shared nodes", "why_tests_cant": "Double drops and uninitialised reads are undefined behaviour a test need not notice; all shapes.", "anchors": ["src/btree/core.rs::InlineVec (Drop, Clone)", "src/btree/core.rs::Node", "src/btree/fixed.rs::BTreeMap"]}
{"id": "C76", "title": "Finding: a panicking clone in fixed::BTreeMap::remove breaks the map", "statement": "Expected but false: if the user's clone panics during remove on a map that shares nodes, the map can still be used after the panic is caught. merge_kids takes the right child out before it clones it, so unwinding leaves a node with as many children as entries; a later insert of a key of that range panics although its arguments are fine.", "quantifier": "there is a well-formed map for which it fails", "why_tests_cant": "Needs a panic at one particular clone call.", "anchors": ["src/btree/core.rs::Node::merge_kids", "src/btree/fixed.rs::BTreeMap::remove"]}
{"id": "C77", "title": "Finding: a panicking clone in BTreeMap::remove breaks the map", "statement": "Expected but false: if the user's clone panics during remove on a BTreeMap that shares nodes, the map can still be used after the panic is caught. merge_kids has moved the separator and one child out by then; a later remove of a key that get still finds panics inside the library (rebal indexes kids out of bounds). Holds for N = 1 and for the default N = 5.", "quantifier": "there is a well-formed map, a key and a clone call for which it fails", "why_tests_cant": "Needs a panic at one particular clone call and a later call on the same map.", "anchors": ["src/btree.rs::Node::merge_kids", "src/btree.rs::Node::rebal", "src/btree.rs::BTreeMap::remove"]}
{"id": "C78", "title": "BTreeMap cloning is lazy", "statement": "clone() copies no node. insert and get_mut copy at most the nodes on the path to the key, each once; remove and the pops at most those on their way and one sibling of each (nothing if the key is absent): at most d+1 and 2d+1 nodes, where 2(N+1)^d <= len+1. If no node of the map is shared then insert, get_mut, entry, remove, pops, extend, retain, split_off, append and into_iter call no user clone at all and leave nothing shared.", "quantifier": "for every sharing state, map, key", "why_tests_cant": "An extra clone is invisible in results; all sharing patterns.", "anchors": ["src/btree.rs::Node::insert", "src/btree.rs::Node::remove", "src/btree.rs::Node::rebal", "src/btree.rs::BTreeMap"]}
{"id": "C79", "title": "BTreeMap insert and get_mut have the strong exception guarantee", "statement": "If a user clone panics during insert or get_mut on a BTreeMap that shares nodes, the map still shows exactly what it showed before and check() succeeds; extend stops between two items. All other maps are untouched and all reference counts stay exact.", "quantifier": "for every sharing state, every key, and every clone call that panics", "why_tests_cant": "Needs a panic injected at every clone call of every sharing pattern.", "anchors": ["src/btree.rs::Node::insert", "src/btree.rs::Node::get_mut", "src/btree.rs::BTreeMap::insert"]}
{"id": "C80", "title": "A BTreeMap removal that unwinds loses entries but corrupts no other map", "statement": "If a user clone panics during remove, pop_first or pop_last of a BTreeMap, what is left is a subsequence of its entries and get finds exactly that; len() keeps the old value; all other maps are untouched and counts are exact.", "quantifier": "for every sharing state, every key, and every clone call that panics", "why_tests_cant": "Needs a panic injected at every clone call of every sharing pattern.", "anchors": ["src/btree.rs::Node::remove", "src/btree.rs::Node::pop_first", "src/btree.rs::Node::pop_last", "src/btree.rs::BTreeMap::rm_and_rebal"]}
{"id": "C81", "title": "BTreeMap retain, append and split_off on shared maps, also when they unwind", "statement": "retain calls the predicate on the entries in ascending order, threading its state, and keeps what it says; append and split_off act as on lists. If the predicate or a clone panics, retain and split_off leave an empty map, append has moved some first entries and emptied the other map; len() is right in all cases, all other maps are untouched and counts are exact.", "quantifier": "for every sharing state and every panicking call", "why_tests_cant": "Needs a panic injected at every call of the predicate and of clone.", "anchors": ["src/btree.rs::BTreeMap::retain", "src/btree.rs::BTreeMap::append", "src/btree.rs::BTreeMap::split_off"]}
{"id": "C82", "title": "BTreeMap into_iter on maps that share nodes", "statement": "Any sequence of next and next_back on the owning iterator of a map that shares nodes yields what it yields for the list of entries, with the right len() after each call; the only user clones are of single yielded entries in shared nodes; after the iterator is dropped, at any point, also after a panicking clone, all other maps are untouched and counts are exact.", "quantifier": "for every sharing state and every call sequence", "why_tests_cant": "The mix of owned and shared nodes on the worklist depends on the sharing pattern.", "anchors": ["src/btree.rs::IntoNodeIter", "src/btree.rs::IntoIter", "src/btree.rs::InnerIter"]}
{"id": "C83", "title": "Finding: BTreeMap IntoIter breaks after a panicking clone", "statement": "Expected but false: after a panic of the user's clone in IntoIter::next has been caught, next goes on with the remaining entries, as many as len() says. The index has already moved but the exhausted node iterator has not been popped, so the next call fails assert!(ret.is_some()).", "quantifier": "there is a map for which it fails", "why_tests_cant": "Needs a panic at one particular clone call and a later call on the iterator.", "anchors": ["src/btree.rs::IntoNodeIter::next_elem", "src/btree.rs::InnerIter::next"]}
{"id": "C84", "title": "Mutable iterators of BTreeMaps that share nodes write only to their own map", "statement": "For any map that shares nodes with others in any way: a client that takes references from iter_mut() or range_mut() from both ends and reads and writes through the ones it holds in any order gets exactly the entries of the map (of the range) from each end, each with the value last written; at the end the map has the values written and every other map shows what it did; reference counts are exact. No reference is ever to a node that is shared. size_hint: the lower bound is never above the number of entries left, the upper bound exact for iter_mut and larger by the number of entries outside for range_mut. If a clone panics, all this holds of the calls that returned.", "quantifier": "all key orders, N >= 1, maps, sharing, sequences of calls and writes, bounds, and panics of clone", "why_tests_cant": "Interleavings of calls at both ends with writes through older references, on all shapes of sharing, cannot be enumerated.", "anchors": ["src/btree.rs::BTreeMap::iter_mut", "src/btree.rs::BTreeMap::range_mut", "src/btree.rs::make_mut_worklist", "src/btree.rs::InnerIter::next", "src/btree.rs::InnerIter::next_back"]}
{"id": "C85", "title": "Mutable iteration clones lazily", "statement": "iter_mut() clones at most the root; range_mut() at most the root and one node per level and bounded end. Taking entries clones only nodes on the paths to the entries taken, no node twice. A map none of whose nodes is shared is iterated in place: no clone, no unwinding, and it stays unshared.", "quantifier": "all key orders, N >= 1, maps, sharing, sequences of calls and writes, bounds, and panics of clone", "why_tests_cant": "Clone counts of all partial iterations over all sharings.", "anchors": ["src/btree.rs::make_node_iter_mut", "src/btree.rs::make_mut_worklist", "src/btree.rs::RangeMut::new"]}
{"id": "C86", "title": "Finding: IterMut skips entries after a panicking clone", "statement": "Expected but false: after a panic of the user's clone in IterMut::next has been caught, next goes on with the remaining entries, as many as len() says. The child was taken from its parent's iterator before it was cloned, so its whole subtree is skipped silently and len() stays too large.", "quantifier": "there is a map for which it fails", "why_tests_cant": "Needs a panic at one particular clone call and later calls on the iterator.", "anchors": ["src/btree.rs::InnerIter::next", "src/btree.rs::make_node_iter_mut"]}
{"id": "C87", "title": "Mutable iterators of AvlMaps that share nodes write only to their own map", "statement": "For any map that shares nodes with others in any way: a client that takes references from iter_mut() or range_mut() (any bounds, also inverted ones) from both ends and reads and writes through the ones it holds in any order gets exactly the entries of the map (of the range) from each end, each with the value last written; at the end the map has the values written and every other map shows what it did; reference counts are exact. No reference is ever to a node that is shared. len() of the iterator is the number of entries left, for range_mut plus the number of entries outside the range. If a clone panics, all this holds of the calls that returned.", "quantifier": "all key orders, maps of fewer than 2^64 entries, sharing, sequences of calls and writes, bounds, and panics of clone", "why_tests_cant": "Interleavings of calls at both ends with writes through older references, on all shapes of sharing, cannot be enumerated.", "anchors": ["src/avl.rs::AvlMap::iter_mut", "src/avl.rs::AvlMap::range_mut", "src/avl.rs::IterMutNode::destruct", "src/avl.rs::InnerIter::next", "src/avl.rs::InnerIter::next_back"]}
{"id": "C88", "title": "Mutable iteration of AvlMaps clones lazily", "statement": "iter_mut() clones at most the root; range_mut() at most the root and, for either end, two nodes per level below it. Taking entries clones only children of nodes on the paths to the entries taken (at most two per level and path), no node twice. A map none of whose nodes is shared is iterated in place: no clone, no unwinding, and it stays unshared.", "quantifier": "all key orders, maps of fewer than 2^64 entries, sharing, sequences of calls and writes, bounds, and panics of clone", "why_tests_cant": "Clone counts of all partial iterations over all sharings.", "anchors": ["src/avl.rs::IterMutNode::destruct", "src/avl.rs::AvlMap::iter_mut", "src/avl.rs::AvlMap::range_mut"]}
{"id": "C89", "title": "Finding: AvlMap's IterMut loses a subtree after a panicking clone", "statement": "Expected but false: after a panic of the user's clone in IterMut::next has been caught, next goes on with the remaining entries, as many as len() says. The node was taken off the work list before its children were cloned, so its subtree is lost: if it was the root, the iterator returns None at once while len() still says all entries are to come.", "quantifier": "there is a map for which it fails", "why_tests_cant": "Needs a panic at one particular clone call and later calls on the iterator.", "anchors": ["src/avl.rs::InnerIter::next", "src/avl.rs::IterMutNode::destruct"]}
{"id": "C90", "title": "Owning iterators of AvlMaps that share nodes work beside the other maps", "statement": "into_iter(), into_keys() and into_values() of a map that shares nodes in any way clone nothing. Each call of next or next_back returns the item at its end and leaves the others, whatever calls on other maps and iterators (including writes to maps that shared all nodes) were made in between; other maps are not affected, and reference counts stay exact. If the user's clone panics in a call, one or more items at that end are lost while len() still counts them; the remaining items can still be taken from both ends, and nothing leaks when the iterator is dropped.", "quantifier": "all key orders, item types, maps of fewer than 2^64 entries, sharing, sequences of calls, and panics of clone", "why_tests_cant": "Interleavings of iterator calls with calls on maps that share the nodes, with a panic at any clone, cannot be enumerated.", "anchors": ["src/avl.rs::AvlMap::into_iter", "src/avl.rs::AvlMap::into_keys", "src/avl.rs::AvlMap::into_values", "src/avl.rs::opt_to_iter_node", "src/avl.rs::IntoIterNode::destruct", "src/avl.rs::InnerIter::next", "src/avl.rs::InnerIter::next_back"]}
{"id": "C91", "title": "Owning iteration of AvlMaps clones lazily", "statement": "Any calls of next and next_back on an owning iterator give what they give for a plain list, with the right len() after each, up to a panic of clone; only nodes on the paths to the entries yielded are cloned, no node twice; after the drop of the iterator counts are exact and other maps show what they did. A map none of whose nodes is shared is taken apart without a clone or an allocation.", "quantifier": "all key orders, item types, maps of fewer than 2^64 entries, sharing, sequences of calls, and panics of clone", "why_tests_cant": "Clone counts of all partial iterations over all sharings.", "anchors": ["src/avl.rs::opt_to_iter_node", "src/avl.rs::IntoIterNode::destruct", "src/avl.rs::AvlMap::into_iter"]}
{"id": "C92", "title": "Finding: AvlMap's IntoIter loses a subtree after a panicking clone", "statement": "Expected but false: after a panic of the user's clone in IntoIter::next has been caught, the iterator still yields as many entries as its len() says. The node was taken off the work list before its entry was cloned, so its subtree is lost: if it was the root, next returns None at once while len() still says all entries are to come.", "quantifier": "there is a map for which it fails", "why_tests_cant": "Needs a panic at one particular clone call and later calls on the iterator.", "anchors": ["src/avl.rs::InnerIter::next", "src/avl.rs::IntoIterNode::destruct"]}
{"id": "C93", "title": "Shared fixed::BTreeMaps are independent", "statement": "Clones of a fixed::BTreeMap share nodes, but any history of calls (new, from_iter, clone, insert, remove, get, get_mut, extend, clear, len, is_empty, iter, chk) on any number of maps answers as one sorted list per map would, without a panic or undefined behaviour, and each map shows its list at the end. A single call changes no map that it does not borrow mutably, whether it returns or unwinds.", "quantifier": "all histories, all sharing patterns, all key types with a lawful order, both key searches", "why_tests_cant": "Wrong only for particular combinations of shared nodes and rebalancing steps.", "anchors": ["src/btree/fixed.rs::BTreeMap::insert", "src/btree/fixed.rs::BTreeMap::remove", "src/btree/fixed.rs::BTreeMap::get_mut", "src/btree/core.rs::Node::rebal"]}
{"id": "C94", "title": "A panicking clone in fixed::BTreeMap's insert, get_mut, extend", "statement": "If the user's clone panics and the panic is caught, insert and get_mut leave the map as it was, extend has inserted a first part of the items, from_iter leaves nothing behind, and all other maps are as they were. The library itself does not panic and reaches no undefined behaviour in any history in which maps whose remove unwound are not used any more.", "quantifier": "all histories, all sets of clone calls that panic", "why_tests_cant": "Needs a panic at each possible clone call under each possible sharing.", "anchors": ["src/btree/core.rs::Node::insert", "src/btree/core.rs::Node::get_mut", "src/btree/fixed.rs::BTreeMap::extend"]}
{"id": "C95", "title": "fixed::BTreeMap: exact reference counts, no node leaks", "statement": "After any history of calls, some of which may have unwound, the count of each node is the number of pointers to it, and dropping all maps frees all nodes.", "quantifier": "all histories, all sets of clone calls that panic", "why_tests_cant": "A leak or a count too low shows only under one sharing pattern, and often not at all in a test.", "anchors": ["src/btree/core.rs::Node::merge_kids", "src/btree/core.rs::InlineVec::drop", "src/btree/fixed.rs::BTreeMap::rm_and_rebal"]}
{"id": "C96", "title": "fixed::BTreeMap clones lazily", "statement": "clone() copies no node. insert and get_mut copy at most the nodes on the path to the key, each once; remove copies at most these and one sibling of each. The number of levels is logarithmic in len(). A map that shares no node is changed in place: no node is copied (so no panic of clone can interrupt the call), and it shares no node afterwards; a map just built by from_iter shares none.", "quantifier": "all maps, all sharing patterns, also if a clone panics", "why_tests_cant": "Copying too much gives the same results.", "anchors": ["src/btree/core.rs::Node::insert", "src/btree/core.rs::Node::get_mut", "src/btree/core.rs::Node::remove"]}
{"id": "C97", "title": "Finding: fixed::BTreeMap::remove copies nodes for an absent key", "statement": "Expected but false: removing a key that is not there copies no node. remove calls Arc::make_mut on every node of the path before it knows whether the key is there; BTreeMap::remove looks first.", "quantifier": "there is a map for which it fails", "why_tests_cant": "The result is the same; only the work and the memory differ.", "anchors": ["src/btree/core.rs::Node::remove", "src/btree/fixed.rs::BTreeMap::remove"]}
{"id": "C98", "title": "A panicking clone in fixed::BTreeMap::remove", "statement": "If the user's clone panics in remove and the panic is caught, all other maps are as they were, len() is as before, and the map can be dropped or cleared without leaking or freeing a node twice. Finding (expected but false): the map can be used. chk fails, iter() yields fewer entries than len() says, and later calls of insert and remove panic.", "quantifier": "all maps and all clone calls that panic; the finding: there is a map", "why_tests_cant": "Needs a panic at one particular clone call, and the shared state afterwards.", "anchors": ["src/btree/core.rs::Node::merge_kids", "src/btree/fixed.rs::BTreeMap::remove"]}
{"id": "C99", "title": "Finding: after a panicking clone in remove, get does not find what iter yields", "statement": "Expected but false: after a panic of the user's clone in fixed::BTreeMap::remove has been caught, iter() yields ascending keys and get finds them. merge_kids has taken the right child out of the array of children but not the separator, so all children behind it are one place off: entries that the removal had nothing to do with are iterated out of order and not found.", "quantifier": "there is a map for which it fails", "why_tests_cant": "Needs three leaves and a panic at one particular clone call.", "anchors": ["src/btree/core.rs::Node::merge_kids"]}
{"id": "C100", "title": "InlineVec::clone: what a panicking clone leaks", "statement": "If no clone panics the clone of a node's arrays holds the same entries in the same places. If the clone of the key or value number i panics, nothing is dropped that was not written, but (finding) all keys and values cloned before are leaked, because len is set only at the end.", "quantifier": "all array contents, all positions of the panic", "why_tests_cant": "A leak is not visible to a test without instrumentation of the element type and a panic in the middle.", "anchors": ["src/btree/core.rs::InlineVec::clone", "src/btree/core.rs::InlineVec::drop"]}
{"id": "C101", "title": "Owning iteration of shared fixed::BTreeMaps, call by call", "statement": "into_iter() on a map that shares nodes clones nothing. Each next() returns the first entry left and each next_back() the one that is first in its own order (not the reverse order; both are orders of the same entries), whatever other maps and iterators have done in between; a call clones this one entry or nothing and allocates nothing. Dropping the iterator at any point drops what is left exactly once and lets go of shared nodes; all other maps and iterators see what they saw.", "quantifier": "all maps, sharing patterns, iterator states and calls", "why_tests_cant": "Whether a node is moved out or cloned depends on the reference counts at each call; double drops and reads of moved-out slots are undefined behaviour, not failures.", "anchors": ["src/btree/core.rs::NodeIntoIter::next", "src/btree/core.rs::NodeIntoIter::drop", "src/btree/core.rs::InnerIter::next", "src/btree/fixed.rs::BTreeMap::into_iter"]}
{"id": "C102", "title": "A panicking clone in fixed IntoIter::next loses nothing", "statement": "If the user's clone panics in next() and the panic is caught, the iterator still has every entry it had and len() is right; the next call that returns yields the entry that was up. In a run of next() with any panics, the calls that return yield the first entries in order.", "quantifier": "all maps, all iterator states, any set of clone calls that panic", "why_tests_cant": "Needs a panic at each possible clone call and a look at the iterator afterwards.", "anchors": ["src/btree/core.rs::NodeIntoIter::next", "src/btree/core.rs::InnerIter::next"]}
{"id": "C103", "title": "Any run of calls on a fixed IntoIter of a shared map", "statement": "For any sequence of next() and next_back() and the final drop: no entry is yielded twice, or yielded and dropped; len() counts down; None comes only at 0; at most one entry is cloned per call, and without panics only entries that are yielded, none twice; no node is allocated; next() alone gives the plain list. A map that shares no node is taken apart without any clone.", "quantifier": "all maps, sharing patterns, call sequences and panics of clone", "why_tests_cant": "Unbounded combinations of call sequences and sharing.", "anchors": ["src/btree/core.rs::InnerIter::next", "src/btree/core.rs::InnerIter::next_back", "src/btree/core.rs::NodeIntoIter::new"]}
{"id": "C104", "title": "Mutable iterators of fixed BTreeMaps that share nodes write only to their own map", "statement": "For any fixed::BTreeMap that shares nodes with others in any way: a client that takes references from iter_mut() by next() and next_back() and reads and writes through the ones it holds in any order, catching panics of clone, gets every entry at most once, each with the value last written; len() counts them down; None comes only when all are out. At the end the map has the values written, every other map shows what it did, reference counts are exact. No reference is ever to a node that is shared. With next() alone and no panic the results are those of the sorted list.", "quantifier": "all key orders, maps, sharing, sequences of calls and writes, and panics of clone", "why_tests_cant": "Interleavings of calls with writes through older references, on all shapes of sharing and with all placements of panics, cannot be enumerated.", "anchors": ["src/btree/fixed.rs::BTreeMap::iter_mut", "src/btree/core.rs::NodeIterMut::new", "src/btree/core.rs::NodeIter::next", "src/btree/core.rs::InnerIter::next", "src/btree/core.rs::InnerIter::next_back"]}
{"id": "C105", "title": "Mutable iteration over fixed BTreeMaps clones lazily", "statement": "iter_mut() clones at most the root. Up to and including the first call that unwinds, taking entries clones only nodes on the paths to the entries taken, no node twice. A map none of whose nodes is shared is iterated in place: no clone, no unwinding, and it stays unshared.", "quantifier": "all key orders, maps, sharing, sequences of calls and writes, and panics of clone", "why_tests_cant": "Clone counts of all partial iterations over all sharings.", "anchors": ["src/btree/core.rs::NodeIterMut::new", "src/btree/core.rs::InnerIter::next"]}
{"id": "C106", "title": "Finding: fixed IterMut skips entries after a panicking clone, and next_back starts at the front", "statement": "Expected but false: after a panic of the user's clone in IterMut::next has been caught, next goes on with the remaining entries, as many as len() says (the child was taken from its parent's iterator before it was cloned, so its whole subtree is skipped silently and len() stays too large). Also false: next_back() of iter_mut() hands out the last entry.", "quantifier": "there is a map for which it fails", "why_tests_cant": "Needs a panic at one particular clone call and later calls on the iterator.", "anchors": ["src/btree/core.rs::InnerIter::next", "src/btree/core.rs::InnerIter::next_back", "src/btree/core.rs::NodeIterMut::new"]}
{"id": "C107", "title": "A wrong Ord does not break fixed::BTreeMap", "statement": "With any comparison function whatever in place of Ord (cyclic, constant, not symmetric, different from call to call), no call of insert, remove, get, get_mut, len, is_empty, clear, extend on a btree::fixed::BTreeMap panics or reads unwritten memory. The arrays stay well formed, and len() is the number of entries. A call touches at most one entry, one of which a comparison said that it is equal to the key: insert adds one entry or replaces one and returns its value; remove takes out one entry or none and returns its value; all other entries stay, in their order. Iteration and drop see every entry exactly once.", "quantifier": "all key and value types, comparison functions, both search strategies, histories of any length", "why_tests_cant": "Tests use lawful key types; the memory safety of the unsafe arrays must not depend on a safe trait.", "anchors": ["src/btree/core.rs::Node::insert", "src/btree/core.rs::Node::remove", "src/btree/core.rs::search_keys", "src/btree/fixed.rs::BTreeMap"]}
{"id": "C108", "title": "A wrong Ord does not break BTreeMap", "statement": "With any comparison function in place of Ord, for every minimal occupancy N >= 1, insert, remove, get, contains_key, get_mut, extend, pop_first, pop_last, append, retain, split_off and iteration from both ends do not panic, keep the tree well formed (depths, occupancies, len()), and touch only entries that a comparison said to be equal; calls that rebuild the map lose an entry only to one that it was told to be equal to.", "quantifier": "all key and value types, comparison functions, N >= 1, maps", "why_tests_cant": "Tests use lawful key types; remove searches twice and could disagree with itself.", "anchors": ["src/btree.rs::Node::insert", "src/btree.rs::Node::remove", "src/btree.rs::BTreeMap::remove", "src/btree.rs::BTreeMap::retain", "src/btree.rs::BTreeMap::append"]}
{"id": "C109", "title": "A wrong Ord does not break AvlMap", "statement": "With any comparison function in place of Ord, insert, remove(_entry), get, get_mut, extend, first/last, pops, append, new_union, new_intersect, new_diff, new_sym_diff, retain and iteration of an AvlMap do not panic and keep the tree balanced with right heights and len(). Single-key calls touch at most one entry, told to be equal. Merges pair some entries of one map with entries of the other, equals with equals, and the result has exactly the unpaired and paired entries that the operation promises. retain calls the closure once per entry.", "quantifier": "all key and value types, comparison functions, maps with fewer than 2^63 entries", "why_tests_cant": "Tests use lawful key types.", "anchors": ["src/avl.rs::ins", "src/avl.rs::rm", "src/avl.rs::split", "src/avl.rs::union", "src/avl.rs::retain"]}
{"id": "C110", "title": "Finding: AvlMap::split_off with a wrong Ord returns a map with a wrong len()", "statement": "Expected but false: with any comparison function, the two maps that split_off leaves have len() equal to their numbers of entries (the entry found in the middle is put back by ins, which may replace an entry that it is told to be equal to, but the length was computed before). True: the first map is right, and so is the second if no entry is told to be equal to the key; otherwise the second has the entries after the middle with the middle one inserted.", "quantifier": "there is a map and a comparison for which it fails; the positive part for all", "why_tests_cant": "Needs an inconsistent Ord and a check of len() against iteration.", "anchors": ["src/avl.rs::AvlMap::split_off"]}
{"id": "C111", "title": "Finding: entry().or_insert() panics with an Ord that is not reflexive", "statement": "Expected but false: with any comparison function, entry(k).or_insert(v) returns a reference to a value. It panics in the unwrap of its second lookup if that lookup does not find the key just inserted; this is the only panic, and if it returns, the map is well formed and the write through the reference has changed one entry that was told to be equal to k.", "quantifier": "AvlMap and BTreeMap with every N >= 1; there are maps and comparisons for which it fails; the positive part for all", "why_tests_cant": "Needs an Ord with cmp(k, k) != Equal.", "anchors": ["src/lib.rs::Entry::or_aux", "src/lib.rs::Entry::or_insert"]}
{"id": "C112", "title": "AvlMap: a call whose comparison panics leaves the map as it was", "statement": "If Ord::cmp answers as a total order but may panic at any comparison: insert, remove, remove_entry, get_mut either return what they should and leave the map with the entries it should have, or unwind (only because a comparison panicked) with the map exactly as it was; get and contains_key either answer rightly or unwind. At most 2*log2(len+1) comparisons are made.", "quantifier": "all maps with entries l, all keys and values, every pattern of panics", "why_tests_cant": "Tests use key types whose comparison never panics; the panic must be tried at each comparison of each shape.", "anchors": ["src/avl.rs::AvlMap::insert", "src/avl.rs::AvlMap::remove", "src/avl.rs::AvlMap::remove_entry", "src/avl.rs::AvlMap::get", "src/avl.rs::AvlMap::contains_key", "src/avl.rs::AvlMap::get_mut", "src/avl.rs::ins", "src/avl.rs::rm"]}
{"id": "C113", "title": "BTreeMap: a call whose comparison panics leaves the map as it was", "statement": "If Ord::cmp answers as a total order but may panic at any comparison: insert, remove and get_mut either return what they should and leave the map with the entries it should have, or unwind with the map exactly as it was; get and contains_key answer rightly or unwind. At most 2N+1 comparisons are made in each of d+1 nodes, where (N+1)^d <= len+1; twice that for remove.", "quantifier": "every N >= 1, all maps, keys, values, every pattern of panics", "why_tests_cant": "As C112; also the number of comparisons is never counted by the tests.", "anchors": ["src/btree.rs::BTreeMap::insert", "src/btree.rs::BTreeMap::remove", "src/btree.rs::BTreeMap::get", "src/btree.rs::BTreeMap::contains_key", "src/btree.rs::BTreeMap::get_mut"]}
{"id": "C114", "title": "Array-based map: a call whose comparison panics leaves the map as it was", "statement": "If Ord::cmp answers as a total order but may panic at any comparison: insert, remove and get_mut of the array-based map return what they should and leave the entries they should, or unwind with the map exactly as it was; get answers rightly or unwinds. At most 11 comparisons in a node for small keys (4 for others, which are searched by halves), in d+1 nodes with 6^d <= len+1.", "quantifier": "all maps, keys, values, both searches, every pattern of panics", "why_tests_cant": "As C113.", "anchors": ["src/btree/fixed.rs::insert", "src/btree/fixed.rs::remove", "src/btree/fixed.rs::get", "src/btree/fixed.rs::get_mut", "src/btree/core.rs"]}
{"id": "C115", "title": "Unwinding out of a comparison never leaves a half-changed map", "statement": "Whatever the comparisons answer (no order, changing from one comparison to the next) and whatever the map (even a damaged one): if insert, remove, remove_entry or get_mut of any of the three maps unwinds, a comparison panicked and the map is exactly as it was before the call.", "quantifier": "all maps without any assumption, all oracles, all keys and values; every N", "why_tests_cant": "Needs a comparison that panics in the middle of a descent, and comparison of the whole tree before and after.", "anchors": ["src/avl.rs::ins", "src/avl.rs::rm", "src/btree.rs", "src/btree/core.rs", "src/btree/fixed.rs"]}
{"id": "C116", "title": "Finding: AvlMap::append and split_off leave a wrong len() if a comparison panics", "statement": "Expected but false: after append or split_off unwound, len() is the number of entries of the map. True: if they return, they did what they should; if append unwinds, both maps have no entries but keep their len(); if split_off unwinds, the map has no entries but keeps its len(), or (the key was there, and the comparison panicked while its entry was put into the second map) it has exactly the entries before the key. union, intersect, diff and sym_diff, which own both maps, return what they should or unwind, and never fault.", "quantifier": "all maps, every pattern of panics; a witness for the failure", "why_tests_cant": "Needs catch_unwind around a panicking comparison and a check of len() against iteration afterwards.", "anchors": ["src/avl.rs::AvlMap::append", "src/avl.rs::AvlMap::split_off", "src/avl.rs::AvlMap::new_union", "src/avl.rs::AvlMap::new_intersect", "src/avl.rs::AvlMap::new_diff", "src/avl.rs::AvlMap::new_sym_diff"]}
{"id": "C117", "title": "extend stops between pairs; BTreeMap::append, retain, split_off leave a well-formed map", "statement": "If a comparison panics in extend, the map is as if it had been extended by the pairs before some pair. If it panics in BTreeMap::append, the first map has got a prefix of the entries of the second and the second is empty. If it, or the closure of retain, panics in BTreeMap::retain or split_off, the map is the empty map. Otherwise they do what they should; they never fault.", "quantifier": "all maps, all lists of pairs, every pattern of panics, every closure with its state; every N >= 1; with or without shared nodes for the consuming iteration", "why_tests_cant": "Needs catch_unwind and a panic at each point of a bulk operation.", "anchors": ["src/avl.rs::AvlMap::extend", "src/btree.rs::BTreeMap::extend", "src/btree/fixed.rs::extend", "src/btree.rs::BTreeMap::append", "src/btree.rs::BTreeMap::retain", "src/btree.rs::BTreeMap::split_off"]}
{"id": "C118", "title": "Entry API: panicking comparisons and closures", "statement": "and_modify: returns with the value changed if the key is there; if a comparison panics the map is as it was; if the closure panics, exactly the value it was given is what the closure made of it. or_insert and its kin: if they return, the reference is to the right value; if the closure or the first or second lookup panics, the map is as it was; if the third panics the new entry is there; they never fault (their unwrap cannot fail).", "quantifier": "AvlMap and BTreeMap with every N >= 1, all closures, every pattern of panics", "why_tests_cant": "Three lookups are made, each of which may panic.", "anchors": ["src/lib.rs::Entry::and_modify", "src/lib.rs::Entry::or_insert", "src/lib.rs::Entry::or_insert_with", "src/lib.rs::Entry::or_insert_with_key", "src/lib.rs::Entry::or_default"]}
{"id": "C119", "title": "AvlMap with an Ord that answers anything and may panic", "statement": "For any comparison function, stateful, inconsistent or panicking: insert, remove, remove_entry, get, contains_key, get_mut, extend, append, union, intersect, diff, sym_diff and split_off on a well-formed AvlMap never fault. If they return, the map is well-formed and only what the call's own comparisons told to be equal was replaced, removed, found or merged; nothing else is lost, moved or duplicated (split_off may get len() wrong, see C110). If they unwind, a comparison panicked; the map is as it was (extend: extended by a prefix; append and split_off: see C116).", "quantifier": "every function from comparison number and pair of keys to an answer or a panic; all well-formed maps, in any order of keys; all arguments", "why_tests_cant": "There is no oracle for an inconsistent Ord, and the answers may change from one comparison to the next.", "anchors": ["src/avl.rs::AvlMap::insert", "src/avl.rs::AvlMap::remove", "src/avl.rs::AvlMap::get", "src/avl.rs::AvlMap::append", "src/avl.rs::AvlMap::split_off", "src/avl.rs::AvlMap::new_union"]}
{"id": "C120", "title": "BTreeMap with an Ord that answers anything and may panic", "statement": "As C119 for the B-tree map: insert, remove (which searches twice, and whose searches may disagree), get, contains_key, get_mut, extend, append, retain, split_off. append, retain and split_off that unwind leave a well-formed map: the entries inserted so far, or the empty map.", "quantifier": "every such function; every N >= 1; all well-formed maps; all arguments, closures with their state", "why_tests_cant": "As C119.", "anchors": ["src/btree.rs::BTreeMap::insert", "src/btree.rs::BTreeMap::remove", "src/btree.rs::BTreeMap::get", "src/btree.rs::BTreeMap::append", "src/btree.rs::BTreeMap::retain", "src/btree.rs::BTreeMap::split_off"]}
{"id": "C121", "title": "The array-based B-tree map (unsafe code) with an Ord that answers anything and may panic", "statement": "As C119 for the map of fixed.rs over core.rs: insert, remove, get, get_mut, extend, with the linear and the binary search. In particular no uninitialised slot is read, no entry is dropped twice or leaked, whatever the comparisons answer and whenever they panic.", "quantifier": "every such function, both searches, all well-formed maps", "why_tests_cant": "Undefined behaviour need not show, and there are as many runs as answers.", "anchors": ["src/btree/fixed.rs::insert", "src/btree/fixed.rs::remove", "src/btree/core.rs::Node::insert", "src/btree/core.rs::Node::remove", "src/btree/core.rs::search_keys"]}
{"id": "C122", "title": "Catching panics: any sequence of calls with any Ord keeps the map well-formed", "statement": "A program that calls insert, remove, get, get_mut and extend in any sequence on one map, catching every panic of a comparison and going on, never faults; each outcome is one the call may have (C119-C121) given the entries the calls before it left.", "quantifier": "the three maps; every sequence of calls; every comparison function", "why_tests_cant": "Sequences, answers and points of panic are unbounded.", "anchors": ["src/avl.rs::AvlMap::insert", "src/btree.rs::BTreeMap::insert", "src/btree/fixed.rs::insert"]}
{"id": "C123", "title": "Catching panics: with a lawful Ord the calls that return are correct, those that unwind are no-ops", "statement": "The same for an Ord that answers as an order whenever it does not panic: each call that returns gives the result of the finite map, each call that unwinds leaves the map as it was (extend: extended by a prefix of the pairs), and the calls after it behave accordingly.", "quantifier": "the three maps; every sequence of calls; every order; every pattern of panics", "why_tests_cant": "The points of panic in a history are unbounded.", "anchors": ["src/avl.rs::AvlMap::insert", "src/btree.rs::BTreeMap::insert", "src/btree/fixed.rs::insert"]}
{"id": "C124", "title": "Shared AVL maps survive any Ord: every history of calls", "statement": "Take any number of AvlMaps that share nodes, a key type whose Ord is an arbitrary function that may even change from call to call, and V::clone and predicates that may panic. Every sequence of calls other than or_insert and split_off runs to the end without a fault: each call returns or unwinds only because a clone or a predicate panicked; each returned result and each map's new entries are among those its own comparisons permit; every map stays a balanced tree whose len() is its number of entries (the client clears a map whose removal, retain or append unwound: its len() may be stale, C67 and C68); the reference counts are exact throughout and dropping the maps frees every node once.", "quantifier": "every number of maps; every sequence of calls; every comparison function, another one in every call; every pattern of panicking clones and predicates", "why_tests_cant": "The comparison functions, the histories and the points of panic are all unbounded; a leak or a double free shows in no result.", "anchors": ["src/avl.rs::AvlMap::insert", "src/avl.rs::AvlMap::remove", "src/avl.rs::AvlMap::get_mut", "src/avl.rs::AvlMap::append"]}
{"id": "C125", "title": "Copy-on-write isolation and laziness of AVL maps do not depend on Ord", "statement": "With an arbitrary comparison function, insert, get_mut and remove_entry on an AvlMap that shares nodes leave the entries of every other map as they were, keep all counts exact, and clone at most the shared nodes on the path that the comparisons choose (remove: and the two beside each that a rotation changes). If a clone panics, insert and get_mut change no entry.", "quantifier": "every heap that the maps own exactly; every comparison function; every key; every pattern of panicking clones", "why_tests_cant": "It speaks of all ways of sharing and all comparison functions.", "anchors": ["src/avl.rs::AvlMap::insert", "src/avl.rs::AvlMap::remove", "src/avl.rs::AvlMap::get_mut"]}
{"id": "C126", "title": "AvlMap::range and range_mut with any Ord", "statement": "With an arbitrary comparison function and arbitrary bounds, range and range_mut of a well-formed AvlMap do not panic; they give a part of the entries, each at most once and in the order of iter, from both ends; the first and the last given were told by a comparison to be in the range; if every entry is told to lie strictly between the bounds, all are given. The references of range_mut are to different entries and a write through one changes only that value.", "quantifier": "every well-formed map; every comparison function; every pair of bounds; every sequence of calls of next and next_back", "why_tests_cant": "The comparison functions, maps and call sequences are unbounded.", "anchors": ["src/avl.rs::AvlMap::range", "src/avl.rs::AvlMap::range_mut"]}
{"id": "C127", "title": "Shared B-tree maps survive any Ord: every history of calls", "statement": "Take any number of BTreeMaps that share nodes, a key type whose Ord is an arbitrary function that may even change from call to call, and clones and predicates that may panic. Every sequence of calls other than or_insert and range runs to the end without a fault: each call returns, or unwinds only because a clone or a predicate panicked; each returned result and each map's new entries are among those its own comparisons permit (retain, append and split_off insert the entries one by one and so may merge entries told to be equal); every map stays a B-tree of the right shape whose len() is its number of entries (the client clears a map whose removal unwound, C77); the reference counts are exact throughout and dropping the maps frees every node once.", "quantifier": "every node size N >= 1; every number of maps; every sequence of calls; every comparison function, another one in every call; every pattern of panicking clones and predicates", "why_tests_cant": "The comparison functions, the histories and the points of panic are all unbounded; a leak or a double free shows in no result.", "anchors": ["src/btree.rs::BTreeMap::insert", "src/btree.rs::BTreeMap::remove", "src/btree.rs::BTreeMap::retain", "src/btree.rs::BTreeMap::append", "src/btree.rs::BTreeMap::split_off"]}
{"id": "C128", "title": "Copy-on-write isolation and laziness of B-tree maps do not depend on Ord", "statement": "With an arbitrary comparison function, insert, get_mut, remove, pop_first and pop_last on a BTreeMap that shares nodes leave the entries of every other map as they were, keep all counts exact, and clone at most the shared nodes on the path that the comparisons choose (removals: and one sibling of each; none if contains_key does not find the key); these are logarithmically many whatever the comparisons say. If a clone panics, insert and get_mut change no entry.", "quantifier": "every N >= 1; every heap that the maps own exactly; every comparison function; every key; every pattern of panicking clones", "why_tests_cant": "It speaks of all ways of sharing and all comparison functions.", "anchors": ["src/btree.rs::BTreeMap::insert", "src/btree.rs::BTreeMap::remove", "src/btree.rs::BTreeMap::get_mut", "src/btree.rs::BTreeMap::pop_first"]}
{"id": "C129", "title": "B-tree ranges with an Ord that is no order", "statement": "With an arbitrary comparison function, BTreeMap::range and range_mut panic only if the comparison of the two bounds says that they are the wrong way round (in which case they always do), or if some entry is told to equal an excluded lower bound and not to be below the upper bound. Otherwise next and next_back, in any interleaving, never panic, give each entry at most once and in the order of the map from the two ends of one fixed sublist, and size_hint brackets the number of entries left; the sublist is a prefix (suffix) of the map if there is no lower (upper) bound, is everything if all entries are told to be strictly inside, and its ends were told to be inside. Writes through the references of range_mut change the values of their own entries only.", "quantifier": "every N >= 1; every map of the right shape; every comparison function; every pair of bounds; every sequence of next and next_back calls; every sequence of writes", "why_tests_cant": "It speaks of all comparison functions, also those that are no order, on maps of all sizes.", "anchors": ["src/btree.rs::BTreeMap::range", "src/btree.rs::BTreeMap::range_mut", "src/btree.rs::find_range_edges", "src/btree.rs::make_worklist"]}
{"id": "C130", "title": "Shared AvlMaps: a comparison that panics in one call leaves every map as it was", "statement": "Take an AvlMap that shares nodes with others, an Ord that answers anything, may answer the same question differently each time and may panic at any comparison, and clones that may panic. insert, get_mut, remove, get and append never fault; a call that unwinds does so because its last comparison or a clone panicked, and then insert and get_mut leave the map as it was (remove too if it was the comparison; append leaves two maps without entries whose len() is as before). Whether it returns or unwinds, every other map keeps its entries, all reference counts stay exact, and only nodes on the path chosen by the answers given so far are cloned (remove: and their neighbours). What a call returns is what its own comparisons told it.", "quantifier": "every heap that the maps own exactly; every map; every key; every stateful, panicking comparison function; every pattern of panicking clones", "why_tests_cant": "The comparisons may panic at any point of any call on maps that share nodes in any way; a count that is off by one shows only as a leak or a use after free.", "anchors": ["src/avl.rs::ins", "src/avl.rs::rm", "src/avl.rs::AvlMap::get_mut", "src/avl.rs::merge", "src/avl.rs::AvlMap::append"]}
{"id": "C131", "title": "Shared AvlMaps: any history of calls with caught panics of comparisons, clones and predicates", "statement": "Any number of AvlMaps that share nodes are used by a client that catches panics and goes on (after a removal, append or retain that unwound it replaces the map by an empty one). The Ord answers anything and may panic, clones and predicates may panic. Then every sequence of calls other than or_insert, split_off, range and the self-check runs to the end without a fault; each call returns a result that its own comparisons permit, or unwinds because of a panic of the user's code and changes the maps only as documented; every map stays a balanced tree whose len() is its number of entries; all reference counts are exact, and dropping the maps frees every node once.", "quantifier": "every sequence of calls; every number of maps; every stateful, panicking comparison function; every pattern of panicking clones and predicates", "why_tests_cant": "Histories, comparison functions and the points of panic are all unbounded; leaks and double frees show in no result.", "anchors": ["src/avl.rs::AvlMap::insert", "src/avl.rs::AvlMap::remove", "src/avl.rs::AvlMap::append", "src/avl.rs::union", "src/avl.rs::AvlMap::retain"]}
{"id": "C132", "title": "Shared BTreeMaps: a comparison that panics in one call leaves every other map as it was", "statement": "Take a BTreeMap that shares nodes with others, an Ord that answers anything, may answer the same question differently each time and may panic at any comparison, and clones and predicates that may panic. insert, get_mut, remove, get, append, retain and split_off never fault; a call that unwinds does so because its last comparison, a clone or a predicate panicked. insert and get_mut then leave the map as it was, and so does remove if it was the comparison; append has inserted the entries before some entry of the other map, which is empty; retain and split_off leave an empty map. Whether a call returns or unwinds, every other map keeps its entries and all reference counts stay exact. insert and get_mut clone only nodes on the path chosen by the answers given so far, remove also a sibling of each: at most d+1 and 2d+1 nodes, where 2(N+1)^d <= len()+1.", "quantifier": "every node size N >= 1; every heap that the maps own exactly; every map; every key; every stateful, panicking comparison function; every pattern of panicking clones and predicates", "why_tests_cant": "The comparisons may panic at any point of any call on maps that share nodes in any way; a count that is off by one shows only as a leak or a use after free.", "anchors": ["src/btree.rs::Node::insert", "src/btree.rs::Node::get_mut", "src/btree.rs::Node::remove", "src/btree.rs::BTreeMap::append", "src/btree.rs::BTreeMap::retain", "src/btree.rs::BTreeMap::split_off"]}
{"id": "C133", "title": "Shared BTreeMaps: any history of calls with caught panics of comparisons, clones and predicates", "statement": "Any number of BTreeMaps that share nodes are used by a client that catches panics and goes on (after a removal that unwound it replaces the map by an empty one). The Ord answers anything and may panic, clones and predicates may panic. Then every sequence of calls other than or_insert, range and the self-check runs to the end without a fault; each call returns a result that its own comparisons permit, or unwinds because of a panic of the user's code and changes the maps only as documented; every map stays a B-tree of the right shape whose len() is its number of entries; all reference counts are exact, and dropping the maps frees every node once.", "quantifier": "every node size N >= 1; every sequence of calls; every number of maps; every stateful, panicking comparison function; every pattern of panicking clones and predicates", "why_tests_cant": "Histories, comparison functions and the points of panic are all unbounded; leaks and double frees show in no result.", "anchors": ["src/btree.rs::BTreeMap::insert", "src/btree.rs::BTreeMap::remove", "src/btree.rs::BTreeMap::append", "src/btree.rs::BTreeMap::retain", "src/btree.rs::BTreeMap::split_off"]}
{"id": "C134", "title": "Shared fixed BTreeMaps: a comparison that panics in one call leaves every other map as it was", "statement": "Take a BTreeMap of src/btree/fixed.rs (array nodes) that shares nodes with others, an Ord that answers anything, may answer the same question differently each time and may panic at any comparison, and clones that may panic. insert, get_mut, remove, get and extend never fault, in particular never read an array slot that is not written; a call that unwinds does so because its last comparison or a clone panicked. insert and get_mut then leave the map as it was, and so does remove if it was the comparison; extend has inserted the entries before some entry. Whether a call returns or unwinds, every other map keeps its entries and all reference counts stay exact. insert and get_mut clone only nodes on one way down from the root, remove also a sibling of each: at most d+1 and 2d+1 nodes, where 2*6^d <= len()+1.", "quantifier": "every heap that the maps own exactly; every map; every key; linear and binary search; every stateful, panicking comparison function; every pattern of panicking clones", "why_tests_cant": "The comparisons may panic at any point of any call on maps that share nodes in any way; a count that is off by one or a slot read before it is written shows only as undefined behaviour.", "anchors": ["src/btree/fixed.rs::insert", "src/btree/fixed.rs::remove", "src/btree/core.rs::Node::insert", "src/btree/core.rs::Node::remove", "src/btree/core.rs::search_keys"]}
{"id": "C135", "title": "Shared fixed BTreeMaps: any history of calls with caught panics of comparisons and clones", "statement": "Any number of BTreeMaps of src/btree/fixed.rs that share nodes are used by a client that catches panics and goes on (after a removal that unwound it replaces the map by an empty one). The Ord answers anything and may panic, clones may panic. Then every sequence of calls other than the self-check runs to the end without a fault; each call returns a result that its own comparisons permit, or unwinds because of a panic of the user's code and changes the maps only as documented; every map stays a B-tree of the right shape whose len() is its number of entries; all reference counts are exact, and dropping the maps frees every node once.", "quantifier": "every sequence of calls; every number of maps; linear and binary search; every stateful, panicking comparison function; every pattern of panicking clones", "why_tests_cant": "Histories, comparison functions and the points of panic are all unbounded; leaks, double frees and reads of unwritten slots show in no result.", "anchors": ["src/btree/fixed.rs::insert", "src/btree/fixed.rs::remove", "src/btree/core.rs::Node::insert", "src/btree/core.rs::Node::remove", "src/btree/core.rs::search_keys"]}
{"id": "C136", "title": "Entry API on shared maps with an Ord that answers anything and may panic", "statement": "On an AvlMap or BTreeMap that shares nodes with others, with an Ord that answers anything and may panic, clones that may panic and closures that may panic: entry(k).and_modify(f) changes only the value of one entry that its own comparisons told to be equal to k, or changes nothing; if it unwinds, the map is as it was, or f itself panicked and the value is what f had written. entry(k).or_insert(v) changes one value, inserts the entry or (if the answers contradict each other) replaces one, and returns a reference to the value of an entry told to be equal. If it unwinds, the map is as it was or has the new entry, and there is a reason: a comparison, a clone or the closure panicked, or the answers of the comparisons contradict each other or the order of the entries (the library's unwrap fails). Every other map keeps its entries and all reference counts stay exact.", "quantifier": "every heap that the maps own exactly; every map; every key; every stateful, panicking comparison function; every pattern of panicking clones; every closure", "why_tests_cant": "The library looks the key up twice and unwraps the second answer; comparison functions and the points of panic are unbounded, and whether the other maps and the counts survive shows in no result.", "anchors": ["src/lib.rs::Entry::and_modify", "src/lib.rs::Entry::or_insert", "src/lib.rs::OccupiedEntry", "src/lib.rs::VacantEntry", "src/avl.rs::insert", "src/btree.rs::insert"]}
{"id": "C137", "title": "AVL split_off on shared maps with an Ord that answers anything and may panic", "statement": "split_off on an AvlMap that shares nodes with others, with an Ord that answers anything and may panic and clones that may panic: the entries are cut in two at some place; the entry told to be equal to the key, if any, is inserted into the upper part, where it replaces an entry only if the answers say so (then len() of the upper part is one too many). If it unwinds, the map has no nodes (and its old len()), or it is the lower part; a comparison or a clone panicked. Both trees stay balanced, every other map keeps its entries, all reference counts stay exact and no node leaks.", "quantifier": "every heap that the maps own exactly; every map; every key; every stateful, panicking comparison function; every pattern of panicking clones", "why_tests_cant": "The points of panic and the comparison functions are unbounded; leaked nodes and wrong counts show in no result.", "anchors": ["src/avl.rs::split_off", "src/avl.rs::split", "src/avl.rs::join", "src/avl.rs::insert"]}
{"id": "C138", "title": "Shared maps with a lawful Ord that may panic: each call does what it should or leaves the map as it was", "statement": "The comparisons are those of a total order but any of them may panic, and so may clones. On AvlMaps and BTreeMaps that share nodes, insert, get_mut, get, remove, extend, and_modify and or_insert (and for AvlMap split_off, append and the four set operations) have exactly the result of the sorted-list specification if they return. If they unwind, a comparison, clone or closure panicked, and insert, get_mut and get leave the map as it was, and so does remove if a comparison panicked; extend has inserted the entries before some entry; or_insert has done nothing or has inserted the value; the set operations free all nodes of both maps. Every other map keeps its entries and all reference counts stay exact.", "quantifier": "every order; every pattern of panicking comparisons and clones; every heap that the maps own exactly; every map; every key and every list of pairs", "why_tests_cant": "Any comparison of any call on maps of any size that share nodes in any way may panic; tests try few such points.", "anchors": ["src/avl.rs::insert", "src/avl.rs::remove_entry", "src/avl.rs::split_off", "src/avl.rs::append", "src/btree.rs::insert", "src/btree.rs::remove", "src/lib.rs::Entry::or_insert"]}
{"id": "C139", "title": "AvlMap::range and range_mut with an Ord that answers anything and may panic", "statement": "With an Ord that answers anything, may answer the same question differently each time and may panic at any comparison, range and range_mut of an AvlMap (range also of one that shares nodes) make at most 4*len() comparisons and unwind only if the last of them panicked. Otherwise they give, from both ends in any interleaving, a part of the entries in the order of iter, each at most once; the first and the last given were told by comparisons of this very call to be in the range; if no comparison of the call told that an entry is not strictly between the bounds, all are given. Writes through the references of range_mut change only the values of their own entries. If the comparisons are those of an order, at most 8 per level of the tree are made (levels <= 2*log2(len()+1)), and if none panics exactly the entries between the bounds are given.", "quantifier": "every well-formed map; every stateful, panicking comparison function; every pair of bounds; every sequence of next and next_back calls", "why_tests_cant": "Comparison functions with a state, their points of panic, maps, bounds and call sequences are all unbounded; the number of comparisons shows in no result.", "anchors": ["src/avl.rs::AvlMap::range", "src/avl.rs::AvlMap::range_mut"]}
{"id": "C140", "title": "BTreeMap::range and range_mut with an Ord that answers anything and may panic", "statement": "With an Ord that answers anything, may answer the same question differently each time and may panic at any comparison, range and range_mut of a BTreeMap<_, _, N> (range also of one that shares nodes) make at most 1 + 2*(2N+1)*(d+1) comparisons, where (N+1)^d <= len()+1, and unwind from a comparison only if the last one made panicked. The call panics by itself only if its first comparison, that of the two bounds, says that they are the wrong way round (then it always does), or if comparisons told that an entry equals the excluded lower bound and is not below the upper one. If the call returns, it gives, from both ends in any interleaving and with size hints that bound what is left, a part of the entries in the order of iter, each at most once. The first and the last given were told by comparisons of this very call to be in the range, or stand next to an entry told to equal an excluded bound; an unbounded side loses nothing; if no comparison of the call told that an entry is not strictly between the bounds, all are given. Writes through the references of range_mut change only the values of their own entries. If the comparisons that return answer as a function cmp, the call does what it does with cmp (C34, C35, C129) unless it unwinds.", "quantifier": "every N >= 1; every well-formed map; every stateful, panicking comparison function; every pair of bounds; every sequence of next and next_back calls and of writes", "why_tests_cant": "Comparison functions with a state, their points of panic, maps, bounds and call sequences are all unbounded; the number of comparisons shows in no result.", "anchors": ["src/btree.rs::BTreeMap::range", "src/btree.rs::BTreeMap::range_mut", "src/btree.rs::find_range_edges", "src/btree.rs::make_worklist", "src/btree.rs::make_mut_worklist"]}
{"id": "C141", "title": "BTreeMap::range_mut on shared nodes with an Ord that answers anything and may panic", "statement": "On a BTreeMap<_, _, N> that may share nodes with other maps, with an Ord that answers anything, may answer the same question differently each time and may panic at any comparison, and with clones that may panic: range_mut makes at most 1 + 2*(2N+1)*(d+1) comparisons, where (N+1)^d <= len()+1. However it ends, the map has the same entries, every other map has the same entries, and all reference counts are exact. It unwinds from a comparison only if the last one made panicked; from a clone only if one panics; it panics by itself only if the first comparison says that the bounds are the wrong way round (then it never returns) or if comparisons told that an entry equals the excluded lower bound and is not below the upper one. If it returns, it gives a part of the entries as in C140, from both ends in any interleaving, each at most once, with size hints that bound what is left; writes through the references, in any order and also between the calls, change the values of their own entries in this map and nothing else in this map or others; a call of next or next_back fails only by a panic of clone, which leaves the map with what was written before. If the comparisons that return answer as a function cmp, the call does what it does with cmp (C84, C85) unless a comparison unwinds it.", "quantifier": "every N >= 1; every heap that the maps own exactly; every well-formed map; every stateful, panicking comparison function; every pattern of panicking clones; every pair of bounds; every sequence of next, next_back, reads and writes", "why_tests_cant": "Comparison functions with a state, their points of panic, those of clone, the ways to share nodes, bounds and call sequences are all unbounded; the number of comparisons and the reference counts show in no result.", "anchors": ["src/btree.rs::BTreeMap::range_mut", "src/btree.rs::RangeMut::new", "src/btree.rs::make_mut_worklist", "src/btree.rs::find_range_edges"]}
{"id": "C142", "title": "AvlMap::range_mut on shared nodes with an Ord that answers anything and may panic", "statement": "On an AvlMap that may share nodes with other maps, with an Ord that answers anything, may answer the same question differently each time and may panic at any comparison, and with clones that may panic: range_mut makes at most 4*len() comparisons and never panics by itself. However it ends, the map has the same entries, every other map has the same entries, and all reference counts are exact. It unwinds from a comparison only if the last one made panicked, and from a clone only if one panics. If it returns, it gives a part of the entries as in C139 (both ends told to be in the range by the call's own comparisons; all entries if none was told to be elsewhere than strictly between the bounds), from both ends in any interleaving, each at most once and in the order of iter, with a len() that exceeds what is left by a constant; writes through the references, in any order and also between the calls, change the values of their own entries in this map and nothing else in this map or others; a call of next or next_back fails only by a panic of clone, which leaves the map with what was written before. With the comparisons of an order that may panic, at most eight are made per level of the tree, and if the call returns the entries are exactly those between the bounds.", "quantifier": "every heap that the maps own exactly; every well-formed map with fewer than 2^63 entries; every stateful, panicking comparison function; every pattern of panicking clones; every pair of bounds; every sequence of next, next_back, reads and writes", "why_tests_cant": "Comparison functions with a state, their points of panic, those of clone, the ways to share nodes, bounds and call sequences are all unbounded; the number of comparisons and the reference counts show in no result.", "anchors": ["src/avl.rs::AvlMap::range_mut", "src/avl.rs::InnerIter::next", "src/avl.rs::InnerIter::next_back"]}
{"id": "C143", "title": "Vec::from(BTreeMap) on shared nodes", "statement": "Converting a BTreeMap that may share nodes with other maps into a Vec never panics by itself, whatever the Ord with which the map was built. If it returns, the vector holds the entries in the order of iter. However it ends, the map's own references are given back, all reference counts are exact and every other map has the same entries; each entry is cloned at most once, alone, in the order of iter. It unwinds only if a clone panics. With a lawful Ord and clones that do not panic, a map collected from the vector, also one of another fan-out N, has the same entries.", "quantifier": "every heap that the maps own exactly; every well-formed map of any size and fan-out; every pattern of panicking clones", "why_tests_cant": "The sizes, fan-outs, ways to share nodes and points of panic are unbounded; leaked or lost references show in no result of the call.", "anchors": ["src/btree.rs::Vec::from", "src/btree.rs::IntoIter::next"]}

{
 "claims": [
  {
   "property": "C01",
   "status": "proved",
   "theorems": [
    "C01_insert"
   ],
   "note": ""
  },
  {
   "property": "C02",
   "status": "proved",
   "theorems": [
    "C02_remove",
    "C02_remove_entry"
   ],
   "note": ""
  },
  {
   "property": "C03",
   "status": "proved",
   "theorems": [
    "C03_lookup",
    "C03_get_mut"
   ],
   "note": ""
  },
  {
   "property": "C04",
   "status": "proved",
   "theorems": [
    "C04_check",
    "C19_histories"
   ],
   "note": ""
  },
  {
   "property": "C05",
   "status": "proved",
   "theorems": [
    "C05_depth",
    "C05_lookup_cost"
   ],
   "note": "absence of overflow is the absence of Panic in C01-C19: i8 arithmetic is checked in the model"
  },
  {
   "property": "C06",
   "status": "proved",
   "theorems": [
    "C06_ends",
    "C06_pop_first",
    "C06_pop_last"
   ],
   "note": ""
  },
  {
   "property": "C07",
   "status": "proved",
   "theorems": [
    "C07_iter",
    "C15_iter_mut"
   ],
   "note": ""
  },
  {
   "property": "C08",
   "status": "proved",
   "theorems": [
    "C08_range",
    "C15_range_mut"
   ],
   "note": ""
  },
  {
   "property": "C09",
   "status": "proved",
   "theorems": [
    "C09_union",
    "C09_append"
   ],
   "note": ""
  },
  {
   "property": "C10",
   "status": "proved",
   "theorems": [
    "C10_intersect",
    "C10_diff",
    "C10_sym_diff"
   ],
   "note": ""
  },
  {
   "property": "C11",
   "status": "proved",
   "theorems": [
    "C11_join",
    "C11_join_rejects"
   ],
   "note": "the rejection is by debug assertions, which the model includes"
  },
  {
   "property": "C12",
   "status": "proved",
   "theorems": [
    "C12_split_off"
   ],
   "note": ""
  },
  {
   "property": "C13",
   "status": "proved",
   "theorems": [
    "C13_retain",
    "C13_retain_pure"
   ],
   "note": ""
  },
  {
   "property": "C14",
   "status": "proved",
   "theorems": [
    "C14_retain_order_refuted"
   ],
   "note": "finding: a reasonable expectation is false of the code; the theorem gives a concrete map"
  },
  {
   "property": "C15",
   "status": "proved",
   "theorems": [
    "C15_for_each_mut",
    "C15_iter_mut",
    "C15_range_mut"
   ],
   "note": ""
  },
  {
   "property": "C16",
   "status": "proved",
   "theorems": [
    "C16_eq_cmp",
    "C16_hash"
   ],
   "note": ""
  },
  {
   "property": "C17",
   "status": "proved",
   "theorems": [
    "C17_or_insert_with",
    "C17_and_modify",
    "C17_end_entries"
   ],
   "note": ""
  },
  {
   "property": "C18",
   "status": "proved",
   "theorems": [
    "C18_extend",
    "C18_from_iter",
    "C18_last_wins"
   ],
   "note": ""
  },
  {
   "property": "C19",
   "status": "proved",
   "theorems": [
    "C19_histories"
   ],
   "note": ""
  },
  {
   "property": "C20",
   "status": "proved",
   "theorems": [
    "C20_histories",
    "C20_independent",
    "C20_insert",
    "C20_remove",
    "C20_for_each_mut",
    "C20_frame"
   ],
   "note": ""
  },
  {
   "property": "C21",
   "status": "proved",
   "theorems": [
    "C21_histories"
   ],
   "note": ""
  },
  {
   "property": "C22",
   "status": "proved",
   "theorems": [
    "C22_counts",
    "C22_no_leak"
   ],
   "note": ""
  },
  {
   "property": "C23",
   "status": "proved",
   "theorems": [
    "C23_clone",
    "C23_insert_path",
    "C23_get_mut_path",
    "C23_remove_path",
    "C23_path_length",
    "C23_unshared",
    "C23_unshared_for_each_mut",
    "C23_unshared_split_append",
    "C48_clone",
    "C45_push",
    "C50_copies"
   ],
   "note": "the exception retain is C69"
  },
  {
   "property": "C24",
   "status": "proved",
   "theorems": [
    "C24_insert",
    "C24_remove",
    "C24_replace",
    "C24_lookup",
    "C24_pops",
    "C24_split_off",
    "C24_retain",
    "C24_extend",
    "as_shows_ascending"
   ],
   "note": ""
  },
  {
   "property": "C25",
   "status": "proved",
   "theorems": [
    "C25_subset"
   ],
   "note": ""
  },
  {
   "property": "C26",
   "status": "proved",
   "theorems": [
    "C26_avl",
    "C26_btree",
    "x_ops_by_mem"
   ],
   "note": ""
  },
  {
   "property": "C27",
   "status": "proved",
   "theorems": [
    "C27_algebra",
    "x_ops_by_mem"
   ],
   "note": ""
  },
  {
   "property": "C28",
   "status": "proved",
   "theorems": [
    "C28_insert",
    "C37_history"
   ],
   "note": ""
  },
  {
   "property": "C29",
   "status": "proved",
   "theorems": [
    "C29_remove",
    "C37_history"
   ],
   "note": ""
  },
  {
   "property": "C30",
   "status": "proved",
   "theorems": [
    "C30_lookup",
    "C30_get_mut",
    "C30_ends"
   ],
   "note": ""
  },
  {
   "property": "C31",
   "status": "proved",
   "theorems": [
    "C31_shape",
    "C37_history",
    "b_shows_ascending"
   ],
   "note": ""
  },
  {
   "property": "C32",
   "status": "proved",
   "theorems": [
    "C32_min_occ_zero_broken"
   ],
   "note": "finding: a reasonable expectation is false of the code; the theorem gives a concrete witness"
  },
  {
   "property": "C33",
   "status": "proved",
   "theorems": [
    "C33_iter",
    "C33_into_iter",
    "C33_iter_mut"
   ],
   "note": ""
  },
  {
   "property": "C34",
   "status": "proved",
   "theorems": [
    "C34_range",
    "C34_range_mut"
   ],
   "note": ""
  },
  {
   "property": "C35",
   "status": "proved",
   "theorems": [
    "C35_range_panics"
   ],
   "note": "finding: whether the panic happens depends on the contents; proved as an equivalence"
  },
  {
   "property": "C36",
   "status": "proved",
   "theorems": [
    "C36_pops",
    "C36_append",
    "C36_split_off",
    "C36_retain",
    "C36_extend"
   ],
   "note": ""
  },
  {
   "property": "C37",
   "status": "proved",
   "theorems": [
    "C37_history",
    "C37_interchangeable"
   ],
   "note": ""
  },
  {
   "property": "C38",
   "status": "proved",
   "theorems": [
    "C38_histories",
    "C38_independent",
    "C38_insert",
    "C38_get_mut",
    "C38_remove",
    "C38_frame",
    "C38_panics",
    "C38_counts",
    "C38_no_leak"
   ],
   "note": "BTreeHeapModel.v: every mutating function of btree.rs on reference-counted cells, for every N >= 1. For iter_mut and range_mut see C84, C85."
  },
  {
   "property": "C39",
   "status": "proved",
   "theorems": [
    "C39_insert",
    "C39_remove",
    "C39_replace",
    "C39_lookup",
    "C39_pops",
    "C39_split_off",
    "C39_retain",
    "C39_extend",
    "bs_shows_ascending"
   ],
   "note": ""
  },
  {
   "property": "C40",
   "status": "proved",
   "theorems": [
    "C40_subset",
    "C40_subset_test_refuted",
    "C40_never_of_itself"
   ],
   "note": "finding: a reasonable expectation is false of the code; the theorem gives a concrete witness"
  },
  {
   "property": "C41",
   "status": "proved",
   "theorems": [
    "C41_algebra",
    "x_ops_by_mem"
   ],
   "note": ""
  },
  {
   "property": "C42",
   "status": "proved",
   "theorems": [
    "C42_history",
    "C42_insert",
    "C42_remove",
    "C42_get",
    "C42_get_mut",
    "C42_len",
    "C42_from_iter",
    "C42_extend",
    "C42_iter"
   ],
   "note": "FixedModel.v, FixedIterModel.v: arrays of optional slots; reads of unwritten slots and out-of-range copies are panics and excluded. For both key searches and every Ord that is a total preorder. f_shows contains the 5..11 bound and equal leaf depth."
  },
  {
   "property": "C43",
   "status": "proved",
   "theorems": [
    "C43_split_leaf",
    "C43_split_branch"
   ],
   "note": "For every insert position and all contents; slots in use of the results are stated through begins (written from the start of an array of 11 or 12 slots). Aliasing of the raw pointers is not modelled."
  },
  {
   "property": "C44",
   "status": "proved",
   "theorems": [
    "C44_reverse_refuted",
    "C44_next_back_ascends",
    "C44_always_wrong"
   ],
   "note": "Finding: next_back yields ascending order on every map, for iter() and into_iter()."
  },
  {
   "property": "C45",
   "status": "proved",
   "theorems": [
    "C45_push",
    "C45_pop",
    "C45_observe",
    "C45_histories"
   ],
   "note": ""
  },
  {
   "property": "C46",
   "status": "proved",
   "theorems": [
    "C46_remove",
    "C46_remove_panics_iff"
   ],
   "note": ""
  },
  {
   "property": "C47",
   "status": "proved",
   "theorems": [
    "C47_split_off"
   ],
   "note": ""
  },
  {
   "property": "C48",
   "status": "proved",
   "theorems": [
    "C48_independent",
    "C48_clone",
    "C48_writes"
   ],
   "note": ""
  },
  {
   "property": "C49",
   "status": "proved",
   "theorems": [
    "C49_counts",
    "C49_no_leak",
    "C49_clear"
   ],
   "note": ""
  },
  {
   "property": "C50",
   "status": "proved",
   "theorems": [
    "C50_pop_moves_iff_unshared",
    "C50_copies",
    "C45_push"
   ],
   "note": ""
  },
  {
   "property": "C51",
   "status": "proved",
   "theorems": [
    "C51_eq_cmp",
    "C51_total_order"
   ],
   "note": ""
  },
  {
   "property": "C52",
   "status": "proved",
   "theorems": [
    "C52_extend",
    "C52_from_iter"
   ],
   "note": ""
  },
  {
   "property": "C53",
   "status": "proved",
   "theorems": [
    "C53_avl",
    "C53_btree"
   ],
   "note": ""
  },
  {
   "property": "C54",
   "status": "proved",
   "theorems": [
    "C54_deserialize"
   ],
   "note": ""
  },
  {
   "property": "C55",
   "status": "proved",
   "theorems": [
    "C55_deserialize"
   ],
   "note": ""
  },
  {
   "property": "C56",
   "status": "proved",
   "theorems": [
    "C56_avl",
    "C56_btree",
    "C56_strong_refuted"
   ],
   "note": "finding: a reasonable expectation is false of the code; the theorem gives a concrete witness"
  },
  {
   "property": "C57",
   "status": "proved",
   "theorems": [
    "C57_exact_size_refuted"
   ],
   "note": "finding: a reasonable expectation is false of the code; the theorem gives a concrete map"
  },
  {
   "property": "C58",
   "status": "proved",
   "theorems": [
    "C58_unwind",
    "C45_histories"
   ],
   "note": ""
  },
  {
   "property": "C59",
   "status": "proved",
   "theorems": [
    "C59_check_exact",
    "C59_check_misses_surplus_child"
   ],
   "note": "the second theorem is a finding"
  },
  {
   "property": "C60",
   "status": "proved",
   "theorems": [
    "C60_eq_cmp"
   ],
   "note": ""
  },
  {
   "property": "C61",
   "status": "proved",
   "theorems": [
    "C61_or_insert_with",
    "C61_and_modify",
    "C30_ends"
   ],
   "note": ""
  },
  {
   "property": "C62",
   "status": "proved",
   "theorems": [
    "C62_avl_iter",
    "C62_btree_iter",
    "C62_avl_compare",
    "C62_btree_compare"
   ],
   "note": ""
  },
  {
   "property": "C63",
   "status": "proved",
   "theorems": [
    "C63_avl_history"
   ],
   "note": ""
  },
  {
   "property": "C64",
   "status": "proved",
   "theorems": [
    "C64_btree_history"
   ],
   "note": ""
  },
  {
   "property": "C65",
   "status": "proved",
   "theorems": [
    "C65_interchangeable"
   ],
   "note": ""
  },
  {
   "property": "C66",
   "status": "proved",
   "theorems": [
    "C66_insert_unwound",
    "C66_get_mut_unwound"
   ],
   "note": ""
  },
  {
   "property": "C67",
   "status": "proved",
   "theorems": [
    "C67_remove_unwound",
    "C67_pops_unwound",
    "C67_remove_strong_refuted"
   ],
   "note": "finding: a reasonable expectation is false of the code; the theorem gives a concrete witness"
  },
  {
   "property": "C68",
   "status": "proved",
   "theorems": [
    "C68_retain_unwound",
    "C68_append_unwound",
    "C68_split_off_unwound",
    "C68_len_refuted"
   ],
   "note": "finding: a reasonable expectation is false of the code; the theorem gives a concrete witness"
  },
  {
   "property": "C69",
   "status": "proved",
   "theorems": [
    "C69_retain_clones",
    "C69_retain_clones_refuted"
   ],
   "note": "finding: a reasonable expectation is false of the code; the theorem gives a concrete witness"
  },
  {
   "property": "C70",
   "status": "proved",
   "theorems": [
    "C70_chk_exact",
    "C70_chk_history"
   ],
   "note": ""
  },
  {
   "property": "C71",
   "status": "proved",
   "theorems": [
    "C71_any_ends"
   ],
   "note": ""
  },
  {
   "property": "C72",
   "status": "proved",
   "theorems": [
    "C72_into_iter_drop",
    "C72_into_iter_drop_shared"
   ],
   "note": "The drop of an exhausted node iterator popped from the worklist drops nothing (lemma no_drop_nil in FixedIterProofs.v)."
  },
  {
   "property": "C73",
   "status": "proved",
   "theorems": [
    "C73_into_next_back_refuted",
    "C73_into_next_back_underflows"
   ],
   "note": "Finding (dead code); overflow checks on."
  },
  {
   "property": "C74",
   "status": "proved",
   "theorems": [
    "C74_iter_mut"
   ],
   "note": "References are positions; Arc::make_mut transparent."
  },
  {
   "property": "C75",
   "status": "proved",
   "theorems": [
    "C75_drop",
    "C75_drop_shared",
    "C75_clone"
   ],
   "note": "Sharing is an oracle: un n says whether this was the last reference to n."
  },
  {
   "property": "C76",
   "status": "proved",
   "theorems": [
    "C76_unwound_remove_refuted"
   ],
   "note": "Finding. The model does not count references; the witness assumes that the right child is shared, as after clone() of the map."
  },
  {
   "property": "C77",
   "status": "proved",
   "theorems": [
    "C77_usable_after_remove_refuted"
   ],
   "note": "Finding; witnesses reached by calls, for N = 1 and N = 5."
  },
  {
   "property": "C78",
   "status": "proved",
   "theorems": [
    "C78_clone",
    "C78_insert_path",
    "C78_get_mut_path",
    "C78_remove_path",
    "C78_pops_path",
    "C78_path_length",
    "C78_unshared",
    "C78_unshared_many"
   ],
   "note": "path, near, near_first, near_last, unshared: BTreeHeapSpec.v."
  },
  {
   "property": "C79",
   "status": "proved",
   "theorems": [
    "C79_insert_unwound",
    "C79_get_mut_unwound",
    "C79_extend_unwound"
   ],
   "note": ""
  },
  {
   "property": "C80",
   "status": "proved",
   "theorems": [
    "C80_remove_unwound",
    "C80_pops_unwound"
   ],
   "note": ""
  },
  {
   "property": "C81",
   "status": "proved",
   "theorems": [
    "C81_retain_unwound",
    "C81_append_unwound",
    "C81_split_off_unwound"
   ],
   "note": ""
  },
  {
   "property": "C82",
   "status": "proved",
   "theorems": [
    "C82_into_iter"
   ],
   "note": ""
  },
  {
   "property": "C83",
   "status": "proved",
   "theorems": [
    "C83_next_after_panic_refuted"
   ],
   "note": "Finding."
  },
  {
   "property": "C84",
   "status": "proved",
   "theorems": [
    "C84_iter_mut",
    "C84_range_mut"
   ],
   "note": ""
  },
  {
   "property": "C85",
   "status": "proved",
   "theorems": [
    "C85_iter_mut_lazy",
    "C85_range_mut_lazy",
    "C85_unshared"
   ],
   "note": ""
  },
  {
   "property": "C86",
   "status": "proved",
   "theorems": [
    "C86_next_after_panic_refuted"
   ],
   "note": "Finding."
  },
  {
   "property": "C87",
   "status": "proved",
   "theorems": [
    "C87_iter_mut",
    "C87_range_mut"
   ],
   "note": ""
  },
  {
   "property": "C88",
   "status": "proved",
   "theorems": [
    "C88_iter_mut_lazy",
    "C88_range_mut_lazy",
    "C88_around_length",
    "C88_unshared"
   ],
   "note": ""
  },
  {
   "property": "C89",
   "status": "proved",
   "theorems": [
    "C89_next_after_panic_refuted"
   ],
   "note": "Finding."
  },
  {
   "property": "C90",
   "status": "proved",
   "theorems": [
    "C90_into_iter",
    "C90_next",
    "C90_next_back",
    "C90_drop",
    "C90_frame"
   ],
   "note": ""
  },
  {
   "property": "C91",
   "status": "proved",
   "theorems": [
    "C91_into_calls",
    "C91_unshared"
   ],
   "note": ""
  },
  {
   "property": "C92",
   "status": "proved",
   "theorems": [
    "C92_next_after_panic_refuted"
   ],
   "note": "Finding."
  },
  {
   "property": "C93",
   "status": "proved",
   "theorems": [
    "C93_histories",
    "C93_independent",
    "C93_insert",
    "C93_get_mut",
    "C93_remove",
    "C93_clear_drop"
   ],
   "note": "FixedHeapModel.v: arrays as in memory on reference-counted cells."
  },
  {
   "property": "C94",
   "status": "proved",
   "theorems": [
    "C94_panics",
    "C94_insert_unwound",
    "C94_get_mut_unwound",
    "C94_extend_unwound"
   ],
   "note": ""
  },
  {
   "property": "C95",
   "status": "proved",
   "theorems": [
    "C95_counts",
    "C95_no_leak"
   ],
   "note": "Nodes only; for entries cloned by a clone that panics see C100."
  },
  {
   "property": "C96",
   "status": "proved",
   "theorems": [
    "C96_clone",
    "C96_insert_path",
    "C96_get_mut_path",
    "C96_remove_path",
    "C96_path_length",
    "C96_unshared",
    "C96_from_iter"
   ],
   "note": ""
  },
  {
   "property": "C97",
   "status": "proved",
   "theorems": [
    "C97_remove_absent_copies_refuted"
   ],
   "note": "Finding."
  },
  {
   "property": "C98",
   "status": "proved",
   "theorems": [
    "C98_remove_unwound",
    "C98_usable_after_remove_refuted"
   ],
   "note": "Finding; the witness is reached by calls."
  },
  {
   "property": "C99",
   "status": "proved",
   "theorems": [
    "C99_found_after_remove_refuted"
   ],
   "note": "Finding; the witness is reached by calls."
  },
  {
   "property": "C100",
   "status": "proved",
   "theorems": [
    "C100_clone",
    "C100_clone_unwound",
    "C100_clone_leaks_refuted"
   ],
   "note": "Finding. InlineVec::clone element by element (FixedCloneModel.v)."
  },
  {
   "property": "C101",
   "status": "proved",
   "theorems": [
    "C101_into_iter",
    "C101_next",
    "C101_next_back",
    "C101_orders",
    "C101_drop",
    "C101_frame"
   ],
   "note": ""
  },
  {
   "property": "C102",
   "status": "proved",
   "theorems": [
    "C102_retry",
    "C102_fronts"
   ],
   "note": "Unlike C92 for AvlMap."
  },
  {
   "property": "C103",
   "status": "proved",
   "theorems": [
    "C103_into_calls",
    "C103_fronts",
    "C103_unshared"
   ],
   "note": ""
  },
  {
   "property": "C104",
   "status": "proved",
   "theorems": [
    "C104_iter_mut",
    "C104_fronts"
   ],
   "note": ""
  },
  {
   "property": "C105",
   "status": "proved",
   "theorems": [
    "C105_iter_mut_lazy",
    "C105_unshared"
   ],
   "note": "The clones of calls after one that unwound: only C104 speaks of these calls."
  },
  {
   "property": "C106",
   "status": "proved",
   "theorems": [
    "C106_next_after_panic_refuted",
    "C106_next_back_refuted"
   ],
   "note": "Finding."
  },
  {
   "property": "C107",
   "status": "proved",
   "theorems": [
    "C107_insert",
    "C107_remove",
    "C107_get",
    "C107_get_mut",
    "C107_history",
    "C107_iter",
    "C107_drop",
    "C107_shows"
   ],
   "note": ""
  },
  {
   "property": "C108",
   "status": "proved",
   "theorems": [
    "C108_insert",
    "C108_remove",
    "C108_get",
    "C108_get_mut",
    "C108_extend",
    "C108_pops",
    "C108_iter",
    "C108_append",
    "C108_retain",
    "C108_split_off",
    "C108_shows"
   ],
   "note": ""
  },
  {
   "property": "C109",
   "status": "proved",
   "theorems": [
    "C109_insert",
    "C109_remove",
    "C109_get",
    "C109_get_mut",
    "C109_extend",
    "C109_ends",
    "C109_pops",
    "C109_iter",
    "C109_union",
    "C109_intersect",
    "C109_diff",
    "C109_sym_diff",
    "C109_retain"
   ],
   "note": ""
  },
  {
   "property": "C110",
   "status": "proved",
   "theorems": [
    "C110_split_off",
    "C110_split_off_len_refuted"
   ],
   "note": "Finding."
  },
  {
   "property": "C111",
   "status": "proved",
   "theorems": [
    "C111_avl_or_insert",
    "C111_btree_or_insert",
    "C111_or_insert_panics_refuted"
   ],
   "note": "Finding."
  },
  {
   "property": "C112",
   "status": "proved",
   "theorems": [
    "C112_avl_insert",
    "C112_avl_remove_entry",
    "C112_avl_remove",
    "C112_avl_lookup",
    "C112_avl_get_mut"
   ],
   "note": ""
  },
  {
   "property": "C113",
   "status": "proved",
   "theorems": [
    "C113_btree_insert",
    "C113_btree_remove",
    "C113_btree_lookup",
    "C113_btree_get_mut"
   ],
   "note": ""
  },
  {
   "property": "C114",
   "status": "proved",
   "theorems": [
    "C114_fixed_insert",
    "C114_fixed_remove",
    "C114_fixed_get",
    "C114_fixed_get_mut"
   ],
   "note": ""
  },
  {
   "property": "C115",
   "status": "proved",
   "theorems": [
    "C115_avl",
    "C115_btree",
    "C115_fixed"
   ],
   "note": ""
  },
  {
   "property": "C116",
   "status": "proved",
   "theorems": [
    "C116_append",
    "C116_split_off",
    "C116_len_refuted",
    "C116_union",
    "C116_intersect",
    "C116_diff",
    "C116_sym_diff"
   ],
   "note": "Finding."
  },
  {
   "property": "C117",
   "status": "proved",
   "theorems": [
    "C117_avl_extend",
    "C117_btree_extend",
    "C117_fixed_extend",
    "C117_btree_append",
    "C117_btree_retain",
    "C117_btree_split_off"
   ],
   "note": ""
  },
  {
   "property": "C118",
   "status": "proved",
   "theorems": [
    "C118_avl_and_modify",
    "C118_btree_and_modify",
    "C118_avl_or_insert",
    "C118_btree_or_insert"
   ],
   "note": ""
  },
  {
   "property": "C119",
   "status": "proved",
   "theorems": [
    "C119_insert",
    "C119_remove",
    "C119_lookup",
    "C119_extend",
    "C119_append",
    "C119_sets",
    "C119_split_off"
   ],
   "note": ""
  },
  {
   "property": "C120",
   "status": "proved",
   "theorems": [
    "C120_insert",
    "C120_remove",
    "C120_lookup",
    "C120_extend",
    "C120_append",
    "C120_retain",
    "C120_split_off"
   ],
   "note": ""
  },
  {
   "property": "C121",
   "status": "proved",
   "theorems": [
    "C121_insert",
    "C121_remove",
    "C121_lookup",
    "C121_extend"
   ],
   "note": ""
  },
  {
   "property": "C122",
   "status": "proved",
   "theorems": [
    "C122_avl",
    "C122_btree",
    "C122_fixed"
   ],
   "note": ""
  },
  {
   "property": "C123",
   "status": "proved",
   "theorems": [
    "C123_avl",
    "C123_btree",
    "C123_fixed"
   ],
   "note": ""
  },
  {
   "property": "C124",
   "status": "proved",
   "theorems": [
    "C124_history",
    "C124_call"
   ],
   "note": "or_insert and split_off are left out: with a comparison that is no order the first may panic (C111) and the second may get len wrong (C110)"
  },
  {
   "property": "C125",
   "status": "proved",
   "theorems": [
    "C125_insert",
    "C125_get_mut",
    "C125_remove",
    "C125_frame"
   ],
   "note": "the bounds on the number of clones are C23_path_length, which holds for any comparison"
  },
  {
   "property": "C126",
   "status": "proved",
   "theorems": [
    "C126_range",
    "C126_range_mut"
   ],
   "note": ""
  },
  {
   "property": "C127",
   "status": "proved",
   "theorems": [
    "C127_history",
    "C127_call"
   ],
   "note": "or_insert and range are left out: with a comparison that is no order they may panic (C111, C129)"
  },
  {
   "property": "C128",
   "status": "proved",
   "theorems": [
    "C128_insert",
    "C128_get_mut",
    "C128_remove",
    "C128_pops",
    "C128_few",
    "C128_frame"
   ],
   "note": ""
  },
  {
   "property": "C129",
   "status": "proved",
   "theorems": [
    "C129_range",
    "C129_range_mut"
   ],
   "note": "maps as values; with shared nodes and an order: C84"
  },
  {
   "property": "C130",
   "status": "proved",
   "theorems": [
    "C130_insert",
    "C130_get_mut",
    "C130_remove",
    "C130_get",
    "C130_append"
   ],
   "note": ""
  },
  {
   "property": "C131",
   "status": "proved",
   "theorems": [
    "C131_history",
    "C131_call"
   ],
   "note": "or_insert, split_off, range and the self-check are left out of the histories"
  },
  {
   "property": "C132",
   "status": "proved",
   "theorems": [
    "C132_insert",
    "C132_get_mut",
    "C132_remove",
    "C132_get",
    "C132_append",
    "C132_retain",
    "C132_split_off",
    "C132_few"
   ],
   "note": ""
  },
  {
   "property": "C133",
   "status": "proved",
   "theorems": [
    "C133_history",
    "C133_call"
   ],
   "note": "or_insert, range and the self-check are left out of the histories"
  },
  {
   "property": "C134",
   "status": "proved",
   "theorems": [
    "C134_insert",
    "C134_get_mut",
    "C134_remove",
    "C134_get",
    "C134_extend",
    "C134_few"
   ],
   "note": ""
  },
  {
   "property": "C135",
   "status": "proved",
   "theorems": [
    "C135_history",
    "C135_call"
   ],
   "note": "the self-check is left out of the histories"
  },
  {
   "property": "C136",
   "status": "proved",
   "theorems": [
    "C136_avl_and_modify",
    "C136_avl_or_insert",
    "C136_btree_and_modify",
    "C136_btree_or_insert"
   ],
   "note": ""
  },
  {
   "property": "C137",
   "status": "proved",
   "theorems": [
    "C137_split_off"
   ],
   "note": ""
  },
  {
   "property": "C138",
   "status": "proved",
   "theorems": [
    "C138_avl_insert",
    "C138_avl_get_mut",
    "C138_avl_get",
    "C138_avl_remove",
    "C138_avl_and_modify",
    "C138_avl_or_insert",
    "C138_avl_extend",
    "C138_avl_split_off",
    "C138_avl_append",
    "C138_avl_sets",
    "C138_btree_insert",
    "C138_btree_get_mut",
    "C138_btree_get",
    "C138_btree_contains",
    "C138_btree_remove",
    "C138_btree_and_modify",
    "C138_btree_or_insert",
    "C138_btree_extend"
   ],
   "note": ""
  },
  {
   "property": "C139",
   "status": "proved",
   "theorems": [
    "C139_range",
    "C139_range_shared",
    "C139_range_mut",
    "C139_order"
   ],
   "note": ""
  },
  {
   "property": "C140",
   "status": "proved",
   "theorems": [
    "C140_range",
    "C140_range_shared",
    "C140_range_mut",
    "C140_order"
   ],
   "note": ""
  },
  {
   "property": "C141",
   "status": "proved",
   "theorems": [
    "C141_range_mut",
    "C141_order"
   ],
   "note": ""
  },
  {
   "property": "C142",
   "status": "proved",
   "theorems": [
    "C142_range_mut",
    "C142_order"
   ],
   "note": ""
  },
  {
   "property": "C143",
   "status": "proved",
   "theorems": [
    "C143_to_vec",
    "C143_round_trip"
   ],
   "note": ""
  }
 ]
}
# Design

Target: `lazy-clone-collections` (Rust), read as text in `/repo`. Prover: Coq 8.16.1.

## Trusted base

* The Coq kernel (no kernel check is switched off; no native code, no plugins).
* What `Print Assumptions` prints for each theorem. It is printed in every `Properties*.v`
  file; the expected answer is "Closed under the global context" everywhere.
* That the Gallina model says what the Rust source says (each definition cites file and lines).
  Simplifications are listed below and repeated beside the definitions.
* Modelled: `src/avl.rs`, `src/avl/avl_set.rs`, `src/btree.rs`, `src/btree/btree_set.rs`,
  `src/btree/core.rs`, `src/btree/fixed.rs`, `src/stack.rs`, `src/lib.rs` (see the table).
* Not modelled: `Debug` formatting, `Send`/`Sync`, the test modules, the derive macros other
  than `Clone`, `Default` and the set wrappers' serde derive, allocation failure, timing,
  user `Clone` implementations that return another value (panicking ones are modelled in the sharing layer: `bomb`), panicking
  user `Drop`, data races (Rust's `Arc`/`Rc` are modelled by sequential reference counts).
* User `Ord` implementations that break the laws or panic: C112-C123, C139, C140 (value models),
  C130-C138, C141, C142 (with sharing); wrong ones that do not panic, with sharing: C124-C129.

## Layers

1. **Spec** (`Spec.v`): an ordered map is a list of pairs strictly ascending by key. The
   operations of the specification are filters (`insert = below ++ [(k,v)] ++ above`,
   `remove = filter (not equal)`, `range = filter in bounds`, ...). Nothing of the model occurs
   in it.
2. **Value models** (`Avl*.v`, `BTree*.v`, `Fixed*.v`, `Set*.v`, `Serde*.v`): every Rust function is a
   Gallina function over algebraic trees. `&mut` becomes returning the new value. Everything
   that can panic (`unwrap`, `assert!`, index out of range, integer overflow, explicit
   `panic!`) returns `Panic` in the monad `res`. `i8` heights are integers with overflow-checked operations
   (an overflow is a `Panic`; so "no panic" includes "no overflow", which covers wrapping builds).
   `Arc` is transparent in this layer: `Arc::make_mut` is the identity.
3. **Sharing models** (`Heap*.v`, `Stack*.v`, `AvlHeap*.v`, `BTreeHeap*.v`): a heap of reference-counted cells.
   `Arc::make_mut`, `try_unwrap`, `get_mut`, `clone`, `drop` are heap operations with the std
   semantics (make_mut copies iff count > 1, ...). Theorems: each operation refines layer 2, leaves
   every other handle's value alone, keeps counts exact, and never panics on a sharing check.
   An in-place update of a uniquely owned cell is `take` (contents out), work, `give` (back at the same
   address). Addresses are never reused, so the number of cells is the number of allocations.
   A log of cloned payloads gives the laziness claims. A schedule `bomb` says which calls of the user's
   `clone` panic; an operation then ends `Unwound`, with the heap and handle the caller is left with.
4. **Properties** (`Properties*.v`): one theorem per claim, closed by `exact`, followed by
   `Print Assumptions`, each with an `Example` that its hypotheses are met by concrete data.

Keys: types `K` (keys) and `Q` (borrowed queries) with `bor : K -> Q` and a three-way comparison on
`Q` that is a total preorder (`Borrow` contract: `K` compares as its borrow). Keys that compare equal
need not be equal, so "which key is stored" is observable.

BTreeMap: `Node` is `BN elems kids` with the two `Vec`s as lists, so malformed nodes exist in the model too.
The theorems speak of maps that `check()` accepts and whose nodes have no surplus child (`b_shows`), and
`C37_history` says that every history leads to such maps only. `len += 1` is addition on `nat` (an overflow
needs 2^64 entries). An owning iterator moves a node it finds unshared and clones it otherwise; which
happens is an arbitrary oracle `un`, and no result depends on it. `iter_mut`/`range_mut` are the same generic code
as `iter`/`range`, run on the tree whose keys carry their positions; a reference is a position.

Sets: the theorems speak of sets that `check()` accepts and whose `iter()` yields a list (`as_shows`, `bs_shows`). `has_all`
of `AvlSet::is_subset` compares pointers; `Arc::ptr_eq` is an arbitrary function that answers `true` only for equal
nodes. `Peekable` is modelled from the std documentation.

AvlMap with shared nodes (`AvlHeap*.v`): every mutating function of `avl.rs` once more, on heap cells
(payload: key, value, two heights; two pointers). `AvlHeapSpec.v` says what a map in a heap stands for (`den`), when
counts are right (`sound`), what other handles may rely on (`frame`), which nodes a call may
clone (`path`, `near`). A history (`AvlHeapHistModel.v`) is any list of calls on any number of
maps; a call may unwind (a clone, or the predicate of `retain`, panics) and the caller goes on. `AvlHeapHistSpec.v` says what
may be seen then (`s_unwound`). There is no separate call for dropping one map: `clear` drops the root, and `h_drop_all`
drops all maps. The recursion is bounded by `depth` = 128 levels; running out is `Panic`, and the
theorems say there is none while maps have fewer than 2^64 entries (`small`; `SmallFacts.v` only helps the
Examples to show that of concrete histories). Iterators by reference do not change the heap and stay in layer 2.
Owning iterators (`AvlHeapInto*.v`): an item of the work list holds an `Arc` or a node moved out of its cell, and the iterator's pointers count as
held outside the heap; the theorems are about single calls (so calls on other maps and iterators may come in between, by `frame`) and about runs. The
item type is a parameter (`into_iter`, `into_keys`, `into_values`).

BTreeMap with shared nodes (`BTreeHeap*.v`): the same for `btree.rs`, generic in `N`, here with the owning iterator (`IntoNodeIter` over shared and
owned nodes) and everything built on it (`append`, `retain`, `split_off`). A cell holds the entries of a node and the pointers to its children; a
clone of a node is one clone event (the user's `clone` is called once per key and value in it; which of these panics makes no difference). While a
function works on a node it holds the contents and the cell is `None` (`opn`/`cls`). The recursion is bounded by the number of cells; running out is
`Panic`, and the theorems exclude it. A client that catches a panic in `remove` or a pop throws the map away (C77 says why); all other maps stay in use. Not in
this layer: serde construction.

Mutable iteration of shared BTreeMaps (`HeapMut.v`, `BTreeHeapMut*.v`, `MutSpec.v`): a slice iterator over a node is the address of the node and a
range of indices; a `&mut` to an entry or to a child pointer is an address and an index. Every use of one is checked to hit a live cell whose count is 1
(`excl`), else `Panic`, which the theorems exclude: so references handed out stay exclusive whatever is done through others. The client (`mcall`) takes from both ends and writes through any
reference it has, in any order; it stops at the first panic (C86 says what happens if it goes on).
For shared AvlMaps (`AvlHeapMut*.v`) the same: an item of the work list is the address of a node, which `destruct` (avl.rs:2050) makes unshared together with
both children before the item is handed out; C89 says what happens after a caught panic.

fixed::BTreeMap (`Fixed*.v`): the arrays of `MaybeUninit` are lists of optional slots of fixed length. Reading a slot that was never written, a
copy or write outside an array, and a slice of an array whose slot 0 is unwritten are `Panic`; so `Ok` says that none of this
undefined behaviour happens. A copy leaves its source slots as they were (as the machine does), so a slot can be read twice in the
model; that every value ends up in exactly one live slot is what `f_shows` and C43 say. The `()` values of the children arrays are left out.
Not modelled: provenance and aliasing of the raw pointers. In these files the clones made by `Arc::make_mut` are transparent; `FixedHeap*.v` (below) has them. `f_shows` (`FixedSpec.v`)
says what a map holds; the proofs go through the list-based tree of `BTreeModel.v` with `N = 5` (`repr` in `FixedProofs.v`). The owning
iterator's oracle `un` is as for BTreeMap. Its drop (C72) is modelled for the iterator that the caller drops; a node iterator
popped when exhausted drops nothing (`no_drop_nil`). `fn_drop`/`fn_clone` model the drop and the clone of a node; `merge_kids` drops the emptied
right node, and the model panics if that drop would drop anything. For a clone that unwinds see `FixedHeap*.v`; C76 is only about `merge_kids`. `iter_mut` is modelled by positions, as for BTreeMap.

fixed::BTreeMap with shared nodes (`FixedHeap*.v`): all writers of `core.rs`/`fixed.rs` on the reference-counted heap. A cell holds the two arrays of a node
as they are in memory, slots out of use included; the pointers that count are those in the slots in use, read off the array whenever a cell is written, so a stale slot owns
nothing. Bad array accesses are `Panic` as above, and so are accesses to freed cells. The clone of a node is one event that succeeds or unwinds (`bomb`); `FixedCloneModel.v` has `InlineVec::clone`
key by key and value by value, and says what leaks (C100); the entries that leak are not in the heap, so C95 counts nodes only. Reads (`get`, `len`, `iter`, `chk`) see the tree behind
the pointers (`fh_view`), in which only slots in use have children. The new lower node of a split is allocated when it has been filled, not before. A client that catches a panic in
`remove` throws the map away (C98, C99 say why). The proofs go through a list-based version of the same functions (`g_...` in `FixedHeapProofs.v`, related by `er`), and that through `BTreeModel.v` with `N = 5`.
Owning iteration (`FixedHeapInto*.v`): a node iterator holds an `Arc` or a node moved out of its cell, and index ranges; a slot whose entry or child has been moved out is unwritten from then on, so a second
read or drop of it is `Panic`. The clone of one entry (of a shared node) is one event. After a call that unwound the client goes on (C102). `fframe` keeps the pointers of others node for node, so that
iterators may stay alive across calls on maps.
Mutable iteration (`FixedHeapMut*.v`): a `(&K, &mut V)` is the address of a node and an index, a `&mut Arc<Node>` the address of the parent and an index; every use checks that the
cell is live and not shared. The slices of keys and values of a node have one range in common. The client catches panics of `clone` and goes on with the iterator.

Wrong `Ord` (`AnyOrdSpec.v`, `*AnyProofs.v`, `AnyOrdShows.v`): `cmp` is an arbitrary function, so its answers for two keys are fixed during one call. A call compares its key with each stored key at most once (`remove` of

Panicking `Ord` (`Ask.v`, `*AskModel.v`, `AskSpec.v`, `AskProofs.v`, `*AskProofs.v`, `AskShows.v`): the functions that compare keys once more, with an oracle `ask n a b : option comparison` in place of `cmp`. The number `n` counts the comparisons since the start, so the answers may vary; `None` is a panic. A call is a `trial`: it returns a state and a result, or unwinds and leaves a state (what the `&mut self` is then; a call that owns its arguments drops them), or faults. In-place changes of a node are modelled at the point where they happen: a function that changes a node and then compares would leave the changed node. The parts that make no comparison (rotations, splits, merges, `rm_leftmost`) are those of the value models. Simplified: `rm_and_rebal` of the array-based map and `or_insert` as in the value models; nodes are unshared (a shared node would be cloned on the way, which changes no value). `AskAnySpec.v`, `AskAnyProofs.v`, `*AskAnyProofs.v`: the same models with any answers at all. `AskRun.v`, `AskRunProofs.v`: sequences of such calls on one map, each under `catch_unwind`; a history over any of the three maps, proved once for a record of calls.
`btree.rs` twice, but the second search is proved right whatever the first one answered), and every call of a history may use another function. Not covered: `range` (may panic), `PartialOrd`, sets.

Serde: a data format is what `MapAccess` offers: a size hint, entries, then the end or an error. `build_map_by_halves` halves the
hint; its recursion has fuel 66, and the theorems say that is enough for every `usize`. The visitor is proved once for every
implementation of the trait `Map` that satisfies `visitor_ok` (`SerdeProofs.v`), and `avl.rs` and `btree.rs` are shown to. `debug` tells
whether overflow checks and `debug_assert!` are on. Not modelled: `SetVisitor` (dead code) and `Serializer`s that fail.

Unbounded data: trees, lists, histories, `N` are arbitrary; `usize` lengths are `nat`/`N` with the
bound `< 2^64` as a hypothesis only where it matters (C05, C56).

## Properties

| id | modelled | how proved |
|----|----------|-----------|
| C01 | `insert`, `ins`, four rotations, both rebalancers | induction on the tree: AVL invariant + in-order list = spec insert |
| C02 | `remove(_entry)`, `rm`, `rm_leftmost`, `rm_rightmost` | same |
| C03 | `get*`, `contains_key`, `get_mut` | induction on the search path |
| C04 | `chk` | invariant implies `chk` = Ok; every operation preserves the invariant |
| C05 | checked `i8` heights | Fibonacci lower bound on size by height, computed bound at 2^64 |
| C06 | first/last/pop | induction on the spine |
| C07 | `InnerIter` work list, `Iter`, `IterMut`, `IntoIter` | invariant: work list denotes the remaining list; both ends peel it |
| C08 | `range`, `range_mut` work lists with pruning | same invariant with a filter |
| C09, C10 | `Merger`, `union`, `intersect`, `diff`, `sym_diff`, `append` | induction on lhs + split/join lemmas |
| C11 | `join`, `join_lf`, `join_rt` | induction on the taller spine |
| C12 | `split`, `split_off` | induction |
| C13 | `retain` with value-mutating, state-passing predicate | induction |
| C14 | same | expected false: the visit order is left, right, node; refuted by a witness |
| C15 | `iter_mut`, `for_each_mut`, `range_mut` | induction / work-list invariant |
| C16 | `PartialEq`, `Ord`, `Hash` via iterators | via C07 |
| C17 | `Entry` | via C01, C03 |
| C18 | `extend`, `from_iter` | fold of C01 |
| C19 | operation type and interpreter | simulation by induction on the history |
| C20-C23 | heap model of `ins`, `rm`, ... | refinement to layer 2 with frame and count invariants; clone counter |
| C66-C69 | same with panicking clones and predicates | crash points in the model; C67-C69 also refute what one would expect; the clone count of `retain` (C69) by showing that its joins see new nodes only (`AvlRetainClones.v`) |
| C24, C27 | AvlSet wrappers | via map theorems |
| C25 | `has_all` explicit stack, pointer equality as a sound oracle (and as address equality in the heap layer) | invariant on the stack |
| C26 | `SortedMergeIter`, `SetOpIter` with policy bits | induction on both sequences |
| C28-C31, C36 | `Node::insert/split/remove/rebal/...` generic in N | induction on depth-indexed invariant |
| C32 | same with N = 0 | expected false: refuted by a witness |
| C33 | `InnerIter` of btree | work-list invariant |
| C34 | `find_range_edges`, `make_worklist`, `Range` | work-list invariant with filter; counts for size_hint |
| C35 | same | first half proved; second half expected false (depends on contents): refuted |
| C37 | interpreter | simulation |
| C59 | `chk` on arbitrary trees | both directions by induction; witness for the surplus child |
| C60, C61 | `PartialEq`, `Ord`, `Entry` | via C33; via C28, C30 |
| C38, C78 | heap model of all mutating calls, histories | as C20-C23 |
| C79-C82 | same with panicking clones and predicates; owning iterator on shared nodes | crash points in the model |
| C77, C83 | same | expected false: refuted by witnesses |
| C39, C41 | BTreeSet wrappers | via map theorems |
| C40 | `is_subset` | expected false for equal sets: refuted; correct part proved |
| C62-C65 | set iterators, comparison, hash; interpreter of set calls | via C07, C33; simulation |
| C42 | core/fixed | as C28, C29 |
| C43 | `Splitter` on arrays of optional slots | case analysis on the position, contents symbolic |
| C44 | `InnerIter::next_back` of core | expected false: refuted by a witness; what it does instead, on every map |
| C70 | `Node::chk` of core on arbitrary maps | both directions by induction |
| C71, C72 | worklist of `InnerIter`, `Drop` of `NodeIntoIter` | invariant: what each node iterator still has to give |
| C73 | `NodeIntoIter::next_back` | expected false: underflow on every leaf |
| C74 | `iter_mut` of fixed | via the positions of the list-based tree |
| C75 | `Drop` and `Clone` of `InlineVec`/`Node` | induction on the tree; oracle for last references |
| C76 | the node `merge_kids` leaves when a clone unwinds | expected false: a later insert panics |
| C93-C96 | writers of core/fixed on shared nodes | simulation by a list-based heap model, then as C38, C78, C79 |
| C97 | `Node::remove` | expected false: an absent key clones the path |
| C98, C99 | `Node::remove` after a caught panic | other maps unharmed; its own map expected usable: refuted by witnesses |
| C100 | `InlineVec::clone` | loop invariant; expected leak-free: refuted |
| C84, C85 | `iter_mut`, `range_mut` of shared BTreeMaps | simulation by the position-based iterator (C34, C39); set of cloned positions |
| C86 | `IterMut::next` after a caught panic | expected false: skips a subtree |
| C87, C88 | `iter_mut`, `range_mut` of shared AvlMaps | simulation by the position-based iterator (C15); set of cloned positions |
| C89 | `IterMut::next` after a caught panic | expected false: loses a subtree |
| C90, C91 | `IntoIter`, `into_keys`, `into_values` of shared AvlMaps | invariant: what each work item stands for, and pointers held |
| C92 | `IntoIter::next` after a caught panic | expected false: loses a subtree |
| C101-C103 | `IntoIter` of shared fixed::BTreeMaps | invariant: which slots and trees each node iterator has left; panics lose nothing |
| C104, C105 | `iter_mut` of shared fixed::BTreeMaps | erasure to the list-based heap; positions over the tree of keys; invariant restarted after a caught panic |
| C106 | same, after a panic; `next_back` | expected false: refuted by witnesses |
| C107-C109 | the maps with an `Ord` that is no order | the shape proofs again without order: which entry a call touches is left open |
| C110, C111 | `split_off`, `or_insert` with such an `Ord` | what holds is proved; what was expected is refuted by witnesses |
| C45-C52, C58 | heap model of Stack | refinement to lists with frame and counts; exact clone log; crash points |
| C57 | iterator `size_hint` | expected false: refuted by a witness |
| C53-C55 | `MapVisitor`, `build_map_by_halves`, `make_half`, `stitch`, `make_whole` | induction on the length |
| C56 | same with 64-bit arithmetic | expected false: refuted |
| C112-C115 | a comparison may panic: the calls that change the map at one key leave it as it was | any-answers part by induction on the code; the lawful part by agreement with the value model |
| C116 | AVL `append`, `split_off`, set operations unwinding | what is left is proved; that `len()` is right is refuted |
| C117, C118 | `extend`, `retain`, entry API unwinding (also closures) | as C112 |
| C119-C121 | arbitrary, varying, panicking answers: every call on a well-formed map leaves one, changes only what its own comparisons allow, never faults | induction on the code, as C107-C109 |
| C122, C123 | histories of calls whose panics are caught, with any answers and with those of an order | induction on the history |
| C124 | histories of calls on AVL maps that share nodes, with any comparison function, another in each call (`AnyHeapSpec.v`) | the simulation of `AvlHeapProofs*.v` needs only the shape of the tree (`*_s` lemmas), not the order; `AvlHeapAnyProofs*.v` |
| C125 | isolation and few clones with any comparison | same |
| C126 | AVL `range`, `range_mut` with any comparison | induction on the two pruning loops, `AvlAnyRange.v` |
| C127, C128 | as C124, C125 for B-tree maps (`BAnyHeapSpec.v`) | the lower layers of `BTreeHeapProofs*.v` need no order; `BTreeHeapAnyProofs*.v`; `BTreeAnyChk.v` for `check` |
| C129 | B-tree `range`, `range_mut` with any comparison: told_part, told_crossed, told_gap (`BAnyRangeSpec.v`) | `BTreeAnyRange.v`: the edges of a node without laws, then induction on `make_worklist` |
| C130, C131 | AVL maps that share nodes, comparisons that answer anything and may panic (`AvlHeapAskModel.v`, `AvlHeapAskHistModel.v`; `AskHeapSpec.v`) | `AvlHeapAskProofs*.v`: each heap function simulates the value function of `AvlAskModel.v` with the same answers (same comparison numbers), whose properties are those of C119 |
| C132, C133 | as C130, C131 for B-tree maps (`BTreeHeapAskModel.v`, `BTreeHeapAskHistModel.v`; `BAskHeapSpec.v`), with `retain` and `split_off` | `BTreeHeapAskProofs*.v`: each heap function simulates that of `BTreeAskModel.v` with the same comparison numbers |
| C134, C135 | as C130, C131 for the fixed B-tree maps (`FixedHeapAskModel.v`; `FixedAskHeapSpec.v`); clones are bounded by the nodes on one way down the tree | `FixedHeapAskProofs*.v`: the array functions simulate those on lists with the same comparison numbers, whose properties are those of C121 |
| C136, C137 | the entry API (AVL, B-tree) and AVL `split_off` as C130, C132: any answers, any panics, shared nodes (`EntryAskModel.v`, `AvlEntryAskModel.v`, `BTreeEntryAskModel.v`; `EntryAskSpec.v`) | `EntryAskProofs.v`: the entry API over any map whose `contains_key`, `get_mut` and `insert` do what C130/C132 say; `AvlEntryAskProofs.v`, `BTreeEntryAskProofs.v` |
| C138 | the comparisons are those of an order but may panic: calls on shared AVL and B-tree maps do exactly what the specification says, or unwind and leave the map as it was (exceptions in the statements) | the same files, from the value theorems C112-C120 and the simulation of C130, C132 |
| C139 | AVL `range`, `range_mut` with any answers and any panics; number of comparisons (`AvlRangeAskModel.v`; `AskRangeSpec.v`). A comparison is modelled only where the code makes one | `AvlRangeAskProofs.v`: both loops shrink the work list; with an order no two nodes are neighbours on it, so each loop goes down one path |
| C140 | B-tree `range`, `range_mut` with any answers and any panics; number of comparisons (`BTreeRangeAskModel.v`; `BAskRangeSpec.v`). The guard `k2 < k1` counts as one comparison | `BTreeRangeAskProofs.v`: an entry is compared at most once with either bound, so a run is a run of the stateless model on a tree whose keys are the answers (`work_run`); then C129's `work_any` |
| C141 | B-tree `range_mut` on shared nodes with any answers and any panics of comparisons and `clone` (`BTreeHeapRangeAskModel.v`; `BAskRangeMutSpec.v`). The entries given need not be next to each other, so a client is specified by indices | `BTreeHeapRangeAskProofs*.v`: simulation by C140's work list on positions, with C84's invariant of cloned paths |
| C142 | AVL `range_mut` on shared nodes with any answers and any panics of comparisons and `clone` (`AvlHeapRangeAskModel.v`; `AskRangeMutSpec.v`); a loop is given `len()` + 1 rounds, which is proved to be enough | `AvlHeapRangeAskProofs*.v`: simulation by C139's loops on paths, with C87's invariant of cloned paths |
| C143 | `Vec::from(map)` for a `BTreeMap` that may share nodes, with panicking `clone`s (`BTreeVecModel.v`); the loop is given `len()` + 1 rounds, which is proved to be enough; the vector is a plain list | `BTreeVecProofs.v`: induction on the entries left, with the iterator invariant `hi_at` of `BTreeHeapProofs7.v` |

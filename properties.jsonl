{"id": "C01", "title": "Family index agrees with the child order", "statement": "For every item and every tag, item[tag] (get.by_tag) lists exactly the children whose tag equals it, in child order, and the tag is reported present (is_tag_in, tags()) iff at least one such child exists.", "quantifier": "every finite history of structural operations on any number of items, of any size", "why_tests_cant": "The family index is a second copy of the child list updated by hand in every mutator; only an invariant over all histories shows the copies never diverge.", "anchors": [{"file": "src/itertree/itree_main.py", "symbol": "iTree.append"}, {"file": "src/itertree/itree_main.py", "symbol": "iTree.insert"}, {"file": "src/itertree/itree_main.py", "symbol": "iTree.__delitem__"}, {"file": "src/itertree/itree_private.py", "symbol": "_iTreePrivate._append_item"}]}
{"id": "C02", "title": "Children behave like a Python list", "statement": "append, appendleft, insert, extend, extendleft, pop, del, remove, reverse, rotate, move and clear change the ordered list of children exactly as the same-named operation on a Python list / deque would, and leave the children of every other item untouched.", "quantifier": "every finite history of structural operations on any number of items, of any size", "why_tests_cant": "Refinement to the list model must hold for every history, not only for the sampled ones.", "anchors": [{"file": "src/itertree/itree_main.py", "symbol": "iTree.append"}, {"file": "src/itertree/itree_main.py", "symbol": "iTree.appendleft"}, {"file": "src/itertree/itree_main.py", "symbol": "iTree.insert"}, {"file": "src/itertree/itree_main.py", "symbol": "iTree.pop"}, {"file": "src/itertree/itree_main.py", "symbol": "iTree.rotate"}]}
{"id": "C03", "title": "Parent pointer and membership agree; no child has two places", "statement": "x.parent is p iff x is one of the children of p; an item occurs at most once among all children of all items; a removed item has parent None and can be re-attached.", "quantifier": "every finite history of structural operations on any number of items, of any size", "why_tests_cant": "Aliasing bugs appear only under particular orders of attach/detach operations.", "anchors": [{"file": "src/itertree/itree_main.py", "symbol": "iTree.parent"}, {"file": "src/itertree/itree_main.py", "symbol": "iTree.is_in"}, {"file": "src/itertree/itree_main.py", "symbol": "iTree.remove"}]}
{"id": "C04", "title": "item.idx is the true position", "statement": "item.idx equals the position of the item among its parent's children, however many inserts, deletes, moves, reversals or reads happened before (i.e. for every possible content of the position cache).", "quantifier": "every parent, every child, every cache content reachable or not (any non-negative cached value)", "why_tests_cant": "The cached fast path, the +-20 window and the two full scans are only all exercised by particular shifts.", "anchors": [{"file": "src/itertree/itree_main.py", "symbol": "iTree.idx"}]}
{"id": "C05", "title": "item.tag_idx is (tag, position in family)", "statement": "item.tag_idx returns the pair (tag, n) where n is the position of the item among the siblings with the same tag, for any history.", "quantifier": "every parent, every child, every cache content", "why_tests_cant": "The slow path is taken only after the family position moved by more than 20.", "anchors": [{"file": "src/itertree/itree_main.py", "symbol": "iTree.tag_idx"}]}
{"id": "C06", "title": "Trees stay acyclic", "statement": "Starting from fresh items, no sequence of operations makes an item its own ancestor; root, level, idx_path and deep iteration terminate.", "quantifier": "every finite history of structural operations on any number of items, of any size", "why_tests_cant": "Cycle creation needs a particular aliasing pattern of arguments.", "anchors": [{"file": "src/itertree/itree_main.py", "symbol": "iTree.append"}, {"file": "src/itertree/itree_main.py", "symbol": "iTree.root"}, {"file": "src/itertree/itree_main.py", "symbol": "iTree.level"}]}
{"id": "C07", "title": "Attaching an item that already has a parent is refused without effect", "statement": "append/appendleft/insert of an item that already has a parent raise RecursionError and change nothing at all.", "quantifier": "every heap of items, every pair of items, every target", "why_tests_cant": "The exception must come before any of the several updates for every state.", "anchors": [{"file": "src/itertree/itree_main.py", "symbol": "iTree.append"}, {"file": "src/itertree/itree_main.py", "symbol": "iTree.appendleft"}, {"file": "src/itertree/itree_main.py", "symbol": "iTree.insert"}]}
{"id": "C08", "title": "Read-only trees cannot be restructured", "statement": "While an item has READ_ONLY_TREE (or is LINKED / PLACEHOLDER) and is not a link root, append, appendleft, insert, extend, extendleft, item assignment, del, pop, remove, reverse, rotate, sort, clear on it, and move/rename of its children all raise PermissionError and leave every item unchanged.", "quantifier": "every heap, every operation, every argument", "why_tests_cant": "Must hold for every mutator, every argument and every state.", "anchors": [{"file": "src/itertree/itree_main.py", "symbol": "iTree._IS_TREE_PROTECTED"}, {"file": "src/itertree/itree_main.py", "symbol": "iTree.__delitem__"}, {"file": "src/itertree/itree_main.py", "symbol": "iTree.sort"}]}
{"id": "C09", "title": "insert(i, x) is list.insert(i, x)", "statement": "For an integer target, insert puts the item at the position Python's list.insert would use (negative and out-of-range targets included), the family order stays consistent, and the other children keep their relative order.", "quantifier": "every parent, every integer target, every item", "why_tests_cant": "Boundary classes: negative, beyond both ends, empty parent, existing or new family.", "anchors": [{"file": "src/itertree/itree_main.py", "symbol": "iTree.insert"}, {"file": "src/itertree/itree_private.py", "symbol": "_iTreePrivate._get_family_insertion_idx"}]}
{"id": "C10", "title": "Family insertion position is found by the binary search", "statement": "When an item is inserted or renamed into an existing family, its place in item[tag] is after exactly the family members that precede it in child order.", "quantifier": "every family of any size, every insertion position", "why_tests_cant": "Binary search with banker's rounding; off-by-one errors depend on the size parity and position.", "anchors": [{"file": "src/itertree/itree_private.py", "symbol": "_iTreePrivate._get_family_insertion_idx"}, {"file": "src/itertree/itree_main.py", "symbol": "iTree.rename"}]}
{"id": "C11", "title": "pop undoes append, pop(0) undoes appendleft", "statement": "Appending a parentless item and popping it again returns that very item and restores children, families and parent pointers of every item.", "quantifier": "every reachable heap, every parentless item", "why_tests_cant": "Needs equality of whole observable states for all states.", "anchors": [{"file": "src/itertree/itree_main.py", "symbol": "iTree.append"}, {"file": "src/itertree/itree_main.py", "symbol": "iTree.pop"}, {"file": "src/itertree/itree_main.py", "symbol": "iTree.appendleft"}]}
{"id": "C12", "title": "Deletion by index or key removes exactly the addressed item", "statement": "del t[i], pop(i), remove(x) detach exactly the addressed child (x.parent becomes None), keep the order of the others, and remove it from its family, also when several equal-looking siblings exist.", "quantifier": "every reachable heap, every valid index", "why_tests_cant": "Family deletion searches by equality with identity check; wrong twin removal depends on contents.", "anchors": [{"file": "src/itertree/itree_main.py", "symbol": "iTree.__delitem__"}, {"file": "src/itertree/itree_main.py", "symbol": "iTree.remove"}]}
{"id": "C13", "title": "Slice deletion is consistent", "statement": "del t[a:b] removes exactly the addressed children, detaches all of them and updates all families.", "quantifier": "every parent, every slice", "why_tests_cant": "Depends on slice size and tags involved.", "anchors": [{"file": "src/itertree/itree_main.py", "symbol": "iTree.__delitem__"}]}
{"id": "C14", "title": "Item assignment replaces one child in place", "statement": "t[i] = x puts x at position i, detaches the old child, keeps all other children and keeps the family index consistent.", "quantifier": "every parent, every index, every parentless new item (same or different tag)", "why_tests_cant": "Same-tag and different-tag paths, last family member, family-tag assignment.", "anchors": [{"file": "src/itertree/itree_main.py", "symbol": "iTree.__setitem__"}]}
{"id": "C15", "title": "move places the item before the target", "statement": "x.move(i) makes x the item in front of the child that had index i (documentation), x.move() makes it last; all other children keep their relative order.", "quantifier": "every parent, child and target", "why_tests_cant": "Index shift by the preceding deletion only matters for forward moves.", "anchors": [{"file": "src/itertree/itree_main.py", "symbol": "iTree.move"}]}
{"id": "C16", "title": "rename keeps the position and moves the item between families", "statement": "x.rename(t) changes only the tag of x; the child order is unchanged; x leaves its old family and enters family t at the place given by the child order.", "quantifier": "every reachable heap, child and new tag", "why_tests_cant": "Uses list.remove (equality) so the outcome depends on the presence of equal twins.", "anchors": [{"file": "src/itertree/itree_main.py", "symbol": "iTree.rename"}]}
{"id": "C17", "title": "reverse reverses children and families and is an involution", "statement": "t.reverse() reverses the child order and each family; applying it twice restores the tree; no item is lost.", "quantifier": "every reachable heap", "why_tests_cant": "All sizes, all family partitions.", "anchors": [{"file": "src/itertree/itree_main.py", "symbol": "iTree.reverse"}]}
{"id": "C18", "title": "rotate is list rotation", "statement": "t.rotate(n) moves the last n children to the front (first -n to the end for negative n), with no loss of children, and rotate(-n) undoes rotate(n).", "quantifier": "every parent, every integer n", "why_tests_cant": "n larger than the number of children, families spanning the cut.", "anchors": [{"file": "src/itertree/itree_main.py", "symbol": "iTree.rotate"}, {"file": "src/itertree/itree_main.py", "symbol": "iTree.extendleft"}]}
{"id": "C19", "title": "sort is a stable permutation of the children", "statement": "t.sort(key) orders the children by key, equal keys keep their order, no child content is lost or duplicated.", "quantifier": "every parent and every key function", "why_tests_cant": "All permutations.", "anchors": [{"file": "src/itertree/itree_main.py", "symbol": "iTree.sort"}]}
{"id": "C20", "title": "clear leaves an empty item", "statement": "After t.clear() the item has no children, no tag resolves any more, the removed children are free to be re-used, and only what is documented (value unless keep_value) changes on t itself.", "quantifier": "every reachable heap", "why_tests_cant": "Stale references are visible only through particular follow-up calls.", "anchors": [{"file": "src/itertree/itree_main.py", "symbol": "iTree.clear"}, {"file": "src/itertree/itree_getitem.py", "symbol": "_iTreeGetitem.by_tag"}]}
{"id": "C21", "title": "extend / constructor append in order and copy attached items", "statement": "extend(items) and iTree(subtree=items) append the given items in order; an item that already has a parent is replaced by an equal copy and stays where it was.", "quantifier": "every heap and every list of items, repeated items included", "why_tests_cant": "Aliasing between the list, the target and other trees.", "anchors": [{"file": "src/itertree/itree_private.py", "symbol": "_iTreePrivate._iter_extend"}, {"file": "src/itertree/itree_main.py", "symbol": "iTree.extend"}, {"file": "src/itertree/itree_main.py", "symbol": "iTree.__init__"}]}
{"id": "C22", "title": "extendleft prepends in order", "statement": "extendleft(items) puts the items in the given order in front of the old children and keeps the old children (same objects, same order).", "quantifier": "every heap and list of items", "why_tests_cant": "Rebuilds the whole structure; order and identity must be retained for all sizes.", "anchors": [{"file": "src/itertree/itree_main.py", "symbol": "iTree.extendleft"}]}
{"id": "C23", "title": "keys and items enumerate the children with unique keys", "statement": "keys()/items() produce one key (tag, n) per child in child order; keys are pairwise distinct and t[key] is the child at that position.", "quantifier": "every reachable parent", "why_tests_cant": "Counter bookkeeping for all tag patterns.", "anchors": [{"file": "src/itertree/itree_main.py", "symbol": "iTree.keys"}, {"file": "src/itertree/itree_main.py", "symbol": "iTree.items"}]}
{"id": "C24", "title": "tags / iter_families order", "statement": "tags() and iter_families() list each present tag exactly once ordered by first (or last with order_last) occurrence, with exactly the children of that tag.", "quantifier": "every reachable parent", "why_tests_cant": "Depends on tag interleavings.", "anchors": [{"file": "src/itertree/itree_main.py", "symbol": "iTree.tags"}, {"file": "src/itertree/itree_main.py", "symbol": "iTree.iter_families"}, {"file": "src/itertree/itree_main.py", "symbol": "iTree.iter_family_items"}]}
{"id": "C25", "title": "idx_path addresses the item", "statement": "For every item, starting at its root, following idx_path (root.get.by_idx(*x.idx_path)) returns that very item; level == len(idx_path); root has no parent.", "quantifier": "every finite history of structural operations on any number of items, of any size", "why_tests_cant": "All depths and shapes.", "anchors": [{"file": "src/itertree/itree_main.py", "symbol": "iTree.idx_path"}, {"file": "src/itertree/itree_main.py", "symbol": "iTree.level"}, {"file": "src/itertree/itree_main.py", "symbol": "iTree.root"}, {"file": "src/itertree/itree_getitem.py", "symbol": "_iTreeGetitem.by_idx"}]}
{"id": "C26", "title": "tag_idx_path addresses the item", "statement": "For every item root.get.by_tag_idx(*x.tag_idx_path) returns that very item.", "quantifier": "every finite history of structural operations on any number of items, of any size", "why_tests_cant": "All depths, shapes and cache contents.", "anchors": [{"file": "src/itertree/itree_main.py", "symbol": "iTree.tag_idx_path"}, {"file": "src/itertree/itree_getitem.py", "symbol": "_iTreeGetitem.by_tag_idx"}]}
{"id": "C27", "title": "Subscript target precedence", "statement": "t[target]: an int is an absolute index (negative as in lists) and only if out of range a tag; a pair is (tag, index) first and only otherwise a tuple tag; any other hashable is a tag; missing targets raise and never return a wrong item.", "quantifier": "every reachable parent, every target", "why_tests_cant": "Ambiguous int / tuple tags.", "anchors": [{"file": "src/itertree/itree_main.py", "symbol": "iTree.__getitem__"}]}
{"id": "C28", "title": "Neighbour accessors are consistent with the order", "statement": "pre_item / post_item are the children directly before / after the item (None at the ends) and siblings is the child list without the item.", "quantifier": "every reachable heap, every child", "why_tests_cant": "Relies on idx for every cache content.", "anchors": [{"file": "src/itertree/itree_main.py", "symbol": "iTree.pre_item"}, {"file": "src/itertree/itree_main.py", "symbol": "iTree.post_item"}, {"file": "src/itertree/itree_main.py", "symbol": "iTree.siblings"}]}
{"id": "C29", "title": "Membership test", "statement": "x in t / tag in t / key in t is true iff t[..] would resolve to at least one child (for iTree arguments: an equal child exists).", "quantifier": "every reachable parent, every target", "why_tests_cant": "Result shape (item / list) changes the path.", "anchors": [{"file": "src/itertree/itree_main.py", "symbol": "iTree.__contains__"}]}
{"id": "C30", "title": "Deep iteration visits every descendant exactly once in pre-order", "statement": "Iterating t.deep (and deep.iter() with the default downward option) yields every descendant exactly once, parents before their children and siblings in order.", "quantifier": "every tree of any shape, width and depth", "why_tests_cant": "Explicit iterator stack; correctness for all shapes needs induction.", "anchors": [{"file": "src/itertree/itree_indepth.py", "symbol": "_iTreeIndepthTree.__iter__"}, {"file": "src/itertree/itree_indepth_helpers/itree_indepth_iter.py", "symbol": "_iTreeIndepthIter._iter_normal"}]}
{"id": "C31", "title": "Iteration options give the documented orders", "statement": "UP gives post-order, REVERSE visits siblings last-to-first, SELF adds the calling item first (down) or last (up), for each combination; each selected item exactly once.", "quantifier": "every tree of any shape, width and depth and every combination of options", "why_tests_cant": "16 option combinations x all shapes.", "anchors": [{"file": "src/itertree/itree_indepth.py", "symbol": "_iTreeIndepthTree.iter"}, {"file": "src/itertree/itree_indepth_helpers/itree_indepth_iter.py", "symbol": "_iTreeIndepthIter._iter_normal"}, {"file": "src/itertree/itree_indepth_helpers/itree_indepth_iter.py", "symbol": "_iTreeIndepthIter._iter_up"}, {"file": "src/itertree/itree_indepth_helpers/itree_indepth_iter.py", "symbol": "_iTreeIndepthIter._iter_reverse"}]}
{"id": "C32", "title": "Hierarchical filtering", "statement": "deep.iter(filter) yields an item iff it and all its ancestors below the start satisfy the filter; with FILTER_ANY iff the item itself does; order is unchanged.", "quantifier": "every tree of any shape, width and depth and every filter", "why_tests_cant": "All shapes and filters.", "anchors": [{"file": "src/itertree/itree_indepth.py", "symbol": "_iTreeIndepthTree.iter"}]}
{"id": "C33", "title": "idx_paths / tag_idx_paths pair each item with its path", "statement": "deep.idx_paths() yields the items of deep.iter() in the same order, each with its idx_path (the path of the calling item followed by the child positions leading to the item), all paths distinct; tag_idx_paths() does the same with (tag, number) pairs.", "quantifier": "every tree of any shape, width and depth, all options", "why_tests_cant": "Counter stacks must stay in step with the iterator stack.", "anchors": [{"file": "src/itertree/itree_indepth.py", "symbol": "_iTreeIndepthTree.idx_paths"}, {"file": "src/itertree/itree_indepth.py", "symbol": "_iTreeIndepthTree.tag_idx_paths"}, {"file": "src/itertree/itree_indepth_helpers/itree_indepth_iter.py", "symbol": "_iter_normal_idxpath"}]}
{"id": "C34", "title": "siblings(level) yields exactly one level", "statement": "deep.siblings(n) yields exactly the descendants at relative depth n in order; siblings(-1) yields exactly the leaves, and siblings(-n-1) the items n steps above a leaf; only items below the calling item are yielded.", "quantifier": "every tree of any shape, width and depth, every level", "why_tests_cant": "All shapes; levels beyond the depth.", "anchors": [{"file": "src/itertree/itree_indepth.py", "symbol": "_iTreeIndepthTree.siblings"}, {"file": "src/itertree/itree_indepth_helpers/itree_indepth_siblings.py", "symbol": "siblings_plus"}]}
{"id": "C35", "title": "max_depth is the height", "statement": "max_depth equals the length of the longest downward path.", "quantifier": "every tree of any shape, width and depth", "why_tests_cant": "Level-by-level loop.", "anchors": [{"file": "src/itertree/itree_main.py", "symbol": "iTree.max_depth"}]}
{"id": "C36", "title": "levels iteration terminates and groups by depth", "statement": "deep.levels(...) terminates and yields, per requested level, exactly the items at that depth.", "quantifier": "every tree of any shape, width and depth, every start/stop/step and option", "why_tests_cant": "Loop guard depends on the option combination.", "anchors": [{"file": "src/itertree/itree_indepth.py", "symbol": "_iTreeIndepthTree.levels"}, {"file": "src/itertree/itree_indepth_helpers/itree_indepth_levels.py", "symbol": "levels"}]}
{"id": "C37", "title": "deep.iter_family_items visits every descendant", "statement": "deep.iter_family_items() yields each descendant exactly once, families grouped.", "quantifier": "every tree of any shape, width and depth", "why_tests_cant": "Needs nesting and several siblings.", "anchors": [{"file": "src/itertree/itree_indepth.py", "symbol": "_iTreeIndepthTree.iter_family_items"}]}
{"id": "C38", "title": "copy is an independent isomorphic tree", "statement": "copy(), deepcopy(), copy_keep_value() give a tree of new items with the same shape, order, tags, values and flags; no item is shared with the original and the original is unchanged.", "quantifier": "every tree of any shape, width and depth", "why_tests_cant": "Explicit stack copy; correctness for all shapes needs induction.", "anchors": [{"file": "src/itertree/itree_private.py", "symbol": "_iTreePrivate._iter_copy"}, {"file": "src/itertree/itree_main.py", "symbol": "iTree.copy"}]}
{"id": "C39", "title": "Equality is reflexive and symmetric and copies are equal", "statement": "x == x; x == y iff y == x; x.copy() == x.", "quantifier": "every pair of trees", "why_tests_cant": "zip over two traversals of different shapes.", "anchors": [{"file": "src/itertree/itree_main.py", "symbol": "iTree.__eq__"}]}
{"id": "C40", "title": "Equality distinguishes different trees", "statement": "x == y implies the same tags, values and structure on all levels (and is therefore transitive and consistent with hash).", "quantifier": "every pair of trees", "why_tests_cant": "Counterexamples need a particular nested difference.", "anchors": [{"file": "src/itertree/itree_main.py", "symbol": "iTree.__eq__"}, {"file": "src/itertree/itree_main.py", "symbol": "iTree.__hash__"}]}
{"id": "C41", "title": "Flags are set and unset individually", "statement": "set_tree_read_only/set_value_read_only set only their flag; unset_* remove only their flag and keep the others; constructor flags are masked to the defined bits.", "quantifier": "every flag value", "why_tests_cant": "All 64 combinations.", "anchors": [{"file": "src/itertree/itree_private.py", "symbol": "_iTreePrivate._set_flags"}, {"file": "src/itertree/itree_private.py", "symbol": "_iTreePrivate._unset_flags"}, {"file": "src/itertree/itree_main.py", "symbol": "iTree.unset_value_read_only"}]}
{"id": "C42", "title": "Tree protection covers the whole subtree", "statement": "After a successful set_tree_read_only every descendant is read-only; items added through the constructor of a read-only item are read-only on all levels; a failing call changes nothing.", "quantifier": "every tree of any shape, width and depth and every flag distribution", "why_tests_cant": "Depends on where LINKED descendants sit.", "anchors": [{"file": "src/itertree/itree_main.py", "symbol": "iTree.set_tree_read_only"}, {"file": "src/itertree/itree_private.py", "symbol": "_iTreePrivate._set_flags_deep"}]}
{"id": "C43", "title": "Protected values cannot be changed", "statement": "While an item is value-read-only, linked or a placeholder, set_value, set_key_value, del_value, del_key_value and clear raise PermissionError and the value is unchanged.", "quantifier": "every item state, every argument", "why_tests_cant": "Every mutator x every flag.", "anchors": [{"file": "src/itertree/itree_main.py", "symbol": "iTree.set_value"}, {"file": "src/itertree/itree_main.py", "symbol": "iTree.del_value"}, {"file": "src/itertree/itree_main.py", "symbol": "iTree.clear"}]}
{"id": "C44", "title": "Linked copies reproduce the target structure", "statement": "load_links puts below the link root a copy of the target's subtree with identical shape, order, tags and values, every copied item being marked as linked.", "quantifier": "every tree of any shape, width and depth as target", "why_tests_cant": "Needs nested targets with following siblings.", "anchors": [{"file": "src/itertree/itree_private.py", "symbol": "_iTreePrivate._convert_to_linked_item"}, {"file": "src/itertree/itree_main.py", "symbol": "iTree.load_links"}]}
{"id": "C45", "title": "make_local reproduces the linked item as a local one", "statement": "make_local() replaces the linked item by a local (not linked) copy of identical structure at the same position and family position.", "quantifier": "every tree of any shape, width and depth", "why_tests_cant": "Nested structure needed.", "anchors": [{"file": "src/itertree/itree_private.py", "symbol": "_iTreePrivate._convert_to_local_item"}, {"file": "src/itertree/itree_main.py", "symbol": "iTree.make_local"}]}
{"id": "C46", "title": "Link merge keeps local items", "statement": "When links are (re)loaded every local item of the link root survives and no stale linked item survives.", "quantifier": "every mix of local and linked children", "why_tests_cant": "Depends on the order of local and linked children.", "anchors": [{"file": "src/itertree/itree_private.py", "symbol": "_iTreePrivate._iter_locals_add_placeholders"}, {"file": "src/itertree/itree_main.py", "symbol": "iTree.load_links"}]}
{"id": "C47", "title": "Value serialisation round-trips", "statement": "Decoding the JSON form of any supported value (ints, floats, strings, bytes, tuples, lists, deques, sets, dicts, ordered dicts, itertree constants, nested) gives back an equal value of the same type.", "quantifier": "every value of any nesting", "why_tests_cant": "Tag collisions in nested containers.", "anchors": [{"file": "src/itertree/itree_serializer/itree_json_serialize.py", "symbol": "iTStdJSONSerializer2.convert_to_json"}, {"file": "src/itertree/itree_serializer/itree_json_serialize.py", "symbol": "iTStdJSONSerializer2.convert_from_json"}]}
{"id": "C48", "title": "Tree serialisation round-trips", "statement": "loads(dumps(t)) is a tree with the same shape, order, tags, values, links and flags as t.", "quantifier": "every tree of any shape, width and depth", "why_tests_cant": "Depth bookkeeping in the flat list; all shapes.", "anchors": [{"file": "src/itertree/itree_serializer/itree_json_serialize.py", "symbol": "iTStdJSONSerializer2.dumps"}, {"file": "src/itertree/itree_serializer/itree_json_serialize.py", "symbol": "iTStdJSONSerializer2.create_itree_from_raw"}]}
{"id": "C49", "title": "Interval membership", "statement": "v in mSetInterval(lower, upper) iff v lies between the bounds with the given open/closed ends, independent of the order in which the bounds are given; complement=True negates exactly that; int_only restricts to integers.", "quantifier": "every bound, value and flag combination", "why_tests_cant": "Dense, infinite domain.", "anchors": [{"file": "src/itertree/itree_mathsets.py", "symbol": "mSetInterval.__init__"}, {"file": "src/itertree/itree_mathsets.py", "symbol": "mSetInterval.__contains__"}]}
{"id": "C50", "title": "Set combination membership", "statement": "v in union iff in some member, v in intersection iff in every member, complement (and switch_complement()) negates; a + b has the members of the union and a - b those of the intersection of the sets a and b.", "quantifier": "every family of sets of any size, every value", "why_tests_cant": "Infinite domain, nested combinations.", "anchors": [{"file": "src/itertree/itree_mathsets.py", "symbol": "mSetCombine.__contains__"}, {"file": "src/itertree/itree_mathsets.py", "symbol": "_mSetBase.__add__"}, {"file": "src/itertree/itree_mathsets.py", "symbol": "_mSetBase.__sub__"}, {"file": "src/itertree/itree_mathsets.py", "symbol": "_mSetBase.switch_complement"}]}
{"id": "C51", "title": "Interval cardinality and iteration agree with membership", "statement": "For integer intervals cardinality is the number of members and iteration yields exactly the members in ascending order.", "quantifier": "every interval", "why_tests_cant": "Boundary classes open/closed, single point, infinite.", "anchors": [{"file": "src/itertree/itree_mathsets.py", "symbol": "mSetInterval.cardinality"}, {"file": "src/itertree/itree_mathsets.py", "symbol": "mSetInterval.__iter__"}]}
{"id": "C52", "title": "Set equality is sound", "statement": "If two set objects compare equal then they have the same members.", "quantifier": "every pair of sets", "why_tests_cant": "Infinite domain.", "anchors": [{"file": "src/itertree/itree_mathsets.py", "symbol": "mSetItem.__eq__"}, {"file": "src/itertree/itree_mathsets.py", "symbol": "mSetCombine.__eq__"}]}
{"id": "C53", "title": "get_init_args rebuild an equal set", "statement": "Constructing a set from get_init_args() gives a set with the same members.", "quantifier": "every set", "why_tests_cant": "All flag combinations.", "anchors": [{"file": "src/itertree/itree_mathsets.py", "symbol": "mSetInterval.get_init_args"}, {"file": "src/itertree/itree_mathsets.py", "symbol": "mSetCombine.get_init_args"}]}
{"id": "C54", "title": "Value models only ever hold valid values", "statement": "After any sequence of set/clear calls the value stored in a value model is NoValue or satisfies the model's constraint; a rejected set raises and keeps the old value; an accepted set stores the cast value and returns the previous one; set(NoValue) and clear() empty the model.", "quantifier": "every model, every sequence of calls", "why_tests_cant": "Histories mixing failing and succeeding calls.", "anchors": [{"file": "src/itertree/itree_data.py", "symbol": "iTValueModel.set"}, {"file": "src/itertree/itree_data.py", "symbol": "iTIntModel"}]}
{"id": "C55", "title": "Filter inversion negates", "statement": "For every filter constructor and item, invert=True gives exactly the negated decision of invert=False.", "quantifier": "every filter constructor, argument and item", "why_tests_cant": "All items and arguments.", "anchors": [{"file": "src/itertree/itree_filters.py", "symbol": "has_item_flags"}, {"file": "src/itertree/itree_filters.py", "symbol": "has_item_value"}, {"file": "src/itertree/itree_filters.py", "symbol": "is_item_tag"}]}
{"id": "C56", "title": "Rendering shows every item once", "statement": "renders() produces exactly one line per item of the tree in pre-order, indented by its depth, starting with the item itself (which is never filtered out); a filter hides exactly the rejected items and everything below them; enumerate=True puts the position among the shown siblings in front of each item.", "quantifier": "every tree of any shape, width and depth", "why_tests_cant": "All shapes.", "anchors": [{"file": "src/itertree/itree_serializer/itree_renderer.py", "symbol": "iTreeRender.renders"}]}
{"id": "C57", "title": "Roster membership", "statement": "v in mSetRoster(*items) iff v equals one of the items that are not open (or the value given for a variable among them); complement=True negates; the cardinality is the number of different items.", "quantifier": "every list of items, every value and variable assignment", "why_tests_cant": "Infinite domain.", "anchors": [{"file": "src/itertree/itree_mathsets.py", "symbol": "mSetRoster.__init__"}, {"file": "src/itertree/itree_mathsets.py", "symbol": "mSetRoster.__contains__"}, {"file": "src/itertree/itree_mathsets.py", "symbol": "mSetRoster.cardinality"}]}
{"id": "C58", "title": "Checking a value does not store it", "statement": "v in model / model.check(v) answers True exactly when set(v) would accept v, and leaves the stored value as it was.", "quantifier": "every model, stored value and checked value", "why_tests_cant": "Every constraint and value; needs a comparison of two calls.", "anchors": [{"file": "src/itertree/itree_data.py", "symbol": "iTValueModel.__contains__"}, {"file": "src/itertree/itree_data.py", "symbol": "iTDataModel.check"}]}
{"id": "C59", "title": "iTData behaves as a dictionary that validates", "statement": "After d[k]=v reading d[k] gives v and every other key reads as before; deleting or popping a key removes exactly that key and delivers its value; keys stay unique; a value assigned to a key that holds a model is validated by that model; update() applies all pairs or, when one is rejected, none.", "quantifier": "every dictionary, key and value", "why_tests_cant": "All key/model combinations and update lists.", "anchors": [{"file": "src/itertree/itree_data.py", "symbol": "iTData.__setitem__"}, {"file": "src/itertree/itree_data.py", "symbol": "iTData.__delitem__"}, {"file": "src/itertree/itree_data.py", "symbol": "iTData.update"}, {"file": "src/itertree/itree_data.py", "symbol": "iTData.pop"}]}
{"id": "C60", "title": "Every filter decides what it says", "statement": "A filter answers for every item, with True exactly when: the item has one of the flags / its tag or value equals / matches the pattern / is a number in the range; for the dict filters the value is a dictionary with such a key or value; for the list filters the value delivers such an element; the list index filter: the index lies inside the list.", "quantifier": "every filter argument and every item", "why_tests_cant": "All combinations of value types and arguments.", "anchors": [{"file": "src/itertree/itree_filters.py", "symbol": "has_item_flags"}, {"file": "src/itertree/itree_filters.py", "symbol": "is_item_tag"}, {"file": "src/itertree/itree_filters.py", "symbol": "has_item_value_dict_key"}, {"file": "src/itertree/itree_filters.py", "symbol": "has_item_value_list_idx"}, {"file": "src/itertree/itree_filters.py", "symbol": "has_item_value_list_item_fnmatch"}]}
{"id": "C61", "title": "Changed data is detected on load", "statement": "The header written by dumps(calc_hash=True) carries the hash of the data part, which is the text dumps writes without header; loads(check_hash=True) of a text whose data part has another hash than the header says, or whose serialization version differs, raises and creates no item; check_hash=False ignores the hash.", "quantifier": "every tree, every manipulated text, any hash function", "why_tests_cant": "Every possible manipulation of the text.", "anchors": [{"file": "src/itertree/itree_serializer/itree_json_serialize.py", "symbol": "dumps"}, {"file": "src/itertree/itree_serializer/itree_json_serialize.py", "symbol": "loads"}]}
{"id": "C62", "title": "Deleting a local item brings the linked item back", "statement": "del t[i] of a local item that replaced a linked item puts the linked item back at the same place (also inside its family), with its values and subtree untouched; the deleted item becomes free and nothing else changes. make_local() followed by deleting the local item leaves everything as it was.", "quantifier": "every tree, every history of tree and link calls, every position", "why_tests_cant": "Depends on the whole history of loads, merges and replacements.", "anchors": [{"file": "src/itertree/itree_main.py", "symbol": "iTree.__delitem__"}, {"file": "src/itertree/itree_main.py", "symbol": "iTree.make_local"}]}
{"id": "C63", "title": "get() subscripts level by level", "statement": "tree.get(t1, t2, ..., tn) delivers what applying t1 to the tree, t2 to every item found, and so on delivers, in order: with one target the same as tree[t1]; get.single delivers the only match and raises otherwise; get.iter the same matches; with default= given nothing is raised. Every match lies exactly n levels below the tree.", "quantifier": "every tree and every path of targets", "why_tests_cant": "Every tree, path length and mix of target kinds.", "anchors": [{"file": "src/itertree/itree_getitem.py", "symbol": "_iTreeGetitem.__call__"}, {"file": "src/itertree/itree_getitem.py", "symbol": "_iTreeGetitem.single"}, {"file": "src/itertree/itree_getitem.py", "symbol": "_iTreeGetitem.iter"}]}
{"id": "C64", "title": "The get.by_...() accessors deliver what their name says", "statement": "by_idx walks the given positions; by_tag_idx the given (tag, family index) keys; by_tag and by_tags deliver the children with that tag / these tags in order; the slice and list accessors the children at these positions; by_level_filter the children accepted by the filter; same_index_children the items with the same position below the siblings of the item. Missing targets raise.", "quantifier": "every tree, every target path", "why_tests_cant": "Every tree, tag and index combination, including failing ones.", "anchors": [{"file": "src/itertree/itree_getitem.py", "symbol": "_iTreeGetitem.by_idx"}, {"file": "src/itertree/itree_getitem.py", "symbol": "_iTreeGetitem.by_tag_idx"}, {"file": "src/itertree/itree_getitem.py", "symbol": "_iTreeGetitem.by_tag"}, {"file": "src/itertree/itree_getitem.py", "symbol": "_iTreeGetitem.by_level_filter"}, {"file": "src/itertree/itree_getitem.py", "symbol": "_iTreeGetitem.same_index_children"}]}
{"id": "C65", "title": "Ancestors, root and level agree", "statement": "ancestors lists the chain of parents from the root down to the parent; its length is level, its first element (or the item itself when it is empty) is root, is_root holds exactly when it is empty, and its last element is parent.", "quantifier": "every tree, every item, any depth, after every history", "why_tests_cant": "Needs induction over depth and history.", "anchors": [{"file": "src/itertree/itree_main.py", "symbol": "iTree.ancestors"}, {"file": "src/itertree/itree_main.py", "symbol": "iTree.root"}, {"file": "src/itertree/itree_main.py", "symbol": "iTree.level"}, {"file": "src/itertree/itree_main.py", "symbol": "iTree.is_root"}]}
{"id": "C66", "title": "count and index search by equality", "statement": "count(x) is the number of children equal to x; index(x, start, stop) is the position of the first child equal to x from start (inclusive) up to stop (exclusive) and raises IndexError when there is none; index finds x exactly when count(x) > 0; filtered_len counts the accepted children, tag_number the different tags; <, <=, >, >= compare the numbers of children.", "quantifier": "every tree, every searched item, start and stop", "why_tests_cant": "All positions of start, stop and duplicates.", "anchors": [{"file": "src/itertree/itree_main.py", "symbol": "iTree.count"}, {"file": "src/itertree/itree_main.py", "symbol": "iTree.index"}, {"file": "src/itertree/itree_main.py", "symbol": "iTree.filtered_len"}, {"file": "src/itertree/itree_main.py", "symbol": "iTree.tag_number"}, {"file": "src/itertree/itree_main.py", "symbol": "iTree.__lt__"}]}
{"id": "C67", "title": "equal() adds exactly the requested checks", "statement": "a.equal(b) is a == b; with check_flags=True / check_coupled=True additionally the flags / coupled objects of all corresponding items must agree; equal() is symmetric and trees with different tags are not equal.", "quantifier": "every pair of trees, every combination of checks", "why_tests_cant": "Every pair of shapes.", "anchors": [{"file": "src/itertree/itree_main.py", "symbol": "iTree.equal"}]}
{"id": "C68", "title": "link_root is the highest linked ancestor", "statement": "For a linked item link_root delivers the highest item reached by walking up through linked items only; for an item that is not linked it delivers the item itself.", "quantifier": "every tree and link history, every item", "why_tests_cant": "Any depth and history of loads.", "anchors": [{"file": "src/itertree/itree_main.py", "symbol": "iTree.link_root"}]}
{"id": "C69", "title": "Sums and products of trees", "statement": "a + b is a new tree with tag, value and flags of a whose children are copies of the children of a followed by copies of those of b; a * b has the copies of all pairs (child of a, child of b) in order; a * n has n copies of a, n * a the same without tag and value. Copies keep order, tags, values and links at every depth; a and b are not changed and nothing is shared. Link roots raise TypeError.", "quantifier": "every pair of trees, every n, after every history", "why_tests_cant": "Every shape; sharing and changes of the operands at any depth.", "anchors": [{"file": "src/itertree/itree_main.py", "symbol": "iTree.__add__"}, {"file": "src/itertree/itree_main.py", "symbol": "iTree.__mul__"}, {"file": "src/itertree/itree_main.py", "symbol": "iTree.__rmul__"}]}
{"id": "C70", "title": "Pickling round-trips", "statement": "pickle.loads(pickle.dumps(t)) delivers, in this or any other process, a new tree with the shape, order, tags, values, links and flags of t; no existing item changes.", "quantifier": "every tree of any shape, width and depth, every state of the reading process", "why_tests_cant": "All shapes, values, flags; independence from the reading process.", "anchors": [{"file": "src/itertree/itree_main.py", "symbol": "iTree.__reduce__"}, {"file": "src/itertree/itree_main.py", "symbol": "iTree.get_init_args"}]}
{"id": "C71", "title": "Hash agrees with the content", "statement": "Trees with the same shape, tags and values have the same hash, wherever they are attached and in every process state; in particular copies and unpickled trees; a == b implies hash(a) == hash(b); trees with different tags, values or shapes have different hashes as far as the hash of tuples, tags and values distinguishes them.", "quantifier": "every pair of trees, every hash function", "why_tests_cant": "Infinitely many pairs of trees.", "anchors": [{"file": "src/itertree/itree_main.py", "symbol": "iTree.__hash__"}]}
{"id": "C72", "title": "Counting and membership in depth", "statement": "len(t.deep) is the number of items at any depth below t, and <, <=, >, >= of t.deep compare these numbers; t.deep.count(x) is the number of items below t equal to x and x in t.deep holds exactly when it is positive; filtered_len counts the accepted items, hierarchically only those without a rejected item above them; is_in(x) holds exactly when x itself is below t; is_tag_in(tag) exactly when an item below t has that tag.", "quantifier": "every tree, item, tag and filter, any depth, after every history", "why_tests_cant": "All shapes and depths; membership after arbitrary histories.", "anchors": [{"file": "src/itertree/itree_indepth.py", "symbol": "_iTreeIndepthTree.__len__"}, {"file": "src/itertree/itree_indepth.py", "symbol": "_iTreeIndepthTree.count"}, {"file": "src/itertree/itree_indepth.py", "symbol": "_iTreeIndepthTree.filtered_len"}, {"file": "src/itertree/itree_indepth.py", "symbol": "_iTreeIndepthTree.is_in"}, {"file": "src/itertree/itree_indepth.py", "symbol": "_iTreeIndepthTree.is_tag_in"}]}
{"id": "C73", "title": "deep.index finds the first equal item in the given range", "statement": "deep.index(x, start, stop) delivers the index path (from t) of the first item in depth-first order, from start (inclusive) up to stop (exclusive), that is equal to x; following the path from t leads to that item; start and stop may be items or target paths; when there is none IndexError is raised. The tree is not changed.", "quantifier": "every tree, searched item, start and stop", "why_tests_cant": "All positions of start, stop and hits at every depth.", "anchors": [{"file": "src/itertree/itree_indepth.py", "symbol": "_iTreeIndepthTree.index"}]}
{"id": "C74", "title": "deep.reverse reverses every level", "statement": "deep.reverse() reverses the order of the children of t and of every item below t; items, parents, values and all other trees stay; twice is the identity; a protected item refuses and nothing is changed.", "quantifier": "every tree, any depth", "why_tests_cant": "Every shape; effects on all other items.", "anchors": [{"file": "src/itertree/itree_indepth.py", "symbol": "_iTreeIndepthTree.reverse"}]}
{"id": "C75", "title": "deep.sort sorts every level, stably", "statement": "deep.sort(key, reverse) brings the children of t and of every item below t into the order of the key (by default the number of children), equal keys keep their order; every level keeps its items with tags, values, flags and subtrees; sorting twice gives what sorting once gives; other trees stay; a protected item refuses and nothing is changed.", "quantifier": "every tree, key function and direction", "why_tests_cant": "Every shape and key; stability and effects on all other items.", "anchors": [{"file": "src/itertree/itree_indepth.py", "symbol": "_iTreeIndepthTree.sort"}]}
{"id": "C76", "title": "deep.remove takes out exactly the targeted items", "statement": "deep.remove(t1, ..., tn) takes every item that get(t1, ..., tn) delivers out of its parent and returns what get returns; the removed items keep their subtrees and become roots; no other item changes; when nothing is found, or a parent is protected, it raises and nothing is changed.", "quantifier": "every tree and every path of targets", "why_tests_cant": "Every mix of targets, parents and protections.", "anchors": [{"file": "src/itertree/itree_indepth.py", "symbol": "_iTreeIndepthTree.remove"}]}
{"id": "C77", "title": "In-depth flag changes touch exactly the accepted items", "statement": "deep.set_value_read_only / unset_value_read_only / unset_tree_read_only (filter, hierarchical) set or clear exactly the named flag on t (when accepted) and on every accepted item below t - hierarchically only when all items between are accepted too; nothing else changes; a parent with the tree protection flag makes the call raise PermissionError without effect.", "quantifier": "every tree, filter, flag combination", "why_tests_cant": "Every shape, filter and mix of flags.", "anchors": [{"file": "src/itertree/itree_indepth.py", "symbol": "_iTreeIndepthTree.set_value_read_only"}, {"file": "src/itertree/itree_indepth.py", "symbol": "_iTreeIndepthTree.unset_value_read_only"}, {"file": "src/itertree/itree_indepth.py", "symbol": "_iTreeIndepthTree.unset_tree_read_only"}]}
{"id": "C78", "title": "Interval definition strings: notation and printed form", "statement": "mSetInterval(\"[a,b)\"), with [ or ( for closed or open, \",\" or \"..\" (integers only), a leading ! or a trailing quote for the complement and white space anywhere, denotes exactly the numbers between the two bounds; math_repr() of every interval is a definition string that is accepted again and gives an equal interval with the same members.", "quantifier": "every definition string, every pair of bounds in decimal, hexadecimal, octal, binary or fixed point notation or as a variable", "why_tests_cant": "All texts and numbers; the parser is a regular expression plus case distinctions.", "anchors": [{"file": "src/itertree/itree_mathsets.py", "symbol": "mSetInterval.__init__"}, {"file": "src/itertree/itree_mathsets.py", "symbol": "mSetInterval._parse_math_definition_str"}, {"file": "src/itertree/itree_mathsets.py", "symbol": "mSetInterval.math_repr"}, {"file": "src/itertree/itree_mathsets.py", "symbol": "mSetItem.__init__"}, {"file": "src/itertree/itree_mathsets.py", "symbol": "mSetItem.math_repr"}]}
{"id": "C79", "title": "Builder definition strings denote the numbers that satisfy their statements", "statement": "mSetInterval(\"{x|...}\") with one or two statements (a<=x, x>b, a<x<=b, x=a, x!=a, x e D with a numerical domain D), a leading ! or trailing quote for the complement and white space anywhere, contains exactly the numbers that satisfy all statements; the short forms \"x<5\" and \"n<5\" mean {x|x<5} and {n|n e Z, n<5}.", "quantifier": "every definition string of the documented grammar, every number", "why_tests_cant": "All texts, limits and combinations of statements.", "anchors": [{"file": "src/itertree/itree_mathsets.py", "symbol": "mSetInterval._parse_builder_definition_str"}, {"file": "src/itertree/itree_mathsets.py", "symbol": "mSetInterval._get_set_data"}, {"file": "src/itertree/itree_mathsets.py", "symbol": "mSetInterval._replace_upper_limit"}, {"file": "src/itertree/itree_mathsets.py", "symbol": "mSetInterval.__init__"}]}
{"id": "C80", "title": "Roster definition strings: notation and printed form", "statement": "mSetRoster(\"{a,b,...}\"), with a leading ! or trailing quote for the complement and white space anywhere, contains exactly the listed numbers (and the values of the listed variables); math_repr() of every roster, in whatever order the items come, is accepted again and gives an equal roster with the same members; a text that is neither a roster nor a single item is refused.", "quantifier": "every definition string, every list of items, every order", "why_tests_cant": "All texts and orders of a hash set.", "anchors": [{"file": "src/itertree/itree_mathsets.py", "symbol": "mSetRoster.__init__"}, {"file": "src/itertree/itree_mathsets.py", "symbol": "mSetRoster._math_def_parser"}, {"file": "src/itertree/itree_mathsets.py", "symbol": "mSetRoster.math_repr"}]}
{"id": "C81", "title": "Comparison, equality and hash of set items", "statement": "mSetItem objects order like their numbers (<, <=, >, >=; None as soon as a variable is involved); == is an equivalence relation that means equal numbers or equal names, and equal items have equal hashes.", "quantifier": "every pair and triple of items, numbers and variables, open or closed", "why_tests_cant": "All combinations of values and flags, transitivity.", "anchors": [{"file": "src/itertree/itree_mathsets.py", "symbol": "mSetItem.__eq__"}, {"file": "src/itertree/itree_mathsets.py", "symbol": "mSetItem.__lt__"}, {"file": "src/itertree/itree_mathsets.py", "symbol": "mSetItem.__hash__"}]}
{"id": "C82", "title": "Files: what load accepts is what a dump wrote", "statement": "After dump(path) without error, load(path) - packed or not - answers what loads answers for the dumped text (C48, C61) and the returned hash is the hash of the data part; dump never changes an existing path unless overwrite=True, never a directory, and never another path; a dump interrupted after any number of bytes never leaves a file that load accepts as another tree; along every history load either raises or reads the complete text of one dump call to that path.", "quantifier": "every tree, filter, option, file system state, interruption point and history of dumps, interruptions and removals", "why_tests_cant": "Every crash point and every order of calls.", "anchors": [{"file": "src/itertree/itree_serializer/itree_json_serialize.py", "symbol": "iTStdJSONSerializer2.dump"}, {"file": "src/itertree/itree_serializer/itree_json_serialize.py", "symbol": "iTStdJSONSerializer2.load"}, {"file": "src/itertree/itree_main.py", "symbol": "iTree.dump"}, {"file": "src/itertree/itree_main.py", "symbol": "iTree.load"}]}
{"id": "C83", "title": "A failing dump leaves the file as it was", "statement": "When dump(path, overwrite=True) does not complete - value that cannot be written, no permission, disk full, crash - the file at path is still the old one.", "quantifier": "every failure and every interruption point", "why_tests_cant": "Every crash point.", "anchors": [{"file": "src/itertree/itree_serializer/itree_json_serialize.py", "symbol": "iTStdJSONSerializer2.dump"}]}
{"id": "C84", "title": "iTDataReadOnly cannot be changed", "statement": "No sequence of method calls on an iTDataReadOnly object - item assignment and deletion, pop, popitem, setdefault, update, clear, delete_item, |= - changes a key or a value; each of them raises.", "quantifier": "every dictionary and every sequence of calls", "why_tests_cant": "Every method of dict that is not overridden.", "anchors": [{"file": "src/itertree/itree_data.py", "symbol": "iTDataReadOnly"}]}
{"id": "C85", "title": "iTData(value) stores a single value under NoKey", "statement": "iTData(v) of a value v that is no dictionary stores v under NoKey (with keyword arguments next to these); iTData of pairs is the dictionary of the pairs, the last one of a key counts.", "quantifier": "every value, every list of pairs", "why_tests_cant": "Which values Python takes for a list of pairs.", "anchors": [{"file": "src/itertree/itree_data.py", "symbol": "iTData.__init__"}]}
{"id": "C86", "title": "iTData clear, views and emptiness tests", "statement": "clear() removes everything, clear(values_only=True) keeps exactly the keys that hold a model, in order, each model without value; model_items() and model_values() deliver for every key in order what d[key] gives; is_empty, is_no_key_only and is_key_empty(k) answer whether there is no key, exactly the key NoKey, no value under k; pop(k, default) removes k only, and returns the default without change when k is missing.", "quantifier": "every dictionary of plain values and models", "why_tests_cant": "Every mix of models and plain values.", "anchors": [{"file": "src/itertree/itree_data.py", "symbol": "iTData.clear"}, {"file": "src/itertree/itree_data.py", "symbol": "iTData.model_items"}, {"file": "src/itertree/itree_data.py", "symbol": "iTData.is_key_empty"}, {"file": "src/itertree/itree_data.py", "symbol": "iTData.pop"}]}
{"id": "C87", "title": "Trees are independent of each other", "statement": "Any sequence of calls - whatever they are, returning or raising - whose receivers belong to some trees or were created meanwhile, and whose handed-over free items belong to them too, leaves every item of all other trees exactly as it was (tag, value, flags, parent, children, link, coupled object, look-up by tag). Items that sit in another tree may be handed over: they are copied, and their tree does not change. No item of another tree becomes a child or the parent of one of ours. In particular, after b = a.copy() no work on b changes a, and no work on a or its tree changes b.", "quantifier": "every finite history of structural operations on any number of items, of any size", "why_tests_cant": "Every number of trees, every interleaving of calls, every error on the way.", "anchors": [{"file": "src/itertree/itree_main.py", "symbol": "iTree.append"}, {"file": "src/itertree/itree_main.py", "symbol": "iTree.extend"}, {"file": "src/itertree/itree_main.py", "symbol": "iTree.copy"}, {"file": "src/itertree/itree_main.py", "symbol": "iTree.__delitem__"}, {"file": "src/itertree/itree_main.py", "symbol": "iTree.__setitem__"}]}
{"id": "C88", "title": "a - b removes the equal children", "statement": "a - b is a new free tree and changes no existing item, also when it raises. It is a copy of a without those children that have an equal child in b under the same key (tag, number within the tag); the remaining children are copies in their old order. Equal tags (values) give NoTag (NoValue), else Python's difference of the two when there is one, else a text loses every occurrence of the other text, else the part of a is kept. a - a has no children. A child of b that a does not have is ignored.", "quantifier": "every two trees of every history, also one tree twice", "why_tests_cant": "Every pair of trees, every order of children.", "anchors": [{"file": "src/itertree/itree_main.py", "symbol": "iTree.__sub__"}]}
{"id": "C89", "title": "repr() text rebuilds the tree", "statement": "eval(repr(t)) is a new tree with the shape, order, tags, values, links and flags of t, whatever else exists in the process, and changes no existing item; two trees have the same repr text exactly when they agree in all of these.", "quantifier": "every tree whose tags and values have evaluable repr texts", "why_tests_cant": "Every shape, size and combination of tags, values, flags and links, every depth.", "anchors": [{"file": "src/itertree/itree_main.py", "symbol": "iTree.__repr__"}, {"file": "src/itertree/itree_main.py", "symbol": "iTree.__init__"}]}
{"id": "C90", "title": "The dot graph has exactly the nodes and edges of the tree", "statement": "iTreeRenderDot(t, filter) declares one node per item of t in pre-order, named item0, item1, ... without gaps or repetitions, labelled with the key (the tag for an item without parent), value and link of that item and coloured by its flags; every node except the first has exactly one edge, which comes from the node of its parent and is dotted for linked items. Rejected items are left out with everything below them. The tree is not changed.", "quantifier": "every tree of every history, every filter", "why_tests_cant": "Every shape and size of tree, every filter.", "anchors": [{"file": "src/itertree/itree_serializer/itree_render_dot.py", "symbol": "_iTreeRenderDot.renders"}, {"file": "src/itertree/itree_serializer/itree_render_dot.py", "symbol": "_iTreeRenderDot.render_children"}, {"file": "src/itertree/itree_serializer/itree_render_dot.py", "symbol": "_iTreeRenderDot._build_item"}]}
{"id": "C91", "title": "iter_in and filter of sets agree with membership", "statement": "s.iter_in(values, vars) delivers for the values in order what \"v in s\" answers under these variables, s.filter(values, vars) delivers exactly the values with answer True in their order; both end where the first membership test raises, with that exception. This holds for plain values and for pairs (value, variables).", "quantifier": "every set, every list of values, every dictionary of variables", "why_tests_cant": "Every set and list; cached limits must never differ from the limits of the single test.", "anchors": [{"file": "src/itertree/itree_mathsets.py", "symbol": "mSetInterval.iter_in"}, {"file": "src/itertree/itree_mathsets.py", "symbol": "mSetInterval.filter"}, {"file": "src/itertree/itree_mathsets.py", "symbol": "mSetRoster.iter_in"}, {"file": "src/itertree/itree_mathsets.py", "symbol": "mSetRoster.filter"}, {"file": "src/itertree/itree_mathsets.py", "symbol": "mSetCombine.iter_in"}, {"file": "src/itertree/itree_mathsets.py", "symbol": "mSetCombine.filter"}]}
{"id": "C92", "title": "Definition strings of combined sets: notation and printed form", "statement": "mSetCombine(\"A u B u ...\") contains exactly the numbers in one of the members, mSetCombine(\"A n B n ...\") those in all of them, \"!(...)\" the others; math_repr() of every combination is accepted again and gives a set with the same members; a text that is no set definition is refused with TypeError.", "quantifier": "every combination of intervals, rosters and combinations, every definition string, every number and assignment of variables", "why_tests_cant": "All texts; the parser splits texts, strips parentheses and tries three readings one after the other.", "anchors": [{"file": "src/itertree/itree_mathsets.py", "symbol": "mSetCombine.__init__"}, {"file": "src/itertree/itree_mathsets.py", "symbol": "mSetCombine._parse_math_repr"}, {"file": "src/itertree/itree_mathsets.py", "symbol": "mSetCombine.math_repr"}, {"file": "src/itertree/itree_mathsets.py", "symbol": "mSetCombine.__contains__"}]}
{"id": "C93", "title": "An enumeration accepts its keys and names and shows the name", "statement": "iTEnumerateModel(value, {key: name, ...}) accepts a single object exactly if it equals a key or a name, and stores the key; a list is accepted if its members are, at every depth; str(model) is the name; entering the shown name or the key again selects the same entry, and different entries are shown differently. Keys that are no integers are refused with TypeError. The dictionary that was passed is not changed and what the model does depends on nothing else.", "quantifier": "every dictionary, every entered object, every history of set, check and clear", "why_tests_cant": "Every dictionary with equal names, names that are keys, floats equal to keys, nested lists.", "anchors": [{"file": "src/itertree/itree_data.py", "symbol": "iTEnumerateModel.__init__"}, {"file": "src/itertree/itree_data.py", "symbol": "iTEnumerateModel.check_and_cast_single_item"}]}
{"id": "C94", "title": "The text of a value model", "statement": "str(model) is \"NoValue\" for a model without value, the formatted object for a single value, and for a list the texts of the members in brackets separated by \", \", at every depth; it raises exactly if the formatter raises for one of the objects inside, with the exception of the first one.", "quantifier": "every value, every nesting of lists, every formatter", "why_tests_cant": "All nestings of lists.", "anchors": [{"file": "src/itertree/itree_data.py", "symbol": "iTValueModel.__str__"}]}
{"id": "C95", "title": "A value model can be rebuilt from its arguments", "statement": "class(*m.get_init_args()) - what the JSON loader calls - is a model with the same value, description, shape, contains and formatter as m, after any history of set, clear, set_description and set_formatter, for every model class of the package; with clear=True the same without value; two models of one class are == exactly if they agree in all five.", "quantifier": "every model class, every constructor call, every history", "why_tests_cant": "Which arguments are shortened away depends on the whole state; subclasses override parts of it.", "anchors": [{"file": "src/itertree/itree_data.py", "symbol": "iTValueModel.get_init_args"}, {"file": "src/itertree/itree_data.py", "symbol": "iTValueModel.__init__"}, {"file": "src/itertree/itree_data.py", "symbol": "iTInt8Model.get_init_args"}, {"file": "src/itertree/itree_data.py", "symbol": "iTStrFnPatternModel.get_init_args"}, {"file": "src/itertree/itree_data.py", "symbol": "iTEnumerateModel.__init__"}]}
{"id": "C96", "title": "Emptiness tests of mathematical sets", "statement": "is_empty_set is True exactly if no finite number is a member of the set, and is_empty_set_complement is True exactly for a complement set of which every finite number is a member - for intervals, rosters and combinations of any depth.", "quantifier": "every set expression, every number", "why_tests_cant": "The answer is computed from bounds and item counts, membership from comparisons; the agreement is over all numbers.", "anchors": [{"file": "src/itertree/itree_mathsets.py", "symbol": "mSetInterval.is_empty_set"}, {"file": "src/itertree/itree_mathsets.py", "symbol": "mSetRoster.is_empty_set"}, {"file": "src/itertree/itree_mathsets.py", "symbol": "mSetCombine.is_empty_set"}, {"file": "src/itertree/itree_mathsets.py", "symbol": "mSetInterval.is_empty_set_complement"}, {"file": "src/itertree/itree_mathsets.py", "symbol": "mSetCombine.is_empty_set_complement"}]}
{"id": "C97", "title": "Value objects shared between a tree and its copies", "statement": "copy_keep_value() keeps the value objects; copy() gives every item a copy of its value object when that object can be changed (the objects inside stay shared); deepcopy() copies everything that can be changed, so that afterwards no change made through one tree - any history of changes of lists, dicts, value models - is visible through the other. None of them changes an existing object.", "quantifier": "every tree, every graph of value objects (shared, nested, cyclic), every later history of changes", "why_tests_cant": "Aliasing shows up only under later changes of shared objects; all object graphs.", "anchors": [{"file": "src/itertree/itree_main.py", "symbol": "iTree.copy"}, {"file": "src/itertree/itree_main.py", "symbol": "iTree.copy_keep_value"}, {"file": "src/itertree/itree_main.py", "symbol": "iTree.deepcopy"}, {"file": "src/itertree/itree_private.py", "symbol": "_iTreePrivate._get_copy_args"}, {"file": "src/itertree/itree_private.py", "symbol": "_iTreePrivate._get_deepcopy_args"}, {"file": "src/itertree/itree_data.py", "symbol": "iTData.__deepcopy__"}, {"file": "src/itertree/itree_data.py", "symbol": "iTData.__hash__"}]}
{"id": "C98", "title": "Saving trees with loaded links", "statement": "A saved tree contains the local items of its link roots with all contents, and of the linked items only a placeholder (tag and number within the tag family); after reading it and loading the links the linked items are those the target has then, in target order, and the local items are back at their places. The saved text does not depend on the contents of linked items.", "quantifier": "every tree, every mix of local and linked children, every change of the target between saving and loading", "why_tests_cant": "Which children are shortened depends on the neighbours; the target may change arbitrarily between saving and reading.", "anchors": [{"file": "src/itertree/itree_private.py", "symbol": "_iTreePrivate._iter_locals_add_placeholders"}, {"file": "src/itertree/itree_main.py", "symbol": "iTree.dumps"}, {"file": "src/itertree/itree_main.py", "symbol": "iTree.loads"}, {"file": "src/itertree/itree_main.py", "symbol": "iTree.load_links"}]}
{"id": "C99", "title": "Loading all links of a tree", "statement": "load_links() on an item that is no link root loads every link below it, also below ordinary items, each exactly once and as if load_links() had been called on the link roots one after the other in document order; the result is True exactly if one of them was loaded; items that are no link roots or children of link roots, and the target trees, do not change; if a target is missing, nothing is changed.", "quantifier": "every tree, every set and depth of link roots, every relation of targets, already loaded links, force", "why_tests_cant": "The traversal runs over lists that grow while links are loaded; independence of the loads holds for all trees.", "anchors": [{"file": "src/itertree/itree_main.py", "symbol": "iTree.load_links"}, {"file": "src/itertree/itree_indepth.py", "symbol": "_iTreeIndepthTree.__iter__"}]}
{"id": "C100", "title": "Removing the local items of a link root", "statement": "clear(local_only=True) on a link root removes exactly the local children; the linked children stay in order, no other item changes, and the removed items are roots afterwards.", "quantifier": "every link root, every mix of local and linked children and placeholders", "why_tests_cant": "The children are deleted while the list is traversed; which ones are met depends on the whole arrangement.", "anchors": [{"file": "src/itertree/itree_main.py", "symbol": "iTree.clear"}, {"file": "src/itertree/itree_private.py", "symbol": "_iTreePrivate._iter_locals_add_placeholders"}, {"file": "src/itertree/itree_main.py", "symbol": "iTree.__delitem__"}]}
{"id": "C101", "title": "Reading files of version 1.1.1", "statement": "Converter_1_1_1_to_2_0_0 turns every intact 1.1.1 file (packed or not) into the tree it describes: the same tags, values, placeholders, links and read-only states in the same order at every depth. A file of another version, or one whose data part does not have the hash of the header (unless check_hash=False), is refused with PermissionError; nothing else is ever accepted.", "quantifier": "every file content, every nesting of items and typed values", "why_tests_cant": "The format is recursive in values, tags and children; the marker between the parts may stand anywhere in the data.", "anchors": [{"file": "src/itertree/itree_serializer/itree_json_converter.py", "symbol": "Converter_1_1_1_to_2_0_0"}, {"file": "src/itertree/itree_serializer/itree_json_converter.py", "symbol": "Converter_1_1_1_to_2_0_0_Cls.convert"}, {"file": "src/itertree/itree_serializer/itree_json_converter.py", "symbol": "Converter_1_1_1_to_2_0_0_Cls.create_itree_from_raw"}]}
{"id": "C102", "title": "The printed form of a mathematical set can be evaluated", "statement": "eval(repr(s)) is a set with the same members as s under all values of the variables, with the same bounds, items, flags and formats, for intervals, rosters and combinations of any depth, also after switch_complement(), in whatever order Python prints the items of a roster.", "quantifier": "every set built by the constructors, every iteration order of the rosters, every tested number and variable assignment", "why_tests_cant": "The text nests as deep as the combination; which optional arguments are printed depends on the state.", "anchors": [{"file": "src/itertree/itree_mathsets.py", "symbol": "mSetItem.__repr__"}, {"file": "src/itertree/itree_mathsets.py", "symbol": "mSetItem.get_init_args"}, {"file": "src/itertree/itree_mathsets.py", "symbol": "mSetInterval.__repr__"}, {"file": "src/itertree/itree_mathsets.py", "symbol": "mSetRoster.__repr__"}, {"file": "src/itertree/itree_mathsets.py", "symbol": "mSetCombine.__repr__"}, {"file": "src/itertree/itree_mathsets.py", "symbol": "mSetCombine.__init__"}]}
{"id": "C103", "title": "Pickling trees with loaded links", "statement": "pickle.loads(pickle.dumps(t)), in any process, is a tree with the contents of t in which the linked items are represented by placeholders only; local items (and everything below them), links, tags, values and flags are those of t, and after load_links(force=True) on the unpickled link root its linked items are copies of what the target has then and its local items are those of t. No other item of the process changes.", "quantifier": "every tree with loaded links reachable by any history, any unpickled position of the link root (also the pickled item itself), any process state and any target at unpickling", "why_tests_cant": "The mix of local and linked children, the depth of the link roots and the state of the target between pickling and loading are unbounded.", "anchors": [{"file": "src/itertree/itree_main.py", "symbol": "iTree.__reduce__"}, {"file": "src/itertree/itree_main.py", "symbol": "iTree.get_init_args"}, {"file": "src/itertree/itree_private.py", "symbol": "_iTreePrivate._iter_locals_add_placeholders"}, {"file": "src/itertree/itree_main.py", "symbol": "iTree.load_links"}]}
{"id": "C104", "title": "Short text of a tree", "statement": "str(t) writes the constructor call of t in which of more than two children only the first and the last are written, with \"...\" between them, and in the same way below them; items with children below a fifth of the recursion limit are written with \"...\" instead of the children. So two trees have the same text exactly if they agree in what is shown, no child in the middle matters, the length is bounded independently of the size of the tree, and a tree without items of more than two children has the text of repr.", "quantifier": "every tree reachable by any history in which no link root covers a linked item, every width and depth, every recursion limit", "why_tests_cant": "Width and depth are unbounded; separators depend on which arguments exist at each level.", "anchors": [{"file": "src/itertree/itree_main.py", "symbol": "iTree.__str__"}]}
{"id": "C105", "title": "The short text of a mathematical set can be evaluated", "statement": "str(s), that is mSetInterval('...'), mSetRoster(...) or mSetCombine(\"...\") around the mathematical notation of s, evaluates to an equal set with the same members under all values of the variables.", "quantifier": "every interval, roster and combination, every bound, item, flag and format, every tested number and variable assignment", "why_tests_cant": "The text is parsed by Python and then by the definition parser of the class; each has its own rules for quotes, braces, complements and numbers.", "anchors": [{"file": "src/itertree/itree_mathsets.py", "symbol": "mSetInterval.__str__"}, {"file": "src/itertree/itree_mathsets.py", "symbol": "mSetRoster.__str__"}, {"file": "src/itertree/itree_mathsets.py", "symbol": "mSetCombine.__str__"}, {"file": "src/itertree/itree_mathsets.py", "symbol": "mSetCombine.math_repr"}]}
{"id": "C106", "title": "Local items that cover linked items", "statement": "x.is_link_cover is True exactly while x stands for a linked item: the item made by make_local is a cover and no other item becomes or stops being one; load_links makes a local child a cover when the target has a child with its key, and only then; a cover in a tree stands for exactly one item, of the same tag and in no tree, for which no other item in a tree stands; without link calls there are no covers, copies never are covers, and p[tag]=x is refused without any effect while a cover is in the family; after its deletion, or when the target has no such child any more, the item is a cover no more.", "quantifier": "every history of tree and link calls, every item, every new item of the same tag", "why_tests_cant": "Which items cover others depends on the whole history of loads, local copies and deletions.", "anchors": [{"file": "src/itertree/itree_main.py", "symbol": "iTree.is_link_cover"}, {"file": "src/itertree/itree_main.py", "symbol": "iTree.make_local"}, {"file": "src/itertree/itree_main.py", "symbol": "iTree.__setitem__"}, {"file": "src/itertree/itree_private.py", "symbol": "_iTreePrivate._convert_to_local_item"}]}
{"id": "C107", "title": "str() of a set item evaluates to an equal item", "statement": "eval(str(i)) of a mathematical set item is an item with the same value (or variable), the same border flag and the same format.", "quantifier": "every item: any variable name, any number including inf and nan, any border flag and any format", "why_tests_cant": "The printed number is rounded by the format; equality must hold for every number and every format.", "anchors": [{"file": "src/itertree/itree_mathsets.py", "symbol": "mSetItem.__str__"}, {"file": "src/itertree/itree_mathsets.py", "symbol": "mSetItem.math_repr"}, {"file": "src/itertree/itree_mathsets.py", "symbol": "mSetItem.get_init_args"}, {"file": "src/itertree/itree_mathsets.py", "symbol": "mSetItem.__init__"}]}

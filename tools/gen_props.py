#!/usr/bin/env python3
"""Writes /verif/properties.jsonl (one JSON object per line)."""
import json
M='src/itertree/itree_main.py'; P='src/itertree/itree_private.py'; H='src/itertree/itree_helpers.py'
D='src/itertree/itree_indepth.py'; IT='src/itertree/itree_indepth_helpers/itree_indepth_iter.py'
SB='src/itertree/itree_indepth_helpers/itree_indepth_siblings.py'; LV='src/itertree/itree_indepth_helpers/itree_indepth_levels.py'
G='src/itertree/itree_getitem.py'; J='src/itertree/itree_serializer/itree_json_serialize.py'
R='src/itertree/itree_serializer/itree_renderer.py'; MS='src/itertree/itree_mathsets.py'
DA='src/itertree/itree_data.py'; DM='src/itertree/itree_data_models.py'; F='src/itertree/itree_filters.py'
HIST='every finite history of structural operations on any number of items, of any size'
TREE='every tree of any shape, width and depth'
props=[]
def p(title,statement,quant,why,*anchors):
    props.append(dict(id='C%02d'%(len(props)+1),title=title,statement=statement,quantifier=quant,why_tests_cant=why,
                      anchors=[{'file':a.split('::')[0],'symbol':a.split('::')[1]} for a in anchors]))
p('Family index agrees with the child order',
  'For every item and every tag, item[tag] (get.by_tag) lists exactly the children whose tag equals it, in child order, and the tag is reported present (is_tag_in, tags()) iff at least one such child exists.',
  HIST,'The family index is a second copy of the child list updated by hand in every mutator; only an invariant over all histories shows the copies never diverge.',
  M+'::iTree.append',M+'::iTree.insert',M+'::iTree.__delitem__',P+'::_iTreePrivate._append_item')
p('Children behave like a Python list',
  'append, appendleft, insert, extend, extendleft, pop, del, remove, reverse, rotate, move and clear change the ordered list of children exactly as the same-named operation on a Python list / deque would, and leave the children of every other item untouched.',
  HIST,'Refinement to the list model must hold for every history, not only for the sampled ones.',
  M+'::iTree.append',M+'::iTree.appendleft',M+'::iTree.insert',M+'::iTree.pop',M+'::iTree.rotate')
p('Parent pointer and membership agree; no child has two places',
  'x.parent is p iff x is one of the children of p; an item occurs at most once among all children of all items; a removed item has parent None and can be re-attached.',
  HIST,'Aliasing bugs appear only under particular orders of attach/detach operations.',
  M+'::iTree.parent',M+'::iTree.is_in',M+'::iTree.remove')
p('item.idx is the true position',
  'item.idx equals the position of the item among its parent\'s children, however many inserts, deletes, moves, reversals or reads happened before (i.e. for every possible content of the position cache).',
  'every parent, every child, every cache content reachable or not (any non-negative cached value)','The cached fast path, the +-20 window and the two full scans are only all exercised by particular shifts.',
  M+'::iTree.idx')
p('item.tag_idx is (tag, position in family)',
  'item.tag_idx returns the pair (tag, n) where n is the position of the item among the siblings with the same tag, for any history.',
  'every parent, every child, every cache content','The slow path is taken only after the family position moved by more than 20.',
  M+'::iTree.tag_idx')
p('Trees stay acyclic',
  'Starting from fresh items, no sequence of operations makes an item its own ancestor; root, level, idx_path and deep iteration terminate.',
  HIST,'Cycle creation needs a particular aliasing pattern of arguments.',
  M+'::iTree.append',M+'::iTree.root',M+'::iTree.level')
p('Attaching an item that already has a parent is refused without effect',
  'append/appendleft/insert of an item that already has a parent raise RecursionError and change nothing at all.',
  'every heap of items, every pair of items, every target','The exception must come before any of the several updates for every state.',
  M+'::iTree.append',M+'::iTree.appendleft',M+'::iTree.insert')
p('Read-only trees cannot be restructured',
  'While an item has READ_ONLY_TREE (or is LINKED / PLACEHOLDER) and is not a link root, append, appendleft, insert, extend, extendleft, item assignment, del, pop, remove, reverse, rotate, sort, clear on it, and move/rename of its children all raise PermissionError and leave every item unchanged.',
  'every heap, every operation, every argument','Must hold for every mutator, every argument and every state.',
  M+'::iTree._IS_TREE_PROTECTED',M+'::iTree.__delitem__',M+'::iTree.sort')
p('insert(i, x) is list.insert(i, x)',
  'For an integer target, insert puts the item at the position Python\'s list.insert would use (negative and out-of-range targets included), the family order stays consistent, and the other children keep their relative order.',
  'every parent, every integer target, every item','Boundary classes: negative, beyond both ends, empty parent, existing or new family.',
  M+'::iTree.insert',P+'::_iTreePrivate._get_family_insertion_idx')
p('Family insertion position is found by the binary search',
  'When an item is inserted or renamed into an existing family, its place in item[tag] is after exactly the family members that precede it in child order.',
  'every family of any size, every insertion position','Binary search with banker\'s rounding; off-by-one errors depend on the size parity and position.',
  P+'::_iTreePrivate._get_family_insertion_idx',M+'::iTree.rename')
p('pop undoes append, pop(0) undoes appendleft',
  'Appending a parentless item and popping it again returns that very item and restores children, families and parent pointers of every item.',
  'every reachable heap, every parentless item','Needs equality of whole observable states for all states.',
  M+'::iTree.append',M+'::iTree.pop',M+'::iTree.appendleft')
p('Deletion by index or key removes exactly the addressed item',
  'del t[i], pop(i), remove(x) detach exactly the addressed child (x.parent becomes None), keep the order of the others, and remove it from its family, also when several equal-looking siblings exist.',
  'every reachable heap, every valid index','Family deletion searches by equality with identity check; wrong twin removal depends on contents.',
  M+'::iTree.__delitem__',M+'::iTree.remove')
p('Slice deletion is consistent',
  'del t[a:b] removes exactly the addressed children, detaches all of them and updates all families.',
  'every parent, every slice','Depends on slice size and tags involved.',
  M+'::iTree.__delitem__')
p('Item assignment replaces one child in place',
  't[i] = x puts x at position i, detaches the old child, keeps all other children and keeps the family index consistent.',
  'every parent, every index, every parentless new item (same or different tag)','Same-tag and different-tag paths, last family member, family-tag assignment.',
  M+'::iTree.__setitem__')
p('move places the item before the target',
  'x.move(i) makes x the item in front of the child that had index i (documentation), x.move() makes it last; all other children keep their relative order.',
  'every parent, child and target','Index shift by the preceding deletion only matters for forward moves.',
  M+'::iTree.move')
p('rename keeps the position and moves the item between families',
  'x.rename(t) changes only the tag of x; the child order is unchanged; x leaves its old family and enters family t at the place given by the child order.',
  'every reachable heap, child and new tag','Uses list.remove (equality) so the outcome depends on the presence of equal twins.',
  M+'::iTree.rename')
p('reverse reverses children and families and is an involution',
  't.reverse() reverses the child order and each family; applying it twice restores the tree; no item is lost.',
  'every reachable heap','All sizes, all family partitions.',
  M+'::iTree.reverse')
p('rotate is list rotation',
  't.rotate(n) moves the last n children to the front (first -n to the end for negative n), with no loss of children, and rotate(-n) undoes rotate(n).',
  'every parent, every integer n','n larger than the number of children, families spanning the cut.',
  M+'::iTree.rotate',M+'::iTree.extendleft')
p('sort is a stable permutation of the children',
  't.sort(key) orders the children by key, equal keys keep their order, no child content is lost or duplicated.',
  'every parent and every key function','All permutations.',
  M+'::iTree.sort')
p('clear leaves an empty item',
  'After t.clear() the item has no children, no tag resolves any more, the removed children are free to be re-used, and only what is documented (value unless keep_value) changes on t itself.',
  'every reachable heap','Stale references are visible only through particular follow-up calls.',
  M+'::iTree.clear',G+'::_iTreeGetitem.by_tag')
p('extend / constructor append in order and copy attached items',
  'extend(items) and iTree(subtree=items) append the given items in order; an item that already has a parent is replaced by an equal copy and stays where it was.',
  'every heap and every list of items, repeated items included','Aliasing between the list, the target and other trees.',
  P+'::_iTreePrivate._iter_extend',M+'::iTree.extend',M+'::iTree.__init__')
p('extendleft prepends in order',
  'extendleft(items) puts the items in the given order in front of the old children and keeps the old children (same objects, same order).',
  'every heap and list of items','Rebuilds the whole structure; order and identity must be retained for all sizes.',
  M+'::iTree.extendleft')
p('keys and items enumerate the children with unique keys',
  'keys()/items() produce one key (tag, n) per child in child order; keys are pairwise distinct and t[key] is the child at that position.',
  'every reachable parent','Counter bookkeeping for all tag patterns.',
  M+'::iTree.keys',M+'::iTree.items')
p('tags / iter_families order',
  'tags() and iter_families() list each present tag exactly once ordered by first (or last with order_last) occurrence, with exactly the children of that tag.',
  'every reachable parent','Depends on tag interleavings.',
  M+'::iTree.tags',M+'::iTree.iter_families',M+'::iTree.iter_family_items')
p('idx_path addresses the item',
  'For every item, starting at its root, following idx_path (root.get.by_idx(*x.idx_path)) returns that very item; level == len(idx_path); root has no parent.',
  HIST,'All depths and shapes.',
  M+'::iTree.idx_path',M+'::iTree.level',M+'::iTree.root',G+'::_iTreeGetitem.by_idx')
p('tag_idx_path addresses the item',
  'For every item root.get.by_tag_idx(*x.tag_idx_path) returns that very item.',
  HIST,'All depths, shapes and cache contents.',
  M+'::iTree.tag_idx_path',G+'::_iTreeGetitem.by_tag_idx')
p('Subscript target precedence',
  't[target]: an int is an absolute index (negative as in lists) and only if out of range a tag; a pair is (tag, index) first and only otherwise a tuple tag; any other hashable is a tag; missing targets raise and never return a wrong item.',
  'every reachable parent, every target','Ambiguous int / tuple tags.',
  M+'::iTree.__getitem__')
p('Neighbour accessors are consistent with the order',
  'pre_item / post_item are the children directly before / after the item (None at the ends) and siblings is the child list without the item.',
  'every reachable heap, every child','Relies on idx for every cache content.',
  M+'::iTree.pre_item',M+'::iTree.post_item',M+'::iTree.siblings')
p('Membership test',
  'x in t / tag in t / key in t is true iff t[..] would resolve to at least one child (for iTree arguments: an equal child exists).',
  'every reachable parent, every target','Result shape (item / list) changes the path.',
  M+'::iTree.__contains__')
p('Deep iteration visits every descendant exactly once in pre-order',
  'Iterating t.deep (and deep.iter() with the default downward option) yields every descendant exactly once, parents before their children and siblings in order.',
  TREE,'Explicit iterator stack; correctness for all shapes needs induction.',
  D+'::_iTreeIndepthTree.__iter__',IT+'::_iTreeIndepthIter._iter_normal')
p('Iteration options give the documented orders',
  'UP gives post-order, REVERSE visits siblings last-to-first, SELF adds the calling item first (down) or last (up), for each combination; each selected item exactly once.',
  TREE+' and every combination of options','16 option combinations x all shapes.',
  D+'::_iTreeIndepthTree.iter',IT+'::_iTreeIndepthIter._iter_normal',IT+'::_iTreeIndepthIter._iter_up',IT+'::_iTreeIndepthIter._iter_reverse')
p('Hierarchical filtering',
  'deep.iter(filter) yields an item iff it and all its ancestors below the start satisfy the filter; with FILTER_ANY iff the item itself does; order is unchanged.',
  TREE+' and every filter','All shapes and filters.',
  D+'::_iTreeIndepthTree.iter')
p('idx_paths / tag_idx_paths pair each item with its path',
  'deep.idx_paths() yields the items of deep.iter() in the same order, each with its idx_path (the path of the calling item followed by the child positions leading to the item), all paths distinct; tag_idx_paths() does the same with (tag, number) pairs.',
  TREE+', all options','Counter stacks must stay in step with the iterator stack.',
  D+'::_iTreeIndepthTree.idx_paths',D+'::_iTreeIndepthTree.tag_idx_paths',IT+'::_iter_normal_idxpath')
p('siblings(level) yields exactly one level',
  'deep.siblings(n) yields exactly the descendants at relative depth n in order; siblings(-1) yields exactly the leaves, and siblings(-n-1) the items n steps above a leaf; only items below the calling item are yielded.',
  TREE+', every level','All shapes; levels beyond the depth.',
  D+'::_iTreeIndepthTree.siblings',SB+'::siblings_plus')
p('max_depth is the height',
  'max_depth equals the length of the longest downward path.',
  TREE,'Level-by-level loop.',
  M+'::iTree.max_depth')
p('levels iteration terminates and groups by depth',
  'deep.levels(...) terminates and yields, per requested level, exactly the items at that depth.',
  TREE+', every start/stop/step and option','Loop guard depends on the option combination.',
  D+'::_iTreeIndepthTree.levels',LV+'::levels')
p('deep.iter_family_items visits every descendant',
  'deep.iter_family_items() yields each descendant exactly once, families grouped.',
  TREE,'Needs nesting and several siblings.',
  D+'::_iTreeIndepthTree.iter_family_items')
p('copy is an independent isomorphic tree',
  'copy(), deepcopy(), copy_keep_value() give a tree of new items with the same shape, order, tags, values and flags; no item is shared with the original and the original is unchanged.',
  TREE,'Explicit stack copy; correctness for all shapes needs induction.',
  P+'::_iTreePrivate._iter_copy',M+'::iTree.copy')
p('Equality is reflexive and symmetric and copies are equal',
  'x == x; x == y iff y == x; x.copy() == x.',
  'every pair of trees','zip over two traversals of different shapes.',
  M+'::iTree.__eq__')
p('Equality distinguishes different trees',
  'x == y implies the same tags, values and structure on all levels (and is therefore transitive and consistent with hash).',
  'every pair of trees','Counterexamples need a particular nested difference.',
  M+'::iTree.__eq__',M+'::iTree.__hash__')
p('Flags are set and unset individually',
  'set_tree_read_only/set_value_read_only set only their flag; unset_* remove only their flag and keep the others; constructor flags are masked to the defined bits.',
  'every flag value','All 64 combinations.',
  P+'::_iTreePrivate._set_flags',P+'::_iTreePrivate._unset_flags',M+'::iTree.unset_value_read_only')
p('Tree protection covers the whole subtree',
  'After a successful set_tree_read_only every descendant is read-only; items added through the constructor of a read-only item are read-only on all levels; a failing call changes nothing.',
  TREE+' and every flag distribution','Depends on where LINKED descendants sit.',
  M+'::iTree.set_tree_read_only',P+'::_iTreePrivate._set_flags_deep')
p('Protected values cannot be changed',
  'While an item is value-read-only, linked or a placeholder, set_value, set_key_value, del_value, del_key_value and clear raise PermissionError and the value is unchanged.',
  'every item state, every argument','Every mutator x every flag.',
  M+'::iTree.set_value',M+'::iTree.del_value',M+'::iTree.clear')
p('Linked copies reproduce the target structure',
  'load_links puts below the link root a copy of the target\'s subtree with identical shape, order, tags and values, every copied item being marked as linked.',
  TREE+' as target','Needs nested targets with following siblings.',
  P+'::_iTreePrivate._convert_to_linked_item',M+'::iTree.load_links')
p('make_local reproduces the linked item as a local one',
  'make_local() replaces the linked item by a local (not linked) copy of identical structure at the same position and family position.',
  TREE,'Nested structure needed.',
  P+'::_iTreePrivate._convert_to_local_item',M+'::iTree.make_local')
p('Link merge keeps local items',
  'When links are (re)loaded every local item of the link root survives and no stale linked item survives.',
  'every mix of local and linked children','Depends on the order of local and linked children.',
  P+'::_iTreePrivate._iter_locals_add_placeholders',M+'::iTree.load_links')
p('Value serialisation round-trips',
  'Decoding the JSON form of any supported value (ints, floats, strings, bytes, tuples, lists, deques, sets, dicts, ordered dicts, itertree constants, nested) gives back an equal value of the same type.',
  'every value of any nesting','Tag collisions in nested containers.',
  J+'::iTStdJSONSerializer2.convert_to_json',J+'::iTStdJSONSerializer2.convert_from_json')
p('Tree serialisation round-trips',
  'loads(dumps(t)) is a tree with the same shape, order, tags, values, links and flags as t.',
  TREE,'Depth bookkeeping in the flat list; all shapes.',
  J+'::iTStdJSONSerializer2.dumps',J+'::iTStdJSONSerializer2.create_itree_from_raw')
p('Interval membership',
  'v in mSetInterval(lower, upper) iff v lies between the bounds with the given open/closed ends, independent of the order in which the bounds are given; complement=True negates exactly that; int_only restricts to integers.',
  'every bound, value and flag combination','Dense, infinite domain.',
  MS+'::mSetInterval.__init__',MS+'::mSetInterval.__contains__')
p('Set combination membership',
  'v in union iff in some member, v in intersection iff in every member, complement (and switch_complement()) negates; a + b has the members of the union and a - b those of the intersection of the sets a and b.',
  'every family of sets of any size, every value','Infinite domain, nested combinations.',
  MS+'::mSetCombine.__contains__',MS+'::_mSetBase.__add__',MS+'::_mSetBase.__sub__',MS+'::_mSetBase.switch_complement')
p('Interval cardinality and iteration agree with membership',
  'For integer intervals cardinality is the number of members and iteration yields exactly the members in ascending order.',
  'every interval','Boundary classes open/closed, single point, infinite.',
  MS+'::mSetInterval.cardinality',MS+'::mSetInterval.__iter__')
p('Set equality is sound',
  'If two set objects compare equal then they have the same members.',
  'every pair of sets','Infinite domain.',
  MS+'::mSetItem.__eq__',MS+'::mSetCombine.__eq__')
p('get_init_args rebuild an equal set',
  'Constructing a set from get_init_args() gives a set with the same members.',
  'every set','All flag combinations.',
  MS+'::mSetInterval.get_init_args',MS+'::mSetCombine.get_init_args')
p('Value models only ever hold valid values',
  'After any sequence of set/clear calls the value stored in a value model is NoValue or satisfies the model\'s constraint; a rejected set raises and keeps the old value; an accepted set stores the cast value and returns the previous one; set(NoValue) and clear() empty the model.',
  'every model, every sequence of calls','Histories mixing failing and succeeding calls.',
  DA+'::iTValueModel.set',DA+'::iTIntModel')
p('Filter inversion negates',
  'For every filter constructor and item, invert=True gives exactly the negated decision of invert=False.',
  'every filter constructor, argument and item','All items and arguments.',
  F+'::has_item_flags',F+'::has_item_value',F+'::is_item_tag')
p('Rendering shows every item once',
  'renders() produces exactly one line per item of the tree in pre-order, indented by its depth, starting with the item itself (which is never filtered out); a filter hides exactly the rejected items and everything below them; enumerate=True puts the position among the shown siblings in front of each item.',
  TREE,'All shapes.',
  R+'::iTreeRender.renders')
p('Roster membership',
  'v in mSetRoster(*items) iff v equals one of the items that are not open (or the value given for a variable among them); complement=True negates; the cardinality is the number of different items.',
  'every list of items, every value and variable assignment','Infinite domain.',
  MS+'::mSetRoster.__init__',MS+'::mSetRoster.__contains__',MS+'::mSetRoster.cardinality')
p('Checking a value does not store it',
  'v in model / model.check(v) answers True exactly when set(v) would accept v, and leaves the stored value as it was.',
  'every model, stored value and checked value','Every constraint and value; needs a comparison of two calls.',
  DA+'::iTValueModel.__contains__',DA+'::iTDataModel.check')
p('iTData behaves as a dictionary that validates',
  'After d[k]=v reading d[k] gives v and every other key reads as before; deleting or popping a key removes exactly that key and delivers its value; keys stay unique; a value assigned to a key that holds a model is validated by that model; update() applies all pairs or, when one is rejected, none.',
  'every dictionary, key and value','All key/model combinations and update lists.',
  DA+'::iTData.__setitem__',DA+'::iTData.__delitem__',DA+'::iTData.update',DA+'::iTData.pop')
p('Every filter decides what it says',
  'A filter answers for every item, with True exactly when: the item has one of the flags / its tag or value equals / matches the pattern / is a number in the range; for the dict filters the value is a dictionary with such a key or value; for the list filters the value delivers such an element; the list index filter: the index lies inside the list.',
  'every filter argument and every item','All combinations of value types and arguments.',
  F+'::has_item_flags',F+'::is_item_tag',F+'::has_item_value_dict_key',F+'::has_item_value_list_idx',F+'::has_item_value_list_item_fnmatch')
p('Changed data is detected on load',
  'The header written by dumps(calc_hash=True) carries the hash of the data part, which is the text dumps writes without header; loads(check_hash=True) of a text whose data part has another hash than the header says, or whose serialization version differs, raises and creates no item; check_hash=False ignores the hash.',
  'every tree, every manipulated text, any hash function','Every possible manipulation of the text.',
  'src/itertree/itree_serializer/itree_json_serialize.py::dumps','src/itertree/itree_serializer/itree_json_serialize.py::loads')
p('Deleting a local item brings the linked item back',
  'del t[i] of a local item that replaced a linked item puts the linked item back at the same place (also inside its family), with its values and subtree untouched; the deleted item becomes free and nothing else changes. make_local() followed by deleting the local item leaves everything as it was.',
  'every tree, every history of tree and link calls, every position','Depends on the whole history of loads, merges and replacements.',
  M+'::iTree.__delitem__',M+'::iTree.make_local')
G='src/itertree/itree_getitem.py'
p('get() subscripts level by level',
  'tree.get(t1, t2, ..., tn) delivers what applying t1 to the tree, t2 to every item found, and so on delivers, in order: with one target the same as tree[t1]; get.single delivers the only match and raises otherwise; get.iter the same matches; with default= given nothing is raised. Every match lies exactly n levels below the tree.',
  'every tree and every path of targets','Every tree, path length and mix of target kinds.',
  G+'::_iTreeGetitem.__call__',G+'::_iTreeGetitem.single',G+'::_iTreeGetitem.iter')
p('The get.by_...() accessors deliver what their name says',
  'by_idx walks the given positions; by_tag_idx the given (tag, family index) keys; by_tag and by_tags deliver the children with that tag / these tags in order; the slice and list accessors the children at these positions; by_level_filter the children accepted by the filter; same_index_children the items with the same position below the siblings of the item. Missing targets raise.',
  'every tree, every target path','Every tree, tag and index combination, including failing ones.',
  G+'::_iTreeGetitem.by_idx',G+'::_iTreeGetitem.by_tag_idx',G+'::_iTreeGetitem.by_tag',G+'::_iTreeGetitem.by_level_filter',G+'::_iTreeGetitem.same_index_children')
p('Ancestors, root and level agree',
  'ancestors lists the chain of parents from the root down to the parent; its length is level, its first element (or the item itself when it is empty) is root, is_root holds exactly when it is empty, and its last element is parent.',
  'every tree, every item, any depth, after every history','Needs induction over depth and history.',
  M+'::iTree.ancestors',M+'::iTree.root',M+'::iTree.level',M+'::iTree.is_root')
p('count and index search by equality',
  'count(x) is the number of children equal to x; index(x, start, stop) is the position of the first child equal to x from start (inclusive) up to stop (exclusive) and raises IndexError when there is none; index finds x exactly when count(x) > 0; filtered_len counts the accepted children, tag_number the different tags; <, <=, >, >= compare the numbers of children.',
  'every tree, every searched item, start and stop','All positions of start, stop and duplicates.',
  M+'::iTree.count',M+'::iTree.index',M+'::iTree.filtered_len',M+'::iTree.tag_number',M+'::iTree.__lt__')
p('equal() adds exactly the requested checks',
  'a.equal(b) is a == b; with check_flags=True / check_coupled=True additionally the flags / coupled objects of all corresponding items must agree; equal() is symmetric and trees with different tags are not equal.',
  'every pair of trees, every combination of checks','Every pair of shapes.',
  M+'::iTree.equal')
p('link_root is the highest linked ancestor',
  'For a linked item link_root delivers the highest item reached by walking up through linked items only; for an item that is not linked it delivers the item itself.',
  'every tree and link history, every item','Any depth and history of loads.',
  M+'::iTree.link_root')
p('Sums and products of trees',
  'a + b is a new tree with tag, value and flags of a whose children are copies of the children of a followed by copies of those of b; a * b has the copies of all pairs (child of a, child of b) in order; a * n has n copies of a, n * a the same without tag and value. Copies keep order, tags, values and links at every depth; a and b are not changed and nothing is shared. Link roots raise TypeError.',
  'every pair of trees, every n, after every history','Every shape; sharing and changes of the operands at any depth.',
  M+'::iTree.__add__',M+'::iTree.__mul__',M+'::iTree.__rmul__')
p('Pickling round-trips',
  'pickle.loads(pickle.dumps(t)) delivers, in this or any other process, a new tree with the shape, order, tags, values, links and flags of t; no existing item changes.',
  TREE+', every state of the reading process','All shapes, values, flags; independence from the reading process.',
  M+'::iTree.__reduce__',M+'::iTree.get_init_args')
p('Hash agrees with the content',
  'Trees with the same shape, tags and values have the same hash, wherever they are attached and in every process state; in particular copies and unpickled trees; a == b implies hash(a) == hash(b); trees with different tags, values or shapes have different hashes as far as the hash of tuples, tags and values distinguishes them.',
  'every pair of trees, every hash function','Infinitely many pairs of trees.',
  M+'::iTree.__hash__')
ID='src/itertree/itree_indepth.py'
p('Counting and membership in depth',
  'len(t.deep) is the number of items at any depth below t, and <, <=, >, >= of t.deep compare these numbers; t.deep.count(x) is the number of items below t equal to x and x in t.deep holds exactly when it is positive; filtered_len counts the accepted items, hierarchically only those without a rejected item above them; is_in(x) holds exactly when x itself is below t; is_tag_in(tag) exactly when an item below t has that tag.',
  'every tree, item, tag and filter, any depth, after every history','All shapes and depths; membership after arbitrary histories.',
  ID+'::_iTreeIndepthTree.__len__',ID+'::_iTreeIndepthTree.count',ID+'::_iTreeIndepthTree.filtered_len',ID+'::_iTreeIndepthTree.is_in',ID+'::_iTreeIndepthTree.is_tag_in')
p('deep.index finds the first equal item in the given range',
  'deep.index(x, start, stop) delivers the index path (from t) of the first item in depth-first order, from start (inclusive) up to stop (exclusive), that is equal to x; following the path from t leads to that item; start and stop may be items or target paths; when there is none IndexError is raised. The tree is not changed.',
  'every tree, searched item, start and stop','All positions of start, stop and hits at every depth.',
  ID+'::_iTreeIndepthTree.index')
p('deep.reverse reverses every level',
  'deep.reverse() reverses the order of the children of t and of every item below t; items, parents, values and all other trees stay; twice is the identity; a protected item refuses and nothing is changed.',
  'every tree, any depth','Every shape; effects on all other items.',
  ID+'::_iTreeIndepthTree.reverse')
p('deep.sort sorts every level, stably',
  'deep.sort(key, reverse) brings the children of t and of every item below t into the order of the key (by default the number of children), equal keys keep their order; every level keeps its items with tags, values, flags and subtrees; sorting twice gives what sorting once gives; other trees stay; a protected item refuses and nothing is changed.',
  'every tree, key function and direction','Every shape and key; stability and effects on all other items.',
  ID+'::_iTreeIndepthTree.sort')
p('deep.remove takes out exactly the targeted items',
  'deep.remove(t1, ..., tn) takes every item that get(t1, ..., tn) delivers out of its parent and returns what get returns; the removed items keep their subtrees and become roots; no other item changes; when nothing is found, or a parent is protected, it raises and nothing is changed.',
  'every tree and every path of targets','Every mix of targets, parents and protections.',
  ID+'::_iTreeIndepthTree.remove')
p('In-depth flag changes touch exactly the accepted items',
  'deep.set_value_read_only / unset_value_read_only / unset_tree_read_only (filter, hierarchical) set or clear exactly the named flag on t (when accepted) and on every accepted item below t - hierarchically only when all items between are accepted too; nothing else changes; a parent with the tree protection flag makes the call raise PermissionError without effect.',
  'every tree, filter, flag combination','Every shape, filter and mix of flags.',
  ID+'::_iTreeIndepthTree.set_value_read_only',ID+'::_iTreeIndepthTree.unset_value_read_only',ID+'::_iTreeIndepthTree.unset_tree_read_only')
p('Interval definition strings: notation and printed form',
  'mSetInterval("[a,b)"), with [ or ( for closed or open, "," or ".." (integers only), a leading ! or a trailing quote for the complement and white space anywhere, denotes exactly the numbers between the two bounds; math_repr() of every interval is a definition string that is accepted again and gives an equal interval with the same members.',
  'every definition string, every pair of bounds in decimal, hexadecimal, octal, binary or fixed point notation or as a variable','All texts and numbers; the parser is a regular expression plus case distinctions.',
  MS+'::mSetInterval.__init__',MS+'::mSetInterval._parse_math_definition_str',MS+'::mSetInterval.math_repr',MS+'::mSetItem.__init__',MS+'::mSetItem.math_repr')
p('Builder definition strings denote the numbers that satisfy their statements',
  'mSetInterval("{x|...}") with one or two statements (a<=x, x>b, a<x<=b, x=a, x!=a, x e D with a numerical domain D), a leading ! or trailing quote for the complement and white space anywhere, contains exactly the numbers that satisfy all statements; the short forms "x<5" and "n<5" mean {x|x<5} and {n|n e Z, n<5}.',
  'every definition string of the documented grammar, every number','All texts, limits and combinations of statements.',
  MS+'::mSetInterval._parse_builder_definition_str',MS+'::mSetInterval._get_set_data',MS+'::mSetInterval._replace_upper_limit',MS+'::mSetInterval.__init__')
p('Roster definition strings: notation and printed form',
  'mSetRoster("{a,b,...}"), with a leading ! or trailing quote for the complement and white space anywhere, contains exactly the listed numbers (and the values of the listed variables); math_repr() of every roster, in whatever order the items come, is accepted again and gives an equal roster with the same members; a text that is neither a roster nor a single item is refused.',
  'every definition string, every list of items, every order','All texts and orders of a hash set.',
  MS+'::mSetRoster.__init__',MS+'::mSetRoster._math_def_parser',MS+'::mSetRoster.math_repr')
p('Comparison, equality and hash of set items',
  'mSetItem objects order like their numbers (<, <=, >, >=; None as soon as a variable is involved); == is an equivalence relation that means equal numbers or equal names, and equal items have equal hashes.',
  'every pair and triple of items, numbers and variables, open or closed','All combinations of values and flags, transitivity.',
  MS+'::mSetItem.__eq__',MS+'::mSetItem.__lt__',MS+'::mSetItem.__hash__')
p('Files: what load accepts is what a dump wrote',
  'After dump(path) without error, load(path) - packed or not - answers what loads answers for the dumped text (C48, C61) and the returned hash is the hash of the data part; dump never changes an existing path unless overwrite=True, never a directory, and never another path; a dump interrupted after any number of bytes never leaves a file that load accepts as another tree; along every history load either raises or reads the complete text of one dump call to that path.',
  'every tree, filter, option, file system state, interruption point and history of dumps, interruptions and removals','Every crash point and every order of calls.',
  J+'::iTStdJSONSerializer2.dump',J+'::iTStdJSONSerializer2.load',M+'::iTree.dump',M+'::iTree.load')
p('A failing dump leaves the file as it was',
  'When dump(path, overwrite=True) does not complete - value that cannot be written, no permission, disk full, crash - the file at path is still the old one.',
  'every failure and every interruption point','Every crash point.',
  J+'::iTStdJSONSerializer2.dump')
p('iTDataReadOnly cannot be changed',
  'No sequence of method calls on an iTDataReadOnly object - item assignment and deletion, pop, popitem, setdefault, update, clear, delete_item, |= - changes a key or a value; each of them raises.',
  'every dictionary and every sequence of calls','Every method of dict that is not overridden.',
  DA+'::iTDataReadOnly')
p('iTData(value) stores a single value under NoKey',
  'iTData(v) of a value v that is no dictionary stores v under NoKey (with keyword arguments next to these); iTData of pairs is the dictionary of the pairs, the last one of a key counts.',
  'every value, every list of pairs','Which values Python takes for a list of pairs.',
  DA+'::iTData.__init__')
p('iTData clear, views and emptiness tests',
  'clear() removes everything, clear(values_only=True) keeps exactly the keys that hold a model, in order, each model without value; model_items() and model_values() deliver for every key in order what d[key] gives; is_empty, is_no_key_only and is_key_empty(k) answer whether there is no key, exactly the key NoKey, no value under k; pop(k, default) removes k only, and returns the default without change when k is missing.',
  'every dictionary of plain values and models','Every mix of models and plain values.',
  DA+'::iTData.clear',DA+'::iTData.model_items',DA+'::iTData.is_key_empty',DA+'::iTData.pop')
p('Trees are independent of each other',
  'Any sequence of calls - whatever they are, returning or raising - whose receivers belong to some trees or were created meanwhile, and whose handed-over free items belong to them too, leaves every item of all other trees exactly as it was (tag, value, flags, parent, children, link, coupled object, look-up by tag). Items that sit in another tree may be handed over: they are copied, and their tree does not change. No item of another tree becomes a child or the parent of one of ours. In particular, after b = a.copy() no work on b changes a, and no work on a or its tree changes b.',
  HIST,'Every number of trees, every interleaving of calls, every error on the way.',
  M+'::iTree.append',M+'::iTree.extend',M+'::iTree.copy',M+'::iTree.__delitem__',M+'::iTree.__setitem__')
p('a - b removes the equal children',
  'a - b is a new free tree and changes no existing item, also when it raises. It is a copy of a without those children that have an equal child in b under the same key (tag, number within the tag); the remaining children are copies in their old order. Equal tags (values) give NoTag (NoValue), else Python\'s difference of the two when there is one, else a text loses every occurrence of the other text, else the part of a is kept. a - a has no children. A child of b that a does not have is ignored.',
  'every two trees of every history, also one tree twice','Every pair of trees, every order of children.',
  M+'::iTree.__sub__')
p('repr() text rebuilds the tree',
  'eval(repr(t)) is a new tree with the shape, order, tags, values, links and flags of t, whatever else exists in the process, and changes no existing item; two trees have the same repr text exactly when they agree in all of these.',
  'every tree whose tags and values have evaluable repr texts','Every shape, size and combination of tags, values, flags and links, every depth.',
  M+'::iTree.__repr__',M+'::iTree.__init__')
p('The dot graph has exactly the nodes and edges of the tree',
  'iTreeRenderDot(t, filter) declares one node per item of t in pre-order, named item0, item1, ... without gaps or repetitions, labelled with the key (the tag for an item without parent), value and link of that item and coloured by its flags; every node except the first has exactly one edge, which comes from the node of its parent and is dotted for linked items. Rejected items are left out with everything below them. The tree is not changed.',
  'every tree of every history, every filter','Every shape and size of tree, every filter.',
  'src/itertree/itree_serializer/itree_render_dot.py::_iTreeRenderDot.renders','src/itertree/itree_serializer/itree_render_dot.py::_iTreeRenderDot.render_children','src/itertree/itree_serializer/itree_render_dot.py::_iTreeRenderDot._build_item')
p('iter_in and filter of sets agree with membership',
  's.iter_in(values, vars) delivers for the values in order what "v in s" answers under these variables, s.filter(values, vars) delivers exactly the values with answer True in their order; both end where the first membership test raises, with that exception. This holds for plain values and for pairs (value, variables).',
  'every set, every list of values, every dictionary of variables','Every set and list; cached limits must never differ from the limits of the single test.',
  MS+'::mSetInterval.iter_in',MS+'::mSetInterval.filter',MS+'::mSetRoster.iter_in',MS+'::mSetRoster.filter',MS+'::mSetCombine.iter_in',MS+'::mSetCombine.filter')
p('Definition strings of combined sets: notation and printed form',
  'mSetCombine("A u B u ...") contains exactly the numbers in one of the members, mSetCombine("A n B n ...") those in all of them, "!(...)" the others; math_repr() of every combination is accepted again and gives a set with the same members; a text that is no set definition is refused with TypeError.',
  'every combination of intervals, rosters and combinations, every definition string, every number and assignment of variables','All texts; the parser splits texts, strips parentheses and tries three readings one after the other.',
  MS+'::mSetCombine.__init__',MS+'::mSetCombine._parse_math_repr',MS+'::mSetCombine.math_repr',MS+'::mSetCombine.__contains__')
p('An enumeration accepts its keys and names and shows the name',
  'iTEnumerateModel(value, {key: name, ...}) accepts a single object exactly if it equals a key or a name, and stores the key; a list is accepted if its members are, at every depth; str(model) is the name; entering the shown name or the key again selects the same entry, and different entries are shown differently. Keys that are no integers are refused with TypeError. The dictionary that was passed is not changed and what the model does depends on nothing else.',
  'every dictionary, every entered object, every history of set, check and clear','Every dictionary with equal names, names that are keys, floats equal to keys, nested lists.',
  DA+'::iTEnumerateModel.__init__',DA+'::iTEnumerateModel.check_and_cast_single_item')
p('The text of a value model',
  'str(model) is "NoValue" for a model without value, the formatted object for a single value, and for a list the texts of the members in brackets separated by ", ", at every depth; it raises exactly if the formatter raises for one of the objects inside, with the exception of the first one.',
  'every value, every nesting of lists, every formatter','All nestings of lists.',
  DA+'::iTValueModel.__str__')
p('A value model can be rebuilt from its arguments',
  'class(*m.get_init_args()) - what the JSON loader calls - is a model with the same value, description, shape, contains and formatter as m, after any history of set, clear, set_description and set_formatter, for every model class of the package; with clear=True the same without value; two models of one class are == exactly if they agree in all five.',
  'every model class, every constructor call, every history','Which arguments are shortened away depends on the whole state; subclasses override parts of it.',
  DA+'::iTValueModel.get_init_args',DA+'::iTValueModel.__init__',DA+'::iTInt8Model.get_init_args',DA+'::iTStrFnPatternModel.get_init_args',DA+'::iTEnumerateModel.__init__')
p('Emptiness tests of mathematical sets',
  'is_empty_set is True exactly if no finite number is a member of the set, and is_empty_set_complement is True exactly for a complement set of which every finite number is a member - for intervals, rosters and combinations of any depth.',
  'every set expression, every number','The answer is computed from bounds and item counts, membership from comparisons; the agreement is over all numbers.',
  MS+'::mSetInterval.is_empty_set',MS+'::mSetRoster.is_empty_set',MS+'::mSetCombine.is_empty_set',MS+'::mSetInterval.is_empty_set_complement',MS+'::mSetCombine.is_empty_set_complement')
p('Value objects shared between a tree and its copies',
  'copy_keep_value() keeps the value objects; copy() gives every item a copy of its value object when that object can be changed (the objects inside stay shared); deepcopy() copies everything that can be changed, so that afterwards no change made through one tree - any history of changes of lists, dicts, value models - is visible through the other. None of them changes an existing object.',
  'every tree, every graph of value objects (shared, nested, cyclic), every later history of changes','Aliasing shows up only under later changes of shared objects; all object graphs.',
  M+'::iTree.copy',M+'::iTree.copy_keep_value',M+'::iTree.deepcopy',P+'::_iTreePrivate._get_copy_args',P+'::_iTreePrivate._get_deepcopy_args',DA+'::iTData.__deepcopy__',DA+'::iTData.__hash__')
p('Saving trees with loaded links',
  'A saved tree contains the local items of its link roots with all contents, and of the linked items only a placeholder (tag and number within the tag family); after reading it and loading the links the linked items are those the target has then, in target order, and the local items are back at their places. The saved text does not depend on the contents of linked items.',
  'every tree, every mix of local and linked children, every change of the target between saving and loading','Which children are shortened depends on the neighbours; the target may change arbitrarily between saving and reading.',
  P+'::_iTreePrivate._iter_locals_add_placeholders',M+'::iTree.dumps',M+'::iTree.loads',M+'::iTree.load_links')
p('Loading all links of a tree',
  'load_links() on an item that is no link root loads every link below it, also below ordinary items, each exactly once and as if load_links() had been called on the link roots one after the other in document order; the result is True exactly if one of them was loaded; items that are no link roots or children of link roots, and the target trees, do not change; if a target is missing, nothing is changed.',
  'every tree, every set and depth of link roots, every relation of targets, already loaded links, force','The traversal runs over lists that grow while links are loaded; independence of the loads holds for all trees.',
  M+'::iTree.load_links',ID+'::_iTreeIndepthTree.__iter__')
p('Removing the local items of a link root',
  'clear(local_only=True) on a link root removes exactly the local children; the linked children stay in order, no other item changes, and the removed items are roots afterwards.',
  'every link root, every mix of local and linked children and placeholders','The children are deleted while the list is traversed; which ones are met depends on the whole arrangement.',
  M+'::iTree.clear',P+'::_iTreePrivate._iter_locals_add_placeholders',M+'::iTree.__delitem__')
CV='src/itertree/itree_serializer/itree_json_converter.py'
p('Reading files of version 1.1.1',
  'Converter_1_1_1_to_2_0_0 turns every intact 1.1.1 file (packed or not) into the tree it describes: the same tags, values, placeholders, links and read-only states in the same order at every depth. A file of another version, or one whose data part does not have the hash of the header (unless check_hash=False), is refused with PermissionError; nothing else is ever accepted.',
  'every file content, every nesting of items and typed values','The format is recursive in values, tags and children; the marker between the parts may stand anywhere in the data.',
  CV+'::Converter_1_1_1_to_2_0_0',CV+'::Converter_1_1_1_to_2_0_0_Cls.convert',CV+'::Converter_1_1_1_to_2_0_0_Cls.create_itree_from_raw')
p('The printed form of a mathematical set can be evaluated',
  'eval(repr(s)) is a set with the same members as s under all values of the variables, with the same bounds, items, flags and formats, for intervals, rosters and combinations of any depth, also after switch_complement(), in whatever order Python prints the items of a roster.',
  'every set built by the constructors, every iteration order of the rosters, every tested number and variable assignment','The text nests as deep as the combination; which optional arguments are printed depends on the state.',
  MS+'::mSetItem.__repr__',MS+'::mSetItem.get_init_args',MS+'::mSetInterval.__repr__',MS+'::mSetRoster.__repr__',MS+'::mSetCombine.__repr__',MS+'::mSetCombine.__init__')
p('Pickling trees with loaded links',
  'pickle.loads(pickle.dumps(t)), in any process, is a tree with the contents of t in which the linked items are represented by placeholders only; local items (and everything below them), links, tags, values and flags are those of t, and after load_links(force=True) on the unpickled link root its linked items are copies of what the target has then and its local items are those of t. No other item of the process changes.',
  'every tree with loaded links reachable by any history, any unpickled position of the link root (also the pickled item itself), any process state and any target at unpickling','The mix of local and linked children, the depth of the link roots and the state of the target between pickling and loading are unbounded.',
  M+'::iTree.__reduce__',M+'::iTree.get_init_args',P+'::_iTreePrivate._iter_locals_add_placeholders',M+'::iTree.load_links')
p('Short text of a tree',
  'str(t) writes the constructor call of t in which of more than two children only the first and the last are written, with "..." between them, and in the same way below them; items with children below a fifth of the recursion limit are written with "..." instead of the children. So two trees have the same text exactly if they agree in what is shown, no child in the middle matters, the length is bounded independently of the size of the tree, and a tree without items of more than two children has the text of repr.',
  'every tree reachable by any history in which no link root covers a linked item, every width and depth, every recursion limit','Width and depth are unbounded; separators depend on which arguments exist at each level.',
  M+'::iTree.__str__')
p('The short text of a mathematical set can be evaluated',
  'str(s), that is mSetInterval(\'...\'), mSetRoster(...) or mSetCombine("...") around the mathematical notation of s, evaluates to an equal set with the same members under all values of the variables.',
  'every interval, roster and combination, every bound, item, flag and format, every tested number and variable assignment','The text is parsed by Python and then by the definition parser of the class; each has its own rules for quotes, braces, complements and numbers.',
  MS+'::mSetInterval.__str__',MS+'::mSetRoster.__str__',MS+'::mSetCombine.__str__',MS+'::mSetCombine.math_repr')
p('Local items that cover linked items',
  'x.is_link_cover is True exactly while x stands for a linked item: the item made by make_local is a cover and no other item becomes or stops being one; load_links makes a local child a cover when the target has a child with its key, and only then; a cover in a tree stands for exactly one item, of the same tag and in no tree, for which no other item in a tree stands; without link calls there are no covers, copies never are covers, and p[tag]=x is refused without any effect while a cover is in the family; after its deletion, or when the target has no such child any more, the item is a cover no more.',
  'every history of tree and link calls, every item, every new item of the same tag','Which items cover others depends on the whole history of loads, local copies and deletions.',
  M+'::iTree.is_link_cover',M+'::iTree.make_local',M+'::iTree.__setitem__',P+'::_iTreePrivate._convert_to_local_item')
p('str() of a set item evaluates to an equal item',
  'eval(str(i)) of a mathematical set item is an item with the same value (or variable), the same border flag and the same format.',
  'every item: any variable name, any number including inf and nan, any border flag and any format','The printed number is rounded by the format; equality must hold for every number and every format.',
  MS+'::mSetItem.__str__',MS+'::mSetItem.math_repr',MS+'::mSetItem.get_init_args',MS+'::mSetItem.__init__')
import sys
out='/verif/properties.jsonl'
with open(out,'w') as f:
    for q in props: f.write(json.dumps(q)+'\n')
print(len(props))
for q in props: print(q['id'],q['title'])

{
 "C01": "Holds for every state reached by allowed calls (History.allowed); refuted without the guards: slice deletion leaves the family index wrong (del t[0:2]).",
 "C02": "All listed operations refine the list operation under their guards, also along histories; refuted where the code differs (move forward, rotate by more than len, insert left of -len).",
 "C03": "Both directions for histories without sort/clear; child implies parent for all; refuted for clear/sort, which leave the dropped children pointing to the old parent.",
 "C04": "For every cache content and every heap in which the children of the parent are distinct and name it as parent (C04_idx_local), hence along every allowed history (C04_idx) and every history with links (C04_link_histories). The only known states with an item twice in a child list (its position is then ambiguous) are those of the C62 defect.",
 "C05": "The value is right for every cache; refuted literally: on the slow path the code returns the bare integer instead of the pair.",
 "C06": "All allowed histories keep the forest acyclic; refuted: root.append(root) is accepted and makes a cycle.",
 "C07": "For every heap and argument.",
 "C08": "For every heap, every listed mutator and argument.",
 "C09": "For targets >= -len (or an empty parent) and cached positions not drifted more than the search window; refuted outside.",
 "C10": "Binary search with banker's rounding, every family and position.",
 "C11": "For every reachable heap and free item.",
 "C12": "del/pop by index and by key, remove.",
 "C13": "Child list is right, and everything is right for slices of at most one item whose family has other members; refuted for longer slices (only the first item is processed).",
 "C14": "Guarded (position by int/key, cache drift, family not emptied); three refutations.",
 "C15": "move() and backward moves as documented; forward moves end after the target (refuted), lost item with drifted caches (refuted).",
 "C16": "Guard: no equal twin earlier in the family, hashable tag; both refuted otherwise.",
 "C17": "For items with children; on a fresh leaf AttributeError, on an unloaded link root silently nothing (both refuted).",
 "C18": "For |n| <= number of children; beyond that children are lost (refuted).",
 "C19": "Stable sorted permutation of contents, but the children are replaced by copies (identity refuted) and lost when one cannot be copied (refuted).",
 "C20": "No children, no tag resolves; refuted: removed children keep their parent, all flags are erased.",
 "C21": "In order with copies of attached items; refuted: cyclic extend, half-done extend on a bad element.",
 "C22": "Guarded by success; refuted: a failing element loses the old children.",
 "C23": "For items with children; AttributeError on a fresh leaf (refuted).",
 "C24": "tags() and iter_families(), both orders.",
 "C25": "Path resolves to the item for every reachable state without orphans; refuted for children dropped by clear.",
 "C26": "Holds when the fast path gives the pair; refuted on the slow path of tag_idx.",
 "C27": "Complete table of target kinds.",
 "C28": "All items.",
 "C29": "iTree arguments, is_in and single-item keys; refuted: 'tag in tree' is always False and a list target never matches.",
 "C38": "Every state in which LINK_ROOT flags carry a link (ReachL); values are immutable in the model so copy = copy_keep_value = deepcopy; refuted: LINK_ROOT passed as a plain flag makes copy raise.",
 "C39": "Reflexive, symmetric, copies equal.",
 "C40": "Only tag, value, number of children and the values zipped in pre-order are guaranteed; refuted: nested tags and structure are ignored, == is not transitive.",
 "C41": "set_* and constructor as stated; unset_* clear every flag (refuted).",
 "C42": "Whole subtree when no descendant is LINKED, constructor on all levels; refuted: a LINKED descendant makes the call fail half way.",
 "C43": "set_value/set_key_value as stated; del_value/del_key_value only look at READ_ONLY_VALUE (refuted); clear erases read-only values (see C20).",
 "C30": "deep and deep.iter(): pre-order, each descendant once, parents first, siblings in order; for every tree.",
 "C31": "Every combination except options=0 (turned into UP) and reverse downward SELF, which comes last (both refuted).",
 "C32": "Every filter function, both modes.",
 "C33": "idx_paths for every filter and option, with the absolute idx_path; tag_idx_paths except forward + filter + SELF, which yields the calling item twice (refuted).",
 "C34": "All levels >= 0, -1 and all other negative levels, all options; refuted: a deep negative level leaves the subtree.",
 "C35": "All trees.",
 "C36": "Slices with 0 <= start <= stop and step > 0, lists without level 0; refuted: MULTIPLE without SELF never ends, empty and backward slices, slice(None), lists starting with 0.",
 "C37": "Trees of depth one without a None tag; refuted for deeper trees.",
 "C49": "For every numeric bound and value outside the guards, any order of bounds, complements, iterables, variables; refuted: [3,3) contains 3, inf in an integer interval raises OverflowError, variable bounds are not ordered, complement does not negate for iterables.",
 "C50": "Any number of (nested) members; members that raise on v are treated by C50_raising_members and C50_errors.",
 "C51": "Integer bounds in any order; refuted: [3,3) iterates nothing, float bounds, complement of the whole line, len() raises. Also the bound sets of combinations and disjoint unions; refuted for overlapping members and complements.",
 "C52": "Sound when open flags and member counts agree; refuted otherwise.",
 "C53": "Intervals, rosters and combinations of at least two members; refuted: get_init_args(full=True) of intervals, combinations of one member.",
 "C57": "Every roster, value and variable assignment.",
 "C54": "Value model classes with arbitrary cast/contains functions, all shapes, plus the concrete integer and ASCII models, over all call histories. set(NoValue) is proved when the previous call did not fail; refuted otherwise (the stale exception is raised again), and a set object as contains argument is refuted (TypeError).",
 "C58": "Value models fully; iTDataModel.check stores the checked value (refuted), the answer and the rejected case are proved.",
 "C59": "Plain reads/writes/deletes/atomic update proved; refuted: d[k]=v replaces a model instead of validating, del/pop with a model delivers the model, update replaces a model holding a falsy value.",
 "C55": "All 16 filter classes, every argument (fnmatch and range membership arbitrary, may raise); same exceptions.",
 "C60": "13 of 16 filters fully. Partial + refuted: has_item_value_list_item_fnmatch (TypeError for non-iterable values), has_item_value_dict_key (accepts lists/strings), has_item_value_list_idx (tests the element's truth value). C60_list_idx_true, C60_dict_key_text and C60_dict_key_list say exactly what these two filters compute (a true element at the index; a part of the text, an element of the list).",
 "C56": "Unfiltered and filtered/numbered output for every reachable tree, arbitrary repr functions. Refuted: the root is filtered although documented otherwise; enumerate without filter raises UnboundLocalError.",
 "C47": "Every nested value without user objects; the JSON library is assumed to return the stored value.",
 "C48": "Every tree without linked items and with at least one (unfiltered) child, any filter, with/without header and hash: same shape, tags, values, link sources; flags READ_ONLY_TREE/LOAD_LINKS are additionally passed on to the items below (exact when they already are). Refuted: a tree of one item cannot be read back; flags spread to children. The SHA function is arbitrary; C48_file_partial: the same through a file, packed or not.",
 "C61": "For an arbitrary hash function and arbitrary changed data parts (token level).",
 "C44": "For every reachable state (History calls, load_links, make_local) and a link root without children: the first generation and the preorder of tags and values are always those of the target, all copies are new and linked, nothing else changes; the shape is the target's exactly if nested items are last among their siblings. Refuted in general: a sibling after a nested item is copied below it; the linked children of a loaded link root used as target are moved, not copied. Missing: link roots among the children of the target, file links (not modelled).",
 "C45": "Position, family position, tag, value, not linked, preorder of the copied items: for every reachable state; shape exactly if nested items are last. Refuted: shape in general; the copied items below stay marked as linked and the replaced item still names its parent.",
 "C46": "Exact description of the merged children for every mix of local and linked children: all local children stay, every target child is represented by the staying child with its key or by a new copy, in target order, coupled objects are taken over; no linked child stays if each directly follows a local one. Placeholder children (from saved files) are covered: they are replaced by the copies of the target children with their key. Refuted in general: on reload the first (and every second) linked child stays with its old value.",
 "C62": "Proved for all link histories for nonnegative positions, link roots, local non-placeholder items whose tag_idx is a pair. Refuted: negative index (one place too early), deleting the same item twice (linked item in the list twice), placeholders (PermissionError after make_local).",
 "C63": "Proved for every path of plain targets (index, (tag, index), tag, slice, index list, filter). Refuted: NoTag as target raises TypeError, a (tag, slice) target works neither in a path nor with get.single, default= does not cover unhashable targets.",
 "C64": "by_idx exactly (both directions), the tag accessors under the guard that no item was emptied by clear() and for hashable tags. Refuted: tag paths never work, a third filter is ignored, by_tags splits a string into characters, after clear() the removed items are still delivered.",
 "C66": "index for every start/stop pair with stop behind start, given as children or as targets resolving to them, nonempty trees. Refuted: an empty tree returns None instead of raising; a stop at or before start is ignored.",
 "C67": "Exact description of equal() for all flag combinations, symmetry, equality with ==. Refuted: tags below the root are never compared.",
 "C68": "Proved for linked items over all link histories. Refuted: a non-linked item delivers None, not itself.",
 "C65": "Proved for every reachable state and item.",
 "C69": "a+b, a*b, a*n, n*a for every pair of existing trees. Flags of the copies: those of the original plus the deep flags (read-only tree, load links) of the new root. All copies are made before the constructor runs (the code copies lazily). Refuted: a*n of a link root yields an item with the link-root flag and no link whose copy raises AttributeError.",
 "C70": "Every tree without linked items (trees with loaded links: C103) and without link roots that load on construction; read back in any reachable state. Flags: READ_ONLY_TREE/LOAD_LINKS are additionally passed on to the items below (exact if they already are; refuted otherwise).",
 "C71": "Python's hash functions are arbitrary functions. Equal items with equal shape and nested tags have equal hashes; refuted in general: == ignores nested tags, hash() does not.",
 "C72": "Refuted: deep.is_tag_in ignores the children of t itself (partial: exact characterisation); deep.is_in of an item whose parent pointer is stale (after sort/replace) answers True (partial: exact for histories without such operations, and True whenever the item is below).",
 "C73": "Histories without stale parent pointers, item with children, start before stop. Refuted: without children the result is None instead of IndexError; a stop that lies before start is ignored. filters fixed functions; the search runs in the state before the cache refresh of idx_path.",
 "C74": "All items unprotected. Refuted: a protected item below stops the operation half way.",
 "C75": "All items unprotected, histories whose link roots have links (as C19). The specification deep_sorted determines the result (deep_sorted_unique). Refuted: a protected item below stops half way; the sorted items are copies, the former children keep a stale parent pointer.",
 "C76": "Plain targets (C63), no item hit twice, parents unprotected; C76_stops gives the exact effect otherwise. Refuted: an item hit twice raises AttributeError after removal; a protected parent stops half way.",
 "C77": "No accepted item is LINKED. Refuted: unset_* clears all flags, not only the named one (exact effect proved: C77_unset_clears_all); a LINKED item raises half way (C77_linked).",
 "C78": "C78_numerals, C78_numeral_bounds: every literal of the independent notation (LitFacts.numeral: sign, base 10/16/8/2, point, exponent, inf) is read as its value and bounds the interval; half-open single points excluded as in C49. C78_notation: bounds are any texts the item reader accepts as numbers. C78_printed_fixed/_exponent: the printed float is the nearest one with that many digits (ties to even). C78_round_trip: bounds printable. C78_strings: every accepted definition string whose bounds are tame. Refuted: bound 0 is printed as \"0\" and refused; exponent notation loses digits; nan becomes a variable; 1e+16 is refused. Underscores in literals are modelled but not in the specification.",
 "C79": "Partial: <= and >= only, at most one lower limit, satisfiable statements; equality, domains, and a domain with one upper limit below that of the domain. C79_strict_is_closed gives the exact effect of < and >. Refuted: < and > include the limit; unsatisfiable statements denote the swapped interval; lower limits are lost or raise AttributeError next to a domain; 0 is refused; variables are never replaced; n<=0x1F.",
 "C80": "Partial: item texts that the item reader accepts; C80_strings: every accepted text whose items are tame (C78). Refuted: the item 0; texts with only one bracket are accepted and lose a character.",
 "C81": "Order proved without restriction. Equality and hash: for items of the same kind (both closed or both open). Refuted: a closed and an open item are equal when their numbers differ; not transitive, hashes differ.",
 "C82": "Byte level model: bytes are identified by the token or gzip stream they belong to; lengths of tokens and streams are arbitrary. Paths given as str (no open handles). Removal and mkdir by other programs are part of the histories; other programs writing files are not. The tree that comes back: C48_file_partial.",
 "C83": "Every error that is raised before the file is opened (existing path, serializer error, refused open) leaves everything unchanged. Refuted: the file is opened with truncation, an interrupted write loses the old tree.",
 "C84": "Every overridden method; refuted: setdefault and popitem are inherited from dict (exact effect of setdefault proved).",
 "C85": "Values that do not look like a dictionary (a sequence whose elements all have length two; the empty str or list). Refuted: iTData('') and iTData([]) lose the value, a list of two-character strings becomes a dictionary, with keyword arguments a str raises ValueError. Keys other than str are not modelled.",
 "C86": "Dictionaries with distinct keys (C59_unique_keys). Not covered: deepcopy() has no return statement and always delivers None.",
 "C87": "Any history of the modelled heap operations (all of C01-C43's mutators). Only the cached positions of an item may be refreshed by look-ups. C87_given_counts: handing over a FREE item of another tree does attach it (that is the documented behaviour), hence the guard. Flags set on whole trees act on the receiver's tree only. Link loading is not part of these histories (C44-C46, C62).",
 "C88": "C88_operands: full frame for every call. C88_difference_partial: every child of b is equal to the child of a with the same key, and these stand in a in the order of b. Refuted beyond that: another order deletes wrong children (indexes are deleted in reversed order of b, not in descending order), a missing key raises KeyError, a changed child loses its tag (the recursive difference clears the equal tag), two changed children with one tag raise IndexError, a tree-read-only a raises PermissionError. Python's `-` on tags and values is a parameter. has_tag_idx: tag_idx delivers a pair (C05).",
 "C89": "repr is modelled as a token list, eval as a parser for calls, lists, literals and keyword arguments followed by the constructor calls on the heap model. Trusted: Python's lexer and eval(repr(v)) == v of tags and values. Guards: no linked items and no loaded links (not covered; reading would load links), picklable links as in C70. Refuted: items with children deeper than sys.getrecursionlimit()/5 print 'subtree=[ ... ]', which cannot be evaluated, and with flags is a syntax error because the comma is missing (2876); the flags LOAD_LINKS / READ_ONLY_TREE of an item spread to the items below (C89_flags_refuted); exact when they are passed on already (C89_exact_partial).",
 "C90": "The text is modelled as its list of statements (numbers, label parts, colour); the characters of labels, the fixed header and the escaping of braces are not. Guards: tag_idx delivers a pair (C05), link roots have no value. Refuted: a link root with a value raises TypeError (repr called with two arguments, line 95), an item whose tag_idx is a bare number raises TypeError, an item removed by clear() is shown with its old key. Python's recursion limit is not modelled.",
 "C91": "C91_combine and C91_filter hold as stated. C91_iter_partial leaves out pairs (value, variables) handed to an interval or roster with variables, or next to a dictionary for the whole call: the pair's own dictionary is then ignored, or the pair is read as a sequence by the membership test only (C91_*_refuted). C91_pair, C91_lookup: what a pair (value, dictionary) means.",
 "C92": "Proved for two or more intervals and rosters (items as in C78, C80), the first not complemented; open intervals at both ends included. Refuted: a leading ! (trailing quote) of the first (last) member is read as the complement of the whole; nested combinations are printed without parentheses and cannot be read with them; a single open interval with variables named like xeZ is read as a builder text; malformed texts end in RecursionError.",
 "C93": "iTEnumerateModel (867-887). Proved: the model accepts a single object exactly if it equals a key or a name (1 == 1.0), stores the key - the key itself if the object is one, else that of the last entry with this name (C93_stores, C93_accepts); all that is ever stored, at every depth, are keys or NoValue (C93_history); the constructor works for whole-number keys and hashable names and never for other keys (C93_constructor, C93_constructor_keys); with different texts as names, name and key select the entry, the name is shown and identifies it (C93_shows_name, C93_text_identifies). The claim is false in these points: the caller's dictionary gets an additional entry (C93_dict_refuted); equal names and numbers that are key and name (C93_names_refuted); a text as a key raises ValueError and 1.0 is accepted as a key (C93_key_errors_refuted); NoValue inside a list is accepted but makes str() raise, and a later change of the dictionary changes the text but not what is accepted (C93_show_refuted). Not modelled: tuples as names, NaN.",
 "C94": "__str__ and __create_item_str (590-628) for every formatter (a callable or a format string is an arbitrary function that may raise). C94_text_partial: the text is exactly the one described unless a list inside is empty; C94_empty_refuted: the text of an empty list is \"]\". C94_raises is exact.",
 "C95": "iTValueModel.__init__ / get_init_args / __eq__ (164-236, 522-547) and the overriding classes. C95_rebuild_partial: true for every class that keeps the constructor of the base class and whose cast does not change its own results (C95_casts: the any, int, str and ASCII casts), except after set_description('') (C95_description_refuted). C95_history and C95_set: what each history leaves behind (last description and formatter, shape and contains of the constructor, the value of the last accepted set). C95_int_partial: iTInt8Model ... iTUInt64Model with the default formatter. False: integer models with another formatter raise TypeError (C95_int_refuted), because the default interval is passed and asked for its length; pattern models with a pattern raise NameError already when created, iTFilter is defined nowhere (C95_pattern_refuted; without pattern: C95_pattern_partial); enumeration models deliver five arguments for two parameters (C95_enum_refuted); set_formatter(None) sets the text 'None' as the format (C95_formatter_refuted). contains and formatter objects are told apart by identity; the stored last exception (C54_stale_refuted) is left out here.",
 "C96": "is_empty_set / is_empty_set_complement of the three set classes (924-945, 1649-1671, 1983-2005) against membership over the finite numbers. C96_single_partial: exact for every interval and roster that is no complement (integer sets with integer bounds); C96_single_complement: exact for their complements; C96_union_partial: exact for every union nested to any depth of such sets; C96_combination_partial / C96_combination_complement_partial: for every combination an answer True is right. Where the claim fails: C96_intersection_refuted (disjoint sets are not called empty: the cardinality of an intersection is only the minimum), C96_complement_refuted (the complement of an empty combination - everything - is called empty), C96_all_refuted (the complement of all numbers has no member and is not called empty), C96_float_bounds_refuted (integer sets with float bounds, both directions). C96_not_complement: without the complement flag is_empty_complement is False.",
 "C97": "Values as objects with identity (atoms, tuples, lists, dicts, value models, iTData, objects of user classes) in a store; copy.copy and copy.deepcopy (memo, cycles) are modelled as trusted description of Python's copy module; trees without link roots. C97_keep_value; C97_copy_partial (never raises, changes nothing; a value without callable __hash__ - list, dict, value model - gets a new object per item with the same contents, all others are shared); C97_deepcopy_partial and C97_deepcopy_independent (isomorphic values, nothing changeable shared, no history of changes through one tree is visible through the other); C97_deepcopy_returns. Where the claim fails: C97_copy_data_refuted (copy() shares the iTData object, which defines __hash__, although the documentation says it is copied), C97_deepcopy_data_refuted (deepcopy() of a tree with an iTData object inside any value always raises: its __deepcopy__ takes no memo), C97_copy_inner_refuted (copy() shares inner lists, as documented).",
 "C98": "C98_saved_partial: exact contents of the saved text (every local item in full, replaced linked items as placeholders with tag and family index, nothing else) for every reachable tree with any mix of link roots inside; C98_local_children_kept, C98_no_two_neighbours, C98_separated, C98_all_linked describe which linked children are replaced. C98_reload_partial: save, change the target arbitrarily, read, load_links gives the local items and copies of the target as it is now. Restrictions: no filter, load_links=False when reading followed by load_links(force=True), the path to the link root has no linked items, each linked child directly follows a local one, no placeholder children before saving. Refuted without them: C98_contents_refuted (the first and every second one of adjacent linked children is written in full), C98_stale_refuted (and stays stale after reading), C98_link_root_itself_refuted (saving the link root itself writes linked children in full).",
 "C99": "C99_calls_partial: for every reachable state the call equals the calls on the single link roots in document order (links loaded and unchanged are skipped), result = one of them loaded, everything outside the link roots and their children unchanged, what one call loaded stays. C99_all_partial: with targets that contain no link roots and lie outside the link roots of the tree every link is loaded as C46 describes a single load. C99_first_partial: link roots without children get the target's children. Missing: link roots inside targets or link roots; circular links (which do not terminate). Refuted: a missing target leaves the earlier links loaded (C99_half_refuted), link roots inside a target are loaded in the target tree (C99_target_links_refuted).",
 "C100": "C100_safe_partial: for every reachable state without covering items and every loaded link root only local children are removed, nothing else changes, the call succeeds or raises PermissionError. C100_alternating_partial: if the children are local, linked, local, linked, ... exactly the local ones are removed. C100_first_linked_partial: if the first child is linked the call always fails and changes nothing. Refuted in general: a loaded link root with a local child raises (C100_raises_refuted), of two neighbouring local children the second stays (C100_neighbours_refuted). Missing: local items covering linked ones.",
 "C101": "C101_tree_partial/C101_value_partial: every text of the old format (separate specification `item`/`value`) is decoded into the tree/value it stands for, read-only handed down; C101_file_partial: whole files, packed or not; C101_wrong_version, C101_corrupted, C101_accepted: refusals, and nothing is accepted without the right version and hash. Refuted: missing data becomes None, values stored under __iTree_NOKEY__ stay dictionaries, placeholder numbers and read-only states of linked items are lost, untyped dictionaries raise, members of plain lists are not decoded, an item without a list of children raises, data containing the marker raises. Not modelled: numpy arrays, link paths that are no strings.",
 "C102": "repr as a token list, eval as a parser for nested calls followed by the constructors. C102_eval_partial: the same object comes back; C102_members_partial: with the same members. Trusted: Python's lexer, eval(repr(x)) == x of numbers and strings. Guards, each with a refuted witness: formatters that are functions (numbers written in hex, octal, binary) are a syntax error, the complement of the empty roster prints 'mSetRoster(, True)', nan is an unknown name, integers too large for float() cannot be read, a combination of one set prints the member None. Not covered: intervals defined in builder notation.",
 "C103": "C103_pickle_partial: exact contents of the unpickled tree for every reachable tree with any loaded links (the children of link roots that are replaced by placeholders, spec Saved/replaced of C98; everything else with its contents); C103_reload_partial: unpickling and loading the link gives the local children of t and copies of the current children of the target, for link roots whose linked children each follow a local child, including the pickled item itself. Refuted: linked children that are first or follow a placeholder are pickled with their contents and stay as linked items (C103_contents_refuted); the unpickled item is not equal to the pickled one before links are loaded (C103_equal_refuted). Pickle itself is the tree of reduced arguments.",
 "C104": "Text as list of tokens (white space and the text of literals not modelled); the spec is the tree of what is shown (shown/ends) and its constructor call. C104_str: every reachable tree, with loaded links, any width and depth (items whose link covers another item excluded: their text contains the repr of the covered item). C104_tells_what_is_shown: both directions, across states. C104_bounded: at most 2^(limit/5+2-level) items. C104_narrow_is_repr: includes covering links.",
 "C105": "Text-level model of __str__ and of eval of name('literal') / name({...}). C105_interval_partial, C105_strings_partial (every accepted definition string without exponents and zero bounds), C105_combination_partial (unions/intersections of at least two intervals and rosters, first member no complement): the text evaluates to a set with the same members. Violated in full: the text of a roster is never accepted (C105_roster_refuted, every roster: the braces are a Python set); a complement in front of the first member of a combination silently becomes the complement of everything (C105_first_refuted); a bound 0 (C105_zero_refuted); nested combinations (C105_nested_refuted). Intervals in builder notation are not modelled.",
 "C106": "C106_made_local, C106_loaded, C106_no_link_calls, C106_copies and C106_replace_refused hold for all histories (C106_loaded: one load of any link root, any target; C106_replace_refused leaves open which exception is raised); C106_in_tree_partial for every cover that is a child of an item. Violated: a deleted cover stays a cover, although the linked item is back in the tree (C106_deleted_refuted, for every deletion); a cover stays one when the target loses the child (C106_gone_refuted).",
 "C107": "Token-level model of mSetItem.__str__; eval as in C102. C107_eval_partial: variables with any format string and finite numbers without format come back unchanged; C107_fixed / C107_exponent: a formatted float comes back as the nearest number with the digits of the format, flag and format unchanged; C107_short: exactly, if the format shows all its digits. Violated otherwise, each with a witness: further digits are lost (C107_rounded_refuted), numbers given in hex, octal, binary print a function and are a syntax error (C107_hex_refuted), inf and nan are unknown names although repr() quotes them (C107_inf_refuted), integers too large for float() are refused (C107_big_refuted). Trusted: Python's lexer; eval(str(x)) == x of ints and floats."
}
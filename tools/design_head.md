# A Rocq model of itertree

Subject: `/repo/src/itertree` (pure Python).  Nothing is executed; the model is a
reading of the source.  Line numbers in model comments are those of the original
files.  (This file is `tools/design_head.md` plus a table generated from the manifest by
`tools/gen_design.py`.)

## 1. Configuration modelled

* `blist` not importable: `itree_list = list`, `BLIST_SWITCH = -1`
  (itree_helpers.py:50-64), so the `fm_idx == BLIST_SWITCH` branches never run.
* `numpy` and `orjson` not importable.
* Single thread; no recursion limit, unbounded memory; integers unbounded.
* Python exceptions are values (`Err exn`); an operation returns the heap even when
  it raises, so "partial update, then exception" is visible in the model.
* Python values are the inductive `pyval` (Base.v).  Equality of tags is Leibniz
  equality: mixing `1`, `True`, `1.0` as tags of one tree is out of scope.  Values have
  value semantics (no aliasing of mutable values), so `copy`, `copy_keep_value` and
  `deepcopy` of a value coincide.
* Changing a tree while one of its generators is suspended is not modelled.

## 2. Layers and files

1. **Heap layer** (`Base`, `Heap`): items are locations in a store.  A node carries
   tag, value, flags, the `_itree_prt_idx` record (parent, cached absolute index,
   cached family index), the child list, the `_families` dictionary (absent on a leaf
   that never had children), the dictionary still bound in `_get_fam/_getitem_fam/
   _setitem_fam`, link and coupled object.  Every mutator of `iTree` is a function in a
   state-and-exception monad, branch by branch.
   Specification vocabulary: `HeapSpec` (children = plain list, parent, tag, value,
   flags; no families, caches, dictionaries).  Invariant `WF` (`HeapInv`), preserved by
   every operation for every outcome (`HeapOps* … HeapSet2`, `HeapHist`), hence over
   every history (`History`: `Reach`; `ReachL` adds "LINK_ROOT flags come with a link").
   The guard of each call in a history is `History.allowed`; every guard has a
   `_refuted` witness showing why it is needed.
2. **Deep layer** (`Tree`, `Deep`, `DeepSpec`, `DeepProofs`, `DeepPaths`, `DeepInst`,
   `DeepSib*`, `DeepLevels`, `DeepFacts`, `DeepOps`): the explicit iterator stacks of
   `deep` are fuelled step machines; theorems: enough fuel exists, more fuel gives the
   same answer, and the answer is the recursive specification on finite trees.
3. **Readers and builders**: `GetModel` (the `get` accessor), `NavModel` (ancestors,
   count, index, equal, link_root), `ArithModel` (+, *), `PickleModel` (pickle, hash),
   `RenderModel`.
4. **Serializer**: `JsonModel` (value codec), `SerModel` (rows, dumps, loads), proofs in
   `JsonFacts`, `SerNew`, `SerLoad`, `SerBuild`, `SerDump`; `FileModel` (dump/load of files,
   interrupted writes, gzip).
5. **Links**: `LinkModel` (convert to linked/local, load_links, make_local, deletion of
   covers), `LinkTree` (load_links on a whole tree), `LinkClear` (clear with links inside), `LinkCover`
   (is_link_cover), proofs `LinkFacts … LinkDel`; link histories `LReach` (LinkSpec).
6. **Value layer**: `MathSet`/`MathSpec`/`MathFacts`/`MathCard`/`MathComb` (sets),
   `MathStr`/`MathStrFacts`/`MathBuild`/`BuildSpec`/`BuildFacts`/`RosterStr`/`ItemModel` (definition strings and printed forms),
   `MathIter` (iter_in, filter), `MathEmpty` (emptiness tests), `SetRepr` (repr of sets as tokens, eval), `SetStr` (str of sets as text, eval), `ItemStr` (str of single items), `StrModel` (str as tokens), `ConvModel` (files of version 1.1.1: bytes are 8-bit characters; gzip, JSON parser and SHA-1 are arbitrary functions), `CombStr`/`CombFacts` (definition strings of combinations),
   `DataModel`/`DataFacts`/`DataMore` (value models, iTData, iTDataReadOnly), `EnumModel`
   (enumerations, printed form of value models), `InitArgs` (constructor arguments of value
   models), `FilterModel` (filters), `ObjModel` (value objects with identity: copy, deepcopy).

Theorems `Cnn_…` are in `PropsA.v … `; a `Cnn_…_case` (or `_ex`) beside them shows a
concrete state that meets the hypotheses.  A property that the code violates is kept in full in
`properties.jsonl`; its theorems are a `_refuted` witness (a concrete reachable history,
computed in the model by the kernel) and `_partial` theorems with the guard under which
it holds.

## 3. Simplifications

* Heap: link root with LOAD_LINKS that reloads on copy is not modelled.  The
  constructor's `tag.__hash__` check is "deeply hashable".
* Filters passed to iterators are pure total functions.
* Frames are stated on `view` (everything observable except position caches).
* Sets: numbers are extended rationals plus NaN; the `(value, dict)` tuple form
  only as element of `iter_in`/`filter` (`MathIter`).  Definition strings: 8-bit characters; a float is the exact rational of its
  literal (no rounding to 53 bits, no overflow, no -0.0); `str(float)` is an arbitrary
  function; formatters given by the user are not modelled.
* Value models: cast/contains/validator/formatter are arbitrary functions (the casts of the
  float, UTF-8, UTF-16 and time models are only instances of such a function).
* Renderer: `repr`, `bin` and the link text are arbitrary functions; dot renderer
  (`DotModel`): statements and label parts, not the characters.  `repr` (`ReprModel`): a
  token list, literals are single tokens.
* Serializer: text is a token list; the JSON library is assumed to return what it
  stored; SHA is an arbitrary function; in files a byte is represented by the
  token or gzip stream it belongs to, open file handles are not modelled; leaf items are
  created before their parent; family caches are not written while reading; links with
  LOAD_LINKS, and `load_links=True` on trees with link roots, are outside the model
  (result `Unsupported`).
* Links: only links into trees in memory; the target lookup and the reload decision are
  arbitrary functions; `delete_invalid_items=False`; PLACEHOLDER children in the
  target and placeholders whose value is no integer are outside; the traversal of `load_links` on
  items that are no link roots carries fuel (the theorems hold for every sufficient fuel).  Link histories mix all
  ordinary calls with link calls as long as no local item covers a linked one; while
  covers exist only link calls follow.
* `get`: slices with step 1; marker classes are callables raising TypeError.
* Sums/products: all copies are made before the constructor runs.
* Pickle: the text is the tree of reduced arguments; hash functions arbitrary.

Not modelled: the `TimeModel` example, examples, `deep` calls whose code
cannot run (ITER.INNER), numpy/blist/orjson variants.

## 4. Trusted base

* Coq 8.16.1 kernel including the virtual machine (`vm_compute`).
* `Print Assumptions` says "Closed under the global context" for every theorem of the
  manifest: no axiom is used.  The seven "library axioms" that a scan of the loaded
  libraries lists (`Coq.ssr.ssrunder.Under_rel.*`) are parameters of a module type of the
  standard library that is loaded but not used by any theorem.
* No axioms, functors, module types, `Admitted`, or kernel switches of our own.
* The reading of the source into Gallina and Python's semantics of `list`, `dict`,
  `int`, `str` as far as used.
* Confidence in the reading comes from mutation testing (`seeded/LOG.jsonl`): each model
  definition was edited the way a bug would, and the theorem of the claim had to fail.

## 5. Per property


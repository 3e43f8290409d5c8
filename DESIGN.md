# Design

Target: the `visdom` crate in `/repo` (jQuery-like DOM library on top of the external crate `rphtml`).
The code is read as text only. Everything below is about the Coq model in `rocq/theories`.

## Trusted base

* The Coq 8.16.1 kernel.
* `Print Assumptions` is run under every property theorem (files `Props*.v`).  Target: every theorem
  "Closed under the global context", i.e. no axiom at all, not even from the standard library.
* The reading of the code: every definition of a `*` model file cites the file and lines it models, and states
  its simplifications.

## How things are represented

* `char` is a code point (`N`), strings are `list char`.  `usize` is `nat`; a `usize` subtraction that would
  underflow, an out-of-range index, `unwrap` on `None`, `unreachable!` are the explicit value `Panic` of the
  result type `res` (debug build semantics; in release the subtraction wraps and the following index panics in
  the cases we refute).  `isize` is `Z`; casts `as usize` are modelled with the explicit `mod 2^64`.
* A document is a heap: a list of node records, a node id is a position in it.  `Rc::ptr_eq` is equality of ids.
  `parent` is a stored id that may be stale, exactly as the weak pointer of the code may be; a weak pointer is
  taken to be always upgradable (the document is kept alive by the caller), except in C66: `Lifetime` computes the heap
  that is left when values are dropped, and the models then run on that heap.
* `Elements` is a list of ids.
* Recursion over the tree (unbounded in the code) is recursion on fuel `length heap`; running out of fuel is the
  explicit value `OutOfFuel`, and the theorems show it does not occur on well-formed heaps.
* The parts of `rphtml` used by the code (parser, renderer, entity encoder/decoder, `allow_insert`,
  `is_content_tag`, id lookup) are not part of `/repo`.  They appear as explicit function arguments
  (oracles), never as axioms.

## Modelled and not modelled

Modelled (file of the model / source):

| model | source |
|-------|--------|
| `Base`, `Utils` | characters, `src/mesdoc/utils.rs` |
| `Nth` | `selector/pattern.rs` (`get_allowed_indexs`, `divide_isize`) |
| `Attr`, `ClassOps` | attribute vector and lower-case map of `src/lib.rs`, class functions of `elements.rs` |
| `Dom`, `Order`, `Sets` | heap, navigation, index paths, sorting, uniqueness, set operations of `elements.rs` |
| `Mutate` | insertion, removal, `set_text`, `replace_with`, `empty` (`src/lib.rs`, `elements.rs`) |
| `Engine`, `Rules` | the selector engine of `elements.rs` and all rules of `rules/*.rs`, on parsed selectors |
| `Regex`, `Parse` | a backtracking matcher for the regular expressions used, the patterns and the selector parser |
| `Locks` | the mutexes `SPLITTER`, `RULES`, `ALL_RULE` and their poisoning |
| `Template`, `TemplateRules` | `Rule::get_queues` of `selector/rule.rs`, `to_pattern`, the template texts of `rules/*.rs` |
| `RegexText` | the syntax of the regular expressions in those texts (part of the external `regex` crate) |
| `Traverse`, `Query` | traversals on parsed filters; all queries on selector texts with the error handler |
| `TextNodes`, `Form` | `texts*`, `Texts` operations, `value`/`val` |
| `Html` | `set_html` on an element, a text node, a set; the parser is an argument giving trees |
| `Document` | the accessors of `document.rs`, `document()` of a set |
| `Load` | `Vis::load*`, documents, error handlers, programs over several documents |
| `Values` | `IAttrValue`, `IFormValue`, `for_each`, `map`, `html(s)`, `outer_html(s)` of a set |
| `Clone` | `Elements::clone`, `copied`; rphtml's `clone_node` by its purpose |
| `Reports` | the engine of `Engine`/`Rules` once more, returning also the error handler calls of texts nested in `:not`/`:has` |
| `Borrow` | the modifying calls of one node once more, with every run-time borrow check and the scope of its guard |
| `Callback` | `children_by`, `child_nodes_item_since_by` and `for_each` with callbacks that modify the tree |
| `BorrowSets` | the attribute and class calls on sets with the same checks; programs of both kinds of calls |
| `Lifetime` | what is left of the documents when the caller drops values: ownership through `childs`, weak `parent`, `root`, `document` |
| `Live` | attribute and class calls on nodes and sets; programs mixing all modifying calls |

Specifications are in `*Spec.v` files and do not mention the model functions they specify (`SelSpec`: meaning of
selectors; `ParseSpec`: grammar of selector texts; `TravSpec`, `FindSpec`, `StepSpec`, `TotalSpec`, `TextSpec`, `DomSpec`, `OrderSpec`,
`MutateSpec`, `AttrSpec`, `ClassSpec`, `NthSpec`, `UtilsSpec`, `CharSpec`, `HtmlSpec`, `LiveSpec`, `SetSpec`, `DocumentSpec`, `TemplateSpec`, `LoadSpec`, `ValuesSpec`, `CloneSpec`, `BorrowSpec`, `CallbackSpec`, `StaleSpec`, `LifetimeSpec`).  Proofs are in `*Proofs.v` and similar, the property theorems in
`Props*.v`, each with `Print Assumptions` and an `Example` that a concrete case meets its hypotheses.

Not modelled: `src/main.rs`, error message texts, the parse options handed to `rphtml`, the time at which
an `Rc` is freed (only what is left after a drop, `Lifetime`), the borrow checks of queries (they only read; those of the modifying calls are in `Borrow`).  `outer_html`, `html` and
`text` of one element are rphtml's.

## Per property

"Refuted" means: a theorem `..._refuted` exhibits a document / text / call on which the model (and, by reading, the code)
violates the claim.  Then the `..._partial` theorem states the exact condition under which the claim holds.

| id | how | what is missing and why |
|----|-----|--------------------------|
| C01 | `allowed_correct`: exact positions of `get_allowed_indexs` by integer arithmetic | three rounding regimes where the code returns a wrong index: refuted, the guard is tight |
| C02 | regex of `Nth` read as a language, `get_number` as a value; both directions | numerals beyond `isize`: the code panics, refuted |
| C03 | index paths = tree paths, lexicographic order = preorder | full, for nodes of one well-formed tree |
| C04 | binary-search merge `add`, decided for all pairs of ordered sets: what the loop collects, where the block after a shared last element goes | loses (`Drops`) or misplaces (`Misplaces`) elements in exactly described cases: refuted there |
| C05 | every rule implements its predicate; forward walk by induction over compounds | `FindOk`; steps from unordered or nested sets and `:last-child` on childless elements: refuted |
| C06 | order/uniqueness along the same induction | `div > p` out of order, duplicates: refuted |
| C07 | reverse look-up = forward reachability | refuted where one of the two is unsound |
| C08 | permuting parts of a compound | refuted for rules that panic |
| C09, C10 | `filter/not/is/is_all`, `_by`, `_in` | overlapping groups lose elements: refuted; `UnionOk` is exact for two groups |
| C11 | `has`, `has_in`, tree induction; C09-C11 `_rooted`: texts that start with a combinator | rules refuted under C29-C32 |
| C12 | eight traversal steps from an element; a filter text is walked with the step in place of its first combinator (`StepSpec.v`), exact for texts with combinators and several groups | read as a restriction of the step, filters with combinators etc. are refuted; `siblings` with a look-up text returns nothing or panics |
| C13, C14 | walks by induction on the chain; closest on sets; `_tested`: exact for every text, in terms of the compounds from the heaviest on | read as CSS: a later compound that outweighs the first one of the text: refuted |
| C15 | `eq/first/last/slice` | `last()` on empty sets, some ranges panic: refuted |
| C16, C17 | class list functions, text/word round trip; exact condition for `remove_class`/`toggle_class` on lists without repetition, exact condition for their panics on every list (PropsClass.v) | `remove_class` with several names: refuted |
| C18-C20 | attribute store, invariant over all histories; what is read after histories with any arguments (PropsAttrAny.v) | both quote kinds in a value, upper-case removal: refuted, with the exact conditions |
| C21-C25 | heap mutations: invariant over all histories, exact child lists | removed nodes keep parent and index: refuted, and the exact outcome for every node is given (`StaleSpec`, `PropsStale`: the node at the remembered place goes, panic iff there is none) |
| C26-C28 | texts below an element, set_text, form values; the set calls on every set of a document | text of one element is rphtml's; nested/deep options refuted (the panic of deep ones is characterised: exactly more than 255 levels) |
| C29-C32 | each rule, one-handle and set-handle | empty attribute values, duplicate ids, `:checked` with optgroup, `:not` of overlapping groups: refuted |
| C33 | union over groups | as C04: refuted; `UnionOk` is exact for two groups |
| C34 | parser total (fuel suffices); panics located | cut-off texts panic: refuted, for every cut part of the grammar behind every front, and inside nested texts at any depth (`C34_cut_panics`, `C34_big_panics`, `C34_nested_panics`); texts with `:not(`/`:has(` when their parentheses are closed (`Closes`) |
| C35 | `Reads` (grammar) implies the parser's result; unambiguous; lifted to every query | nested pseudo class not last in another: refuted |
| C36-C38 | list functions | C37: nodes of different documents share index paths: refuted |
| C39 | error handler calls of every query and of `set_text` on any set; refused mutations and insertions | empty sets panic, disallowed nodes: refuted |
| C40 | `clone` on sets of elements and document nodes: equal copies of new nodes (`Clones`); no later program of calls on one side shows on the other | rphtml's `clone_node` modelled by its purpose |
| C41 | insertion of several nodes | `append`/`before` reverse the order: refuted |
| C42-C44 | `Texts` filter/remove/append_text | content-tag elements: refuted |
| C45 | new heap nodes copy the parsed trees; exact child lists, frame, invariant over histories | rejected markup, texts directly below the root, empty markup on a text: refuted |
| C46 | `OneDoc` (all elements belong to one document) is kept by all calls and gives every hypothesis of the query theorems | after `set_html` or moving between documents elements do not know their document: refuted |
| C47 | attribute programs as maps of maps; class calls element by element; on a node without tag data (the document node) the class calls panic and the attribute calls do nothing | conditions of C16, C18, C19 |
| C48 | case analysis on truncated quotient and remainder; the specification determines the result | quotients strictly between -1 and 1 become 0: refuted |
| C49 | the accessors are `find` with a name: instance of C05/C06 on texts | full |
| C50 | one member per parent (`unique_*sibling*`) loses nothing for these steps; order by `SibInc` (siblings in their order) | order of nested sets, `next_all` of unordered sets, ids as filters, `siblings` with combinators: refuted; filters with several groups |
| C51 | walk of C13 for the outermost members | stops between two siblings of the set, order of `prev_until`: refuted |
| C52 | accepted templates = renderings of item lists, with the queue of the items; both directions, by an invariant on the scanner's state | the registry is private to the crate, so the six patterns of the library are all there are; short or hash-leading regular expressions panic: refuted |
| C53 | the template texts give, through `get_queues` and the reader of regular expressions, patterns that match as those of `Parse` | - |
| C54 | sessions (heap, handler per document, log of handler calls); a loaded document is a copy of the parsed trees and satisfies `DocOk`; programs of loads and queries keep the documents apart; reports of nested texts: C60 | lifetimes, messages of errors |
| C55 | values as functions, `for_each`/`map` over handles with arbitrary state, specified by the sequence of states (`Visited`) | unusual white space in class lists and iteration over single form values: refuted |
| C56 | the frame relation `MovedAllInto` composes along the targets; only the last place remains; the mirrored calls are the same | full, for nodes that are in a tree or without parent |
| C57 | totality of every rule and of the selection loop, by induction on nested selectors, without the conditions of exactness (`TotalSpec`: `Runnable`, `loose`, `calm_filter`); panics only from searching an unordered set and from childless nodes | partial: texts without those; refuted for them by witnesses |
| C58 | state of the parser's mutexes after any sequence of calls (`Remembers`) | a text the parser panics on poisons them, all later texts panic: refuted; decided for every history |
| C59 | `contains` through each combinator, sets of any documents | combinators that lead back and `Siblings` panic: refuted |
| C60 | the engine once more with the reports of each application of a rule (`Reports`); its values are those of the engine (`ReportsProofs`); an invariant over a set of nodes closed under children and parents (`ReportsStay`); exact numbers for a lone `:not`/`:has` (`ReportsCount`) | one report per query: refuted |
| C61 | two calls of the model compared, through their specifications (C05, C09-C14) or, for is/filter, by induction over the loop (`PropsLaws`) | step then filter, find in two goes, has by find for all texts: refuted |
| C62 | calls with a list of guards alive (`Borrow`); equal to the calls without, by lemmas giving each loop's outcome for any guards (`BorrowProofs`); trees with stale parent pointers included; attribute and class calls on sets (`BorrowSets`, `BorrowSetsProofs`) for any list of nodes and any heap | in full for calls on one node and for attribute and class calls on sets |
| C63 | the parser once more with the fields of the error (`ParseErr`), shown equal to `Parse` up to the error; a description of each error in terms of the text, by induction with what is known of the text read so far (`ParseErrProofs`, `PropsErr`) | index and context as claimed: refuted for rules matched in part and for nested texts; the wording of the messages is left out |
| C64 | fronts of selectors and pieces that start no part as grammars of their own (`TailSpec`); the parser run over the front by the lemmas of `ParseProofs`, which hold for any outcome of the rest; regular expressions do not depend on text they do not reach (`ParseTail`, `PropsTail`); foreign characters inside `:not(..)`/`:has(..)` at any depth, and anything behind a nested pseudo class there (`DeepSpec`, `ParseDeep`, `PropsDeep`) | parts that are read in part inside nested texts |
| C65 | a looser grammar (`LooseSpec`); each rule that matches as a whole has read a text of its kind: the language of its regular expressions cuts the text, then the lemmas for grammar texts show that no other match is possible (`TokenSound`); the loop by induction over its fuel, with what may follow a part and what may follow a combinator (`ParseOnly`, `PropsOnly`) | names and `*` behind other parts are accepted: refuted for the grammar of `ParseSpec`; backslashes in front of quotes, closing parentheses and white space |
| C66 | the heap that is left (`Lifetime`): nodes below something held, parents that are left, documents that are held; a node is alive iff it is below something held (fuel excluded); reading, walking and collecting compared on both heaps, queries by matchers that answer alike for what is alive, and forward searches step by step (paths differ by one common prefix), look-ups by sets that agree below the start (`LifetimeProofs`, `LifetimeQuery`, `LifetimeForward`, `LifetimeBack`, `PropsLifetime`, `PropsLifetimeMore`) | queries about places and ids, several groups on elements of different parents, error reports: refuted; inserting beside an element whose parent is gone: refuted; same answers for groups of one compound of rules about the element itself; strictly below a node left also for places, `:checked`, nested rules and groups walked forwards; with look-ups if the compounds looked back at have only rules about the element itself |
| C67 | walks that call back under the guard of the node walked over (`Callback`); programs for which guards of nodes being read make no difference are closed under sequence and loops, and attribute and class calls are such programs; the outcome of a removal under any guards of nodes being read; every call either clashes or is unaffected by such guards and keeps the guarded nodes, by a frame condition closed under all constructs of `Borrow` (`CallbackProofs`, `CallbackAny`, `PropsCallback`, `PropsCallbackMore`, `PropsCallbackInsert`, `PropsCallbackRest`, `PropsCallbackFragment`) | in full as stated; exactly when insertions of and replacements by misplaced nodes, and set_html of texts not in their place from a walk over children clash (they do when a walked node would change) |
| C68 | `texts_by_rec` with handles that are programs with borrow checks (`TextCallback`); by induction over the walk, with an invariant of the heap that the handles keep; the frame condition of C67 for any calls; a witness whose walk uses up any fuel (`PropsTextCallback`) | the walk ends: refuted |

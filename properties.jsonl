{"id": "C01", "title": "nth index arithmetic", "statement": "For :nth-child(an+b) and its siblings, the positions selected among T sibling elements are exactly those i in 1..T for which some integer k >= 0 gives i = a*k+b; nothing outside 1..T is ever selected, no position is produced twice and the computation never panics.", "quantifier": "for every step a, every offset b and every number T of siblings (all integers within isize)", "why_tests_cant": "a and b and T are unbounded integers; the rounding of the division has several sign/remainder regimes, and tests only visit a handful of triples", "anchors": ["src/mesdoc/selector/pattern.rs: Nth::get_allowed_indexs", "src/mesdoc/utils.rs: divide_isize"]}
{"id": "C02", "title": "nth formula parsing", "statement": "The text inside :nth-child(...) is read with its usual meaning: even = 2n, odd = 2n+1, a bare integer b = 0n+b, [+-]An[+-B] = A n + B with the signs applied and A defaulting to 1; and the selected positions follow from exactly that (A,B).", "quantifier": "for every digit string, sign combination and whitespace layout accepted by the formula grammar", "why_tests_cant": "the accepted strings are infinite; the regular expression admits numerals of any length", "anchors": ["src/mesdoc/selector/pattern.rs: Nth::matched", "src/mesdoc/selector/pattern.rs: Nth::get_number", "src/mesdoc/selector/pattern.rs: Nth::get_allowed_indexs"]}
{"id": "C03", "title": "document order is a strict total order", "statement": "The comparison used to order elements (by the list of child positions from the root) is exactly document (pre-)order: an ancestor comes before its descendants, an earlier sibling's subtree before a later one's; two elements of one tree compare equal only when they are the same element; comparison is transitive and antisymmetric.", "quantifier": "for every tree and every pair/triple of elements in it", "why_tests_cant": "needs all trees and all pairs of nodes; a unit test checks single pairs", "anchors": ["src/mesdoc/interface/elements.rs: get_tree_indexs, compare_indexs, relation_of, sort, sort_and_unique"]}
{"id": "C04", "title": "add is a union in document order", "statement": "a.add(b) contains exactly the elements that are in a or in b, each once, and in document order, whenever a and b are each in document order without repetition.", "quantifier": "for every tree and every two ordered element sets of it, however they interleave", "why_tests_cant": "the merge has a case split on the relative position of both ends of both lists; the failing interleavings are rare and must be found over all pairs of lists", "anchors": ["src/mesdoc/interface/elements.rs: Elements::add"]}
{"id": "C05", "title": "find returns exactly the matching descendants", "statement": "elements.find(sel) returns an element x exactly when x can be reached from one of the starting elements along the selector's combinators (descendant, child, adjacent, general sibling) with every compound matching, as CSS defines it; nothing else is returned.", "quantifier": "for every well-formed document, every starting set and every selector built from compounds and combinators", "why_tests_cant": "selectors and trees are both unbounded; the engine has several shortcuts (head combinator, lookup, caching, reordering) whose combinations tests sample sparsely", "anchors": ["src/mesdoc/interface/elements.rs: Elements::find, select_by_rule, select_with_comb, select", "src/mesdoc/selector/mod.rs: Selector::from_str, optimize"]}
{"id": "C06", "title": "find result has no duplicates and is in document order", "statement": "The result of find is duplicate free and in document order, whatever the selector.", "quantifier": "for every document, every starting set in document order and every selector", "why_tests_cant": "duplicates need overlapping subtrees under particular combinator sequences; the space of (tree, selector) pairs is infinite", "anchors": ["src/mesdoc/interface/elements.rs: select_by_rule, unique_parents, unique_sibling, sort_and_unique"]}
{"id": "C07", "title": "lookup optimisation is invisible", "statement": "Evaluating a selector right-to-left (first collecting candidates of the last compound, then checking their surroundings), which the library does when the last compound is more selective, gives the same set of elements as evaluating it left to right.", "quantifier": "for every selector chain eligible for the optimisation, every tree and every starting set", "why_tests_cant": "equivalence of two evaluation strategies over all inputs", "anchors": ["src/mesdoc/selector/mod.rs: Selector::optimize", "src/mesdoc/interface/elements.rs: Elements::has_ele, select_by_rule"]}
{"id": "C08", "title": "compound reordering is invisible", "statement": "Inside one compound (e.g. div.a#b:first-child) the order in which the parts are evaluated, which the library changes according to internal priorities and an id cache, never changes which elements match.", "quantifier": "for every compound, every permutation of its parts and every tree", "why_tests_cant": "equality of all permutations on all trees cannot be enumerated", "anchors": ["src/mesdoc/interface/elements.rs: select_by_rule", "src/mesdoc/selector/mod.rs: optimize, add_chain", "src/mesdoc/selector/rule.rs: Matcher"]}
{"id": "C09", "title": "filter and not partition", "statement": "s.filter(sel) and s.not(sel) (also filter_by/not_by and filter_in/not_in) split s: every element of s is in exactly one of them, both keep the relative order of s, and filter keeps exactly the elements that match.", "quantifier": "for every ordered element set s of every tree and every selector / predicate / other set", "why_tests_cant": "universal over sets, selectors and predicates", "anchors": ["src/mesdoc/interface/elements.rs: filter, filter_by, filter_in, not, not_by, not_in, filter_type_handle, filter_in_handle"]}
{"id": "C10", "title": "is / is_all / is_in agree with filter", "statement": "s.is(sel) holds exactly when filter(sel) is non-empty and s.is_all(sel) exactly when s is non-empty and filter(sel) keeps everything; likewise for the _by and _in variants.", "quantifier": "for every element set, selector, predicate and other set", "why_tests_cant": "early-exit versions must agree with the full versions on all inputs", "anchors": ["src/mesdoc/interface/elements.rs: is, is_by, is_in, is_all, is_all_by, is_all_in, filter_type_handle, filter_in_handle"]}
{"id": "C11", "title": "has and has_in", "statement": "s.has(sel) keeps exactly those elements of s having at least one descendant element that matches sel; s.has_in(t) keeps exactly those with a descendant in t; order is preserved.", "quantifier": "for every tree, element set and selector", "why_tests_cant": "existential over all descendants of all elements of all trees", "anchors": ["src/mesdoc/interface/elements.rs: has, has_in, has_ele"]}
{"id": "C12", "title": "single-step traversal", "statement": "children, parent, next, prev, next_all, prev_all, siblings of a single element return exactly the element nodes standing in that relation to it in the tree (text, comment nodes skipped), restricted to the filter selector.", "quantifier": "for every well-formed tree, element and filter", "why_tests_cant": "off-by-one and text-node skipping behaviour ranges over all sibling lists", "anchors": ["src/mesdoc/interface/element.rs: next_element_sibling, next_element_siblings, previous_element_sibling, previous_element_siblings, siblings, children", "src/lib.rs: child_nodes_item_since_by, children_by"]}
{"id": "C13", "title": "until traversal", "statement": "next_until / prev_until / parents_until return exactly the prefix of the successive siblings (ancestors) up to but not including the first one that matches the stop selector (including it when contains=true), restricted to the filter.", "quantifier": "for every tree, start element, stop selector and filter", "why_tests_cant": "stop position and filtering interact on unbounded sibling/ancestor chains", "anchors": ["src/mesdoc/interface/elements.rs: select_with_comb_until, next_until, prev_until, parents_until"]}
{"id": "C14", "title": "closest", "statement": "x.closest(sel) returns the nearest inclusive ancestor of x that matches sel, and nothing when there is none.", "quantifier": "for every tree, element and selector", "why_tests_cant": "arbitrary depth and arbitrary selectors (incl. ones with combinators)", "anchors": ["src/mesdoc/interface/elements.rs: Elements::closest"]}
{"id": "C15", "title": "positional access", "statement": "eq(i), first, last, slice(r) return exactly the elements of the set at the requested positions, never panic, and out-of-range requests give the empty set.", "quantifier": "for every element set (including the empty one), index and range bounds", "why_tests_cant": "ranges with every kind of bound over all set sizes, including the extreme bounds", "anchors": ["src/mesdoc/interface/elements.rs: eq, first, last, slice, get"]}
{"id": "C16", "title": "class list operations", "statement": "After add_class(names) every one of the names is present, nothing is lost and nothing is added twice; after remove_class(names) none of them is present and every other class remains in its order; toggle_class switches exactly the named classes; none of them panics.", "quantifier": "for every existing class attribute value and every argument string", "why_tests_cant": "order, repetition and whitespace of both strings vary without bound", "anchors": ["src/mesdoc/interface/elements.rs: has_class, add_class, remove_class, toggle_class", "src/mesdoc/utils.rs: get_class_list, class_list_to_string, retain_by_index"]}
{"id": "C17", "title": "class attribute text is a faithful list", "statement": "Reading a class attribute splits it at ASCII whitespace into its non-empty names in order; writing a list of names and reading it back gives the same list.", "quantifier": "for every string and every list of non-empty whitespace-free names", "why_tests_cant": "all strings", "anchors": ["src/mesdoc/utils.rs: get_class_list, class_list_to_string"]}
{"id": "C18", "title": "attribute write-read", "statement": "After set_attr(name, value) on an element, attr(name) returns the value; attributes of other names, and all other elements, are unchanged; names are case-insensitive (ASCII).", "quantifier": "for every element, attribute history, name and value", "why_tests_cant": "depends on the whole previous history of set/remove calls with arbitrary names and values", "anchors": ["src/lib.rs: set_attribute, get_attribute, remove_attribute, get_attributes", "src/mesdoc/interface/elements.rs: attr, set_attr, remove_attr, has_attr"]}
{"id": "C19", "title": "attribute removal", "statement": "After remove_attr(name) the attribute is absent under every spelling of its name and the remaining attributes keep their values and their order.", "quantifier": "for every sequence of set_attr/remove_attr calls with arbitrary names", "why_tests_cant": "histories are unbounded; the failure needs a case mismatch between history and call", "anchors": ["src/lib.rs: remove_attribute, set_attribute, get_attribute"]}
{"id": "C20", "title": "attribute quoting is safe", "statement": "The markup written for an attribute set through set_attr can never end the attribute value early: the stored raw value never contains the quote character it is rendered with.", "quantifier": "for every element, name, value and previous value", "why_tests_cant": "security-type property over all strings (attribute injection)", "anchors": ["src/lib.rs: set_attribute"]}
{"id": "C21", "title": "mutations keep the tree well formed", "statement": "After any sequence of append/prepend/before/after/remove/empty/set_text calls that the library accepts on elements that are part of a tree, the tree is well formed: each child's parent is the node listing it, its index is its position, no node is listed twice, and no node is its own ancestor.", "quantifier": "for every well-formed forest and every finite sequence of operations", "why_tests_cant": "an invariant over all reachable states of a mutable pointer structure", "anchors": ["src/lib.rs: insert_adjacent, remove_child, replace_with, reset_next_siblings_index, set_text, set_html", "src/mesdoc/interface/elements.rs: insert, remove, empty"]}
{"id": "C22", "title": "insertion puts the node where asked", "statement": "append/prepend/before/after of a single node put this node exactly at the requested place; all other nodes keep their relative order, and a node moved from elsewhere disappears from its old place.", "quantifier": "for every well-formed tree, target, node and position (incl. moves within the same parent)", "why_tests_cant": "moves inside one parent shift positions; the off-by-one space is all (list, from, to) triples", "anchors": ["src/lib.rs: insert_adjacent, remove_child", "src/mesdoc/interface/elements.rs: append, prepend, before, after, append_to, insert_before"]}
{"id": "C23", "title": "cyclic insertions are refused without effect", "statement": "Inserting a node into itself or into one of its descendants is refused with an error and leaves the tree unchanged.", "quantifier": "for every tree and every (node, target) pair", "why_tests_cant": "ancestor chains of arbitrary length", "anchors": ["src/lib.rs: validate_dom_change, insert_adjacent"]}
{"id": "C24", "title": "replace_with", "statement": "x.replace_with(y) puts y at x's place, detaches x, leaves all other nodes in their order and keeps the tree well formed.", "quantifier": "for every tree and every pair x,y of its nodes (including equal, ancestor, sibling)", "why_tests_cant": "the aliasing cases are unbounded families", "anchors": ["src/lib.rs: replace_with", "src/mesdoc/interface/elements.rs: replace_with, replace"]}
{"id": "C25", "title": "remove and empty", "statement": "remove() takes exactly the given elements (with their subtrees) out of the tree and leaves all others in order; calling it again is harmless. empty() removes all child nodes of exactly the given elements.", "quantifier": "for every tree and every element set of it", "why_tests_cant": "sets of arbitrary size with arbitrary nesting and shared parents, where indices shift while removing", "anchors": ["src/mesdoc/interface/elements.rs: remove, empty", "src/lib.rs: remove_child"]}
{"id": "C26", "title": "text of an element", "statement": "text() is the concatenation, in document order, of all text below the element, and texts(depth) lists exactly the text nodes within the depth limit, in document order, that pass the filter.", "quantifier": "for every tree, depth limit and filter", "why_tests_cant": "trees of arbitrary depth", "anchors": ["src/lib.rs: texts_by_rec, text_content, texts_by", "src/mesdoc/interface/elements.rs: text, texts, texts_by"]}
{"id": "C27", "title": "set_text then text", "statement": "After e.set_text(s) the element's only content is s: text() is s and the old children are gone; no other element changes.", "quantifier": "for every element kind and every string", "why_tests_cant": "all strings and all prior contents", "anchors": ["src/lib.rs: set_text", "src/mesdoc/interface/elements.rs: set_text"]}
{"id": "C28", "title": "form value", "statement": "val() of a single select is the value of its first selected option in document order, or of the first option child when none is selected; of a multiple select, the list of the values of all selected options in document order; of an input/option the value attribute (option: text when absent), of a textarea its text.", "quantifier": "for every select tree with optgroups and arbitrary attributes", "why_tests_cant": "nesting and selection patterns are unbounded", "anchors": ["src/lib.rs: value", "src/mesdoc/interface/elements.rs: val"]}
{"id": "C29", "title": "attribute selectors", "statement": "[k], [k=v], [k^=v], [k$=v], [k*=v], [k~=v], [k|=v], [k!=v] match exactly the elements whose attribute satisfies the corresponding string relation.", "quantifier": "for every attribute value and every selector value", "why_tests_cant": "string relations over all pairs of strings, including empty ones", "anchors": ["src/mesdoc/rules/attr.rs: add_attrs", "src/mesdoc/utils.rs: contains_chars"]}
{"id": "C30", "title": "name, class and id selectors", "statement": "A name selector matches exactly the elements with that tag name ignoring ASCII case; .c exactly those whose class list contains c; #i exactly those whose id attribute is i; * every element.", "quantifier": "for every element and name", "why_tests_cant": "all strings", "anchors": ["src/mesdoc/rules/name.rs", "src/mesdoc/rules/class.rs", "src/mesdoc/rules/id.rs", "src/mesdoc/rules/all.rs", "src/mesdoc/utils.rs: is_equal_chars_ignore_case"]}
{"id": "C31", "title": "structural pseudo classes", "statement": ":first-child, :last-child, :only-child, :first-of-type, :last-of-type, :only-of-type, :nth-child, :nth-last-child, :nth-of-type, :nth-last-of-type, :empty, :root match exactly the elements CSS says; the set version and the single-element version of each test agree and never panic.", "quantifier": "for every tree, element and formula", "why_tests_cant": "each pseudo class has two independent implementations that must agree for all trees", "anchors": ["src/mesdoc/rules/pseudo.rs"]}
{"id": "C32", "title": ":not, :has, :contains, :checked and aliases", "statement": ":not(s) matches exactly the elements not matched by s, :has(s) those with a descendant matching s, :contains(t) those whose text contains t, :checked the checked inputs and selected options, and :header/:input/:submit are equal to their expansions.", "quantifier": "for every tree, element and nested selector", "why_tests_cant": "nested selectors of any depth", "anchors": ["src/mesdoc/rules/pseudo.rs"]}
{"id": "C33", "title": "comma is union", "statement": "find(\"a, b\") contains exactly the elements found by a or by b, each once, in document order.", "quantifier": "for every pair of selectors and every tree", "why_tests_cant": "universal over selectors and trees", "anchors": ["src/mesdoc/interface/elements.rs: find_selector, select", "src/mesdoc/selector/mod.rs: Selector::from_str"]}
{"id": "C34", "title": "selector parsing never panics", "statement": "Giving any string to find/filter/closest/... either works or is reported as an error value through the error handler; it never panics.", "quantifier": "for every string", "why_tests_cant": "all strings; fuzzing only samples", "anchors": ["src/mesdoc/selector/mod.rs: Selector::from_str", "src/mesdoc/selector/rule.rs: Rule::exec, exec_queues, get_queues", "src/mesdoc/selector/pattern.rs: Pattern::matched", "src/mesdoc/interface/elements.rs: trigger_method_throw_error"]}
{"id": "C35", "title": "selector parsing is faithful", "statement": "A selector text assembled from compounds and combinators with arbitrary allowed whitespace around the combinators is parsed into exactly that sequence of compounds and combinators.", "quantifier": "for every list of compounds, combinators and whitespace strings", "why_tests_cant": "unbounded grammar", "anchors": ["src/mesdoc/selector/mod.rs: Selector::from_str", "src/mesdoc/selector/rule.rs: Rule", "src/mesdoc/selector/pattern.rs"]}
{"id": "C36", "title": "membership and index", "statement": "contains/includes(x) holds exactly when x is one of the elements, and index_of(x) is the position of its first occurrence, nothing otherwise.", "quantifier": "for every set and element", "why_tests_cant": "all sets", "anchors": ["src/mesdoc/interface/elements.rs: includes, index_of, contains"]}
{"id": "C37", "title": "cross-document sets", "statement": "Set operations (add, filter_in, not_in, is_in, unique) on elements of different documents never confuse two different elements.", "quantifier": "for all pairs of documents", "why_tests_cant": "needs structurally equal positions in distinct documents: all pairs of trees", "anchors": ["src/mesdoc/interface/elements.rs: add, relation_of, unique_sibling, filter_in_handle, compare_indexs"]}
{"id": "C38", "title": "substring search", "statement": "The substring test behind [k*=v] and :contains is true exactly when the second string occurs in the first as a contiguous block.", "quantifier": "for every pair of strings", "why_tests_cant": "all pairs of strings", "anchors": ["src/mesdoc/utils.rs: contains_chars, is_equal_chars"]}
{"id": "C39", "title": "failed calls have no effect and are reported", "statement": "If a call fails (bad selector, refused mutation) the error is delivered to the document's error handler, the returned set is empty for queries, and the tree is unchanged.", "quantifier": "for every document, call and failing argument", "why_tests_cant": "all failing inputs in all states", "anchors": ["src/mesdoc/interface/elements.rs: trigger_method, trigger_method_throw_error", "src/lib.rs: validate_dom_change, insert_adjacent"]}
{"id": "C40", "title": "clone is independent", "statement": "clone() yields elements equal in markup to the originals, sharing no node with them, so that later mutations of one never show in the other.", "quantifier": "for every tree and every later mutation sequence", "why_tests_cant": "quantifies over all later histories", "anchors": ["src/lib.rs: copied, cloned", "src/mesdoc/interface/elements.rs: clone"]}
{"id": "C41", "title": "order of several inserted nodes", "statement": "append, prepend, before and after of a set of several elements put them side by side at the requested place in the order of the set.", "quantifier": "for every tree, every target and every list of movable nodes", "why_tests_cant": "the effect of each single insertion shifts positions for the following ones; the list is unbounded", "anchors": ["src/mesdoc/interface/elements.rs: insert, append, prepend, before, after"]}
{"id": "C42", "title": "filtering a list of texts", "statement": "Texts::filter_by keeps exactly the texts whose (position, text) passes the handle, in order, for every list returned by texts().", "quantifier": "for every tree, handle and list of texts", "why_tests_cant": "all lists and handles; content-tag elements among the texts are a special case", "anchors": ["src/mesdoc/interface/texts.rs: filter_by", "src/lib.rs: typed, into_text, texts_by_rec"]}
{"id": "C43", "title": "removing texts", "statement": "Removing the texts found below an element takes exactly these nodes out of the tree, keeps it well formed, and the same search then finds nothing.", "quantifier": "for every tree, depth limit and handles", "why_tests_cant": "positions of later texts shift with each removal", "anchors": ["src/mesdoc/interface/texts.rs: remove", "src/lib.rs: ITextTrait::remove, texts_by_rec"]}
{"id": "C44", "title": "appending to a text", "statement": "append_text / prepend_text on any text returned by texts() add the string at the end / start of its content and change nothing else.", "quantifier": "for every tree, text and string", "why_tests_cant": "all contents, including texts that have none", "anchors": ["src/lib.rs: append_text, prepend_text"]}
{"id": "C45", "title": "setting markup", "statement": "set_html(text) replaces what an element holds by exactly the parsed trees that may stand in it (by one text in a content tag), made of new nodes; nothing else changes and the tree stays well formed.", "quantifier": "for every tree, element, text and parser result", "why_tests_cant": "all parsed trees; all histories mixing set_html with the other calls", "anchors": ["src/lib.rs: set_html", "src/mesdoc/interface/elements.rs: set_html"]}
{"id": "C46", "title": "queries stay right after modifications", "statement": "After any sequence of tree, attribute and class calls on a document, every query (filter, find, is, has, closest, ...) answers by the meaning of its selector on the tree as it is now.", "quantifier": "for every document, program of modifying calls, and query", "why_tests_cant": "quantifies over all histories and all selectors", "anchors": ["src/mesdoc/interface/elements.rs: find_selector, filter_type_handle", "src/mesdoc/selector/rule.rs", "src/lib.rs"]}
{"id": "C47", "title": "attribute and class calls on sets", "statement": "set_attr, remove_attr, add_class, remove_class and toggle_class on a set act on every element of it as on one element and on nothing else; attr reads the first element, has_attr and has_class ask for any element.", "quantifier": "for every tree, every set and every program of such calls", "why_tests_cant": "sets overlap; programs are unbounded", "anchors": ["src/mesdoc/interface/elements.rs: attr, has_attr, set_attr, remove_attr, has_class, add_class, remove_class, toggle_class"]}
{"id": "C48", "title": "rounded division", "statement": "divide_isize gives the quotient rounded down, up, or to the nearest integer (halves away from zero), as asked.", "quantifier": "for all integers and non-zero divisors", "why_tests_cant": "all pairs of integers, three modes, four sign combinations", "anchors": ["src/mesdoc/utils.rs: divide_isize"]}
{"id": "C49", "title": "document accessors", "statement": "document_element/head/body give the first html/head/body element of the document in document order (none if there is none), title the text of the title elements inside the first head, and none of them panics.", "quantifier": "for every document", "why_tests_cant": "all trees; the accessors go through the selector engine", "anchors": ["src/mesdoc/interface/document.rs: document_element, title, head, body", "src/mesdoc/interface/node.rs: root_element", "src/mesdoc/interface/elements.rs: document"]}
{"id": "C50", "title": "traversal from sets", "statement": "children, parent, parents, next, prev, next_all, prev_all and siblings of a set give exactly the elements standing in that relation to some member, each once, in document order, restricted to the filter.", "quantifier": "for every tree, every set in document order and every filter", "why_tests_cant": "sets of any size, nested or sharing parents; the code first drops members that share a parent", "anchors": ["src/mesdoc/interface/elements.rs: children, parent, parents, next, prev, next_all, prev_all, siblings, unique_sibling, unique_all_siblings"]}
{"id": "C51", "title": "until traversal from sets", "statement": "next_until, prev_until and parents_until of a set give exactly the elements met on the walks of its members, each once, in document order.", "quantifier": "for every tree, every set in document order, every stop and filter selector", "why_tests_cant": "walks of several members overlap; the code starts only from one member per parent", "anchors": ["src/mesdoc/interface/elements.rs: next_until, prev_until, parents_until, select_with_comb_until"]}
{"id": "C52", "title": "rule templates", "statement": "Rule::get_queues reads a template into the row of patterns it stands for: doubled braces are literal braces, {name} is a named pattern, {regexp#...#} a regular expression between any number of hashes, the rest is literal; every other text panics.", "quantifier": "for every template text", "why_tests_cant": "all strings; the scanner keeps ten variables of state", "anchors": ["src/mesdoc/selector/rule.rs: MatchedStore::next, Rule::get_queues", "src/mesdoc/selector/pattern.rs: to_pattern, check_params_return"]}
{"id": "C53", "title": "the library's rules", "statement": "The 24 rule templates, the combinator splitter and the text of the nth expression stand for the patterns the selector parser is described with: every pattern matches the same prefixes with the same captures.", "quantifier": "for every rule and every input text", "why_tests_cant": "the expressions are texts that the code compiles at run time; equality is over all inputs", "anchors": ["src/mesdoc/rules/*.rs: the context texts", "src/mesdoc/selector/pattern.rs: Nth::matched, RegExp::get_rule", "src/mesdoc/selector/mod.rs: SPLITTER"]}
{"id": "C54", "title": "loading documents", "statement": "load gives a set holding the root of a new document whose nodes are those the parser found, or the parser's error; load_catch calls its handler once if the parser fails and otherwise makes it the handler of the new document. Documents loaded before are not touched, no node belongs to two documents, and a selector error is reported once, to the handler of the document the set belongs to and to no other.", "quantifier": "for every markup, every result of the parser, every number of documents and handlers", "why_tests_cant": "any program of loads and queries; handlers are per document and shared by all sets", "anchors": ["src/lib.rs: Document::bind_error, elements, onerror, Vis::parse_doc_with_options, load_options, load_options_catch, load, load_catch, dom", "src/mesdoc/interface/document.rs: trigger_error", "src/mesdoc/interface/elements.rs: trigger_method_throw_error"]}
{"id": "C55", "title": "values and iteration", "statement": "An attribute value is readable as text, as truth value and as list of words (the classes, for the class attribute); a form value as text and as list of its values. for_each/each/map visit the elements in order with their positions, for_each until the handle answers false for the first time; html/outer_html are those of the first element, htmls/outer_htmls of all.", "quantifier": "for every value, every set and every handle with any effect", "why_tests_cant": "all strings, sets of any size, handles with state", "anchors": ["src/mesdoc/interface/element.rs: IAttrValue, IFormValue", "src/mesdoc/interface/elements.rs: get, for_each, each, map, length, is_empty, html, htmls, outer_html, outer_htmls", "src/mesdoc/interface/texts.rs: for_each, each"]}
{"id": "C56", "title": "insertion at several targets", "statement": "append, prepend, before and after with several targets leave the inserted nodes at the last target, exactly where they would be had it been the only one; the other targets and all other nodes keep what they hold, in order, without the inserted nodes.", "quantifier": "for every tree, every list of targets and every inserted set that no target is inside of", "why_tests_cant": "any number of targets and nodes; nodes may come from anywhere, also from under a target", "anchors": ["src/mesdoc/interface/elements.rs: insert, append, append_to, prepend, prepend_to, before, insert_before, after, insert_after"]}
{"id": "C57", "title": "queries return", "statement": "find, the filters, closest, the until walks and the steps neither panic nor run for ever, and every element they return is an element of the document the set is from.", "quantifier": "for every document, every set of its elements (for all but find in any order, with repetitions) and every selector", "why_tests_cant": "any depth, any length of sets and selectors, nested selectors included", "anchors": ["src/mesdoc/interface/elements.rs: find, select, select_by_rule, filter, is, not, has, closest, next_until, prev_until, parents_until, children, parent, parents, next, next_all, prev, prev_all, siblings", "src/mesdoc/selector/rule/*"]}
{"id": "C58", "title": "calls do not disturb later ones through the parser's tables", "statement": "Reading a selector text (and making the selector * of a step) gives the same outcome whatever texts were read before in the same process, also when some earlier call panicked and the panic was caught or ended only its thread.", "quantifier": "for every sequence of texts read and steps made before, and every text", "why_tests_cant": "quantifies over all histories of a process; a panic poisons the mutexes of the parser and tests run in separate processes or stop at the panic", "anchors": ["src/mesdoc/selector/mod.rs: SPLITTER, ALL_RULE, Selector::from_str, Selector::make_comb_all", "src/mesdoc/selector/rule.rs: RULES"]}
{"id": "C59", "title": "membership through a combinator", "statement": "contains(element, combinator) is true exactly when some member of the set is related to the element by the combinator: is an ancestor of it, its parent, its nearest previous sibling element, an earlier sibling, or the element itself.", "quantifier": "for every document, every set of elements of any documents in any order, every element and every combinator", "why_tests_cant": "trees of any depth and sets of any size; combinators that only occur in walks back", "anchors": ["src/mesdoc/interface/elements.rs: contains, has_ele", "src/mesdoc/selector/mod.rs: Combinator::reverse"]}
{"id": "C60", "title": "reports of nested texts", "statement": "A text inside :not or :has that is no selector is reported once per query, to the error handler of the document the set is from and to no other; texts that are selectors throughout are not reported; the answers do not depend on the handlers.", "quantifier": "for every document, every set of its nodes, every query that takes texts, every text with nesting of any depth", "why_tests_cant": "any nesting, any number of documents; reports made deep in a search depend on the order in which rules are applied", "anchors": ["src/mesdoc/interface/elements.rs: trigger_method, trigger_method_throw_error, not, has", "src/mesdoc/rules/pseudo.rs: pseudo_not, pseudo_has", "src/mesdoc/interface/document.rs: trigger_error"]}
{"id": "C61", "title": "equivalent calls agree", "statement": "Calls that ask the same question give the same answer: is(s) tells whether filter(s) keeps something; a step and its inverse lead back; siblings is prev_all then next_all; a step with a text is the step followed by filter; a walk until a text nothing meets is the walk to the end; find(s) from the document is find(*) then filter(s); find(a) then find(b) is find(a b); has(s) keeps the elements from which find(s) finds something; closest(s) is the element itself or the last of parents(s).", "quantifier": "for every document, every element or set of elements and every selector text", "why_tests_cant": "the laws relate two runs on trees of any shape and selectors of any length; a wrong law shows only on particular combinations", "anchors": ["src/mesdoc/interface/elements.rs: is, filter, find, has, closest, parents, siblings, prev_all, next_all, children, parent, next, prev"]}
{"id": "C62", "title": "no cell is borrowed twice", "statement": "A modifying call on one node (insertion, removal, set_text, set_html, removing a text, setting and removing an attribute) never borrows a cell that is already borrowed, whatever nodes are passed, removed ones included; replace_with does exactly when the incoming nodes include the replaced node or its parent, append_text and prepend_text exactly when the node has no content. Setting and removing attributes and classes on a set, and asking for classes, never does. Apart from these the borrow checks never change an outcome.", "quantifier": "for every tree, every node, every call and every sequence of calls", "why_tests_cant": "aliasing of nodes at any distance; run-time borrow checks fail only on particular aliasings that the type system does not see", "anchors": ["src/lib.rs: borrow, borrow_mut in remove_child, insert_adjacent, replace_with, set_text, set_html, remove, append_text, prepend_text, set_attribute, remove_attribute, get_attribute, validate_dom_change, reset_next_siblings_index, remove_not_allowed_nodes"]}
{"id": "C63", "title": "error of a rejected text", "statement": "When a selector text is rejected, the error names the text given, the index at which parsing stopped and the piece found there: the second of two combinators, the comma with nothing before it, the part no rule matches, or that nothing follows the last combinator.", "quantifier": "for every text that the selector parser rejects", "why_tests_cant": "texts of any length and nesting; the index is advanced in several places and passed through recursive calls", "anchors": ["src/mesdoc/selector/mod.rs: Selector::from_str, parse_until", "src/mesdoc/error.rs: Error::InvalidSelector"]}
{"id": "C64", "title": "texts outside the grammar", "statement": "Behind the beginning of any selector, a piece that no rule of the grammar starts with (a foreign character, a sign without a name, a bracket without a key, an unknown pseudo class, an nth class without a formula), a second combinator or comma, and the end of the text after a combinator or comma are rejected with an error, whatever else the text contains; so are a comma at the start and a text of white space.", "quantifier": "for every beginning of a selector, every such piece and every continuation", "why_tests_cant": "the beginning and the continuation are arbitrary texts of any length and nesting", "anchors": ["src/mesdoc/selector/mod.rs: Selector::from_str", "src/mesdoc/selector/rule.rs: Rule::exec", "src/mesdoc/selector/pattern.rs: Pattern::matched"]}
{"id": "C65", "title": "accepted texts are selectors", "statement": "A text that the selector parser accepts is a selector: it is built from the parts, combinators and commas of the grammar, and the parsed groups are the ones the text denotes.", "quantifier": "for every text in which a backslash escapes an ordinary character", "why_tests_cant": "texts of any length and nesting; acceptance depends on regular expressions, on the order of the rules and on a loop over the text", "anchors": ["src/mesdoc/selector/mod.rs: Selector::from_str", "src/mesdoc/selector/rule.rs: Rule::exec", "src/mesdoc/selector/pattern.rs: Pattern::matched, exec", "src/mesdoc/rules/attr.rs", "src/mesdoc/rules/pseudo.rs"]}
{"id": "C66", "title": "results outlive the document", "statement": "Elements that the caller keeps after the document value and all other results are dropped can still be used: everything below them is left and unchanged, their parents are known as long as they are left, answers contain only nodes that are left, and queries answer as before; a document that is kept is unaffected by what else is dropped.", "quantifier": "for every tree, every set of kept elements and documents, every query", "why_tests_cant": "which nodes are freed depends on the ownership between all nodes; the loss of weak pointers shows only for particular shapes and drop orders", "anchors": ["src/lib.rs: parent, root, owner_document, Document, Doc", "src/mesdoc/interface/elements.rs: Elements, with_nodes, with_all", "src/mesdoc/rules/id.rs", "src/mesdoc/interface/elements.rs: trigger_method"]}
{"id": "C67", "title": "callbacks that modify", "statement": "A callback of for_each, children_by or child_nodes_item_since_by may modify the tree it is called from: attribute and class calls from any of them, and every modifying call from for_each, have the effect of the same calls made one after the other, up to where the callback stops; any other modifying call from a walk either panics because a cell is borrowed twice or has its usual effect and leaves the nodes walked over as they were; a node in its place can be removed from such a walk exactly when no node being walked over is its parent or a sibling behind it.", "quantifier": "for every tree, every nesting of walks, every callback made of such calls", "why_tests_cant": "the run-time borrow check depends on which nodes are being walked over at every depth and on which nodes the callback reaches", "anchors": ["src/lib.rs: children_by, child_nodes_item_since_by, set_attribute, remove_attribute, remove_child, reset_next_siblings_index", "src/mesdoc/interface/elements.rs: for_each, each, set_attr, remove_attr, add_class, remove_class, toggle_class"]}
{"id": "C68", "title": "text handles that modify", "statement": "The handles of texts_by_rec may modify the tree: the walk itself borrows no node while they run; with handles that keep children, types and tag names the result is the texts of the tree as it was at the start; inside other walks the call panics because a cell is borrowed twice, or has its usual outcome and keeps the nodes walked over; the walk ends whatever calls the handles make.", "quantifier": "for every tree, every depth limit, every pair of handles made of such calls, every nesting of walks", "why_tests_cant": "what the walk sees depends on all changes made by earlier handles, at every depth", "anchors": ["src/lib.rs: texts_by_rec, loop_handle, child_nodes_length, child_nodes_item", "src/mesdoc/interface/element.rs: child_nodes"]}

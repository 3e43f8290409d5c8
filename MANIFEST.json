{
 "claims": [
  {
   "property": "C01",
   "status": "partial",
   "theorems": [
    "C01_nth_positions_partial",
    "C01_nth_unsafe_out_of_range",
    "C01_nth_positions_refuted"
   ],
   "note": "Exact positions proved for every formula/total outside three rounding regimes; inside each regime an out-of-range index is proved to be produced, so the full claim is refuted and the guard is tight (magnitudes below 2^62)."
  },
  {
   "property": "C02",
   "status": "partial",
   "theorems": [
    "C02_nth_text_partial",
    "C02_nth_only",
    "C02_nth_text_refuted"
   ],
   "note": "Every text of the nth grammar whose numbers are isize is read as written, nothing else is accepted; larger numbers panic (refuted)."
  },
  {
   "property": "C03",
   "status": "proved",
   "theorems": [
    "C03_document_order",
    "C03_strict_total_order",
    "C03_sort_and_unique",
    "C03_topmost"
   ],
   "note": "On well-formed heaps, for nodes of one tree."
  },
  {
   "property": "C04",
   "status": "partial",
   "theorems": [
    "C04_add_exact",
    "C04_add_union_iff",
    "C04_add_dropped",
    "C04_add_union_partial",
    "C04_add_disjoint",
    "C04_add_loses_refuted",
    "C04_add_order_refuted"
   ],
   "note": "The claim is false in general (two refutations), and decided for every pair of ordered sets: never a failure, no repetition, nothing new; the members are the union iff not Drops, the order is document order iff not Misplaces."
  },
  {
   "property": "C05",
   "status": "partial",
   "theorems": [
    "C05_find_partial",
    "C05_find_static_partial",
    "C05_find_set_partial",
    "C05_find_text_partial",
    "C05_find_refuted"
   ],
   "note": "find = forward CSS reachability, for all documents/sets/selectors whose steps never start from a set on which the code is wrong (FindOk), with a purely syntactic sufficient condition (find_shape). Outside it refuted: #y > #x returns a non-child, :last-child panics in an element without children."
  },
  {
   "property": "C06",
   "status": "partial",
   "theorems": [
    "C06_find_order_partial",
    "C05_find_static_partial",
    "C05_find_set_partial",
    "C06_find_order_refuted"
   ],
   "note": "No duplicates under FindOk, document order under FindOrd (or by form of the selector). Refuted in general: div > p comes out of order, div > p b gives an element twice."
  },
  {
   "property": "C07",
   "status": "partial",
   "theorems": [
    "C07_lookup_partial",
    "C07_lookup_refuted"
   ],
   "note": "Look-up and forward search agree (same list when both are ordered) whenever both are sound on the document; refuted in general."
  },
  {
   "property": "C08",
   "status": "partial",
   "theorems": [
    "C08_filter_partial",
    "C08_find_partial",
    "C08_find_refuted"
   ],
   "note": "Any permutation of the parts of any compounds leaves filter/not/is/is_all/has unchanged and find the same up to order; refuted: :first-child:last-child finds nothing where :last-child:first-child panics."
  },
  {
   "property": "C09",
   "status": "partial",
   "theorems": [
    "C09_filter_by_not_by",
    "C09_filter_in_not_in",
    "C09_filter_in_unordered_refuted",
    "C09_filter_not_partial",
    "C09_filter_not_one_partial",
    "C09_filter_not_exclusive_partial",
    "C09_filter_text_partial",
    "C09_filter_not_rooted_partial",
    "C09_filter_text_rooted_partial",
    "C09_filter_last_iff",
    "C09_filter_refuted"
   ],
   "note": "_by variants for all sets, _in variants for sets in document order (refuted for unordered sets). Selector variants: complete for one group and for exclusive groups; overlapping groups under UnionOk, which is also necessary for two groups and for the last of more (C09_filter_last_iff)."
  },
  {
   "property": "C10",
   "status": "partial",
   "theorems": [
    "C10_is_by",
    "C10_is_in",
    "C10_is_all_in",
    "C10_is_partial",
    "C10_is_all_partial",
    "C10_agrees_partial",
    "C10_is_text_partial",
    "C10_is_rooted_partial",
    "C10_is_text_rooted_partial",
    "C10_is_all_refuted"
   ],
   "note": "is with any selector, is_all when the groups merge (refuted otherwise), _by and _in variants."
  },
  {
   "property": "C11",
   "status": "partial",
   "theorems": [
    "C11_has_partial",
    "C11_has_text_partial",
    "C11_has_rooted_partial",
    "C11_has_text_rooted_partial",
    "C11_has_in",
    "C11_has_refuted"
   ],
   "note": "Every set and every parsed selector without the rules refuted under C29-C32 (Setting)."
  },
  {
   "property": "C12",
   "status": "partial",
   "theorems": [
    "C12_step",
    "C12_no_text",
    "C12_step_filter_partial",
    "C12_step_walk_partial",
    "C12_step_union_partial",
    "C12_step_one",
    "C12_siblings_lookup",
    "C12_step_filter_refuted",
    "C12_siblings_lookup_refuted"
   ],
   "note": "Without a filter exact for every element and all eight steps. With a filter text, also one with combinators, the call returns exactly the walk of the text with the step in place of its first combinator (StepTo), which for single compounds is the step restricted to the filter. Filters with combinators, ids among children and :last-child on childless elements are refuted as restrictions. siblings with a text that has a look-up never returns an element, and can panic."
  },
  {
   "property": "C13",
   "status": "partial",
   "theorems": [
    "C13_until_tested",
    "C13_until_partial",
    "C13_until_refuted"
   ],
   "note": "What the calls return is exact for every readable text (C13_until_tested: the compounds from the heaviest one on are tested); that is the CSS reading unless a later compound of the stop or filter text outweighs its first one (refuted there)."
  },
  {
   "property": "C14",
   "status": "partial",
   "theorems": [
    "C14_closest_tested",
    "C14_closest_partial",
    "C14_closest_set_partial",
    "C14_nearest",
    "C14_closest_refuted"
   ],
   "note": "What the call returns is exact for every readable selector (C14_closest_tested); that is the CSS reading unless a later compound outweighs the first one (refuted there)."
  },
  {
   "property": "C15",
   "status": "partial",
   "theorems": [
    "C15_eq",
    "C15_first",
    "C15_last_partial",
    "C15_last_refuted",
    "C15_slice_partial",
    "C15_slice_refuted"
   ],
   "note": "last() on an empty set and some slices panic."
  },
  {
   "property": "C16",
   "status": "partial",
   "theorems": [
    "C16_add_class",
    "C16_remove_class_partial",
    "C16_toggle_class_partial",
    "C16_remove_class_iff",
    "C16_toggle_class_iff",
    "C16_has_class",
    "C16_remove_class_panics_refuted",
    "C16_remove_class_wrong_refuted",
    "C16_add_class_twice_refuted",
    "C16_remove_class_panic_iff",
    "C16_toggle_class_panic_iff",
    "C16_remove_first_partial",
    "C16_toggle_first_partial"
   ],
   "note": "add_class/has_class proved; remove/toggle proved when the removed names are given in the order of the attribute and the class list has no repetition; otherwise refuted (panic or wrong class removed). On class lists without repetition the condition is exact: the result is right if and only if the names come in the order of the attribute. For every class list, with repetitions or not, the panics are characterised exactly, and names in the order of their first places lose exactly their first occurrences."
  },
  {
   "property": "C17",
   "status": "proved",
   "theorems": [
    "C17_class_text_words",
    "C17_class_text_roundtrip"
   ],
   "note": ""
  },
  {
   "property": "C18",
   "status": "partial",
   "theorems": [
    "C18_attr_history_partial",
    "C18_attr_write_read_partial",
    "C18_attr_order",
    "C18_attr_markup_partial",
    "C18_attr_write_read_refuted",
    "C18_attr_history_any",
    "C18_attr_write_read_iff"
   ],
   "note": "All histories of calls whose values do not contain both quote kinds and whose removals are spelled in lower case; mixed quotes refuted. C18_attr_history_any: what is read after every history of calls with any arguments; a value is read back as written iff it does not mix quotes."
  },
  {
   "property": "C19",
   "status": "partial",
   "theorems": [
    "C19_attr_removal_partial",
    "C19_removed_entry",
    "C18_attr_history_partial",
    "C19_attr_removal_refuted",
    "C19_attr_removal_iff"
   ],
   "note": "Proved for lower-case names; refuted for names with upper-case letters: a present attribute goes iff the name is given in lower case."
  },
  {
   "property": "C20",
   "status": "partial",
   "theorems": [
    "C20_new_attr_quoting_partial",
    "C20_new_attr_stored",
    "C20_attr_quoting_refuted",
    "C20_overwrite_iff"
   ],
   "note": "Safe for newly created attributes; refuted for overwriting an existing attribute: safe iff the old quote character is not in the value as kept."
  },
  {
   "property": "C21",
   "status": "proved",
   "theorems": [
    "C21_history",
    "C21_fragment_inside_partial",
    "C21_fragment_beside_partial",
    "C21_fragment_refuted",
    "C21_any",
    "C21_covered_sound",
    "C21_removed_refuted"
   ],
   "note": "For every history of calls on nodes that are part of a tree. Document fragments (not elements) keep a stale child list: separate theorems and refutation. C21_any: also for nodes removed before, on calls that return; C21_removed_refuted: an insertion beside a removed node can leave a wrong index."
  },
  {
   "property": "C22",
   "status": "partial",
   "theorems": [
    "C22_append_partial",
    "C22_prepend_partial",
    "C22_before_partial",
    "C22_after_partial",
    "C22_reinsert_refuted",
    "C22_beside_parentless_refuted",
    "C39_not_allowed_refuted",
    "C22_inside_any",
    "C22_beside_any"
   ],
   "note": "Proved for every placed node (in the tree or without parent) that the target may hold; refuted for nodes that were removed before (their exact outcome is in C22_inside_any, C22_beside_any), for targets without parent and for nodes not allowed in the target."
  },
  {
   "property": "C23",
   "status": "proved",
   "theorems": [
    "C23_cyclic_refused"
   ],
   "note": ""
  },
  {
   "property": "C24",
   "status": "partial",
   "theorems": [
    "C24_replace_partial",
    "C24_replace_refuted",
    "C24_replace_many_refuted",
    "C24_replace_any"
   ],
   "note": "Proved for one replacement that is neither the node itself nor an ancestor of it nor a document root; each excluded case is refuted. C24_replace_any: exact outcome also when one of the two was removed before."
  },
  {
   "property": "C25",
   "status": "partial",
   "theorems": [
    "C25_remove_partial",
    "C25_empty_partial",
    "C25_remove_twice_refuted",
    "C25_remove_any",
    "C25_empty_any"
   ],
   "note": "remove exact for all lists of placed nodes, and of any node (also removed before): exactly the node at the remembered place goes, panic iff the list is too short; calling it again removes a sibling or panics (refuted). empty exact for every list of nodes."
  },
  {
   "property": "C26",
   "status": "partial",
   "theorems": [
    "C26_texts",
    "C26_texts_all",
    "C26_set_texts",
    "C26_set_texts_all",
    "C26_set_text_partial"
   ],
   "note": "texts / texts_by / texts_by_rec in full. The text of one element is computed by the external crate rphtml; text() of a set is the concatenation of these."
  },
  {
   "property": "C27",
   "status": "partial",
   "theorems": [
    "C27_set_text_children",
    "C27_set_text_content",
    "C27_set_text_texts",
    "C27_set_text_all"
   ],
   "note": "The new content is the only content, its text is the only text below, nothing else changes. text() itself is rphtml's."
  },
  {
   "property": "C28",
   "status": "partial",
   "theorems": [
    "C28_single_partial",
    "C28_multiple_partial",
    "C28_input_partial",
    "C28_other",
    "C28_option_text_refuted",
    "C28_nested_refuted",
    "C28_deep_refuted",
    "C28_overflow",
    "C28_set"
   ],
   "note": "Selects exact for options not inside options and at most 255 levels (both refuted otherwise; the level overflow happens exactly with more levels); the value of a set is that of its first member; an option without value attribute has value \"\" (refuted)."
  },
  {
   "property": "C29",
   "status": "partial",
   "theorems": [
    "C29_attr_partial",
    "C29_attr_refuted"
   ],
   "note": "All operators; the empty value for = |= != is refuted."
  },
  {
   "property": "C30",
   "status": "partial",
   "theorems": [
    "C30_name",
    "C30_class",
    "C30_all",
    "C30_id_partial",
    "C30_id_refuted"
   ],
   "note": "Name, class, * for all documents; id when no two elements share it (refuted otherwise)."
  },
  {
   "property": "C31",
   "status": "partial",
   "theorems": [
    "C31_filter_partial",
    "C31_children_partial",
    "C31_descendants_partial",
    "C31_children_refuted"
   ],
   "note": "Both the element-wise and the set-wise implementation of each pseudo class; nth formulas outside the regimes refuted in C01; set-wise panics in childless elements refuted."
  },
  {
   "property": "C32",
   "status": "partial",
   "theorems": [
    "C32_not_partial",
    "C32_has_partial",
    "C32_bad_text",
    "C32_contains",
    "C32_checked_partial",
    "C32_alias",
    "C32_not_refuted",
    "C32_checked_refuted"
   ],
   "note": ":contains, :header, :input, :submit in full; :not for exclusive groups (refuted otherwise); :checked unless an optgroup stands before an option (refuted)."
  },
  {
   "property": "C33",
   "status": "partial",
   "theorems": [
    "C33_union_partial",
    "C33_union_exclusive_partial",
    "C33_union_last_iff",
    "C33_union_refuted"
   ],
   "note": "Union, order and uniqueness when the group results merge (UnionOk; exclusive groups always do); for two groups, and the last of more, exactly then (C33_union_last_iff). Refuted in general."
  },
  {
   "property": "C34",
   "status": "partial",
   "theorems": [
    "C34_no_panic_partial",
    "C34_no_panic_plain_partial",
    "C34_query_partial",
    "C34_panics",
    "C34_cut_panics",
    "C34_big_panics",
    "C34_nested_panics",
    "C34_refuted",
    "C34_query_refuted"
   ],
   "note": "The parser is total and panics at most for texts with a suffix that is cut off, a bare index beyond isize, or a :not/:has whose parenthesis is not closed (quotes and brackets inside of the usual form). Refuted in general, for the parser and for each kind of query: behind any front of a selector every part of the grammar without its closing character, every unclosed nested text (at any depth, also when it ends inside a part) and every bare index beyond isize panics."
  },
  {
   "property": "C35",
   "status": "partial",
   "theorems": [
    "C35_faithful_partial",
    "C35_unambiguous",
    "C35_shape",
    "C35_key_characters",
    "C35_queries",
    "C35_traversals",
    "C35_refuted"
   ],
   "note": "Every text derived by the grammar (any white space, escapes, quotes, nesting depth) is parsed into exactly its groups, and every query evaluates these. Missing: a nested pseudo class that is not last inside another (refuted)."
  },
  {
   "property": "C36",
   "status": "proved",
   "theorems": [
    "C36_membership",
    "C36_index_of"
   ],
   "note": ""
  },
  {
   "property": "C37",
   "status": "partial",
   "theorems": [
    "C37_in_operations_sound",
    "C37_cross_document_refuted",
    "C37_unique_sibling_refuted"
   ],
   "note": "filter_in/not_in/is_in never confuse elements; add and unique do across documents."
  },
  {
   "property": "C38",
   "status": "proved",
   "theorems": [
    "C38_substring"
   ],
   "note": ""
  },
  {
   "property": "C39",
   "status": "partial",
   "theorems": [
    "C39_bad_selector",
    "C39_empty_set",
    "C39_empty_set_refuted",
    "C39_refused_insertion",
    "C39_refused_empty_text",
    "C39_set_text_reports",
    "C39_refused_insertions",
    "C39_not_allowed_refuted",
    "C39_unreported_refuted"
   ],
   "note": "Bad selectors: every query, traversal and _until call on a non-empty set gives the empty value and reports once; on an empty set find/closest/siblings/_until panic (refuted). Refused mutations: the tree is unchanged and reported, with refutations for a disallowed node and unreported failures."
  },
  {
   "property": "C40",
   "status": "proved",
   "theorems": [
    "C40_clone",
    "C40_later",
    "C40_independent"
   ],
   "note": "For every set of elements and document nodes: copies are equal node by node, made of new nodes, and no later program of tree, attribute, class and set_html calls on one side shows on the other. Assumed: rphtml's clone_node, modelled by its purpose (equal tree of new nodes without parent)."
  },
  {
   "property": "C41",
   "status": "partial",
   "theorems": [
    "C41_order_kept",
    "C41_order_reversed",
    "C41_order_refuted"
   ],
   "note": "prepend/after keep the order of the set; append/before are proved to reverse it, so the claim is refuted for them."
  },
  {
   "property": "C42",
   "status": "partial",
   "theorems": [
    "C42_texts_filter_partial",
    "C42_texts_filter_refuted"
   ],
   "note": "Exact on text nodes; panics on content-tag elements (refuted)."
  },
  {
   "property": "C43",
   "status": "partial",
   "theorems": [
    "C43_texts_remove_partial",
    "C43_texts_remove_refuted"
   ],
   "note": "Below an element that is not itself a content tag (refuted there)."
  },
  {
   "property": "C44",
   "status": "partial",
   "theorems": [
    "C44_append_text_partial",
    "C44_append_text_refuted"
   ],
   "note": "Exact for texts that have a content; panics otherwise (refuted)."
  },
  {
   "property": "C45",
   "status": "partial",
   "theorems": [
    "C45_set_html_element",
    "C45_set_html_empty",
    "C45_set_html_content_tag",
    "C45_set_html_text_partial",
    "C45_set_html_all",
    "C45_history_partial",
    "C45_set_html_refuted"
   ],
   "note": "For every tree and every result of the external parser: elements, content tags, text nodes, sets of elements, histories. Refuted: markup the parser rejects panics, a text node directly below the root panics, setting a text node to nothing deletes its siblings."
  },
  {
   "property": "C46",
   "status": "partial",
   "theorems": [
    "C46_queries_partial",
    "C46_no_panic",
    "C46_refuted"
   ],
   "note": "All histories of tree, attribute and class calls within one document keep every hypothesis of the query theorems. Refuted after set_html and for elements taken over from another document: filter and is look in the wrong tree."
  },
  {
   "property": "C47",
   "status": "partial",
   "theorems": [
    "C47_attr_programs_partial",
    "C47_attr_reads",
    "C47_add_class",
    "C47_remove_class_partial",
    "C47_toggle_class_partial",
    "C47_has_class",
    "C47_class_no_tag",
    "C47_attr_programs_any"
   ],
   "note": "Attribute programs with plain arguments (as C18) on arbitrary sets, and what is read after programs with any arguments; class calls on sets without repetition under the conditions of C16; on a node without tag data they panic; reads in full."
  },
  {
   "property": "C48",
   "status": "partial",
   "theorems": [
    "C48_divide_partial",
    "C48_unique",
    "C48_small",
    "C48_divide_refuted"
   ],
   "note": "Exact for every quotient of size at least 1 (or without remainder); a smaller one always becomes 0, so the claim is refuted there (3/4 rounds to 0)."
  },
  {
   "property": "C49",
   "status": "proved",
   "theorems": [
    "C49_named_element",
    "C49_title",
    "C49_set_document",
    "C49_document_first"
   ],
   "note": "For every well-formed document; the text of one element is rphtml's."
  },
  {
   "property": "C50",
   "status": "partial",
   "theorems": [
    "C50_set_step",
    "C50_set_filter_partial",
    "C50_set_walk_partial",
    "C50_order_refuted",
    "C50_set_step_refuted",
    "C50_siblings_walk_refuted"
   ],
   "note": "Members exact and without repetition for all eight steps from every set in document order. parents and siblings come in document order; children and next do when no member is inside another; six steps can leave document order (refuted). Filters of one compound; texts with combinators as a walk from all members for the seven steps other than siblings; siblings with such a text can repeat elements (refuted); an id among children is refuted."
  },
  {
   "property": "C51",
   "status": "partial",
   "theorems": [
    "C51_set_until_tested",
    "C51_set_until_partial",
    "C51_set_apart_partial",
    "C51_set_until_refuted"
   ],
   "note": "Exactly the walks of the first (prev_until: last) member under each parent, hence of all members going up or when no two share a parent; otherwise elements are lost, and prev_until leaves document order (both refuted)."
  },
  {
   "property": "C52",
   "status": "partial",
   "theorems": [
    "C52_template",
    "C52_template_panic",
    "C52_template_unique",
    "C52_raw_short_refuted"
   ],
   "note": "Exact characterisation of the accepted templates and of their queues, for every text; the patterns registered are the six of the library (the registry is private to the crate). Refuted: a regular expression shorter than its hashes less one, or with a hash among its first characters, panics."
  },
  {
   "property": "C53",
   "status": "proved",
   "theorems": [
    "C53_rules",
    "C53_splitter",
    "C53_nth"
   ],
   "note": "All 24 rules, the splitter and the nth text, for every input; the syntax of the external regex crate is modelled for the part these texts use."
  },
  {
   "property": "C54",
   "status": "partial",
   "theorems": [
    "C54_load",
    "C54_load_catch",
    "C54_separate",
    "C54_from_markup_partial",
    "C54_reports",
    "C54_quiet",
    "C54_programs",
    "C60_once_refuted"
   ],
   "note": "For every parser whose trees have children only below elements and consistent tag data. Reports of texts nested in :not/:has: C60. What is left when a document is dropped: C66."
  },
  {
   "property": "C55",
   "status": "partial",
   "theorems": [
    "C55_attr_value",
    "C55_class_list_partial",
    "C55_class_list_refuted",
    "C55_form_value",
    "C55_form_items_refuted",
    "C55_for_each",
    "C55_for_each_panic",
    "C55_map",
    "C55_get",
    "C55_for_each_set_attr",
    "C55_markup"
   ],
   "note": "In full but for: to_list of a class attribute whose value begins or ends with white space that is not ASCII (refuted), and iterating over a single form value, which gives nothing (refuted). The markup of one element is rphtml's."
  },
  {
   "property": "C56",
   "status": "proved",
   "theorems": [
    "C56_append",
    "C56_prepend",
    "C56_before",
    "C56_after",
    "C56_mirrored"
   ],
   "note": "For nodes that are in a tree or without parent (C22 has the refutations for others) and may stand in the targets. append and before reverse the order of the set (C41)."
  },
  {
   "property": "C57",
   "status": "partial",
   "theorems": [
    "C57_filters_partial",
    "C57_walks_partial",
    "C57_steps_partial",
    "C57_find_partial",
    "C57_find_exact_partial",
    "C57_texts_partial",
    "C57_plain_texts_partial",
    "C57_ok_runs",
    "C57_refuted",
    "C57_filter_foreign_refuted"
   ],
   "note": "Filters, closest and until walks: every text but position formulas where C01 is refuted, from any set. Steps and find: also without later compounds that search all descendants of a set that is not in order, and without counting from the last child where a childless node is asked. Refuted by three searches that panic; a filter on a set with repetitions may return an element that is not in it."
  },
  {
   "property": "C58",
   "status": "partial",
   "theorems": [
    "C58_undisturbed_partial",
    "C58_disturbed",
    "C58_refuted"
   ],
   "note": "Decided for every history: outcomes are undisturbed as long as no text made the parser panic; after one, every non-empty text panics, and steps without a filter work only if one was made before it (refuted)."
  },
  {
   "property": "C59",
   "status": "partial",
   "theorems": [
    "C59_contains_partial",
    "C59_parentless",
    "C59_back_panics",
    "C59_contains_refuted"
   ],
   "note": "Exact for the combinators that can be written in a selector and for Chain; the other five panic on every set and element (refuted)."
  },
  {
   "property": "C60",
   "status": "partial",
   "theorems": [
    "C60_values",
    "C60_own_document",
    "C60_session",
    "C60_quiet",
    "C60_filters_once",
    "C60_find_count",
    "C60_step_count",
    "C60_step_once",
    "C60_has_count",
    "C60_closest_count",
    "C60_until_count",
    "C60_parents_until_count",
    "C60_once_refuted"
   ],
   "note": "For every query: only the own document is told, selectors are never reported, answers are unaffected. Once per query is refuted for searches (several reports, or none if the rule is never applied); it holds for a filter that is one :not or :has. For such a text the exact number of reports of every other query is proved as well."
  },
  {
   "property": "C61",
   "status": "partial",
   "theorems": [
    "C61_is_filter",
    "C61_inverse",
    "C61_find_parents",
    "C61_siblings",
    "C61_until_all",
    "C61_step_filter_partial",
    "C61_step_filter_refuted",
    "C61_find_filter_partial",
    "C61_find_filter_refuted",
    "C61_find_find_partial",
    "C61_find_find_refuted",
    "C61_has_find_partial",
    "C61_has_find_refuted",
    "C61_closest_parents_partial"
   ],
   "note": "is/filter without any condition; inverse steps, siblings, until walks for every element; the laws with texts for the selectors for which C05, C12 are proved, each refuted beyond that."
  },
  {
   "property": "C62",
   "status": "proved",
   "theorems": [
    "C62_exact",
    "C62_same",
    "C62_never",
    "C62_replace",
    "C62_reading",
    "C62_program",
    "C62_sets",
    "C62_has_class",
    "C62_sets_program"
   ],
   "note": "Every borrow and borrow_mut of these calls transcribed with the scope of its guard; C62_sets* are the attribute and class calls on sets (BorrowSets), for any list of nodes. Guards of the root of a freshly parsed document and those taken inside rphtml are left out."
  },
  {
   "property": "C63",
   "status": "partial",
   "theorems": [
    "C63_same_outcome",
    "C63_report",
    "C63_combinator",
    "C63_empty_iff",
    "C63_unrecognized",
    "C63_last",
    "C63_blank",
    "C63_nested",
    "C63_index_refuted",
    "C63_context_refuted"
   ],
   "note": "Each of the five errors described for every text. Refuted: after a rule that matches in part the index is behind the piece quoted; an error inside :not( or :has( never names the text given, and its index counts from inside it."
  },
  {
   "property": "C64",
   "status": "proved",
   "theorems": [
    "C64_no_part",
    "C64_sign",
    "C64_start",
    "C64_nested"
   ],
   "note": "For every front of a selector (any nesting depth) and every continuation. What counts as a piece that starts no part is listed in TailSpec.NoPart; C64_nested is the same for foreign characters and for text behind a nested pseudo class inside :not(..) and :has(..) at any depth (DeepSpec.Rejected); the errors' fields are C63."
  },
  {
   "property": "C65",
   "status": "partial",
   "theorems": [
    "C65_accepted",
    "C65_accepts",
    "C65_exact",
    "C65_unambiguous",
    "C65_refuted"
   ],
   "note": "Refuted as stated: a name or * directly behind another part is accepted ([a]b). With that one freedom the accepted texts are exactly the grammar (LooseSpec), for results without :not/:has and with numbers that fit isize; for the others the texts are described (LPart), nested arguments that do not parse being kept as error values. A backslash in front of a quote, a closing parenthesis or white space, or at the end, is left out of C65_accepted and C65_exact."
  },
  {
   "property": "C66",
   "status": "partial",
   "theorems": [
    "C66_left",
    "C66_trees",
    "C66_order",
    "C66_kept",
    "C66_all",
    "C66_steps",
    "C66_below",
    "C66_sideways",
    "C66_up",
    "C66_queries",
    "C66_same_partial",
    "C66_forward_partial",
    "C66_back_partial",
    "C66_insert",
    "C66_remove",
    "C66_beside",
    "C66_replace",
    "C66_remove_many",
    "C66_attrs",
    "C66_refuted",
    "C66_sets_refuted",
    "C66_beside_refuted"
   ],
   "note": "In full for what is left and for reading, walking and document order below a held node. Queries answering as before is refuted (places, ids, reports, several groups on elements whose parents are gone); proved for any number of groups of name, class, attribute, *, :empty and :contains rules, and strictly below a node left also for rules about the place among the siblings, :checked, nested rules, and searches walked forwards or looked back at from a later compound. The calls that insert, replace and remove, attribute and class calls and those that append to texts are stated; the theorems of the others (set_text, set_html) apply to the heap that is left because it is well formed."
  },
  {
   "property": "C67",
   "status": "proved",
   "theorems": [
    "C67_children_attrs",
    "C67_since_attrs",
    "C67_since_outside",
    "C67_remove",
    "C67_children_removal",
    "C67_any",
    "C67_children_any",
    "C67_since_any",
    "C67_changed",
    "C67_changed_refuted",
    "C67_set_text",
    "C67_remove_text",
    "C67_append",
    "C67_insert",
    "C67_insert_fragment",
    "C67_set_html",
    "C67_set_html_text",
    "C67_replace",
    "C67_replace_fragment",
    "C67_insert_refused",
    "C67_append_text",
    "C67_remove_any",
    "C67_for_each"
   ],
   "note": "Callbacks run under the guards alive where they are called (Callback). For insertions, texts and set_html made from a walk over children: a clash or the outcome they have otherwise, the walked nodes being kept (C67_any); it is a clash whenever a node being walked over would change (C67_changed), and sometimes when none would (C67_changed_refuted); exactly when is described for removals (of any node), set_text, append_text, set_html of an element or of a text in its place, and insertions of and replacements by a node that is in its place or has no parent or is a fragment; refused insertions never do."
  },
  {
   "property": "C68",
   "status": "partial",
   "theorems": [
    "C68_texts",
    "C68_texts_any",
    "C68_texts_refuted"
   ],
   "note": "In full but for the last part, which is refuted: rec_handle is asked before the children are read, so one that gives every element new contents sends the walk down for ever."
  }
 ]
}
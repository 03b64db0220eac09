{
 "claims": [
  {
   "property": "C01",
   "status": "proved",
   "theorems": [
    "C01_navigation_is_a_forest"
   ],
   "note": "Every reachable document: the six navigation functions describe one ordered forest, which is unique."
  },
  {
   "property": "C02",
   "status": "proved",
   "theorems": [
    "C02_append"
   ],
   "note": "Whenever append returns; when it returns is C06."
  },
  {
   "property": "C03",
   "status": "proved",
   "theorems": [
    "C03_prepend"
   ],
   "note": "Whenever prepend returns; when it returns is C06."
  },
  {
   "property": "C04",
   "status": "proved",
   "theorems": [
    "C04_insert_after",
    "C04_insert_before"
   ],
   "note": "Whenever insert_after / insert_before return; when they return is C06."
  },
  {
   "property": "C05",
   "status": "proved",
   "theorems": [
    "C05_detach",
    "C05_detach_returns",
    "C05_no_self"
   ],
   "note": "detach panics iff the node is its own parent and misses a neighbour, which needs a cycle (C05_no_self)."
  },
  {
   "property": "C06",
   "status": "partial",
   "theorems": [
    "C06_refuted",
    "C06_append_partial",
    "C06_prepend_partial",
    "C06_insert_after_partial",
    "C06_insert_before_partial"
   ],
   "note": "False as stated (C06_refuted): moving a node next to a cell that must be rewritten panics with a double borrow. The _partial theorems give the exact condition, in every reachable document."
  },
  {
   "property": "C07",
   "status": "partial",
   "theorems": [
    "C07_refuted",
    "C07_exact_partial",
    "C07_history_partial"
   ],
   "note": "False as stated (C07_refuted): there is no ancestor check. A call makes a cycle iff it inserts a node into its own subtree."
  },
  {
   "property": "C08",
   "status": "proved",
   "theorems": [
    "C08_children"
   ],
   "note": ""
  },
  {
   "property": "C09",
   "status": "proved",
   "theorems": [
    "C09_traverse",
    "C09_every_node_has_a_tree"
   ],
   "note": ""
  },
  {
   "property": "C10",
   "status": "proved",
   "theorems": [
    "C10_ancestors",
    "C10_siblings"
   ],
   "note": ""
  },
  {
   "property": "C11",
   "status": "partial",
   "theorems": [
    "C11_refuted",
    "C11_root_partial",
    "C11_insert_partial",
    "C11_others_partial",
    "C11_new_partial"
   ],
   "note": "False as stated (C11_refuted): the root handle is not updated for descendants. Exactly which insertions keep root() right is proved (C11_insert_partial), that all other calls do, and that root() is right in the document if only childless nodes and subtrees of the document are inserted into it."
  },
  {
   "property": "C12",
   "status": "proved",
   "theorems": [
    "C12_names_unique"
   ],
   "note": ""
  },
  {
   "property": "C13",
   "status": "proved",
   "theorems": [
    "C13_set",
    "C13_set_if_none",
    "C13_remove",
    "C13_read"
   ],
   "note": ""
  },
  {
   "property": "C14",
   "status": "proved",
   "theorems": [
    "C14_checked",
    "C14_set_panics"
   ],
   "note": ""
  },
  {
   "property": "C15",
   "status": "proved",
   "theorems": [
    "C15_mirror"
   ],
   "note": ""
  },
  {
   "property": "C16",
   "status": "proved",
   "theorems": [
    "C16_no_loops"
   ],
   "note": ""
  },
  {
   "property": "C17",
   "status": "proved",
   "theorems": [
    "C17_never_panics"
   ],
   "note": ""
  },
  {
   "property": "C18",
   "status": "proved",
   "theorems": [
    "C18_stored",
    "C18_always"
   ],
   "note": ""
  },
  {
   "property": "C19",
   "status": "partial",
   "theorems": [
    "C19_refuted",
    "C19_remove_partial",
    "C19_remove_links_partial"
   ],
   "note": "False as stated (C19_refuted): links with non-SVG names stay. Proved with that exception for every node with a finite subtree (exactly when the call returns, C20), and in full for orderly histories."
  },
  {
   "property": "C20",
   "status": "partial",
   "theorems": [
    "C20_refuted",
    "C20_exact_partial",
    "C20_remove_returns_partial"
   ],
   "note": "False as stated (C20_refuted): remove_node does not end on a cyclic document. It returns exactly for the nodes with a finite subtree (C20_exact_partial)."
  },
  {
   "property": "C21",
   "status": "proved",
   "theorems": [
    "C21_slots",
    "C21_detached"
   ],
   "note": ""
  },
  {
   "property": "C22",
   "status": "proved",
   "theorems": [
    "C22_drain",
    "C22_which",
    "C22_any_closure",
    "C22_returns"
   ],
   "note": "C22_drain for closures whose answers do not depend on earlier removals; C22_any_closure for all others. Returns exactly for nodes with a finite subtree (C22_returns)."
  },
  {
   "property": "C23",
   "status": "proved",
   "theorems": [
    "C23_copy"
   ],
   "note": ""
  },
  {
   "property": "C24",
   "status": "partial",
   "theorems": [
    "C24_refuted",
    "C24_copy_partial"
   ],
   "note": "False as stated (C24_refuted): panics when the id of a link target was cleared. Exact condition proved."
  },
  {
   "property": "C25",
   "status": "proved",
   "theorems": [
    "C25_deep",
    "C25_returns",
    "C25_panics",
    "C25_infinite"
   ],
   "note": "Returns exactly for finite subtrees whose nodes can be copied one by one (see C24), C25_returns."
  },
  {
   "property": "C26",
   "status": "partial",
   "theorems": [
    "C26_refuted",
    "C26_drop_partial",
    "C26_drop_orderly_partial",
    "C26_returns_partial",
    "C26_effect_partial",
    "C26_exact_partial"
   ],
   "note": "False as stated (C26_refuted): links made between removed nodes are not cut. Proved when removed nodes have no links, which holds for orderly histories. Exact for every reachable document: when drop panics, and what keeps what alive after it."
  },
  {
   "property": "C27",
   "status": "proved",
   "theorems": [
    "C27_svg_first"
   ],
   "note": "For any behaviour of roxmltree, simplecss and svgtypes (parameters of the model); success iff the first SVG element is svg."
  },
  {
   "property": "C28",
   "status": "proved",
   "theorems": [
    "C28_no_style"
   ],
   "note": ""
  },
  {
   "property": "C29",
   "status": "proved",
   "theorems": [
    "C29_no_empty_text"
   ],
   "note": ""
  },
  {
   "property": "C30",
   "status": "proved",
   "theorems": [
    "C30_tree",
    "C30_final_tree",
    "C30_stages",
    "C30_white"
   ],
   "note": "The tree before text processing exactly, and the final tree up to white space."
  },
  {
   "property": "C31",
   "status": "proved",
   "theorems": [
    "C31_parsed",
    "C31_any_references"
   ],
   "note": "The parser collects the references in document order; resolving is proved for every document and every list of references. An empty reference finds the root, whose id is empty, and is dropped."
  },
  {
   "property": "C32",
   "status": "partial",
   "theorems": [
    "C32_cascade_partial",
    "C32_exact_partial",
    "C32_last_value_refuted"
   ],
   "note": "False as stated (C32_last_value_refuted): references are resolved after all plain values are set, so a reference beats a later plain value. Proved for attributes without references and for attributes whose last valid declaration is a reference that is not refused. Invalid values do not count. C32_exact_partial gives the value of every attribute: the last reference not refused, else the last plain value."
  },
  {
   "property": "C33",
   "status": "proved",
   "theorems": [
    "C33_no_panic"
   ],
   "note": "For any behaviour of the crates below; panics inside of these crates are not modelled."
  },
  {
   "property": "C34",
   "status": "proved",
   "theorems": [
    "C34_attributes"
   ],
   "note": "Attributes come from the declarations of the element in the cascade."
  },
  {
   "property": "C35",
   "status": "proved",
   "theorems": [
    "C35_clamped"
   ],
   "note": ""
  },
  {
   "property": "C36",
   "status": "partial",
   "theorems": [
    "C36_sheet_partial",
    "C36_no_marker_partial",
    "C36_style_attribute_refuted"
   ],
   "note": "False as stated (C36_style_attribute_refuted): a style attribute stores marker itself. Proved for style sheets: spelling marker out gives the same document, and no marker attribute is stored."
  },
  {
   "property": "C37",
   "status": "partial",
   "theorems": [
    "C37_users_partial",
    "C37_exact_partial",
    "C37_style_reference_refuted"
   ],
   "note": "False as stated (C37_style_reference_refuted): references of style elements are resolved although the elements were removed. Proved when style elements declare no references; in every case a user outside of the tree is a removed node."
  },
  {
   "property": "C38",
   "status": "proved",
   "theorems": [
    "C38_trim"
   ],
   "note": "Every string, both modes."
  },
  {
   "property": "C39",
   "status": "proved",
   "theorems": [
    "C39_white_only"
   ],
   "note": "Every tame document of the kind the parser builds (see [textual]); includes that prepare_text returns."
  },
  {
   "property": "C40",
   "status": "proved",
   "theorems": [
    "C40_attributes",
    "C40_api"
   ],
   "note": "As C39; also the result is again a tame document."
  },
  {
   "property": "C41",
   "status": "proved",
   "theorems": [
    "C41_single"
   ],
   "note": "As C39."
  },
  {
   "property": "C42",
   "status": "partial",
   "theorems": [
    "C42_refuted",
    "C42_joined_partial",
    "C42_exact_partial"
   ],
   "note": "False as stated (C42_refuted): of two texts with outer white space the trailing one is kept. Proved when every text has ink (C42_joined_partial), and as an exact condition for texts that may be blank, each blank one after a visible one (C42_exact_partial): also a blank first text loses its effect on a following direct text with white space in front. Missing: several blank texts in a row."
  },
  {
   "property": "C43",
   "status": "partial",
   "theorems": [
    "C43_refuted",
    "C43_no_breaks_partial"
   ],
   "note": "False as stated (C43_refuted): elements that do not start with a text node are skipped. Proved for all other texts, and that the skipped ones do not change."
  },
  {
   "property": "C44",
   "status": "partial",
   "theorems": [
    "C44_refuted",
    "C44_mode_partial",
    "C44_preserve_partial",
    "C44_preserve_refuted"
   ],
   "note": "False as stated (C44_refuted): xml:space between the text element and the parent of a text is ignored. Proved otherwise. Texts in preserve mode may lose a trailing space (C44_preserve_refuted), but not if the last text is visible."
  },
  {
   "property": "C45",
   "status": "proved",
   "theorems": [
    "C45_tree"
   ],
   "note": "For documents in which only elements and the root have children, and any writers for the svgtypes values. The text buffer of the crate xmlwriter is not modelled: the output is the sequence of its calls."
  },
  {
   "property": "C46",
   "status": "partial",
   "theorems": [
    "C46_start_tags_partial",
    "C46_every_attribute_refuted"
   ],
   "note": "False as stated (C46_every_attribute_refuted): a unicode attribute that is not a string is skipped. All other attributes proved."
  },
  {
   "property": "C47",
   "status": "partial",
   "theorems": [
    "C47_unique_partial",
    "C47_exact_partial",
    "C47_custom_refuted",
    "C47_id_refuted"
   ],
   "note": "False as stated: a custom attribute can have the name of an SVG attribute (C47_custom_refuted), and an attribute with AttributeId::Id stands beside the id (C47_id_refuted). Proved without such attributes; and the exact condition for each start tag."
  },
  {
   "property": "C48",
   "status": "partial",
   "theorems": [
    "C48_namespaces_partial",
    "C48_exact_partial",
    "C48_elsewhere_refuted"
   ],
   "note": "False as stated (C48_elsewhere_refuted): a custom attribute can be called xmlns. Proved without such attributes; and exactly which names a start tag has."
  },
  {
   "property": "C49",
   "status": "partial",
   "theorems": [
    "C49_unicode_partial",
    "C49_exact_partial",
    "C49_document_partial",
    "C49_reference_refuted"
   ],
   "note": "False as stated (C49_reference_refuted): a string that starts with &# is written as it is. Proved for all other strings, and that no other string survives."
  },
  {
   "property": "C50",
   "status": "proved",
   "theorems": [
    "C50_values",
    "C50_text",
    "C50_document"
   ],
   "note": "Links in a unicode attribute are not written at all (see C46)."
  },
  {
   "property": "C51",
   "status": "proved",
   "theorems": [
    "C51_element_names",
    "C51_element_names_differ",
    "C51_attribute_names",
    "C51_attribute_names_differ"
   ],
   "note": ""
  },
  {
   "property": "C52",
   "status": "proved",
   "theorems": [
    "C52_lookup_total",
    "C52_as_str_total"
   ],
   "note": ""
  },
  {
   "property": "C53",
   "status": "proved",
   "theorems": [
    "C53_attribute_classes",
    "C53_element_classes",
    "C53_attributes_consistent",
    "C53_elements_consistent",
    "C53_nodes",
    "C53_attributes",
    "C53_attribute_methods",
    "C53_inheritable",
    "C53_node_methods"
   ],
   "note": ""
  },
  {
   "property": "C54",
   "status": "partial",
   "theorems": [
    "C54_preserve_partial",
    "C54_exact_partial",
    "C54_nested_refuted"
   ],
   "note": "False as stated (C54_nested_refuted): after a text element inside of a text element the flag is off. Proved otherwise; and the exact flag of each item in every document."
  },
  {
   "property": "C55",
   "status": "proved",
   "theorems": [
    "C55_links_to_elements"
   ],
   "note": ""
  },
  {
   "property": "C56",
   "status": "proved",
   "theorems": [
    "C56_parsed_by_api"
   ],
   "note": "The case without references in style elements is needed only for the last part."
  },
  {
   "property": "C57",
   "status": "partial",
   "theorems": [
    "C57_round_trip_partial",
    "C57_neighbours_refuted",
    "C57_not_escaped_refuted"
   ],
   "note": "False as stated: neighbouring text nodes come back as one (C57_neighbours_refuted), attribute values are not escaped (C57_not_escaped_refuted). Proved for all portable documents with settled texts (RoundSpec.v), for every indentation."
  },
  {
   "property": "C58",
   "status": "proved",
   "theorems": [
    "C58_values",
    "C58_kinds"
   ],
   "note": "Declarations are those of the cascade (C34), the table of values is ValueSpec.v; payloads of svgtypes values are opaque."
  },
  {
   "property": "C59",
   "status": "proved",
   "theorems": [
    "C59_display",
    "C59_debug",
    "C59_debug_references",
    "C59_attributes",
    "C59_attribute",
    "C59_same_as_file"
   ],
   "note": "A unicode attribute is printed unescaped, in contrast to the file; C59_same_as_file excludes it."
  },
  {
   "property": "C60",
   "status": "partial",
   "theorems": [
    "C60_initial",
    "C60_parsed_partial",
    "C60_parsed_refuted"
   ],
   "note": "False as stated (C60_parsed_refuted): the defaults of stroke-miterlimit (a length, parsed: a number) and glyph-orientation-horizontal (a string, parsed: an angle) are never the value of a parsed attribute. Proved for all other attributes, except fill in animation elements, which is not a paint there."
  },
  {
   "property": "C61",
   "status": "proved",
   "theorems": [
    "C61_tests",
    "C61_attribute_tests",
    "C61_link_container",
    "C61_attribute",
    "C61_integers",
    "C61_integers_differ",
    "C61_fallback",
    "C61_conversions"
   ],
   "note": "Floats are SpecFloat.spec_float."
  },
  {
   "property": "C62",
   "status": "proved",
   "theorems": [
    "C62_svg_element"
   ],
   "note": ""
  },
  {
   "property": "C63",
   "status": "proved",
   "theorems": [
    "C63_create_element",
    "C63_create_node",
    "C63_set_text",
    "C63_text_mut",
    "C63_set_id",
    "C63_set_tag_name"
   ],
   "note": ""
  },
  {
   "property": "C64",
   "status": "partial",
   "theorems": [
    "C64_refuted",
    "C64_edit_partial",
    "C64_exact_partial"
   ],
   "note": "False as stated (C64_refuted, three ways). Proved for edits that neither write nor overwrite a link and do not take the name of another attribute (the document stays one of the reachable ones), and exactly when links and users fit together after any edit (C64_exact_partial): iff the target stays the same."
  },
  {
   "property": "C65",
   "status": "partial",
   "theorems": [
    "C65_refuted",
    "C65_alive_partial",
    "C65_root_partial"
   ],
   "note": "False as stated (C65_refuted): root() of a detached node can be a freed node, and so can the parent of a node that was appended to a removed one. Proved for all getters but root() if removed nodes are not used, and for root() of nodes of the document in histories for which C11 is proved."
  },
  {
   "property": "C66",
   "status": "partial",
   "theorems": [
    "C66_refuted",
    "C66_freed_partial"
   ],
   "note": "False as stated (C66_refuted): removed nodes that are linked afterwards keep each other alive. Proved, with the converse, if removed nodes are not used."
  },
  {
   "property": "C67",
   "status": "partial",
   "theorems": [
    "C67_exact_partial",
    "C67_selects_partial",
    "C67_sheet_partial",
    "C67_adjacent_refuted",
    "C67_first_child_refuted"
   ],
   "note": "False as stated (C67_adjacent_refuted, C67_first_child_refuted): the previous sibling of an element is taken to be the element itself, so E + F selects what is both E and F and :first-child selects nothing. Exactly this is proved, and the full claim for selectors without + and :first-child."
  },
  {
   "property": "C68",
   "status": "proved",
   "theorems": [
    "C68_append",
    "C68_prepend",
    "C68_insert_after",
    "C68_insert_before",
    "C68_detach"
   ],
   "note": ""
  },
  {
   "property": "C69",
   "status": "proved",
   "theorems": [
    "C69_take_ref",
    "C69_take_mut",
    "C69_set_text",
    "C69_set_id",
    "C69_set_tag_name",
    "C69_remove_attribute",
    "C69_set_attribute",
    "C69_set_attribute_checked",
    "C69_set_attribute_if_none",
    "C69_copy_node",
    "C69_free"
   ],
   "note": ""
  },
  {
   "property": "C70",
   "status": "proved",
   "theorems": [
    "C70_children",
    "C70_children_back",
    "C70_move_all",
    "C70_detach_all"
   ],
   "note": "The body of the loop is any change of the document; C70_move_all and C70_detach_all are two such loops, for documents without a node that is its own parent."
  },
  {
   "property": "C71",
   "status": "partial",
   "theorems": [
    "C71_refuted",
    "C71_traverse_partial",
    "C71_descendants_partial"
   ],
   "note": "False as stated (C71_refuted): after the visited node is detached, its end has no next item, so the walk ends. Proved, for every sequence of changes, as long as what is ahead of the walk stays the same."
  },
  {
   "property": "C72",
   "status": "partial",
   "theorems": [
    "C72_refuted",
    "C72_append_partial",
    "C72_prepend_partial",
    "C72_insert_after_partial",
    "C72_insert_before_partial",
    "C72_detach_partial"
   ],
   "note": "False as stated (C72_refuted). Proved with exact conditions: unchanged if both nodes are the same or one of them has a guard; after every other panic navigation no longer shows any forest."
  },
  {
   "property": "C73",
   "status": "proved",
   "theorems": [
    "C73_remove_attribute",
    "C73_set_attribute_checked",
    "C73_set_attribute",
    "C73_set_attribute_if_none",
    "C73_copy_node"
   ],
   "note": "A panic of remove_attribute does not occur; the others are refused links and wrong node types."
  },
  {
   "property": "C74",
   "status": "partial",
   "theorems": [
    "C74_refuted",
    "C74_remove_attribute_partial",
    "C74_set_attribute_checked_partial",
    "C74_set_attribute_partial",
    "C74_set_attribute_if_none_partial",
    "C74_copy_node_partial"
   ],
   "note": "False as stated (C74_refuted). Proved with exact conditions when links and users are out of step; otherwise the document is unchanged."
  },
  {
   "property": "C75",
   "status": "proved",
   "theorems": [
    "C75_alone",
    "C75_calls",
    "C75_drop",
    "C75_call_apart",
    "C75_drop_apart",
    "C75_open_apart"
   ],
   "note": "The closures of drain see the state of all documents; they may look at nothing else."
  },
  {
   "property": "C76",
   "status": "partial",
   "theorems": [
    "C76_refuted",
    "C76_drop_refuted",
    "C76_trees_partial",
    "C76_links_partial",
    "C76_remove_partial",
    "C76_remove_tree_partial"
   ],
   "note": "False as stated (C76_refuted, C76_drop_refuted). Proved: trees are consistent after every program, links are symmetric until a document is dropped, and, for every finite subtree, exactly when remove_node returns and which places it frees (C76_remove_tree_partial)."
  },
  {
   "property": "C77",
   "status": "proved",
   "theorems": [
    "C77_bare",
    "C77_trees",
    "C77_slots",
    "C77_calls",
    "C77_drop",
    "C77_remove_attribute",
    "C77_remove_effect",
    "C77_remove_unwrap",
    "C77_remove_borrow",
    "C77_set_attribute",
    "C77_remove_node"
   ],
   "note": "Any list of attributes and any list of users can be written at any time, to any existing node."
  },
  {
   "property": "C78",
   "status": "proved",
   "theorems": [
    "C78_same_output",
    "C78_custom_order",
    "C78_resave"
   ],
   "note": "C78_custom_order shows that the condition on the order of custom attributes is needed. The documents that survive saving and loading are those of C57_round_trip_partial."
  },
  {
   "property": "C79",
   "status": "proved",
   "theorems": [
    "C79_remove_node",
    "C79_drain",
    "C79_copy_node_deep",
    "C79_drop",
    "C79_free"
   ],
   "note": "The closure of drain holds no guards of its own and its answer for the nodes that remain does not depend on what was removed before."
  },
  {
   "property": "C80",
   "status": "partial",
   "theorems": [
    "C80_refuted",
    "C80_remove_node_partial",
    "C80_drain_partial",
    "C80_copy_node_deep_partial",
    "C80_no_guards"
   ],
   "note": "False while the user holds guards: the panic may come in the middle of detach or remove_attribute, or of set_attribute on the copy. Proved: these are the only ways in which the document can be damaged, C72 and C74 say how; and without guards the claim holds. A panic of the closure of drain is C86; nodes freed by unwinding are not modelled."
  },
  {
   "property": "C81",
   "status": "partial",
   "theorems": [
    "C81_refuted",
    "C81_simple_partial",
    "C81_children_partial",
    "C81_traverse_partial",
    "C81_descendants_partial",
    "C81_loops_partial",
    "C81_chains_partial"
   ],
   "note": "False: next() of children() also borrows the last child that is left, and at the end the child yielded last; next() of descendants() also borrows the nodes it leaves; next() of traverse() does not borrow the node it began with at its end. Proved: the exact condition for each call of each iterator at any place, and that whole loops panic exactly as claimed, except that children() also borrows the node itself."
  },
  {
   "property": "C82",
   "status": "proved",
   "theorems": [
    "C82_to_string"
   ],
   "note": "An attribute `unicode` that is a link is not written and its target is not borrowed; the warn! there formats the value only if a logger is installed, which is not modelled."
  },
  {
   "property": "C83",
   "status": "partial",
   "theorems": [
    "C83_refuted",
    "C83_safe_partial",
    "C83_still_partial"
   ],
   "note": "False if the closure moves nodes: a closure that detaches the nodes it says yes to ends the walk early, one that moves them to the front never lets it end. Proved: the document left is always one that calls lead to; and the whole claim for closures that move no node (they may change attributes, ids, texts and tag names) and do not panic."
  },
  {
   "property": "C84",
   "status": "proved",
   "theorems": [
    "C84_calls",
    "C84_getters",
    "C84_histories",
    "C84_root"
   ],
   "note": "For histories of orderly calls. Iterators and the writer reach nodes by the getters of C84_getters and by strong pointers. C84_case shows that a removed node that is used again can be dead (as in C65)."
  },
  {
   "property": "C85",
   "status": "proved",
   "theorems": [
    "C85_display",
    "C85_debug",
    "C85_svg_element"
   ],
   "note": "The text itself is that of C59."
  },
  {
   "property": "C86",
   "status": "proved",
   "theorems": [
    "C86_asked",
    "C86_once",
    "C86_plain"
   ],
   "note": "The closure does not edit nodes here (see C83 for that). The user holds no guards."
  },
  {
   "property": "C87",
   "status": "proved",
   "theorems": [
    "C87_one_type",
    "C87_root",
    "C87_tag",
    "C87_plain",
    "C87_id",
    "C87_parent",
    "C87_attributes",
    "C87_svg_nodes",
    "C87_svg_attributes"
   ],
   "note": ""
  },
  {
   "property": "C88",
   "status": "partial",
   "theorems": [
    "C88_copy_refuted",
    "C88_insert_refuted",
    "C88_insert_partial",
    "C88_detach",
    "C88_attribute",
    "C88_setters",
    "C88_create",
    "C88_copy_partial",
    "C88_twice"
   ],
   "note": "False for copies with links that have custom names: a removed copy stays a user of their targets. False for a lone node inserted beside its own child: detach() then panics. Proved: the whole claim otherwise; that a detached node can be put back is proved for documents without cycles (see C06)."
  },
  {
   "property": "C89",
   "status": "partial",
   "theorems": [
    "C89_refuted",
    "C89_moves",
    "C89_changes_partial",
    "C89_refusal"
   ],
   "note": "False for two links that two nodes are to make to each other: the first one is made, the other refused. Proved for all pairs of calls neither of which links to the node that the other one changes."
  },
  {
   "property": "C90",
   "status": "proved",
   "theorems": [
    "C90_same",
    "C90_before",
    "C90_options",
    "C90_fixed"
   ],
   "note": "The options indent, attributes_indent and use_single_quote are passed on to xmlwriter, which is not modelled; C90_options and C90_fixed are about the options for values."
  },
  {
   "property": "C91",
   "status": "proved",
   "theorems": [
    "C91_step",
    "C91_history",
    "C91_results",
    "C91_svg_element",
    "C91_written",
    "C91_undone",
    "C91_custom_order_shows"
   ],
   "note": "C91_custom_order_shows: the order of attributes with names that are not SVG names shows in the output; C91_written gives the exact order that has to agree. Everything else is proved in full. root() is not compared (C07); linked_nodes_mut is not among the calls."
  },
  {
   "property": "C92",
   "status": "proved",
   "theorems": [
    "C92_parsed",
    "C92_written",
    "C92_selectors",
    "C92_named",
    "C92_same_attribute_shows"
   ],
   "note": "C92_same_attribute_shows: with two attributes that mean the same SVG attribute (id and xml:id) the last one counts, so the order shows; the property supposes that there are none. Rules of style sheets are supposed to apply to the same elements of both files; C92_selectors proves this for all rules made of CSS selectors."
  },
  {
   "property": "C93",
   "status": "proved",
   "theorems": [
    "C93_parsed",
    "C93_written",
    "C93_only_svg",
    "C93_only_svg_written",
    "C93_foreign_attributes",
    "C93_foreign_attributes_written",
    "C93_indentation",
    "C93_indentation_written",
    "C93_foreign",
    "C93_foreign_written",
    "C93_foreign_style_shows"
   ],
   "note": "C93_parsed and C93_written hold for any two files with the same SVG part (svg_of in ParserSpec.v); C93_only_svg applies them to the file without what is not SVG (only_svg in PartSpec.v), if no CSS rules come from the style sheets of either. C93_foreign_attributes: attributes of other namespaces can be left out whatever the CSS rules are; C93_indentation: so can white text outside text elements and processing instructions (tidy in PartSpec.v leaves style elements alone); C93_foreign: so can all elements that are no SVG elements, if no style sheet is in them. C93_foreign_style_shows: with rules this can change the result, because style sheets are read from elements of any namespace."
  },
  {
   "property": "C94",
   "status": "proved",
   "theorems": [
    "C94_attribute",
    "C94_parse",
    "C94_only",
    "C94_distinct",
    "C94_converted"
   ],
   "note": "C94_only: the variants UnsupportedCSS, DomError and InvalidAttributeValue of ParserError are never given to a caller. The message of an error of roxmltree is a parameter; positions are unbounded numbers shown as row:col."
  },
  {
   "property": "C95",
   "status": "partial",
   "theorems": [
    "C95_refuted",
    "C95_panic_shows",
    "C95_moves_partial",
    "C95_written_partial",
    "C95_detach"
   ],
   "note": "False for two nodes appended to the same node (C95_refuted), and one order may panic where the other does not (C95_panic_shows, see C06). Proved for all moves to different places, none next to the node that the other call moves, where both orders return; C95_detach has no such condition."
  },
  {
   "property": "C96",
   "status": "proved",
   "theorems": [
    "C96_last",
    "C96_detach_first"
   ],
   "note": "C96_detach_first is the way around the panics of C06_refuted. root() is left out, as in C95 (see C11)."
  },
  {
   "property": "C97",
   "status": "proved",
   "theorems": [
    "C97_attribute",
    "C97_setters",
    "C97_if_none"
   ],
   "note": ""
  }
 ]
}
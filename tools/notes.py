NOT_APPLICABLE = {}
NOTES = {
 'C01': 'Every reachable document: the six navigation functions describe one ordered forest, which is unique.',
 'C02': 'Whenever append returns; when it returns is C06.',
 'C03': 'Whenever prepend returns; when it returns is C06.',
 'C04': 'Whenever insert_after / insert_before return; when they return is C06.',
 'C05': 'detach panics iff the node is its own parent and misses a neighbour, which needs a cycle (C05_no_self).',
 'C06': 'False as stated (C06_refuted): moving a node next to a cell that must be rewritten panics with a double borrow. '
        'The _partial theorems give the exact condition, in every reachable document.',
 'C07': 'False as stated (C07_refuted): there is no ancestor check. A call makes a cycle iff it inserts a node into its own subtree.',
 'C11': 'False as stated (C11_refuted): the root handle is not updated for descendants. Exactly which insertions keep root() right is proved (C11_insert_partial), that all other calls do, and that root() is right in the document if only childless nodes and subtrees of the document are inserted into it.',
 'C19': 'False as stated (C19_refuted): links with non-SVG names stay. Proved with that exception for every node with a finite subtree (exactly when the call returns, C20), '
        'and in full for orderly histories.',
 'C20': 'False as stated (C20_refuted): remove_node does not end on a cyclic document. It returns exactly for the nodes with a finite subtree (C20_exact_partial).',
 'C24': 'False as stated (C24_refuted): panics when the id of a link target was cleared. Exact condition proved.',
 'C22': 'C22_drain for closures whose answers do not depend on earlier removals; C22_any_closure for all others. Returns exactly for nodes with a finite subtree (C22_returns).',
 'C25': 'Returns exactly for finite subtrees whose nodes can be copied one by one (see C24), C25_returns.',
 'C26': 'False as stated (C26_refuted): links made between removed nodes are not cut. Proved when removed nodes have no links, '
        'which holds for orderly histories. Exact for every reachable document: when drop panics, and what keeps what alive after it.',
 'C38': 'Every string, both modes.',
 'C39': 'Every tame document of the kind the parser builds (see [textual]); includes that prepare_text returns.',
 'C40': 'As C39; also the result is again a tame document.',
 'C41': 'As C39.',
 'C42': 'False as stated (C42_refuted): of two texts with outer white space the trailing one is kept. Proved when every text '
        'has ink (C42_joined_partial), and as an exact condition for texts that may be blank, each blank one after a visible one '
        '(C42_exact_partial): also a blank first text loses its effect on a following direct text with white space in front. '
        'Missing: several blank texts in a row.',
 'C43': 'False as stated (C43_refuted): elements that do not start with a text node are skipped. Proved for all other texts, '
        'and that the skipped ones do not change.',
 'C44': 'False as stated (C44_refuted): xml:space between the text element and the parent of a text is ignored. Proved otherwise. '
        'Texts in preserve mode may lose a trailing space (C44_preserve_refuted), but not if the last text is visible.',
 'C45': 'For documents in which only elements and the root have children, and any writers for the svgtypes values. '
        'The text buffer of the crate xmlwriter is not modelled: the output is the sequence of its calls.',
 'C46': 'False as stated (C46_every_attribute_refuted): a unicode attribute that is not a string is skipped. All other attributes proved.',
 'C47': 'False as stated: a custom attribute can have the name of an SVG attribute (C47_custom_refuted), and an attribute with '
        'AttributeId::Id stands beside the id (C47_id_refuted). Proved without such attributes; and the exact condition for each start tag.',
 'C48': 'False as stated (C48_elsewhere_refuted): a custom attribute can be called xmlns. Proved without such attributes; and exactly which names a start tag has.',
 'C49': 'False as stated (C49_reference_refuted): a string that starts with &# is written as it is. Proved for all other strings, and that no other string survives.',
 'C50': 'Links in a unicode attribute are not written at all (see C46).',
 'C54': 'False as stated (C54_nested_refuted): after a text element inside of a text element the flag is off. Proved otherwise; and the exact flag of each item in every document.',
 'C27': 'For any behaviour of roxmltree, simplecss and svgtypes (parameters of the model); success iff the first SVG element is svg.',
 'C30': 'The tree before text processing exactly, and the final tree up to white space.',
 'C31': 'The parser collects the references in document order; resolving is proved for every document and every list of references. '
        'An empty reference finds the root, whose id is empty, and is dropped.',
 'C32': 'False as stated (C32_last_value_refuted): references are resolved after all plain values are set, so a reference beats a later '
        'plain value. Proved for attributes without references and for attributes whose last valid declaration is a reference that is '
        'not refused. Invalid values do not count. C32_exact_partial gives the value of every attribute: the last reference not refused, else the last plain value.',
 'C33': 'For any behaviour of the crates below; panics inside of these crates are not modelled.',
 'C34': 'Attributes come from the declarations of the element in the cascade.',
 'C36': 'False as stated (C36_style_attribute_refuted): a style attribute stores marker itself. Proved for style sheets: spelling marker out '
        'gives the same document, and no marker attribute is stored.',
 'C37': 'False as stated (C37_style_reference_refuted): references of style elements are resolved although the elements were removed. '
        'Proved when style elements declare no references; in every case a user outside of the tree is a removed node.',
 'C57': 'False as stated: neighbouring text nodes come back as one (C57_neighbours_refuted), attribute values are not escaped (C57_not_escaped_refuted). Proved for all portable documents with settled texts (RoundSpec.v), for every indentation.',
 'C56': 'The case without references in style elements is needed only for the last part.',
 'C58': 'Declarations are those of the cascade (C34), the table of values is ValueSpec.v; payloads of svgtypes values are opaque.',
 'C59': 'A unicode attribute is printed unescaped, in contrast to the file; C59_same_as_file excludes it.',
 'C60': 'False as stated (C60_parsed_refuted): the defaults of stroke-miterlimit (a length, parsed: a number) and glyph-orientation-horizontal (a string, parsed: an angle) are never the value of a parsed attribute. Proved for all other attributes, except fill in animation elements, which is not a paint there.',
 'C61': 'Floats are SpecFloat.spec_float.',
 'C64': 'False as stated (C64_refuted, three ways). Proved for edits that neither write nor overwrite a link and do not take the name of another attribute (the document stays one of the reachable ones), and exactly when links and users fit together after any edit (C64_exact_partial): iff the target stays the same.',
 'C65': 'False as stated (C65_refuted): root() of a detached node can be a freed node, and so can the parent of a node that was appended to a removed one. Proved for all getters but root() if removed nodes are not used, and for root() of nodes of the document in histories for which C11 is proved.',
 'C67': 'False as stated (C67_adjacent_refuted, C67_first_child_refuted): the previous sibling of an element is taken to be the element itself, so E + F selects what is both E and F and :first-child selects nothing. Exactly this is proved, and the full claim for selectors without + and :first-child.',
 'C66': 'False as stated (C66_refuted): removed nodes that are linked afterwards keep each other alive. Proved, with the converse, if removed nodes are not used.',
 'C70': 'The body of the loop is any change of the document; C70_move_all and C70_detach_all are two such loops, for documents without a node that is its own parent.',
 'C71': 'False as stated (C71_refuted): after the visited node is detached, its end has no next item, so the walk ends. Proved, for every sequence of changes, as long as what is ahead of the walk stays the same.',
 'C72': 'False as stated (C72_refuted). Proved with exact conditions: unchanged if both nodes are the same or one of them has a guard; after every other panic navigation no longer shows any forest.',
 'C73': 'A panic of remove_attribute does not occur; the others are refused links and wrong node types.',
 'C74': 'False as stated (C74_refuted). Proved with exact conditions when links and users are out of step; otherwise the document is unchanged.',
 'C75': 'The closures of drain see the state of all documents; they may look at nothing else.',
 'C76': 'False as stated (C76_refuted, C76_drop_refuted). Proved: trees are consistent after every program, links are symmetric until a document is dropped, and, for every finite subtree, exactly when remove_node returns and which places it frees (C76_remove_tree_partial).',
 'C77': 'Any list of attributes and any list of users can be written at any time, to any existing node.',
 'C78': 'C78_custom_order shows that the condition on the order of custom attributes is needed. The documents that survive saving and loading are those of C57_round_trip_partial.',
 'C79': 'The closure of drain holds no guards of its own and its answer for the nodes that remain does not depend on what was removed before.',
 'C80': 'False while the user holds guards: the panic may come in the middle of detach or remove_attribute, or of set_attribute on the copy. Proved: these are the only ways in which the document can be damaged, C72 and C74 say how; and without guards the claim holds. A panic of the closure of drain is C86; nodes freed by unwinding are not modelled.',
 'C81': 'False: next() of children() also borrows the last child that is left, and at the end the child yielded last; next() of descendants() also borrows the nodes it leaves; next() of traverse() does not borrow the node it began with at its end. Proved: the exact condition for each call of each iterator at any place, and that whole loops panic exactly as claimed, except that children() also borrows the node itself.',
 'C82': 'An attribute `unicode` that is a link is not written and its target is not borrowed; the warn! there formats the value only if a logger is installed, which is not modelled.',
 'C83': 'False if the closure moves nodes: a closure that detaches the nodes it says yes to ends the walk early, one that moves them to the front never lets it end. Proved: the document left is always one that calls lead to; and the whole claim for closures that move no node (they may change attributes, ids, texts and tag names) and do not panic.',
 'C84': 'For histories of orderly calls. Iterators and the writer reach nodes by the getters of C84_getters and by strong pointers. C84_case shows that a removed node that is used again can be dead (as in C65).',
 'C85': 'The text itself is that of C59.',
 'C86': 'The closure does not edit nodes here (see C83 for that). The user holds no guards.',
 'C88': 'False for copies with links that have custom names: a removed copy stays a user of their targets. False for a lone node inserted beside its own child: detach() then panics. Proved: the whole claim otherwise; that a detached node can be put back is proved for documents without cycles (see C06).',
 'C89': 'False for two links that two nodes are to make to each other: the first one is made, the other refused. Proved for all pairs of calls neither of which links to the node that the other one changes.',
 'C90': 'The options indent, attributes_indent and use_single_quote are passed on to xmlwriter, which is not modelled; C90_options and C90_fixed are about the options for values.',
 'C91': 'C91_custom_order_shows: the order of attributes with names that are not SVG names shows in the output; C91_written gives the exact order that has to agree. Everything else is proved in full. root() is not compared (C07); linked_nodes_mut is not among the calls.',
 'C92': 'C92_same_attribute_shows: with two attributes that mean the same SVG attribute (id and xml:id) the last one counts, so the order shows; the property supposes that there are none. Rules of style sheets are supposed to apply to the same elements of both files; C92_selectors proves this for all rules made of CSS selectors.',
 'C93': 'C93_parsed and C93_written hold for any two files with the same SVG part (svg_of in ParserSpec.v); C93_only_svg applies them to the file without what is not SVG (only_svg in PartSpec.v), if no CSS rules come from the style sheets of either. C93_foreign_attributes: attributes of other namespaces can be left out whatever the CSS rules are; C93_indentation: so can white text outside text elements and processing instructions (tidy in PartSpec.v leaves style elements alone); C93_foreign: so can all elements that are no SVG elements, if no style sheet is in them. C93_foreign_style_shows: with rules this can change the result, because style sheets are read from elements of any namespace.',
 'C94': 'C94_only: the variants UnsupportedCSS, DomError and InvalidAttributeValue of ParserError are never given to a caller. The message of an error of roxmltree is a parameter; positions are unbounded numbers shown as row:col.',
 'C95': 'False for two nodes appended to the same node (C95_refuted), and one order may panic where the other does not (C95_panic_shows, see C06). Proved for all moves to different places, none next to the node that the other call moves, where both orders return; C95_detach has no such condition.',
 'C96': 'C96_detach_first is the way around the panics of C06_refuted. root() is left out, as in C95 (see C11).',
}

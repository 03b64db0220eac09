{"id": "C01", "title": "DOM navigation always describes one ordered forest", "statement": "After any sequence of API calls, parent/first_child/last_child/previous_sibling/next_sibling of every node agree with a single ordered forest: siblings form a duplicate-free list shared by all of its members, next/previous are list successor/predecessor, first/last child are the ends of the parent's child list, and a node's parent lists it exactly once as child.", "quantifier": "every finite history of document and node operations starting from Document::new(), every node", "why_tests_cant": "The five link fields are updated separately in each mutation; a test visits a handful of shapes, the claim is about every interleaving of moves.", "anchors": ["src/tree.rs: Node::{append,prepend,insert_after,insert_before,detach}, NodeData::detach", "src/document.rs: Document"]}
{"id": "C02", "title": "append moves the node to the end of the children", "statement": "When append returns, the new child is the last child of the target, it has left its previous position, the relative order of all other children of every node is unchanged, and the new child keeps its own children.", "quantifier": "every well formed tree, every pair of nodes for which the call returns", "why_tests_cant": "Ranges over every old position of the child and every child list length.", "anchors": ["src/tree.rs: Node::append, NodeData::detach"]}
{"id": "C03", "title": "prepend moves the node to the front of the children", "statement": "When prepend returns, the new child is the first child of the target, has left its previous position, all other orders are unchanged and its own children are kept.", "quantifier": "every well formed tree, every pair of nodes for which the call returns", "why_tests_cant": "Ranges over every old position of the child and every child list length.", "anchors": ["src/tree.rs: Node::prepend, NodeData::detach"]}
{"id": "C04", "title": "insert_after / insert_before place the node next to the reference node", "statement": "When insert_after (insert_before) returns, the new sibling is immediately after (before) the reference node in its sibling list, shares its parent, left its previous position, all other orders are unchanged and its own children are kept.", "quantifier": "every well formed forest (also parentless sibling chains), every pair of nodes for which the call returns", "why_tests_cant": "Ranges over every position of both nodes.", "anchors": ["src/tree.rs: Node::insert_after, Node::insert_before, NodeData::detach"]}
{"id": "C05", "title": "detach removes exactly one node from its sibling list", "statement": "After detach the node has no parent and no siblings, its children are untouched, and every other sibling list is the old one with only this node removed.", "quantifier": "every well formed forest, every node", "why_tests_cant": "Ranges over every position (first, middle, last, only) and every tree.", "anchors": ["src/tree.rs: Node::detach, NodeData::detach"]}
{"id": "C06", "title": "Tree mutations panic exactly when documented", "statement": "With no user-held borrow, append/prepend/insert_after/insert_before panic if and only if the call would need to borrow the same node twice; moving an arbitrary existing node (in particular an existing child of the same parent) to a new position does not panic.", "quantifier": "every well formed forest, every pair of nodes", "why_tests_cant": "RefCell conflicts depend on the relative position of the two nodes; tests only ever append fresh nodes.", "anchors": ["src/tree.rs: Node::append, Node::prepend, Node::insert_after, Node::insert_before"]}
{"id": "C07", "title": "The tree stays acyclic", "statement": "No API call makes a node its own ancestor.", "quantifier": "every history of API calls", "why_tests_cant": "One unchecked call is enough to make every traversal diverge; tests never insert an ancestor below its descendant.", "anchors": ["src/tree.rs: Node::append, Node::prepend, Node::insert_after, Node::insert_before"]}
{"id": "C08", "title": "children() yields each child exactly once from both ends", "statement": "For any interleaving of next() and next_back() on children(), the items from the front followed by the reversed items from the back are a prefix and a suffix of the child list, together each child is returned exactly once, and after that both return None forever.", "quantifier": "every node of every well formed tree, every finite sequence of next/next_back calls", "why_tests_cant": "Exponentially many interleavings for every list length.", "anchors": ["src/tree.rs: Children::{finished,next,next_back}, Node::children"]}
{"id": "C09", "title": "traverse()/descendants() are document order from both ends", "statement": "traverse() yields exactly the start and end edges of the subtree in document order and descendants() its pre-order; for any interleaving of next() and next_back() no edge is lost or repeated and the iteration terminates, also when the start node has siblings.", "quantifier": "every finite subtree of every well formed forest, every sequence of next/next_back calls", "why_tests_cant": "Unbounded trees and interleavings.", "anchors": ["src/tree.rs: NodeEdge::{next_item,previous_item}, Traverse, Descendants"]}
{"id": "C10", "title": "ancestors()/preceding_siblings()/following_siblings() are exact", "statement": "ancestors() yields the node, its parent, ... up to the top; preceding_siblings() and following_siblings() yield the node and then all earlier (nearest first) or later siblings; all of them terminate.", "quantifier": "every node of every well formed acyclic tree", "why_tests_cant": "Unbounded depth and width.", "anchors": ["src/tree.rs: Ancestors, PrecedingSiblings, FollowingSiblings, impl_node_iterator!"]}
{"id": "C11", "title": "root() returns the top of the tree", "statement": "Node::root() returns the node reached by following parent() until there is no parent (the node itself for a parentless node).", "quantifier": "every history of API calls, every node", "why_tests_cant": "The cached root pointer must be right after every order of construction and every detach.", "anchors": ["src/tree.rs: Node::root, Node::append, NodeData::detach"]}
{"id": "C12", "title": "Attribute names are unique within a node", "statement": "No node ever has two attributes with the same name.", "quantifier": "every history of API calls, every node", "why_tests_cant": "Quantifies over histories.", "anchors": ["src/attributes.rs: Attributes::insert, Attributes::remove", "src/node.rs: set_simple_attribute, set_link_attribute"]}
{"id": "C13", "title": "Attributes behave as an insertion ordered map", "statement": "After a successful set_attribute the named attribute has the stored value, all others keep value and order, and the written one is last; after remove_attribute the name is gone and all others keep value and order; has_attribute, get, get_value, len agree with that map; set_attribute_if_none changes nothing when the name is present.", "quantifier": "every node, attribute list, name and value", "why_tests_cant": "Unbounded lists, names and values.", "anchors": ["src/attributes.rs: Attributes", "src/node.rs: set_attribute_checked, remove_attribute, set_attribute_if_none"]}
{"id": "C14", "title": "set_attribute_checked fails exactly when documented and then changes nothing", "statement": "set_attribute_checked returns ElementMustHaveAnId iff the value links to a node with an empty id, ElementCrosslink iff (otherwise) the target has the same id or already links to this node, and Ok in every other case; on Err the whole document is unchanged.", "quantifier": "every reachable document, element, attribute name and value", "why_tests_cant": "Atomicity over all states.", "anchors": ["src/node.rs: set_attribute_checked_impl, set_link_attribute"]}
{"id": "C15", "title": "linked_nodes mirrors link attributes", "statement": "For all nodes a and b, a occurs in b.linked_nodes() exactly as many times as a has attributes whose value is a Link/FuncLink/Paint to b; hence uses_count() is the number of such attributes and is_used() is exact.", "quantifier": "every history of API calls (without raw access through attributes_mut/linked_nodes_mut), every pair of nodes", "why_tests_cant": "The back references are maintained by hand in set/remove/remove_node/copy/parse; any history could desynchronise them.", "anchors": ["src/node.rs: set_link_attribute, remove_attribute, linked_nodes, uses_count, is_used", "src/document.rs: _remove, copy_node"]}
{"id": "C16", "title": "No direct or mutual reference", "statement": "In no reachable document does a node link to itself, nor do two nodes link to each other.", "quantifier": "every history of API calls, every pair of nodes", "why_tests_cant": "Quantifies over histories.", "anchors": ["src/node.rs: set_link_attribute", "src/error.rs: Error::ElementCrosslink"]}
{"id": "C17", "title": "remove_attribute never panics", "statement": "remove_attribute (and therefore every set_attribute_checked) never panics: the index of the back reference always exists and no cell is borrowed twice.", "quantifier": "every history of API calls, every element and name", "why_tests_cant": "The source says 'this code can't panic, because we know that such node exist'; this is an invariant over histories.", "anchors": ["src/node.rs: remove_attribute"]}
{"id": "C18", "title": "Link values are stored in the shape the attribute name demands", "statement": "After a successful set_attribute_checked with a node value the stored value is Link for href, Paint for fill and stroke (with the given fallback), FuncLink for every other name; the target is the given node.", "quantifier": "every element, attribute name, link value", "why_tests_cant": "All names (including custom names) and all three link kinds.", "anchors": ["src/node.rs: set_link_attribute, From<(N, Node)> for Attribute"]}
{"id": "C19", "title": "remove_node leaves no trace of the removed subtree", "statement": "After remove_node(n): every node of the subtree of n is detached from the document, has no parent, siblings or children; no node outside has an attribute linking into the removed subtree and no node's linked_nodes contains a removed node; all other nodes keep their structure (minus n), data and remaining attributes.", "quantifier": "every reachable document, every node", "why_tests_cant": "Recursion over unbounded subtrees with links in both directions.", "anchors": ["src/document.rs: Document::remove_node, Document::_remove"]}
{"id": "C20", "title": "remove_node terminates and never panics, also when repeated", "statement": "remove_node returns normally for every node of every reachable document, also for a node that was already removed, in which case the structure is unchanged.", "quantifier": "every reachable document, every node", "why_tests_cant": "Iterates over children() while detaching them.", "anchors": ["src/document.rs: Document::_remove", "src/tree.rs: Children"]}
{"id": "C21", "title": "Node storage is exact", "statement": "In every reachable document each node that was created and not yet removed has its own storage slot which holds that node, different nodes have different slots, is_detached() is true exactly for removed nodes, and slab removal never hits a wrong or vacant key.", "quantifier": "every history of API calls on one document", "why_tests_cant": "Slot reuse depends on the whole history of removals and insertions.", "anchors": ["src/document.rs: Document::{new,create_element,create_node,_remove}", "slab::Slab (external, modelled)"]}
{"id": "C22", "title": "drain removes exactly the maximal matching nodes", "statement": "For a predicate that does not change while nodes are removed, drain(root, f) removes exactly those descendants of root (root excluded) that satisfy f and have no proper ancestor below root that satisfies f, together with their subtrees, returns their number, and keeps the order of everything else.", "quantifier": "every reachable document, every node with a finite subtree, every stable predicate", "why_tests_cant": "Iteration while removing, unbounded trees.", "anchors": ["src/document.rs: Document::drain, Document::_drain"]}
{"id": "C23", "title": "copy_node copies everything but the id", "statement": "copy_node returns a new parentless and childless node with the same type, tag, and attribute list (an element), respectively text (other types), and an empty id; the source and all other nodes are unchanged except that link targets gain one use per copied link.", "quantifier": "every reachable document, every node", "why_tests_cant": "All attribute lists and link structures.", "anchors": ["src/document.rs: Document::copy_node"]}
{"id": "C24", "title": "copy_node never panics", "statement": "copy_node and copy_node_deep return normally for every element, comment and text node.", "quantifier": "every reachable document, every non-root node", "why_tests_cant": "set_attribute unwraps an error that depends on the current state of the link target.", "anchors": ["src/document.rs: Document::copy_node", "src/node.rs: set_attribute"]}
{"id": "C25", "title": "copy_node_deep builds an isomorphic subtree", "statement": "copy_node_deep(n) returns a new parentless tree of new nodes, isomorphic to the subtree of n, where corresponding nodes are related as in copy_node; the source tree is unchanged.", "quantifier": "every reachable document, every finite subtree for which the call returns (C24 says when)", "why_tests_cant": "Unbounded trees; appends while iterating.", "anchors": ["src/document.rs: Document::copy_node_deep, Document::_make_deep_copy"]}
{"id": "C26", "title": "Dropping a document leaves no reference cycle", "statement": "After a Document is dropped no cycle of strong references remains between its nodes, so no node leaks.", "quantifier": "every history of API calls followed by a drop", "why_tests_cant": "Leaks are invisible to assertions and depend on the history.", "anchors": ["src/document.rs: impl Drop for Document"]}
{"id": "C27", "title": "A parsed document starts with an svg element", "statement": "If from_str succeeds, svg_element() is Some and the first SVG element among the children of the document root has the tag svg; if no such element exists the result is NoSvgElement.", "quantifier": "every XML tree, style sheet and behaviour of the value parsers", "why_tests_cant": "All inputs.", "anchors": ["src/parser/mod.rs: parse_svg, process_node"]}
{"id": "C28", "title": "No style elements survive parsing", "statement": "A successfully parsed document contains no style element at any depth.", "quantifier": "every XML tree, style sheet and behaviour of the value parsers", "why_tests_cant": "All inputs; the removal runs over a tree while it is being changed.", "anchors": ["src/parser/mod.rs: parse_svg", "src/document.rs: drain"]}
{"id": "C29", "title": "No empty text nodes survive parsing", "statement": "A successfully parsed document contains no text node with empty text.", "quantifier": "every XML tree, style sheet and behaviour of the value parsers", "why_tests_cant": "All inputs.", "anchors": ["src/parser/text.rs: prepare_text"]}
{"id": "C30", "title": "The parsed tree is the SVG part of the XML tree", "statement": "Before text preprocessing the element/comment/text tree equals the XML tree in which non-SVG elements are dropped with their content, style elements are dropped, and white-space-only text is kept only directly inside text, tspan and tref.", "quantifier": "every XML tree", "why_tests_cant": "Unbounded trees.", "anchors": ["src/parser/mod.rs: process_node"]}
{"id": "C31", "title": "References resolve to the first element with the id", "statement": "When an id reference in an attribute is resolved, the target is the first node in document order with this id; if there is none the attribute becomes the paint fallback, or none for fill, or the original reference text; a reference the API refuses (self reference, mutual reference, target without id) is dropped, and every other attribute is untouched.", "quantifier": "every parsed document, every list of collected references", "why_tests_cant": "All id distributions including duplicate ids.", "anchors": ["src/parser/mod.rs: resolve_links"]}
{"id": "C32", "title": "CSS cascade order", "statement": "For each attribute the value that survives parsing is the last one given in the order: presentation attribute, style sheet declarations in rule order, style attribute declarations.", "quantifier": "every element, attribute list, rule list and style attribute", "why_tests_cant": "All combinations of plain values and references.", "anchors": ["src/parser/mod.rs: process_node, parse_svg_attribute_value, resolve_links"]}
{"id": "C33", "title": "Parsing never panics", "statement": "from_str returns Ok or Err for every input; no unwrap, index, slice, borrow or assertion fails.", "quantifier": "every XML tree, style sheet and behaviour of the value parsers", "why_tests_cant": "All inputs.", "anchors": ["src/parser/mod.rs: parse_svg", "src/parser/text.rs: prepare_text, prepare_text_children"]}
{"id": "C34", "title": "Only known SVG attributes are stored; class, style and id are not", "statement": "After parsing no node has an attribute named class, style or id or an attribute with a custom name, the id of a node is the value of its id attribute, and all attributes of every element come from its own XML attributes, matched rules or style attribute.", "quantifier": "every XML tree, style sheet", "why_tests_cant": "All inputs.", "anchors": ["src/parser/mod.rs: process_node, parse_svg_attribute"]}
{"id": "C35", "title": "Opacity and k1..k4 values are clamped", "statement": "Each numeric value stored by the parser for opacity, fill-opacity, stroke-opacity, stop-opacity, flood-opacity and k1..k4 lies in [0, 1] (a NaN from the number parser stays NaN), and values already in the range are stored unchanged.", "quantifier": "every f64 result of the number parser", "why_tests_cant": "All floating point numbers including infinities, negative zero and NaN.", "anchors": ["src/parser/mod.rs: f64_bound, _parse_svg_attribute_value"]}
{"id": "C36", "title": "The marker shorthand sets all three marker properties", "statement": "A marker property in CSS, from a style sheet or from a style attribute, is equivalent to marker-start, marker-mid and marker-end with this value, and no marker attribute is stored.", "quantifier": "every element and value", "why_tests_cant": "Two code paths, all values.", "anchors": ["src/parser/mod.rs: parse_css_attribute_value, parse_style_attribute"]}
{"id": "C37", "title": "After parsing, users of a node are nodes of the document", "statement": "After from_str every node in linked_nodes() of a node of the document is itself a node of the document tree.", "quantifier": "every XML tree, style sheet", "why_tests_cant": "References are collected before style elements are removed and resolved afterwards.", "anchors": ["src/parser/mod.rs: parse_svg, resolve_links"]}
{"id": "C38", "title": "White space normalisation of a single string", "statement": "trim maps every CR, LF and TAB to a space; in preserve mode it changes nothing else; in default mode it also collapses every run of spaces to one space and changes nothing else; it is idempotent.", "quantifier": "every string, both modes", "why_tests_cant": "All strings.", "anchors": ["src/parser/text.rs: trim"]}
{"id": "C39", "title": "Text preprocessing only touches white space", "statement": "prepare_text never changes, reorders or removes a character other than space, tab, CR, LF in any text node, and never inserts characters.", "quantifier": "every document tree of the kind the parser builds: children only under elements and the root, xml:space a string", "why_tests_cant": "The pairwise algorithm edits two strings per step based on bytes read earlier.", "anchors": ["src/parser/text.rs: prepare_text, prepare_text_children, trim"]}
{"id": "C40", "title": "Text preprocessing leaves attributes alone", "statement": "After prepare_text every remaining node has exactly the attributes (names, values, order) it had before; the temporary xml:space attributes are gone.", "quantifier": "every document tree of the kind the parser builds: children only under elements and the root, xml:space a string", "why_tests_cant": "Temporary attributes are added in several places and removed later.", "anchors": ["src/parser/text.rs: get_xmlspace, set_xmlspace, prepare_text"]}
{"id": "C41", "title": "A single default-mode text has no outer white space", "statement": "After preprocessing, an element with a single text node in default mode has text without leading and trailing space and without double spaces; in preserve mode the text keeps its length.", "quantifier": "every string", "why_tests_cant": "All strings including multi-byte characters next to spaces.", "anchors": ["src/parser/text.rs: prepare_text_children"]}
{"id": "C42", "title": "No duplicated, leading or trailing spaces across text nodes", "statement": "If all text nodes of a text element are in default mode then after preprocessing the concatenation of its text nodes has no leading or trailing space and no two consecutive spaces.", "quantifier": "every tree of text nodes", "why_tests_cant": "Pairwise algorithm over unbounded lists of nodes with depths.", "anchors": ["src/parser/text.rs: prepare_text_children"]}
{"id": "C43", "title": "All text of a text element is normalised", "statement": "After parsing no text node contains CR, LF or TAB.", "quantifier": "every document tree of the kind the parser builds: children only under elements and the root, xml:space a string", "why_tests_cant": "Depends on the position of the text node among its siblings.", "anchors": ["src/parser/text.rs: _prepare_text, prepare_text_children"]}
{"id": "C44", "title": "xml:space is inherited from the nearest ancestor", "statement": "The mode used for a text node is given by the nearest ancestor with an xml:space attribute, default if there is none.", "quantifier": "every document tree of the kind the parser builds: children only under elements and the root, xml:space a string", "why_tests_cant": "All nestings.", "anchors": ["src/parser/text.rs: get_xmlspace, _prepare_text, prepare_text_children"]}
{"id": "C45", "title": "Written output is balanced and describes the tree", "statement": "The sequence of writer events (start element, attribute, text, comment, end element) of to_string is balanced, and a standard stack based reader rebuilds exactly the element/comment/text tree of the document.", "quantifier": "every well formed document whose tree is finite", "why_tests_cant": "Unbounded trees.", "anchors": ["src/writer.rs: write_dom"]}
{"id": "C46", "title": "Attribute order in the output", "statement": "Each start tag carries, in this order: namespace declarations (top level svg only), the id if non-empty, every SVG attribute exactly once sorted by AttributeId, and every custom attribute exactly once in insertion order, with its stored value.", "quantifier": "every element", "why_tests_cant": "All attribute lists.", "anchors": ["src/writer.rs: write_attributes"]}
{"id": "C47", "title": "Attribute names in a written start tag are unique", "statement": "No start tag is written with two attributes of the same name.", "quantifier": "every document", "why_tests_cant": "id, xmlns and custom names are written through separate paths.", "anchors": ["src/writer.rs: write_attributes"]}
{"id": "C48", "title": "xmlns and xmlns:xlink are written exactly when needed", "statement": "xmlns is written on each svg child of the document root and nowhere else, xmlns:xlink on it iff some node in its subtree has an href attribute; so every xlink:href written below it has a declared prefix.", "quantifier": "every document", "why_tests_cant": "Unbounded subtrees.", "anchors": ["src/writer.rs: write_attributes"]}
{"id": "C49", "title": "The unicode attribute survives writing", "statement": "Decoding the character references written for a unicode attribute yields the stored string.", "quantifier": "every string", "why_tests_cant": "All strings of code points.", "anchors": ["src/writer.rs: write_escaped"]}
{"id": "C50", "title": "Link values are written as references to the current id", "statement": "Link, FuncLink and Paint values are written as #id, url(#id) and url(#id) fallback with the id the target has at the time of writing, and reading such a reference back gives this id.", "quantifier": "every link value, every id without space and parenthesis, every fallback", "why_tests_cant": "All ids.", "anchors": ["src/attribute_value.rs: AttributeValue::write_buf_opt"]}
{"id": "C51", "title": "Names and ids are in bijection", "statement": "from_str(as_str(id)) = Some(id) for every ElementId and AttributeId, and from_str(s) = Some(id) only if as_str(id) = s; different ids have different names.", "quantifier": "every id and every string", "why_tests_cant": "Infinitely many strings go through a hash table.", "anchors": ["src/names.rs: ElementId::{from_str,as_str}, AttributeId::{from_str,as_str}, Map, hash, get_index"]}
{"id": "C52", "title": "Name lookup never panics", "statement": "from_str never overflows and never indexes out of bounds and as_str never fails.", "quantifier": "every string, every id", "why_tests_cant": "All hash values; debug builds panic on u32 overflow.", "anchors": ["src/names.rs: get_index, split, displace, Map::get, Map::key"]}
{"id": "C53", "title": "Attribute and element classes are consistent", "statement": "Every inheritable, fill or stroke attribute and every attribute with a known default is a presentation attribute; the event and core classes are disjoint from it; basic shapes are shapes, shapes are graphic elements, gradients are paint servers, and these are referenced elements; custom names and non-elements belong to no class. Each method holds for exactly the names of its class.", "quantifier": "every attribute and element name, every node", "why_tests_cant": "Relates several large match lists.", "anchors": ["src/attribute_type.rs: AttributeType", "src/element_type.rs: ElementType", "src/attribute_value.rs: default_value"]}
{"id": "C54", "title": "The writer preserves white space exactly inside text elements", "statement": "Everything written between the start tag and the end tag of a text element, end tag included, is written with white space preserved, and everything else without.", "quantifier": "every well formed document whose tree is finite", "why_tests_cant": "A flag is switched on and off while the tree is walked; its value at a node depends on all nodes before it.", "anchors": ["src/writer.rs: write_dom"]}
{"id": "C55", "title": "Links always point to elements", "statement": "In every history of calls that makes no cycle, the target of every link attribute is an element.", "quantifier": "every history without cycle-making calls, every node and attribute", "why_tests_cant": "An invariant over all histories.", "anchors": ["src/node.rs: set_link_attribute", "src/document.rs: remove_node"]}
{"id": "C56", "title": "A parsed document is a document the API could have made", "statement": "Every successfully parsed document is the result of a history of legal API calls that makes no cycle and only inserts childless nodes, never the root; if no style element declares references, the history also never uses a removed node. So every guarantee about such histories holds for parsed documents.", "quantifier": "every XML tree, style sheet and behaviour of the value parsers", "why_tests_cant": "Transfers invariants over all histories to all inputs.", "anchors": ["src/parser/mod.rs: parse_svg", "src/document.rs: Document::from_str"]}
{"id": "C57", "title": "Writing a document and parsing the output gives the document back", "statement": "If a document is written and the output is read as XML and parsed, the result has a tree of the same shape with the same node types, tag names, ids, texts, comments and attributes, and every reference leads to the node at the same place - whatever white space the writer adds for indentation.", "quantifier": "every reachable document whose tree is finite, every reading of the output, every behaviour of the value parsers and printers that reads back what it wrote", "why_tests_cant": "All documents; the whole pipeline of writer, XML reader, parser, reference resolution and text processing is involved.", "anchors": ["src/writer.rs: write_dom, write_attributes", "src/parser/mod.rs: parse_svg, parse_element, resolve_links", "src/parser/text.rs: prepare_text"]}
{"id": "C58", "title": "Every value of a parsed document is a declared value, of the type the attribute has in SVG", "statement": "Every attribute of every element of a parsed document has a value that one of the declarations of this element gives when it is read as the attribute's keywords and type say: coordinates of text elements are lists, opacities are clamped to 0..1, a reference is the node with this id or its replacement; so its kind is one of the few kinds of this attribute, whatever the input is.", "quantifier": "every XML tree, style sheet, behaviour of the value parsers, element and attribute", "why_tests_cant": "Ranges over all inputs; the type of a value depends on the attribute, on the element and on references found later.", "anchors": ["src/parser/mod.rs: _parse_svg_attribute_value, parse_svg_attribute_value, parse_css_attribute_value, resolve_links"]}
{"id": "C59", "title": "Printing a node shows its start tag", "statement": "Display and Debug of nodes and attributes never panic. An element prints as a start tag with its id and its attributes in stored order, the names and values being those of the written file; Debug also lists the ids of exactly the nodes that link to it.", "quantifier": "every node of every document, every attribute list, every behaviour of the value printers", "why_tests_cant": "Ranges over all documents; compares two different pieces of output code.", "anchors": ["src/writer.rs: write_element_content, Debug and Display for NodeData", "src/attributes.rs: Display for Attributes", "src/attribute.rs: Display for Attribute", "src/name.rs: Display for QName"]}
{"id": "C60", "title": "Default values are what the parser reads", "statement": "The default value of an attribute is the initial value of SVG 1.1, and it is the value the parser gives for the text of this initial value, so that attributes with default values can be recognised by comparison.", "quantifier": "every attribute name, every element, every behaviour of the value parsers that reads the constants of SVG 1.1", "why_tests_cant": "Relates two large match lists, over all attributes and elements.", "anchors": ["src/attribute_value.rs: AttributeValue::default_value", "src/parser/mod.rs: _parse_svg_attribute_value"]}
{"id": "C61", "title": "Tests and conversions of values agree", "statement": "Every is_* test of a value or an attribute holds for exactly one kind of values; is_link_container holds exactly when the value contains a node; id, has_id, is_svg and new_default agree with the name; every 32 bit integer converts to exactly this number, so different integers give different values; a paint fallback converts to the value the parser uses for it; all other conversions give a value of the kind of their source and lose nothing.", "quantifier": "every value, attribute and 32 bit integer", "why_tests_cant": "2^32 integers and all values.", "anchors": ["src/attribute_value.rs: impl_is_type, From instances, is_link_container", "src/attribute.rs: Attribute"]}
{"id": "C62", "title": "svg_element() finds the svg element", "statement": "In every document svg_element() gives the first child of the root node that is an element with the SVG tag name svg; it gives None exactly when there is no such child. Comments, other elements and elements with a custom name do not matter.", "quantifier": "every document reachable by API calls, cyclic ones included", "why_tests_cant": "Ranges over all documents.", "anchors": ["src/document.rs: svg_element", "src/node.rs: FilterSvg"]}
{"id": "C63", "title": "New nodes stand alone, and setters change what they name", "statement": "create_element and create_node give a node that was not there before, without attributes, links, relatives and id, with the given tag name or text, and change nothing else; they panic only for an empty tag name or a wrong node type. set_text, text_mut, set_id and set_tag_name change this field of this node only, and panic only on nodes of the wrong type or for an empty name.", "quantifier": "every document and every argument", "why_tests_cant": "Ranges over all histories before the call and over all other nodes.", "anchors": ["src/document.rs: create_element, create_node", "src/node.rs: set_text, text_mut, set_id, set_tag_name"]}
{"id": "C64", "title": "Editing attributes in place keeps the document consistent", "statement": "After an attribute was edited in place through attributes_mut, names are still unique, links and lists of users still agree, no later call panics because of it, and no other attribute or node changed.", "quantifier": "every document, node, attribute name and new attribute", "why_tests_cant": "Ranges over all edits and all later calls.", "anchors": ["src/node.rs: attributes_mut, remove_attribute, linked_nodes"]}
{"id": "C65", "title": "Getters never meet a freed node", "statement": "Whatever handles the user drops, parent, first and last child, siblings, link targets, users and root() of a node the user still holds are alive, so that no getter panics on a dead pointer or loses a relative.", "quantifier": "every history, every set of handles kept, every node", "why_tests_cant": "Depends on reference counts after arbitrary histories and drops.", "anchors": ["src/tree.rs: root, parent, last_child, previous_sibling, detach", "src/document.rs: remove_node, storage"]}
{"id": "C66", "title": "Removed nodes are freed", "statement": "A node that was removed from the document is freed as soon as the user holds no handle to it, and nodes that were not removed are not freed while the document lives.", "quantifier": "every history, every set of handles kept, every node", "why_tests_cant": "Depends on reference counts after arbitrary histories; leaks have no visible effect in a test.", "anchors": ["src/document.rs: remove_node, storage", "src/node.rs: linked_nodes"]}
{"id": "C67", "title": "CSS rules reach exactly the elements their selectors describe", "statement": "The declarations of a style sheet rule are applied to an element of the XML document if and only if the selector of the rule selects the element as CSS 2.1 says: tag names, attribute, class and id conditions, :first-child, descendants, children and adjacent siblings.", "quantifier": "every XML document, every element of it, every selector, every test of attribute values", "why_tests_cant": "Ranges over all trees and all compositions of selectors.", "anchors": ["src/parser/mod.rs: XmlNode::{parent_element, prev_sibling_element, has_local_name, attribute_matches, pseudo_class_matches}"]}
{"id": "C68", "title": "Moving nodes under guards", "statement": "While the user holds guards (Ref or RefMut) of some nodes, append, prepend, insert_after, insert_before and detach do exactly what they do without guards, or they panic. They panic because of a guard exactly if a node with a guard gets another parent, child or sibling, or is itself the node to detach.", "quantifier": "every document, node and position, every set of guards", "why_tests_cant": "Ranges over all documents and sets of guards; which cells a call borrows depends on the tree.", "anchors": ["src/tree.rs: detach, append, prepend, insert_after, insert_before"]}
{"id": "C69", "title": "Attribute calls under guards", "statement": "A guard can be taken if and only if no guard stands against it. While the user holds guards, set_text, set_id and set_tag_name panic because of a guard exactly if the node has one; setting or removing an attribute exactly if the node, the node the new value links to or the node the old value links to has one; a refused link or a missing attribute needs no write and meets only RefMut guards; copy_node meets guards of the link targets only. Otherwise the result is the one without guards.", "quantifier": "every document, node, attribute, value and set of guards", "why_tests_cant": "Ranges over all documents and sets of guards; the nodes written depend on stored links.", "anchors": ["src/node.rs: attributes, attributes_mut, text_mut, set_text, set_id, set_tag_name, set_attribute, set_attribute_checked, set_attribute_if_none, remove_attribute", "src/document.rs: copy_node"]}
{"id": "C70", "title": "Loops over children() may take the current child away", "statement": "A loop over children(), in either direction, visits every child exactly once and in order, even if its body detaches, removes or moves the child it was given or changes anything else, as long as the children not yet visited stay in place at the end (backwards: at the beginning) of the list. So appending all children of a node to another node in such a loop moves all of them in order, and detaching them in a loop leaves none.", "quantifier": "every document, every sequence of changes between the calls of next()", "why_tests_cant": "Ranges over all histories of changes between two steps of the iterator.", "anchors": ["src/tree.rs: Children::next, Children::next_back, Children::finished, append, detach"]}
{"id": "C71", "title": "Nodes can be taken away while walking through descendants()", "statement": "If the body of a loop over descendants() or traverse() takes away the node it was given, or changes nodes the walk has left behind, the walk goes on with the nodes that are still ahead and visits each of them once, in order.", "quantifier": "every document, every sequence of changes between the calls of next()", "why_tests_cant": "Ranges over all histories of changes between two steps of the iterator.", "anchors": ["src/tree.rs: Traverse::next, Descendants::next, NodeEdge::next_item"]}
{"id": "C72", "title": "A panicking move leaves the tree as it was", "statement": "If append, prepend, insert_after, insert_before or detach panics and the panic is caught, navigation gives the same answers as before the call.", "quantifier": "every document, every pair of nodes, every set of guards the user holds", "why_tests_cant": "Ranges over all documents and over every point at which a call can panic.", "anchors": ["src/tree.rs: detach, append, prepend, insert_after, insert_before"]}
{"id": "C73", "title": "Panicking attribute calls leave a usable document", "statement": "While the user holds no guard: if remove_attribute, set_attribute, set_attribute_checked or set_attribute_if_none panics and the panic is caught, the document is as before the call. If copy_node panics, the document is as before, or as after creating one element and setting some attributes: the new element has the attributes in front of the first link to a node without id, and nothing else has changed.", "quantifier": "every document, node, attribute and value", "why_tests_cant": "Ranges over all documents and over every point at which a call can panic.", "anchors": ["src/node.rs: remove_attribute, set_attribute, set_attribute_checked, set_attribute_if_none", "src/document.rs: copy_node"]}
{"id": "C74", "title": "Panicking attribute calls under guards keep links and users in step", "statement": "While the user holds guards: if an attribute call or copy_node panics and the panic is caught, linked_nodes of every node still lists exactly the elements that link to it.", "quantifier": "every document, node, attribute and value, every set of guards", "why_tests_cant": "Ranges over all documents, sets of guards and points at which a call can panic.", "anchors": ["src/node.rs: remove_attribute, set_attribute, set_attribute_checked, set_attribute_if_none, linked_nodes", "src/document.rs: copy_node"]}
{"id": "C75", "title": "Documents do not influence each other", "statement": "A program with any number of documents, opened and dropped at any time, that passes to each document only nodes made by it: each document behaves as if it were the only one. Its state is one that calls on a single document reach, each call and its drop has the same outcome there, and a call, a drop or a new document leaves the nodes, links and storage of all other documents as they were.", "quantifier": "every program with any number of documents, every interleaving of their calls and drops", "why_tests_cant": "Ranges over all programs and interleavings.", "anchors": ["src/document.rs: Document::new, create_element, remove_node, drain, copy_node_deep, Drop", "src/tree.rs: tree API", "src/node.rs: attribute API"]}
{"id": "C76", "title": "Nodes can be passed to another document", "statement": "A node made by one document can be moved into the tree of another, linked from there and removed by the other document: all trees stay consistent, links and users stay in step, remove_node frees the node and no other, and dropping a document changes nothing in the others.", "quantifier": "every program with any number of documents that mixes their nodes", "why_tests_cant": "Ranges over all programs and interleavings.", "anchors": ["src/document.rs: remove_node, drain, Drop", "src/tree.rs: append, prepend, insert_after, insert_before, detach", "src/node.rs: set_attribute"]}
{"id": "C77", "title": "Raw edits of attributes and users break nothing else", "statement": "Whatever a program writes into attribute lists through attributes_mut and into lists of users through linked_nodes_mut, the tree, the storage, the names, ids and texts stay those of a document reached without such edits: navigation stays consistent, the calls that do not read attributes and the drop have the same outcome. remove_attribute panics exactly when the first attribute of that name is a link whose target does not list the node as a user or is the node itself; set_attribute_checked panics exactly when in addition it does not answer with an error, or the node is no element; remove_node removes the whole subtree or panics in the same way.", "quantifier": "every document, every history of calls mixed with arbitrary edits through attributes_mut and linked_nodes_mut", "why_tests_cant": "Ranges over all histories and all values written by the program.", "anchors": ["src/node.rs: attributes_mut, linked_nodes_mut, remove_attribute, set_attribute_checked", "src/document.rs: remove_node, Drop"]}
{"id": "C78", "title": "Documents with the same content are written alike, and saving is stable", "statement": "Two documents with the same trees, names, ids, texts and attributes, whose references lead to the same places and whose custom attributes are stored in the same order, give the same output: neither the order in which nodes were made nor the order in which SVG attributes were set matters. A document that survives being saved and loaded gives, when saved again, the same output as the first time.", "quantifier": "every pair of documents, every history that made them; every document that is written, read as XML with any added white space, parsed and written again", "why_tests_cant": "Ranges over all documents, histories and ways to indent the output.", "anchors": ["src/writer.rs: write_dom, write_attributes", "src/document.rs: to_string_with_opt", "src/parser/mod.rs: parse_svg"]}
{"id": "C79", "title": "Document calls under guards", "statement": "While the user holds guards, remove_node, drain, copy_node_deep and the drop of the document do what they do without guards, or panic. remove_node panics because of a guard exactly if a removed node, or a node whose attributes, users or neighbours change, has one, or an element that links to a removed node has a RefMut. drain panics in these cases and if a node it walks over has a RefMut. copy_node_deep panics exactly if a copied node has a RefMut or the target of a link of a copied element has a guard. The drop panics exactly if a node of the document, or one that gets other neighbours, has a guard.", "quantifier": "every document, every finite subtree, every predicate for drain that depends on the node alone, every set of guards", "why_tests_cant": "Ranges over all documents and sets of guards; the nodes written depend on the tree and on stored links.", "anchors": ["src/document.rs: remove_node, drain, copy_node_deep, Drop for Document"]}
{"id": "C80", "title": "Document calls stopped by a caught panic", "statement": "If remove_node, drain or copy_node_deep panics and the program catches the panic and goes on, the document is one that other calls lead to. After remove_node and drain it has lost attributes, users and places of nodes in the tree at most; after copy_node_deep all nodes that were there are as they were, but for their users.", "quantifier": "every document, every node, every predicate for drain, every set of guards the user holds", "why_tests_cant": "Ranges over all documents and all points at which the call may be stopped.", "anchors": ["src/document.rs: remove_node, drain, copy_node_deep", "src/tree.rs: detach, append", "src/node.rs: remove_attribute, set_attribute"]}
{"id": "C81", "title": "Iterators under guards", "statement": "While the user holds guards, a call of next() or next_back() of an iterator panics exactly if the node about to be yielded has a RefMut, and otherwise yields what it yields without guards. A loop over an iterator panics exactly if it would yield a node that has a RefMut.", "quantifier": "every document, every node, every place of the iteration (any mix of next() and next_back() before), every set of guards", "why_tests_cant": "Ranges over all trees, all places of an iteration and all sets of guards.", "anchors": ["src/tree.rs: Ancestors, PrecedingSiblings, FollowingSiblings, Children, Descendants, Traverse, NodeEdge"]}
{"id": "C82", "title": "Writing under guards", "statement": "While the user holds guards, to_string writes exactly what it writes without guards if no node of the tree under the root has a RefMut and no target of a link that is written has one; otherwise it panics. Ref guards never matter, nor guards of other nodes.", "quantifier": "every document with a finite tree, every set of guards", "why_tests_cant": "Ranges over all documents and all sets of guards.", "anchors": ["src/writer.rs: write_dom, write_attributes", "src/attribute_value.rs: WriteBuffer for AttributeValue", "src/document.rs: to_string_with_opt"]}
{"id": "C83", "title": "Draining with a closure that edits nodes", "statement": "If the closure given to drain edits nodes, drain still returns, the document is then one that calls lead to, and every node left below the given node is one the closure said no to. The number returned is the number of nodes the closure said yes to.", "quantifier": "every document, every node, every closure that makes any calls of Node (but not of Document, which drain has borrowed)", "why_tests_cant": "Ranges over all documents and all closures; drain walks a tree that changes under it.", "anchors": ["src/document.rs: drain, remove_node", "src/tree.rs: first_child, next_sibling"]}
{"id": "C84", "title": "Dropping handles", "statement": "Whichever handles of nodes the user has dropped, and whenever, each call gives what it gives if all handles are kept: the nodes that parents, last children and previous siblings point to weakly are never dead. This holds as long as removed nodes are not used again and links have SVG attribute names; root() gives the root of the document for its nodes in the histories of the property about root().", "quantifier": "every such history of calls, every choice of dropped handles at every moment", "why_tests_cant": "Ranges over all histories and over all moments at which nodes may be freed.", "anchors": ["src/tree.rs: parent, last_child, previous_sibling, root, detach, append, prepend, insert_after, insert_before", "src/document.rs: remove_node, drain, copy_node_deep"]}
{"id": "C85", "title": "Printing nodes under guards", "statement": "While the user holds guards, printing a node with {} panics exactly if the node has a RefMut or, for an element, a node that one of its attributes is a link to has one; with {:?} also if a user of the element has one; otherwise the text is what it is without guards. svg_element() panics exactly if the root node, the last of its children, or one of its children up to the svg element has a RefMut, and otherwise gives what it gives without guards.", "quantifier": "every document, every node, every set of guards", "why_tests_cant": "Ranges over all documents and all sets of guards.", "anchors": ["src/writer.rs: Debug for NodeData, Display for NodeData, write_element_content", "src/tree.rs: Debug for Node, Display for Node", "src/attributes.rs: Display for Attributes", "src/document.rs: svg_element", "src/node.rs: FilterSvg"]}
{"id": "C86", "title": "What drain asks its closure", "statement": "drain asks its closure about each node below the given one at most once, in document order, leaving out the nodes below those it said yes to; when it has said yes to a node, the node is removed before the next question. If the closure panics, no more questions are asked and the document is what the removals so far make of it: consistent, and one that calls lead to.", "quantifier": "every document, every node with a finite tree below it, every closure with any memory of its own that may answer differently each time or panic at any question", "why_tests_cant": "Ranges over all documents and all closures; the point of the panic is arbitrary.", "anchors": ["src/document.rs: drain, _drain, remove_node", "src/tree.rs: first_child, next_sibling"]}
{"id": "C87", "title": "The questions about a node agree", "statement": "After every history each node has exactly one type and the root of the document is the only root node; exactly the elements have a tag name, is_svg_element, tag_id and has_tag_name agree with it, and nodes of other types have no id, attributes and links; has_parent holds exactly for nodes below a node other than the root; has_attribute, get, get_value, len and is_empty agree; svg() gives exactly the SVG elements or attributes of an iterator, in order, each with its id.", "quantifier": "every document, every node, every name, every list of nodes or attributes", "why_tests_cant": "Ranges over all histories before the question.", "anchors": ["src/node.rs: has_parent, node_type, is_root, is_element, is_comment, is_text, has_id, is_svg_element, tag_id, has_tag_name, has_attribute, FilterSvg", "src/attributes.rs: get, get_value, contains, len, is_empty, FilterSvgAttrs"]}
{"id": "C88", "title": "Opposite calls undo each other", "statement": "A call followed by the opposite call leaves the nodes, their places in the trees, ids, texts, tag names, attributes and links as they were, except for the order in which users of a node are listed: append, prepend, insert_after or insert_before of a node that stands alone and detach; detach and the insertion beside a former sibling, or as first or last child if it was that; set_attribute of a new attribute and remove_attribute; setting an id, text or tag name and setting the old one; create_element, create_node or copy_node_deep and remove_node. A second detach, or a second set_attribute with the same attribute, changes nothing.", "quantifier": "every document, every node, every attribute, every insertion", "why_tests_cant": "Ranges over all histories before the calls and all links between the nodes.", "anchors": ["src/tree.rs: append, prepend, insert_after, insert_before, detach", "src/node.rs: set_attribute, remove_attribute, set_id, set_text, set_tag_name", "src/document.rs: create_element, create_node, copy_node_deep, remove_node"]}
{"id": "C89", "title": "Calls that concern different things can change places", "statement": "A call that moves nodes and a call that changes the text, id, tag name or attributes of a node give the same document in either order. Two calls that change two different nodes give the same document in either order, except for the order in which users are listed; and whether a link is refused does not depend on changes of other nodes.", "quantifier": "every document, every pair of such calls", "why_tests_cant": "Ranges over all histories before the calls and all pairs of calls.", "anchors": ["src/tree.rs: append, prepend, insert_after, insert_before, detach", "src/node.rs: set_text, text_mut, set_id, set_tag_name, set_attribute, set_attribute_checked, set_attribute_if_none, remove_attribute, attributes_mut"]}
{"id": "C90", "title": "What is written depends only on what can be seen", "statement": "Two documents whose trees carry the same node types, tag names, ids, texts and attributes, with links to nodes of the same ids, are written in the same way, whatever calls made them, in which order their nodes were created and in which order users are listed. The options for writing values change attribute values only: tags, names, texts and the order of everything stay. Strings, keywords and references are written alike under all options.", "quantifier": "every two documents made by any two histories, every choice of the value options", "why_tests_cant": "Ranges over pairs of histories and over all options.", "anchors": ["src/writer.rs: write_dom, write_attributes", "src/attribute_value.rs: write_buf_opt", "src/document.rs: to_string_with_opt"]}
{"id": "C91", "title": "Nothing depends on the order in which attributes and users are kept", "statement": "Take two documents with the same nodes, trees and contents whose nodes list the same attributes and the same users in different orders. Every call that is possible on one is possible on the other, it returns, panics or runs forever alike, it gives back the same value, and afterwards the documents again differ in these orders only; so no sequence of calls tells them apart. They are also written in the same way, except that attributes with non-SVG names are written in the order in which they are kept. So no later call can tell that earlier calls were undone.", "quantifier": "every two such documents made by any histories, every sequence of calls, every closure for drain that does not look at the order", "why_tests_cant": "Ranges over pairs of documents and over all later histories.", "anchors": ["src/node.rs: set_attribute, set_attribute_checked, remove_attribute, linked_nodes", "src/document.rs: remove_node, drain, copy_node, copy_node_deep, svg_element", "src/attributes.rs: Attributes", "src/writer.rs: write_attributes"]}
{"id": "C92", "title": "The order of XML attributes does not matter", "statement": "Reordering the attributes of the elements of an SVG file changes nothing: both files are refused with the same error, or both give documents with the same nodes, trees, ids, texts and attributes, which differ at most in the order in which attributes and users are kept, and which are written in the same way. It is supposed that no element has two attributes that mean the same SVG attribute, as id and xml:id, or href and xlink:href, do: then the last one counts.", "quantifier": "every XML document, every reordering of the attributes of all its elements, every style sheet", "why_tests_cant": "Ranges over all documents and all permutations of the attributes of all elements.", "anchors": ["src/parser/mod.rs: parse_svg, process_node, parse_svg_attribute, parse_style_attribute, resolve_css, resolve_links, XmlNode"]}
{"id": "C93", "title": "What is not SVG does not matter", "statement": "What a parse gives depends on the SVG part of the file only. Two files with the same SVG part are refused with the same error, or give documents which differ at most in the order in which attributes and users are kept and which are written in the same way. So elements of other namespaces and unknown elements with all that is in them, attributes of other namespaces and unknown attributes, white text outside text elements, and processing instructions can be left out of a file without style sheets and nothing changes. With style sheets this holds as well, if no style sheet is in what is left out, what is in style elements is left alone, and attributes without namespace, which selectors can see, stay. A style sheet in an element of another namespace does count.", "quantifier": "every pair of XML documents with the same SVG part; every XML document from whose style sheets no rules come", "why_tests_cant": "Ranges over all documents, all foreign content in all places and all write options.", "anchors": ["src/parser/mod.rs: parse_svg, process_node, parse_svg_element, parse_svg_attribute, resolve_css"]}
{"id": "C94", "title": "Error messages tell what went wrong", "statement": "If set_attribute_checked fails, the document is as before, and the message says that the element must have an id exactly if the target of the link has none, and element crosslink exactly if the target has the id of the element or links to it. from_str always returns; if the text is no XML its error has the message of the XML reader, and if it is, the result is a document exactly if the first SVG element is svg and otherwise the error that says that there is none. No other error comes from a parse. The messages of the errors of this crate are all different, also for different positions.", "quantifier": "every reachable document, element and attribute; every input of from_str; every pair of errors and positions", "why_tests_cant": "Ranges over all documents and inputs, and over all pairs of positions.", "anchors": ["src/error.rs: Error, ParserError, Display, From", "src/node.rs: set_attribute_checked", "src/document.rs: from_str", "src/parser/mod.rs: parse_svg"]}
{"id": "C95", "title": "Moves of different nodes can change places", "statement": "Of two calls that move two different nodes it does not matter which is done first: if both orders return, all getters but root() give the same answers and the same file is written. This holds for detach, append, prepend, insert_after and insert_before of different nodes, unless both go to the same place (both to the end or the front of the same node, both directly after or before the same node) or one goes next to the node that the other call moves. Two nodes of a document without cycles can be detached in either order, and both orders return.", "quantifier": "every reachable document and every pair of calls of detach, append, prepend, insert_after and insert_before with different moved nodes", "why_tests_cant": "Ranges over all histories and all pairs of calls and nodes, including nodes inside one another and neighbours.", "anchors": ["src/tree.rs: detach, append, prepend, insert_after, insert_before"]}
{"id": "C96", "title": "The last move of a node counts", "statement": "If a node is moved and then moved again, and the second move returns and would have returned without the first, all getters but root() answer as after the second move alone. In a document without cycles a node can always be detached and then appended, prepended or inserted next to a node that is neither it nor below it: both calls return, no cycle is made, and together they do what the move alone is documented to do, also where the move alone would panic.", "quantifier": "every reachable document, every node and every pair of detach, append, prepend, insert_after and insert_before of it", "why_tests_cant": "Ranges over all histories, all nodes and all pairs of places, including the cases in which a move alone panics.", "anchors": ["src/tree.rs: detach, append, prepend, insert_after, insert_before"]}
{"id": "C97", "title": "The last value counts", "statement": "Of two calls of set_attribute or remove_attribute for the same attribute of an element, the first of which returns, only the second counts: it returns exactly if it would have returned without the first, and then all getters but root() answer as after the second alone, up to the order of linked_nodes(). So do set_id, set_text and set_tag_name. Of two calls of set_attribute_if_none for one attribute the first counts.", "quantifier": "every reachable document, every element, every attribute name and every pair of values, links included", "why_tests_cant": "Ranges over all histories, nodes and values; a link that was replaced must leave no user behind.", "anchors": ["src/node.rs: set_attribute, remove_attribute, set_attribute_if_none, set_id, set_text, set_tag_name"]}

# Formal model of svgdom: design

Source: `/repo` (RazrFalcon/svgdom at the pinned commit), read as text.
Model and proofs: `/verif/rocq/theories`, logical name `Verif`, Coq 8.16.1, standard library only.

## Model

| File | Models |
|---|---|
| `Base.v` | results with explicit panics, strings, list helpers |
| `Ids.v`, `NameTables.v` (generated by `tools/gen_names.py`) | enums and tables of `src/names.rs` |
| `Names.v` | SipHash-1-3, `get_index`, `split`, `displace`, `Map::{get,key}`, `from_str`, `as_str` |
| `Links.v` | the six link fields of a node cell (`tree.rs`) |
| `Tree.v` | `tree.rs`: navigation and structural mutation with RefCell borrow conflicts |
| `Iter.v` | `tree.rs`: all iterators, as state machines with `next` / `next_back` |
| `Data.v` | `lib.rs` `NodeData`, `attribute.rs`, `attribute_value.rs`, `name.rs` (structure) |
| `Attrs.v` | `attributes.rs` |
| `Slab.v` | the slab of nodes of a document (crate `slab`) |
| `NodeApi.v` | `node.rs` |
| `Doc.v` | `document.rs` |
| `History.v` | one call of the public API as a step, and histories of calls |
| `Types.v` (generated by `tools/gen_types.py`) | `attribute_type.rs`, `element_type.rs`, `AttributeValue::default_value` |
| `Text.v` | `parser/text.rs` |
| `Parser.v` | `parser/mod.rs` over an XML tree; roxmltree, simplecss and svgtypes are arbitrary parameters |
| `Css.v` | `impl simplecss::Element for XmlNode` (`parser/mod.rs`) and the matching loop of simplecss |
| `Errors.v` | `error.rs`: both error types, their messages and conversions; `Document::from_str` with the errors as the caller sees them |
| `Writer.v` | `writer.rs` as a sequence of `XmlWriter` calls |
| `Values.v` | the tests and conversions of `attribute_value.rs` and `attribute.rs` |
| `Guards.v` | `tree.rs`, `node.rs` and `Document::copy_node` while the user holds `Ref`/`RefMut` guards |
| `GuardDoc.v` | the other functions of `document.rs` under guards |
| `GuardIter.v` | the iterators of `tree.rs` under guards |
| `GuardWriter.v` | `write_dom` and what it calls, under guards |
| `DrainEdit.v` | `drain` with a closure that edits nodes |
| `Weak.v` | the calls that move nodes, with weak pointers that may be dead |
| `GuardPrint.v` | `Display`/`Debug` of nodes and `svg_element` with each borrow written out |
| `DrainAsk.v` | `drain` with a closure that has memory and may panic |
| `Unwind.v`, `UnwindDoc.v` | the functions of `Guards.v` and `GuardDoc.v` with the state they leave behind when they panic |
| `Display.v` | the `Display` and `Debug` implementations of names, attributes and nodes |

Heap: a node handle (`Rc`) is a number, the heap maps every number to its fields. Each field is a
separate function, so that a field write visibly leaves the other fields alone.

Panics are values (`Panic kind`). A RefCell borrow that is live while other code runs is modelled
by an explicit list of borrowed nodes; `borrow_mut` of a node in that list is `Panic PBorrow`.
Loops that follow heap pointers take fuel; running out is the distinct value `Diverge`, and the
theorems exclude it.

Debug assertions are modelled as panics (debug profile).

## Specification

`ForestSpec.v` describes the DOM as an ordered forest (`parent_of`, `siblings_of`, `children_of`)
with list operations only; it does not mention the heap. `TreeSpec.v` says when the navigation
functions show a forest. `IterSpec.v`, `AttrSpec.v`, `DocSpec.v`, `DropSpec.v`, `TypeSpec.v`, `TextSpec.v`,
`WriterSpec.v`, `ValueSpec.v` (the table of attribute types), `ParserSpec.v`, `RoundSpec.v`, `InitialSpec.v`,
`DisplaySpec.v`, `NodeSpec.v`, `RootSpec.v`, `LifeSpec.v`, `CssSpec.v`, `GuardSpec.v`, `SessionSpec.v`, `UnwindSpec.v` and `ErrorSpec.v` are the other small specifications. Property theorems are in
`Properties*.v`; each is closed by a lemma of the proof files and followed by `Print Assumptions`
and an `Example` that meets its hypotheses.

Histories: `reachable` documents come from any legal calls; `reachable_tame` ones from calls that
insert no node into its own subtree; `reachable_ready` ones from calls that keep `root()` right in the document; `reachable_leafy` ones from calls that insert only childless
nodes; `reachable_orderly` ones from calls that use no removed node and make links with SVG names.

## Properties

For each property: what is modelled and how it is proved.

| Id | How |
|---|---|
| C01 | invariant `Rep` by induction over histories of calls |
| C02-C05 | refinement of each mutation to its list operation in `ForestSpec.v` |
| C06 | refuted (double borrow); exact characterisation of the conflict in every reachable document, cyclic ones included |
| C07 | refuted (no ancestor check); a call makes a cycle iff it inserts a node into its own subtree |
| C08-C10 | iterator state = remaining segment of a list; induction over the call sequence |
| C11 | refuted (cached root is not propagated); exact condition under which an insertion keeps it right (`RootSpec.v`), induction over chains of parents |
| C12-C18 | invariants over histories, list lemmas for the attribute list |
| C19-C20 | induction over the rank of the removed subtree; C19 refuted for links with custom names, C20 for cyclic documents; `remove_node` returns exactly for nodes with a finite subtree (`RemoveExact.v`) |
| C21 | slab invariant (free list) over histories |
| C22 | induction over the tree, for stable predicates and for any predicates; exactly when it returns (`LoopExact.v`) |
| C23-C25 | induction over attribute lists and trees; C24 refuted for targets without id; exactly when a deep copy returns (`LoopExact.v`) |
| C26 | strong reference graph after drop; refuted in general, proved for orderly histories; exact conditions for a panic and for what stays alive, in every reachable document |
| C27-C37, C56 | the parser composed from the modelled API: invariant `grows` by induction over the XML tree, then draining, resolving, text processing; all values of the crates below are universally quantified |
| C38-C44 | strings as lists of code points; induction over strings and node lists |
| C45-C50, C54 | event stream; a stack reader is the specification |
| C51-C52 | for all strings by the structure of `get`, for all ids by computation over the finite table inside the kernel |
| C53 | finite case analysis lifted with `forallb_forall` |
| C55 | invariant over histories |
| C57 | composition: what the writer produced is read as XML (`RoundSpec.v`, any indentation), the SVG part of it matches the document node by node, resolving and text processing keep the match |
| C58 | the match of the parser equals the table of `ValueSpec.v` by case analysis over all attributes; values are traced through the run of the parser |
| C59 | equations for the output code, permutation of the pairs of the written start tag |
| C60-C61 | case analysis over all attributes and kinds; exactness of the conversion of integers from the digits of the mantissa |
| C62 | the iterator of the root's children as a list; the first match of a list |
| C63 | new nodes are blank by an invariant over histories; setters by computation, field by field |
| C64 | refuted (raw access); proved for edits that touch no link, which are part of all histories; for all edits the exact condition under which links and users still fit |
| C65-C66 | `LifeSpec.v`: the nodes that reference counting frees; in orderly histories removed nodes stand alone (invariant), so they are freed exactly when the user lets go of them |
| C67 | induction over selectors; the relations of positions in the XML tree |
| C68 | the fields written by each call, compared with the navigation answers before and after |
| C69 | case analysis of each borrow; for the copies an induction over the attributes |
| C70-C71 | the state of an iterator as a position in a list; induction over the documents the calls of `next()` find, and over the turns of a loop |
| C72 | refuted; the panics after the first write each break one pair of fields that every forest keeps in step |
| C73-C74 | case analysis of each borrow; for copies an induction over the attributes |
| C75 | `World.v` (one heap, several documents); a simulation of each call under a renaming of the handles (`WorldSim.v`), then an invariant over programs: each document is the image of a document reached alone |
| C76 | refuted; invariants of the links and of the users that do not depend on the storage, over all programs; remove_node on trees by induction, with the list of keys freed (`MixRemove.v`) |
| C77 | `Raw.v`; histories with arbitrary lists written at any time (`RawSpec.v`); each call is simulated in the same document without attributes and users, which is reachable by calls alone |
| C78 | `ResaveSpec.v`; the events of twin subtrees are equal by induction; SVG attributes are strictly sorted by their ids, so equal sets give equal lists; saving again follows from C57 and C56 |
| C79 | `GuardDoc.v`: `_remove`, `_drain`, `make_deep_copy` and the drop with the guards of the user as a parameter; each borrow of the code is a check against them. Proved by following the call and the run without guards together: `bounds` says that a step either gives the value of the free run and no guard is in the way, or panics and one is. |
| C80 | refuted; `UnwindDoc.v` gives the calls of `GuardDoc.v` with the state at the end also after a panic. Proved by an induction over the run: each step is a call of its own on a reachable document, and `remove_end`, `detach_end`, `copy_node_end` of C72-C74 give the state in which the step stops |
| C81 | refuted; `GuardIter.v`: the iterators with each borrow written out. `walk` (GuardIterSpec.v) says where an iterator stands; the place determines its state (`good_split` of C08/C09), the state the nodes the next call borrows. For `descendants()` the nodes between two starts in `edges` are those that are left (`closing`, `left_next`, `left_end`) |
| C82 | `GuardWriter.v`: the writer with each borrow written out, `next()` of `traverse()` and the loop body taking turns. Each piece runs between two bounds: it panics if a node it must read has a RefMut, and if it panics one of the nodes of `write_blocked` has one (`bounds` of C79) |
| C83 | refuted; `DrainEdit.v`: the loop of `drain` with the state passed through the closure. Any closure: each step is a call on a reachable document (`drain_reachable`). Closures that move no node: the tree below changes by removals only, so the walk is that of C22; `during` (DrainEditSpec.v) records the states in which the closure was asked |
| C84 | `Weak.v`: each `Weak::upgrade` written out; the oracle may call every node dead that the document does not own (`owned_live`). In orderly histories removed nodes stand alone (`lone` of C65), so every node that a weak pointer points to has a storage key; `detach` and the moves make no new targets (`detach_pointed`). `remove_node`, `drain` and `copy_node_deep` by induction over the run with `lone` as invariant |
| C85 | `GuardPrint.v`; each function equals the one without guards behind a test whether one of the nodes it reads has a RefMut; `svg_element` by induction over the children that are left, with the children up to the first svg element |
| C86 | `DrainAsk.v`; `session` lists the questions with the states in between, `order` is document order without the nodes below some; induction over the steps as for C22, the questions of the children and of the next siblings put together |
| C87 | `NodeApi.v`, `Attrs.v`; from the invariant of all histories, `only_one` in `AskSpec.v` |
| C88 | refuted; `as_before` in `UndoSpec.v` compares all that can be asked about the nodes that existed before. Insertions: the forest after both calls is the forest before, and a forest determines all links of `Tree.v` (`shows_Rep`); attributes: cases of C12–C15; creation and copies: `new_node`, the exact tree of the copy (C25) and the exact effect of `remove_node` (C19) |
| C89 | refuted; moves only read and write the links of `Tree.v`, the other calls only the data of nodes, so both orders give equal records (`content_lk`, `content_keeps`); two changes: what a call does to its node depends on this node and the target of its link only (`content_both`), the users follow from the attributes (C16) |
| C90 | `same_tree` in `SameSpec.v` relates two trees of two documents; induction over the two trees, the writer asks for nothing but what `same_tree` compares (`same_written`); the calls of the XML writer are compared one by one (`same_form`) |
| C91 | `akin` in `OrderSpec.v`; simulation, one lemma per call (`step_sim`): the links of both documents show the same forest, the refusals of links depend on counts only, the loops of `drain` and `copy_node_deep` run in step (induction over the fuel); users follow from the attributes (C16); writing: sorting by distinct ids removes the order (`sorted_unique`); `C91_custom_order_shows` is a witness for the exception |
| C92 | `reordered_all` and `parsed_alike` in `XmlOrderSpec.v`; simulation of the parser on both files, built on C91: two attributes of an element change places (`acts_swap`), hence all permutations (`attributes_perm`); the lists of open references differ by swaps within an element (`shuffle`), and resolving two references of an element commutes (`resolve_swap`) since no refusal depends on the element's own attributes; style removal and text processing run in step (`drain_sim`, `prepare_text_sim`); CSS selectors see attributes by name only; induction over the XML tree |
| C93 | `svg_of` in `ParserSpec.v`, `only_svg` in `PartSpec.v`; the parser makes the nodes of the SVG part in document order (`gw_order` in `ParserTree.v`), so equal parts give equal trees, node for node (`built_trees`), and related documents (`same_rel`); the rest of the parse as for C92. `only_same`: without rules the part of `only_svg` is the part of the file; `own_same` in `PartAttrs.v`: selectors look only at attributes without namespace; `tidy_same` in `PartSpace.v`: the places of elements correspond (`place`) and selectors cannot tell them apart (`place_left`); `foreign_same` in `PartForeign.v` likewise for foreign elements |
| C94 | `Errors.v`; from C14 (`checked_cases`) and C27 (`svg_or_error`); messages by cases, positions by injectivity of decimal digits |
| C95 | refuted for one place; otherwise a move takes a node out of every list and puts it into one (`placed`), and both orders give the same lists (`placed_twice`), from the effects of C02 to C05; two detaches also return in both orders (C06, C07) |
| C96 | from `placed` of C95: a second move takes out what the first put in (`placed_over`); after `detach` no cell has to be updated to take the node out (`touches`), so C06 says that the move returns; effects composed (`mo_after`) |
| C97 | from C13 and C14: a call replaces the attributes of one name and leaves those of other nodes, which decide whether a link is refused (`refused_rest`); users by C15; the setters by C63 |

## Findings

The full statement is false of the code in these cases. Each has a theorem with the suffix
`_refuted` (a concrete run of the model) beside the theorem with the suffix `_partial`.

| Id | Finding |
|---|---|
| C06 | moving a node panics with a double borrow if a cell to be rewritten is already borrowed, for example `append` of the last child of the same parent |
| C07 | a node can be inserted into its own subtree; traversal then does not end |
| C11 | `root()` of a descendant of a moved node is the old root |
| C19 | removing a node leaves links that have a custom attribute name |
| C20 | `remove_node` does not end on a cyclic document |
| C24 | `copy_node` panics if the id of a link target was cleared |
| C26 | links between removed nodes keep nodes alive after the document is dropped |
| C32 | a reference in a presentation attribute beats a later plain value in CSS or `style` |
| C36 | `marker` in a `style` attribute is stored as it is, not as the three properties |
| C37 | references of removed `style` elements are resolved and stay in the list of users |
| C42 | with white space at both outer ends the trailing one is kept; a blank first text before a direct text with white space in front leaves that space (the exact condition is C42_exact_partial) |
| C43 | text elements that do not start with a text node are skipped |
| C44 | `xml:space` between the text element and the parent of a text is ignored; preserved text can lose its last space |
| C46 | a `unicode` attribute that is not a string is not written |
| C47, C48 | custom attributes can repeat the name of an SVG attribute or `xmlns` |
| C49 | a string that starts with `&#` is written as it is |
| C54 | after a `text` element inside of a `text` element white space is no longer preserved |
| C57 | attribute values are written unescaped, so the output need not be XML; neighbouring text nodes come back as one |
| C60 | the default of `stroke-miterlimit` is a length and that of `glyph-orientation-horizontal` a string, the parser gives a number and an angle |
| C64 | a link written in place through `attributes_mut` makes `remove_attribute` panic; overwriting one leaves a stale user; renaming makes two attributes of one name |
| C65 | after `detach` the cached root stays; if that node is removed and freed, `root()` of the detached node panics |
| C66 | links between removed nodes keep them alive |
| C67 | `prev_sibling_element` gives the element itself: `:first-child` selects nothing, `E + F` selects what is both E and F |
| C71 | detaching the node just visited by `descendants()` ends the walk early |
| C72 | a move that panics after its first write, for example `a.insert_after(next sibling of a)`, leaves links that do not fit together; only the check for the same node and guards of the two nodes stop it before |
| C74 | a guard of the node stops `remove_attribute` after the target has forgotten the node; a guard of the new target stops `set_attribute` after the link is stored |
| C76 | a document does not check whose node it gets: `remove_node` with a node of another document frees the place of a node with the same key; dropping a document clears its nodes wherever they are |
| C80 | a guard of a neighbour of a removed node stops `remove_node` and `drain` in the middle of a detach; a guard of an element in the subtree, or of the target of a copied link, leaves links and users out of step |
| C81 | `next()` of `children()` panics if the last child is mutably borrowed, and at the end of the iteration if the child yielded last is; `next()` of `descendants()` panics if a node it has already yielded is mutably borrowed; `traverse()` yields the end of its own node although it is |
| C83 | a closure that detaches the nodes it says yes to makes `drain` skip their following siblings; one that moves nodes to the front makes it loop for ever |
| C88 | `copy_node_deep` and then `remove_node` of the copy leaves the freed copy among the users of the targets of links with custom names; a lone node can be inserted beside its own child, after which `detach` of it panics |
| C89 | of two links that two nodes are to make to each other only the first is made |
| C91 | two documents that differ in the order of two attributes with non-SVG names only are written differently: writer.rs sorts SVG attributes only (documented at writer.rs:176-181) |
| C92 | an element with `id` and `xml:id`, or `href` and `xlink:href`: the names are looked up without their namespace (parser/mod.rs), and the last attribute of the two counts |
| C93 | `style` elements of any namespace are read as style sheets (`resolve_css`, parser/mod.rs:744-763), so foreign content can style the SVG elements (`C93_foreign_style_shows`) |
| C94 | `ParserError::{UnsupportedCSS, DomError, InvalidAttributeValue}` are documented errors that no parse gives (`C94_only`): bad values and CSS are only warned about, and refused links are warned about or replaced |
| C95 | of two nodes appended to one node the second is last; of two moves one order may panic where the other returns: after `append(p, m)` the former last child `n` of `p` can be prepended to `p`, before it this panics (`C95_panic_shows`, a case of C06) |

## Trusted base

* Coq's kernel and its `vm_compute` machine.
* The correspondence of the model with the Rust source, by reading. Every definition cites the
  lines it models.

### Assumptions

`Print Assumptions` says "Closed under the global context" for every theorem of the files
`Properties*.v`. No axiom is declared in this development. The standard library's module
`Coq.ssr.ssrunder`, loaded with `Lia`/`ssreflect` support files, declares the module fields
`Under_rel.Over_rel`, `Under_rel.Under_rel_from_rel`, `Under_rel.over_rel`, `Under_rel.over_rel_done`,
`Under_rel.Under_rel`, `Under_rel.Under_relE` and `Under_rel.under_rel_done`, which a check of all
loaded modules lists; no theorem here depends on them.

### Modelled with simplifications

* Histories are those of a user who keeps all handles, so weak pointers upgrade; C84 shows that in orderly
  histories dropping handles makes no difference. `LifeSpec.v` says which
  nodes are freed when handles are dropped; C65 shows that in orderly histories no getter meets a freed
  node, except `root()`.
* The user holds no `Ref`/`RefMut` guard during a call, except in C68, C69, C72, C74, C79-C82 and C85. A panic ends the
  run, except in C72-C74, C80 and C86, which say what a caught panic leaves behind; nodes that unwinding frees are not modelled.
* The closure given to `drain` may read the document but not change it, except in C83.
* Edits through `attributes_mut` are part of histories if they neither write nor overwrite a link and do
  not take the name of another attribute (`plain_edit`); what other edits do is C64. Arbitrary edits through
  `attributes_mut` and `linked_nodes_mut` are part of histories in C77 only. Histories are those of one document; C75 carries them over to programs
  with several documents, C76 says what is left if nodes are passed to another document.
* Payloads of svgtypes values (path, points, transform, ...) are opaque numbers, their parsers and
  printers arbitrary functions. Floats are `SpecFloat.spec_float`.
* The parser works on the XML tree that roxmltree returns. Assumed of roxmltree: `has_tag_name("style")`
  with a plain string compares the local name, `attribute("x")` finds the attribute without
  namespace, `text()` of an element is its first child if that is a text.
* simplecss: rules are arbitrary predicates on elements with arbitrary declarations; for C67 the predicate is the
  matching loop of `Selector::matches` over the parsed selector. Assumed of roxmltree: `prev_siblings()` starts at the
  node itself (as its documentation says), `parent_element()` is the nearest ancestor element.
* C57 reads the output with a relational XML reader (`RoundSpec.v`): namespaces, character references,
  merging of neighbouring texts. Assumed of xmlwriter: it adds white space only before tags, texts and
  comments that are written without preserved space, and escapes nothing in the characters allowed by
  `portable`; values with other characters are outside of the theorem.
* Positions, warnings and their formatting are not modelled, except the positions in messages of errors (`Errors.v`).

### Not modelled

The XML tokenizer (`roxmltree`), the CSS tokenizer and the sorting of rules (`simplecss`), the value
parsers and printers of `svgtypes`, the character level output of `xmlwriter` (the model stops at
its calls), `log`, memory exhaustion and stack overflow, the time of deallocation (`LifeSpec.v` only
says what is freed in the end), derived `Debug` implementations, threads (the
types are not `Send`).

#!/usr/bin/env python3
"""Writes /verif/properties.jsonl from the table below."""
import json
P = []
def p(title, statement, quantifier, why, anchors):
    P.append(dict(id="C%02d" % (len(P)+1), title=title, statement=statement,
                  quantifier=quantifier, why_tests_cant=why, anchors=anchors))

N="src/core/node.c"; E="src/core/element.c"; D="src/core/document.c"; S="src/core/string.c"
ET="src/events/event_target.c"; H="src/html/"

p("Child lists stay consistent under every history of tree edits",
  "After any sequence of node creations, appendChild, insertBefore, removeChild and replaceChild calls, each node has one ordered list of children: firstChild/nextSibling enumerates it forwards, lastChild/previousSibling enumerates the same list backwards, every member's parentNode is that node, no node occurs twice or in two lists, and following parentNode always ends.",
  "every finite sequence of tree-editing calls from an empty document, with any nodes as arguments",
  "link corruption depends on the position of a node, on where it came from and on what was edited before; the number of histories is unbounded",
  [f"{N}:_dom_node_insert_before", f"{N}:_dom_node_attach_range", f"{N}:_dom_node_detach_range", f"{N}:_dom_node_replace", f"{N}:_dom_node_remove_child"])
p("insertBefore/appendChild put the node exactly where asked and move nothing else",
  "When insertBefore(p,n,ref) succeeds, n first leaves its old parent's child list, and p's child list becomes the old one with n inserted immediately before ref (at the end when ref is null); every other child list, and every node's type, name and value, is unchanged. For a fragment, its children are spliced in order and the fragment becomes empty.",
  "every tree reached by careful clients (they pass only nodes they hold, insert a fragment once and only where its children may go, name no attribute where a child is meant, and use no empty fragment in replaceChild), every parent, new child and reference child",
  "the effect has to be right for every position, sibling count and prior location of the moved node",
  [f"{N}:_dom_node_insert_before", f"{N}:_dom_node_append_child", f"{N}:_dom_node_attach_range"])
p("removeChild removes exactly that child",
  "When removeChild(p,c) succeeds, p's child list loses exactly c, order of the others is kept, c becomes parentless with its own subtree intact, and no other child list changes.",
  "every tree reached by careful clients (they pass only nodes they hold, insert a fragment once and only where its children may go, name no attribute where a child is meant, and use no empty fragment in replaceChild) and every child in it",
  "first, middle, last and only-child positions interact with stale links from earlier edits",
  [f"{N}:_dom_node_remove_child", f"{N}:_dom_node_detach", f"{N}:_dom_node_detach_range"])
p("replaceChild substitutes in place",
  "When replaceChild(p,n,o) succeeds, p's child list is the old one with o replaced by n (or by the children of n when n is a fragment, possibly none), o is parentless, and no other list changes except that n leaves its old parent.",
  "every reachable tree and every replacement including empty and non-empty fragments",
  "the empty-fragment, adjacent-sibling and same-parent cases need all positions",
  [f"{N}:_dom_node_replace_child", f"{N}:_dom_node_replace"])
p("Nothing can be inserted beneath itself",
  "insertBefore, appendChild and replaceChild fail with HIERARCHY_REQUEST_ERR when the new child is the parent itself or one of its ancestors, and so no history makes a node its own ancestor.",
  "every tree of any depth reached by careful clients (they pass only nodes they hold, insert a fragment once and only where its children may go, name no attribute where a child is meant, and use no empty fragment in replaceChild) and every pair of nodes",
  "the ancestor walk must be right at every depth",
  [f"{N}:_dom_node_insert_before", f"{N}:_dom_node_replace_child"])
p("A failing tree edit changes nothing",
  "Whenever insertBefore, appendChild, replaceChild or removeChild returns an exception, the observable state (all child lists, owners, reference counts and what later calls may do) is the same as before the call.",
  "every reachable state and every argument tuple that makes the call fail",
  "each early return must precede every side effect, on every path",
  [f"{N}:_dom_node_insert_before", f"{N}:_dom_node_replace_child", f"{N}:dom_node_remove_pending"])
p("A document has at most one root element and one doctype",
  "No history of edits gives a Document node two Element children or two DocumentType children.",
  "every sequence of edits, including fragments",
  "the check is per inserted node while fragments insert many at once",
  [f"{N}:_dom_node_permitted_child", f"{N}:_dom_node_insert_before"])
p("Only permitted node types nest",
  "In every reachable tree each parent/child pair respects the DOM content table: text, comment, PI, CDATA, doctype and notation nodes have no children, documents hold only elements, comments, PIs and a doctype, attributes hold only text and entity references.",
  "every tree reached by careful clients (they pass only nodes they hold, insert a fragment once and only where its children may go, name no attribute where a child is meant, and use no empty fragment in replaceChild)",
  "must hold for all histories and all node types",
  [f"{N}:_dom_node_permitted_child"])
p("Editing a child list never touches attributes, and attributes are not children",
  "Passing an attribute of p to removeChild(p,.), as insertBefore's reference or as replaceChild's old child is rejected with NOT_FOUND_ERR and leaves p's children alone.",
  "every element with attributes and children",
  "attributes share the parent field with children, so the membership test has to tell them apart in every state",
  [f"{N}:_dom_node_remove_child", f"{N}:_dom_node_detach_range", f"{E}:_dom_element_set_attr_node"])
p("A referenced node is never freed",
  "As long as the client holds a reference on a node, that node (and its whole subtree) stays allocated, whatever else is edited, unreferenced or destroyed.",
  "every history of creation, edits, ref and unref calls of careful clients (they pass only nodes they hold, insert a fragment once and only where its children may go, name no attribute where a child is meant, and use no empty fragment in replaceChild)",
  "use-after-free needs particular interleavings of unref, detach and document destruction",
  [f"{N}:_dom_node_destroy", f"{N}:_dom_node_finalise", f"{N}:_dom_node_try_destroy", "src/core/node.h:dom_node_unref"])
p("No call touches freed memory or trips an internal assertion",
  "In every history in which the client only passes nodes it holds references to, no library call reads or writes a freed node, dereferences NULL or fails an assertion.",
  "every well-behaved client history over the tree API",
  "depends on unbounded histories of partial destruction",
  [f"{N}", f"{D}:_dom_document_finalise"])
p("Destroying a node frees exactly the unreferenced part of its subtree",
  "When the last reference to a parentless node goes away, the nodes freed are exactly those that have no referenced node at or above them in that subtree; each topmost referenced descendant survives with its own subtree intact and becomes parentless.",
  "every tree shape and assignment of reference counts reached by careful clients (they pass only nodes they hold, insert a fragment once and only where its children may go, name no attribute where a child is meant, and use no empty fragment in replaceChild)",
  "shape and reference pattern are both unbounded",
  [f"{N}:_dom_node_finalise", f"{N}:_dom_node_try_destroy"])
p("A document outlives its nodes",
  "A document is freed only when it is unreferenced and no node created from it is still held or part of a held tree; when that happens it is freed, with everything in it.",
  "every history",
  "needs the pending list to be exact in every reachable state",
  [f"{D}:_dom_document_finalise", f"{D}:_dom_document_try_destroy", f"{N}:_dom_node_mark_pending", f"{N}:_dom_node_remove_pending"])
p("Surviving nodes keep no link to freed siblings",
  "After any destruction, nextSibling and previousSibling of every node that is still alive are live nodes or null (null when it has no parent).",
  "every history",
  "only shows when part of a sibling list is still referenced while its parent is freed",
  [f"{N}:_dom_node_finalise", f"{N}:_dom_node_get_next_sibling"])
p("childNodes is a live, ordered view of the children",
  "length equals the number of children and item(i) is the i-th child, null past the end, after any edits made since the list was created.",
  "every tree, every 32-bit index",
  "liveness and order must hold for every tree and index",
  ["src/core/nodelist.c:dom_nodelist_get_length", "src/core/nodelist.c:_dom_nodelist_item"])
p("getElementsByTagName lists exactly the matching descendants in document order",
  "length equals the number of matching element descendants of the root (any element for '*'), item(i) is the i-th in document order and null exactly when i >= length; the root is never included and nothing outside its subtree is.",
  "every tree, root, name and 32-bit index",
  "the traversal climbs by hand over parent/last-child links in trees of any shape",
  ["src/core/nodelist.c:dom_nodelist_get_length", "src/core/nodelist.c:_dom_nodelist_item", f"{D}:_dom_document_get_nodelist"])
p("Namespaced tag lists agree between length and item",
  "For getElementsByTagNameNS lists, item(i) is non-null exactly when i < length.",
  "every tree, namespace, local name and index",
  "the two loops test the namespace differently",
  ["src/core/nodelist.c:dom_nodelist_get_length", "src/core/nodelist.c:_dom_nodelist_item"])
p("HTML collections list exactly the matching subtree nodes in document order",
  "length, item(i) and namedItem of an HTMLCollection agree with the document-order list of nodes at or below the root that satisfy the collection's test; nothing outside the root's subtree is ever returned and the walk always ends.",
  "every tree, root, predicate and index",
  "the walk must stay in the subtree for all shapes, including a childless root",
  [H+"html_collection.c:dom_html_collection_get_length", H+"html_collection.c:dom_html_collection_item", H+"html_collection.c:dom_html_collection_named_item"])
p("getElementById returns the first element with that id in document order",
  "The result is the first element in document order below the root whose id attribute equals the argument, and null when there is none.",
  "every tree and id",
  "hand-written pre-order walk over trees of any shape",
  [f"{D}:_dom_find_element_by_id", f"{D}:_dom_document_get_element_by_id"])
p("The tree walker reports every node once, properly nested",
  "libdom_treewalk calls back ENTER and LEAVE for each descendant in document order with properly nested brackets; PROCEED visits everything, SKIP on entering omits exactly that node's subtree, ABORT stops at once; the walk never leaves the root's subtree.",
  "every tree and every callback behaviour",
  "callback behaviours are an infinite family; bracket nesting is a global property",
  ["src/utils/walk.c:libdom_treewalk", "src/utils/walk.c:dom_walk__cb"])
p("textContent is the concatenation of the descendant text in document order",
  "For an element or fragment the result is the concatenation in document order of the data of its text and CDATA descendants (comments and PIs excluded), null when there is nothing; for character data it is the data, for documents and doctypes null.",
  "every tree",
  "recursion with a mutable accumulator over unbounded trees",
  [f"{N}:_dom_node_get_text_content"])
p("Setting textContent replaces all children by one text node",
  "After a successful setTextContent(s) the node has exactly one child, a text node with data s, and getTextContent returns s; previous children are parentless.",
  "every tree and string",
  "loops over a list it edits",
  [f"{N}:_dom_node_set_text_content"])
p("contains() is the inclusive-ancestor relation",
  "contains(a,b) is true exactly when a is b or an ancestor of b; it is reflexive, transitive and antisymmetric.",
  "every tree reached by careful clients (they pass only nodes they hold, insert a fragment once and only where its children may go, name no attribute where a child is meant, and use no empty fragment in replaceChild) and pair of nodes",
  "unbounded depth",
  [f"{N}:_dom_node_contains"])
p("Deep clone copies the whole subtree and shares nothing",
  "cloneNode(true) yields a parentless tree of fresh nodes isomorphic to the original (same types, names, values, order), and leaves the original unchanged; cloneNode(false) copies just the node.",
  "every tree",
  "recursion over trees with append in the middle",
  [f"{N}:_dom_node_clone_node", f"{N}:_dom_node_copy_internal"])
p("normalize merges adjacent text and preserves textContent",
  "After normalize no two adjacent children are text nodes anywhere below the node, and the text content of the node is unchanged.",
  "every tree",
  "runs of three or more text nodes and nesting positions are unbounded",
  [f"{N}:_dom_node_normalize", f"{N}:_dom_merge_adjacent_text", "src/core/text.c:_dom_text_get_whole_text"])
p("isEqualNode recognises clones",
  "isEqualNode is reflexive and symmetric, and a deep clone is equal to its original.",
  "every tree",
  "structural equality over unbounded trees",
  [f"{N}:_dom_node_is_equal", f"{E}:attributes_equal", "src/core/nodelist.c:_dom_nodelist_equal"])
p("Attributes behave as a finite map",
  "After setAttribute(k,v), getAttribute(k) returns v and hasAttribute(k) holds; other names are unaffected; removeAttribute(k) makes it absent; setting an existing name replaces in place; names never repeat; item(i) for i < length enumerates the map.",
  "every history of attribute calls on an element without namespaces",
  "map laws over unbounded histories on a hand-written circular list",
  [f"{E}:_dom_element_set_attr", f"{E}:_dom_element_get_attr", f"{E}:_dom_element_remove_attr", f"{E}:_dom_element_attr_list_find_by_name"])
p("Namespaced attributes are keyed by namespace and local name",
  "setAttributeNS(ns,..) / getAttributeNS(ns,..) with different namespaces do not interfere, and a null-namespace lookup sees only null-namespace attributes.",
  "every history mixing namespaced and plain attribute calls",
  "collisions need particular mixes",
  [f"{E}:_dom_element_attr_list_find_by_name", f"{E}:_dom_element_set_attribute_ns"])
p("class queries follow the class attribute",
  "hasClass(c) is true exactly when c is one of the whitespace-separated tokens of the current class attribute, after any history of attribute changes.",
  "every history of attribute changes and every token",
  "cache coherence over histories",
  [f"{E}:_dom_element_create_classes", f"{E}:_dom_element_get_classes", f"{E}:_dom_element_has_class", f"{E}:_dom_element_set_attr"])
p("A token list is an ordered set mirrored in its attribute",
  "contains(t) holds right after add(t) and fails right after remove(t), other tokens keep membership and order, no token occurs twice, and the attribute value is the tokens joined by single spaces, so re-reading it gives the same list.",
  "every history of add/remove/set_value/attribute changes and every token",
  "round trip through the attribute text and change notifications over unbounded histories",
  ["src/core/tokenlist.c:_dom_tokenlist_reparse", "src/core/tokenlist.c:_dom_tokenlist_reify", "src/core/tokenlist.c:dom_tokenlist_add", "src/core/tokenlist.c:dom_tokenlist_remove"])
p("CharacterData edits satisfy the string laws",
  "insertData, deleteData, replaceData, appendData and substringData have the effect of cutting and joining the character sequence at the given offsets, counts past the end are clamped, offsets past the end, and offsets or counts of 2^31 or more (which the API reads as negative), give INDEX_SIZE_ERR and change nothing, and delete undoes insert. (appendData: on nodes that have data, possibly empty.)",
  "every data string and every 32-bit offset and count",
  "offset/count arithmetic is modular; boundaries are everywhere",
  ["src/core/characterdata.c:_dom_characterdata_insert_data", "src/core/characterdata.c:_dom_characterdata_delete_data", "src/core/characterdata.c:_dom_characterdata_replace_data", "src/core/characterdata.c:_dom_characterdata_substring_data"])
p("splitText cuts a text node in two",
  "splitText(k) for 0<=k<=length leaves the first k characters in the node and returns a new text node with the rest that is the next sibling of the node.",
  "every text node and offset",
  "boundary offsets and sibling placement",
  ["src/core/text.c:_dom_text_split_text"])
p("wholeText is the concatenation of the maximal run of adjacent text nodes",
  "wholeText returns the concatenated data of all logically adjacent text nodes in order, and replaceWholeText leaves exactly the receiving node with the new content.",
  "every run length and position",
  "runs are unbounded",
  ["src/core/text.c:_dom_text_get_whole_text", "src/core/text.c:_dom_text_replace_whole_text", "src/core/text.c:walk_logic_adjacent_text"])
p("String operations are exact on characters",
  "For valid UTF-8: length counts code points, substr/insert/replace cut at character boundaries, concat is associative with the empty string as unit, insert then delete is the identity, index and rindex return the first and last position of a character and at(i) agrees with them.",
  "every valid UTF-8 string and every offset",
  "variable-width encoding makes byte/character confusion input dependent",
  [f"{S}:dom_string_length", f"{S}:dom_string_substr", f"{S}:dom_string_insert", f"{S}:dom_string_replace", f"{S}:dom_string_index", f"{S}:dom_string_rindex", f"{S}:dom_string_at"])
p("String equality is an equivalence, and equal strings hash equally",
  "isequal is reflexive, symmetric and transitive (null equals empty), independent of interning; caseless equality is the equivalence generated by ASCII case; equal strings have equal hashes; toupper/tolower are idempotent and caseless-equal to their input; whitespace operations strip and collapse exactly ASCII whitespace runs.",
  "all pairs and triples of strings, interned or not",
  "two representations times all contents",
  [f"{S}:dom_string_isequal", f"{S}:dom_string_caseless_isequal", f"{S}:_dom_string_hash", f"{S}:dom_string_toupper", f"{S}:dom_string_whitespace_op"])
p("The hash table is a finite map",
  "After any history, get(k) returns the value of the last add/replace of a key equal to k not since deleted, add without replace of a present key is refused, length is the number of keys, del returns the stored pair, iteration visits every entry exactly once, and clone gives an equal independent table.",
  "every history, any hash function compatible with key equality, any bucket count > 0",
  "collisions and histories are unbounded",
  ["src/utils/hashtable.c:_dom_hash_add", "src/utils/hashtable.c:_dom_hash_get", "src/utils/hashtable.c:_dom_hash_del", "src/utils/hashtable.c:_dom_hash_clone", "src/utils/hashtable.c:_dom_hash_get_next"])
p("Qualified names split and join without loss",
  "A qualified name accepted for an element or attribute splits into prefix and local name such that prefix:local is the original, nodeName reproduces it, and the reserved prefixes xml and xmlns are accepted only with their own namespaces.",
  "every qualified name and namespace string",
  "all strings",
  ["src/utils/namespace.c:_dom_namespace_validate_qname", "src/utils/namespace.c:_dom_namespace_split_qname", f"{N}:_dom_node_get_node_name"])
p("Name validation accepts exactly the XML/DOM name language",
  "createElement and friends accept a name iff its first character is a name-start character and the rest are name characters of the ranges in the code's specification tables; the binary search over the character tables finds exactly the code points of the listed ranges.",
  "every string and all 2^32 code point values",
  "a binary search off-by-one shows only at particular table positions",
  ["src/utils/validate.c:_dom_validate_name", "src/utils/validate.c:is_name_char", "src/utils/character_valid.c:_dom_is_character_in_group"])
p("Event listeners fire once each in registration order",
  "Dispatching to a target calls exactly the listeners registered for that type and phase, each once, in the order they were added, after any history of add and remove calls; adding the same listener twice has no effect.",
  "every history of add/remove and every event type",
  "list rotation on removal depends on the history",
  [f"{ET}:_dom_event_target_add_event_listener", f"{ET}:_dom_event_target_remove_event_listener", f"{ET}:_dom_event_target_dispatch"])
p("Listeners may edit the listener list while it is being dispatched",
  "If a listener removes itself or others, the remaining listeners are still called exactly once each and the library never reads a freed entry.",
  "every listener program",
  "re-entrancy: listener behaviours are arbitrary programs",
  [f"{ET}:_dom_event_target_dispatch"])
p("Events propagate capture, target, bubble",
  "dispatchEvent visits the listening ancestors from the root down for capturing listeners, then the target, then (bubbling events) the ancestors from the target up, on the ancestor path as it was when dispatch started, crossing from a parentless fragment to its host.",
  "every tree, target, listener placement",
  "tree depth and placements unbounded",
  [f"{N}:_dom_node_dispatch_event"])
p("stopPropagation and stopImmediatePropagation",
  "After stopPropagation the rest of the current target's listeners run and no later target is visited; after stopImmediatePropagation no further listener runs at all.",
  "every listener program and placement",
  "all placements of the call",
  [f"{N}:_dom_node_dispatch_event", f"{ET}:_dom_event_target_dispatch", "src/events/event.c:_dom_event_stop_propagation"])
p("preventDefault is reported faithfully",
  "dispatchEvent reports false exactly when the event is cancelable and some called listener called preventDefault; the default action runs exactly when it was not prevented.",
  "every listener program",
  "depends on listener behaviours and event flags",
  ["src/events/event.c:_dom_event_prevent_default", f"{N}:_dom_node_dispatch_event"])
p("An event can be dispatched again after dispatch finished",
  "Dispatching an event already being dispatched fails with DISPATCH_REQUEST_ERR; once finished, it can be dispatched again.",
  "every history of dispatch calls",
  "flag life cycle over histories",
  [f"{N}:_dom_node_dispatch_event", "src/events/event.c:_dom_event_initialise"])
p("Mutation events report each change once",
  "Each inserted or removed node produces exactly one DOMNodeInserted/DOMNodeRemoved event at that node, one *IntoDocument/*FromDocument event per descendant, and one DOMSubtreeModified at the parent.",
  "every tree edit",
  "count over unbounded subtrees and all edit kinds",
  [f"{N}:_dom_node_dispatch_node_change_event", f"{N}:_dom_node_remove_child", f"{N}:_dom_node_attach_range", f"{N}:_dom_node_detach_range"])
p("User data is a per-node map with notification",
  "getUserData(k) returns the last non-null data set for k; set returns the previous data; null removes; other keys are unaffected; each handler is told exactly once per clone and deletion.",
  "every history of set/get calls",
  "map laws over histories on a hand-written list",
  [f"{N}:_dom_node_set_user_data", f"{N}:_dom_node_get_user_data"])
p("importNode and adoptNode hand nodes over to the new document",
  "The result of importNode/adoptNode belongs to the target document and can be inserted there; the import source is unchanged; the adoption source leaves its parent.",
  "every pair of documents and every node",
  "all node types and trees",
  [f"{D}:_dom_document_import_node", f"{D}:_dom_document_adopt_node", f"{D}:dom_document_dup_node"])
p("select.selectedIndex, value and length agree with the options",
  "length counts the options, selectedIndex is the position of the first selected option or -1, setting selectedIndex to i in -1..length-1 makes that the only selection, remove(i) removes the i-th option, and out-of-range indices do nothing.",
  "every select subtree and every 32-bit index",
  "indices and subtree shapes unbounded",
  [H+"html_select_element.c", H+"html_options_collection.c"])
p("Table row operations keep row order",
  "insertRow(i) makes the new row the i-th row of the table, deleteRow(i) removes the i-th, indices outside -1..length give INDEX_SIZE_ERR and change nothing, for tables with or without thead, tbody and tfoot.",
  "every table shape and index",
  "section combinations and indices unbounded",
  [H+"html_table_element.c:dom_html_table_element_insert_row", H+"html_table_element.c:dom_html_table_element_delete_row", H+"html_tablesection_element.c", H+"html_tablerow_element.c"])
p("The intrusive circular list is a sequence",
  "list_append adds at the end, list_del removes exactly that entry and leaves it a singleton, list_has is membership, walking next and prev enumerate the same sequence in opposite orders.",
  "every history of list operations on disjoint lists",
  "pointer structure invariants over histories",
  ["src/utils/list.h"])
p("Attribute typed values keep their type",
  "An attribute's first typed set (integer, short, bool) fixes its type; a get of the same type returns the last set value; a get or set of another type fails with a wrong-type error and changes nothing; string view and typed view agree.",
  "every history of typed gets and sets",
  "histories",
  ["src/core/attr.c:dom_attr_get_integer", "src/core/attr.c:dom_attr_set_integer"])
p("Live lists are shared and released exactly",
  "Asking a document twice for the same list returns the same object with its count raised; each unref lowers it; the list is freed and unregistered exactly when the last holder releases it, and never keeps the document from being destroyed afterwards.",
  "every history of list requests and releases",
  "aliasing and counts over histories",
  [f"{D}:_dom_document_get_nodelist", f"{D}:_dom_document_remove_nodelist", "src/core/nodelist.c:dom_nodelist_unref"])
p("setAttribute, getAttribute and removeAttribute make a finite map",
  "In histories that use attributes by name without namespaces (no setAttributeNode, removeAttributeNode, or value set through the attribute object), each element has a map in order of insertion: get and has answer from it, set stores, remove deletes, other names and elements are unaffected, length and item enumerate it, names never repeat.",
  "every such history over any number of elements, every name, value and index",
  "map laws over unbounded histories on a hand-written circular list",
  ["src/core/element.c:_dom_element_set_attr", "src/core/element.c:_dom_element_get_attr", "src/core/element.c:_dom_element_remove_attr", "src/core/element.c:attributes_item"])
p("Attribute calls answer from the element's entry list and never touch freed memory",
  "For clients that use only attributes they hold a reference to, set values only through attached attributes and do not replace an element's first attribute by setAttributeNode, every attribute call (by name, by node, by index, typed, class query, reference counting) returns what the sequence of entries says and none goes wrong.",
  "every history of such calls, any number of elements, attributes and references",
  "use after free depends on the whole history of links and counts",
  ["src/core/element.c:_dom_element_set_attr_node", "src/core/element.c:_dom_element_remove_attr_node", "src/core/element.c:_dom_element_attr_list_node_unlink", "src/core/attr.c:_dom_attr_destroy"])

p("Cells go where the index says and a row knows its place",
  "insertCell and deleteCell act on the cell the index names, -1 being the end, and refuse an index out of range changing nothing; sectionRowIndex is the position of the row among the rows of its section, so a row inserted at an index answers that index; rowIndex counts the rows of the sections before it, distinct rows of a table answer distinct indices, and a row outside a table answers an error.",
  "every document a client can build, every row, every index",
  "section layouts, nesting and indices unbounded",
  [H+"html_tablerow_element.c:dom_html_table_row_element_insert_cell", H+"html_tablerow_element.c:dom_html_table_row_element_delete_cell", H+"html_tablerow_element.c:dom_html_table_row_element_get_row_index", H+"html_tablerow_element.c:dom_html_table_row_element_get_section_row_index"])

p("Modifier keys of an event are those it was initialised with",
  "After an event is initialised, the key getters and getModifierState report exactly the modifier keys given to that initialisation, for mouse and keyboard events given flags and for wheel events given a list of names; a name that is no modifier is answered false.",
  "every history of initialisations of an event, every modifier list, every name",
  "lists of names and histories of re-initialisation are unbounded",
  ["src/events/keyboard_event.c:_dom_keyboard_event_init_helper", "src/events/keyboard_event.c:_dom_parse_modifier_list", "src/events/keyboard_event.c:_dom_keyboard_event_get_modifier_state", "src/events/mouse_event.c:_dom_mouse_event_init", "src/events/mouse_wheel_event.c:_dom_mouse_wheel_event_init_ns", "src/events/mouse_multi_wheel_event.c:_dom_mouse_multi_wheel_event_init_ns"])

p("Integer and boolean properties of elements reflect their attributes",
  "Setting an integer property and reading it gives the value back, and the attribute then holds its decimal notation; reading takes the number the text begins with; a property whose attribute is absent reads as -1; reading changes nothing. A boolean property reads as the presence of the attribute, and reads as what it was set to.",
  "every history of attribute calls, every element, every name, every int32 value, every attribute text",
  "texts, values and histories are unbounded; leading zeros, signs, ranges and attributes without a value are corner cases of the whole text space",
  [H+"html_element.c:dom_html_element_get_int32_t_property", H+"html_element.c:dom_html_element_set_int32_t_property", H+"html_element.c:dom_html_element_get_bool_property", H+"html_element.c:dom_html_element_set_bool_property"])

p("Every reference to a string is accounted for",
  "However elements are created, copied, destroyed and given values, names and titles, the count of a string is the number of references held by the client and by elements and the document; whoever holds a string reads the bytes it was made with; a string no one holds is freed; no call of a client that releases only what it holds touches freed memory.",
  "every history of string, element, title and form-control calls, any number of strings and elements",
  "a missing or surplus release shows only in the combination of calls and holders, later and elsewhere",
  [H+"html_document.c:_dom_html_document_create_element_ns", H+"html_document.c:_dom_html_document_create_element_internal", H+"html_input_element.c:dom_html_input_element_set_value", H+"html_text_area_element.c:dom_html_text_area_element_get_value", "src/core/string.c:dom_string_destroy"])

p("Values and default values of INPUT and TEXTAREA",
  "The value, default value and checkedness of a control read as what was set last, whatever calls are made in between; before a value is set the default is read; the default value is the attribute of an INPUT and the text of a TEXTAREA; a copy has the values of its original.",
  "every history of calls between setting and reading, any number of controls",
  "unbounded interleavings of setting, reading, copying and attribute changes",
  [H+"html_input_element.c:dom_html_input_element_get_value", H+"html_input_element.c:dom_html_input_element_set_default_value", H+"html_input_element.c:_dom_html_input_element_copy", H+"html_text_area_element.c:dom_html_text_area_element_get_default_value", H+"html_text_area_element.c:dom_html_text_area_element_set_value"])

p("Text and index of an option",
  "The text of an option is the text of everything below it in document order, without comments, processing instructions and scripts of the HTML and SVG namespaces, with leading and trailing blanks removed and every run of blanks made one space; its index is its position among the options of its select, so that the two are inverse.",
  "every document a client can build, every option, any nesting of elements and groups",
  "nesting, texts and lists of options are unbounded",
  [H+"html_option_element.c:dom_html_option_element_get_text_node", H+"html_option_element.c:dom_html_option_element_get_index", "src/core/string.c:dom_string_whitespace_op"])

p("Namespaces in scope",
  "Asked of any node, isDefaultNamespace says whether the given namespace is the default one in scope, lookupNamespaceURI gives the namespace a prefix stands for (that of the nearest element that bears the prefix or declares it, or none), and lookupPrefix a prefix that stands for the namespace; the questions change nothing.",
  "every document a client can build, every node, every prefix and namespace",
  "the distance to the nearest declaration and the number of attributes are unbounded",
  ["src/core/element.c:_dom_element_lookup_prefix", "src/core/element.c:_dom_element_is_default_namespace", "src/core/element.c:_dom_element_lookup_namespace", "src/core/node.c:_dom_node_lookup_namespace", "src/core/attr.c:_dom_attr_lookup_namespace"])

p("Title, body and collections of a document",
  "The title of an HTML document is the text of its TITLE element, its body the BODY or else the FRAMESET, and its images, links, forms, anchors and applets are the elements of that kind in document order, each found at its index; the questions change nothing but the references they hand out, and what is set is what is then found.",
  "every document a client can build, every index",
  "the number and the depth of the elements are unbounded",
  [H+"html_document.c:_dom_html_document_get_title", H+"html_document.c:_dom_html_document_get_body", H+"html_document.c:_dom_html_document_get_images", H+"html_document.c:_dom_html_document_get_links", H+"html_document.c:_dom_html_document_get_applets", H+"html_collection.c:dom_html_collection_get_length"])

p("Releasing an HTML document",
  "When the client releases an HTML document, the document gives back each string it holds exactly once; a node the client still holds stays usable, and once that is released too the document is gone and nothing is released twice.",
  "every history of calls, every document, node and set of strings",
  "which node outlives the document and what the document holds depend on the whole history",
  [H+"html_document.c:_dom_html_document_finalise", H+"html_document.c:_dom_html_document_destroy", "src/core/document.c:_dom_document_finalise", "src/core/node.c:_dom_node_finalise"])

p("Forms and their controls",
  "The elements of a form are exactly the controls inside it, in document order; each control, option, label, legend and fieldset answers the form it is in, or none, with a reference for the caller; asking a form for its elements or their number changes nothing.",
  "every history of calls, every document, form and element, every association made by the parser",
  "which controls a form has depends on everything the parser and the client did to the document",
  [H+"html_form_element.c:dom_html_form_element_get_elements", H+"html_form_element.c:dom_html_form_element_get_length", H+"html_form_element.c:_dom_is_form_control", H+"html_input_element.c:dom_html_input_element_get_form", H+"html_label_element.c:dom_html_label_element_get_form", H+"html_legend_element.c:dom_html_legend_element_get_form", H+"html_option_element.c:dom_html_option_element_get_form", "bindings/hubbub/parser.c:form_associate"])

p("Caption, head and foot of a table",
  "Asking a table for its caption, head or foot answers its first child of that name or none, with a reference for the caller; deleting one takes exactly it out; creating one answers the one there is or puts a new one in that is the part from then on; setting one replaces the old one by the given element, refuses elements of another name, changes nothing when it fails and leaves the caller's references as they were.",
  "every history of calls, every table and element",
  "which part a call finds depends on everything inserted and removed before, and every failure can strike with an old part in place",
  [H+"html_table_element.c:dom_html_table_element_get_caption", H+"html_table_element.c:dom_html_table_element_set_caption", H+"html_table_element.c:dom_html_table_element_create_caption", H+"html_table_element.c:dom_html_table_element_delete_caption", H+"html_table_element.c:dom_html_table_element_set_t_head", H+"html_table_element.c:dom_html_table_element_create_t_head", H+"html_table_element.c:dom_html_table_element_set_t_foot", H+"html_table_element.c:dom_html_table_element_create_t_foot"])

open("/verif/properties.jsonl","w").write("".join(json.dumps(x)+"\n" for x in P))
print(len(P))

{"id": "C01", "title": "Child lists stay consistent under every history of tree edits", "statement": "After any sequence of node creations, appendChild, insertBefore, removeChild and replaceChild calls, each node has one ordered list of children: firstChild/nextSibling enumerates it forwards, lastChild/previousSibling enumerates the same list backwards, every member's parentNode is that node, no node occurs twice or in two lists, and following parentNode always ends.", "quantifier": "every finite sequence of tree-editing calls from an empty document, with any nodes as arguments", "why_tests_cant": "link corruption depends on the position of a node, on where it came from and on what was edited before; the number of histories is unbounded", "anchors": ["src/core/node.c:_dom_node_insert_before", "src/core/node.c:_dom_node_attach_range", "src/core/node.c:_dom_node_detach_range", "src/core/node.c:_dom_node_replace", "src/core/node.c:_dom_node_remove_child"]}
{"id": "C02", "title": "insertBefore/appendChild put the node exactly where asked and move nothing else", "statement": "When insertBefore(p,n,ref) succeeds, n first leaves its old parent's child list, and p's child list becomes the old one with n inserted immediately before ref (at the end when ref is null); every other child list, and every node's type, name and value, is unchanged. For a fragment, its children are spliced in order and the fragment becomes empty.", "quantifier": "every tree reached by careful clients (they pass only nodes they hold, insert a fragment once and only where its children may go, name no attribute where a child is meant, and use no empty fragment in replaceChild), every parent, new child and reference child", "why_tests_cant": "the effect has to be right for every position, sibling count and prior location of the moved node", "anchors": ["src/core/node.c:_dom_node_insert_before", "src/core/node.c:_dom_node_append_child", "src/core/node.c:_dom_node_attach_range"]}
{"id": "C03", "title": "removeChild removes exactly that child", "statement": "When removeChild(p,c) succeeds, p's child list loses exactly c, order of the others is kept, c becomes parentless with its own subtree intact, and no other child list changes.", "quantifier": "every tree reached by careful clients (they pass only nodes they hold, insert a fragment once and only where its children may go, name no attribute where a child is meant, and use no empty fragment in replaceChild) and every child in it", "why_tests_cant": "first, middle, last and only-child positions interact with stale links from earlier edits", "anchors": ["src/core/node.c:_dom_node_remove_child", "src/core/node.c:_dom_node_detach", "src/core/node.c:_dom_node_detach_range"]}
{"id": "C04", "title": "replaceChild substitutes in place", "statement": "When replaceChild(p,n,o) succeeds, p's child list is the old one with o replaced by n (or by the children of n when n is a fragment, possibly none), o is parentless, and no other list changes except that n leaves its old parent.", "quantifier": "every reachable tree and every replacement including empty and non-empty fragments", "why_tests_cant": "the empty-fragment, adjacent-sibling and same-parent cases need all positions", "anchors": ["src/core/node.c:_dom_node_replace_child", "src/core/node.c:_dom_node_replace"]}
{"id": "C05", "title": "Nothing can be inserted beneath itself", "statement": "insertBefore, appendChild and replaceChild fail with HIERARCHY_REQUEST_ERR when the new child is the parent itself or one of its ancestors, and so no history makes a node its own ancestor.", "quantifier": "every tree of any depth reached by careful clients (they pass only nodes they hold, insert a fragment once and only where its children may go, name no attribute where a child is meant, and use no empty fragment in replaceChild) and every pair of nodes", "why_tests_cant": "the ancestor walk must be right at every depth", "anchors": ["src/core/node.c:_dom_node_insert_before", "src/core/node.c:_dom_node_replace_child"]}
{"id": "C06", "title": "A failing tree edit changes nothing", "statement": "Whenever insertBefore, appendChild, replaceChild or removeChild returns an exception, the observable state (all child lists, owners, reference counts and what later calls may do) is the same as before the call.", "quantifier": "every reachable state and every argument tuple that makes the call fail", "why_tests_cant": "each early return must precede every side effect, on every path", "anchors": ["src/core/node.c:_dom_node_insert_before", "src/core/node.c:_dom_node_replace_child", "src/core/node.c:dom_node_remove_pending"]}
{"id": "C07", "title": "A document has at most one root element and one doctype", "statement": "No history of edits gives a Document node two Element children or two DocumentType children.", "quantifier": "every sequence of edits, including fragments", "why_tests_cant": "the check is per inserted node while fragments insert many at once", "anchors": ["src/core/node.c:_dom_node_permitted_child", "src/core/node.c:_dom_node_insert_before"]}
{"id": "C08", "title": "Only permitted node types nest", "statement": "In every reachable tree each parent/child pair respects the DOM content table: text, comment, PI, CDATA, doctype and notation nodes have no children, documents hold only elements, comments, PIs and a doctype, attributes hold only text and entity references.", "quantifier": "every tree reached by careful clients (they pass only nodes they hold, insert a fragment once and only where its children may go, name no attribute where a child is meant, and use no empty fragment in replaceChild)", "why_tests_cant": "must hold for all histories and all node types", "anchors": ["src/core/node.c:_dom_node_permitted_child"]}
{"id": "C09", "title": "Editing a child list never touches attributes, and attributes are not children", "statement": "Passing an attribute of p to removeChild(p,.), as insertBefore's reference or as replaceChild's old child is rejected with NOT_FOUND_ERR and leaves p's children alone.", "quantifier": "every element with attributes and children", "why_tests_cant": "attributes share the parent field with children, so the membership test has to tell them apart in every state", "anchors": ["src/core/node.c:_dom_node_remove_child", "src/core/node.c:_dom_node_detach_range", "src/core/element.c:_dom_element_set_attr_node"]}
{"id": "C10", "title": "A referenced node is never freed", "statement": "As long as the client holds a reference on a node, that node (and its whole subtree) stays allocated, whatever else is edited, unreferenced or destroyed.", "quantifier": "every history of creation, edits, ref and unref calls of careful clients (they pass only nodes they hold, insert a fragment once and only where its children may go, name no attribute where a child is meant, and use no empty fragment in replaceChild)", "why_tests_cant": "use-after-free needs particular interleavings of unref, detach and document destruction", "anchors": ["src/core/node.c:_dom_node_destroy", "src/core/node.c:_dom_node_finalise", "src/core/node.c:_dom_node_try_destroy", "src/core/node.h:dom_node_unref"]}
{"id": "C11", "title": "No call touches freed memory or trips an internal assertion", "statement": "In every history in which the client only passes nodes it holds references to, no library call reads or writes a freed node, dereferences NULL or fails an assertion.", "quantifier": "every well-behaved client history over the tree API", "why_tests_cant": "depends on unbounded histories of partial destruction", "anchors": ["src/core/node.c", "src/core/document.c:_dom_document_finalise"]}
{"id": "C12", "title": "Destroying a node frees exactly the unreferenced part of its subtree", "statement": "When the last reference to a parentless node goes away, the nodes freed are exactly those that have no referenced node at or above them in that subtree; each topmost referenced descendant survives with its own subtree intact and becomes parentless.", "quantifier": "every tree shape and assignment of reference counts reached by careful clients (they pass only nodes they hold, insert a fragment once and only where its children may go, name no attribute where a child is meant, and use no empty fragment in replaceChild)", "why_tests_cant": "shape and reference pattern are both unbounded", "anchors": ["src/core/node.c:_dom_node_finalise", "src/core/node.c:_dom_node_try_destroy"]}
{"id": "C13", "title": "A document outlives its nodes", "statement": "A document is freed only when it is unreferenced and no node created from it is still held or part of a held tree; when that happens it is freed, with everything in it.", "quantifier": "every history", "why_tests_cant": "needs the pending list to be exact in every reachable state", "anchors": ["src/core/document.c:_dom_document_finalise", "src/core/document.c:_dom_document_try_destroy", "src/core/node.c:_dom_node_mark_pending", "src/core/node.c:_dom_node_remove_pending"]}
{"id": "C14", "title": "Surviving nodes keep no link to freed siblings", "statement": "After any destruction, nextSibling and previousSibling of every node that is still alive are live nodes or null (null when it has no parent).", "quantifier": "every history", "why_tests_cant": "only shows when part of a sibling list is still referenced while its parent is freed", "anchors": ["src/core/node.c:_dom_node_finalise", "src/core/node.c:_dom_node_get_next_sibling"]}
{"id": "C15", "title": "childNodes is a live, ordered view of the children", "statement": "length equals the number of children and item(i) is the i-th child, null past the end, after any edits made since the list was created.", "quantifier": "every tree, every 32-bit index", "why_tests_cant": "liveness and order must hold for every tree and index", "anchors": ["src/core/nodelist.c:dom_nodelist_get_length", "src/core/nodelist.c:_dom_nodelist_item"]}
{"id": "C16", "title": "getElementsByTagName lists exactly the matching descendants in document order", "statement": "length equals the number of matching element descendants of the root (any element for '*'), item(i) is the i-th in document order and null exactly when i >= length; the root is never included and nothing outside its subtree is.", "quantifier": "every tree, root, name and 32-bit index", "why_tests_cant": "the traversal climbs by hand over parent/last-child links in trees of any shape", "anchors": ["src/core/nodelist.c:dom_nodelist_get_length", "src/core/nodelist.c:_dom_nodelist_item", "src/core/document.c:_dom_document_get_nodelist"]}
{"id": "C17", "title": "Namespaced tag lists agree between length and item", "statement": "For getElementsByTagNameNS lists, item(i) is non-null exactly when i < length.", "quantifier": "every tree, namespace, local name and index", "why_tests_cant": "the two loops test the namespace differently", "anchors": ["src/core/nodelist.c:dom_nodelist_get_length", "src/core/nodelist.c:_dom_nodelist_item"]}
{"id": "C18", "title": "HTML collections list exactly the matching subtree nodes in document order", "statement": "length, item(i) and namedItem of an HTMLCollection agree with the document-order list of nodes at or below the root that satisfy the collection's test; nothing outside the root's subtree is ever returned and the walk always ends.", "quantifier": "every tree, root, predicate and index", "why_tests_cant": "the walk must stay in the subtree for all shapes, including a childless root", "anchors": ["src/html/html_collection.c:dom_html_collection_get_length", "src/html/html_collection.c:dom_html_collection_item", "src/html/html_collection.c:dom_html_collection_named_item"]}
{"id": "C19", "title": "getElementById returns the first element with that id in document order", "statement": "The result is the first element in document order below the root whose id attribute equals the argument, and null when there is none.", "quantifier": "every tree and id", "why_tests_cant": "hand-written pre-order walk over trees of any shape", "anchors": ["src/core/document.c:_dom_find_element_by_id", "src/core/document.c:_dom_document_get_element_by_id"]}
{"id": "C20", "title": "The tree walker reports every node once, properly nested", "statement": "libdom_treewalk calls back ENTER and LEAVE for each descendant in document order with properly nested brackets; PROCEED visits everything, SKIP on entering omits exactly that node's subtree, ABORT stops at once; the walk never leaves the root's subtree.", "quantifier": "every tree and every callback behaviour", "why_tests_cant": "callback behaviours are an infinite family; bracket nesting is a global property", "anchors": ["src/utils/walk.c:libdom_treewalk", "src/utils/walk.c:dom_walk__cb"]}
{"id": "C21", "title": "textContent is the concatenation of the descendant text in document order", "statement": "For an element or fragment the result is the concatenation in document order of the data of its text and CDATA descendants (comments and PIs excluded), null when there is nothing; for character data it is the data, for documents and doctypes null.", "quantifier": "every tree", "why_tests_cant": "recursion with a mutable accumulator over unbounded trees", "anchors": ["src/core/node.c:_dom_node_get_text_content"]}
{"id": "C22", "title": "Setting textContent replaces all children by one text node", "statement": "After a successful setTextContent(s) the node has exactly one child, a text node with data s, and getTextContent returns s; previous children are parentless.", "quantifier": "every tree and string", "why_tests_cant": "loops over a list it edits", "anchors": ["src/core/node.c:_dom_node_set_text_content"]}
{"id": "C23", "title": "contains() is the inclusive-ancestor relation", "statement": "contains(a,b) is true exactly when a is b or an ancestor of b; it is reflexive, transitive and antisymmetric.", "quantifier": "every tree reached by careful clients (they pass only nodes they hold, insert a fragment once and only where its children may go, name no attribute where a child is meant, and use no empty fragment in replaceChild) and pair of nodes", "why_tests_cant": "unbounded depth", "anchors": ["src/core/node.c:_dom_node_contains"]}
{"id": "C24", "title": "Deep clone copies the whole subtree and shares nothing", "statement": "cloneNode(true) yields a parentless tree of fresh nodes isomorphic to the original (same types, names, values, order), and leaves the original unchanged; cloneNode(false) copies just the node.", "quantifier": "every tree", "why_tests_cant": "recursion over trees with append in the middle", "anchors": ["src/core/node.c:_dom_node_clone_node", "src/core/node.c:_dom_node_copy_internal"]}
{"id": "C25", "title": "normalize merges adjacent text and preserves textContent", "statement": "After normalize no two adjacent children are text nodes anywhere below the node, and the text content of the node is unchanged.", "quantifier": "every tree", "why_tests_cant": "runs of three or more text nodes and nesting positions are unbounded", "anchors": ["src/core/node.c:_dom_node_normalize", "src/core/node.c:_dom_merge_adjacent_text", "src/core/text.c:_dom_text_get_whole_text"]}
{"id": "C26", "title": "isEqualNode recognises clones", "statement": "isEqualNode is reflexive and symmetric, and a deep clone is equal to its original.", "quantifier": "every tree", "why_tests_cant": "structural equality over unbounded trees", "anchors": ["src/core/node.c:_dom_node_is_equal", "src/core/element.c:attributes_equal", "src/core/nodelist.c:_dom_nodelist_equal"]}
{"id": "C27", "title": "Attributes behave as a finite map", "statement": "After setAttribute(k,v), getAttribute(k) returns v and hasAttribute(k) holds; other names are unaffected; removeAttribute(k) makes it absent; setting an existing name replaces in place; names never repeat; item(i) for i < length enumerates the map.", "quantifier": "every history of attribute calls on an element without namespaces", "why_tests_cant": "map laws over unbounded histories on a hand-written circular list", "anchors": ["src/core/element.c:_dom_element_set_attr", "src/core/element.c:_dom_element_get_attr", "src/core/element.c:_dom_element_remove_attr", "src/core/element.c:_dom_element_attr_list_find_by_name"]}
{"id": "C28", "title": "Namespaced attributes are keyed by namespace and local name", "statement": "setAttributeNS(ns,..) / getAttributeNS(ns,..) with different namespaces do not interfere, and a null-namespace lookup sees only null-namespace attributes.", "quantifier": "every history mixing namespaced and plain attribute calls", "why_tests_cant": "collisions need particular mixes", "anchors": ["src/core/element.c:_dom_element_attr_list_find_by_name", "src/core/element.c:_dom_element_set_attribute_ns"]}
{"id": "C29", "title": "class queries follow the class attribute", "statement": "hasClass(c) is true exactly when c is one of the whitespace-separated tokens of the current class attribute, after any history of attribute changes.", "quantifier": "every history of attribute changes and every token", "why_tests_cant": "cache coherence over histories", "anchors": ["src/core/element.c:_dom_element_create_classes", "src/core/element.c:_dom_element_get_classes", "src/core/element.c:_dom_element_has_class", "src/core/element.c:_dom_element_set_attr"]}
{"id": "C30", "title": "A token list is an ordered set mirrored in its attribute", "statement": "contains(t) holds right after add(t) and fails right after remove(t), other tokens keep membership and order, no token occurs twice, and the attribute value is the tokens joined by single spaces, so re-reading it gives the same list.", "quantifier": "every history of add/remove/set_value/attribute changes and every token", "why_tests_cant": "round trip through the attribute text and change notifications over unbounded histories", "anchors": ["src/core/tokenlist.c:_dom_tokenlist_reparse", "src/core/tokenlist.c:_dom_tokenlist_reify", "src/core/tokenlist.c:dom_tokenlist_add", "src/core/tokenlist.c:dom_tokenlist_remove"]}
{"id": "C31", "title": "CharacterData edits satisfy the string laws", "statement": "insertData, deleteData, replaceData, appendData and substringData have the effect of cutting and joining the character sequence at the given offsets, counts past the end are clamped, offsets past the end, and offsets or counts of 2^31 or more (which the API reads as negative), give INDEX_SIZE_ERR and change nothing, and delete undoes insert. (appendData: on nodes that have data, possibly empty.)", "quantifier": "every data string and every 32-bit offset and count", "why_tests_cant": "offset/count arithmetic is modular; boundaries are everywhere", "anchors": ["src/core/characterdata.c:_dom_characterdata_insert_data", "src/core/characterdata.c:_dom_characterdata_delete_data", "src/core/characterdata.c:_dom_characterdata_replace_data", "src/core/characterdata.c:_dom_characterdata_substring_data"]}
{"id": "C32", "title": "splitText cuts a text node in two", "statement": "splitText(k) for 0<=k<=length leaves the first k characters in the node and returns a new text node with the rest that is the next sibling of the node.", "quantifier": "every text node and offset", "why_tests_cant": "boundary offsets and sibling placement", "anchors": ["src/core/text.c:_dom_text_split_text"]}
{"id": "C33", "title": "wholeText is the concatenation of the maximal run of adjacent text nodes", "statement": "wholeText returns the concatenated data of all logically adjacent text nodes in order, and replaceWholeText leaves exactly the receiving node with the new content.", "quantifier": "every run length and position", "why_tests_cant": "runs are unbounded", "anchors": ["src/core/text.c:_dom_text_get_whole_text", "src/core/text.c:_dom_text_replace_whole_text", "src/core/text.c:walk_logic_adjacent_text"]}
{"id": "C34", "title": "String operations are exact on characters", "statement": "For valid UTF-8: length counts code points, substr/insert/replace cut at character boundaries, concat is associative with the empty string as unit, insert then delete is the identity, index and rindex return the first and last position of a character and at(i) agrees with them.", "quantifier": "every valid UTF-8 string and every offset", "why_tests_cant": "variable-width encoding makes byte/character confusion input dependent", "anchors": ["src/core/string.c:dom_string_length", "src/core/string.c:dom_string_substr", "src/core/string.c:dom_string_insert", "src/core/string.c:dom_string_replace", "src/core/string.c:dom_string_index", "src/core/string.c:dom_string_rindex", "src/core/string.c:dom_string_at"]}
{"id": "C35", "title": "String equality is an equivalence, and equal strings hash equally", "statement": "isequal is reflexive, symmetric and transitive (null equals empty), independent of interning; caseless equality is the equivalence generated by ASCII case; equal strings have equal hashes; toupper/tolower are idempotent and caseless-equal to their input; whitespace operations strip and collapse exactly ASCII whitespace runs.", "quantifier": "all pairs and triples of strings, interned or not", "why_tests_cant": "two representations times all contents", "anchors": ["src/core/string.c:dom_string_isequal", "src/core/string.c:dom_string_caseless_isequal", "src/core/string.c:_dom_string_hash", "src/core/string.c:dom_string_toupper", "src/core/string.c:dom_string_whitespace_op"]}
{"id": "C36", "title": "The hash table is a finite map", "statement": "After any history, get(k) returns the value of the last add/replace of a key equal to k not since deleted, add without replace of a present key is refused, length is the number of keys, del returns the stored pair, iteration visits every entry exactly once, and clone gives an equal independent table.", "quantifier": "every history, any hash function compatible with key equality, any bucket count > 0", "why_tests_cant": "collisions and histories are unbounded", "anchors": ["src/utils/hashtable.c:_dom_hash_add", "src/utils/hashtable.c:_dom_hash_get", "src/utils/hashtable.c:_dom_hash_del", "src/utils/hashtable.c:_dom_hash_clone", "src/utils/hashtable.c:_dom_hash_get_next"]}
{"id": "C37", "title": "Qualified names split and join without loss", "statement": "A qualified name accepted for an element or attribute splits into prefix and local name such that prefix:local is the original, nodeName reproduces it, and the reserved prefixes xml and xmlns are accepted only with their own namespaces.", "quantifier": "every qualified name and namespace string", "why_tests_cant": "all strings", "anchors": ["src/utils/namespace.c:_dom_namespace_validate_qname", "src/utils/namespace.c:_dom_namespace_split_qname", "src/core/node.c:_dom_node_get_node_name"]}
{"id": "C38", "title": "Name validation accepts exactly the XML/DOM name language", "statement": "createElement and friends accept a name iff its first character is a name-start character and the rest are name characters of the ranges in the code's specification tables; the binary search over the character tables finds exactly the code points of the listed ranges.", "quantifier": "every string and all 2^32 code point values", "why_tests_cant": "a binary search off-by-one shows only at particular table positions", "anchors": ["src/utils/validate.c:_dom_validate_name", "src/utils/validate.c:is_name_char", "src/utils/character_valid.c:_dom_is_character_in_group"]}
{"id": "C39", "title": "Event listeners fire once each in registration order", "statement": "Dispatching to a target calls exactly the listeners registered for that type and phase, each once, in the order they were added, after any history of add and remove calls; adding the same listener twice has no effect.", "quantifier": "every history of add/remove and every event type", "why_tests_cant": "list rotation on removal depends on the history", "anchors": ["src/events/event_target.c:_dom_event_target_add_event_listener", "src/events/event_target.c:_dom_event_target_remove_event_listener", "src/events/event_target.c:_dom_event_target_dispatch"]}
{"id": "C40", "title": "Listeners may edit the listener list while it is being dispatched", "statement": "If a listener removes itself or others, the remaining listeners are still called exactly once each and the library never reads a freed entry.", "quantifier": "every listener program", "why_tests_cant": "re-entrancy: listener behaviours are arbitrary programs", "anchors": ["src/events/event_target.c:_dom_event_target_dispatch"]}
{"id": "C41", "title": "Events propagate capture, target, bubble", "statement": "dispatchEvent visits the listening ancestors from the root down for capturing listeners, then the target, then (bubbling events) the ancestors from the target up, on the ancestor path as it was when dispatch started, crossing from a parentless fragment to its host.", "quantifier": "every tree, target, listener placement", "why_tests_cant": "tree depth and placements unbounded", "anchors": ["src/core/node.c:_dom_node_dispatch_event"]}
{"id": "C42", "title": "stopPropagation and stopImmediatePropagation", "statement": "After stopPropagation the rest of the current target's listeners run and no later target is visited; after stopImmediatePropagation no further listener runs at all.", "quantifier": "every listener program and placement", "why_tests_cant": "all placements of the call", "anchors": ["src/core/node.c:_dom_node_dispatch_event", "src/events/event_target.c:_dom_event_target_dispatch", "src/events/event.c:_dom_event_stop_propagation"]}
{"id": "C43", "title": "preventDefault is reported faithfully", "statement": "dispatchEvent reports false exactly when the event is cancelable and some called listener called preventDefault; the default action runs exactly when it was not prevented.", "quantifier": "every listener program", "why_tests_cant": "depends on listener behaviours and event flags", "anchors": ["src/events/event.c:_dom_event_prevent_default", "src/core/node.c:_dom_node_dispatch_event"]}
{"id": "C44", "title": "An event can be dispatched again after dispatch finished", "statement": "Dispatching an event already being dispatched fails with DISPATCH_REQUEST_ERR; once finished, it can be dispatched again.", "quantifier": "every history of dispatch calls", "why_tests_cant": "flag life cycle over histories", "anchors": ["src/core/node.c:_dom_node_dispatch_event", "src/events/event.c:_dom_event_initialise"]}
{"id": "C45", "title": "Mutation events report each change once", "statement": "Each inserted or removed node produces exactly one DOMNodeInserted/DOMNodeRemoved event at that node, one *IntoDocument/*FromDocument event per descendant, and one DOMSubtreeModified at the parent.", "quantifier": "every tree edit", "why_tests_cant": "count over unbounded subtrees and all edit kinds", "anchors": ["src/core/node.c:_dom_node_dispatch_node_change_event", "src/core/node.c:_dom_node_remove_child", "src/core/node.c:_dom_node_attach_range", "src/core/node.c:_dom_node_detach_range"]}
{"id": "C46", "title": "User data is a per-node map with notification", "statement": "getUserData(k) returns the last non-null data set for k; set returns the previous data; null removes; other keys are unaffected; each handler is told exactly once per clone and deletion.", "quantifier": "every history of set/get calls", "why_tests_cant": "map laws over histories on a hand-written list", "anchors": ["src/core/node.c:_dom_node_set_user_data", "src/core/node.c:_dom_node_get_user_data"]}
{"id": "C47", "title": "importNode and adoptNode hand nodes over to the new document", "statement": "The result of importNode/adoptNode belongs to the target document and can be inserted there; the import source is unchanged; the adoption source leaves its parent.", "quantifier": "every pair of documents and every node", "why_tests_cant": "all node types and trees", "anchors": ["src/core/document.c:_dom_document_import_node", "src/core/document.c:_dom_document_adopt_node", "src/core/document.c:dom_document_dup_node"]}
{"id": "C48", "title": "select.selectedIndex, value and length agree with the options", "statement": "length counts the options, selectedIndex is the position of the first selected option or -1, setting selectedIndex to i in -1..length-1 makes that the only selection, remove(i) removes the i-th option, and out-of-range indices do nothing.", "quantifier": "every select subtree and every 32-bit index", "why_tests_cant": "indices and subtree shapes unbounded", "anchors": ["src/html/html_select_element.c", "src/html/html_options_collection.c"]}
{"id": "C49", "title": "Table row operations keep row order", "statement": "insertRow(i) makes the new row the i-th row of the table, deleteRow(i) removes the i-th, indices outside -1..length give INDEX_SIZE_ERR and change nothing, for tables with or without thead, tbody and tfoot.", "quantifier": "every table shape and index", "why_tests_cant": "section combinations and indices unbounded", "anchors": ["src/html/html_table_element.c:dom_html_table_element_insert_row", "src/html/html_table_element.c:dom_html_table_element_delete_row", "src/html/html_tablesection_element.c", "src/html/html_tablerow_element.c"]}
{"id": "C50", "title": "The intrusive circular list is a sequence", "statement": "list_append adds at the end, list_del removes exactly that entry and leaves it a singleton, list_has is membership, walking next and prev enumerate the same sequence in opposite orders.", "quantifier": "every history of list operations on disjoint lists", "why_tests_cant": "pointer structure invariants over histories", "anchors": ["src/utils/list.h"]}
{"id": "C51", "title": "Attribute typed values keep their type", "statement": "An attribute's first typed set (integer, short, bool) fixes its type; a get of the same type returns the last set value; a get or set of another type fails with a wrong-type error and changes nothing; string view and typed view agree.", "quantifier": "every history of typed gets and sets", "why_tests_cant": "histories", "anchors": ["src/core/attr.c:dom_attr_get_integer", "src/core/attr.c:dom_attr_set_integer"]}
{"id": "C52", "title": "Live lists are shared and released exactly", "statement": "Asking a document twice for the same list returns the same object with its count raised; each unref lowers it; the list is freed and unregistered exactly when the last holder releases it, and never keeps the document from being destroyed afterwards.", "quantifier": "every history of list requests and releases", "why_tests_cant": "aliasing and counts over histories", "anchors": ["src/core/document.c:_dom_document_get_nodelist", "src/core/document.c:_dom_document_remove_nodelist", "src/core/nodelist.c:dom_nodelist_unref"]}
{"id": "C53", "title": "setAttribute, getAttribute and removeAttribute make a finite map", "statement": "In histories that use attributes by name without namespaces (no setAttributeNode, removeAttributeNode, or value set through the attribute object), each element has a map in order of insertion: get and has answer from it, set stores, remove deletes, other names and elements are unaffected, length and item enumerate it, names never repeat.", "quantifier": "every such history over any number of elements, every name, value and index", "why_tests_cant": "map laws over unbounded histories on a hand-written circular list", "anchors": ["src/core/element.c:_dom_element_set_attr", "src/core/element.c:_dom_element_get_attr", "src/core/element.c:_dom_element_remove_attr", "src/core/element.c:attributes_item"]}
{"id": "C54", "title": "Attribute calls answer from the element's entry list and never touch freed memory", "statement": "For clients that use only attributes they hold a reference to, set values only through attached attributes and do not replace an element's first attribute by setAttributeNode, every attribute call (by name, by node, by index, typed, class query, reference counting) returns what the sequence of entries says and none goes wrong.", "quantifier": "every history of such calls, any number of elements, attributes and references", "why_tests_cant": "use after free depends on the whole history of links and counts", "anchors": ["src/core/element.c:_dom_element_set_attr_node", "src/core/element.c:_dom_element_remove_attr_node", "src/core/element.c:_dom_element_attr_list_node_unlink", "src/core/attr.c:_dom_attr_destroy"]}
{"id": "C55", "title": "Cells go where the index says and a row knows its place", "statement": "insertCell and deleteCell act on the cell the index names, -1 being the end, and refuse an index out of range changing nothing; sectionRowIndex is the position of the row among the rows of its section, so a row inserted at an index answers that index; rowIndex counts the rows of the sections before it, distinct rows of a table answer distinct indices, and a row outside a table answers an error.", "quantifier": "every document a client can build, every row, every index", "why_tests_cant": "section layouts, nesting and indices unbounded", "anchors": ["src/html/html_tablerow_element.c:dom_html_table_row_element_insert_cell", "src/html/html_tablerow_element.c:dom_html_table_row_element_delete_cell", "src/html/html_tablerow_element.c:dom_html_table_row_element_get_row_index", "src/html/html_tablerow_element.c:dom_html_table_row_element_get_section_row_index"]}
{"id": "C56", "title": "Modifier keys of an event are those it was initialised with", "statement": "After an event is initialised, the key getters and getModifierState report exactly the modifier keys given to that initialisation, for mouse and keyboard events given flags and for wheel events given a list of names; a name that is no modifier is answered false.", "quantifier": "every history of initialisations of an event, every modifier list, every name", "why_tests_cant": "lists of names and histories of re-initialisation are unbounded", "anchors": ["src/events/keyboard_event.c:_dom_keyboard_event_init_helper", "src/events/keyboard_event.c:_dom_parse_modifier_list", "src/events/keyboard_event.c:_dom_keyboard_event_get_modifier_state", "src/events/mouse_event.c:_dom_mouse_event_init", "src/events/mouse_wheel_event.c:_dom_mouse_wheel_event_init_ns", "src/events/mouse_multi_wheel_event.c:_dom_mouse_multi_wheel_event_init_ns"]}
{"id": "C57", "title": "Integer and boolean properties of elements reflect their attributes", "statement": "Setting an integer property and reading it gives the value back, and the attribute then holds its decimal notation; reading takes the number the text begins with; a property whose attribute is absent reads as -1; reading changes nothing. A boolean property reads as the presence of the attribute, and reads as what it was set to.", "quantifier": "every history of attribute calls, every element, every name, every int32 value, every attribute text", "why_tests_cant": "texts, values and histories are unbounded; leading zeros, signs, ranges and attributes without a value are corner cases of the whole text space", "anchors": ["src/html/html_element.c:dom_html_element_get_int32_t_property", "src/html/html_element.c:dom_html_element_set_int32_t_property", "src/html/html_element.c:dom_html_element_get_bool_property", "src/html/html_element.c:dom_html_element_set_bool_property"]}
{"id": "C58", "title": "Every reference to a string is accounted for", "statement": "However elements are created, copied, destroyed and given values, names and titles, the count of a string is the number of references held by the client and by elements and the document; whoever holds a string reads the bytes it was made with; a string no one holds is freed; no call of a client that releases only what it holds touches freed memory.", "quantifier": "every history of string, element, title and form-control calls, any number of strings and elements", "why_tests_cant": "a missing or surplus release shows only in the combination of calls and holders, later and elsewhere", "anchors": ["src/html/html_document.c:_dom_html_document_create_element_ns", "src/html/html_document.c:_dom_html_document_create_element_internal", "src/html/html_input_element.c:dom_html_input_element_set_value", "src/html/html_text_area_element.c:dom_html_text_area_element_get_value", "src/core/string.c:dom_string_destroy"]}
{"id": "C59", "title": "Values and default values of INPUT and TEXTAREA", "statement": "The value, default value and checkedness of a control read as what was set last, whatever calls are made in between; before a value is set the default is read; the default value is the attribute of an INPUT and the text of a TEXTAREA; a copy has the values of its original.", "quantifier": "every history of calls between setting and reading, any number of controls", "why_tests_cant": "unbounded interleavings of setting, reading, copying and attribute changes", "anchors": ["src/html/html_input_element.c:dom_html_input_element_get_value", "src/html/html_input_element.c:dom_html_input_element_set_default_value", "src/html/html_input_element.c:_dom_html_input_element_copy", "src/html/html_text_area_element.c:dom_html_text_area_element_get_default_value", "src/html/html_text_area_element.c:dom_html_text_area_element_set_value"]}
{"id": "C60", "title": "Text and index of an option", "statement": "The text of an option is the text of everything below it in document order, without comments, processing instructions and scripts of the HTML and SVG namespaces, with leading and trailing blanks removed and every run of blanks made one space; its index is its position among the options of its select, so that the two are inverse.", "quantifier": "every document a client can build, every option, any nesting of elements and groups", "why_tests_cant": "nesting, texts and lists of options are unbounded", "anchors": ["src/html/html_option_element.c:dom_html_option_element_get_text_node", "src/html/html_option_element.c:dom_html_option_element_get_index", "src/core/string.c:dom_string_whitespace_op"]}
{"id": "C61", "title": "Namespaces in scope", "statement": "Asked of any node, isDefaultNamespace says whether the given namespace is the default one in scope, lookupNamespaceURI gives the namespace a prefix stands for (that of the nearest element that bears the prefix or declares it, or none), and lookupPrefix a prefix that stands for the namespace; the questions change nothing.", "quantifier": "every document a client can build, every node, every prefix and namespace", "why_tests_cant": "the distance to the nearest declaration and the number of attributes are unbounded", "anchors": ["src/core/element.c:_dom_element_lookup_prefix", "src/core/element.c:_dom_element_is_default_namespace", "src/core/element.c:_dom_element_lookup_namespace", "src/core/node.c:_dom_node_lookup_namespace", "src/core/attr.c:_dom_attr_lookup_namespace"]}
{"id": "C62", "title": "Title, body and collections of a document", "statement": "The title of an HTML document is the text of its TITLE element, its body the BODY or else the FRAMESET, and its images, links, forms, anchors and applets are the elements of that kind in document order, each found at its index; the questions change nothing but the references they hand out, and what is set is what is then found.", "quantifier": "every document a client can build, every index", "why_tests_cant": "the number and the depth of the elements are unbounded", "anchors": ["src/html/html_document.c:_dom_html_document_get_title", "src/html/html_document.c:_dom_html_document_get_body", "src/html/html_document.c:_dom_html_document_get_images", "src/html/html_document.c:_dom_html_document_get_links", "src/html/html_document.c:_dom_html_document_get_applets", "src/html/html_collection.c:dom_html_collection_get_length"]}
{"id": "C63", "title": "Releasing an HTML document", "statement": "When the client releases an HTML document, the document gives back each string it holds exactly once; a node the client still holds stays usable, and once that is released too the document is gone and nothing is released twice.", "quantifier": "every history of calls, every document, node and set of strings", "why_tests_cant": "which node outlives the document and what the document holds depend on the whole history", "anchors": ["src/html/html_document.c:_dom_html_document_finalise", "src/html/html_document.c:_dom_html_document_destroy", "src/core/document.c:_dom_document_finalise", "src/core/node.c:_dom_node_finalise"]}
{"id": "C64", "title": "Forms and their controls", "statement": "The elements of a form are exactly the controls inside it, in document order; each control, option, label, legend and fieldset answers the form it is in, or none, with a reference for the caller; asking a form for its elements or their number changes nothing.", "quantifier": "every history of calls, every document, form and element, every association made by the parser", "why_tests_cant": "which controls a form has depends on everything the parser and the client did to the document", "anchors": ["src/html/html_form_element.c:dom_html_form_element_get_elements", "src/html/html_form_element.c:dom_html_form_element_get_length", "src/html/html_form_element.c:_dom_is_form_control", "src/html/html_input_element.c:dom_html_input_element_get_form", "src/html/html_label_element.c:dom_html_label_element_get_form", "src/html/html_legend_element.c:dom_html_legend_element_get_form", "src/html/html_option_element.c:dom_html_option_element_get_form", "bindings/hubbub/parser.c:form_associate"]}
{"id": "C65", "title": "Caption, head and foot of a table", "statement": "Asking a table for its caption, head or foot answers its first child of that name or none, with a reference for the caller; deleting one takes exactly it out; creating one answers the one there is or puts a new one in that is the part from then on; setting one replaces the old one by the given element, refuses elements of another name, changes nothing when it fails and leaves the caller's references as they were.", "quantifier": "every history of calls, every table and element", "why_tests_cant": "which part a call finds depends on everything inserted and removed before, and every failure can strike with an old part in place", "anchors": ["src/html/html_table_element.c:dom_html_table_element_get_caption", "src/html/html_table_element.c:dom_html_table_element_set_caption", "src/html/html_table_element.c:dom_html_table_element_create_caption", "src/html/html_table_element.c:dom_html_table_element_delete_caption", "src/html/html_table_element.c:dom_html_table_element_set_t_head", "src/html/html_table_element.c:dom_html_table_element_create_t_head", "src/html/html_table_element.c:dom_html_table_element_set_t_foot", "src/html/html_table_element.c:dom_html_table_element_create_t_foot"]}

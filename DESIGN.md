# Formal model of libdom in Rocq (Coq 8.16.1)

## Layout

* `properties.jsonl` – the properties (C01 …), generated by `tools/mkprops.py`.
* `rocq/theories/XModel.v` – executable Gallina models, function by function, each definition citing
  the file and lines of /repo it models.  No proofs.
* `rocq/theories/XSpec.v` – small specifications that do not use the model's helpers.
* `rocq/theories/XProofs.v` – lemmas.
* `rocq/theories/XProps.v` – the property theorems only; each is closed by `exact lemma.`, followed by
  `Print Assumptions` and by a non-vacuity `Example`.
* `MANIFEST.json` – property → theorems, status.
* `seeded/LOG.jsonl` – seeded-bug experiments.

## Modelling conventions

* Memory: a heap is a partial map from identities to records; `None` is "never allocated or freed".
  Identities are never reused, so every access through a stale pointer is visible as a use-after-free.
* Outcomes: `Ok a s` (DOM_NO_ERR), `Exc e s` (an exception code; the state is kept because libdom may
  already have had side effects), `Bad b` (undefined behaviour or failed `assert`: use after free, NULL
  dereference, assertion failure; and, as a distinct case, exhausted recursion fuel).  Theorems that
  say "the call succeeds" exclude every `Bad`, including exhausted fuel.
* 32-bit arithmetic is written explicitly (`mod 2^32`) wherever wrap-around is reachable.
* Memory exhaustion (`DOM_NO_MEM_ERR`) is not modelled: allocation always succeeds.
* Where the code violates a property the theorem is called `…_refuted` and exhibits a concrete run of
  the model; next to it the strongest positive statement I could prove is given.

## Per-property plan

| id | modelled as | proof |
|----|-------------|-------|
| C01 | pointer-level heap of nodes, API ops as `step` | invariant by induction over op sequences, abstraction to child lists |
| C02–C04 | same; abstract child-list forest | refinement: concrete op = list insertion/removal/replacement; refutation for empty-fragment replace |
| C05 | same | ancestor relation from parent links; acyclicity is part of the invariant |
| C06 | same | case analysis of error paths; refutation for fragments (pending list) |
| C07 | same | invariant for fragment-free histories; refutation with a two-element fragment |
| C08 | same | invariant |
| C09 | same | refutation (removeChild(element, attr)) |
| C10–C13 | same heap with reference counts, pending lists, destroy | invariant with ghost client references; functional description of destroy on rose trees |
| C14 | same | refutation (dangling sibling), positive part for attached nodes |
| C15–C17 | nodelist.c loops on the heap | loop = filtered pre-order of the represented rose tree; refutations for index 2^32-1 and NS lists |
| C18 | html_collection.c loops | same; refutation for childless root |
| C19 | find_element_by_id loop | same |
| C20 | treewalk loop with arbitrary callback | refinement to recursive bracket semantics |
| C21, C22 | recursive textContent; set_text_content | structural recursion on rose trees |
| C23 | contains loop | equals ancestor relation |
| C24 | clone_node recursion | isomorphism by induction on the rose tree |
| C25 | normalize, whole text | refutation; positive part for isolated text |
| C26 | is_equal | refutation; positive part |
| C27, C28 | ring of attribute cells | refinement to association list; refutations |
| C29 | class cache | refutation; positive part |
| C30 | tokenlist.c | refinement to ordered set for ASCII tokens; refutations |
| C31 | characterdata.c over characters | list laws |
| C32, C33 | text.c | refutations and positive parts |
| C34, C35 | string.c over bytes with UTF-8 decoding | laws over valid UTF-8; refutation for rindex |
| C36 | hashtable.c | refinement to finite map, any hash |
| C37, C38 | namespace.c, validate.c, character_valid.c | language equivalence; binary search correctness |
| C39, C40 | event_target.c ring + dispatch | refinement; refutations for rotation and mutation during dispatch |
| C41–C44 | dispatch_event | propagation path spec; refutations |
| C45 | event log of the tree ops | exact logs; refutation for double DOMNodeRemoved |
| C46 | user data list | refinement to finite map |
| C47 | dup_node / adopt | refutation; positive part |
| C48, C49 | select/table functions on the heap | refutations; positive parts |
| C50 | list.h on a pointer heap | refinement to cyclic sequences |
| C51 | attr.c typed values | state machine |
| C52 | nodelist registry | invariant |
| C53, C54 | the ring of attribute entries of any number of elements, all calls | refinement to a finite map; exhaustive answers of the 23 calls |
| C55 | cells of a row, row indexes on the node heap | exact lists from the tree; refutations |
| C56 | the modifier fields and init functions of the event classes | state after any history of initialisations; refutations |
| C57 | property functions over the attribute model, with %u and strtol on bytes | round trip through text; refutations |
| C58 | a heap of counted strings, elements and controls that hold them | invariant: count = holders, by induction over histories; refutations |
| C59 | the same heap | frame lemmas over histories; refutations |
| C60 | option functions on the node heap | exact text by induction over trees, words of a text; refutations |
| C61 | the three lookups on the node heap | induction over the distance to the root, against DOM Level 3's appendix B; refutations |
| C62 | title, body and collections of a document on the node heap | lists and collections of C16 and C18, references given back; refutations |
| C63 | the destructor of HTML documents on top of the node heap | simulation by the node heap; invariants of the strings; refutations |
| C64 | form pointers of controls beside the node heap; the ways up the tree | collections of C18 over the associated controls, references given back; refutations |
| C65 | get, create, delete and set of caption, head and foot on the node heap | insertion and removal lemmas of C49 for tables, round trip with the getter; refutations |

The history operations of the node heap are HistModel.op: create (every node type), append, insertBefore,
removeChild, replaceChild, setAttributeNode, ref, unref.  C47–C49 and C55 hold in every state such a
history reaches, and describe one further call.

## What is modelled

| model file | code |
|------------|------|
| Base | outcomes, state monad |
| HeapModel | core/node.c: links, insert, remove, replace, attach/detach, ref counts, pending list, destroy, finalise; core/document.c ref counting; core/attr.c, element.c, doc_fragment.c, document_type.c, text.c, entity_ref.c: create, destroy and finalise of each type; element.c setAttributeNode at the level of nodes; events/dispatch.c: which mutation events are dispatched (as a log; listeners of mutation events do not run) |
| HistModel | histories of a client that only uses what it holds |
| WalkModel | core/nodelist.c, html/html_collection.c, utils/walk.c loops, getElementById, textContent, contains |
| ContentModel | setTextContent, cloneNode (with attributes), normalize, isEqualNode |
| ImportModel | importNode, adoptNode, dup_node |
| CharDataModel | core/characterdata.c, core/text.c |
| AttrModel | element.c attribute list (ring of entries), attr.c values and types, namednodemap.c |
| TokenModel | core/tokenlist.c |
| RegModel | nodelist registry of core/document.c, nodelist life cycle |
| EventModel | events/event_target.c, event.c, node.c dispatch_event |
| UserDataModel | user data of core/node.c |
| StringModel, Utf8Model | core/string.c; libparserutils UTF-8 helpers from their documentation |
| NameModel, CharModel | utils/validate.c, namespace.c, character_valid.c, html_document.c name checks |
| HashModel, RingModel | utils/hashtable.c, utils/list.h |
| ModModel | modifier keys of keyboard_event.c, mouse_event.c, mouse_wheel_event.c, mouse_multi_wheel_event.c |
| NumModel | html_element.c: integer and boolean properties over AttrModel; snprintf of %u and strtol with base 0 of the C library (64-bit long) |
| StrRefModel | references to strings: core/string.c counting, create_element and create_element_ns of html_document.c, names of core/element.c, html_input_element.c and html_text_area_element.c (values, defaults, checked, copy, destroy), title of html_document.c |
| OptionModel | text and index of html_option_element.c |
| LookupModel | lookupPrefix, isDefaultNamespace, lookupNamespaceURI of node.c, attr.c, element.c |
| DocModel | title, body, images, links, forms, anchors and applets of html_document.c |
| FinModel | _dom_html_document_finalise, _dom_html_document_destroy |
| FormModel | forms, their collections, get_form of controls, options, labels, fieldsets and legends |
| PartModel | caption, head and foot of a table: get, create, delete, set |
| HtmlModel, CellModel | html_select_element.c (length, selectedIndex, remove), html_table_element.c, html_tablesection_element.c, html_tablerow_element.c (rows and cells), boolean properties of html_element.c |

## What is not modelled

* Memory exhaustion; threads (the library is single-threaded); addresses of callbacks other than listeners
  and user data handlers.
* `bindings/` (hubbub, expat, libxml parsers), `implementation.c`, the init functions of the event classes but for their modifier keys.
* HTML element classes that only reflect attributes; HTML documents appear through their name checks, element
  creation and title only.  StrRefModel knows elements by the strings they hold, not by their place in the tree:
  the text of a TEXTAREA is a field of it.
* Mutation event listeners that edit the tree during an edit.
* Entities, notations and the document type's maps, beyond creation and nesting.
* The HTML models run on the core node heap with a name per element: a created `tr`, `td` and so on is a
  core element of that name.

## Findings

The refuted properties name behaviour of the code, each exhibited by a theorem `…_refuted`: an empty
fragment in replaceChild corrupts the child list (C01, C04); spent fragments assert or outlive their document
(C06, C11, C13); two root elements by way of a fragment (C07); attributes taken for children (C09); dangling
siblings (C14); item(2^32-1) (C16, C18); length and item of namespaced lists disagree (C17); collections on an
empty root walk out of it (C18); wild pointer as clone of a processing instruction (C24); normalize duplicates
text (C25); isEqualNode is not an equivalence (C26); use after free in setAttributeNode (C27); stale class names
(C29); wholeText and splitText (C32, C33); rindex (C34); reserved prefixes (C37); listener rotation and loss
(C39, C40); cancelable ignored, events cannot be dispatched again (C43, C44); DOMNodeRemoved twice (C45);
imports useless in the importing document and leaking (C47); selectedIndex (C48); table and row functions on
tables without a head, and every call that counts options, rows or cells of an empty element that has a
sibling after it (C48, C49, C55); wheel events lose their modifiers and keyboard events keep old ones (C56);
negative and octal numbers, clearing of booleans (C57); names of SVG elements released once too often, TEXTAREA
values leaked (C58); defaults of INPUT not following the attribute, defaults of TEXTAREA lost on reading (C59);
words of an option glued together, indexes within groups (C60);
lookupPrefix on elements, declared prefixes not found, undeclared ones answered (C61);
set titles hiding TITLE, bodies left unset or dangling, applets missed (C62);
strings of a document released twice, names gone before the nodes (C63);
forms empty unless parsed, controls that keep a form they left or that is gone (C64);
heads of tables refused, captions taken for heads, captions leaked and lost by their setter (C65).

## Trusted base

* Coq 8.16.1 kernel (and `vm_compute` for concrete runs).
* Axioms: none.  Every Props file ends in `Print Assumptions` of the tuple of its theorems, and every one
  prints "Closed under the global context".
* Fidelity of the hand translation from C; external libraries (libparserutils UTF-8 helpers,
  libwapcaplet interning) are modelled from their documented behaviour.

{"claims": [
 {"property": "C01", "status": "partial", "theorems": ["C01_child_lists_consistent_partial", "C01_navigation", "C01_child_lists_consistent_refuted"], "note": "quantifies over all histories of careful clients (HistModel.legal), fewer than 2^32-2 calls; full statement refuted: replacing a child by an empty fragment breaks the list"},
 {"property": "C02", "status": "proved", "theorems": ["C02_insert_before", "C02_append_child"], "note": "quantifies over all histories of careful clients (HistModel.legal), fewer than 2^32-2 calls"},
 {"property": "C03", "status": "proved", "theorems": ["C03_remove_child"], "note": "quantifies over all histories of careful clients (HistModel.legal), fewer than 2^32-2 calls"},
 {"property": "C04", "status": "partial", "theorems": ["C04_replace_child_partial", "C04_replace_child_refuted", "C04_root_replaceable"], "note": "quantifies over all histories of careful clients (HistModel.legal), fewer than 2^32-2 calls; full statement refuted for empty fragments"},
 {"property": "C05", "status": "proved", "theorems": ["C05_no_insertion_beneath_itself", "C05_no_cycle"], "note": "quantifies over all histories of careful clients (HistModel.legal), fewer than 2^32-2 calls"},
 {"property": "C06", "status": "partial", "theorems": ["C06_failures_change_nothing_partial", "C06_failures_change_nothing_refuted"], "note": "quantifies over all histories of careful clients (HistModel.legal), fewer than 2^32-2 calls; full statement refuted: a fragment rejected for its content is left unusable"},
 {"property": "C07", "status": "partial", "theorems": ["C07_one_root_partial", "C07_one_root_refuted", "C07_root_unmovable"], "note": "proved for careful clients that insert no fragment into a document; refuted with a fragment of two elements"},
 {"property": "C08", "status": "proved", "theorems": ["C08_permitted_nesting"], "note": "quantifies over all histories of careful clients (HistModel.legal), fewer than 2^32-2 calls"},
 {"property": "C09", "status": "partial", "theorems": ["C09_attributes_not_children_partial", "C09_edits_keep_attributes_partial", "C09_foreign_attribute_partial", "C09_remove_refuted", "C09_insert_refuted", "C09_replace_refuted"], "note": "The full statement is refuted: an attribute names its element as parent, so removeChild, insertBefore and replaceChild take it for a child. C09_remove_refuted shows it for every writable element in every reachable state; the other two by witness. Proved: attributes are never in a child list of a reachable state, legal edits leave every attribute list alone, and an attribute of something else is rejected with NOT_FOUND_ERR and nothing changed."},
 {"property": "C10", "status": "proved", "theorems": ["C10_referenced_nodes_live", "C10_held_subtrees_survive", "C10_only_unref_frees"], "note": "quantifies over all histories of careful clients (HistModel.legal), fewer than 2^32-2 calls"},
 {"property": "C11", "status": "partial", "theorems": ["C11_no_undefined_behaviour_partial", "C11_no_undefined_behaviour_refuted", "C11_unheld_document_refuted"], "note": "quantifies over all histories of careful clients (HistModel.legal), fewer than 2^32-2 calls; full statement refuted: re-inserting a fragment asserts, a document kept only by its nodes has no name"},
 {"property": "C12", "status": "proved", "theorems": ["C12_unref_frees_exactly"], "note": "quantifies over all histories of careful clients (HistModel.legal), fewer than 2^32-2 calls"},
 {"property": "C13", "status": "partial", "theorems": ["C13_document_outlives_partial", "C13_document_outlives_refuted"], "note": "quantifies over all histories of careful clients (HistModel.legal), fewer than 2^32-2 calls; refuted for fragments that have been inserted: they outlive their document"},
 {"property": "C14", "status": "partial", "theorems": ["C14_sibling_links_partial", "C14_sibling_links_refuted"], "note": "proved for nodes with a parent; refuted for children that outlive their parent"},
 {"property": "C15", "status": "proved", "theorems": ["C15_child_nodes", "walk_states"], "note": "all well-linked heaps (walk_states: what careful clients reach)"},
 {"property": "C16", "status": "partial", "theorems": ["C16_by_tag_name_partial", "C16_largest_index_refuted", "C16_prefixed_names_refuted", "walk_states"], "note": "all well-linked heaps (walk_states: what careful clients reach), names being local names and indices below 2^32-1; refuted: item(2^32-1) answers a node that does not match, prefixed elements are not found by their tag name"},
 {"property": "C17", "status": "partial", "theorems": ["C17_by_namespace_partial", "C17_length_partial", "C17_no_namespace_refuted", "walk_states"], "note": "all well-linked heaps (walk_states: what careful clients reach); refuted for the absent namespace: length counts elements that item does not deliver"},
 {"property": "C18", "status": "partial", "theorems": ["C18_collections_partial", "C18_empty_root_refuted", "C18_empty_root_always_refuted", "C18_largest_index_refuted", "walk_states"], "note": "all well-linked heaps (walk_states: what careful clients reach), any membership test, roots with a child or without a next sibling; refuted: on every empty root followed by a sibling getLength dereferences NULL, and item answers elements after the root or does the same; item(2^32-1) answers the root"},
 {"property": "C19", "status": "partial", "theorems": ["C19_by_id_partial", "C19_two_roots_refuted", "walk_states"], "note": "all well-linked heaps (walk_states: what careful clients reach), documents with at most one root element; refuted for the second root element of a document (see C07)"},
 {"property": "C20", "status": "partial", "theorems": ["C20_treewalk_partial", "C20_visits_determined", "C20_leave_only_refuted", "walk_states"], "note": "all well-linked heaps (walk_states: what careful clients reach), any client; refuted for LEAVE-only masks with a client that answers SKIP"},
 {"property": "C21", "status": "proved", "theorems": ["C21_text_content", "C21_character_data", "C21_documents", "walk_states"], "note": "all well-linked heaps (walk_states: what careful clients reach)"},
 {"property": "C22", "status": "partial", "theorems": ["C22_set_text_content", "C22_read_only", "C22_character_data", "C22_documents", "C22_processing_instruction_refuted"], "note": "proved for elements, fragments and attributes in every reachable state, with the fate of the old children; character data take the text as data; processing instructions raise (refuted)"},
 {"property": "C23", "status": "proved", "theorems": ["C23_contains_is_ancestor", "C23_ancestor_antisymmetric"], "note": "quantifies over all histories of careful clients (HistModel.legal), fewer than 2^32-2 calls"},
 {"property": "C24", "status": "partial", "theorems": ["C24_deep_clone_partial", "C24_shallow_clone_partial", "C24_processing_instruction_refuted", "C24_instruction_inside_refuted"], "note": "proved for every tree of elements, fragments, attributes, text, CDATA and comments, attributes copied with their own children in the same order; refuted for processing instructions (wild pointer)"},
 {"property": "C25", "status": "partial", "theorems": ["C25_normal_trees_partial", "C25_text_content_refuted", "C25_adjacent_text_refuted", "C25_references_refuted"], "note": "refuted: merged text is duplicated, the first child is skipped, a client reference is lost; trees without adjacent text are left unchanged"},
 {"property": "C26", "status": "partial", "theorems": ["C26_elements_partial", "C26_unlike_nodes_partial", "C26_clone_refuted", "C26_reflexive_refuted", "C26_alike_nodes_refuted"], "note": "on elements it is identity, on nodes that differ in a field it is false; a clone is not equal and alike non-elements dereference NULL (refuted)"},
 {"property": "C27", "status": "partial", "theorems": ["C27_get_partial", "C27_set_partial", "C27_remove_partial", "C27_item_partial", "C27_length_partial", "C27_names_partial", "C27_in_place_partial", "C27_set_attribute_node_refuted", "C27_unattached_refuted"], "note": "map laws proved for every history of calls by name (C53); refuted for setAttributeNode in place of the first attribute (use after free) and setValue on an unattached attribute (NULL dereference)"},
 {"property": "C28", "status": "partial", "theorems": ["C28_get_partial", "C28_set_partial", "C28_remove_partial", "C28_failing_set_partial", "C28_null_lookup_refuted", "C28_null_set_refuted", "C28_prefixed_refuted"], "note": "a map keyed by namespace and local name as long as no call without a namespace names a namespaced attribute; refuted otherwise: such lookups find and overwrite namespaced attributes; removeAttributeNode misses prefixed ones"},
 {"property": "C29", "status": "partial", "theorems": ["C29_has_class_partial", "C29_stale_refuted", "C29_tab_refuted"], "note": "proved while the class attribute is only set when absent and its blanks are spaces; refuted: setting it again leaves the old names, a tab does not separate"},
 {"property": "C30", "status": "partial", "theorems": ["C30_calls_partial", "C30_add_partial", "C30_remove_partial", "C30_no_token_twice_partial", "C30_words_partial", "C30_echo_refuted", "C30_two_lists_refuted", "C30_blank_token_refuted", "C30_cut_token_refuted", "C30_cut_value_refuted"], "note": "any number of lists on one attribute; proved for ASCII tokens without spaces when no one else writes the value a list last wrote; refuted otherwise: stale caches, tokens with spaces accepted, non-ASCII text cut"},
 {"property": "C31", "status": "proved", "theorems": ["text_nodes_editable", "C31_length", "C31_substring", "C31_append", "C31_insert", "C31_delete", "C31_replace", "C31_set", "C31_offset_out_of_range", "C31_count_out_of_range", "C31_delete_undoes_insert", "C31_replace_is_delete_then_insert", "C31_read_only", "C31_edited_nodes_stay_editable", "C31_append_to_null_refuted"], "note": "every editable character-data node of a well-linked heap (text_nodes_editable: those a careful client holds); every 32-bit offset and count; appendData on a node created without data fails an assertion (C31_append_to_null_refuted)"},
 {"property": "C32", "status": "partial", "theorems": ["C32_split_partial", "C32_offset_out_of_range", "C32_next_sibling_refuted", "C32_at_end_refuted"], "note": "every editable character-data node of a well-linked heap (text_nodes_editable: those a careful client holds); the cut is proved for offsets before the end; refuted: the new node is not inserted, and offset = length is refused"},
 {"property": "C33", "status": "partial", "theorems": ["C33_whole_text_partial", "C33_longer_runs_refuted", "C33_replace_whole_text_partial", "C33_replace_removes_refuted", "C33_replace_crashes_refuted"], "note": "wholeText proved when at most one text node and no CDATA section stands on either side, refuted for longer runs; replaceWholeText stores the content when it returns, but removes the node itself and crashes without a parent (refuted)"},
 {"property": "C34", "status": "partial", "theorems": ["C34_length", "C34_at", "C34_index", "C34_substr", "C34_insert", "C34_replace", "C34_insert_then_delete", "C34_concat", "C34_rindex_partial", "C34_rindex_refuted", "C34_rindex_gives_up_refuted"], "note": "every clause proved except rindex, which is refuted (position one too high, and not found near the start)"},
 {"property": "C35", "status": "proved", "theorems": ["C35_isequal", "C35_isequal_equivalence", "C35_caseless", "C35_caseless_equivalence", "C35_hash", "C35_hash_word", "C35_null_hash", "C35_toupper", "C35_tolower", "C35_whitespace"], "note": "all contents and representations; a NULL string equals the empty one but cannot be hashed (C35_null_hash)"},
 {"property": "C36", "status": "proved", "theorems": ["C36_hash_table_is_finite_map"], "note": "any hash/equality, any history; clone included"},
 {"property": "C37", "status": "partial", "theorems": ["C37_split_join", "C37_split_at_first_colon", "C37_created_name", "C37_reserved_partial", "C37_xmlns_refuted", "C37_empty_prefix_refuted", "C37_html_reserved_refuted"], "note": "splitting and nodeName proved for all names; reserved prefixes proved except xmlns and ':name' without a namespace (refuted); HTML documents check nothing (refuted)"},
 {"property": "C38", "status": "partial", "theorems": ["C38_search", "C38_search_any_table", "C38_classes", "C38_validate_name", "C38_create_element", "C38_create_element_ns", "C38_ncname", "C38_ncname_sound", "C38_attribute_name_partial", "C38_html_documents_refuted", "C38_ncname_refuted", "C38_attribute_name_refuted"], "note": "core documents accept exactly the XML 1.0 names (all byte strings); HTML documents accept anything, NCName misses later letters, attribute names accept control characters (refuted)"},
 {"property": "C39", "status": "partial", "theorems": ["C39_registrations_partial", "C39_calls_in_order_partial", "C39_order_refuted", "C39_duplicate_refuted", "C39_remove_all_refuted"], "note": "registered listeners and call order proved for histories without duplicates (order: removals of the oldest); refuted otherwise: removal rotates the list, duplicates run twice, removal without a type removes one"},
 {"property": "C40", "status": "partial", "theorems": ["C40_no_freed_entry_partial", "C40_client_calls_partial", "C40_remove_self_refuted", "C40_remove_next_refuted", "C40_remove_previous_refuted", "C40_adding_refuted"], "note": "memory safety proved for arbitrary listeners; exactly-once refuted by removal during dispatch, termination refuted by a listener that adds listeners"},
 {"property": "C41", "status": "partial", "theorems": ["C41_path_partial", "C41_fragment_target_refuted"], "note": "listeners that leave registrations alone (they may move nodes, stop, prevent), any tree and registrations; refuted for a fragment that is itself the target"},
 {"property": "C42", "status": "partial", "theorems": ["C42_stopping_partial"], "note": "listeners that leave registrations alone (they may move nodes, stop, prevent), any tree and registrations; listeners that edit registrations are missing (C40)"},
 {"property": "C43", "status": "partial", "theorems": ["C43_prevent_partial", "C43_not_cancelable_refuted", "C43_stop_suppresses_refuted"], "note": "listeners that leave registrations alone (they may move nodes, stop, prevent), any tree and registrations; refuted: cancelable is ignored and stopPropagation suppresses the default action"},
 {"property": "C44", "status": "partial", "theorems": ["C44_refused_partial", "C44_redispatch_refuted"], "note": "an event in dispatch is refused with no effect; refuted: it stays refused after its dispatch has ended"},
 {"property": "C45", "status": "partial", "theorems": ["C45_insert_events_partial", "C45_remove_events_refuted", "C45_replace_events_refuted"], "note": "insertBefore reports each change once; removeChild reports twice and replaceChild not at all (refuted)"},
 {"property": "C46", "status": "partial", "theorems": ["C46_user_data_is_a_map", "C46_handlers_told_partial", "C46_handlers_told_refuted"], "note": "values proved for every history; notices proved for histories that give no handler when removing, refuted otherwise (the handler of a removal is told)"},
 {"property": "C47", "status": "partial", "theorems": ["C47_import_partial", "C47_import_shallow_partial", "C47_import_refuted", "C47_adopt_partial", "C47_adopt_refuted", "C47_adopt_root_refuted", "C47_documents_refused", "C47_import_leaks_refuted"], "note": "imports are faithful copies and adopted elements leave their parent; refuted for every foreign source: the result keeps the old document and every insertion into the new one raises WRONG_DOCUMENT_ERR; text is not adopted at all; copies of children leak; attributes are copied with the elements"},
 {"property": "C48", "status": "partial", "theorems": ["C48_length", "C48_selected_index", "C48_set_selected_index_partial", "C48_set_selected_index_refuted", "C48_set_out_of_range_refuted", "C48_set_minus_one_refuted", "C48_remove", "C48_remove_out_of_range", "C48_add", "C48_empty_select_refuted"], "note": "The full statement is refuted: setting selectedIndex does not unmark the other options (so the index set need not be the index read), an index out of range other than -1 dereferences NULL and -1 marks the select element itself. Length, selectedIndex, setting an index in range, remove, and add are proved for every reachable document. On every select that is empty and has a sibling after it, length and selectedIndex dereference NULL; such selects are excluded from the other theorems."},
 {"property": "C49", "status": "partial", "theorems": ["C49_section_insert", "C49_section_insert_out_of_range", "C49_section_insert_refuted", "C49_section_delete", "C49_section_delete_out_of_range", "C49_section_delete_refuted", "C49_empty_section_refuted", "C49_table_out_of_range", "C49_table_headless_refuted", "C49_table_footless_refuted", "C49_table_insert_head", "C49_table_insert_body", "C49_table_insert_foot", "C49_table_delete_head", "C49_table_delete_body", "C49_table_delete_foot", "C49_table_insert_first", "C49_table_insert_first_body", "C49_empty_table_refuted"], "note": "The full statement is refuted: a table that has rows and no thead, or whose index falls past head and bodies without a tfoot, dereferences NULL; so does every row call on every empty table or section before a sibling; a row nested deeper than a child is counted but answers NOT_FOUND_ERR. Sections, out-of-range indices and the head, body and foot of a table with a head are proved for every reachable document. So is insertRow on a table without rows, which makes a tbody if there is none. Cells of a row are C55."},
 {"property": "C50", "status": "proved", "theorems": ["C50_lists_are_sequences"], "note": "any set of heads and entries, any history of init/append/del"},
 {"property": "C51", "status": "partial", "theorems": ["C51_first_set_partial", "C51_get_partial", "C51_type_fixed_partial", "C51_failing_set_partial", "C51_string_view_refuted"], "note": "typed gets and sets proved through every further legal history; the string view of a typed attribute is empty (refuted)"},
 {"property": "C52", "status": "proved", "theorems": ["C52_get", "C52_asked_twice", "C52_counts", "C52_release", "C52_registered", "C52_document", "C52_roots", "C52_safe"], "note": "RegModel: one document, its doubly linked registry and its lists; histories of get, ref and unref on lists and on the document by a client that uses what it holds. Element roots stay alive (the list has a reference on them); the 32-bit counts do not wrap in histories below 10^9 calls."},
 {"property": "C53", "status": "proved", "theorems": ["C53_attributes_are_a_map", "C53_set", "C53_remove"], "note": "histories of calls by name over any elements; history length below 2^32-17 (entry counts and references are 32-bit)"},
 {"property": "C54", "status": "proved", "theorems": ["C54_attribute_calls"], "note": "all 23 modelled attribute calls; history length below 2^32-6"},
 {"property": "C55", "status": "partial", "theorems": ["C55_insert_cell", "C55_insert_cell_out_of_range", "C55_insert_cell_refuted", "C55_delete_cell", "C55_delete_cell_out_of_range", "C55_delete_cell_refuted", "C55_section_row_index", "C55_section_row_index_counts", "C55_insert_row_index", "C55_row_index_head", "C55_row_index_body", "C55_row_index_refuted", "C55_detached_row_refuted", "C55_detached_section_refuted", "C55_row_elsewhere", "C55_empty_row_refuted"], "note": "The full statement is refuted: with the tfoot before a tbody two rows of the table answer the same rowIndex; a row without a parent, or in a section without one, dereferences NULL, and so do the cell calls on every empty row before a sibling; a cell nested deeper than a child is counted but answers NOT_FOUND_ERR. Proved for every reachable document: insertCell and deleteCell on child cells and out of range, sectionRowIndex as the position in the section, the round trip with insertRow, and rowIndex in head, bodies and foot."},
 {"property": "C56", "status": "partial", "theorems": ["C56_mouse", "C56_getters", "C56_keyboard_once_partial", "C56_keyboard_partial", "C56_keyboard_refuted", "C56_list_partial", "C56_wheel_refuted", "C56_unknown_refuted"], "note": "The full statement is refuted: initialising a keyboard event again never clears a modifier; a wheel event reads its modifier list and then the mouse initialisation it calls clears it, so no wheel event reports any modifier; a name that is no modifier leaves the caller's variable as it was. Proved: mouse events, keyboard events initialised once, the exact state after any history of initialisations, and that a list is read word by word."},
 {"property": "C57", "status": "partial", "theorems": ["C57_set_get", "C57_read", "C57_absent", "C57_text", "C57_negative_refuted", "C57_octal_refuted", "C57_range_refuted", "C57_unset_refuted", "C57_bool_read", "C57_bool_set_get", "C57_bool_twice_refuted", "C57_bool_prefixed_refuted"], "note": "The full statement is refuted: a negative value is written as 2^32 plus it; text with a leading zero is read as octal and text out of range wraps; an attribute attached without a value is read through NULL; clearing a boolean leaves a second attribute of the same local name, and fails for a prefixed one. Proved for every history of attribute calls: set then get gives back every int32, the value of every text that begins with a numeral, -1 for an absent attribute, booleans as presence, set then get of a boolean."},
 {"property": "C58", "status": "partial", "theorems": ["C58_counts_partial", "C58_held_partial", "C58_bytes_partial", "C58_safe_partial", "C58_freed_partial", "C58_textarea_leak_refuted", "C58_svg_prefixed_refuted", "C58_svg_count_refuted", "C58_svg_dangles_refuted"], "note": "The full statement is refuted: createElementNS in the SVG namespace releases the name it does not own, and reading the value of a TEXTAREA twice loses a reference. The other theorems hold for every history without elements of the SVG namespace, counting the references TEXTAREA loses, as long as counts fit 32 bits."},
 {"property": "C59", "status": "partial", "theorems": ["C59_value", "C59_value_default", "C59_default", "C59_default_first", "C59_default_attribute_refuted", "C59_area_default", "C59_area_default_lost_refuted", "C59_checked", "C59_copy"], "note": "The full statement is refuted: the default value of an INPUT is the first value the attribute had, and reading the value of a TEXTAREA loses its default value. Setting and reading, and copies of an INPUT, are proved for every history."},
 {"property": "C60", "status": "partial", "theorems": ["C60_text_partial", "C60_text_exact_partial", "C60_text_refuted", "C60_index_counts", "C60_index_partial", "C60_index_refuted", "C60_detached_refuted"], "note": "The full statement is refuted: blanks at the ends of each element below are removed before its text is joined, so words are glued together; the index counts siblings only, so options of different groups answer the same; an option without a parent dereferences NULL. Proved for every reachable document: no character but blanks is lost or added, the exact text when no element below begins or ends in a blank, the index as a count of siblings and as the position in a select without groups. Texts below entity references are not covered."},
 {"property": "C61", "status": "partial", "theorems": ["C61_default", "C61_default_exists", "C61_leak_refuted", "C61_null_prefix", "C61_prefix_partial", "C61_declared_refuted", "C61_declared_missed", "C61_undeclared_refuted", "C61_default_taken", "C61_document", "C61_lookup_prefix_refuted", "C61_lookup_prefix_partial"], "note": "The full statement is refuted: a prefix declared by an xmlns:p attribute is not found, an undeclared one answers the default namespace of an xmlns attribute, a document answers nothing, asking an attribute leaves a reference to its element behind, and lookupPrefix calls a function of attributes on elements, which is undefined behaviour on every node at or below an element. Proved for every reachable document: isDefaultNamespace is right, lookupNamespaceURI is right without a prefix, and with one where no attribute declares anything."},
 {"property": "C62", "status": "partial", "theorems": ["C62_title_partial", "C62_title_none", "C62_title_set", "C62_title_refuted", "C62_body_partial", "C62_body_refuted", "C62_body_set", "C62_body_set_refuted", "C62_collections_partial", "C62_rootless_refuted", "C62_applets_refuted", "C62_applets_null_refuted"], "note": "The full statement is refuted: a title that was set hides the TITLE element instead of changing it, a document without a body leaves the caller's variable as it was, a body that was set is answered without a reference and even when it is gone, the collections of a document without an element fail an assertion, an APPLET is not among the applets and an empty OBJECT is a NULL dereference. Proved for every reachable document: the title, the body and the items and lengths of images, links, forms and anchors, with exactly the reference of the item taken."},
 {"property": "C63", "status": "partial", "theorems": ["C63_nodes", "C63_nodes_back", "C63_alone_partial", "C63_held_refuted", "C63_twice_refuted"], "note": "The full statement is refuted, for every reachable document: if the client holds an element longer than the document, the document's tables of names are gone and every accessor of a string attribute of the element is a NULL dereference; and if the document has a string of its own, the release that frees the document releases that string again, a use after free. Proved: the nodes are treated as C10 to C14 say, and a document without children and pending nodes releases each of its strings exactly once; with children that all go with it this is not proved."},
 {"property": "C64", "status": "partial", "theorems": ["C64_controls_partial", "C64_form", "C64_others", "C64_label", "C64_legend", "C64_option_partial", "C64_api_refuted", "C64_moved_refuted", "C64_gone_refuted"], "note": "The full statement is refuted: only the parser associates controls with forms, so that every form of a document built through the API is empty whatever is in it; a control moved out of its form stays one of its elements; once the form is gone, asking a control for it is a use after free. Proved for every reachable document: length and elements list exactly the associated controls of the document (one that has a child, whose reference the caller holds) in document order, associated controls answer their form, labels and fieldsets the closest form around them, legends and options by way of fieldset and select (for options while the forms are there)."},
 {"property": "C65", "status": "partial", "theorems": ["C65_get", "C65_delete", "C65_create", "C65_set", "C65_replace_partial", "C65_set_leak_refuted", "C65_set_failure_refuted", "C65_set_head_refuted"], "note": "The full statement is refuted: the head setter compares with the name of captions, so that every head is refused and an accepted caption leaves the table without a head; setting a caption or foot leaves one reference too many on it, for every history; when the new one is refused by appendChild, the old one is already gone. Proved for every reachable document: the getters, the delete calls, the create calls with the round trip to the getter, and set of caption and foot with the round trip (replacing: for a new part not inside the old one)."}
]}

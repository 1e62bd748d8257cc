{
 "claims": [
  {
   "property": "C01",
   "status": "proved",
   "theorems": [
    "C01_scope_restored"
   ],
   "note": "Every history, every well-bracketed call sequence."
  },
  {
   "property": "C02",
   "status": "partial",
   "theorems": [
    "C02_declared_partial",
    "C02_declared_refuted"
   ],
   "note": "False in general: a prefix re-bound in between is not noticed. Proved when no open tag binds the prefix to another namespace."
  },
  {
   "property": "C03",
   "status": "partial",
   "theorems": [
    "C03_no_duplicate_xmlns_partial",
    "C03_no_duplicate_xmlns_refuted"
   ],
   "note": "False when the same prefix is requested repeatedly. Proved for pairwise different prefixes."
  },
  {
   "property": "C04",
   "status": "partial",
   "theorems": [
    "C04_qname_resolves_partial",
    "C04_add_qname_partial",
    "C04_qname_resolves_refuted"
   ],
   "note": "False under prefix shadowing. Proved when no prefix is bound twice in scope and prefixes are printable ASCII."
  },
  {
   "property": "C19",
   "status": "partial",
   "theorems": [
    "C19_eq_refl_sym",
    "C19_lawful_partial",
    "C19_transitive_refuted",
    "C19_hash_refuted"
   ],
   "note": "Equality is not transitive and hashing not compatible when resolved and unresolved names mix. Proved for consistently resolved sets."
  },
  {
   "property": "C20",
   "status": "proved",
   "theorems": [
    "C20_split_lossless"
   ],
   "note": ""
  },
  {
   "property": "C50",
   "status": "partial",
   "theorems": [
    "C50_display_partial",
    "C50_display_injective_refuted",
    "C50_non_ascii_refuted"
   ],
   "note": "Not injective and non-ASCII bytes not hexed. Proved: printable ASCII unchanged, no control bytes, injective without backslash."
  },
  {
   "property": "C05",
   "status": "proved",
   "theorems": [
    "C05_well_nested",
    "C05_tags_well_formed"
   ],
   "note": "Every tree, every helper history; invalid names give a UTF-8 error."
  },
  {
   "property": "C06",
   "status": "partial",
   "theorems": [
    "C06_content_partial",
    "C06_namespaces_partial",
    "C06_attributes_refuted",
    "C06_namespaces_refuted"
   ],
   "note": "False for xmlns attributes repeated on children and for re-bound prefixes. Proved: names, plain attributes and values always come back; namespaces too when prefixes are used one-to-one."
  },
  {
   "property": "C07",
   "status": "partial",
   "theorems": [
    "C07_document_partial",
    "C07_references_refuted"
   ],
   "note": "Entity and character references are dropped. Proved: everything else of every document is kept, with exact namespaces."
  },
  {
   "property": "C08",
   "status": "proved",
   "theorems": [
    "C08_skip_exact",
    "C08_skip_only_elements",
    "C08_unexpected"
   ],
   "note": ""
  },
  {
   "property": "C09",
   "status": "proved",
   "theorems": [
    "C09_namespaces_in_scope",
    "C09_resolve_in_scope",
    "C09_resolve_plain"
   ],
   "note": ""
  },
  {
   "property": "C10",
   "status": "proved",
   "theorems": [
    "C10_error_path"
   ],
   "note": ""
  },
  {
   "property": "C51",
   "status": "partial",
   "theorems": [
    "C51_truncated_refuted",
    "C51_truncated_hangs"
   ],
   "note": "False for AnyElement: end of file is ignored for ever. Proved that this happens for every truncated input."
  },
  {
   "property": "C11",
   "status": "proved",
   "theorems": [
    "C11_content_value",
    "C11_chunking",
    "C11_malformed",
    "C11_reader_split"
   ],
   "note": ""
  },
  {
   "property": "C12",
   "status": "partial",
   "theorems": [
    "C12_content_partial",
    "C12_string_partial",
    "C12_empty_content",
    "C12_content_refuted"
   ],
   "note": "False for strings with white space at an end (trimmed) or containing ]]> (rejected). Proved for every other value, through escaping and the reader's splitting."
  },
  {
   "property": "C13",
   "status": "proved",
   "theorems": [
    "C13_accumulates",
    "C13_stops_at_tag",
    "C13_no_text",
    "C13_round_trip"
   ],
   "note": ""
  },
  {
   "property": "C14",
   "status": "partial",
   "theorems": [
    "C14_nil_partial",
    "C14_nil_document",
    "C14_value_partial",
    "C14_nil_long_form",
    "C14_siblings_refuted",
    "C14_attribute_refuted"
   ],
   "note": "False for the second of two nil siblings (xsi undeclared, read as a value) and for values with an attribute called nil. Proved: nil where xsi is declared; every other input behaves as the wrapped deserializer."
  },
  {
   "property": "C15",
   "status": "partial",
   "theorems": [
    "C15_nil_partial",
    "C15_type_partial",
    "C15_siblings_refuted",
    "C15_root_refuted"
   ],
   "note": "False for nil siblings and for an xsi:type root whose value already declared xsi. Proved whenever the helper's record of xsi is right for the surrounding elements."
  },
  {
   "property": "C16",
   "status": "proved",
   "theorems": [
    "C16_items_concatenated",
    "C16_first_error",
    "C16_driver",
    "C16_stays_done"
   ],
   "note": ""
  },
  {
   "property": "C17",
   "status": "proved",
   "theorems": [
    "C17_outermost_only"
   ],
   "note": ""
  },
  {
   "property": "C52",
   "status": "partial",
   "theorems": [
    "C52_scope_partial",
    "C52_scope_refuted",
    "C52_any_simple_refuted"
   ],
   "note": "The xsi:type wrapper never closes its scope around an empty-element tag; proved balanced for start/end tags. The serializer of AnySimpleType never closes its scope. AnyElement: see C05_well_nested."
  },
  {
   "property": "C21",
   "status": "proved",
   "theorems": [
    "C21_hex_write",
    "C21_hex_read",
    "C21_hex_round_trip",
    "C21_hex_length",
    "C21_base64_write",
    "C21_base64_read",
    "C21_base64_length",
    "C21_any_hex_round_trip"
   ],
   "note": "const_hex and base64 STANDARD are modelled explicitly; const_hex accepts an optional 0x prefix, which the reading theorem states."
  },
  {
   "property": "C22",
   "status": "partial",
   "theorems": [
    "C22_round_trip_partial",
    "C22_separators_partial",
    "C22_blank",
    "C22_array",
    "C22_runs_refuted",
    "C22_empty_item_refuted",
    "C22_empty_array_refuted"
   ],
   "note": "Holds for lists whose items are non-empty words; runs of separators, empty items and empty arrays are refuted."
  },
  {
   "property": "C23",
   "status": "partial",
   "theorems": [
    "C23_vec_partial",
    "C23_vec_refuted",
    "C23_arr",
    "C23_vec_default",
    "C23_arr_default_partial",
    "C23_arr_default_refuted",
    "C23_single"
   ],
   "note": "The error counts and bounds are proved; the refuted theorems give the cases in which the bounds are not enforced or the helper panics."
  },
  {
   "property": "C24",
   "status": "partial",
   "theorems": [
    "C24_replace",
    "C24_collapse",
    "C24_collapse_partial",
    "C24_collapse_refuted"
   ],
   "note": "collapse splits at Unicode white space, more than the four XML characters."
  },
  {
   "property": "C25",
   "status": "partial",
   "theorems": [
    "C25_total_sound_partial",
    "C25_fraction_sound_partial",
    "C25_total_complete_partial",
    "C25_fraction_complete_partial",
    "C25_refuted"
   ],
   "note": "Soundness and completeness hold on the decimal literals named in the hypotheses; C25_refuted gives the exceptions."
  },
  {
   "property": "C26",
   "status": "proved",
   "theorems": [
    "C26_history",
    "C26_push",
    "C26_insert",
    "C26_insert_new"
   ],
   "note": ""
  },
  {
   "property": "C27",
   "status": "proved",
   "theorems": [
    "C27_hash",
    "C27_histories"
   ],
   "note": ""
  },
  {
   "property": "C18",
   "status": "partial",
   "theorems": [
    "C18_any_partial",
    "C18_lists",
    "C18_mixed_partial",
    "C18_hex_refuted",
    "C18_document_refuted",
    "C23_arr_default_refuted"
   ],
   "note": "False: an odd number of hexBinary digits panics, and so does finish_arr_default with too many values. Proved: AnySimpleType panics in no other way; lists and arrays never panic."
  },
  {
   "property": "C53",
   "status": "partial",
   "theorems": [
    "C53_round_trip_partial",
    "C53_white_space_refuted",
    "C53_qname_refuted",
    "C53_default_refuted",
    "C53_list_refuted"
   ],
   "note": "False for text with white space at its ends, names with a prefix and a namespace, names without namespace where there is a default one, and list items with white space; proved for all other values and every context."
  },
  {
   "property": "C54",
   "status": "partial",
   "theorems": [
    "C54_dispatch_partial",
    "C54_errors",
    "C54_integer_range",
    "C54_namespace_refuted",
    "C54_attribute_refuted",
    "C54_boolean_refuted"
   ],
   "note": "The namespace of the type is ignored, a plain attribute called type is taken for xsi:type, and the boolean 1 is rejected. Proved: dispatch on the local name."
  },
  {
   "property": "C49",
   "status": "partial",
   "theorems": [
    "C49_reads",
    "C49_round_trip_partial",
    "C49_empty_text_refuted"
   ],
   "note": "False for the empty text, which is read as no text. Proved for every other text and for every inner value that itself round-trips."
  },
  {
   "property": "C36",
   "status": "partial",
   "theorems": [
    "C36_add",
    "C36_add_overflow",
    "C36_commutative",
    "C36_associative_partial",
    "C36_associative_refuted",
    "C36_order",
    "C36_monotone",
    "C36_mul_partial",
    "C36_mul_zero_refuted",
    "C36_text",
    "C36_text_meaning"
   ],
   "note": "Arithmetic on usize overflows, so associativity and distributivity hold whenever no step overflows. Unbounded times zero is unbounded."
  },
  {
   "property": "C42",
   "status": "proved",
   "theorems": [
    "C42_relative",
    "C42_absolute",
    "C42_tokens"
   ],
   "note": "For modules and identifiers that are not the keyword super."
  },
  {
   "property": "C43",
   "status": "partial",
   "theorems": [
    "C43_parse",
    "C43_absolute",
    "C43_display_partial",
    "C43_display_refuted"
   ],
   "note": "Display drops the marker of absolute paths. Parsing of every written form, with the marker and white space, is proved."
  },
  {
   "property": "C28",
   "status": "partial",
   "theorems": [
    "C28_terminates",
    "C28_result",
    "C28_unique",
    "C28_idempotent_partial",
    "C28_idempotent_refuted"
   ],
   "note": "The statement of the property is proved in full (C28_terminates, C28_result, C28_unique); resolving twice differs from resolving once on loops."
  },
  {
   "property": "C29",
   "status": "partial",
   "theorems": [
    "C29_meaning",
    "C29_symmetric",
    "C29_transitive",
    "C29_hash",
    "C29_reflexive_partial",
    "C29_reflexive_refuted"
   ],
   "note": "Not reflexive: custom types and groups with a text element are never equal to anything."
  },
  {
   "property": "C30",
   "status": "partial",
   "theorems": [
    "C30_merges_equal_partial",
    "C30_loops_refuted"
   ],
   "note": "Proved in full for maps without circular type definitions; on a circular definition the pass may run forever."
  },
  {
   "property": "C31",
   "status": "partial",
   "theorems": [
    "C31_same_target_partial",
    "C31_ends",
    "C31_all_uses_refuted",
    "C31_endless",
    "C31_loops_refuted"
   ],
   "note": "What every use stands for is kept. Bases of simple types, targets of repeated references and keys of dynamic types keep referring to aliases; circular definitions overflow the stack."
  },
  {
   "property": "C33",
   "status": "partial",
   "theorems": [
    "C33_union_members",
    "C33_enum_variants",
    "C33_empty_enums",
    "C33_empty_unions",
    "C33_constrains_refuted"
   ],
   "note": "Each pass changes exactly what is documented; the constraints of a union with one member are lost."
  },
  {
   "property": "C55",
   "status": "proved",
   "theorems": [
    "C55_unrestricted"
   ],
   "note": ""
  },
  {
   "property": "C32",
   "status": "partial",
   "theorems": [
    "C32_flatten_partial",
    "C32_leaves_unique",
    "C32_ends",
    "C32_constrains_refuted",
    "C32_endless_refuted"
   ],
   "note": "The types a union stands for are kept in order. Constraints of a flattened union are dropped; a union that is a member of itself makes the pass run forever."
  },
  {
   "property": "C56",
   "status": "partial",
   "theorems": [
    "C56_same_offers",
    "C56_union_partial",
    "C56_collision_refuted"
   ],
   "note": "No literal is lost. A literal with the same name as another member type makes that type unselectable."
  },
  {
   "property": "C34",
   "status": "partial",
   "theorems": [
    "C34_type_partial",
    "C34_pass_partial",
    "C34_no_panic",
    "C34_ends",
    "C34_order_refuted",
    "C34_shared_refuted",
    "C34_repeated_refuted",
    "C34_empty_refuted",
    "C34_endless_refuted"
   ],
   "note": "Every sequence of children stays accepted, provided contents are not shared, choices are not empty and have distinct names, and the order can be kept; each of these provisos is needed, as the refutations show. A group inside of itself overflows the stack. Overflow of the occurrence bounds is not modelled here (see C36)."
  },
  {
   "property": "C35",
   "status": "partial",
   "theorems": [
    "C35_type_partial",
    "C35_pass_partial",
    "C35_product_refuted",
    "C35_shared_refuted",
    "C35_alias_refuted"
   ],
   "note": "Holds if at most one of the choice and its alternatives repeats with a bound; otherwise the maximum is used where the product is needed. Shared contents lose bounds, an aliased content panics."
  },
  {
   "property": "C37",
   "status": "partial",
   "theorems": [
    "C37_found_partial",
    "C37_unknown_partial",
    "C37_ambiguous_partial",
    "C37_exact_partial",
    "C37_allow_unknown_partial",
    "C37_namespace_refuted",
    "C37_schema_refuted",
    "C37_generated_refuted"
   ],
   "note": "Exact for all histories in which every schema has one namespace and types are inserted for added schemas, for every iteration order of the hash tables. Each hypothesis is needed: a schema with two namespaces yields a type nobody inserted, a schema that was not added is missed by a query for its namespace, and a generated name is not kept."
  },
  {
   "property": "C38",
   "status": "proved",
   "theorems": [
    "C38_ends",
    "C38_found",
    "C38_sound",
    "C38_own"
   ],
   "note": "For every dependency graph (cyclic ones included) and every iteration order; assumes every schema is used with one namespace."
  },
  {
   "property": "C58",
   "status": "proved",
   "theorems": [
    "C58_schema_set",
    "C58_include_refuted"
   ],
   "note": "Complete, sound, without repetition, terminating on cyclic graphs. The documented exclusion of included schemas does not hold."
  },
  {
   "property": "C39",
   "status": "partial",
   "theorems": [
    "C39_once_partial",
    "C39_closed_partial",
    "C39_from_partial",
    "C39_ends",
    "C39_once_refuted"
   ],
   "note": "For every sequence of parser calls with one resolver, every include graph and every resolver whose answer depends only on the request. Setting the resolver after a schema was added makes the parser load a location twice."
  },
  {
   "property": "C40",
   "status": "partial",
   "theorems": [
    "C40_schemas_partial",
    "C40_namespaces_partial",
    "C40_dependencies_partial",
    "C40_dependencies_kept_partial",
    "C40_refuted"
   ],
   "note": "For every sequence of parser calls with one resolver. Setting the resolver after a schema was added makes finish panic because temporary identifiers are given out twice."
  },
  {
   "property": "C41",
   "status": "partial",
   "theorems": [
    "C41_unique_partial",
    "C41_origin_partial",
    "C41_complete_partial",
    "C41_user_partial",
    "C41_refuted"
   ],
   "note": "Holds unless a declared prefix already looks like a generated one (ends in an underscore and a number); then a generated prefix can take it over, as the refutation shows."
  },
  {
   "property": "C59",
   "status": "partial",
   "theorems": [
    "C59_namespace_partial",
    "C59_mismatch_refused",
    "C59_import_refuted",
    "C59_chameleon_refuted",
    "C59_mismatch_refuted"
   ],
   "note": "A declared target namespace is kept and a mismatching include of a new document is refused. An imported schema without target namespace gets the importer's; a schema included from two namespaces gets only the first; an include of an already loaded schema is not checked."
  },
  {
   "property": "C60",
   "status": "partial",
   "theorems": [
    "C60_finite_partial",
    "C60_short_partial",
    "C60_boxed",
    "C60_finite_refuted",
    "C60_reference_refuted"
   ],
   "note": "False: four complex types that contain each other in a ring, generated in an unlucky order, are all kept by value, and so is a type that contains a global element of this type if generation starts with the type. Proved: no ring of up to three types through elements, and no longer ring that follows the order of generation in at most two stretches."
  },
  {
   "property": "C61",
   "status": "proved",
   "theorems": [
    "C61_once",
    "C61_closed",
    "C61_faithful",
    "C61_ends"
   ],
   "note": "For all types, supplied types and sequences of calls."
  },
  {
   "property": "C44",
   "status": "partial",
   "theorems": [
    "C44_valid_partial",
    "C44_kinds_partial",
    "C44_keyword_refuted",
    "C44_symbol_refuted",
    "C44_unicode_refuted"
   ],
   "note": "Holds for every text of which the characters' Unicode classes fit those of identifiers, except for the empty text, a single symbol and the keywords async, await and dyn; each exception is refuted."
  },
  {
   "property": "C62",
   "status": "partial",
   "theorems": [
    "C62_distinct_partial",
    "C62_numbers",
    "C62_name_kept",
    "C62_refuted"
   ],
   "note": "The numbers never repeat; the names can be equal if the text in front of the number ends in a digit (refuted), and not otherwise."
  },
  {
   "property": "C45",
   "status": "partial",
   "theorems": [
    "C45_order",
    "C45_complete",
    "C45_cycle_no_list",
    "C45_error_cycle",
    "C45_ends_partial",
    "C45_base_partial",
    "C45_base_refuted",
    "C45_ends_refuted"
   ],
   "note": "For every dependency graph the list is ordered, complete and free of duplicates, and the circular error is reported only for cycles. A base type can still come later (and the program panics then) if the deriving type also refers to it as the type of an element, because the weak dependency replaces the strong one; groups that refer to each other make the recursion endless when reached through a type."
  },
  {
   "property": "C46",
   "status": "partial",
   "theorems": [
    "C46_insertions",
    "C46_members",
    "C46_display",
    "C46_display_distinct_partial",
    "C46_display_refuted",
    "C46_prefix_refuted",
    "C63_repeated_name_refuted",
    "C63_group_and_element_refuted"
   ],
   "note": "Identifiers of members are distinct after every sequence of insertions, and elements of the same name in different namespaces get different names if their prefixes differ. The name shown for a repeated group (a_1) or a qualified element (p_x) can be the name of another element. A repeated element is merged into the first one, and an element named like a group makes the program panic."
  },
  {
   "property": "C63",
   "status": "partial",
   "theorems": [
    "C63_content_partial",
    "C63_ends",
    "C63_no_error",
    "C63_repeated_name_refuted",
    "C63_empty_group_refuted",
    "C63_group_and_element_refuted",
    "C63_many_references_refuted"
   ],
   "note": "For all model groups without empty groups and without two elements of one name in one group, whenever the result is not a panic. Refuted: (a, b, a) becomes (a, b); a choice with an empty sequence loses it; a reference to a group followed by an element of that name, and the 32nd reference to one group, panic."
  },
  {
   "property": "C64",
   "status": "partial",
   "theorems": [
    "C64_extension_partial",
    "C64_restriction_partial",
    "C64_choice_choice_refuted",
    "C64_choice_sequence_refuted",
    "C64_repeated_base_refuted",
    "C64_restriction_order_refuted",
    "C64_restriction_group_refuted",
    "C64_restriction_type_refuted"
   ],
   "note": "For bases without content or with a sequence that occurs once. Refuted: extensions of choices become further alternatives, extending a repeated sequence repeats the extension, a restriction of (a?, b) to (a, b) gives (b, a), groups of the base are doubled, and a narrowed element type is ignored."
  },
  {
   "property": "C47",
   "status": "partial",
   "theorems": [
    "C47_code",
    "C47_visits",
    "C47_files_partial",
    "C47_found_partial",
    "C47_contents",
    "C47_inline",
    "C47_mod_refuted",
    "C47_directory_refuted",
    "C47_stale_refuted"
   ],
   "note": "For all histories of calls on the module tree. A module named mod without sub-modules overwrites the file of its parent; a tree without sub-modules is written next to the directory instead of into it (and panics for the empty path); files of an earlier run stay and can make a module ambiguous."
  },
  {
   "property": "C48",
   "status": "partial",
   "theorems": [
    "C48_imports_partial",
    "C48_panics",
    "C48_single_refuted",
    "C48_absolute_refuted"
   ],
   "note": "For all histories of calls: paths with two or more segments are imported exactly once. Paths with one segment are dropped and the leading separator of absolute paths is lost."
  },
  {
   "property": "C57",
   "status": "partial",
   "theorems": [
    "C57_never_stale_partial",
    "C57_replace_any_refuted"
   ],
   "note": "For every list of passes with every argument, from any set of types: the remembered type definitions lead every name to what it stands for in the current types, provided replace_xs_any_type is not run while xs:anyType is an alias. The full claim is refuted by such a run."
  },
  {
   "property": "C65",
   "status": "proved",
   "theorems": [
    "C65_merged",
    "C65_ends",
    "C65_endless",
    "C65_frame"
   ],
   "note": ""
  },
  {
   "property": "C66",
   "status": "partial",
   "theorems": [
    "C66_choices",
    "C66_every_entry_partial",
    "C66_lost_refuted"
   ],
   "note": "The conversion is characterised for all types; every derived type keeps an alternative if the entries differ in namespace or name. A type and an element of one name share an alternative, and the type of the second is lost (refuted)."
  },
  {
   "property": "C67",
   "status": "partial",
   "theorems": [
    "C67_any_order",
    "C67_sequence_partial",
    "C67_choice_partial",
    "C67_optional_refuted",
    "C67_minimum_refuted",
    "C67_shared_refuted",
    "C67_alias_refuted"
   ],
   "note": "Proved for contents that are types of their own, made of elements, that are not optional (sequences), and for choices that need not be made and whose alternatives occur at least at most once. Outside of this the claim is refuted: the text of an absent optional content is lost, a text satisfies the minimum of a choice, a shared content gets its texts twice, and an alias as content panics."
  },
  {
   "property": "C68",
   "status": "partial",
   "theorems": [
    "C68_sequence_element",
    "C68_sequence_group",
    "C68_minimum_refuted"
   ],
   "note": "Reading valid content is proved for all sequences without mixed text and xs:any fields. Refuted: the converse for minimums of lists, which are not checked."
  },
  {
   "property": "C69",
   "status": "partial",
   "theorems": [
    "C69_choice_element",
    "C69_choice_group"
   ],
   "note": "Proved for all choices without mixed text and xs:any alternatives."
  },
  {
   "property": "C70",
   "status": "partial",
   "theorems": [
    "C70_content_element",
    "C70_content_group"
   ],
   "note": "Proved for all contents; as a part of another type only for content that is not a list with a minimum (the generator makes no other)."
  },
  {
   "property": "C71",
   "status": "partial",
   "theorems": [
    "C71_all_element",
    "C71_all_group"
   ],
   "note": "Proved for all groups without xs:any."
  },
  {
   "property": "C72",
   "status": "partial",
   "theorems": [
    "C72_documents_partial",
    "C72_documents_refuted"
   ],
   "note": "Proved for schemas in which every group that must occur and may be empty is plainly empty. Refuted in general: a choice with an optional alternative does not read the empty content."
  },
  {
   "property": "C73",
   "status": "partial",
   "theorems": [
    "C73_whole_element_refuted",
    "C73_only_valid_refuted",
    "C73_maximum_refuted",
    "C82_elements_kept"
   ],
   "note": "What does hold for every document is C82: no element is lost or invented. Refuted: elements of a parent are accepted inside a child and reading then ends before the end of the root element; minimums of lists and maximums of repeated content are not checked."
  },
  {
   "property": "C74",
   "status": "partial",
   "theorems": [
    "C74_no_panic_partial",
    "C74_no_panic_refuted",
    "C74_inner_choice_refuted",
    "C74_array_refuted"
   ],
   "note": "C74_no_panic_partial: no sequence of events makes the generated deserializers of a steady schema panic (no flattened at-most-once choice inside a choice, no fixed array of possibly empty groups where it matters, no maximum of zero, no empty group, no xs:any). The full claim is refuted: a choice with an alternative whose type begins with xs:any, a flattened choice inside a choice, and an array of optional choices with a value too many all panic."
  },
  {
   "property": "C75",
   "status": "proved",
   "theorems": [
    "C75_contract",
    "C75_scope"
   ],
   "note": "Texts and attributes are read by parameters that keep the stack of namespaces."
  },
  {
   "property": "C76",
   "status": "proved",
   "theorems": [
    "C76_document",
    "C76_total",
    "C76_unique",
    "C76_error"
   ],
   "note": "For closed schemas without xs:any, dynamic types and mixed content; attributes and texts are written by parameters."
  },
  {
   "property": "C77",
   "status": "partial",
   "theorems": [
    "C77_read_again_partial",
    "C77_plain_scopes",
    "C77_local_scopes",
    "C77_global_scopes",
    "C77_text_refuted",
    "C77_prefix_refuted",
    "C77_type_namespace_refuted",
    "C77_simple_namespace_refuted",
    "C77_values_refuted"
   ],
   "note": "Proved for tame schemas whose elements of one type differ in their local names, if every prefix stands for one namespace and is declared where it is needed (which follows from stated conditions for the modes None, Local and Global), and if attributes and texts that were read can be written and read. The full claim is refuted: the text ]]> is read but not written; without declarations names still get prefixes; the mode Local declares the namespace of the type with the prefix of the element, and none for elements of simple types; values that do not come from a document may be read as other values."
  },
  {
   "property": "C78",
   "status": "partial",
   "theorems": [
    "C78_total",
    "C78_first",
    "C78_every_partial",
    "C78_recursive_refuted",
    "C78_elements_refuted",
    "C78_default_refuted"
   ],
   "note": "Exact for the first type rendered and, in any order, for types without recursive parts. Types that contain each other get incomplete declarations depending on the rendering order; namespaces of elements are ignored (only those of types count); custom types named by identifier give several default namespaces."
  },
  {
   "property": "C79",
   "status": "partial",
   "theorems": [
    "C79_valid_partial",
    "C79_only_valid_partial",
    "C79_no_panic",
    "C79_sources",
    "C79_accounted",
    "C79_same_local_name_refuted",
    "C79_form_refuted",
    "C79_fixed_refuted",
    "C79_wildcard_refuted"
   ],
   "note": "Exact for declarations with distinct names, without fixed values, with wildcards that admit all namespaces, and for documents in which no attribute has the local name of a declaration with another form; without these conditions every value is still accounted for. Refuted otherwise: forms, fixed values and the namespaces of wildcards are ignored."
  },
  {
   "property": "C80",
   "status": "partial",
   "theorems": [
    "C80_valid_partial",
    "C80_read_again_partial",
    "C80_no_panic",
    "C80_empty_list_refuted",
    "C80_reference_refuted"
   ],
   "note": "Proved if every value has a text that is read as the value and the scope names the attributes back. Refuted: empty lists are not written; references to global attributes are written without prefix."
  },
  {
   "property": "C81",
   "status": "partial",
   "theorems": [
    "C81_simple_partial",
    "C81_collapsed_partial",
    "C81_no_panic",
    "C81_patterns_refuted",
    "C81_length_refuted",
    "C81_blanks_refuted",
    "C81_enumeration_blanks_refuted",
    "C81_enumeration_text_refuted",
    "C81_list_refuted",
    "C81_list_pattern_refuted",
    "C81_restricted_enumeration_refuted",
    "C81_inline_enumeration_refuted",
    "C81_inline_panic_refuted",
    "C81_incomparable_refuted"
   ],
   "note": "Exact, for definitions of any depth, on texts of visible ASCII words with single blanks, if one derivation step has patterns, lists are restricted by lengths and enumerations only, and enumerations are restricted by enumerations; atomic types with a stated collapse facet also on texts with any blanks. Refuted otherwise: patterns of two steps are alternatives, lengths are bytes, built-in types and enumerations keep blanks, enumerations compare texts, double blanks give empty list items, lists with patterns make the renderer panic, a restricted enumeration is empty, an inner enumeration adds its values, an enumeration of an inner list or union makes the interpreter panic, NaN passes bounds."
  },
  {
   "property": "C82",
   "status": "proved",
   "theorems": [
    "C82_elements_kept",
    "C82_unknown_elements"
   ],
   "note": "For all schemas of the document model (no wildcards, mixed content, xsi:type or nillable elements)."
  },
  {
   "property": "C83",
   "status": "partial",
   "theorems": [
    "C83_again_partial",
    "C83_back_partial",
    "C83_read_built",
    "C83_list_text",
    "C83_valid_partial",
    "C83_total_refuted",
    "C83_pattern_refuted",
    "C83_union_refuted",
    "C83_build_pattern_refuted",
    "C83_build_fraction_refuted",
    "C83_build_white_refuted",
    "C83_build_items_refuted"
   ],
   "note": "Proved for types whose patterns restrict texts that are written as they were read, whose fraction digits are not combined with total digits, and whose union members are apart. Refuted: fractionDigits pads with zeros that totalDigits then counts; patterns on numbers; unions; constructors check neither patterns nor digits nor white space nor blanks in items."
  },
  {
   "property": "C84",
   "status": "partial",
   "theorems": [
    "C84_default_partial",
    "C84_schema_partial",
    "C84_valid_partial",
    "C84_no_panic_partial",
    "C84_facet_refuted",
    "C84_union_refuted",
    "C84_bool_refuted",
    "C84_blanks_refuted",
    "C84_list_refuted",
    "C84_infinite_refuted",
    "C84_from_str_refuted"
   ],
   "note": "Proved for valid texts that are normalized, without lists, if all members of a union but the last have no facets and are neither truth values nor types of other libraries. Refuted: facets are not checked, so a default may be no value of its type or go to the wrong member of a union; truth values are taken in any case of letters; blanks are not removed; defaults of lists; the generator panics for INF and NaN; defaults of big integers are not parsed and panic when they are used."
  },
  {
   "property": "C85",
   "status": "partial",
   "theorems": [
    "C85_accepts",
    "C85_prefixed_partial",
    "C85_local",
    "C85_unprefixed_refuted",
    "C85_prefix_refuted",
    "C85_choice_refuted"
   ],
   "note": "Elements with the declared name are always recognised, and elements with a prefix only then if the declared name has a namespace. Refuted: an element without prefix is recognised in every default namespace, so that the wrong alternative of a choice is taken; a declared name without namespace is recognised with every prefix."
  },
  {
   "property": "C86",
   "status": "partial",
   "theorems": [
    "C86_read_partial",
    "C86_other_partial",
    "C86_type_kept",
    "C86_written_partial",
    "C86_element_name_refuted",
    "C86_written_name_refuted",
    "C86_type_attribute_refuted",
    "C86_value_refuted",
    "C86_unprefixed_refuted",
    "C86_same_type_refuted",
    "C86_text_refuted"
   ],
   "note": "Proved for elements that have the name of the dynamic type, if names without prefix are in the namespace they are taken for and no attribute without namespace is called type. Refuted: an element whose name is not that of its dynamic type is not read, and its concrete value is written with the name of the type; an attribute type without namespace is taken for xsi:type; blanks and references in xsi:type; types without prefix are found in every namespace; two members of a substitution group with the same type are written with the name of the first; text before such an element is dropped silently."
  },
  {
   "property": "C87",
   "status": "partial",
   "theorems": [
    "C87_collected",
    "C87_read_again_partial",
    "C87_root_declared",
    "C87_simple_refuted",
    "C87_type_namespace_refuted",
    "C87_default_refuted",
    "C87_unqualified_refuted",
    "C87_needed_refuted"
   ],
   "note": "Every namespace of an element of a complex type inside the value is collected and declared at the root element, and the value is read again if each element that is written with a prefix is in the namespace of its type (of the type around it, if its type is simple). Refuted: the namespace of an element of a simple type is not collected; nor is that of an element whose type is in another namespace; a configured default namespace is never declared; the default namespace declared by a root element without prefix takes in unqualified elements; the namespace of an absent attribute is declared."
  },
  {
   "property": "C88",
   "status": "partial",
   "theorems": [
    "C88_redirected_partial",
    "C88_pervasive_partial",
    "C88_anonymous_refuted",
    "C88_recursive_refuted",
    "C88_order_refuted",
    "C88_included_refuted",
    "C88_included_missing",
    "C88_import_refuted",
    "C88_override_self_refuted",
    "C88_redefine_self_refuted",
    "C88_sibling_refuted"
   ],
   "note": "Proved of the loop that redirects the references, for every order of the hash tables: it ends, the affected components have copies with the new references, nothing else changes, and no component in use refers to a replaced one, if no component refers to itself, inline elements do not refer to redefined components and a name belongs to one schema. Refuted by whole runs: local elements with a type of their own keep the old component, the copy of a recursive type refers to the original, schemas included after the redefinition keep the old component, redefining a component that the redefined schema includes redirects nothing and extends a component that does not exist, a component of an imported namespace with the same name hides an affected one, an overriding component refers to the overridden one by its own name, all references of a redefinition to its own name lead to the old component, and a schema that relies on the inclusions of another one is no longer accepted."
  },
  {
   "property": "C89",
   "status": "partial",
   "theorems": [
    "C89_attributes_partial",
    "C89_once_partial",
    "C89_type_refuted",
    "C89_default_refuted",
    "C89_namespace_refuted",
    "C89_wildcard_refuted",
    "C89_group_refuted",
    "C89_reference_refuted",
    "C89_merged_refuted",
    "C89_declared_again_refuted",
    "C89_circular_refuted"
   ],
   "note": "Proved for all derivations and nestings of groups if groups are in the schema that uses them, references are qualified, redeclarations keep type and default, and restrictions keep the wildcard. Refuted: a restriction that narrows the type of an attribute keeps the old type, one without a default keeps the old default, one of a base in another namespace does not prohibit and duplicates attributes, the wildcard of the base stays, attributes of a group of another schema get the namespace and form of the user, references are unqualified by default, a reference and a local attribute of one name are merged, an attribute declared again after it was prohibited has the old type, groups that contain themselves make no type."
  },
  {
   "property": "C90",
   "status": "partial",
   "theorems": [
    "C90_ends",
    "C90_elements",
    "C90_types",
    "C90_complete",
    "C90_only_partial",
    "C90_abstract_element_refuted",
    "C90_abstract_type_refuted",
    "C90_anonymous_refuted",
    "C90_blocked_refuted",
    "C90_direct_refuted"
   ],
   "note": "Everything a document may use is offered, once and with its own type. Refuted: abstract members and abstract derived types, the anonymous types of elements and the members of a head that blocks substitution are offered as well; with several heads a direct member can be called an indirect one."
  },
  {
   "property": "C91",
   "status": "partial",
   "theorems": [
    "C91_total",
    "C91_added_partial",
    "C91_once_partial",
    "C91_once_from_partial",
    "C91_last_wins",
    "C91_only",
    "C91_complete",
    "C91_types",
    "C91_helpers_refuted",
    "C91_direct_refuted"
   ],
   "note": "Proved for all chains of calls and all steps except RenderStep::ContentHelpers, which has no arm in the table of exclusions: added twice, it is listed and rendered twice (refuted). Steps that need others bring them only through the with_quick_xml and with_serde calls (proved), not when they are added directly (refuted)."
  },
  {
   "property": "C92",
   "status": "partial",
   "theorems": [
    "C92_get",
    "C92_lists",
    "C92_update",
    "C92_get_update",
    "C92_names_partial",
    "C92_mut_refuted",
    "C92_default_refuted",
    "C92_optional_refuted"
   ],
   "note": "The methods do what they should in every type that compiles. Method names clash for elements x and x_mut, or for an element default_x beside an attribute x with a default (refuted); alternatives that may be empty or repeated get no method."
  },
  {
   "property": "C93",
   "status": "partial",
   "theorems": [
    "C93_group_partial",
    "C93_only",
    "C93_text",
    "C93_empty_text_partial",
    "C93_choice_partial",
    "C93_namespaces_refuted",
    "C93_xsi_type_refuted",
    "C93_content_refuted",
    "C93_empty_choice_refuted",
    "C93_empty_text_refuted",
    "C93_interleaved_refuted",
    "C93_invalid_refuted",
    "C93_array_refuted",
    "C93_other_refuted"
   ],
   "note": "Proved for quick-xml if no local name is used twice, for groups that are rendered in place, simple content with a text, and choices between elements that occur at most once. Refuted: equal local names in two namespaces, xsi:type beside an attribute type, groups that are repeated or not rendered in place, choices and texts that may be empty, repeated elements that do not follow each other, elements that are not valid, arrays longer than 32, enumerations with a variant for other values. The behaviour of serde and quick-xml is a small model of these libraries."
  },
  {
   "property": "C94",
   "status": "partial",
   "theorems": [
    "C94_content_partial",
    "C94_attributes_partial",
    "C94_no_panic_partial",
    "C94_enumeration_refuted",
    "C94_inline_refuted",
    "C94_member_refuted",
    "C94_mixed_panic_refuted",
    "C94_mixed_content_refuted",
    "C94_mixed_attributes_refuted"
   ],
   "note": "Proved for extensions, restrictions by facets of contents that are no enumerations, and inner simple types that name the content type of the base or no type; false for restricted enumerations (all values of the base stay), inner types that name other types (their facets are lost, unions are not narrowed), and mixed bases (panic, no field for the text, attributes lost)."
  },
  {
   "property": "C95",
   "status": "partial",
   "theorems": [
    "C95_signed",
    "C95_unsigned_partial",
    "C95_default_partial",
    "C95_big_partial",
    "C95_only_partial",
    "C95_written",
    "C95_boolean",
    "C95_boolean_written",
    "C95_float_partial",
    "C95_integer_refuted",
    "C95_negative_refuted",
    "C95_positive_refuted",
    "C95_minus_zero_refuted",
    "C95_boolean_refuted",
    "C95_float_refuted",
    "C95_infinity_refuted",
    "C95_text_refuted"
   ],
   "note": "Exact for long, int, short and byte, and, but for -0, for the unsigned types; with big integers all valid texts of the other integer types are read. Refuted: integer has 32 bits by default; negativeInteger and nonPositiveInteger read positive numbers, positiveInteger reads 0 unless the non-zero types are used; -0 is not read without a sign; yes and no are booleans; infinity is a decimal, and is written as inf; dates and names are not checked. For floating-point types only acceptance is modelled."
  },
  {
   "property": "C96",
   "status": "partial",
   "theorems": [
    "C96_strings",
    "C96_float",
    "C96_qname_partial",
    "C96_written_strings",
    "C96_written_float",
    "C96_written_qname_partial",
    "C96_constants",
    "C96_no_panic_partial",
    "C96_compiles_partial",
    "C96_ascii_refuted",
    "C96_infinite_refuted",
    "C96_integer_refuted",
    "C96_typedef_refuted",
    "C96_simple_refuted",
    "C96_default_namespace_refuted",
    "C96_other_namespace_refuted",
    "C96_undeclared_refuted",
    "C96_plain_qname_refuted"
   ],
   "note": "Exact for strings, and with advanced enums for floating-point numbers and for qualified names with a prefix in the schema and a namespace in the document. Refuted: the generator panics for values that are not ASCII and for INF and NaN; integers, and numbers whose base is an unresolved type definition, are compared as texts; an enumeration of a simple type with facets does not compile; names without prefix are not in the default namespace of the schema but match in any other; a name whose namespace is not declared cannot be written; without advanced enums qualified names are compared as texts."
  },
  {
   "property": "C97",
   "status": "partial",
   "theorems": [
    "C97_namespaces_partial",
    "C97_compiles_partial",
    "C97_prefixes_partial",
    "C97_trait_partial",
    "C97_clash_refuted",
    "C97_unnamed_refuted",
    "C97_prefix_refuted",
    "C97_trait_refuted",
    "C97_trait_name_refuted",
    "C97_shared_refuted",
    "C97_space_refuted"
   ],
   "note": "Exact for printable prefixes and URIs and names that differ in capitals. Refuted: prefixes that differ in case or punctuation, and prefixes like unnamed3, define a constant twice; prefixes outside ASCII are written wrongly, URIs outside ASCII are told wrongly by the trait; a name that the user gives to a namespace without prefix is written as a prefix that the trait does not tell, that may be the prefix of another namespace, or no XML name."
  },
  {
   "property": "C98",
   "status": "partial",
   "theorems": [
    "C98_ends",
    "C98_only",
    "C98_first_partial",
    "C98_before_partial",
    "C98_order_refuted",
    "C98_calls_refuted",
    "C98_build_in_refuted",
    "C98_alias_refuted"
   ],
   "note": "Holds for dynamic types asked for in the first call (always with generate_all_types) or before the derived type. Refuted: with generate_type a derived type that is generated before its base is asked for does not implement its trait, nor with two calls; derived types that are types of Rust never do; two aliases of one type implement it twice. In these cases the generated code does not compile."
  },
  {
   "property": "C99",
   "status": "partial",
   "theorems": [
    "C99_written",
    "C99_namespace",
    "C99_no_namespace",
    "C99_types_partial",
    "C99_unknown",
    "C99_generate_partial",
    "C99_generate_unknown",
    "C99_dynamic_partial",
    "C99_schema_partial",
    "C99_ident_partial",
    "C99_ambiguous_refuted",
    "C99_dynamic_refuted",
    "C99_generate_refuted",
    "C99_schema_refuted",
    "C99_schema_name_refuted",
    "C99_added_refuted",
    "C99_ident_refuted"
   ],
   "note": "Holds for a name that a single schema defines at its top, and with a schema that is the only one of its name. Refuted: of several definitions the first one at the top of a schema is taken without an error, for a redefined type the original; types to generate and dynamic types are not looked up in the identifier cache, so kinds other than elements and types are unknown if the namespace has several schemas; a schema name that no schema has is ignored, one that two have means the first; a type added without schema to a namespace with one schema is not found; identifiers with generated names mean another type."
  },
  {
   "property": "C100",
   "status": "partial",
   "theorems": [
    "C100_distinct_partial",
    "C100_name_partial",
    "C100_same_kind_partial",
    "C100_reference_partial",
    "C100_modules",
    "C100_no_modules",
    "C100_keywords",
    "C100_postfix_refuted",
    "C100_case_refuted",
    "C100_punctuation_refuted",
    "C100_kind_refuted",
    "C100_namespace_refuted",
    "C100_content_refuted",
    "C100_list_refuted",
    "C100_values_refuted"
   ],
   "note": "Holds for names in pascal case that do not end in one of the words that are added (Type, Element, NotNil, Dyn, Content, Trait, Value) if no two types of a module have the same name and kinds with the same postfix. Refuted, each by types whose code does not compile: Foo and FooType, foo and Foo, a.b and a-b, an element FooType and a type Foo, an element and an attribute of the same name, the same name in two namespaces without modules, names that end in TypeContent or TypeTrait, two lists of the same type, two enumerations for serde-xml-rs 0.8."
  },
  {
   "property": "C101",
   "status": "partial",
   "theorems": [
    "C101_v8_partial",
    "C101_quick_partial",
    "C101_v7_partial",
    "C101_fields",
    "C101_v7_attribute_refuted",
    "C101_local_refuted",
    "C101_texts_refuted",
    "C101_content_refuted",
    "C101_prefix_refuted"
   ],
   "note": "Holds for serde-xml-rs 0.8 if namespaces have prefixes and there is one text, for quick-xml if the local names of attributes and those of elements differ, for serde-xml-rs 0.7 if also no element has the name of an attribute. Refuted for an element with the name of an attribute (0.7), equal local names in two namespaces (0.7, quick-xml), the texts around the elements of a mixed type (all), the content of a mixed type (0.8, empty name) and namespaces without prefix (0.8)."
  },
  {
   "property": "C102",
   "status": "partial",
   "theorems": [
    "C102_first",
    "C102_found_partial",
    "C102_missing_partial",
    "C102_order_partial",
    "C102_name",
    "C102_loaded_partial",
    "C102_closed_partial",
    "C102_fallback_refuted",
    "C102_status_refuted",
    "C102_localhost_refuted",
    "C102_name_refuted"
   ],
   "note": "Holds for URLs of local files and of other computers. Refuted for http://localhost, which the file resolver takes for a file; for responses with an error status, which are taken for schemas; for resolvers after one that fails on a missing file; and for names of web resources with a query."
  },
  {
   "property": "C103",
   "status": "partial",
   "theorems": [
    "C103_init",
    "C103_next",
    "C103_finish",
    "C103_bytes",
    "C103_nests",
    "C103_document",
    "C103_element_partial",
    "C103_empty_element",
    "C103_names",
    "C103_plain_names",
    "C103_equal",
    "C103_text_refuted",
    "C103_equal_refuted"
   ],
   "note": "Holds for values returned at a tag or inside of their own element. Refuted for a text, which is only complete at the next tag and gets the declarations of the element that begins there; equality does not compare the namespaces, so values that mean different names are equal."
  },
  {
   "property": "C104",
   "status": "partial",
   "theorems": [
    "C104_where",
    "C104_inside_partial",
    "C104_value",
    "C104_same",
    "C104_buffer",
    "C104_closing_refuted",
    "C104_prefix_refuted",
    "C104_memory_refuted"
   ],
   "note": "Position and values hold for all readers; the path is that of the event unless the event ends its element. Refuted there: the value of an element is checked at its end or empty tag, and the path leaves the element out. Also refuted: a value read from inside a document does not know the namespaces declared before; the stream reader never clears its buffer, so it keeps the whole document."
  },
  {
   "property": "C105",
   "status": "partial",
   "theorems": [
    "C105_ends",
    "C105_loops",
    "C105_everything",
    "C105_one_by_one",
    "C105_size_refuted"
   ],
   "note": "Holds for every set of types, except for the size: a group that is used several times is shown in full each time, so the output may be exponential in the number of types."
  },
  {
   "property": "C106",
   "status": "partial",
   "theorems": [
    "C106_none",
    "C106_none_lost",
    "C106_enums",
    "C106_unions",
    "C106_members_partial",
    "C106_never_stale",
    "C106_members_refuted",
    "C106_aliases_refuted",
    "C106_duplicates_refuted"
   ],
   "note": "Holds for enumerations, for empty unions, for members with the same name and for the remembered definitions. Refuted: unions built on unions need more rounds than the two that are run, so with the default configuration a union may keep two members for the same type, aliases stay in use, and optimizing again changes the types; merging cardinalities after duplicates were removed leaves equal types."
  },
  {
   "property": "C107",
   "status": "partial",
   "theorems": [
    "C107_element_partial",
    "C107_field_partial",
    "C107_reference_partial",
    "C107_content_partial",
    "C107_any",
    "C107_both_refuted",
    "C107_crate_refuted",
    "C107_names_refuted",
    "C107_own_crate_refuted",
    "C107_hidden_refuted"
   ],
   "note": "Holds for at most one wrapper and unambiguous names. Refuted: a nillable element in mixed content is written as Nillable<T, Mixed>; with absolute paths the configured name of the crate is ignored; a schema type called like a wrapper clashes with the use declaration; with absolute paths a custom type crate::my::Foo is written as super::crate::my::Foo inside of a module; a schema type called Option is used for the one of the standard library."
  },
  {
   "property": "C108",
   "status": "partial",
   "theorems": [
    "C108_steps",
    "C108_traits",
    "C108_custom",
    "C108_auto",
    "C108_dyn_partial",
    "C108_dyn_refuted",
    "C108_serde_refuted",
    "C108_derive_partial",
    "C108_derive_order",
    "C108_derive_refuted"
   ],
   "note": "The run, its order, the settings of the steps and the traits they need hold for all steps and types. Refuted: with Clone, Hash, PartialEq or Eq among the derived traits and with the serde steps the trait of a dynamic type cannot be used as dyn Trait; Debug, which is derived by default, is written twice if a type is configured to derive it in addition."
  },
  {
   "property": "C109",
   "status": "partial",
   "theorems": [
    "C109_written",
    "C109_docs_partial",
    "C109_lines",
    "C109_element",
    "C109_element_partial",
    "C109_docs_refuted",
    "C109_element_refuted"
   ],
   "note": "Holds without elements that have no content. Refuted: with an element like <br/> inside, the end tag of the documentation element becomes a part of the documentation; the documentation of a nillable element or of one in a substitution group goes to the type behind it, and the type of the element has none."
  }
 ]
}
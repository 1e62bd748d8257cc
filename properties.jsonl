{"id": "C01", "title": "Namespace scopes of the serializer are balanced", "statement": "Whatever xmlns declarations are written between opening and closing a namespace scope on the serialization helper, including nested scopes, closing the scope removes exactly the declarations made inside it: the set, order and levels of the declarations visible afterwards are those visible before the scope was opened.", "quantifier": "all well-bracketed sequences of begin-scope / end-scope / write-xmlns / add-qname calls, from every reachable helper state", "why_tests_cant": "the leak or over-pop only shows for particular interleavings of nesting and declarations; tests fix a few nestings", "anchors": ["xsd-parser-types/src/quick_xml/serialize.rs: SerializeHelper::begin_ns_scope, end_ns_scope, write_xmlns, add_qname_namespace, add_namespace_entry"]}
{"id": "C02", "title": "A namespace written through the helper is in scope under the requested prefix", "statement": "After write_xmlns(prefix, namespace) returns for a start tag, a namespace-aware XML reader resolves `prefix` at that tag to `namespace` (innermost declaration of the prefix wins).", "quantifier": "all histories of helper calls preceding the call, all prefixes and namespaces", "why_tests_cant": "depends on shadowing by declarations made anywhere earlier in the document", "anchors": ["xsd-parser-types/src/quick_xml/serialize.rs: SerializeHelper::write_xmlns, add_namespace_entry"]}
{"id": "C03", "title": "The helper never writes the same xmlns attribute twice on one tag", "statement": "The xmlns declarations pushed onto one start tag inside one scope have pairwise different attribute names (XML well-formedness).", "quantifier": "all sequences of declaration requests made for one tag, after every history", "why_tests_cant": "requires a particular order of prefixes/namespaces on one tag; combinatorially many", "anchors": ["xsd-parser-types/src/quick_xml/serialize.rs: SerializeHelper::write_xmlns, add_namespace_entry"]}
{"id": "C04", "title": "A QName serialised by the helper resolves back to the same name", "statement": "When serialising a QName with a namespace succeeds, the written text, resolved by a namespace-aware reader in the scope of the tag, denotes the same namespace and local name.", "quantifier": "all QNames and all reachable helper states", "why_tests_cant": "depends on the whole stack of declarations in scope", "anchors": ["xsd-parser-types/src/xml/qname.rs: QName::serialize_bytes", "xsd-parser-types/src/quick_xml/serialize.rs: get_namespace_prefix, add_qname_namespace"]}
{"id": "C05", "title": "Serialising an AnyElement yields a well-nested event stream and restores the helper", "statement": "For every element tree the serializer emits exactly one balanced element: every start event is closed by an end event of the same name at the same depth, nothing is emitted afterwards, and the namespace declarations in scope afterwards are the ones in scope before.", "quantifier": "all element trees (any depth, width, attributes, namespaces) and all helper states", "why_tests_cant": "unbounded depth and width", "anchors": ["xsd-parser-types/src/xml/element.rs: ElementSerializer::next_item"]}
{"id": "C06", "title": "AnyElement survives a serialise/deserialise round trip", "statement": "Feeding the events emitted by the serializer for an element to the deserializer returns an element with the same name, the same attributes, and the same values in the same order, recursively.", "quantifier": "all element trees whose attribute keys are not xmlns declarations", "why_tests_cant": "unbounded trees; order-sensitive", "anchors": ["xsd-parser-types/src/xml/element.rs: ElementSerializer, ElementDeserializer"]}
{"id": "C07", "title": "AnyElement keeps all character data of the document", "statement": "Deserialising an element keeps every piece of character data between its tags, including characters written as entity or character references.", "quantifier": "all sequences of text, CDATA and reference events inside an element", "why_tests_cant": "data dependent: only documents containing references in mixed positions show the loss", "anchors": ["xsd-parser-types/src/xml/element.rs: ElementDeserializer::next"]}
{"id": "C08", "title": "An ignored element is skipped exactly", "statement": "When the deserialization driver skips an element it does not know (because content is open), it discards exactly that element including all nested content, whatever its nesting, and the next event after its end tag is handled as if the element had not been there.", "quantifier": "all balanced event sequences nested to any depth", "why_tests_cant": "unbounded nesting, including same-named nested elements", "anchors": ["xsd-parser-types/src/quick_xml/deserialize.rs: DeserializeImpl::handle_event, handle_skip"]}
{"id": "C09", "title": "The namespaces reported during deserialization are those in scope", "statement": "At every point of a document DeserializeHelper::namespaces() returns exactly the prefix bindings declared by the currently open elements (innermost declaration winning), independent of when it was asked before.", "quantifier": "all event histories (start/empty/end/other, with arbitrary xmlns attributes) and all interleavings of namespaces() queries", "why_tests_cant": "a stale cache only shows for specific interleavings of queries, empty tags and scopes", "anchors": ["xsd-parser-types/src/quick_xml/deserialize.rs: DeserializeHelper::namespaces, handle_event"]}
{"id": "C10", "title": "The element path attached to errors is the path of open elements", "statement": "The element path recorded by the error reader after any prefix of a document lists exactly the names of the elements that are open at that point, outermost first.", "quantifier": "all event histories", "why_tests_cant": "any history; tests only check single error positions", "anchors": ["xsd-parser-types/src/quick_xml/error.rs: ErrorInfo::update", "xsd-parser-types/src/quick_xml/reader/error_reader.rs"]}
{"id": "C11", "title": "Simple content does not depend on how the reader chunks it", "statement": "The value of a simple-content element depends only on the concatenation of its unescaped text, CDATA and reference events, not on how the reader splits it into events.", "quantifier": "all event lists with the same concatenated content", "why_tests_cant": "exponentially many splittings", "anchors": ["xsd-parser-types/src/quick_xml/deserialize.rs: ContentDeserializer"]}
{"id": "C12", "title": "Simple content round trip", "statement": "Serialising a simple value as element content and deserialising the result returns the same value.", "quantifier": "all values of every simple type whose lexical form parses back", "why_tests_cant": "unbounded values; whitespace and markup characters", "anchors": ["xsd-parser-types/src/quick_xml/serialize.rs: ContentSerializer", "xsd-parser-types/src/quick_xml/deserialize.rs: ContentDeserializer"]}
{"id": "C13", "title": "Text content round trip and accumulation", "statement": "The text deserializer returns the concatenation of consecutive character-data events and stops, without consuming it, at the first event that is a tag.", "quantifier": "all event sequences", "why_tests_cant": "unbounded event sequences", "anchors": ["xsd-parser-types/src/xml/text.rs: TextSerializer, TextDeserializer"]}
{"id": "C14", "title": "Nillable round trip", "statement": "A nillable value serialised and deserialised again comes back unchanged: nil stays nil and a value stays the same value.", "quantifier": "all values of the wrapped type, all element names", "why_tests_cant": "parametric in the wrapped (de)serializer", "anchors": ["xsd-parser-types/src/xml/nillable.rs: NillableSerializer, NillableDeserializer"]}
{"id": "C15", "title": "xsi is declared wherever xsi:nil / xsi:type is written", "statement": "Every xsi:nil or xsi:type attribute written by the runtime sits on a tag where the xsi prefix is bound to the XML Schema instance namespace.", "quantifier": "all sequences of sibling and nested serialised values", "why_tests_cant": "the bug shows only for the second sibling in the same scope", "anchors": ["xsd-parser-types/src/xml/nillable.rs", "xsd-parser-types/src/xml/any_simple_type.rs", "xsd-parser-types/src/quick_xml/serialize.rs: XsiTypeSerializer"]}
{"id": "C16", "title": "List content is written as the concatenation of its items", "statement": "Serialising a list, option or boxed value emits exactly the concatenation of the item event streams, in order, and nothing after the first error.", "quantifier": "all item lists and all item serializers", "why_tests_cant": "parametric and unbounded", "anchors": ["xsd-parser-types/src/quick_xml/serialize.rs: IterSerializer"]}
{"id": "C17", "title": "xsi:type rewriting only touches the outermost tag", "statement": "Wrapping a serializer for an xsi:type substitution changes only the outermost start and end tag: all inner events are passed through unchanged and the result is well nested.", "quantifier": "all well-nested inner event streams", "why_tests_cant": "unbounded nesting, inner elements with the same name", "anchors": ["xsd-parser-types/src/quick_xml/serialize.rs: XsiTypeSerializer"]}
{"id": "C18", "title": "Deserialising untrusted simple values never panics", "statement": "Parsing the lexical form of any simple value, whatever bytes the document contains, either returns a value or an error.", "quantifier": "all byte strings and all xsi:type names", "why_tests_cant": "panics hide in odd lengths / non-ASCII boundaries", "anchors": ["xsd-parser-types/src/xml/any_simple_type.rs: finish_content", "xsd-parser-types/src/quick_xml/deserialize.rs: finish_arr_default", "xsd-parser-types/src/xml/mixed.rs"]}
{"id": "C19", "title": "QName is a lawful hash-map key", "statement": "Equality of QNames is an equivalence relation and equal QNames hash equally.", "quantifier": "all pairs and triples of QNames", "why_tests_cant": "ranges over all triples", "anchors": ["xsd-parser-types/src/xml/qname.rs: PartialEq, Hash"]}
{"id": "C20", "title": "QName splitting is lossless", "statement": "For every QName the prefix (if any), a colon and the local name rebuild the raw text; the prefix contains no colon.", "quantifier": "all byte strings", "why_tests_cant": "all byte strings", "anchors": ["xsd-parser-types/src/xml/qname.rs: from_bytes, prefix, local_name"]}
{"id": "C21", "title": "Binary values: hex and base64 round trip and reported length", "statement": "Encoding bytes as hexBinary or base64Binary and decoding returns the same bytes, and the length reported for the text is the number of bytes.", "quantifier": "all byte strings", "why_tests_cant": "padding cases depend on length mod 3", "anchors": ["xsd-parser-types/src/xml/hex.rs", "xsd-parser-types/src/xml/base64.rs"]}
{"id": "C22", "title": "Lists of simple values round trip", "statement": "Deserialising the space separated lexical forms of a list gives the list back; the parser treats any run of XML white space as one separator.", "quantifier": "all lists of items and all separators", "why_tests_cant": "all separators", "anchors": ["xsd-parser-types/src/quick_xml/deserialize.rs: deserialize_list, deserialize_arr"]}
{"id": "C23", "title": "Occurrence bounds are enforced when content is finished", "statement": "finish_vec / finish_arr accept a collected list iff its length satisfies minOccurs and maxOccurs, otherwise report the size error.", "quantifier": "all lengths and bounds", "why_tests_cant": "all bounds", "anchors": ["xsd-parser-types/src/quick_xml/deserialize.rs: finish_vec, finish_arr, finish_vec_default, finish_arr_default"]}
{"id": "C24", "title": "White space facets", "statement": "whitespace_replace keeps length and replaces exactly tab, LF and CR by a space; whitespace_collapse has no leading, trailing or double space, keeps the words in order, and both are idempotent.", "quantifier": "all strings", "why_tests_cant": "all strings", "anchors": ["xsd-parser-types/src/quick_xml/mod.rs: whitespace_replace, whitespace_collapse"]}
{"id": "C25", "title": "Digit facets", "statement": "total_digits(s, n) / fraction_digits(s, n) accept a decimal literal iff it denotes a value with at most n total / fraction digits as defined by XML Schema.", "quantifier": "all strings and all limits", "why_tests_cant": "all literals, including signs and zeros", "anchors": ["xsd-parser-types/src/quick_xml/mod.rs: total_digits, fraction_digits"]}
{"id": "C26", "title": "Attribute maps keep insertion order and unique names", "statement": "After any sequence of push/insert operations attribute names are unique, iteration order is order of first insertion, push fails iff the name exists and leaves the map unchanged, insert overwrites in place.", "quantifier": "all operation sequences", "why_tests_cant": "all histories", "anchors": ["xsd-parser-types/src/xml/attributes.rs: push, insert"]}
{"id": "C27", "title": "Namespaces maps: hash consistent with equality", "statement": "Two namespace maps that contain the same bindings hash equally, however they were built.", "quantifier": "all construction orders", "why_tests_cant": "all insertion orders", "anchors": ["xsd-parser-types/src/xml/namespaces.rs: Hash"]}
{"id": "C28", "title": "Type resolution terminates and stops at a real type", "statement": "Resolving a type through references terminates on every set of types, including cyclic ones, and if it returns a type that is a plain reference then the reference dangles or is part of a cycle; otherwise it is the unique non-reference type reached by following references.", "quantifier": "all type maps and all identifiers", "why_tests_cant": "cycles and chains of any length", "anchors": ["xsd-parser/src/models/meta/types.rs: get_resolved"]}
{"id": "C29", "title": "Structural type equality is an equivalence compatible with hashing", "statement": "type_eq is reflexive, symmetric and transitive, and type-equal types have equal type hashes.", "quantifier": "all type maps and types", "why_tests_cant": "ranges over all types", "anchors": ["xsd-parser/src/models/meta/type_eq.rs", "xsd-parser/src/models/meta/type_.rs", "xsd-parser/src/models/meta/element.rs"]}
{"id": "C30", "title": "remove_duplicates only merges equal types", "statement": "After remove_duplicates every identifier still resolves to a type that is structurally equal to what it resolved to before; no identifier is lost; the pass terminates.", "quantifier": "all type maps", "why_tests_cant": "fixpoint iteration over arbitrary maps", "anchors": ["xsd-parser/src/pipeline/optimizer/remove_duplicates.rs"]}
{"id": "C31", "title": "resolve_typedefs preserves what every use refers to", "statement": "After resolve_typedefs every type use refers to the same underlying type as before, and no use refers to a plain typedef any more.", "quantifier": "all acyclic type maps", "why_tests_cant": "alias chains of any length", "anchors": ["xsd-parser/src/pipeline/optimizer/resolve_typedefs.rs", "xsd-parser/src/pipeline/optimizer/misc/typedef_map.rs"]}
{"id": "C32", "title": "flatten_unions preserves union members", "statement": "After flattening, the members of a union are exactly the non-union leaf types of the original union in order.", "quantifier": "all union nestings", "why_tests_cant": "nesting of any depth", "anchors": ["xsd-parser/src/pipeline/optimizer/flatten_unions.rs"]}
{"id": "C33", "title": "Union/enum clean-up passes keep the value space", "statement": "remove_duplicate_union_variants keeps the first variant of each resolved type and nothing else; remove_empty_enum_variants, remove_empty_enums and remove_empty_unions change only types that match their documented condition.", "quantifier": "all type maps", "why_tests_cant": "all maps", "anchors": ["xsd-parser/src/pipeline/optimizer/empty_unions.rs", "xsd-parser/src/pipeline/optimizer/empty_enums.rs"]}
{"id": "C34", "title": "Flattening complex types accepts every originally valid document", "statement": "Every child sequence accepted by a complex type before flatten_complex_types is accepted (as far as element counts go) by the flattened type.", "quantifier": "all nestings of groups with arbitrary occurrence bounds and all child sequences", "why_tests_cant": "infinitely many schemas and documents", "anchors": ["xsd-parser/src/pipeline/optimizer/flatten_complex_type.rs"]}
{"id": "C35", "title": "merge_choice_cardinalities accepts every originally valid document", "statement": "Every child sequence accepted by a repeated choice before merging the cardinalities is accepted afterwards.", "quantifier": "all bounds and all child sequences", "why_tests_cant": "products of bounds", "anchors": ["xsd-parser/src/pipeline/optimizer/merge_choice_cardinality.rs"]}
{"id": "C36", "title": "Occurrence arithmetic", "statement": "MaxOccurs addition and multiplication are commutative, associative and monotone, multiplication distributes over addition, and unbounded is the top element.", "quantifier": "all bounds", "why_tests_cant": "algebraic laws", "anchors": ["xsd-parser/src/models/schema/occurs.rs"]}
{"id": "C37", "title": "Identifier resolution is sound, complete and unambiguous", "statement": "IdentCache::resolve returns an identifier only if exactly that type was inserted and it matches the query; it reports an ambiguity iff two different inserted types match, and unknown iff none does.", "quantifier": "all histories of insert / add_schema / add_dependency calls and all queries", "why_tests_cant": "all histories", "anchors": ["xsd-parser/src/models/ident_cache.rs: insert, add_schema, add_dependency, resolve"]}
{"id": "C38", "title": "Schema scoped resolution follows the dependency graph", "statement": "resolve_for_schema terminates on every dependency graph (cyclic ones included) and finds a type iff some schema reachable through dependencies (or a global namespace) defines it.", "quantifier": "all dependency graphs", "why_tests_cant": "cyclic include graphs", "anchors": ["xsd-parser/src/models/ident_cache.rs: resolve_for_schema, search_in_schema"]}
{"id": "C39", "title": "Every referenced schema is loaded exactly once", "statement": "Processing the pending includes/imports terminates whenever finitely many locations are reachable, parses each location at most once, and on success every reachable location has been loaded and every dependency points to the schema loaded from its location.", "quantifier": "all include graphs, including cyclic ones", "why_tests_cant": "cyclic graphs of any size", "anchors": ["xsd-parser/src/pipeline/parser/mod.rs: resolve_pending, resolve_location, add_pending"]}
{"id": "C40", "title": "Schema and namespace identifiers are consistent", "statement": "The built schema set has one id per schema, equal namespaces share one id, different namespaces have different ids, and every dependency refers to an existing schema.", "quantifier": "all parsed schema lists and all ways of configuring the parser", "why_tests_cant": "arbitrary histories of parser calls", "anchors": ["xsd-parser/src/pipeline/parser/mod.rs: SchemasBuilder", "xsd-parser/src/models/schema/mod.rs"]}
{"id": "C41", "title": "Namespace prefixes are unique", "statement": "In the built schema set two different namespaces never share a prefix, and looking a prefix up yields the namespace that carries it.", "quantifier": "all sets of namespaces and requested prefixes", "why_tests_cant": "collisions of generated with existing prefixes", "anchors": ["xsd-parser/src/pipeline/parser/mod.rs: determine_prefixes"]}
{"id": "C42", "title": "Relative paths in generated code denote the intended item", "statement": "The path produced by IdentPath::relative_to, resolved by the Rust module rules (super = parent, otherwise child) from the given module, denotes the absolute item.", "quantifier": "all source and destination module paths", "why_tests_cant": "all pairs of paths", "anchors": ["xsd-parser/src/models/code/ident_path.rs: relative_to"]}
{"id": "C43", "title": "IdentPath text form round trips", "statement": "Parsing the displayed form of a path yields the same path.", "quantifier": "all paths", "why_tests_cant": "all paths", "anchors": ["xsd-parser/src/models/code/ident_path.rs: from_str, Display"]}
{"id": "C44", "title": "Generated identifiers are valid Rust identifiers", "statement": "Names produced for types, variants, fields and modules are non-empty, start with a letter or underscore and are never a reserved word.", "quantifier": "all schema names", "why_tests_cant": "all strings", "anchors": ["xsd-parser/src/models/naming/mod.rs: format_ident, unify_string, KEYWORDS"]}
{"id": "C45", "title": "Base types are generated before the types deriving from them", "statement": "The order in which schema nodes are interpreted lists every type after all types it is derived from; a circular derivation is reported as an error instead of looping.", "quantifier": "all dependency graphs", "why_tests_cant": "all graphs", "anchors": ["xsd-parser/src/pipeline/interpreter/state/create_node_list.rs", "xsd-parser/src/pipeline/interpreter/state/crate_node_cache.rs: add_dependency"]}
{"id": "C46", "title": "Members of generated types have distinct names", "statement": "Inserting elements into a content model never produces two entries with the same identifier and never drops one; conflicting display names are made distinct.", "quantifier": "all insertion sequences", "why_tests_cant": "all histories", "anchors": ["xsd-parser/src/pipeline/interpreter/state/generate_types/variant_processor.rs: insert_checked", "xsd-parser/src/pipeline/interpreter/state/fix_element_naming_conflicts.rs", "xsd-parser/src/traits/vec_helper.rs"]}
{"id": "C47", "title": "Every generated module is written exactly once", "statement": "write_to_files visits every module of the tree exactly once and gives different modules different file names.", "quantifier": "all module trees", "why_tests_cant": "unbounded trees", "anchors": ["xsd-parser/src/models/code/module.rs: write_to_files_with"]}
{"id": "C48", "title": "No using declaration is lost when a module is rendered", "statement": "Every using registered for a module appears in the rendered code.", "quantifier": "all sets of usings", "why_tests_cant": "all sets", "anchors": ["xsd-parser/src/models/code/module.rs: usings, render_usings"]}
{"id": "C49", "title": "Mixed content round trip", "statement": "A value with trailing text serialised and deserialised again comes back with the same value and the same text.", "quantifier": "all values and texts", "why_tests_cant": "parametric", "anchors": ["xsd-parser-types/src/xml/mixed.rs"]}
{"id": "C50", "title": "Byte string display is readable and unambiguous", "statement": "Displaying a byte string prints printable ASCII unchanged and escapes every other byte so that different byte strings print differently.", "quantifier": "all byte strings", "why_tests_cant": "all byte strings", "anchors": ["xsd-parser-types/src/misc/raw_byte_str.rs: format_utf8_slice"]}
{"id": "C51", "title": "A truncated document is reported as an error", "statement": "When the input ends before the root element is closed, deserialising an unstructured element returns an error; it never waits for ever.", "quantifier": "all truncated documents", "why_tests_cant": "all documents and cut points", "anchors": ["xsd-parser-types/src/xml/element.rs: ElementDeserializer::next", "xsd-parser-types/src/quick_xml/deserialize.rs: DeserializeImpl::handle_event"]}
{"id": "C52", "title": "Serializers close the namespace scopes they open", "statement": "After a value has been written completely, the serialization helper is at the scope level it had before.", "quantifier": "all values and all wrapped serializers", "why_tests_cant": "a leaked scope only shows later, when a sibling is written with a stale namespace table", "anchors": ["xsd-parser-types/src/quick_xml/serialize.rs: XsiTypeSerializer", "xsd-parser-types/src/xml/any_simple_type.rs: AnySimpleTypeSerializer", "xsd-parser-types/src/xml/element.rs: ElementSerializer"]}
{"id": "C53", "title": "Values of unknown simple type round trip", "statement": "A value of xs:anySimpleType written as an element and read again comes back as the same value, with the same type.", "quantifier": "all values of every built-in type, all places they are written and read", "why_tests_cant": "all texts, numbers and namespace contexts", "anchors": ["xsd-parser-types/src//xml/any_simple_type.rs: AnySimpleTypeSerializer, AnySimpleTypeDeserializer"]}
{"id": "C54", "title": "xsi:type selects the representation of a simple value", "statement": "A value of xs:anySimpleType is read in the representation of the XML Schema type that its xsi:type attribute names; every lexical form of that type is accepted, everything else is an error; values of other types are kept as text with their type and namespaces.", "quantifier": "all type names, namespace contexts and texts", "why_tests_cant": "names and texts are unbounded, and wrong namespaces only matter in documents that reuse local names", "anchors": ["xsd-parser-types/src//xml/any_simple_type.rs: finish_content, AnySimpleTypeDeserializer::init"]}
{"id": "C55", "title": "use_unrestricted_base_type follows restrictions to their end", "statement": "Every type of a kind the flags select that is derived by restriction becomes an alias of the type at the end of its chain of restrictions; all other types are unchanged and no type is lost.", "quantifier": "all type maps without circular restrictions, all flags", "why_tests_cant": "chains of any length", "anchors": ["xsd-parser/src/pipeline/optimizer/unrestricted_base.rs", "xsd-parser/src/pipeline/optimizer/misc/base_map.rs"]}
{"id": "C56", "title": "Merging enumerations of a union loses no value", "statement": "After merge_enum_unions every literal of an enumeration that was a member of the union, directly or nested, is a variant of the resulting enumeration, and every other member is still selectable.", "quantifier": "all nestings of unions, enumerations and aliases", "why_tests_cant": "nesting of any depth and colliding names", "anchors": ["xsd-parser/src/pipeline/optimizer/merge_enum_unions.rs"]}
{"id": "C57", "title": "The cached type definitions are never stale", "statement": "Whatever passes have been run in whatever order, the type definitions the optimizer has cached resolve every identifier to what it stands for in the current types.", "quantifier": "all sequences of passes on all type maps", "why_tests_cant": "histories of any length", "anchors": ["xsd-parser/src/pipeline/optimizer/mod.rs: get_typedefs", "xsd-parser/src/pipeline/optimizer/misc/typedef_map.rs"]}
{"id": "C58", "title": "The identifiers visible from a schema are listed completely and once", "statement": "schema_set yields, for every dependency graph including cyclic ones, each kind and name defined in the schema or in one reachable through dependencies exactly once, and prefers the definition of the schema itself.", "quantifier": "all histories of cache calls, all dependency graphs, all iteration orders of the hash tables", "why_tests_cant": "cyclic graphs of any size and all hash orders", "anchors": ["xsd-parser/src/models/ident_cache.rs: schema_set, SchemaSetIter"]}
{"id": "C59", "title": "The target namespace of a referenced schema is right", "statement": "A schema that is included, redefined or overridden without declaring a target namespace takes the one of the schema that includes it, one that declares a different target namespace is refused, and an imported schema keeps exactly the target namespace it declares.", "quantifier": "all schema documents, all include and import graphs, all orders of loading", "why_tests_cant": "the outcome depends on which of several referring schemas is loaded first", "anchors": ["xsd-parser/src/pipeline/parser/mod.rs: resolve_location"]}
{"id": "C60", "title": "Generated types have a finite size", "statement": "In the generated code no type contains itself by value, directly or through other types: every recursion in the schema is broken by a box or a list.", "quantifier": "all sets of schema types, all box settings, all sequences of generate calls and so all orders of generation", "why_tests_cant": "whether a field is boxed depends on the order in which the types are generated and on the whole graph of types", "anchors": ["xsd-parser/src/pipeline/generator/context.rs: need_box, get_or_create_type_ref_for_element", "xsd-parser/src/pipeline/generator/state.rs: get_reachable", "xsd-parser/src/pipeline/generator/data/complex.rs: ComplexDataElement::new"]}
{"id": "C61", "title": "The generated code is closed and free of duplicates", "statement": "Every type that is requested or that a generated type names is generated exactly once, unless the user supplied it; supplied types are never generated, no type is generated that nobody requested or names, and the generation always ends.", "quantifier": "all sets of schema types, recursive ones included, all supplied types and sequences of generate calls", "why_tests_cant": "types are discovered while other types are generated, so this is a property of the whole work list", "anchors": ["xsd-parser/src/pipeline/generator/mod.rs: generate_pending, get_or_create_type_ref_mut, with_type", "xsd-parser/src/pipeline/generator/data/mod.rs"]}
{"id": "C62", "title": "Generated unique names are distinct", "statement": "Names that are made unique by appending a number are different from each other, whatever the names are, in whatever order the builders are created, copied, merged and finished.", "quantifier": "all histories of operations on name builders that share a counter", "why_tests_cant": "histories of any length, names ending in digits", "anchors": ["xsd-parser/src/models/naming/default.rs: NameBuilder"]}
{"id": "C63", "title": "The content of a generated type is the content the schema describes", "statement": "The sequences of child elements that the type generated for a complex type admits are exactly those its model group in the schema admits, for every nesting of sequences, choices, all groups, group references, wildcards and occurrence bounds; the interpretation always ends and never reports an error.", "quantifier": "all model groups of any depth, all definitions of groups, all states of the interpreter", "why_tests_cant": "nesting and number of particles are unbounded, and members are merged by name across the whole group", "anchors": ["xsd-parser/src/pipeline/interpreter/state/generate_types/variant_processor.rs: apply_complex_type, apply_group, apply_element, apply_any, insert_checked"]}
{"id": "C64", "title": "A derived complex type has the content its derivation describes", "statement": "A type derived by extension admits what its base admits followed by what the extension adds; a type derived by restriction admits what the restriction says; the base is unchanged.", "quantifier": "all base types and all derivations", "why_tests_cant": "every combination of base content and added content", "anchors": ["xsd-parser/src/pipeline/interpreter/state/generate_types/variant_processor.rs: apply_extension, apply_restriction, copy_type_variant"]}
{"id": "C65", "title": "Merging dynamic types keeps every derived type exactly once", "statement": "Merging a dynamic type replaces each entry that stands for its own dynamic base by the entries of that base, keeps the first of the entries with the same key and their order, and leaves every other type as it is; it ends unless the base contains itself.", "quantifier": "all type maps, all dynamic types", "why_tests_cant": "every shape of the chain of dynamic types", "anchors": ["xsd-parser/src/pipeline/optimizer/merge_dynamic_types.rs: merge_dynamic_type, merge_dynamic_types, add_derived_types"]}
{"id": "C66", "title": "Dynamic types become choices with one alternative per derived type", "statement": "Converting dynamic types leaves no dynamic type; each becomes a complex type with a fresh content, whose alternatives represent the derived types under their names, selected by xsi:type, by tag and by default exactly as the entries say; all other types stay; there is no panic.", "quantifier": "all type maps and all dynamic types", "why_tests_cant": "every combination of entries with equal and different names", "anchors": ["xsd-parser/src/pipeline/optimizer/dynamic_to_choice.rs: convert_dynamics_to_choices, add_elements"]}
{"id": "C67", "title": "Simplified mixed types take the same documents", "statement": "Replacing a mixed type by one with text elements keeps the sequences of child elements it admits, admits a text wherever the mixed type admitted one, does not depend on the order of a hash set, does not panic, and does not touch other types.", "quantifier": "all type maps, all orders of the hash set, all sequences of children", "why_tests_cant": "unbounded sequences of children and every order", "anchors": ["xsd-parser/src/pipeline/optimizer/simplify_mixed_types.rs: simplify_mixed_type, simplify_mixed_types"]}
{"id": "C68", "title": "Generated sequence types read every valid content", "statement": "The deserializer generated for a sequence reads every element whose children follow the sequence, with any white space and comments between them, as the values of these children in order; as a part of another type it takes exactly its own children and hands back the first tag that is not one of them.", "quantifier": "all sequences of particles with any bounds, whose own deserializers do what they should, all contents of any length", "why_tests_cant": "repetitions and nesting are unbounded and every child is read event by event by a state machine", "anchors": ["xsd-parser/src/pipeline/renderer/steps/quick_xml/deserialize.rs: render_deserializer_fn_next_sequence, deserializer_struct_field_fn_handle_sequence, deserializer_struct_field_fn_next_sequence_create, deserializer_struct_field_finish", "xsd-parser-types/src/quick_xml/deserialize.rs: DeserializeHelper, ElementHandlerOutput"]}
{"id": "C69", "title": "Generated choice types read every valid content", "statement": "The deserializer generated for a choice selects the alternative that the first tag belongs to and reads all its occurrences; as a part of another type it takes exactly these and hands back the first tag that is not one of them.", "quantifier": "all choices of particles with any bounds, whose own deserializers do what they should, all contents", "why_tests_cant": "the number of alternatives and occurrences is unbounded", "anchors": ["xsd-parser/src/pipeline/renderer/steps/quick_xml/deserialize.rs: ComplexDataEnum::render_deserializer_fn_next, render_deserializer_fn_find_suitable, deserializer_enum_variant_fn_handle, deserializer_enum_variant_finish"]}
{"id": "C70", "title": "Types with a content field read every valid content", "statement": "The deserializer generated for a type with a separate content type reads every number of occurrences of the content that the bounds allow, and fills up missing ones that may be empty.", "quantifier": "all contents and bounds, all documents", "why_tests_cant": "the number of occurrences is unbounded", "anchors": ["xsd-parser/src/pipeline/renderer/steps/quick_xml/deserialize.rs: render_deserializer_fn_next_content_complex, deserializer_struct_field_fn_handle_complex"]}
{"id": "C71", "title": "Generated all types read children in any order", "statement": "The deserializer generated for xs:all reads every element whose children are those of the group, in any order, as the values of these children.", "quantifier": "all sets of particles and all orders of their occurrences", "why_tests_cant": "the number of orders grows with the factorial of the number of children", "anchors": ["xsd-parser/src/pipeline/renderer/steps/quick_xml/deserialize.rs: render_deserializer_fn_next_all, deserializer_struct_field_fn_handle_all, ComplexDataStruct::render_deserializer_fn_find_suitable"]}
{"id": "C72", "title": "Every valid document is read as the value it stands for", "statement": "For a schema of elements, nested sequences, choices and all groups with any bounds, simple types, and simple and complex content, in every setting of the flattening flags: deserializing a valid document gives the value the document stands for and consumes exactly the document.", "quantifier": "all closed schemas, recursive ones included, all valid documents of any size and depth", "why_tests_cant": "schemas and documents are both unbounded; generated machines call each other along the nesting", "anchors": ["xsd-parser/src/pipeline/renderer/steps/quick_xml/deserialize.rs: (whole file)", "xsd-parser/src/pipeline/generator/data/complex.rs: ComplexBase, ComplexData, ComplexDataElement", "xsd-parser-types/src/quick_xml/deserialize.rs: DeserializeImpl::handle_event"]}
{"id": "C73", "title": "Only valid documents are read", "statement": "If deserializing a document succeeds, the document is valid for the type, and exactly the root element was consumed.", "quantifier": "all schemas, all documents", "why_tests_cant": "the set of invalid documents cannot be enumerated", "anchors": ["xsd-parser/src/pipeline/renderer/steps/quick_xml/deserialize.rs: (whole file)", "xsd-parser-types/src/quick_xml/deserialize.rs: finish_vec, ElementHandlerOutput"]}
{"id": "C74", "title": "Unexpected input does not make a deserializer panic", "statement": "Whatever events follow each other, a generated deserializer returns a value or an error; it reaches no unreachable!() and every internal loop ends.", "quantifier": "all types, all sequences of events, well formed or not", "why_tests_cant": "all event histories", "anchors": ["xsd-parser/src/pipeline/renderer/steps/quick_xml/deserialize.rs: deserializer_enum_variant_fn_next, render_deserializer_fn_next_sequence, render_deserializer_fn_next_all, render_deserializer_fn_next_content_complex"]}
{"id": "C75", "title": "Namespaces inside generated types are those of the document", "statement": "While a generated deserializer reads a document, the namespaces it sees and the prefixes it resolves are exactly those declared by the elements that are open, and an event it does not consume is handed back unchanged.", "quantifier": "all schemas, all well nested sequences of events, all points in them", "why_tests_cant": "all event histories and nestings of generated types", "anchors": ["xsd-parser/src/pipeline/renderer/steps/quick_xml/deserialize.rs: (whole file)", "xsd-parser-types/src/quick_xml/deserialize.rs: DeserializeHelper, Deserializer"]}
{"id": "C76", "title": "Generated serializers write the document of a value", "statement": "Iterating over the serializer of a value gives, for every generated type and in every setting of the flattening flags, exactly one document: start tag, then the values of the fields in the order of the schema (or the chosen alternative), each as often as it occurs, then the end tag. The iterator ends after the last event, and after an error.", "quantifier": "all closed schemas, recursive ones included, all values of their types", "why_tests_cant": "schemas, values and their nesting are unbounded; the serializers of fields are interleaved state machines", "anchors": ["xsd-parser/src/pipeline/renderer/steps/quick_xml/serialize.rs: ComplexData::render_serializer, render_serializer_fn_next, SerializerField", "xsd-parser-types/src/quick_xml/serialize.rs: WithSerializer, IterSerializer, ContentSerializer"]}
{"id": "C77", "title": "A value that was read can be written and read again", "statement": "Serializing the value of a valid document and deserializing the result gives the same value; the namespaces of all elements are declared where they are used, in every namespace mode.", "quantifier": "all schemas, all valid documents, all configurations of namespaces and prefixes", "why_tests_cant": "documents, values and nestings of namespaces are unbounded", "anchors": ["xsd-parser/src/pipeline/renderer/steps/quick_xml/serialize.rs: NamespaceSerialization, ComplexData::render_serializer, TagName", "xsd-parser/src/pipeline/renderer/steps/quick_xml/deserialize.rs", "xsd-parser-types/src/quick_xml/serialize.rs: SerializeHelper", "xsd-parser-types/src/quick_xml/deserialize.rs: DeserializeHelper"]}
{"id": "C78", "title": "The root element declares the namespaces of its document", "statement": "With global namespace declarations, the serializer generated for a type declares at the root element every namespace that the type or a type it may contain needs, each once, and no other, whatever types refer to each other and in whatever order the serializers are generated.", "quantifier": "all graphs of types, recursive ones included, all orders of rendering", "why_tests_cant": "graphs of types and orders of rendering are unbounded; the collector shares its cache between all types", "anchors": ["xsd-parser/src/pipeline/renderer/steps/quick_xml/serialize.rs: NamespaceCollector, NamespaceKey, filter_dynamic_types", "xsd-parser/src/models/meta/types.rs: ModuleMeta::make_ns_const, ModuleMeta::make_prefix_const"]}
{"id": "C79", "title": "Attributes are read as they are declared", "statement": "The deserializer of a generated type accepts the attributes of an element exactly if they are allowed by the declarations of the type: every attribute is taken by the declaration of its expanded name, an attribute without prefix having no namespace; required attributes are there; absent ones get their default or fixed value; attributes that no declaration takes are accepted only if a wildcard of the type admits their namespace, or if they are those of XML Schema instances. The fields hold the values of the attributes, other attributes are kept in their order, and nothing panics.", "quantifier": "all lists of attribute declarations, all attribute lists, all scopes of namespaces, all value types", "why_tests_cant": "lists of attributes, names and scopes of namespaces are unbounded", "anchors": ["xsd-parser/src/pipeline/renderer/steps/quick_xml/deserialize.rs: render_deserializer_fn_from_bytes_start, deserializer_matcher", "xsd-parser/src/pipeline/generator/data/complex.rs: ComplexDataAttribute::new_field", "xsd-parser-types/src/quick_xml/deserialize.rs: read_attrib, filter_xmlns_attributes, resolve_local_name, raise_unexpected_attrib_checked, is_globally_allowed_attrib", "xsd-parser-types/src/xml/attributes.rs: Attributes::push"]}
{"id": "C80", "title": "Attributes that are written are read again", "statement": "The attributes that the serializer of a generated type writes for a value are allowed by the declarations of the type and give the same value when they are read in a scope in which the prefixes of the declarations are bound to their namespaces, for every value of the type.", "quantifier": "all lists of attribute declarations, all values of the fields, all scopes", "why_tests_cant": "values and declarations are unbounded; reading depends on the scope of namespaces", "anchors": ["xsd-parser/src/pipeline/renderer/steps/quick_xml/serialize.rs: write_attrib, write_attrib_opt, extend_attributes", "xsd-parser/src/models/data/tag_name.rs: TagName::get", "xsd-parser/src/pipeline/interpreter/state/generate_types/variant_processor.rs: apply_attribute_ref", "xsd-parser-types/src/quick_xml/serialize.rs: write_attrib, write_attrib_opt"]}
{"id": "C81", "title": "Texts of simple types are read as the schema says", "statement": "For a simple type derived by any number of restrictions, lists and unions from built-in types, the generated code accepts exactly the texts that XML Schema gives a value (white space is normalized, patterns of all steps, bounds, lengths, digits and enumerations hold, the first matching member of a union is taken), and the Rust value stands for that value.", "quantifier": "all simple type definitions of any depth, all facets, all texts, all built-in types given by parse functions", "why_tests_cant": "definitions and texts are unbounded; facets interact across derivation steps", "anchors": ["xsd-parser/src/pipeline/interpreter/state/generate_types/variant_processor.rs: apply_simple_type, apply_simple_type_restriction, apply_facet, apply_union, apply_list", "xsd-parser/src/pipeline/renderer/steps/quick_xml/deserialize.rs: SimpleData, EnumerationData, UnionData, ReferenceData", "xsd-parser/src/pipeline/renderer/steps/mod.rs: render_fn_validate_str, render_fn_validate_value", "xsd-parser-types/src/quick_xml/deserialize.rs: deserialize_list"]}
{"id": "C82", "title": "No element of a document is lost or invented", "statement": "When a document is read with the generated types, the value holds, for every name, exactly as many elements as the document has tags that begin an element of that name inside the root element, up to the point where the value is returned. In particular an element with a name the schema does not know is never passed over silently: such a document is not read.", "quantifier": "all schemas of sequences, choices, xs:all, groups, simple types and simple content with any bounds, both layouts of content, all event sequences, all nesting depths", "why_tests_cant": "schemas, documents and interleavings of fallback states are unbounded; a lost element shows only for particular combinations of bounds, groups and defaults", "anchors": ["xsd-parser/src/pipeline/renderer/steps/quick_xml/deserialize.rs: next, init, finish, finish_state, store of structs and enums", "xsd-parser-types/src/quick_xml/deserialize.rs: DeserializeImpl, ElementHandlerOutput, finish_vec, finish_arr"]}
{"id": "C83", "title": "Values of simple types that are written are read again", "statement": "The text that the generated code writes for a value of a simple type is read as the same value, both if the value was read from a text and if it was built with the generated constructors; and the text has the value that XML Schema gives to the text that was read.", "quantifier": "all simple types of any nesting, all texts, all values of the generated types, all built-in types given by parse and print functions", "why_tests_cant": "types, texts and values are unbounded; facets, lists and unions interact", "anchors": ["xsd-parser/src/pipeline/renderer/steps/quick_xml/serialize.rs: UnionData, ReferenceData, EnumerationData, SimpleData (render_serializer)", "xsd-parser/src/pipeline/renderer/steps/mod.rs: SimpleData::render_common_impls", "xsd-parser-types/src/quick_xml/serialize.rs: SerializeBytes, SerializeBytesToString"]}
{"id": "C84", "title": "The default of an attribute is the value of its text", "statement": "The function that is generated for the default of an attribute gives the value that is read if the text of the default stands in the document, and this is the value that XML Schema gives to the text; a default that is not valid is refused; neither the generator nor the generated function panics.", "quantifier": "all simple types of any nesting, all texts, all built-in types given by a parse function", "why_tests_cant": "types and texts are unbounded; tests look at some literals per built-in type", "anchors": ["xsd-parser/src/pipeline/generator/context.rs: make_value_renderer", "xsd-parser/src/pipeline/generator/data/complex.rs: ComplexDataAttribute::new", "xsd-parser/src/pipeline/renderer/steps/defaults.rs: render_default_fn", "xsd-parser/src/pipeline/interpreter/mod.rs: make_from_str_value_generator"]}
{"id": "C85", "title": "Elements are recognised by their expanded names", "statement": "A generated deserializer takes a tag for a declared element exactly if the expanded name of the tag, by the declarations of namespaces in scope and the default namespace, is the declared name; so elements with the same local name in different namespaces are told apart.", "quantifier": "all documents, all nestings of namespace declarations, all declared names with or without namespace", "why_tests_cant": "declarations and prefixes are unbounded and depend on the whole history of the document", "anchors": ["xsd-parser-types/src/quick_xml/deserialize.rs: DeserializeHelper::resolve, resolve_local_name, check_start_tag_name, init_start_tag_deserializer", "xsd-parser/src/pipeline/renderer/steps/quick_xml/deserialize.rs: element matchers"]}
{"id": "C86", "title": "Elements with dynamic types are read by the type that the document names", "statement": "An element declared with a dynamic type (abstract, or configured as dynamic) is read by the type that its xsi:type attribute names, by its declared type without such an attribute, and an element of its substitution group by the type of that element; nothing else is read. The value keeps its type, and what is written for it is read by the same type again.", "quantifier": "all dynamic types with any entries, all names of elements, all documents and scopes of namespaces, all types of values", "why_tests_cant": "names, prefixes, attributes and hierarchies are unbounded; tests use elements that have the name of their type", "anchors": ["xsd-parser/src/pipeline/renderer/steps/quick_xml/deserialize.rs: DynamicData, DerivedType, make_type_element_matcher", "xsd-parser/src/pipeline/renderer/steps/quick_xml/serialize.rs: DynamicData, filter_dynamic_types", "xsd-parser-types/src/quick_xml/deserialize.rs: get_dynamic_type_from_tag, get_dynamic_type_from_attrib", "xsd-parser-types/src/quick_xml/serialize.rs: XsiTypeSerializer"]}
{"id": "C87", "title": "Namespaces that are collected from a value are those it needs", "statement": "With dynamic namespace declarations, the root element declares every namespace that an element or attribute of the value needs and no other, so that what is written has the expanded names of the schema and is read again as the same value.", "quantifier": "all closed schemas, all values of any depth, all configurations of prefixes and default namespaces", "why_tests_cant": "values and schemas are unbounded; the declarations of the root element depend on the whole value", "anchors": ["xsd-parser/src/pipeline/renderer/steps/quick_xml/collect_namespaces.rs: ComplexData, UnionData, ReferenceData", "xsd-parser/src/pipeline/renderer/steps/quick_xml/serialize.rs: NamespaceSerialization::Dynamic, render_xmlns, render_root_xmlns", "xsd-parser-types/src/quick_xml/serialize.rs: CollectNamespaces, SerializeHelper"]}
{"id": "C88", "title": "Redefined and overridden components replace the old ones everywhere", "statement": "When a schema redefines or overrides components of another one, every component that it works with (its own, those it includes, and what these refer to) refers to the new components; only the redefinition itself refers to the old one. Components that refer to an old component, directly or through others, get a copy in the redefining schema, all other schemas are left as they are, and this always ends.", "quantifier": "all sets of schemas, all graphs of references of any depth, all orders of the hash tables", "why_tests_cant": "the copies are made in a loop over a set that grows while it runs, in the random order of hash tables; graphs of references are unbounded and may have cycles", "anchors": ["xsd-parser/src/pipeline/interpreter/state/crate_node_cache.rs: process_override, process_redefine, resolve_dependencies, resolve_type_ident", "xsd-parser/src/pipeline/interpreter/state/crate_ident_cache.rs: create_ident_cache", "xsd-parser/src/models/ident_cache.rs: schema_set"]}
{"id": "C89", "title": "A complex type has the attributes that the schema gives it", "statement": "The type generated for a complex type has one field for every attribute that the schema gives to the type and no other: those it declares itself or through attribute groups, and those it inherits by extension or restriction unless the restriction prohibits or replaces them. Name, type, use and default of each are those of the schema, and other attributes are admitted exactly if the schema says so.", "quantifier": "all schemas, all nestings of attribute groups, all chains of derivations of any length", "why_tests_cant": "chains of derivations and nestings of groups are unbounded, and an entry is changed in place by every type of the chain", "anchors": ["xsd-parser/src/pipeline/interpreter/state/generate_types/variant_processor.rs: apply_complex_type, apply_attribute_group, apply_attribute_ref, apply_any_attribute, copy_base_type", "xsd-parser/src/pipeline/interpreter/state/generate_types/update.rs: Update<AttributeType>", "xsd-parser/src/traits/vec_helper.rs: find_or_insert", "xsd-parser/src/pipeline/generator/data/complex.rs: ComplexDataAttribute::new_field"]}
{"id": "C90", "title": "Elements and types can be replaced by exactly what the schema allows", "statement": "The type generated for an element that heads a substitution group or is abstract has one alternative for every element that a document may use in its place, with the type that this element is declared with, and no other. The type generated for a complex type that is abstract or made dynamic has one alternative for every type that xsi:type may name in its place, at any distance of derivation, and no other.", "quantifier": "all schemas, all substitution groups with any number of heads and any nesting, all chains of derivations", "why_tests_cant": "the closure over heads and bases is unbounded, and an entry made for one element is changed when later elements refer to it", "anchors": ["xsd-parser/src/pipeline/interpreter/state/generate_types/variant_processor.rs: apply_element, apply_complex_type, walk_substitution_groups, prepare_substitution_group", "xsd-parser/src/pipeline/interpreter/state/fix_derived_types.rs: fix_derived_types", "xsd-parser/src/pipeline/interpreter/state/generate_types.rs: generate_types", "xsd-parser/src/models/meta/types.rs: get_resolved"]}
{"id": "C91", "title": "Render steps that a configuration lists do different jobs", "statement": "After any chain of calls that add render steps, no two entries of the configuration run the same step and exactly one renders the types; an entry that was added runs unless a later one does its job, everything else stays in its place, and the constants and traits that the serializer and deserializer refer to are rendered too.", "quantifier": "all chains of calls, with steps of the crate and of the user in any order and with any settings", "why_tests_cant": "two steps exclude each other by a table with one arm per pair; tests add a few steps twice, not every pair in every order", "anchors": ["xsd-parser/src/config/mod.rs: with_render_step, with_render_steps, with_quick_xml_config, with_serde_quick_xml", "xsd-parser/src/config/renderer.rs: RenderStep::is_mutual_exclusive_to, RenderStepConfig"]}
{"id": "C92", "title": "Accessors of repeated choices return the first value of their element", "statement": "For a type whose content is a list of alternatives, the generated method of an element returns the value of the first child that is this element and nothing if there is none; what is written through the mutable method changes this value and no other. The generated methods have different names.", "quantifier": "all choices with any number of elements and names, all contents", "why_tests_cant": "names are chosen by schemas, contents are lists of any length", "anchors": ["xsd-parser/src/pipeline/renderer/steps/content_helper.rs: render_helpers_for_complex_enum", "xsd-parser/src/pipeline/renderer/steps/defaults.rs: render_default_fn"]}
{"id": "C93", "title": "Types rendered for serde read every valid element", "statement": "A struct rendered for serde with quick-xml reads every valid element of its complex type: each attribute field gets the value of the attribute, its default or nothing, each element field the value or the list of values in document order, and a choice the alternatives of the document in their order. What is read comes from the elements with the name of the field only.", "quantifier": "all attribute and element declarations with any bounds, all sequences, all-groups, choices and simple contents, all documents", "why_tests_cant": "bounds, numbers of fields and documents are unbounded, and names in several namespaces meet in one map", "anchors": ["xsd-parser/src/pipeline/renderer/steps/serde/quick_xml.rs: render_field_serde_quick_xml, render_variant_serde_quick_xml", "xsd-parser/src/pipeline/renderer/steps/serde/mod.rs: is_empty_string_content", "xsd-parser/src/pipeline/generator/data/complex.rs: new_struct, new_enum, ComplexDataElement::new, ComplexDataAttribute::new_field"]}
{"id": "C94", "title": "The text of complex types with simple content is read as the schema says", "statement": "The type that is generated for a complex type with simple content has a field for the text, and reads into it exactly the texts that are valid for the content type, with their values: the content type of the base, or the simple type inside of a restriction, restricted by all facets of the derivation. It has the attributes of its base and its own, and generating it does not panic.", "quantifier": "all complex types with simple content: derivations of any length by extension and restriction, from simple types, complex types and mixed types, with or without simple types inside, with any facets; all texts", "why_tests_cant": "derivations nest without bound; the facets of every step, the place of the inner simple type and the kind of the base interact, and the texts are unbounded", "anchors": ["xsd-parser/src/pipeline/interpreter/state/generate_types/variant_processor.rs: apply_simple_content, apply_simple_content_extension, apply_simple_content_restriction, copy_base_type, simple_content_builder", "xsd-parser/src/pipeline/interpreter/state/generate_types/type_processor.rs: get_simple_type_variant, get_complex_type_variant", "xsd-parser/src/pipeline/generator/data/complex.rs: new_complex"]}
{"id": "C95", "title": "Numbers and booleans are read and written as XML Schema says", "statement": "For every numeric built-in type and boolean, in every configuration of the type definitions, the generated code reads exactly the texts that are valid for the type, with the value that the text denotes, and what it writes for a value is a valid text that is read back as the same value.", "quantifier": "all numeric built-in types and boolean, with and without big integers and non-zero types, all widths of a pointer, all texts and all values", "why_tests_cant": "texts and numbers are unbounded, and the bounds of the types lie far apart", "anchors": ["xsd-parser/src/pipeline/interpreter/mod.rs: with_default_typedefs, with_num_big_int, with_nonzero_typedefs", "xsd-parser-types/src/quick_xml/deserialize.rs: DeserializeBytes for bool, DeserializeBytesFromStr", "xsd-parser-types/src/quick_xml/serialize.rs: SerializeBytes"]}
{"id": "C96", "title": "A text is read as the variant of an enumeration with the same value", "statement": "For an enumeration, with or without advanced enums, a text is read as the first variant whose value is the value of the text (strings by characters, numbers by number, qualified names by namespace and local name), and as nothing else. Each variant is written as a text that is read back as the same variant, its constant is the value in the schema, and the generator neither panics nor generates code that does not compile.", "quantifier": "all enumerations: any base type, any list of values with any namespaces in scope in the schema, with and without a variant for other values; all texts and all namespaces in scope in the document", "why_tests_cant": "values, texts and namespaces are unbounded, and different texts stand for the same value", "anchors": ["xsd-parser/src/pipeline/generator/data/enumeration.rs: EnumerationData::new, make_variant, get_simple_enum_base_type", "xsd-parser/src/pipeline/generator/context.rs: make_value_renderer", "xsd-parser/src/pipeline/renderer/steps/enum_const.rs: EnumConstantsRenderStep", "xsd-parser/src/pipeline/renderer/steps/quick_xml/deserialize.rs: EnumerationData::render_deserializer", "xsd-parser/src/misc/qname.rs: default"]}
{"id": "C97", "title": "Constants and traits tell the namespaces and prefixes of the schema", "statement": "The generated code defines exactly one constant for each namespace, with the bytes of its URI, and one for each prefix, with the bytes of the prefix; all other generated code refers to the right one, and no two namespaces share a constant or a prefix. WithNamespace tells, for each generated type, the URI of its namespace and the prefix it is written with.", "quantifier": "all lists of namespaces: any URIs, prefixes and names given by the user; all numbers of rendered types", "why_tests_cant": "there are unboundedly many URIs, prefixes and names, and names collide in capitals in unboundedly many ways", "anchors": ["xsd-parser/src/pipeline/renderer/steps/namespace_const.rs: NamespaceConstantsRenderStep", "xsd-parser/src/pipeline/renderer/steps/prefix_const.rs: PrefixConstantsRenderStep", "xsd-parser/src/pipeline/renderer/steps/with_namespace_trait.rs: WithNamespaceTraitRenderStep", "xsd-parser/src/models/meta/types.rs: ModuleMeta::make_ns_const, make_prefix_const", "xsd-parser/src/pipeline/interpreter/state/prepare_modules.rs: prepare_modules"]}
{"id": "C98", "title": "Derived types implement the trait of their base", "statement": "For every dynamic type that is generated, each of its derived types is generated and implements its trait exactly once, whatever the order in which types are asked for; the traits of derived dynamic types extend it; no type implements a trait of a type it is not derived from; and the generator comes to an end.", "quantifier": "all sets of types, all sequences of calls of generate_type, generate_named_types and generate_all_types, all types supplied by the user", "why_tests_cant": "the order in which types are asked for follows the graph of types, which is unbounded, and the sequence of calls", "anchors": ["xsd-parser/src/pipeline/generator/mod.rs: GeneratorFixed::generate_type, generate_pending, State::get_or_create_type_ref_mut", "xsd-parser/src/pipeline/generator/state.rs: TraitInfos::update", "xsd-parser/src/pipeline/generator/context.rs: make_trait_impls, make_traits_derive"]}
{"id": "C99", "title": "A type named in the configuration is the type meant", "statement": "A type that the configuration names, by kind, name, namespace (number, prefix or URI) and optionally schema (number, name or location), is the type of the schemas or of the user that these describe: it is excluded from generation, generated or made dynamic if there is exactly one such type, and rejected with an error if there is none or more than one.", "quantifier": "all sets of schemas a parser can load, all types added to the interpreter, all quadruples, all iteration orders of hash tables", "why_tests_cant": "The lookup depends on how many schemas share a namespace, on redefinitions and on names that several schemas have; a test fixes one set of schemas, mostly a single file, for which most of the lookup is never run.", "anchors": ["xsd-parser/src/config/mod.rs: IdentQuadruple::resolve, Schemas::resolve_schema, From<(IdentType, X)>, From<TypeIdent>", "xsd-parser/src/lib.rs: exec_generator_with_ident_cache, exec_interpreter_with_ident_cache", "xsd-parser/src/pipeline/interpreter/state/crate_ident_cache.rs: create_ident_cache", "xsd-parser/src/models/ident_cache.rs: IdentCache::resolve"]}
{"id": "C100", "title": "Different types are generated under different names", "statement": "No two of the types, content types, traits and enumeration value types that are generated for a schema have the same name in the same module, whatever the names of the types, elements and attributes of the schema are.", "quantifier": "all sets of types with any kinds, names and namespaces, both namings, with and without modules for namespaces and schemas", "why_tests_cant": "names are chosen by schemas and are unbounded; a clash needs a pair of names that a test would have to guess", "anchors": ["xsd-parser/src/models/naming/mod.rs: make_type_name, unify_string, format_ident", "xsd-parser/src/models/naming/explicit.rs: ExplicitNaming::make_type_name", "xsd-parser/src/pipeline/generator/mod.rs: create_type_ref, with_type_postfix", "xsd-parser/src/models/code/ident_path.rs: ModuleIdent::new, ModulePath::from_ident", "xsd-parser/src/pipeline/generator/data/complex.rs: new_enum, new_struct", "xsd-parser/src/pipeline/generator/data/dynamic.rs: DynamicData::new", "xsd-parser/src/pipeline/renderer/steps/serde/serde_xml_rs_v8.rs: format_enum_values_ident"]}
{"id": "C101", "title": "Fields of types for serde have names of their own", "statement": "In every struct and enum rendered for serde, each field and variant is the one serde finds under its name, so every attribute, element and text of a type can be read into its field; and every attribute and element that may occur has one.", "quantifier": "all complex types with any attributes, elements, texts, bounds and namespaces, all three renderers for serde, with and without flattening", "why_tests_cant": "names and namespaces are chosen by schemas; a clash needs a pair of declarations a test would have to guess", "anchors": ["xsd-parser/src/pipeline/renderer/steps/serde/serde_xml_rs_v7.rs: render_field_serde_xml_rs_v7, render_variant_serde_xml_rs_v7", "xsd-parser/src/pipeline/renderer/steps/serde/serde_xml_rs_v8.rs: render_field_serde_xml_rs_v8, render_variant_serde_xml_rs_v8", "xsd-parser/src/pipeline/renderer/steps/serde/quick_xml.rs: render_field_serde_quick_xml", "xsd-parser/src/models/data/tag_name.rs: TagName::get", "xsd-parser/src/pipeline/generator/data/complex.rs: new_simple, new_enum, new_struct, new_content"]}
{"id": "C102", "title": "A schema is read from the resource its location names", "statement": "The configured resolvers give, for the location of an include, import or a schema to load, the text of the file or web resource that the location names relative to the schema it is written in, whatever the order of the resolvers; what cannot be read is reported; all schemas the parser holds were read in this way.", "quantifier": "all locations, URLs, files, web resources, lists of resolvers, documents that refer to each other", "why_tests_cant": "locations, files and graphs of documents are unbounded, and a test sees one arrangement of files", "anchors": ["xsd-parser/src/pipeline/parser/resolver/many_resolver.rs: ManyResolver::resolve", "xsd-parser/src/pipeline/parser/resolver/file_resolver.rs: FileResolver::resolve", "xsd-parser/src/pipeline/parser/resolver/web_resolver.rs: WebResolver::resolve", "xsd-parser/src/pipeline/parser/resolver/mod.rs: strip_name_ext", "xsd-parser/src/lib.rs: exec_parser"]}
{"id": "C103", "title": "A value that keeps its namespaces has those in scope where it stands", "statement": "A value read through the wrapper that keeps namespaces is the value read without it, with the same errors and the same events left unread, and comes with exactly the prefixes bound where the value stands in the document: those of its element and of the elements around it, not those of its content or of its neighbours. A name taken from the value can therefore be resolved after reading as it would have been while reading.", "quantifier": "every deserializer that leaves the namespace tracking alone, every well nested document and every history of requests for namespaces before", "why_tests_cant": "tests read a few documents; shadowing, neighbours with declarations of their own and values that end at the next tag come in any number and combination", "anchors": ["xsd-parser-types/src/xml/namespace_scope.rs NamespaceScope", "xsd-parser-types/src/xml/namespace_scope.rs NamespaceScopeDeserializer", "xsd-parser-types/src/quick_xml/deserialize.rs DeserializeHelper::namespaces", "xsd-parser-types/src/xml/text.rs TextDeserializer"]}
{"id": "C104", "title": "Errors tell where they are, whatever the reader", "statement": "An error of a value read with error information has the position behind the event at which it was found and the path of the elements in which that event stands, also if other values or events were read from the same reader before. Without error information, asynchronously or from a stream instead of a slice the values and errors are the same; a value may be read from inside a document, and a stream is read with memory that does not grow with the document.", "quantifier": "every deserializer, every sequence of events and errors of the XML reader, every number of events taken before, each of the readers", "why_tests_cant": "tests look at the error of a few wrong documents; the error may be found at any event at any depth, after any history", "anchors": ["xsd-parser-types/src/quick_xml/reader/error_reader.rs ErrorReader", "xsd-parser-types/src/quick_xml/reader/io_reader.rs IoReader", "xsd-parser-types/src/quick_xml/reader/slice_reader.rs SliceReader", "xsd-parser-types/src/quick_xml/error.rs Error", "xsd-parser-types/src/quick_xml/deserialize.rs DeserializeSync::deserialize"]}
{"id": "C105", "title": "Printing types ends and shows each of them", "statement": "Printing one type or all types for debugging ends for every set of types, also for types that contain themselves, in a depth bounded by the number of types. It shows exactly the types below the printed one, reports exactly the missing ones, and reports a loop if and only if there is one; printing all types is printing each of them alone. The output grows in proportion to the types.", "quantifier": "all sets of types with any groups, contents, loops and missing types", "why_tests_cant": "loops and sharing of groups come in any shape; a test sees a few of them", "anchors": ["xsd-parser/src/meta_types_printer.rs: MetaTypesPrinter::print_all, print_type, Display"]}
{"id": "C106", "title": "Configured optimizations hold for the result", "statement": "After the optimizer was run with a configuration, what the enabled optimizations promise holds for the types it returns, whatever others are enabled: no nameless enumeration values, no empty enumerations or unions, no union with two members for the same type, no uses of aliases, no equal types. No type is lost, nothing changes without flags, names are resolved by definitions that are up to date, and optimizing again changes nothing.", "quantifier": "all sets of types and all combinations of the optimizer flags", "why_tests_cant": "2^18 combinations of flags over unbounded sets of types; what one pass establishes another may undo", "anchors": ["xsd-parser/src/lib.rs: exec_optimizer", "xsd-parser/src/config/optimizer.rs: OptimizerConfig, OptimizerFlags", "xsd-parser/src/pipeline/optimizer/mod.rs: Optimizer"]}
{"id": "C107", "title": "Wrapped types of fields denote the intended types", "statement": "The type written for an element, reference, text or any content denotes in Rust, with the use declarations of its module, the type of the schema inside of the configured wrappers for nillable and mixed content, whether usings or absolute paths are configured and however the crates are called.", "quantifier": "all types, modules, configurations, wrappers and code around", "why_tests_cant": "all combinations of modules, wrappers, flags, names and other use declarations", "anchors": ["xsd-parser/src/models/data/path_data.rs: PathData", "xsd-parser/src/pipeline/generator/data/mod.rs: path_data_nillable, path_data_mixed, path_data_text", "xsd-parser/src/pipeline/generator/mod.rs: create_type_ref", "xsd-parser/src/pipeline/renderer/context.rs: resolve_type_for_module, patch_using"]}
{"id": "C108", "title": "Render steps do their own work", "statement": "The renderer gives every type to every step exactly once, in the order of the types and of the steps, and what a step of the library writes follows from its own settings, whatever other steps are configured. It does not panic unless a step of the user does. The traits of dynamic types are the configured ones followed by those the steps need, each once, and make the generated dyn types usable; the derived traits are the configured ones, each written once and in the same order in every run.", "quantifier": "all lists of steps with any settings, including steps of the user that store values, all lists of types, all configured traits", "why_tests_cant": "steps share a mutable store of values over all types; interference needs certain combinations and orders of steps and types", "anchors": ["xsd-parser/src/pipeline/renderer/mod.rs: Renderer::finish, Renderer::derive, Renderer::dyn_type_traits", "xsd-parser/src/pipeline/renderer/context.rs: Values", "xsd-parser/src/pipeline/renderer/steps/mod.rs: get_derive, get_dyn_type_traits", "xsd-parser/src/pipeline/renderer/steps/quick_xml/serialize.rs: QuickXmlSerializeRenderStep", "xsd-parser/src/pipeline/renderer/steps/quick_xml/deserialize.rs: QuickXmlDeserializeRenderStep"]}
{"id": "C109", "title": "Documentation of the schema is the documentation of the code", "statement": "The documentation taken from an annotation is the content of each of its documentation elements, in their order, without the documentation elements themselves; the documentation of a global element is the one of its type; with documentation enabled, its lines are written in front of the code, all of them and only without white space at their ends.", "quantifier": "all annotations with any markup inside of documentation, all texts", "why_tests_cant": "markup inside of documentation nests in any way; tests use plain texts", "anchors": ["xsd-parser/src/models/schema/xs.rs: Annotation::extract_documentation_into", "xsd-parser/src/pipeline/interpreter/state/generate_types/variant_processor.rs: apply_element, finish_mut", "xsd-parser/src/pipeline/renderer/steps/mod.rs: Context::render_docs"]}

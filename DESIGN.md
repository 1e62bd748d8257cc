# Formal model of xsd-parser in Rocq (Coq 8.16.1)

The code in `/repo` is read as text and never built or run. Everything proved
here is about the Gallina model in `rocq/theories`. The tie to the code is the
citation in front of every definition.

## Conventions

* Bytes and Rust strings are Coq `string`s (lists of 8-bit characters). A Rust
  `String`/`&str` is its UTF-8 byte sequence; char-level functions say how they
  treat non-ASCII.
* `usize` is `nat`, unbounded, except where a property is about overflow.
* `&mut` arguments become returned values. `Result`/`Option` stay data. A panic
  (`unwrap`, `unreachable!`, slice out of range, stack overflow) is an explicit
  outcome of the model.
* Unbounded recursion or loops in the code are modelled with fuel. Out-of-fuel
  is a separate outcome; a theorem either proves that some fuel always suffices
  or that none does.
* `HashMap` iteration order is unspecified: where it matters the model takes the
  order as a parameter, so theorems hold for every order (or are refuted by
  exhibiting two orders).
* External crates (quick-xml tokenizer and escaping, const_hex, base64, regex,
  Inflector) are either small explicit models or section variables; see the
  trusted base.

## Files

Each area has `*Model.v` (definitions only, with citations), `*Spec.v` (the
independent specification, where it is not stated inline), `*Proofs.v` and
`*Props.v` (only theorem statements, `exact`, `Print Assumptions`, examples).

## Plan per property

"Refuted" means that the English property is false of the code: the theorem with
the suffix `_refuted` exhibits a witness, and a `_partial` theorem states the
largest part that was proved. `MANIFEST.json` lists the theorems.

| id | model | method |
|----|-------|--------|
| C01 | SerHelper: helper as (level, stack of declarations) | invariant "levels sorted and bounded", induction over well-bracketed op lists |
| C02-C04 | SerHelper, plus spec of XML prefix lookup | refuted by shadowing witness; partial under injective prefixes |
| C05, C06 | Element: element trees, serializer as an iterator over a state machine, deserializer machine | mutual induction on trees; step-by-step run lemma |
| C07 | Element: deserializer machine with reference events | refuted; exact characterisation of what is kept |
| C08 | De: driver with skip depth | induction on balanced event lists |
| C09 | De: helper with resolver, cache, pending pop | refinement to the stack of open elements, induction over histories |
| C10 | De: ErrorInfo | refinement to stack of open names |
| C11-C13 | Text: content/text deserializers | fold over event lists |
| C14 | Wrap: nillable wrappers, parametric in the inner (de)serializer given as a contract | induction over the inner run |
| C15-C17, C52 | Wrap: composite, iterator and rewriting serializers | induction over event streams; refuted by two siblings |
| C18 | every lexical parser with explicit panic outcome | refuted (hexBinary etc.); totality for the rest |
| C19, C20 | QName record | algebra; transitivity and hash law refuted |
| C21 | Bin: hex and base64 encoders/decoders | induction on byte lists (groups of three) |
| C22, C23 | List: splitting, size checks | induction on strings; refutations where the code deviates |
| C24, C25 | Facet: white space, digits | induction on strings, specification by decimal values |
| C26, C27 | Map: association lists with insertion order | induction over op lists; permutation |
| C28, C29 | Meta: type maps, resolution, type_eq | well-founded induction on the set of unvisited identifiers; structural equality up to type_eq |
| C30 | Dup: remove_duplicates | fixpoint of a scan; invariant |
| C31, C33, C55 | Opt: resolve_typedefs, clean-up passes, unrestricted base | invariants of the type map and the cached maps |
| C32, C56 | Union: flatten_unions, merge_enum_unions | induction over nesting, relational specification of leaves |
| C34, C35 | Flat: content-model semantics (languages over element names, counts) | induction over group nesting; refutations with witnesses |
| C36 | Occurs: MaxOccurs | case analysis, decimal printing |
| C37, C38, C58 | Cache: identifier cache | invariant over histories; graph reachability for every hash order |
| C39-C41, C59 | Parser: parser work list and schema builder | invariants over histories of calls, termination measure on unloaded locations |
| C42, C43 | Path: identifier paths | induction on paths; Rust's path resolution as specification |
| C44, C62 | Name: identifier formatting, name builder | induction on strings; invariant over histories of builders |
| C45 | Node: node list depth-first search | search invariant (topological order); refutations for overwritten dependencies and lazy cycles |
| C46, C63, C64 | Content: interpretation of model groups, derivation, display names | induction over particles; languages of child elements as meaning; refutations |
| C47, C48 | Mod: module trees, files, use declarations | induction on trees, histories of calls; reader of Rust's use trees as specification |
| C49 | Mixed: trailing text | contract of the inner serializer, induction over the run |
| C50 | QName: display function | induction; refuted |
| C51 | Element: deserializer at end of input | refuted: an error is never produced |
| C53, C54 | AnySimple: values of unknown simple type | case analysis over 47 built-in types, text round trip as variables |
| C57 | Pass: every public pass as an operation on the optimizer | invariant over histories of passes; refutation |
| C65 | Pass: `add_derived_types` with fuel | induction; expansion as an inductive relation; divergence for every fuel |
| C66 | Pass: conversion of dynamic types, counter of the naming | invariant over the entries and over the types converted; refutation |
| C67 | Pass: mixed types with text elements, order of the hash set as argument | invariant over the types handled, languages of children; refutations |
| C68 | Gen: generated state machines of sequences over an abstract list of elements | contract of a particle (reads, hands back, finishes) composed by induction over the events |
| C69 | Gen: generated enums | same |
| C70 | Gen: types with a content field | same |
| C71 | Gen: xs:all | same |
| C72 | Doc: closed schemas, the generator's choice of machines, all types by depth | induction over particles and over depth from C68-C71; refutation |
| C73 | Doc | refutations by computed counterexamples |
| C74 | Gen, Doc | refutation; invariants of the machines (`alive`: what is still possible for a number of events), connected by induction on schemas, for steady schemas |
| C75 | Gen, Doc | every machine keeps the helper and hands events back, induction over the depth of types |
| C76 | Write: generated serializers of closed schemas | contract of a serializer (drains to exactly these events), induction over particles and depth |
| C77 | Write and Doc together: write, then read | from `valid` the value is `typed`; the document written for it is `valid` again with the scopes of the reader in step with those of the serializer (`tags_back`), then C76 and C72 |
| C78 | Collect: the shared, caching collector of namespaces over graphs of types | invariant of the depth-first search: what is cached is sound, what was found new ends in the result; number of types not yet cached as measure |
| C79 | Attr: declarations of attributes, the loop over the attributes of a start tag, the initialisation of the fields | characterisation of the loop by the attributes of each field, by induction on the list with the keys seen and the state of the fields; then names by the rules of Namespaces in XML |
| C80 | Attr: what is written for the fields | the written attributes satisfy the specification of C79, so C79 gives the value back |
| C81 | Simple: facets, derivations, enumerations, lists and unions of simple types, from the schema to the generated code that reads a text | induction on the definition; the facets of a derivation are split into slots, each slot of the accumulated constraints is equivalent to the facets of that slot in all steps |
| C82 | Gen, Doc, driver | every state stands for a number of elements of a given name; contract "what the answer holds is what was held plus what was taken from the event" for every machine, invariants of fallback states, induction over particles and depth, then over the events of the driver |
| C83 | Simple, SimpleWrite | induction over types; invariant "the text that is written is normalized if the text that was read was"; a list is found again because its first and last item begin and end with a visible character; values that are built: the same without the invariant; counterexamples in a small instance with decimals |
| C84 | Default, Simple | induction over types: what an unrestricted type takes as default is what it reads, so the member of a union that reads a text is the first that takes it; with C81 the value is that of XML Schema; counterexamples in a small instance with truth values, infinite and big numbers |
| C85 | Gen, De: the comparison of a tag with a declared name | the resolver knows the declarations in scope (C09); case analysis over the prefix |
| C86 | Dyn: the generated code that chooses the type of an element by its name or `xsi:type`, and that writes such values | each comparison of names is exact for clear names (C85); the searches find the unique entry; case analysis over what is written |
| C87 | WriteDyn: the namespaces that a value declares at the root element in the mode `Dynamic` | induction over values: every namespace of an element of a complex type inside the value is collected; then the argument of C77 with these declarations at the root |
| C88 | Redef: the node cache with redefinitions and overrides, the loop that redirects references, the order in which schemas are processed | invariant of the loop (old components dealt with, copies made, references moved) for any order of the hash tables, measure for its end; the refutations run the whole node cache on small schemas |
| C89 | AttrUse: the attributes that the interpreter collects for a complex type (own, of attribute groups, copied from the base) and the fields made of them | invariant of the list of attributes (one entry per identifier, every entry comes from a declaration) over the derivation of the type; the specification is the set of attribute uses of XML Schema part 1, 3.4.2; the refutations run the model |
| C90 | Subst: substitution groups and derived complex types, as the interpreter collects them, and the correction of the collected types | exact invariant over the processed prefix of the list of nodes (the shape of every identifier that belongs to it), the recursions over heads and bases are flattened to lists and compared with the transitive closure; then the correction as a loop over any order of the keys; refuted where XML Schema part 1 (3.3.6, 3.4) allows less |
| C91 | Step: the list of render steps of a configuration, when two entries exclude each other, and the calls that add steps | exact effect of one addition, invariants over chains of calls; refuted for the content helpers, whose arm is missing |
| C92 | Helper: the accessors that are generated for lists of alternatives, and the functions of the defaults step beside them | induction over the content; names of methods compared as strings; refuted for names that end in `_mut` or start with `default_` |
| C93 | Serde: which fields and variants the quick-xml serde renderer gives a complex type, and how serde and quick-xml fill them | per field: the entries of its key are one run of nodes; sequences and `all` groups bring each element's nodes together; converse direction from the runs back to the nodes; refuted by concrete valid documents |
| C94 | SimpleContent: which simple type the interpreter finds for the text of a complex type with simple content, its attributes, the field of the generated type | the facets of a content are those of a simple type, applied by a processor that is never fixed; induction over the derivation, then C81; refuted: restricted enumerations, named types inside a restriction, members of unions, mixed bases (panic, no field, no attributes) |
| C95 | Number: the Rust types of the numeric built-in types in each configuration, how they and booleans are read and written | numerals are read by Horner's scheme, the checked loop agrees with the unbounded one inside of the bounds; the valid texts are given by a separate grammar; refuted: large integers, signs, zero, words for booleans, infinity |
| C96 | AdvEnum: the values and constants generated for the variants of enumerations, with and without `with_advanced_enums`; how texts are matched and variants written | the first matching variant is the first with an equal value, by base type; printed byte literals are read back by a model of the lexer exactly for ASCII; refuted: other characters, infinity, integers, type definitions, simple types, names without prefix |
| C97 | NsConst: the modules made from namespaces, the identifiers and values of the constants for namespaces and prefixes, the results of the trait `WithNamespace` | the constants are a map over the namespaces; they compile exactly if the names differ in capitals; refuted: prefixes that differ in case or punctuation, prefixes like `unnamed3`, prefixes and URIs outside ASCII, names given by the user |
| C98 | Trait: the table of traits that dynamic types fill when they are asked for, and the traits generated types look up in it | invariant: the cache is the given types and the queue so far, each type saw a prefix of it that contains the first call; refuted: a derived type generated before its base is asked for, two calls, derived types of Rust, aliases |
| C99 | `QuadModel`: identifiers of the configuration, their resolution in the schemas and in the identifier cache, and the three uses (types not to generate, types to generate, dynamic types), on top of `ParserModel`, `CacheModel` and `RedefModel` | the schemas of every parser run are coherent (numbers, namespaces); what the cache is told are exactly the components and added types; then C37 |
| C100 | `TypeNameModel`: the names of the generated types, of their contents, traits and enumeration values, with both namings, postfixes and modules | names in pascal case are fixed points of the case conversion (simulation of the two conversions place by place); the added words can be split off in one way only; then every item names its type |
| C101 | `SerdeNameModel`: the serde names of fields and variants for quick-xml, serde-xml-rs 0.7 and 0.8, from the declared attributes and content | injectivity of the names on declared names (split at the colon, first characters), then no name twice in each generated type |
| C102 | `ResolverModel`: `ManyResolver`, `FileResolver`, `WebResolver` and the resolver of `exec_parser` | induction over the resolvers; at most one kind answers for an ordinary URL; composed with C39 for the parser |
| C103 | Scope: the wrapper over the deserializer interface of De | invariant of C09 at the event that yields the value, run lemma for the driver; refuted for texts and for equality |
| C104 | Reader: slice, stream and error readers over the items quick-xml yields, with position and buffer, and the reading loop | induction over the number of reads; refuted for end tags, for names inside a document and for memory |
| C105 | Printer: the debug printer for types with its state of visited types and indentation | the state comes back as it was; the visited types bound the depth; loops, titles and missing types by induction over paths; refuted for the size of the output |
| C106 | OptRun: the passes in the order in which the configuration runs them, for every set of flags | what each pass establishes is shown to survive the passes after it; the remembered type definitions as in C57; refuted by a tower of unions and by choices that differ in cardinality |
| C107 | Expr: paths with generic arguments and use declarations, the wrappers for mixed, nillable and any content, the replacement of crate names | the tokens are read by a small reader for Rust types and resolved by the rules for modules (C42) and use declarations (C48); refuted: two wrappers, renamed crates with absolute paths, types called like a wrapper, custom types of the own crate |
| C108 | Render: `Renderer::finish` as a loop over types and steps with the shared values; steps of the crate write what abstract functions of their settings give, steps of the user are arbitrary functions on the values they can name; traits of dynamic types and derived traits are lists of paths | invariant over the values (no settings are left, the collector is sound), induction over steps and types; refuted: derived traits that are not usable for `dyn`, serde steps, `Debug` derived twice |
| C109 | Anno: the extraction of documentation from the events that the serializer of `AnyElement` (C05) writes, and its lines in the generated code | trees of events, induction over trees for the level; lines by induction over the text; refuted: an element without content raises the level for ever, so the end tag of the documentation gets into it |
| C60, C61 | Box: generator work list, boxing | invariants of the work list, reachability, cycles of by-value edges |

## Trusted base

* Coq's kernel (8.16.1). `Print Assumptions` is run under every property theorem.
  The answer is "Closed under the global context" for every one of them: no axiom
  is used, not even one of the standard library.
* The reading of the Rust source, cited definition by definition.
* The modelled behaviour of external code, listed per area below. "Variable" means
  that the model takes the function as an argument and the theorems hold for every
  function (with the hypotheses the theorem states).

### Area by area: what is modelled, what is simplified, what is external

* **SerHelper** (`xsd-parser-types/src/quick_xml/serialize.rs`, helper part):
  scopes, `write_xmlns`, `push_namespaces`, prefixes. External: quick-xml's
  attribute push is an append to a list.
* **QName** (`xml/qname.rs`, `misc/raw_byte_str.rs`): splitting, equality, hash
  input, byte display. External: the derived `Hash` is the sequence of values fed
  to the hasher; UTF-8 validity is `Utf8.v`.
* **De** (`quick_xml/deserialize.rs`): driver, skipping, namespace resolver,
  error information. External: quick-xml events are data; its namespace resolver
  is a stack of declarations.
* **Element** (`xml/element.rs`, `xml/attributes.rs`, `xml/namespaces.rs`): values,
  both machines. External: the reader's events; well-formedness of input is the
  hypothesis "balanced".
* **Utf8, Text** (`quick_xml/deserialize.rs` content deserializer, `xml/text.rs`):
  External: quick-xml escape/unescape are explicit functions for the five named
  entities, character references are a variable `charref`.
* **Wrap** (`xml/nillable.rs`, `quick_xml/serialize.rs`: `IterSerializer`,
  `XsiTypeSerializer`, `WithSerializer` family): inner (de)serializers are
  arbitrary machines that meet a stated contract.
* **Bin** (`xml/hex_binary` and `base64_binary` parts): const_hex and base64
  STANDARD are explicit encoders and decoders.
* **List** (list (de)serialisation, `ContentDeserializer` bounds): white space
  splitting is explicit; item parsers are variables.
* **Facet** (`misc/` white space and digit facets): characters are code points;
  Unicode White_Space is an explicit set; regex `\s` and the decimal regex are
  explicit functions.
* **Map** (`xml/attributes.rs`, `xml/namespaces.rs`): `IndexMap` is its list of
  entries in order; the hash is a commutative sum of entry hashes (variable).
* **AnySimple** (`xml/any_simple_type.rs`): numbers are printed and parsed by
  variables `num_print`/`num_parse` with a stated round-trip law, integers through
  the standard library's `Decimal`.
* **Mixed** (`xml/mixed.rs`).
* **Occurs** (`xsd-parser-types/src/…/max_occurs`): `usize` limit is a parameter.
* **Path** (`xsd-parser/src/models/code/ident_path.rs`): `format_ident!` is a
  variable `ident_ok` (panics where it is false).
* **Ident, Meta** (`models/ident.rs`, `models/meta/*`): records one to one;
  annotations that take no part are left out as stated in the comments.
* **Dup, Opt, Union, Flat, Pass** (`pipeline/optimizer/*`): `BTreeMap` is a list of
  entries; `HashMap` lookups are searches; `usize` overflow is not modelled in Flat;
  children matched by a wildcard are named by the wildcard.
* **Cache** (`models/ident_cache.rs`): iteration order of hash maps is an argument.
* **Parser** (`pipeline/parser/*`, `models/schemas/*`): the resolver (pure) and the
  parsing of a document are variables; identifiers do not wrap; the order of
  alternative prefixes is an argument.
* **Box** (`pipeline/generator/*`): bit sets of identifiers are lists; the types
  mentioned by default values, facets and custom generators are a variable; errors
  of rendering values are not modelled; type paths are left out.
* **Name** (`models/naming/*`, `misc` identifier formatting): character classes and
  Inflector's case functions are variables; binary search is a search.
* **Node** (`pipeline/interpreter/state/create_node_cache.rs`, `create_node_list.rs`):
  schema components are reduced to their references; name resolution is a variable;
  redefinitions and overrides are in **Redef**; recursion is by fuel.
* **Content** (`…/generate_types/variant_processor.rs`,
  `fix_element_naming_conflicts.rs`): names and types are resolved; the name builder
  is two functions; a group definition has one compositor.
* **Mod** (`models/code/module.rs`): token streams with `::` as one token; maps in
  insertion order; directories are lists of plain names; errors of the file system
  are a variable.
* **Gen** (`renderer/steps/quick_xml/deserialize.rs`): the printed state machines as
  functions of the description of a type; `xsi:type` selection, attribute parsing
  (a variable) and the text buffers of mixed types are left out.
* **Doc** (`generator/data/complex.rs`): which machine each type of a closed schema gets;
  types are numbered, `xs:any`, mixed content and substitution groups are left out; the
  depth of nested elements is a fuel that every theorem quantifies over.
* **Dyn** (`renderer/steps/quick_xml/deserialize.rs` 170-557, `serialize.rs` 215-310, `quick_xml/deserialize.rs`
  966-1027): the entries of a dynamic type are data; the (de)serializers of their types are arbitrary machines, of
  which writing assumes that the first event is the tag; how a parent treats such an element is in Gen.
* **Write** (`renderer/steps/quick_xml/serialize.rs`, `models/data/tag_name.rs`): the
  printed serializers of the types of Doc and the namespaces their start tags declare;
  modules are identified with their namespaces; the attributes and texts of values are
  written by variables; trait objects of dynamic types are left out; the states passed
  without an event are bounded by a fuel.
* **Redef** (`interpreter/state/crate_node_cache.rs` 76-394, 750-855, 917-936, `state/crate_ident_cache.rs`): the
  identifier cache is the list of the calls made on it (model of C37/C38/C58); a schema document is reduced to its
  imports, includes, redefinitions, overrides and components, a component to its references (as in **Node**);
  `resolve_dependencies` with any choice of the next old component and any order of the visible ones.  Not modelled:
  the global namespaces, unresolvable schema locations (skipped by the code), chameleon includes, the error that is
  returned (an error is `None`).
* **AttrUse** (`interpreter/state/generate_types/variant_processor.rs` 341-419, 510-633, 729-743, 829-898, 943-1012,
  1229-1323, `update.rs` 45-52, `traits/vec_helper.rs` 37-50, `generator/data/complex.rs` 771-841): namespaces, types and
  attribute groups are numbers, a content is the list of its attributes, group references and wildcards, a schema its
  target namespace and form.  Not modelled: names of fields, documentation, the details of wildcards, the content of the type.
* **Subst** (`interpreter/state/generate_types/variant_processor.rs` 198-290, 385-427, 1337-1374, 1727-1775,
  `type_processor.rs` 48-88, 156-231, `generate_types.rs` 30-44, `fix_derived_types.rs`, `models/meta/types.rs` 191-226):
  names are numbers, references are resolved, a complex type is its base and whether it is abstract, a simple type has no
  structure.  The order of the nodes (bases and heads first) is a hypothesis; C45 is about the step that makes it.
  Not modelled: the content of types, documentation, types of elements that are made dynamic by the configuration.
* **Step** (`config/renderer.rs` 39-50, 140-380, `config/mod.rs` 214-353, `renderer/mod.rs` 297-324): the entries of the
  configuration are the variants of `RenderStep` and render steps that are used as their own configuration, told
  apart by their type ids. Both directions of `is_mutual_exclusive_to`, the loop of `retain` with its position and the
  assignment by index are modelled as they are. Left out: types that implement `RenderStepConfig` by hand, and the flags
  that some calls set besides. Which steps name the code of other steps (`needs` in StepSpec) was read off their code.
* **Helper** (`renderer/steps/content_helper.rs`, `renderer/steps/defaults.rs` 74-87): the names and bodies of the
  generated methods. That Rust rejects two methods of the same name is part of the model; paths of types are left out.
* **Serde** (`renderer/steps/serde/quick_xml.rs`, `serde/mod.rs` 18-30, parts of `generator/data/complex.rs`): fields and
  variants of structs, content types and enumerations. External and trusted: a small model of the two libraries - the
  keys quick-xml offers (`@` and the local name, the local name, `$text`, `$value`), that nodes with one key that follow
  each other make up one entry, and that derived structs take the first field of a name, reject a second entry, ignore
  other keys and fill missing fields by `default` or with `None`. quick-xml compares the full tag names of a list, so a
  document is taken to use one prefix per namespace. Which of several errors is reported, boxes, dynamic types, mixed
  content, wildcards, unions and the two `serde-xml-rs` renderers are left out.
* **SimpleContent** (`variant_processor.rs` 341-553, 588-632, 1015-1428 for complex types with simple content,
  `type_processor.rs` 98-154, `generator/data/complex.rs` 102-141): on top of SimpleModel. Not modelled: abstract
  and replaced bases (Subst), the uses of attributes (AttrUse), the names of the content types.
* **Number** (`interpreter/mod.rs` 186-306, 469-547, `lib.rs` 221-226, `quick_xml/deserialize.rs` 468-546,
  `serialize.rs` 201-247).  `FromStr` and `Display` of the integers, of the floating-point types and of the crate `num`
  are external; the model follows their documented behaviour, without the underscores that `num` reads between digits,
  and for floating-point types says only whether a text is read, not to which number it is rounded.  Whitespace around
  the texts is part of the text here; TextModel and SimpleModel say where it is removed.
* **AdvEnum** (`generator/data/enumeration.rs`, `generator/context.rs` 181-370, `misc/qname.rs`, `renderer/steps/enum_const.rs`,
  `renderer/steps/quick_xml/deserialize.rs` 628-783, `serialize.rs` 394-470): floating-point numbers are variables. How `proc_macro2`
  prints and reads literals, and that `quote!` panics for numbers that are not finite, is external and follows that crate's
  source as known; whether the code compiles is a check of the types of literals, of the presence of constants and of `PartialEq`.
  Facets, prohibited variants and the names of variants and constants are left out.
* **NsConst** (`renderer/steps/namespace_const.rs`, `prefix_const.rs`, `with_namespace_trait.rs`, `models/meta/types.rs` 150-190,
  `interpreter/state/prepare_modules.rs`, `models/schema/mod.rs` 45-63, 220-240): which constants are rendered, their identifiers and
  their bytes, and what the trait returns.  How Inflector writes a name in capitals and which texts `format_ident!` accepts are
  parameters of the theorems; the refutations use a transcription of Inflector 0.11 for ASCII texts.  Where the items end up in
  the generated modules is left out.
* **Trait** (`generator/mod.rs` 342-523, `state.rs` 64-133, `context.rs` 129-178, the order of requests and lookups in
  `generator/data/*.rs`, `renderer/steps/types.rs` 90-180): which types implement and extend which traits.  The types that a type asks
  for are those of Box.  That a type must implement the trait of each dynamic type it is boxed in, and only once, is Rust's rule.
* **Quad** (C99): `QuadModel` models `config/mod.rs` 666-1130 (`IdentQuadruple` with its conversions and `resolve`), the full `create_ident_cache` and the loops of `lib.rs` that use it. The content of a document is a parameter. Of the generator only the lookup of the type is modelled. The names of added types are assumed to belong to no schema or to one that was loaded.
* **TypeName** (C100): `TypeNameModel` models `make_type_name`, `format_type_name`, `format_type_ident` of both namings (`models/naming`), the module of a type (`ident_path.rs` 288-350) and the items that `steps/types.rs` and `serde_xml_rs_v8.rs` render for a type. `to_pascal_case` and `to_screaming_snake_case` of the crate Inflector are modelled for ASCII after its source and are trusted. The formatted names of modules are parameters. Names of items in the modules `quick_xml_serialize` and `quick_xml_deserialize` are not modelled.
* **SerdeName** (C101): `SerdeNameModel` models the values of `rename` of the three serde renderers, `TagName::get` and the choice of fields in `complex.rs`. That a derived type takes the first field of a name is a model of serde and trusted. Types and defaults of the fields, and wildcards, are not modelled.
* **Resolver** (C102): `ResolverModel` models `parser/resolver/*.rs` and lib.rs 129-147. Parsing and joining URLs, the files and the web are parameters; `Url::to_file_path` is modelled after its documentation (not on Windows, without percent encoding) and trusted, as is `Path::iter`. Files and web resources do not change while schemas are loaded.
* **Scope** (`xml/namespace_scope.rs`): the reading side, equality and access to the parts. Writing delegates to the wrapped value and is not modelled, nor are `Ord` and `Hash`, which like equality look at the value only. The wrapped deserializer is arbitrary, except that it changes the helper only by asking for the namespaces (`respects`).
* **Reader** (`quick_xml/reader/*.rs`, the calls in `deserialize.rs` that complete errors): what quick-xml yields for a call is given, as are the position and the number of bytes it appends to the buffer. Futures are modelled by their results; dropping one is not modelled.
* **Printer** (`meta_types_printer.rs`): identifiers are numbers, the texts of fields are opaque lines with their depth; the formatter does not fail. The number of nested calls is a parameter, and one more than the number of types is shown to be enough.
* **OptRun** (`exec_optimizer` in `lib.rs`, `config/optimizer.rs`): the passes are those of Opt, Union, Flat and Pass; a run that panics or does not end has no result; debug output is left out.
* **Expr** (`models/data/path_data.rs`, `generator/data/mod.rs`, parts of `generator/mod.rs`, `generator/data/complex.rs` `renderer/context.rs` and `renderer/mod.rs`): `<`, `,` and `>` are tokens of their own; use declarations are assumed to start at a crate.
* **Render** (`RenderModel/Spec/Proofs/Props`): `renderer/mod.rs` `Renderer::new` (default derive), `finish`, `context.rs` `Values` (set, unset, get_ref, get_or_create_with), set and unset of the settings in `serialize.rs` and `deserialize.rs`, `initialize` of the steps, `get_derive`, `get_dyn_type_traits`. Not modelled: the code a step writes (abstract functions here, modelled elsewhere), `RenderStep::finish` (see NsConst). Assumed: Rust privacy keeps steps of the user from the keys of the crate.
* **Anno** (`models/schema/xs.rs` `extract_documentation_into`, `renderer/steps/mod.rs` `render_docs`): `Writer::write_event` and the crate `unindent` are arbitrary functions; what is written is assumed to be UTF-8. The types made by `apply_element` are modelled only as far as their documentation. Not modelled: which other types, fields and variants documentation is attached to.
* **WriteDyn** (`renderer/steps/quick_xml/collect_namespaces.rs`, library `serialize.rs` 659-750): the printed
  functions that collect namespaces from a value, for the types of Doc; nillable types, dynamic types and references
  that are types of their own are left out.
* **Collect** (`renderer/steps/quick_xml/serialize.rs`, the collector of namespaces): maps
  are lists of their keys, an `Rc` is identified by the type that created it; the fuel is
  the number of types, and `C78_total` shows that it is enough.
* **Attr** (`generate_types/variant_processor.rs` 846-888, `generator/data/complex.rs`
  771-841, `renderer/steps/quick_xml/deserialize.rs` 1815-1913 and 2916-3028,
  `serialize.rs` 729-746, library `deserialize.rs` 725-892, `serialize.rs` 881-915): parsing
  and rendering of values of attribute types, character references and the check of UTF-8
  are variables; the state of the helpers other than the scope of namespaces is left out;
  that quick-xml reports repeated keys is modelled.  The merging of declarations with the
  same identifier is not modelled.

* **Simple** (`generate_types/variant_processor.rs` 319-338, 432-469, 1158-1215 and the
  facets, `models/data/mod.rs` 76-80, `generator/data/constrains.rs`, `generator/data/simple.rs`,
  `renderer/steps/mod.rs` 173-388, `renderer/steps/quick_xml/deserialize.rs` 89-168, 557-901,
  library `deserialize.rs` 752-767): the values of built-in types, their parsing, order and
  sizes and the regular expressions are variables, and the same functions are used by the
  specification: that Rust's `FromStr` and `regex` agree with XML Schema is trusted.  Texts
  are lists of characters.  `SimpleInst.v` is a small instance for the counterexamples.

* **SimpleWrite** (`renderer/steps/quick_xml/serialize.rs` 164-213, 314-537,
  `renderer/steps/mod.rs` 102-167, library `serialize.rs` 201-250): the generated
  `serialize_bytes` of unions, references, enumerations and restrictions, and the generated
  `new`.  `to_string` and `format!` of the built-in types are variables; `SimpleWriteInst.v` is
  an instance with decimals for the counterexamples.
* **Default** (`generator/context.rs` 181-370, `renderer/steps/defaults.rs` 73-87,
  `interpreter/mod.rs` 585-609, library `deserialize.rs` 468-478): the code that is generated
  for the default of an attribute, in mode `Value`, as an expression, and the value of this
  expression.  That `proc_macro2` panics for numbers that are not finite is taken from its
  documentation.  Enumerations with variants that have a type, and new types for references
  (`TypedefMode::NewType`), are not modelled.

* **Tag**: no code of its own; the expanded names of elements by Namespaces in XML, for the
  comparison of tags in Gen (library `deserialize.rs` 886-907).

## Not modelled

The token streams themselves (the models have what the rendered code does: which fields,
variants, accessors, readers and writers there are), the `serde-xml-rs` renderers except the names of fields (C101) and of enumeration values (C100),
the XSD object model produced by the bootstrapped schema deserializer,
the configuration apart from the flags of the optimizer (C106), the render steps (C91) and what single models take as parameters, logging, network access and the file
system apart from the names and contents of written module files.

## Wrong programs

`seeded/LOG.jsonl` records edits of the model that stand for realistic bugs, made in
a scratch copy and rebuilt. `theorems_failed` are the theorems that no longer prove;
where none failed although the claim was false, `theorems_tightened` names what was
changed.

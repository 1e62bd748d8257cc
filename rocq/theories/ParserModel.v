(** Loading schemas (xsd-parser/src/pipeline/parser/mod.rs, models/schema/mod.rs).

    Not modelled: reading the XML of a schema ([Schema::deserialize]) and the resolvers.  The
    resolver is a function from requests to answers (so: asking twice gives the same answer), and
    the parser of a schema document a function from its text to the parts of the schema that
    matter here.  Locations, namespaces and prefixes are strings.  [HashMap], [HashSet] and
    [BTreeMap] are lists of entries; the iteration order of the one [HashSet] that is iterated
    (the alternative prefixes) is a parameter.  Identifiers do not wrap around. *)
From Verif Require Export CacheModel.
From Coq Require Import NArith DecimalString.
Local Open Scope string_scope.

(** The children of <xs:schema> that refer to other documents (517-552); [COther] is the rest. *)
Inductive content :=
| CImport (loc : option string) (ns : option string)
| CInclude (loc : string)
| CRedefine (loc : string)
| COverride (loc : string)
| COther.

(** A schema document together with the [xmlns:] declarations collected by [SchemaReader]
    (569-618): for each namespace its prefixes in document order. *)
Record schema_doc := SchemaDoc {
  sd_target : option string;
  sd_content : list content;
  sd_xmlns : list (option string * list string);
  sd_rest : string }.

(** resolver/mod.rs 70-80 [ResolveRequestType], 50-67 [ResolveRequest]. *)
Inductive request_type := UserDefined | IncludeRequest | ImportRequest.
Record request := Request {
  rq_location : string; rq_ns : option string; rq_current : option string;
  rq_current_ns : option string; rq_type : request_type }.

(** 80-99 [ParserEntry]. *)
Record schema_entry := SchemaEntry {
  pe_id : nat; pe_name : option string; pe_schema : schema_doc; pe_location : option string;
  pe_target : option string; pe_deps : list (string * dependency) }.
Inductive parser_entry :=
| PEAnonymous
| PENamespace (prefix ns : string)
| PESchema (e : schema_entry).

(** 66-77 [Parser]. *)
Record parser := Parser {
  pa_cache : list (string * list nat);
  pa_entries : list parser_entry;
  pa_pending : list (nat * request);
  pa_next : nat;
  pa_includes : bool; pa_generate : bool; pa_alternative : bool }.

(** parser/error.rs: the errors of this file. *)
Inductive parse_error :=
| ResolverError | UnableToResolve (r : request) | XmlError (location : option string)
| MismatchingTargetNamespace (location found expected : string).

(** [Parser::new().with_resolver(r)], as in lib.rs [exec_parser] (136-156). *)
Definition parser_new : parser := Parser [] [] [] 0 true true true.

(** [HashMap<Url, _>] and [BTreeMap<String, _>]: lookup and overwriting insertion. *)
Fixpoint sput {V} (k : string) (v : V) (m : list (string * V)) : list (string * V) :=
  match m with
  | [] => [(k, v)]
  | (k', v') :: r => if String.eqb k k' then (k, v) :: r else (k', v') :: sput k v r
  end.

(** 848-869 [import_req], 871-888 [include_req]. *)
Definition import_req (loc : option string) (ns current_ns current : option string) : option request :=
  match loc with
  | Some l => Some (Request l ns current current_ns ImportRequest)
  | None => None
  end.
Definition include_req (loc : string) (current_ns current : option string) : request :=
  Request loc None current current_ns IncludeRequest.

(** The request made for a child of the schema, and the kind of dependency (517-552). *)
Definition content_req (current_ns current : option string) (c : content)
  : option (request * (nat -> dependency)) :=
  match c with
  | CImport l ns => match import_req l ns current_ns current with Some r => Some (r, DImport) | None => None end
  | CInclude l => Some (include_req l current_ns current, DInclude)
  | CRedefine l => Some (include_req l current_ns current, DRedefine)
  | COverride l => Some (include_req l current_ns current, DOverride)
  | COther => None
  end.

(** 515-555: the loop over the content: pending requests, next identifier, dependencies. *)
Fixpoint add_contents (current_ns current : option string) (cs : list content)
  (pending : list (nat * request)) (next : nat) (deps : list (string * dependency))
  : list (nat * request) * nat * list (string * dependency) :=
  match cs with
  | [] => (pending, next, deps)
  | c :: cs' =>
    match content_req current_ns current c with
    | None => add_contents current_ns current cs' pending next deps
    | Some (r, kind) =>
      add_contents current_ns current cs' (pending ++ [(next, r)]) (S next)
                   (sput (rq_location r) (kind next) deps)
    end
  end.

(** 502-567 [Parser::add_schema]. *)
Definition add_schema (p : parser) (id : nat) (name : option string) (d : schema_doc)
  (location : option string) : parser :=
  let '(pending, next, deps) :=
    if pa_includes p then add_contents (sd_target d) location (sd_content d) (pa_pending p) (pa_next p) []
    else (pa_pending p, pa_next p, []) in
  Parser (pa_cache p) (pa_entries p ++ [PESchema (SchemaEntry id name d location (sd_target d) deps)])
         pending next (pa_includes p) (pa_generate p) (pa_alternative p).

Definition with_cache (p : parser) c := Parser c (pa_entries p) (pa_pending p) (pa_next p) (pa_includes p) (pa_generate p) (pa_alternative p).
Definition with_pending (p : parser) q := Parser (pa_cache p) (pa_entries p) q (pa_next p) (pa_includes p) (pa_generate p) (pa_alternative p).
Definition with_next (p : parser) n := Parser (pa_cache p) (pa_entries p) (pa_pending p) n (pa_includes p) (pa_generate p) (pa_alternative p).
Definition with_entry (p : parser) e := Parser (pa_cache p) (pa_entries p ++ [e]) (pa_pending p) (pa_next p) (pa_includes p) (pa_generate p) (pa_alternative p).
Definition set_target (d : schema_doc) t := SchemaDoc t (sd_content d) (sd_xmlns d) (sd_rest d).

Section loading.
(** The resolver: the answer is an error, nothing, or a name, a location and the document text. *)
Variable resolver : request -> outcome unit (option (option string * string * string)).
(** Reading a schema document. *)
Variable parse : string -> option schema_doc.

(** 476-491: check or inherit the target namespace. *)
Definition apply_namespace (r : request) (location : string) (d : schema_doc) : outcome parse_error schema_doc :=
  match rq_current_ns r with
  | None => Ok d
  | Some current =>
    match sd_target d with
    | Some ns =>
      match rq_type r with
      | IncludeRequest => if String.eqb ns current then Ok d else Err (MismatchingTargetNamespace location ns current)
      | _ => Ok d
      end
    | None => Ok (set_target d (Some current))
    end
  end.

(** 448-500 [resolve_location]. *)
Definition resolve_location (p : parser) (id : nat) (r : request) : outcome parse_error parser :=
  match resolver r with
  | Panic => Panic
  | Err _ => Err ResolverError
  | Ok None => Err (UnableToResolve r)
  | Ok (Some (name, location, buffer)) =>
    match assoc location (pa_cache p) with
    | Some ids => Ok (with_cache p (sput location (set_add Nat.eq_dec id ids) (pa_cache p)))
    | None =>
      match parse buffer with
      | None => Err (XmlError (Some location))
      | Some d =>
        match apply_namespace r location d with
        | Ok d =>
          let p := add_schema p id name d (Some location) in
          Ok (with_cache p (sput location [id] (pa_cache p)))
        | Err e => Err e
        | Panic => Panic
        end
      end
    end
  end.

(** 439-445 [resolve_pending]; [None] if the queue is not empty after [fuel] requests. *)
Fixpoint resolve_pending (fuel : nat) (p : parser) : option (outcome parse_error parser) :=
  match pa_pending p with
  | [] => Some (Ok p)
  | (id, r) :: q =>
    match fuel with
    | 0 => None
    | S n =>
      match resolve_location (with_pending p q) id r with
      | Ok p' => resolve_pending n p'
      | Err e => Some (Err e)
      | Panic => Some Panic
      end
    end
  end.

(** The public functions of the parser: [with_namespace] 229-234, [with_anonymous_namespace]
    241-245, [add_(named_)schema_from_str/reader] 262-353, [add_schema_from_url] 411-419,
    [resolve_includes], [generate_prefixes], [alternative_prefixes] 159-181, and [with_resolver]
    136-156 (with the same resolver). *)
Inductive parser_op :=
| OpNamespace (prefix ns : string)
| OpAnonymous
| OpStr (name : option string) (text : string)
| OpUrl (url : string)
| OpIncludes (b : bool)
| OpGenerate (b : bool)
| OpAlternative (b : bool)
| OpResolver.

Definition parser_do (fuel : nat) (p : parser) (op : parser_op) : option (outcome parse_error parser) :=
  match op with
  | OpNamespace x n => Some (Ok (with_entry p (PENamespace x n)))
  | OpAnonymous => Some (Ok (with_entry p PEAnonymous))
  | OpStr name text =>
    match parse text with
    | None => Some (Err (XmlError None))
    | Some d => resolve_pending fuel (add_schema (with_next p (S (pa_next p))) (pa_next p) name d None)
    end
  | OpUrl url =>
    match resolve_location (with_next p (S (pa_next p))) (pa_next p) (Request url None None None UserDefined) with
    | Ok p' => resolve_pending fuel p'
    | Err e => Some (Err e)
    | Panic => Some Panic
    end
  | OpIncludes b => Some (Ok (Parser (pa_cache p) (pa_entries p) (pa_pending p) (pa_next p) b (pa_generate p) (pa_alternative p)))
  | OpGenerate b => Some (Ok (Parser (pa_cache p) (pa_entries p) (pa_pending p) (pa_next p) (pa_includes p) b (pa_alternative p)))
  | OpAlternative b => Some (Ok (Parser (pa_cache p) (pa_entries p) (pa_pending p) (pa_next p) (pa_includes p) (pa_generate p) b))
  | OpResolver => Some (Ok (Parser [] (pa_entries p) [] 0 true true true))
  end.

Fixpoint parser_run (fuel : nat) (ops : list parser_op) (p : parser) : option (outcome parse_error parser) :=
  match ops with
  | [] => Some (Ok p)
  | op :: ops' =>
    match parser_do fuel p op with
    | Some (Ok p') => parser_run fuel ops' p'
    | r => r
    end
  end.
End loading.

(** models/schema/mod.rs 65-83 [SchemaInfo], 45-63 [NamespaceInfo] (without the module name). *)
Record schema_info := SchemaInfo {
  si_name : option string; si_schema : schema_doc; si_location : option string;
  si_namespace : nat; si_dependencies : list (string * dependency) }.
Record ns_info := NsInfo { ni_prefix : option string; ni_namespace : option string; ni_schemas : list nat }.

(** models/schema/mod.rs 32-43 [Schemas]; [last_schema_id] is left out of the result: nothing reads
    it after the identifiers were given out. *)
Record schemas := Schemas {
  sm_schemas : list (nat * schema_info);
  sm_infos : list (nat * ns_info);
  sm_prefixes : list (string * nat);
  sm_namespaces : list (option string * nat);
  sm_last_namespace : nat }.

Definition schemas_new : schemas := Schemas [] [] [] [] 1.

(** [BTreeMap<NamespaceId, _>::insert] of a new key: the list is sorted by key. *)
Fixpoint binsert {V} (k : nat) (v : V) (m : list (nat * V)) : list (nat * V) :=
  match m with
  | [] => [(k, v)]
  | (k', v') :: r => if Nat.ltb k k' then (k, v) :: m else (k', v') :: binsert k v r
  end.

Definition opt_str_eqb (a b : option string) : bool :=
  match a, b with Some x, Some y => String.eqb x y | None, None => true | _, _ => false end.

(** Lookup of a namespace. *)
Fixpoint oassoc {V} (k : option string) (m : list (option string * V)) : option V :=
  match m with
  | [] => None
  | (k', v) :: r => if opt_str_eqb k k' then Some v else oassoc k r
  end.
Fixpoint oput {V} (k : option string) (v : V) (m : list (option string * V)) : list (option string * V) :=
  match m with
  | [] => [(k, v)]
  | (k', v') :: r => if opt_str_eqb k k' then (k', v) :: r else (k', v') :: oput k v r
  end.

(** [HashMap<TempSchemaId, SchemaId>::insert]. *)
Definition iput (k v : nat) (m : list (nat * nat)) : list (nat * nat) := upd k v (fun _ => v) m.

(** 653-673 [build_id_cache]; [n] is [last_schema_id]. *)
Fixpoint build_ids (locations : list (string * list nat)) (es : list parser_entry) (n : nat)
  (ids : list (nat * nat)) : list (nat * nat) :=
  match es with
  | [] => ids
  | PESchema e :: es' =>
    let ids := iput (pe_id e) (S n) ids in
    let alternatives :=
      match pe_location e with
      | Some l => match assoc l locations with Some a => a | None => [] end
      | None => []
      end in
    build_ids locations es' (S n) (fold_left (fun m a => iput a (S n) m) alternatives ids)
  | _ :: es' => build_ids locations es' n ids
  end.

(** 754-785 [get_or_create_namespace_info_mut]: the identifier and the new state. *)
Definition get_ns (s : schemas) (ns : option string) : outcome unit (nat * schemas) :=
  match oassoc ns (sm_namespaces s) with
  | Some id => match get id (sm_infos s) with Some _ => Ok (id, s) | None => Panic end
  | None =>
    let '(id, last) := match ns with
                       | None => (1, sm_last_namespace s)
                       | Some _ => (S (sm_last_namespace s), S (sm_last_namespace s))
                       end in
    match get id (sm_infos s) with
    | Some _ => Panic
    | None => Ok (id, Schemas (sm_schemas s) (binsert id (NsInfo None ns []) (sm_infos s)) (sm_prefixes s)
                              (oput ns id (sm_namespaces s)) last)
    end
  end.

Definition push_schema (id : nat) (i : ns_info) : ns_info := NsInfo (ni_prefix i) (ni_namespace i) (ni_schemas i ++ [id]).

Definition dep_map (d : dependency) (id : nat) : dependency :=
  match d with DInclude _ => DInclude id | DImport _ => DImport id | DOverride _ => DOverride id | DRedefine _ => DRedefine id end.

(** 734-740: the dependencies whose schema is known, with its final identifier. *)
Definition map_deps (ids : list (nat * nat)) (deps : list (string * dependency)) : list (string * dependency) :=
  flat_map (fun ld => match get (dep_id (snd ld)) ids with
                      | Some id => [(fst ld, dep_map (snd ld) id)]
                      | None => []
                      end) deps.

(** 718-752 [SchemasBuilder::add_schema]. *)
Definition build_schema (ids : list (nat * nat)) (s : schemas) (e : schema_entry) : outcome unit schemas :=
  match get (pe_id e) ids with
  | None => Panic
  | Some id =>
    match get_ns s (pe_target e) with
    | Ok (ns, s) =>
      match get id (sm_schemas s) with
      | Some _ => Panic
      | None =>
        Ok (Schemas (binsert id (SchemaInfo (pe_name e) (pe_schema e) (pe_location e) ns (map_deps ids (pe_deps e))) (sm_schemas s))
                    (alter ns (push_schema id) (sm_infos s)) (sm_prefixes s) (sm_namespaces s) (sm_last_namespace s))
      end
    | Err e => Err e
    | Panic => Panic
    end
  end.

(** 626-647: the loop over the entries. *)
Fixpoint build_entries (ids : list (nat * nat)) (s : schemas) (es : list parser_entry) : outcome unit schemas :=
  match es with
  | [] => Ok s
  | e :: es' =>
    match (match e with
           | PEAnonymous => match get_ns s None with Ok (_, s) => Ok s | Err e => Err e | Panic => Panic end
           | PENamespace _ ns => match get_ns s (Some ns) with Ok (_, s) => Ok s | Err e => Err e | Panic => Panic end
           | PESchema e => build_schema ids s e
           end) with
    | Ok s => build_entries ids s es'
    | Err e => Err e
    | Panic => Panic
    end
  end.

(** 113-117 [PrefixEntry]. *)
Record prefix_entry := PrefixEntry { px_prefix : option string; px_alt : list string }.

Definition px_update (ns : option string) (f : prefix_entry -> prefix_entry)
  (m : list (option string * prefix_entry)) : list (option string * prefix_entry) :=
  oput ns (f (match oassoc ns m with Some e => e | None => PrefixEntry None [] end)) m.

Definition px_add_alt (x : string) (e : prefix_entry) : prefix_entry :=
  PrefixEntry (px_prefix e) (set_add string_dec x (px_alt e)).

(** 690-702: the prefix a schema declares for its own namespace. *)
Definition px_main (x : option string) (e : prefix_entry) : prefix_entry :=
  match px_prefix e with
  | None => PrefixEntry x (px_alt e)
  | Some _ => match x with Some x => px_add_alt x e | None => e end
  end.

(** 675-716 [build_prefix_cache]. *)
Definition prefix_step (m : list (option string * prefix_entry)) (e : parser_entry) : list (option string * prefix_entry) :=
  match e with
  | PEAnonymous => px_update None (fun e => e) m
  | PENamespace x ns => px_update (Some ns) (fun e => PrefixEntry (Some x) (px_alt e)) m
  | PESchema e =>
    let own := match oassoc (pe_target e) (sd_xmlns (pe_schema e)) with Some (x :: _) => Some x | _ => None end in
    fold_left (fun m nx => fold_left (fun m x => px_update (fst nx) (px_add_alt x) m) (snd nx) m)
              (sd_xmlns (pe_schema e)) (px_update (pe_target e) (px_main own) m)
  end.
Definition build_prefixes (es : list parser_entry) : list (option string * prefix_entry) :=
  fold_left prefix_step es [].

Definition set_prefix (x : string) (i : ns_info) : ns_info := NsInfo (Some x) (ni_namespace i) (ni_schemas i).

(** 806-811, and 796-799 for a single candidate: every candidate that is still free is taken; the
    last one becomes the prefix. *)
Fixpoint take_prefixes (cands : list string) (id : nat) (i : ns_info) (known : list (string * nat))
  : ns_info * list (string * nat) :=
  match cands with
  | [] => (i, known)
  | x :: cands' =>
    match assoc x known with
    | None => take_prefixes cands' id (set_prefix x i) (sput x id known)
    | Some _ => take_prefixes cands' id i known
    end
  end.

(** One of the three loops of 787-845 over the namespaces; [choose] is the body for a namespace
    without prefix, [None] is the failing [unwrap]. *)
Fixpoint prefix_loop (choose : nat -> prefix_entry -> ns_info -> list (string * nat) -> ns_info * list (string * nat))
  (px : list (option string * prefix_entry)) (infos : list (nat * ns_info)) (known : list (string * nat))
  : option (list (nat * ns_info) * list (string * nat)) :=
  match infos with
  | [] => Some ([], known)
  | (id, i) :: r =>
    match ni_prefix i with
    | Some _ =>
      match prefix_loop choose px r known with
      | Some (r', known') => Some ((id, i) :: r', known')
      | None => None
      end
    | None =>
      match oassoc (ni_namespace i) px with
      | None => None
      | Some e =>
        let '(i', known1) := choose id e i known in
        match prefix_loop choose px r known1 with
        | Some (r', known') => Some ((id, i') :: r', known')
        | None => None
        end
      end
    end
  end.

(** The decimal form of an identifier ([format!("_{}", id.0)], 829). *)
Definition show (n : nat) : string := NilZero.string_of_uint (N.to_uint (N.of_nat n)).

Section prefixes.
(** The iteration order of the alternative prefixes. *)
Variable order : list string -> list string.

(** 789-801. *)
Definition choose_main (id : nat) (e : prefix_entry) (i : ns_info) (known : list (string * nat)) :=
  take_prefixes (match px_prefix e with Some x => [x] | None => [] end) id i known.
(** 804-818. *)
Definition choose_alt (id : nat) (e : prefix_entry) (i : ns_info) (known : list (string * nat)) :=
  take_prefixes (order (px_alt e)) id i known.
(** 821-843. *)
Definition choose_generated (id : nat) (e : prefix_entry) (i : ns_info) (known : list (string * nat)) :=
  match (match px_prefix e with Some x => Some x | None => hd_error (order (px_alt e)) end) with
  | Some x => let p := (x ++ "_" ++ show id)%string in (set_prefix p i, sput p id known)
  | None => (i, known)
  end.

(** 787-845 [determine_prefixes]. *)
Definition determine_prefixes (generate alternative : bool) (px : list (option string * prefix_entry))
  (s : schemas) : outcome unit schemas :=
  match prefix_loop choose_main px (sm_infos s) (sm_prefixes s) with
  | None => Panic
  | Some (i1, k1) =>
    match (if alternative then prefix_loop choose_alt px i1 k1 else Some (i1, k1)) with
    | None => Panic
    | Some (i2, k2) =>
      match (if generate then prefix_loop choose_generated px i2 k2 else Some (i2, k2)) with
      | None => Panic
      | Some (i3, k3) => Ok (Schemas (sm_schemas s) i3 k3 (sm_namespaces s) (sm_last_namespace s))
      end
    end
  end.

(** 185-199 [finish], 622-651 [build]. *)
Definition parser_finish (p : parser) : outcome unit schemas :=
  let ids := build_ids (pa_cache p) (pa_entries p) 0 [] in
  let px := build_prefixes (pa_entries p) in
  match build_entries ids schemas_new (pa_entries p) with
  | Ok s => determine_prefixes (pa_generate p) (pa_alternative p) px s
  | Err e => Err e
  | Panic => Panic
  end.
End prefixes.

(** models/schema/mod.rs 181-194 [resolve_prefix], [resolve_namespace]. *)
Definition resolve_prefix (s : schemas) (x : string) : option nat := assoc x (sm_prefixes s).
Definition resolve_namespace (s : schemas) (ns : option string) : option nat := oassoc ns (sm_namespaces s).

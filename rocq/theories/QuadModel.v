(** Types named in the configuration (xsd-parser/src/config/mod.rs 666-1130, lib.rs 214-235 and
    354-426, pipeline/interpreter/state/crate_ident_cache.rs 35-133).

    The schemas are the result of the parser ([ParserModel.schemas]).  What a document declares is
    a parameter, a function [comps] from the document to its content ([RedefModel.content]).
    Schema locations are strings. *)
From Verif Require Export ParserModel.
From Verif Require NodeModel RedefModel SerHelperModel.
Local Open Scope string_scope.

(** config/mod.rs 963-975 [NamespaceIdent], 1031-1040 [SchemaIdent], 682-694 [IdentQuadruple]. *)
Inductive ns_ident := NAnonymous | NId (n : nat) | NPrefix (p : string) | NNamespace (u : string).
Inductive schema_ident := SId (k : nat) | SName (n : string) | SLocation (l : string).
Record quadruple := Quad {
  q_ns : option ns_ident; q_schema : option schema_ident; q_name : string; q_type : ident_type }.

(** config/mod.rs 844-853 [From<TypeIdent>]; [String::from(Name)] forgets whether the name was
    generated. *)
Definition quad_of_ident (t : tident) : quadruple :=
  Quad (Some (NId (ti_ns t))) (Some (SId (ti_schema t))) (name_str (ti_name t)) (ti_type t).

(** config/mod.rs 855-875 [From<(IdentType, X)>]. *)
Definition quad_of_str (t : ident_type) (x : string) : quadruple :=
  match SerHelperModel.split_colon x with
  | Some (p, n) => Quad (Some (NPrefix p)) None n t
  | None => Quad None None x t
  end.

(** interpreter/error.rs: the errors of [IdentQuadruple::resolve]. *)
Inductive quad_error := NoAnonymous | UnknownPrefix (p : string) | UnknownNamespace (u : string).

(** config/mod.rs 795-813. *)
Definition quad_ns (s : schemas) (n : option ns_ident) : outcome quad_error nat :=
  match n with
  | None | Some NAnonymous => match resolve_namespace s None with Some k => Ok k | None => Err NoAnonymous end
  | Some (NId k) => Ok k
  | Some (NPrefix p) => match resolve_prefix s p with Some k => Ok k | None => Err (UnknownPrefix p) end
  | Some (NNamespace u) => match resolve_namespace s (Some u) with Some k => Ok k | None => Err (UnknownNamespace u) end
  end.

Section contents.
Variable comps : schema_doc -> list RedefModel.content.

(** config/mod.rs 1103-1114: whether a child of the schema declares the type. *)
Definition declares (t : ident_type) (name : string) (c : RedefModel.content) : bool :=
  match c with
  | RedefModel.CComponent (k, n, _) =>
    match t, k with
    | ITElement, NodeModel.NElement => String.eqb n name
    | ITType, NodeModel.NSimpleType => String.eqb n name
    | ITType, NodeModel.NComplexType => String.eqb n name
    | _, _ => false
    end
  | _ => false
  end.

(** config/mod.rs 1093-1121 [Schemas::resolve_schema]. *)
Fixpoint first_declaring (s : schemas) (t : ident_type) (name : string) (l : list nat) : option nat :=
  match l with
  | [] => None
  | k :: r =>
    match get k (sm_schemas s) with
    | None => first_declaring s t name r
    | Some i => if existsb (declares t name) (comps (si_schema i)) then Some k else first_declaring s t name r
    end
  end.
Definition resolve_schema (s : schemas) (ns : nat) (name : string) (t : ident_type) : option nat :=
  match get ns (sm_infos s) with
  | None => None
  | Some i => first_declaring s t name (ni_schemas i)
  end.

(** [schemas().find(..).map_or(UNKNOWN, ..)] (829-836). *)
Definition find_schema (s : schemas) (f : schema_info -> bool) : nat :=
  match find (fun x => f (snd x)) (sm_schemas s) with Some x => fst x | None => id_unknown end.

(** config/mod.rs 816-837. *)
Definition quad_schema (s : schemas) (ns : nat) (q : quadruple) : nat :=
  match q_schema q with
  | None =>
    match (match get ns (sm_infos s) with
           | Some i => match ni_schemas i with [k] => Some k | _ => None end
           | None => None
           end) with
    | Some k => k
    | None => match resolve_schema s ns (q_name q) (q_type q) with Some k => k | None => id_unknown end
    end
  | Some (SId k) => k
  | Some (SName n) => find_schema s (fun i => opt_str_eqb (si_name i) (Some n))
  | Some (SLocation l) => find_schema s (fun i => opt_str_eqb (si_location i) (Some l))
  end.

(** config/mod.rs 784-846 [IdentQuadruple::resolve]. *)
Definition quad_resolve (s : schemas) (q : quadruple) : outcome quad_error tident :=
  match quad_ns s (q_ns q) with
  | Ok ns => Ok (TIdent ns (quad_schema s ns q) (Named (q_name q)) (q_type q))
  | Err e => Err e
  | Panic => Panic
  end.

(** misc/namespace.rs: the namespaces that are searched for every schema. *)
Definition global_uri (u : option string) : bool :=
  match u with
  | Some x => (String.eqb x "http://www.w3.org/XML/1998/namespace" || String.eqb x "http://www.w3.org/2001/XMLSchema"
               || String.eqb x "http://www.w3.org/2001/XMLSchema-instance")%bool
  | None => false
  end.

(** crate_ident_cache.rs 36-45. *)
Definition namespace_ops (x : nat * ns_info) : list cache_op :=
  (map (OpSchema (fst x)) (ni_schemas (snd x)) ++ (if global_uri (ni_namespace (snd x)) then [OpGlobal (fst x)] else []))%list.
Definition doc_of (x : nat * schema_info) : RedefModel.doc :=
  RedefModel.Doc (fst x) (si_namespace (snd x)) (map snd (si_dependencies (snd x))) (comps (si_schema (snd x))).

(** crate_ident_cache.rs 35-133, followed by the types that the user and the interpreter add
    (state.rs 126-151). *)
Definition cache_history (s : schemas) (added : list tident) : list cache_op :=
  (flat_map namespace_ops (sm_infos s) ++ RedefModel.create_ident_cache (map doc_of (sm_schemas s)) ++ map OpInsert added)%list.

(** lib.rs: the errors of the two steps. *)
Inductive config_error := EQuad (e : quad_error) | ECache (e : cache_error) | EGenerator (t : tident).

(** lib.rs 401-408: the types the generator must not generate ([config.types]). *)
Definition config_type (o : order) (s : schemas) (added : list tident) (q : quadruple) : outcome config_error tident :=
  match quad_resolve s q with
  | Ok t => match cache_resolve o (cache_run (cache_history s added)) t with
            | Ok r => Ok r | Err e => Err (ECache e) | Panic => Panic end
  | Err e => Err (EQuad e)
  | Panic => Panic
  end.

(** lib.rs 414-420: the types to generate; [known] are the types the generator knows, those of
    the interpreter and those given to it before.  Simplification: only the first step of the
    generator, looking the type up (state.rs [get_or_create_type_ref_mut]). *)
Fixpoint config_generate (s : schemas) (known : list tident) (qs : list quadruple) : outcome config_error (list tident) :=
  match qs with
  | [] => Ok []
  | q :: r =>
    match quad_resolve s q with
    | Ok t => if is_left (in_dec tident_eq_dec t known)
              then match config_generate s known r with Ok l => Ok (t :: l) | Err e => Err e | Panic => Panic end
              else Err (EGenerator t)
    | Err e => Err (EQuad e)
    | Panic => Panic
    end
  end.

(** lib.rs 227-230: the set of dynamic types (state.rs 153-159), as a list. *)
Fixpoint config_dynamic (s : schemas) (qs : list quadruple) : outcome config_error (list tident) :=
  match qs with
  | [] => Ok []
  | q :: r =>
    match quad_resolve s q with
    | Ok t => match config_dynamic s r with Ok l => Ok (t :: l) | Err e => Err e | Panic => Panic end
    | Err e => Err (EQuad e)
    | Panic => Panic
    end
  end.
(** type_processor.rs 264-266 [is_dynamic]. *)
Definition is_dynamic (dynamic : list tident) (t : tident) : bool := is_left (in_dec tident_eq_dec t dynamic).
End contents.

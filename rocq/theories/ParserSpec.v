(** What loading a set of schemas should achieve. *)
From Verif Require Export ParserModel CacheSpec.
Local Open Scope string_scope.

(** The schemas loaded by the parser, in order. *)
Fixpoint loaded (es : list parser_entry) : list schema_entry :=
  match es with
  | [] => []
  | PESchema e :: r => e :: loaded r
  | _ :: r => loaded r
  end.

(** The locations the schemas were loaded from. *)
Fixpoint locations (es : list schema_entry) : list string :=
  match es with
  | [] => []
  | e :: r => match pe_location e with Some l => l :: locations r | None => locations r end
  end.

(** The child [c] of the schema refers to another document by a request of this kind. *)
Definition refers (e : schema_entry) (c : content) (r : request) (kind : nat -> dependency) : Prop :=
  In c (sd_content (pe_schema e)) /\ content_req (pe_target e) (pe_location e) c = Some (r, kind).

(** The resolver answers the request with the location [l]. *)
Definition answers (resolver : request -> outcome unit (option (option string * string * string)))
  (r : request) (l : string) : Prop := exists name text, resolver r = Ok (Some (name, l, text)).

(** The operations keep the resolver, and (second definition) also keep loading referenced schemas. *)
Definition keeps_resolver (ops : list parser_op) : Prop := ~ In OpResolver ops.
Definition always_includes (ops : list parser_op) : Prop := ~ In (OpIncludes false) ops.

(** The namespaces mentioned by the entries. *)
Definition mentions (es : list parser_entry) (ns : option string) : Prop :=
  (ns = None /\ In PEAnonymous es) \/
  (exists x n, ns = Some n /\ In (PENamespace x n) es) \/
  (exists e, In e (loaded es) /\ pe_target e = ns).

(** The schemas numbered from 1 in the order they were loaded. *)
Definition numbered (es : list parser_entry) (id : nat) (e : schema_entry) : Prop :=
  exists k, id = S k /\ nth_error (loaded es) k = Some e.

(** The prefixes the user or a schema declares for a namespace, and all declared prefixes. *)
Definition declared_for (es : list parser_entry) (ns : option string) (x : string) : Prop :=
  (exists n, ns = Some n /\ In (PENamespace x n) es) \/
  (exists e xs, In e (loaded es) /\ In (ns, xs) (sd_xmlns (pe_schema e)) /\ In x xs).
Definition declared (es : list parser_entry) (x : string) : Prop := exists ns, declared_for es ns x.

(** [x] ends in an underscore and a number. *)
Definition numbered_prefix (x : string) : Prop := exists y n, x = (y ++ "_" ++ show n)%string.

(** Where a loaded schema got its namespace: its own, or that of the schema asking for it. *)
Definition namespace_from (own : option string) (r : request) (target : option string) : Prop :=
  match own with
  | Some n => target = Some n /\ (rq_type r = IncludeRequest -> forall c, rq_current_ns r = Some c -> c = n)
  | None => target = rq_current_ns r
  end.

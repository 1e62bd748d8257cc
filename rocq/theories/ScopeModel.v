(** Model of the wrapper that keeps the namespaces of a value
    (xsd-parser-types/src/xml/namespace_scope.rs). *)
From Verif Require Export DeModel.

(** namespace_scope.rs 24-30 [struct NamespaceScope]. *)
Record scoped (T : Type) := Scoped { s_inner : T; s_ns : nsmap }.
Arguments Scoped {T} _ _.
Arguments s_inner {T} _.
Arguments s_ns {T} _.

(** namespace_scope.rs 48-55 [PartialEq::eq]; [Ord], [PartialOrd] and [Hash]
    (57-80) look at the inner value only as well. *)
Definition scoped_eqb {T} (eqb : T -> T -> bool) (a b : scoped T) : bool :=
  eqb (s_inner a) (s_inner b).

(** namespace_scope.rs 82-92 [into_inner], [into_parts]. *)
Definition into_inner {T} (s : scoped T) : T := s_inner s.
Definition into_parts {T} (s : scoped T) : T * nsmap := (s_inner s, s_ns s).

(** namespace_scope.rs 103-126 [deserialize_bytes], [deserialize_str] (the same
    body twice). *)
Definition scope_bytes {T} (parse : dhelper -> bytes -> outcome kind (T * dhelper))
    (h : dhelper) (raw : bytes) : outcome kind (scoped T * dhelper) :=
  match parse h raw with
  | Ok (t, h1) => let (m, h2) := namespaces h1 in Ok (Scoped t m, h2)
  | Err k => Err k
  | Panic => Panic
  end.

(** namespace_scope.rs 172-201 [map_output].  The deserializer of the wrapper
    holds nothing but the inner one (156-163), so both have the same type here. *)
Definition map_output {T D} (h : dhelper) (o : dout T D) : dout (scoped T) D * dhelper :=
  match o_art o with
  | ANone => (DOut ANone (o_ev o) (o_any o), h)
  | AData t => let (m, h') := namespaces h in (DOut (AData (Scoped t m)) (o_ev o) (o_any o), h')
  | ADes d => (DOut (ADes d) (o_ev o) (o_any o), h)
  end.

(** namespace_scope.rs 209-216 [init], 218-226 [next]: the common tail. *)
Definition scope_result {T D} (r : dresult T D) : dresult (scoped T) D :=
  match r with
  | Ok (o, h) => Ok (map_output h o)
  | Err k => Err k
  | Panic => Panic
  end.

(** namespace_scope.rs 228-235 [finish]. *)
Definition scope_finish {T D} (des : deser T D) (d : D) (h : dhelper) : outcome kind (scoped T * dhelper) :=
  match de_finish des d h with
  | Ok (t, h1) => let (m, h2) := namespaces h1 in Ok (Scoped t m, h2)
  | Err k => Err k
  | Panic => Panic
  end.

(** namespace_scope.rs 204-236 [impl Deserializer for NamespaceScopeDeserializer]. *)
Definition scope_des {T D} (des : deser T D) : deser (scoped T) D :=
  Deser (fun h e => scope_result (de_init des h e))
        (fun d h e => scope_result (de_next des d h e))
        (scope_finish des).

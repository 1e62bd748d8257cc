(** The documentation of a schema and the documentation of the generated code
    (xsd-parser/src/models/schema/xs.rs [Annotation::extract_documentation_into],
    xsd-parser/src/pipeline/renderer/steps/mod.rs [render_docs]). *)
From Verif Require Export Base FacetModel SerHelperModel ElementModel.

(** xs.rs 97-116: whether an event is written, with the level it was found at and the one
    behind it. *)
Definition doc_event (level : nat) (e : event) : nat * bool :=
  match e with
  | EStart _ _ | EEmpty _ _ => (S level, Nat.ltb 0 level)
  | EEnd _ => (level - 1, Nat.ltb 0 (level - 1))
  | _ => (level, Nat.ltb 0 level)
  end.

Fixpoint doc_events (level : nat) (evs : list event) : list event :=
  match evs with
  | [] => []
  | e :: evs' =>
      let (level', w) := doc_event level e in
      (if w then [e] else []) ++ doc_events level' evs'
  end.

(** [str::trim_end]. *)
Definition str_trim_end (s : str) : str := rev (str_trim_start (rev s)).

(** xs_generated.rs 215-218 [AnnotationContent]. *)
Inductive anno_content := AnnDocumentation (e : element) | AnnAppinfo (e : element).

Section Docs.
  (** Whether bytes are UTF-8, what [quick_xml::Writer::write_event] writes for an event,
      and [unindent] of the crate with this name. *)
  Variable utf8_ok : bytes -> bool.
  Variable write_event : event -> str.
  Variable unindent : str -> str.

  (** xs.rs 119-124. *)
  Definition push_doc (docs : list str) (buffer : str) : list str :=
    match buffer with
    | [] => docs
    | _ => docs ++ [str_trim_end (unindent buffer)]
    end.

  (** xs.rs 82-128 [extract_documentation_into]: the documentation so far and whether there
      was no error.  Simplifications: what is written is UTF-8; [None] if the fuel is
      used up or for a panic, which C05 excludes. *)
  Fixpoint extract_docs (fuel : nat) (l : list anno_content) (docs : list str) : option (list str * bool) :=
    match l with
    | [] => Some (docs, true)
    | AnnAppinfo _ :: l' => extract_docs fuel l' docs
    | AnnDocumentation e :: l' =>
        match element_ser_run utf8_ok fuel None e helper_default with
        | SRDone evs _ => extract_docs fuel l' (push_doc docs (flat_map write_event (doc_events 0 evs)))
        | SRErr _ _ => Some (docs, false)
        | _ => None
        end
    end.
End Docs.

(** [str::split] at line breaks. *)
Fixpoint split_lines (cur : str) (s : str) : list str :=
  match s with
  | [] => [rev cur]
  | c :: s' => if N.eqb c 10 then rev cur :: split_lines [] s' else split_lines (c :: cur) s'
  end.

(** steps/mod.rs 49-59 [render_docs]: the texts of the [doc] attributes. *)
Definition render_docs (enabled : bool) (docs : list str) : option (list str) :=
  if enabled then Some (map str_trim_end (flat_map (split_lines []) docs)) else None.

(** The types that are made for a global element; models/ident.rs [IdentType]. *)
Inductive made_type := MadeNillable | MadeSubstitution | MadeElement.

(** variant_processor.rs 178-199 [finish_mut] and [reset]: the documentation goes with the
    type that is finished. *)
Definition finish_mut (k : made_type) (s : list (made_type * list str) * list str) : list (made_type * list str) * list str :=
  (fst s ++ [(k, snd s)], []).

(** variant_processor.rs 259-288 [apply_element] and 166-176 [finish].  Simplification: only
    the documentation of the types. *)
Definition element_docs (extract nillable substitution : bool) (docs : list str) : list (made_type * list str) :=
  let s := ([], if extract then docs else []) in
  let s := if nillable then finish_mut MadeNillable s else s in
  let s := if substitution then finish_mut MadeSubstitution s else s in
  fst (finish_mut MadeElement s).

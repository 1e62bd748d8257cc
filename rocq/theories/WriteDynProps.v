(** C87: namespaces collected from the value that is written. *)
From Coq Require Import Lia.
From Verif Require Import Utf8 WriteModel WriteDynModel DocSpec GenSpec TextSpec WriteSpec WriteDynSpec TagSpec TextProofs WriteDynProofs
  WriteDynNsProofs GenProps DocProps WriteProps WriteBackProps.
Local Open Scope string_scope.
Local Open Scope list_scope.

(** What is collected are the namespaces of the complex types of all elements in the value
    and of the attributes of these types, as far as they have a prefix. *)
Theorem C87_collected : forall (T A : Type) ff (no_attrs : A) cfg env (ok : nat -> val T A -> Prop) n ty v x,
  (forall ty, attributed_type (env ty) = false -> wc_attr_ns cfg ty = []) ->
  typed ff no_attrs env ok n ty v ->
  (In x (collect ff cfg env ty v) <->
   exists ty' v', in_element ff no_attrs env ty v ty' v' /\ env ty' <> TSimple /\ type_namespace cfg ty' x).
Proof. intros. eapply collected; eassumption. Qed.
Print Assumptions C87_collected.

(** The value of a valid document is written with these declarations on the root, and is
    read again, if elements of complex types are in the namespaces of their types and
    elements of simple types are in the namespace of the type around them. *)
Theorem C87_read_again_partial : forall (T A : Type) blank ff (no_attrs : A) attrs_of
    (parse : nat -> dhelper -> bytes -> outcome kind (T * dhelper)) charref (env : nat -> tdef)
    cfg write_attrs to_bytes known n m ty name h0 evs0 v h0',
  (forall ty, tame_type (T:=T) ff no_attrs (env ty) = true) -> (forall ty, readable_type (env ty)) ->
  wc_mode cfg = NsDynamic ->
  (forall ns p, wc_prefix cfg ns = Some p -> split_colon p = None) ->
  (forall p ns, known p = Some ns -> prefix_ok p /\ namespace_ok ns) ->
  (forall ty x, type_namespace cfg ty x -> known (fst x) = Some (snd x)) ->
  (forall w ty1 root nm ns, placed env (field_tag cfg) (ty, name) w ty1 root nm -> env ty1 <> TSimple ->
     wc_type_ns cfg ty1 = Some ns ->
     wc_type_qualified cfg ty1 = true /\ (wc_prefix cfg ns = None -> known (prefix_in nm) = Some ns)) ->
  (forall ty0 l ty1, declared env ty0 l ty1 -> split_colon (snd l) = None /\
     forall ns, fst l = Some ns -> wc_element_qualified cfg (Some ns) (snd l) = true /\
       match used_prefix cfg ns with
       | Some _ => let t := match env ty1 with TSimple => ty0 | _ => ty1 end in
                   wc_type_ns cfg t = Some ns /\ wc_type_qualified cfg t = true
       | None => True
       end) ->
  (forall ty, attributed_type (env ty) = false -> wc_attr_ns cfg ty = []) ->
  attrs_again env write_attrs attrs_of (type_namespace cfg) -> texts_again to_bytes parse ->
  valid blank ff no_attrs attrs_of parse charref env n ty h0 evs0 v h0' -> n <= m ->
  exists evs,
    (exists F, forall fuel calls, F <= fuel -> length evs < calls ->
       serialize ff env (field_tag cfg) (open_tag cfg (collect ff cfg env) write_attrs) (close_tag cfg) to_bytes
         fuel calls ty name v helper_default = SRDone evs helper_default) /\
    driver_run (type_deser ff no_attrs attrs_of parse charref utf8_valid env m ty) blank driver_new evs = RDone v [].
Proof. intros. eapply dynamic_again; eassumption. Qed.
Print Assumptions C87_read_again_partial.

(** The root element of a type whose elements are not qualified: its namespace is declared
    for the name with which it is written. *)
Theorem C87_root_declared : forall (T A : Type) cfg (collect : nat -> val T A -> list (option bytes * bytes)) write_attrs
    ty name v attrs h1 ns,
  wc_mode cfg = NsGlobal \/ wc_mode cfg = NsDynamic ->
  wc_type_ns cfg ty = Some ns -> wc_type_qualified cfg ty = false -> prefix_in name <> Some "" ->
  open_tag cfg collect write_attrs ty true name v helper_default = (Ok attrs, h1) ->
  exists rest, attrs = (xmlns_key (prefix_in name), ns) :: rest.
Proof. intros. eapply root_declared; eassumption. Qed.
Print Assumptions C87_root_declared.

(** The shelf of C77: both namespaces are declared on the root. *)
Notation dyn_serialize cfg env := (serialize flat env (field_tag cfg) (open_tag cfg (collect flat cfg env) no_write) (close_tag cfg) plain_text).
Notation dyn_config := (shelf_config NsDynamic).
Example C87_shelf :
  dyn_serialize dyn_config shelf_env 20 20 0 "a:shelf" shelf_value helper_default = SRDone shelf_global helper_default /\
  exists evs,
    (exists F, forall fuel calls, F <= fuel -> length evs < calls ->
       dyn_serialize dyn_config shelf_env fuel calls 0 "a:shelf" shelf_value helper_default = SRDone evs helper_default) /\
    shelf_read evs = RDone shelf_value [].
Proof.
  split; [vm_compute; reflexivity|]. destruct shelf_input_valid as [h' V].
  eapply (C87_read_again_partial bytes unit ex_blank flat tt attrs_any words_parse (fun _ => None) shelf_env dyn_config no_write plain_text
    shelf_known 3 3 0 "a:shelf" _ _ _ _ C77_shelf_tame shelf_readable); try reflexivity.
  - apply shelf_colon.
  - apply shelf_known_ok.
  - intros ty x (p & Ep & Ex & [[En _]|[]]). destruct x as [q ns]. cbn [fst snd] in *. subst q. rewrite <- Ep.
    destruct ty as [|[|ty]]; cbn in En; try discriminate En; injection En as <-; reflexivity.
  - intros w ty1 root nm ns _ _ _. split; [reflexivity|]. cbn. destruct (String.eqb ns "urn:a"); discriminate.
  - intros ty0 l ty D. apply shelf_declared in D as [(-> & -> & ->)|(-> & -> & ->)]; cbn; (split; [reflexivity|]);
      intros ns K; injection K as <-; (split; [reflexivity|split; reflexivity]).
  - apply any_again.
  - exact words_again.
  - exact V.
Qed.

(** A shelf with any number of books: without books only its own namespace is declared. *)
Definition books_env (ty : nat) : tdef :=
  match ty with
  | 0 => TComplex false 1 (Bounded 1) CSequence [PElement 0 Unbounded (Some "urn:b") "book" 1]
  | 1 => TComplex false 1 (Bounded 1) CSequence [PElement 1 (Bounded 1) (Some "urn:b") "title" 2]
  | _ => TSimple
  end.
Definition book_value : val bytes unit := VStruct tt [[VText "t"]].
Example C87_books :
  typed flat tt books_env (fun _ _ => True) 3 0 (VStruct tt [[book_value; book_value]]) /\
  in_element flat tt books_env 0 (VStruct tt [[book_value; book_value]]) 1 book_value /\
  type_namespace dyn_config 1 (Some "b", "urn:b") /\
  collect flat dyn_config books_env 0 (VStruct tt [[book_value; book_value]]) = [(Some "a", "urn:a"); (Some "b", "urn:b"); (Some "b", "urn:b")] /\
  collect (T:=bytes) flat dyn_config books_env 0 (VStruct tt [[]]) = [(Some "a", "urn:a")] /\
  dyn_serialize dyn_config books_env 20 20 0 "a:shelf" (VStruct tt [[]]) helper_default =
    SRDone [EStart "a:shelf" [("xmlns:a", "urn:a")]; EEnd "a:shelf"] helper_default.
Proof.
  split; [cbn; repeat first [progress cbn|split|constructor|eexists]; try reflexivity; try lia|].
  split. { eapply in_child; [|apply in_itself]. split; [reflexivity|]. cbn. eapply (child_field _ _ _ _ _ 0); [reflexivity|reflexivity|left; reflexivity|constructor]. }
  split. { exists "b". split; [reflexivity|]. split; [reflexivity|]. left. split; reflexivity. }
  split; [reflexivity|split; [reflexivity|vm_compute; reflexivity]].
Qed.

(** ** Where it fails *)

(** The full statement, for one configuration. *)
Definition dynamic_round_trip_for (cfg : wconfig) (env : nat -> tdef) (name : bytes) : Prop :=
  wc_mode cfg = NsDynamic ->
  forall n m ty evs0 v h', words_valid env n ty dhelper_default evs0 v h' -> n <= m ->
  exists evs,
    (exists F, forall fuel calls, F <= fuel -> length evs < calls ->
       dyn_serialize cfg env fuel calls ty name v helper_default = SRDone evs helper_default) /\
    driver_run (type_deser flat tt attrs_any words_parse (fun _ => None) utf8_valid env m ty) ex_blank driver_new evs = RDone v [].

(** The namespace of an element of a simple type is not collected. *)
Theorem C87_simple_refuted : ~ dynamic_round_trip_for dyn_config title_env "a:shelf".
Proof.
  intros R. assert (V : exists h', words_valid title_env 2 0 dhelper_default
    (EStart "shelf" [] :: ex_el "title" "t" ++ [EEnd "shelf"]) (VStruct tt [[VText "t"]]) h').
  { eexists. eapply (valid_one title_env 1 0 (Some "urn:b") "title" 1 "shelf"); [reflexivity|reflexivity| | |ends|reflexivity].
    - exists "t". split; [reflexivity|]. text_parts.
    - do 3 eexists. repeat split; reflexivity. }
  destruct V as [h' V]. destruct (R eq_refl 2 2 0 _ _ h' V (le_n 2)) as [evs [[F S] D]]. run_it S.
  injection S as <-. vm_compute in D. discriminate D.
Qed.
Print Assumptions C87_simple_refuted.

(** Nor is the namespace of an element whose type is in another one. *)
Definition other_types_config : wconfig :=
  WConfig NsDynamic None (wc_prefix (shelf_config NsLocal)) (fun _ _ => true) (fun _ => Some "urn:a") (fun _ => true) (fun _ => []) (fun _ => []).
Theorem C87_type_namespace_refuted : ~ dynamic_round_trip_for other_types_config shelf_env "a:shelf".
Proof.
  intros R. destruct shelf_input_valid as [h' V]. destruct (R eq_refl 3 3 0 _ _ h' V (le_n 3)) as [evs [[F S] D]]. run_it S.
  injection S as <-. vm_compute in D. discriminate D.
Qed.
Print Assumptions C87_type_namespace_refuted.

(** The default namespace is not declared: the book, an element of [urn:b], is written in
    no namespace. *)
Definition default_config : wconfig :=
  WConfig NsDynamic (Some "urn:b") (wc_prefix dyn_config) (fun _ _ => true) (wc_type_ns dyn_config) (fun _ => true) (fun _ => []) (fun _ => []).
Theorem C87_default_refuted : exists root attrs book attrs' rest,
  dyn_serialize default_config shelf_env 20 20 0 "a:shelf" shelf_value helper_default =
    SRDone (EStart root attrs :: EStart book attrs' :: rest) helper_default /\
  declared shelf_env 0 (Some "urn:b", "book") 1 /\ book = field_tag default_config (Some "urn:b") "book" /\
  expanded [(root, attrs); (book, attrs')] book (None, "book") /\
  ~ expanded [(root, attrs); (book, attrs')] book (Some "urn:b", "book").
Proof.
  do 5 eexists. split; [vm_compute; reflexivity|]. split; [left; reflexivity|]. split; [reflexivity|].
  split.
  - right. split; [|reflexivity]. intros ns [E _]. vm_compute in E. discriminate E.
  - intros [[ns [[E _] _]]|[_ E]]; [vm_compute in E|]; discriminate E.
Qed.
Print Assumptions C87_default_refuted.

(** It is declared as the default namespace if the name has no prefix.  Then the elements
    in it, which are not qualified, are written in this namespace instead of none. *)
Definition unqualified_config : wconfig :=
  WConfig NsDynamic None (wc_prefix dyn_config) (fun _ _ => false) (fun _ => Some "urn:b") (fun _ => false) (fun _ => []) (fun _ => []).
Example C87_root_case : forall name, In name ["shelf"; "b:shelf"] -> exists attrs h1,
  open_tag unqualified_config (collect flat unqualified_config shelf_env) no_write 0 true name shelf_value helper_default = (Ok attrs, h1) /\
  attrs = [(if String.eqb name "shelf" then "xmlns" else "xmlns:b", "urn:b")].
Proof. intros name [<-|[<-|[]]]; do 2 eexists; (split; [vm_compute; reflexivity|reflexivity]). Qed.
Theorem C87_unqualified_refuted : exists root attrs book attrs' rest,
  dyn_serialize unqualified_config shelf_env 20 20 0 "shelf" shelf_value helper_default =
    SRDone (EStart root attrs :: EStart book attrs' :: rest) helper_default /\
  declared shelf_env 0 (Some "urn:b", "book") 1 /\ book = field_tag unqualified_config (Some "urn:b") "book" /\
  wc_element_qualified unqualified_config (Some "urn:b") "book" = false /\
  expanded [(root, attrs); (book, attrs')] book (Some "urn:b", "book") /\
  ~ expanded [(root, attrs); (book, attrs')] book (None, "book").
Proof.
  do 5 eexists. split; [vm_compute; reflexivity|]. split; [left; reflexivity|]. split; [reflexivity|]. split; [reflexivity|].
  split.
  - left. exists "urn:b". split; [|reflexivity]. split; [reflexivity|discriminate].
  - intros [[ns [_ E]]|[Nb _]]; [discriminate E|]. apply (Nb "urn:b"). split; [reflexivity|discriminate].
Qed.
Print Assumptions C87_unqualified_refuted.

(** The namespaces of attributes are declared although the value has no such attribute. *)
Definition attribute_env (ty : nat) : tdef := TComplex true 1 (Bounded 0) CSequence [].
Definition attribute_config : wconfig :=
  WConfig NsDynamic None (wc_prefix dyn_config) (fun _ _ => true) (fun _ => Some "urn:a") (fun _ => true) (fun _ => ["urn:b"]) (fun _ => []).
Theorem C87_needed_refuted : exists name attrs,
  dyn_serialize attribute_config attribute_env 20 20 0 "a:shelf" (VStruct tt []) helper_default =
    SRDone [EEmpty name attrs] helper_default /\
  In ("xmlns:b", "urn:b") attrs /\ prefix_in name <> Some "b" /\
  Forall (fun a => prefix_in (fst a) <> Some "b") attrs.
Proof.
  do 2 eexists. split; [vm_compute; reflexivity|]. split; [right; left; reflexivity|]. split; [discriminate|].
  repeat constructor; discriminate.
Qed.
Print Assumptions C87_needed_refuted.

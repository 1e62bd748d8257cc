(** Independent specification for wrapped serializers. *)
From Verif Require Import DeModel DeSpec ElementModel ElementSpec SerHelperSpec WrapModel.
Local Open Scope string_scope.

(** A serializer seen from outside: the events it writes until it is finished,
    or until its first error. *)
Section Emits.
  Context {S : Type} (next : S -> helper -> option (outcome kind event) * S * helper).
  Inductive emits : S -> helper -> list event -> helper -> Prop :=
  | em_end s h s' h' : next s h = (None, s', h') -> emits s h [] h'
  | em_step s h e s1 h1 evs h' : next s h = (Some (Ok e), s1, h1) -> emits s1 h1 evs h' -> emits s h (e :: evs) h'.
  Inductive emits_err : S -> helper -> list event -> kind -> Prop :=
  | ee_end s h s' h' k : next s h = (Some (Err k), s', h') -> emits_err s h [] k
  | ee_step s h e s1 h1 evs k : next s h = (Some (Ok e), s1, h1) -> emits_err s1 h1 evs k -> emits_err s h (e :: evs) k.

  (** The same, but other code may change the helper between the calls; [ops] is
      the list of helper calls the serializer itself makes in each step. *)
  Inductive produces : S -> list (event * list hop) -> list hop -> Prop :=
  | pr_end s h s' ops : next s h = (None, s', hrun h ops) -> produces s [] ops
  | pr_step s h e s1 ops evs last : next s h = (Some (Ok e), s1, hrun h ops) -> produces s1 evs last ->
      produces s ((e, ops) :: evs) last.

  (** Every step only uses the helper through its public methods. *)
  Definition uses_helper : Prop := forall s h r s' h', next s h = (r, s', h') -> exists ops, h' = hrun h ops.
End Emits.

(** Items written one after the other. *)
Section Items.
  Context {I S : Type} (mk : I -> outcome kind S) (next : S -> helper -> option (outcome kind event) * S * helper).
  Inductive items_written : list I -> helper -> list event -> helper -> Prop :=
  | iw_nil h : items_written [] h [] h
  | iw_cons x xs s h e1 h1 e2 h2 : mk x = Ok s -> emits next s h e1 h1 ->
      items_written xs h1 e2 h2 -> items_written (x :: xs) h (e1 ++ e2) h2.
  (** ... up to the first item that fails: its events before the error are
      written, later items are not touched. *)
  Inductive items_failed : list I -> helper -> list event -> kind -> Prop :=
  | if_new x xs h k : mk x = Err k -> items_failed (x :: xs) h [] k
  | if_item x xs s h e1 k : mk x = Ok s -> emits_err next s h e1 k -> items_failed (x :: xs) h e1 k
  | if_later x xs s h e1 h1 e2 k : mk x = Ok s -> emits next s h e1 h1 ->
      items_failed xs h1 e2 k -> items_failed (x :: xs) h (e1 ++ e2) k.
End Items.

(** Attributes of a tag whose element name was replaced: the old name is given
    as xsi:type, everything except the xsi:type and xmlns:xsi attributes is
    kept in order, and xmlns:xsi may be declared. *)
Definition retyped (n : bytes) (a a' : list attr) : Prop :=
  exists d, (d = [] \/ d = [("xmlns:xsi", XSI_NS)]) /\
    a' = (d ++ ("xsi:type", n) ::
          filter (fun x => negb (String.eqb (fst x) "xsi:type" || String.eqb (fst x) "xmlns:xsi")) a)%list.

(** [t'] is [t] with the outermost tag renamed to [name]. *)
Inductive renamed (name : bytes) : xtree -> xtree -> Prop :=
| rn_same t : root_name t = Some name -> renamed name t t
| rn_empty n a a' : n <> name -> retyped n a a' -> renamed name (XEmpty n a) (XEmpty name a')
| rn_elem n a a' kids : n <> name -> retyped n a a' -> renamed name (XElem n a kids) (XElem name a' kids).

(** Every tag that carries an xsi:nil or xsi:type attribute has the prefix xsi
    bound to the XML Schema instance namespace. *)
Definition xsi_bound_at (els : list (bytes * list attr)) : Prop := bound (Some "xsi") XSI_NS els.
Definition uses_xsi (a : list attr) : Prop := In "xsi:nil" (map fst a) \/ In "xsi:type" (map fst a).
Definition xsi_declared (els : list (bytes * list attr)) (evs : list event) : Prop :=
  forall pre e post n a, evs = (pre ++ e :: post)%list -> e = EStart n a \/ e = EEmpty n a ->
    uses_xsi a -> xsi_bound_at (els ++ open_elements pre ++ [(n, a)]).

(** All helper calls of the steps. *)
Definition step_ops (l : list (event * list hop)) : list hop := concat (map snd l).

(** The attributes of the outermost tag. *)
Definition root_attrs (t : xtree) : list attr := match t with XLeaf _ => [] | XEmpty _ a | XElem _ a _ => a end.

(** ** Nillable *)
Section NillableSpec.
  Context {T D : Type} (des : deser T D) (tb : bytes -> option bool).

  Definition tag_attrs (e : event) : option (list attr) :=
    match e with EStart _ a | EEmpty _ a => Some a | _ => None end.

  (** The attribute is [nil], in the namespace of XML Schema instances or without prefix, and
      has one of the values for true. *)
  Definition says_nil (r : resolver) (a : attr) : Prop :=
    (dh_resolve r (fst a) true = (RBound XSI_NS, "nil") \/ dh_resolve r (fst a) true = (RUnbound, "nil")) /\
    nil_true (snd a) = true.

  (** When the wrapped deserializer is asked to start on a tag, that tag does not
      say nil; on other events it does not start. *)
  Definition start_ok (v : driver D) (e : event) : Prop :=
    v_des v = None -> forall h e', dh_event (v_helper v) e = Some h -> snd (handle_skip (v_skip v) e) = Some e' ->
      match tag_attrs e' with
      | Some a => NoDup (map fst a) /\ ~ Exists (says_nil (d_res h)) a
      | None => de_init des h e' = Ok (DOut ANone (DContinue e') false, h)
      end.
  Fixpoint starts_ok (v : driver D) (evs : list event) : Prop :=
    match evs with
    | [] => True
    | e :: evs' => start_ok v e /\
        match driver_step des tb v e with
        | Ok (None, v') => starts_ok v' evs'
        | _ => True
        end
    end.

  Definition lift_driver (v : driver D) : driver (ndes D) := Driver (v_helper v) (option_map NInner (v_des v)) (v_skip v).
  Definition lift_result (r : run_result) : @run_result (option T) (ndes D) :=
    match r with
    | RDone t rest => RDone (Some t) rest
    | RErr k => RErr k
    | RPanic => RPanic
    | RMore v => RMore (lift_driver v)
    end.

  (** The part between the tags of a nil element: only markup that the driver
      ignores and white space. *)
  Definition blank_event (e : event) : bool :=
    match e with
    | EText t => match tb t with Some true => true | _ => false end
    | EComment _ | EPI _ | ERef _ | EDecl _ | EDocType _ => true
    | _ => false
    end.
End NillableSpec.

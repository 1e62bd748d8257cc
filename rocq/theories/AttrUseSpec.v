(** The attribute uses of complex types (XML Schema, part 1, 3.4.2 and 3.6.2). *)
From Verif Require Import Base.
From Verif Require Import AttrUseModel.

Section Spec.
  Variables (groups : nat -> option agroup) (types : nat -> option ctype).

  (** What a content declares, itself or through attribute groups, with the schema in which it
      is declared. *)
  Inductive in_content : home -> list acontent -> home * adecl -> Prop :=
  | in_here h l d : In (CAttr d) l -> in_content h l (h, d)
  | in_group h l g gr x : In (CGroup g) l -> groups g = Some gr -> in_content (g_home gr) (g_content gr) x -> in_content h l x.
  Inductive any_content : list acontent -> Prop :=
  | any_here l : In CAny l -> any_content l
  | any_group l g gr : In (CGroup g) l -> groups g = Some gr -> any_content (g_content gr) -> any_content l.

  (** The expanded name of the attribute in a document. *)
  Definition expanded (x : home * adecl) : option nat * string :=
    match d_name (snd x) with
    | NRef ns n => (Some ns, n)
    | NLocal n =>
        (if match d_form (snd x) with Some f => f | None => h_form (fst x) end then Some (h_ns (fst x)) else None, n)
    end.
  Definition use_of (x : home * adecl) : field :=
    Field (expanded x) (d_type (snd x)) (match d_use (snd x) with URequired => true | _ => false end) (d_default (snd x)).
  Definition allowed (x : home * adecl) : Prop := d_use (snd x) <> UProhibited.

  (** The attributes of a type: its own and those of its base, for a restriction only those that it does not
      declare or prohibit. *)
  Inductive has_use : nat -> field -> Prop :=
  | has_own t ty x : types t = Some ty -> in_content (t_home ty) (t_content ty) x -> allowed x -> has_use t (use_of x)
  | has_extended t ty b u : types t = Some ty -> t_base ty = BExtension b -> has_use b u -> has_use t u
  | has_restricted t ty b u : types t = Some ty -> t_base ty = BRestriction b -> has_use b u ->
      (forall x, in_content (t_home ty) (t_content ty) x -> expanded x <> f_name u) -> has_use t u.
  (** A type admits other attributes if it says so; an extension also if its base does. *)
  Inductive has_any : nat -> Prop :=
  | any_own t ty : types t = Some ty -> any_content (t_content ty) -> has_any t
  | any_extended t ty b : types t = Some ty -> t_base ty = BExtension b -> has_any b -> has_any t.

  (** The type and those it is derived from, and what they declare. *)
  Inductive ancestor : nat -> nat -> Prop :=
  | ancestor_self t : ancestor t t
  | ancestor_base t ty b a : types t = Some ty -> t_base ty = BExtension b \/ t_base ty = BRestriction b -> ancestor b a -> ancestor t a.
  Definition declared (t : nat) (x : home * adecl) : Prop :=
    exists a ty, ancestor t a /\ types a = Some ty /\ in_content (t_home ty) (t_content ty) x.

  (** The components that are mentioned exist, and neither types nor groups contain themselves. *)
  Record well_founded (rank_t rank_g : nat -> nat) : Prop := {
    wf_base : forall t ty b, types t = Some ty -> t_base ty = BExtension b \/ t_base ty = BRestriction b ->
      types b <> None /\ rank_t b < rank_t t;
    wf_type : forall t ty g, types t = Some ty -> In (CGroup g) (t_content ty) -> groups g <> None;
    wf_group : forall g gr g', groups g = Some gr -> In (CGroup g') (g_content gr) -> groups g' <> None /\ rank_g g' < rank_g g;
  }.

  (** What a type declares has one declaration for a name; an extension does not declare what its base has. *)
  Definition valid (t : nat) : Prop := forall a ty, ancestor t a -> types a = Some ty ->
    (forall x y, in_content (t_home ty) (t_content ty) x -> in_content (t_home ty) (t_content ty) y -> expanded x = expanded y -> x = y) /\
    (forall b x u, t_base ty = BExtension b -> in_content (t_home ty) (t_content ty) x -> has_use b u -> expanded x <> f_name u).

  (** ** The restrictions of the code *)
  (** References to attributes are in schemas with qualified attributes; attribute groups are in the
      schema of the type that uses them. *)
  Definition in_one_schema (t : nat) : Prop := forall a ty x, ancestor t a -> types a = Some ty ->
    in_content (t_home ty) (t_content ty) x ->
    fst x = t_home ty /\ match d_name (snd x) with NRef _ _ => match d_form (snd x) with Some f => f | None => h_form (fst x) end = true | NLocal _ => True end.
  (** Declarations have the same name, up to the form, if they have the same expanded name. *)
  Definition names_clear (t : nat) : Prop := forall x y, declared t x -> declared t y ->
    (ident_of (h_ns (fst x)) (snd x) = ident_of (h_ns (fst y)) (snd y) <-> expanded x = expanded y).
  (** An attribute that is declared again has the type and the default that it had, and only such ones are prohibited. *)
  Definition declared_alike (t : nat) : Prop :=
    (forall x y, declared t x -> declared t y -> expanded x = expanded y -> allowed x -> allowed y ->
      d_type (snd x) = d_type (snd y) /\ d_default (snd x) = d_default (snd y)) /\
    (forall a ty x, ancestor t a -> types a = Some ty -> in_content (t_home ty) (t_content ty) x -> ~ allowed x ->
      d_default (snd x) = None /\
      exists b y, (t_base ty = BExtension b \/ t_base ty = BRestriction b) /\ declared b y /\ allowed y /\ expanded y = expanded x).
  (** A restriction of a type that admits other attributes admits them too. *)
  Definition wildcards_kept (t : nat) : Prop := forall a ty b, ancestor t a -> types a = Some ty ->
    t_base ty = BRestriction b -> has_any b -> any_content (t_content ty).
End Spec.

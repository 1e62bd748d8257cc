(** The elements of a document and the elements of a value, counted by name.  Independent
    of how the generated deserializers work. *)
From Verif Require Import DocModel.
Local Open Scope list_scope.

Definition total (l : list nat) : nat := fold_right Nat.add 0 l.

(** The tags that begin an element with the local name [x]. *)
Definition begins (x : bytes) (e : event) : nat :=
  match e with
  | EStart n _ | EEmpty n _ => if String.eqb (local_name n) x then 1 else 0
  | _ => 0
  end.
Definition tags_named (x : bytes) (evs : list event) : nat := total (map (begins x) evs).

Section Value.
  Context {T A : Type}.
  Notation val := (val T A).
  Variable ff : flat_flags.
  Variable x : bytes.

  (** [type ty v]: how many elements named [x] there are inside an element with the value
      [v] of type [ty]. *)
  Section Particles.
    Variable type : nat -> val -> nat.

    (** A value of a group: the fields of a struct belong to the particles in order, an
        enum is the value of one of them.  [named] has a function for every particle. *)
    Definition fields_named (named : list (val -> nat)) (fields : list (list val)) : nat :=
      total (map (fun nf => total (map (fst nf) (snd nf))) (combine named fields)).
    Definition group_named (named : list (val -> nat)) (v : val) : nat :=
      match v with
      | VStruct _ fields => fields_named named fields
      | VEnum i vals => total (map (nth i named (fun _ => 0)) vals)
      | _ => 0
      end.
    (** A value that is a struct around values. *)
    Definition inside (count : val -> nat) (v : val) : nat :=
      match v with VStruct _ [vals] => total (map count vals) | _ => 0 end.

    (** A value of a particle. *)
    Fixpoint particle_named (p : particle) (v : val) : nat :=
      match p with
      | PElement _ _ _ name ty => (if String.eqb name x then 1 else 0) + type ty v
      | PGroup _ _ c ps =>
          if flat_for ff c then group_named (map particle_named ps) v
          else inside (group_named (map particle_named ps)) v
      end.
  End Particles.

  Variable env : nat -> tdef.

  (** The content of a type is part of it if it occurs exactly once and flattening is
      asked for, except for a choice in a type with attributes. *)
  Definition merged (attributed : bool) (min : nat) (max : max_occurs) (c : compositor) : bool :=
    match min, max with 1, Bounded 1 => true | _, _ => false end &&
    flat_for ff c && negb (is_choice c && attributed).

  Fixpoint elements_named (n : nat) (ty : nat) (v : val) : nat :=
    match n with
    | 0 => 0
    | S n' =>
        match env ty with
        | TSimple | TSimpleContent => 0
        | TComplex attributed min max c ps =>
            let content := group_named (map (particle_named (elements_named n')) ps) in
            if merged attributed min max c then content v else inside content v
        end
    end.
End Value.

(** What follows the start tag of the root element. *)
Fixpoint after_root (evs : list event) : list event :=
  match evs with
  | [] => []
  | e :: evs' => if is_tag e then evs' else after_root evs'
  end.

(** No particle of the schema is an element with this name. *)
Fixpoint mentions (x : bytes) (p : particle) : bool :=
  match p with
  | PElement _ _ _ name _ => String.eqb name x
  | PGroup _ _ _ ps => existsb (mentions x) ps
  end.
Definition unknown_name (x : bytes) (env : nat -> tdef) : Prop :=
  forall ty, match env ty with TComplex _ _ _ _ ps => existsb (mentions x) ps = false | _ => True end.

(** Writing the values of simple types: the generated [serialize_bytes]
    (xsd-parser/src/pipeline/renderer/steps/quick_xml/serialize.rs), and building them: the
    generated [new] (xsd-parser/src/pipeline/renderer/steps/mod.rs 102-167).  The types and
    values are those of [SimpleModel]. *)
From Verif Require Export SimpleModel.

Section Write.
  (** [print]: [to_string] of the Rust types that stand for built-in types
      (xsd-parser-types/src/quick_xml/serialize.rs 201-250).  [print_fixed n]:
      [format!("{inner:.0n}")]. *)
  Context {atom : Type}.
  Variable parse : nat -> str -> option atom.
  Variable lt le : atom -> atom -> bool.
  Variable size : atom -> nat.
  Variable print : atom -> str.
  Variable print_fixed : nat -> atom -> str.

  Section Items.
    Variable item : value atom -> option str.
    (** serialize.rs (renderer) 350-361 and 501-512: the loop. *)
    Fixpoint write_loop (data : str) (l : list (value atom)) : str :=
      match l with
      | [] => data
      | v :: l' =>
          write_loop
            (match item v with
             | Some b => (match data with [] => [] | _ => data ++ [32%N] end) ++ b
             | None => data
             end) l'
      end.
    (** serialize.rs (renderer) 344-364 and 496-515. *)
    Definition write_list (l : list (value atom)) : option str :=
      match l with [] => None | _ => Some (write_loop [] l) end.
  End Items.

  (** serialize.rs (renderer) 164-213 [UnionData], 314-392 [ReferenceData], 396-472
      [EnumerationData], 474-537 [SimpleData].  [None]: nothing is written.
      Simplification: values of other types are not possible; here nothing is written for
      them, nor for a list with fraction digits (its code does not compile). *)
  Fixpoint write (m : smeta) (v : value atom) : option str :=
    match m with
    | MBuildIn _ => match v with VAtom a => Some (print a) | _ => None end
    | MRef ty false => write ty v
    | MRef ty true => match v with VList l => write_list (write ty) l | _ => None end
    | MSimple base l c =>
        match c_fraction c with
        | Some n => match v with VAtom a => Some (print_fixed n a) | _ => None end
        | None =>
            if l then match v with VList vs => write_list (write base) vs | _ => None end
            else write base v
        end
    | MEnum _ _ => match v with VEnum name => Some name | _ => None end
    | MUnion _ types =>
        match v with
        | VUnion i w =>
            (fix nth (i : nat) (l : list smeta) {struct l} : option str :=
               match l with
               | [] => None
               | m :: l' => match i with 0 => write m w | S i' => nth i' l' end
               end) i types
        | _ => None
        end
    end.

  (** xsd-parser-types/src/quick_xml/serialize.rs 320-345: if there is nothing to write,
      then an element is written as an empty tag; it is read as the empty text. *)
  Definition shown (o : option str) : str := match o with Some s => s | None => [] end.

  (** steps/mod.rs 128-135 [new]: the value of a restriction is checked when it is built.
      Values of built-in types are those that are read from some text; variants of
      enumerations and unions are constructors. *)
  Fixpoint builds (m : smeta) (v : value atom) : Prop :=
    match m with
    | MBuildIn b => exists a s, v = VAtom a /\ parse b s = Some a
    | MRef ty false => builds ty v
    | MRef ty true => exists l, v = VList l /\ Forall (builds ty) l
    | MSimple base l c =>
        (if l then exists vs, v = VList vs /\ Forall (builds base) vs else builds base v) /\
        validate_value parse lt le size base c v = Ok tt
    | MEnum _ names => exists name, v = VEnum name /\ In name names
    | MUnion _ types => exists i w, v = VUnion i w /\
        (fix nth (i : nat) (l : list smeta) {struct l} : Prop :=
           match l with
           | [] => False
           | m :: l' => match i with 0 => builds m w | S i' => nth i' l' end
           end) i types
    end.
End Write.

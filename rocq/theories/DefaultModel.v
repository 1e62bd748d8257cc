(** Default values of attributes: how the generator turns the text of a default into code
    (xsd-parser/src/pipeline/generator/context.rs 181-370 [make_value_renderer]), and what
    the generated [default_...] functions give
    (xsd-parser/src/pipeline/renderer/steps/defaults.rs 73-87).  The types and values are
    those of [SimpleModel]. *)
From Coq Require Import String Ascii.
From Verif Require Export SimpleModel.

Definition chars_of (s : string) : str := map N_of_ascii (list_ascii_of_string s).

(** models/meta/mod.rs [BuildInMeta], [CustomMeta], by the code that is generated for their
    values.  [CFromStr]: the types of [with_num_big_int_typedefs] and
    [with_nonzero_typedefs] (interpreter/mod.rs 464-547). *)
Inductive builtin_class := CInteger | CFloat | CBool | CString | CFromStr.

(** xsd-parser-types/src/quick_xml/deserialize.rs 468-478: reading a truth value. *)
Definition is_one_of (l : list string) (s : str) : bool :=
  if in_dec str_eq_dec s (map chars_of l) then true else false.
Definition read_bool (s : str) : option bool :=
  if is_one_of ["TRUE"; "True"; "true"; "YES"; "Yes"; "yes"; "1"]%string s then Some true
  else if is_one_of ["FALSE"; "False"; "false"; "NO"; "No"; "no"; "0"]%string s then Some false
  else None.

(** [to_ascii_lowercase]; generator/context.rs 227-233. *)
Definition ascii_lower (s : str) : str := map (fun c => if ((65 <=? c) && (c <=? 90))%N then (c + 32)%N else c) s.
Definition make_bool (s : str) : option bool :=
  if is_one_of ["true"; "yes"; "1"]%string (ascii_lower s) then Some true
  else if is_one_of ["false"; "no"; "0"]%string (ascii_lower s) then Some false
  else None.

Inductive gerror := InvalidDefaultValue.

Section Default.
  (** [parse]: [FromStr] of the Rust types that stand for the built-in types.
      [finite]: [is_finite] of floating point numbers.  [truth]: truth values. *)
  Context {atom : Type}.
  Variable class : nat -> builtin_class.
  Variable parse : nat -> str -> option atom.
  Variable finite : atom -> bool.
  Variable truth : bool -> atom.

  (** The expressions that are generated: constants, [<T as FromStr>::from_str(s).unwrap()]
      (interpreter/mod.rs 585-609), an empty vector, variants.  Simplification: new-type
      structures are left out, as in [SimpleModel]. *)
  Inductive dexpr :=
  | DConst (a : atom)
  | DFromStr (b : nat) (s : str)
  | DEmpty
  | DEnum (name : str)
  | DVariant (i : nat) (e : dexpr).

  (** generator/context.rs 181-370, with [ValueGeneratorMode::Value].  [quote!] panics for
      floating point numbers that are not finite ([proc_macro2::Literal::f64_suffixed]).
      The constraints and the occurrence of a [SimpleType] are not looked at. *)
  Fixpoint make_value (m : smeta) (t : str) : outcome gerror dexpr :=
    match m with
    | MBuildIn b =>
        match class b with
        | CInteger | CString => match parse b t with Some a => Ok (DConst a) | None => Err InvalidDefaultValue end
        | CFloat =>
            match parse b t with
            | Some a => if finite a then Ok (DConst a) else Panic
            | None => Err InvalidDefaultValue
            end
        | CBool => match make_bool t with Some x => Ok (DConst (truth x)) | None => Err InvalidDefaultValue end
        | CFromStr => Ok (DFromStr b t)
        end
    | MRef ty false => make_value ty t
    | MRef _ true => match t with [] => Ok DEmpty | _ => Err InvalidDefaultValue end
    | MSimple base _ _ => make_value base t
    | MEnum _ vs => if in_dec str_eq_dec t vs then Ok (DEnum t) else Err InvalidDefaultValue
    | MUnion _ types =>
        (fix try (i : nat) (l : list smeta) : outcome gerror dexpr :=
           match l with
           | [] => Err InvalidDefaultValue
           | m :: l' =>
               match make_value m t with
               | Ok e => Ok (DVariant i e)
               | Err _ => try (S i) l'
               | Panic => Panic
               end
           end) 0 types
    end.

  (** Calling the generated function. *)
  Fixpoint run (e : dexpr) : outcome gerror (value atom) :=
    match e with
    | DConst a => Ok (VAtom a)
    | DFromStr b s => match parse b s with Some a => Ok (VAtom a) | None => Panic end
    | DEmpty => Ok (VList [])
    | DEnum name => Ok (VEnum name)
    | DVariant i e' => match run e' with Ok v => Ok (VUnion i v) | r => r end
    end.
End Default.
Arguments dexpr : clear implicits.

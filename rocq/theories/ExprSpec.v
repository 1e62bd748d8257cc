(** How Rust reads the type of a field, and which type is meant. *)
From Verif Require Import ModModel ModSpec PathSpec ExprModel.

(** ** Reading *)

(** A type in the code: a path and its generic arguments, or an array. *)
Inductive texpr := TE (absolute : bool) (segs : list str) (args : list texpr) | TArray (t : texpr) (n : nat).

Fixpoint take_path (ts : list xtok) : list tok * list xtok :=
  match ts with
  | XP t :: r => let '(a, b) := take_path r in (t :: a, b)
  | _ => ([], ts)
  end.
Fixpoint read_type (fuel : nat) (ts : list xtok) : option (texpr * list xtok) :=
  match fuel with
  | 0 => None
  | S fuel =>
      match ts with
      | XOpen :: r =>
          match read_type fuel r with
          | Some (t, XSemi :: XNum n :: XClose :: r) => Some (TArray t n, r)
          | _ => None
          end
      | _ =>
          let '(p, r) := take_path ts in
          match read_path p with
          | None => None
          | Some (a, segs) =>
              match r with
              | XLt :: r =>
                  match read_args fuel r with
                  | Some (args, r) => Some (TE a segs args, r)
                  | None => None
                  end
              | _ => Some (TE a segs [], r)
              end
          end
      end
  end
with read_args (fuel : nat) (ts : list xtok) : option (list texpr * list xtok) :=
  match fuel with
  | 0 => None
  | S fuel =>
      match read_type fuel ts with
      | Some (t, XGt :: r) => Some ([t], r)
      | Some (t, XComma :: r) =>
          match read_args fuel r with
          | Some (l, r) => Some (t :: l, r)
          | None => None
          end
      | _ => None
      end
  end.
(** The tokens are the type. *)
Definition reads_type (ts : list xtok) (t : texpr) : Prop := exists fuel, read_type fuel ts = Some (t, []).

(** ** Meaning *)

(** An item of another crate, of the generated code (by its path from the root), or
    known everywhere. *)
Inductive item := ICrate (path : list str) | ILocal (path : list str) | IPrelude (name : str).
Inductive rtype := RType (i : item) (args : list rtype) | RArray (t : rtype) (n : nat).

Definition path_eq_dec : forall a b : list str, {a = b} + {a <> b} := list_eq_dec str_eq_dec.
Definition last_is (a : str) (p : list str) : bool :=
  match rev p with
  | x :: _ => if str_eq_dec a x then true else false
  | [] => false
  end.

(** A single name inside of the module [dst]: imported, defined in the module, or
    known everywhere.  It is an error if it is imported twice or imported and defined. *)
Definition find_name (imports defs : list (list str)) (dst : list str) (a : str) : option item :=
  match nodup path_eq_dec (filter (last_is a) imports) with
  | [] => if in_dec path_eq_dec (dst ++ [a]) defs then Some (ILocal (dst ++ [a])) else Some (IPrelude a)
  | [p] => if in_dec path_eq_dec (dst ++ [a]) defs then None else Some (ICrate p)
  | _ => None
  end.
(** A path: from the crates, or along the modules to something that is defined. *)
Definition find_path (defs : list (list str)) (dst segs : list str) : option item :=
  match resolve_from true dst segs with
  | Some l => if in_dec path_eq_dec l defs then Some (ILocal l) else None
  | None => None
  end.
Definition find_item (imports defs : list (list str)) (dst : list str) (absolute : bool) (segs : list str) : option item :=
  if absolute then Some (ICrate segs)
  else
    match segs with
    | [a] => if str_eq_dec a kw_super then find_path defs dst segs else find_name imports defs dst a
    | _ => find_path defs dst segs
    end.
Fixpoint denote (imports defs : list (list str)) (dst : list str) (t : texpr) : option rtype :=
  match t with
  | TE abs segs args =>
      match find_item imports defs dst abs segs,
            (fix all (l : list texpr) : option (list rtype) :=
               match l with
               | [] => Some []
               | x :: l' =>
                   match denote imports defs dst x, all l' with
                   | Some r, Some rs => Some (r :: rs)
                   | _, _ => None
                   end
               end) args with
      | Some i, Some rs => Some (RType i rs)
      | _, _ => None
      end
  | TArray t n =>
      match denote imports defs dst t with
      | Some r => Some (RArray r n)
      | None => None
      end
  end.

(** What is imported by the module at [dst] after the calls [ops]: see C48. *)
Definition imports_of (ident_ok : str -> bool) (dst : list str) (ops : list mod_op) (imports : list (list str)) : Prop :=
  forall q, In q imports <-> 2 <= length q /\ exists u, registered dst ops u false /\ names_path ident_ok u q.

(** No two things in the module [dst] have the same name. *)
Definition unambiguous (imports defs : list (list str)) (dst : list str) : Prop :=
  forall p a, In (p ++ [a]) imports ->
    (forall q, In (q ++ [a]) imports -> q = p) /\ ~ In (dst ++ [a]) defs.

(** ** Intention *)

(** The configured names of the crates. *)
Definition renamed (c : xconfig) (p : list str) : list str :=
  match p with
  | a :: l =>
      (if str_eq_dec a crate_types then x_types c else if str_eq_dec a crate_alloc then x_alloc c else a) :: l
  | [] => []
  end.

(** The item a configured type stands for. *)
Definition configured (c : xconfig) (w : ident_path) : item :=
  ICrate (renamed c (match ip_path w with Some m => m | None => [] end ++ [ip_ident w])).

(** The item a type of the schema stands for; [p] is the path that is included. *)
Definition ref_item (c : xconfig) (p : list str) (r : type_ref) : item :=
  match r with
  | TrBuildIn name m i => if x_build_in_absolute c then ICrate (m ++ [i]) else IPrelude name
  | TrCustom name None => ILocal [name]
  | TrCustom name (Some _) => ICrate (renamed c p)
  | TrGenerated m i => ILocal (m ++ [i])
  end.

(** The text of a path without white space. *)
Definition plain_text (abs : bool) (m : list str) (i : str) (u : str) : Prop :=
  u = (if abs then colons else []) ++ path_display (Path (Some m) i false).
Definition ident_list (ident_ok : str -> bool) (l : list str) : Prop :=
  Forall plain_ident l /\ Forall (fun s => ident_ok s = true) l.

(** A type of another crate as it should be configured: it starts at the crates and is
    inside of one, and crates are not renamed if absolute paths are to be written. *)
Definition proper (ident_ok : str -> bool) (c : xconfig) (w : ident_path) : Prop :=
  exists a l, ip_path w = Some (a :: l) /\ ip_absolute w = true /\ ident_list ident_ok (a :: l ++ [ip_ident w]) /\
    ip_ident w <> kw_super /\
    (x_absolute c = true -> renamed c (a :: l ++ [ip_ident w]) = a :: l ++ [ip_ident w]).

(** The types of the schema: what is generated is defined, what is included is named by
    its last segment, what is known everywhere is not hidden. *)
Definition proper_ref (ident_ok : str -> bool) (c : xconfig) (imports defs : list (list str)) (dst p : list str) (r : type_ref) : Prop :=
  match r with
  | TrBuildIn name m i =>
      x_build_in_absolute c = false ->
      name <> kw_super /\ ~ In (dst ++ [name]) defs /\ forall q, ~ In (q ++ [name]) imports
  | TrCustom name None => name <> kw_super /\ In [name] defs
  | TrCustom name (Some u) =>
      exists a l abs, p = a :: l ++ [name] /\ plain_text abs (a :: l) name u /\ name <> kw_super /\
        ident_list ident_ok p /\ (x_absolute c = true -> abs = true /\ renamed c p = p)
  | TrGenerated m i => ~ In kw_super m /\ i <> kw_super /\ In (m ++ [i]) defs
  end.

(** One type around another. *)
Definition around (c : xconfig) (on : bool) (w : ident_path) (t : rtype) : rtype :=
  if on then RType (configured c w) [t] else t.

(** The types of the standard library around a type. *)
Definition std_box : list str := [crate_alloc; etxt "boxed"; etxt "Box"].
Definition std_option : list str := [etxt "core"; etxt "option"; etxt "Option"].
Definition std_vec : list str := [crate_alloc; etxt "vec"; etxt "Vec"].
Definition std_item (c : xconfig) (p : list str) : item :=
  if x_build_in_absolute c then ICrate (renamed c p) else IPrelude (last p []).
Definition boxed (c : xconfig) (on : bool) (t : rtype) : rtype := if on then RType (std_item c std_box) [t] else t.
(** The type of a field for a type that occurs once, at most once, often, or a fixed
    number of times. *)
Definition occurring (c : xconfig) (o : xoccurs) (indirect : bool) (t : rtype) : option rtype :=
  match o with
  | OcNone => None
  | OcSingle => Some (boxed c indirect t)
  | OcOptional => Some (RType (std_item c std_option) [boxed c indirect t])
  | OcDynamic => Some (RType (std_item c std_vec) [t])
  | OcStatic n => Some (RArray (boxed c indirect t) n)
  end.
(** The names of these types are not hidden. *)
Definition std_visible (imports defs : list (list str)) (dst : list str) : Prop :=
  forall n, In n [etxt "Box"; etxt "Option"; etxt "Vec"] -> ~ In (dst ++ [n]) defs /\ forall q, ~ In (q ++ [n]) imports.
Definition std_idents (ident_ok : str -> bool) : Prop :=
  Forall (fun s => ident_ok s = true) (std_box ++ std_option ++ std_vec).

(** The default configuration (generator/mod.rs 114-119), with the given settings. *)
Definition xml_type (s : str) : ident_path := Path (Some [crate_types; etxt "xml"]) s true.
Definition xdefault (absolute : bool) (types : str) : xconfig :=
  XConfig absolute false true true (xml_type (etxt "Text")) (xml_type (etxt "Mixed")) (xml_type (etxt "Nillable"))
    (xml_type (etxt "AnyElement")) (xml_type (etxt "AnyAttributes")) (etxt "std") types.

(** Identifier paths of generated code (xsd-parser/src/models/code/ident_path.rs). *)
From Verif Require Export Base FacetModel.

(** ident_path.rs 26-30 [IdentPath], 37 [ModulePath].  Simplification: an [Ident2]
    is its text, a sequence of characters. *)
Record ident_path := Path { ip_path : option (list str); ip_ident : str; ip_absolute : bool }.

(** The tokens of a path: [::] and an identifier or keyword. *)
Inductive tok := TSep | TId (s : str).

(** The keyword [super]. *)
Definition kw_super : str := [115; 117; 112; 101; 114]%N.

Definition str_eq_dec : forall a b : str, {a = b} + {a <> b} := list_eq_dec N.eq_dec.

(** ident_path.rs 64-69 [from_parts], 74-80 [from_ident], 84-88 [with_ident],
    92-99 [with_path]. *)
Definition path_from_ident (i : str) : ident_path := Path None i false.
Definition with_ident (p : ident_path) (i : str) : ident_path := Path (ip_path p) i (ip_absolute p).
Definition with_path (p : ident_path) (m : list str) : ident_path := Path (Some m) (ip_ident p) (ip_absolute p).
Definition path_from_parts (m : list str) (i : str) : ident_path := with_path (path_from_ident i) m.

(** ident_path.rs 156-165 [push!]: separated by [::] from what is already there. *)
Definition push (ret : list tok) (x : str) : list tok :=
  match ret with
  | [] => [TId x]
  | _ => ret ++ [TSep; TId x]
  end.

(** ident_path.rs 167-192: the loop of [relative_to] over the remaining source and
    destination modules. *)
Fixpoint relative_loop (ident : str) (src dst : list str) (ret : list tok) : list tok :=
  match src, dst with
  | a :: src', b :: dst' =>
      if str_eq_dec a b then relative_loop ident src' dst' ret
      else
        let ret := push ret kw_super in
        let ret := fold_left (fun r _ => push r kw_super) dst' ret in
        let ret := push ret a in
        let ret := fold_left push src' ret in
        push ret ident
  | a :: src', [] => relative_loop ident src' [] (push ret a)
  | [], _ :: dst' =>
      (fix up (dst : list str) (ret : list tok) : list tok :=
         match dst with
         | [] => push ret ident
         | _ :: dst' => up dst' (push ret kw_super)
         end) dst' (push ret kw_super)
  | [], [] => push ret ident
  end.

(** ident_path.rs 137-193 [relative_to]. *)
Definition relative_to (p : ident_path) (dst : list str) : list tok :=
  match ip_path p with
  | None => [TId (ip_ident p)]
  | Some src =>
      if ip_absolute p then flat_map (fun m => [TSep; TId m]) src ++ [TSep; TId (ip_ident p)]
      else relative_loop (ip_ident p) src dst []
  end.

(** ident_path.rs 257-273 [ToTokens]. *)
Definition path_tokens (p : ident_path) : list tok :=
  (if ip_absolute p then [TSep] else []) ++
  match ip_path p with
  | Some m => flat_map (fun x => [TId x; TSep]) m
  | None => []
  end ++ [TId (ip_ident p)].

(** The separator [::]. *)
Definition colons : str := [58; 58]%N.

(** ident_path.rs 245-255 [Display]. *)
Definition path_display (p : ident_path) : str :=
  match ip_path p with
  | Some m => flat_map (fun x => x ++ colons) m
  | None => []
  end ++ ip_ident p.

(** [str::split("::")]. *)
Fixpoint split_colons (cur : str) (s : str) : list str :=
  match s with
  | [] => [rev cur]
  | c :: s1 =>
      match c, s1 with
      | 58%N, 58%N :: s2 => rev cur :: split_colons [] s2
      | _, _ => split_colons (c :: cur) s1
      end
  end.

Section Parse.
  (** [format_ident!]: panics unless the text is a Rust identifier. *)
  Variable ident_ok : str -> bool.

  (** ident_path.rs 220-235: one part of the text. *)
  Fixpoint parse_parts (parts : list str) (ident : option str) (path : list str) (abs : bool)
    : outcome unit (option str * list str * bool) :=
    match parts with
    | [] => Ok (ident, path, abs)
    | part :: parts' =>
        match str_trim part with
        | [] =>
            let abs := match path, ident with [], None => true | _, _ => abs end in
            parse_parts parts' ident path abs
        | part =>
            let path := match ident with Some i => path ++ [i] | None => path end in
            if ident_ok part then parse_parts parts' (Some part) path abs else Panic
        end
    end.

  (** ident_path.rs 212-243 [FromStr]; 196-210 [TryFrom]. *)
  Definition path_parse (s : str) : outcome unit ident_path :=
    match parse_parts (split_colons [] s) None [] false with
    | Ok (Some i, path, abs) => Ok (Path (Some path) i abs)
    | Ok (None, _, _) => Err tt
    | Err e => Err e
    | Panic => Panic
    end.
End Parse.

(** The ASCII identifiers of Rust, keywords included: a letter or an underscore
    followed by letters, digits and underscores. *)
Definition ascii_letter (c : chr) : bool :=
  ((65 <=? c) && (c <=? 90) || (97 <=? c) && (c <=? 122) || (c =? 95))%N.
Definition ascii_alnum (c : chr) : bool := (ascii_letter c || (48 <=? c) && (c <=? 57))%N.
Definition ascii_ident (s : str) : bool :=
  match s with
  | [] => false
  | c :: s' => ascii_letter c && forallb ascii_alnum s'
  end.

(** What module files and use declarations mean in Rust. *)
From Verif Require Import ModModel.

(** ** The tree of modules *)

(** The module at a path. *)
Fixpoint module_at (path : list str) (m : module) : option module :=
  match path with
  | [] => Some m
  | a :: path' =>
      match find (fun x => if str_eq_dec a (fst x) then true else false) (m_subs m) with
      | Some (_, m') => module_at path' m'
      | None => None
      end
  end.

Definition op_path (o : mod_op) : list str :=
  match o with OpAppend p _ | OpPrepend p _ | OpUsings p _ _ => p end.

(** The code a sequence of calls leaves in the module at a path. *)
Definition code_after (path : list str) (c : list ttok) (o : mod_op) : list ttok :=
  if list_eq_dec str_eq_dec (op_path o) path then
    match o with
    | OpAppend _ x => c ++ x
    | OpPrepend _ x => x ++ c
    | OpUsings _ _ _ => c
    end
  else c.
Definition code_of (path : list str) (ops : list mod_op) : list ttok := fold_left (code_after path) ops [].

(** A use declaration for [u] was registered in the module at a path. *)
Definition registered (path : list str) (ops : list mod_op) (u : str) (anonymous : bool) : Prop :=
  exists l, In (OpUsings path anonymous l) ops /\ In u l.

(** Calling [f] for each of a list of modules, until it fails. *)
Fixpoint until_failure {S E} (f : S -> module -> list str -> S * outcome E unit) (l : list (list str * module)) (s : S)
  : S * outcome E unit :=
  match l with
  | [] => (s, Ok tt)
  | (p, m) :: l' =>
      match f s m p with
      | (s, Ok _) => until_failure f l' s
      | (s, Err e) => (s, Err e)
      | (s, Panic) => (s, Panic)
      end
  end.

(** A name of a file or a directory without a dot in it. *)
Definition plain_name (s : str) : Prop := s <> [] /\ ~ In dot s.
Definition plain_names (m : module) : Prop :=
  forall path m' a, module_at path m = Some m' -> In a (map fst (m_subs m')) -> plain_name a.
(** No module without sub-modules is called [mod]. *)
Definition no_mod_leaf (m : module) : Prop :=
  forall path m', module_at (path ++ [kw_mod]) m = Some m' -> m_subs m' <> [].

(** ** Use declarations *)

(** Tokens between commas. *)
Fixpoint split_comma (cur : list ttok) (ts : list ttok) : list (list ttok) :=
  match ts with
  | [] => [rev cur]
  | TTComma :: r => rev cur :: split_comma [] r
  | t :: r => split_comma (t :: cur) r
  end.

(** A use tree: the paths it imports, and whether they are imported without a name. *)
Fixpoint read_tree (fuel : nat) (ts : list ttok) : option (list (list str * bool)) :=
  match fuel with
  | 0 => None
  | S fuel =>
      match ts with
      | [TTId a] => Some [([a], false)]
      | [TTId a; TTId x; TTId y] =>
          if str_eq_dec x kw_as then if str_eq_dec y kw_underscore then Some [([a], true)] else None else None
      | TTId a :: TTSep :: r => option_map (map (fun x => (a :: fst x, snd x))) (read_tree fuel r)
      | [TTGroup l] =>
          (fix all (items : list (list ttok)) : option (list (list str * bool)) :=
             match items with
             | [] => Some []
             | i :: items' =>
                 match read_tree fuel i, all items' with
                 | Some x, Some y => Some (x ++ y)
                 | _, _ => None
                 end
             end) (split_comma [] l)
      | _ => None
      end
  end.

(** A use declaration up to its semicolon; with [::] in front the path starts at the
    crates. *)
Record import := Import { im_absolute : bool; im_path : list str; im_anonymous : bool }.
Fixpoint to_semi (cur : list ttok) (ts : list ttok) : option (list ttok * list ttok) :=
  match ts with
  | [] => None
  | TTSemi :: r => Some (rev cur, r)
  | t :: r => to_semi (t :: cur) r
  end.
Definition read_use (fuel : nat) (ts : list ttok) : option (list import) :=
  match ts with
  | TTSep :: r => option_map (map (fun x => Import true (fst x) (snd x))) (read_tree fuel r)
  | _ => option_map (map (fun x => Import false (fst x) (snd x))) (read_tree fuel ts)
  end.
Fixpoint read_uses (fuel : nat) (ts : list ttok) : option (list import) :=
  match fuel, ts with
  | _, [] => Some []
  | S fuel, TTId u :: r =>
      if str_eq_dec u kw_use then
        match to_semi [] r with
        | Some (d, r) =>
            match read_use fuel d, read_uses fuel r with
            | Some x, Some y => Some (x ++ y)
            | _, _ => None
            end
        | None => None
        end
      else None
  | _, _ => None
  end.

(** The text of a declaration names a path. *)
Definition names_path (ident_ok : str -> bool) (u : str) (p : list str) : Prop :=
  exists m i abs, path_parse ident_ok u = Ok (Path (Some m) i abs) /\ p = m ++ [i].

(** Tokens are code of the module at a path below the module of a stream. *)
Inductive sits : list str -> list ttok -> list ttok -> Prop :=
| sits_here a c b : sits [] c (a ++ c ++ b)
| sits_in name path c inner a b : sits path c inner ->
    sits (name :: path) c (a ++ [TTId kw_pub; TTId kw_mod; TTId name; TTGroup inner] ++ b).

(** The declarations of modules that are in files of their own. *)
Definition mod_items (names : list str) : list ttok :=
  flat_map (fun a => [TTId kw_pub; TTId kw_mod; TTId a; TTSemi]) names.

(** The tree of generated modules (xsd-parser/src/models/code/module.rs) and how it is
    written to files. *)
From Verif Require Export Base PathModel.

(** A token stream of [proc_macro2].  Simplification: [::] is one token, groups are in
    braces, all other tokens of the generated code are [TTOther]. *)
Inductive ttok := TTSep | TTComma | TTSemi | TTId (s : str) | TTGroup (l : list ttok) | TTOther (n : nat).

Definition kw_use : str := [117; 115; 101]%N.
Definition kw_as : str := [97; 115]%N.
Definition kw_underscore : str := [95]%N.
Definition kw_pub : str := [112; 117; 98]%N.
Definition kw_mod : str := [109; 111; 100]%N.

(** module.rs 15-26 [Module].  Simplification: a [BTreeMap] is the list of its entries,
    in the order of their first insertion. *)
Inductive module := Mod (m_code : list ttok) (m_usings : list (str * bool)) (m_subs : list (str * module)).
Definition m_code (m : module) : list ttok := let 'Mod c _ _ := m in c.
Definition m_usings (m : module) : list (str * bool) := let 'Mod _ u _ := m in u.
Definition m_subs (m : module) : list (str * module) := let 'Mod _ _ s := m in s.
Definition mod_default : module := Mod [] [] [].

(** [BTreeMap::entry(k).or_insert(d)], changed by [f]. *)
Fixpoint entry {V} (k : str) (d : V) (f : V -> V) (l : list (str * V)) : list (str * V) :=
  match l with
  | [] => [(k, f d)]
  | (k', v) :: l' => if str_eq_dec k k' then (k', f v) :: l' else (k', v) :: entry k d f l'
  end.

(** module.rs 67-71 [append], 74-78 [prepend]. *)
Definition mod_append (c : list ttok) (m : module) : module := Mod (m_code m ++ c) (m_usings m) (m_subs m).
Definition mod_prepend (c : list ttok) (m : module) : module := mod_append (m_code m) (Mod c (m_usings m) (m_subs m)).

(** module.rs 81-91 [usings]. *)
Definition add_using (anonymous : bool) (us : list (str * bool)) (u : str) : list (str * bool) :=
  entry u anonymous (fun a => a && anonymous) us.
Definition mod_usings (anonymous : bool) (l : list str) (m : module) : module :=
  Mod (m_code m) (fold_left (add_using anonymous) l (m_usings m)) (m_subs m).

(** module.rs 106-111 [module_mut] along a path, as in renderer/context.rs 344-357
    [get_current_module]: what is done with the module at the end. *)
Fixpoint at_module (path : list str) (f : module -> module) (m : module) : module :=
  match path with
  | [] => f m
  | a :: path' => Mod (m_code m) (m_usings m) (entry a mod_default (at_module path' f) (m_subs m))
  end.

(** One call on a module of the tree, and a sequence of calls. *)
Inductive mod_op :=
| OpAppend (path : list str) (c : list ttok)
| OpPrepend (path : list str) (c : list ttok)
| OpUsings (path : list str) (anonymous : bool) (l : list str).
Definition mod_step (m : module) (o : mod_op) : module :=
  match o with
  | OpAppend p c => at_module p (mod_append c) m
  | OpPrepend p c => at_module p (mod_prepend c) m
  | OpUsings p a l => at_module p (mod_usings a l) m
  end.
Definition mod_run (ops : list mod_op) : module := fold_left mod_step ops mod_default.

(** ** Use declarations *)

(** module.rs 234-238: the local [Module] of [render_usings]. *)
Inductive utree := UTree (us : list (str * bool)) (subs : list (str * utree)).

(** module.rs 276-281: the loop over the path, and the entry for the identifier. *)
Fixpoint utree_add (path : list str) (ident : str) (anonymous : bool) (t : utree) : utree :=
  let 'UTree us subs := t in
  match path with
  | [] => UTree (entry ident anonymous (fun a => a && anonymous) us) subs
  | p :: path' => UTree us (entry p (UTree [] []) (utree_add path' ident anonymous) subs)
  end.

(** The separated repetition of [quote!]. *)
Fixpoint sep_by (s : ttok) (items : list (list ttok)) : list ttok :=
  match items with
  | [] => []
  | [i] => i
  | i :: items' => i ++ s :: sep_by s items'
  end.

(** module.rs 240-263 [Module::render]. *)
Definition render_using (x : str * bool) : list ttok :=
  if snd x then [TTId (fst x); TTId kw_as; TTId kw_underscore] else [TTId (fst x)].
Fixpoint utree_render (t : utree) : list ttok :=
  match t with
  | UTree us subs =>
      let items := map render_using us ++ map (fun x => TTId (fst x) :: TTSep :: utree_render (snd x)) subs in
      if 1 <? length us + length subs then [TTGroup (sep_by TTComma items)] else concat items
  end.

Section Code.
  (** [format_ident!], [Ident::new]: panics unless the text is a Rust identifier. *)
  Variable ident_ok : str -> bool.

  (** module.rs 268-282: one using declaration. *)
  Definition utree_using (t : utree) (x : str * bool) : outcome unit utree :=
    match path_parse ident_ok (fst x) with
    | Ok p => Ok (utree_add (match ip_path p with Some l => l | None => [] end) (ip_ident p) (snd x) t)
    | Err _ => Ok t
    | Panic => Panic
    end.
  Fixpoint utree_usings (t : utree) (us : list (str * bool)) : outcome unit utree :=
    match us with
    | [] => Ok t
    | u :: us' =>
        match utree_using t u with
        | Ok t => utree_usings t us'
        | Err e => Err e
        | Panic => Panic
        end
    end.

  (** module.rs 229-291 [render_usings]. *)
  Definition render_use (x : str * utree) : list ttok :=
    [TTId kw_use; TTId (fst x); TTSep] ++ utree_render (snd x) ++ [TTSemi].
  Definition render_usings (us : list (str * bool)) : outcome unit (list ttok) :=
    match utree_usings (UTree [] []) us with
    | Ok (UTree _ subs) => Ok (flat_map render_use subs)
    | Err e => Err e
    | Panic => Panic
    end.

  (** module.rs 29-63 [SubModules]. *)
  Inductive sub_modules := SubNone | SubFiles | SubInline.

  (** module.rs 126-136: the declarations of the sub-modules. *)
  Fixpoint declare_modules (l : list (str * module)) : outcome unit (list ttok) :=
    match l with
    | [] => Ok []
    | (i, _) :: l' =>
        if ident_ok i then
          match declare_modules l' with
          | Ok r => Ok ([TTId kw_pub; TTId kw_mod; TTId i; TTSemi] ++ r)
          | Err e => Err e
          | Panic => Panic
          end
        else Panic
    end.

  (** module.rs 118-156 [to_code] with inline sub-modules; 224-228 [to_tokens]. *)
  Fixpoint inline_code (m : module) : outcome unit (list ttok) :=
    match m with
    | Mod code us subs =>
        match render_usings us with
        | Ok uses =>
            match
              (fix go (l : list (str * module)) : outcome unit (list ttok) :=
                 match l with
                 | [] => Ok []
                 | (i, m') :: l' =>
                     if ident_ok i then
                       match inline_code m' with
                       | Ok ts =>
                           match go l' with
                           | Ok r => Ok ([TTId kw_pub; TTId kw_mod; TTId i; TTGroup ts] ++ r)
                           | Err e => Err e
                           | Panic => Panic
                           end
                       | Err e => Err e
                       | Panic => Panic
                       end
                     else Panic
                 end) subs
            with
            | Ok r => Ok (uses ++ code ++ r)
            | Err e => Err e
            | Panic => Panic
            end
        | Err e => Err e
        | Panic => Panic
        end
    end.

  (** module.rs 118-156 [to_code]. *)
  Definition to_code (how : sub_modules) (m : module) : outcome unit (list ttok) :=
    match how with
    | SubInline => inline_code m
    | SubFiles =>
        match declare_modules (m_subs m), render_usings (m_usings m) with
        | Ok d, Ok u => Ok (d ++ u ++ m_code m)
        | _, _ => Panic
        end
    | SubNone =>
        match render_usings (m_usings m) with
        | Ok u => Ok (u ++ m_code m)
        | _ => Panic
        end
    end.

  (** ** Files *)

  (** module.rs 205-221 [write_to_files_with_impl]; a path is the list of its
      components.  [f] may change a state (it is [FnMut]) and fail. *)
  Section Visit.
    Variables (S E : Type).
    Variable f : S -> module -> list str -> S * outcome E unit.
    Fixpoint visit (m : module) (path : list str) (s : S) : S * outcome E unit :=
      match m with
      | Mod code us subs =>
          let r := f s (Mod code us subs) path in
          match snd r with
          | Ok _ =>
              (fix go (l : list (str * module)) (s : S) : S * outcome E unit :=
                 match l with
                 | [] => (s, Ok tt)
                 | (i, m') :: l' =>
                     let r := visit m' (path ++ [i]) s in
                     match snd r with
                     | Ok _ => go l' (fst r)
                     | _ => r
                     end
                 end) subs (fst r)
          | _ => r
          end
      end.
    (** module.rs 198-203 [write_to_files_with]. *)
    Definition write_to_files_with (m : module) (s : S) : S * outcome E unit := visit m [] s.
  End Visit.

  (** [Path::with_extension("rs")] for the last component: what is behind its last dot
      is replaced, unless that dot is at the beginning. *)
  Definition dot : chr := 46%N.
  Definition dot_rs : str := [46; 114; 115]%N.
  Definition mod_rs : str := [109; 111; 100; 46; 114; 115]%N.
  Fixpoint split_last_dot (s : str) : option (str * str) :=
    match s with
    | [] => None
    | c :: s' =>
        match split_last_dot s' with
        | Some (a, b) => Some (c :: a, b)
        | None => if N.eqb c dot then Some ([], s') else None
        end
    end.
  Definition file_stem (s : str) : str :=
    match split_last_dot s with
    | Some ([], _) | None => s
    | Some (a, _) => a
    end.

  (** module.rs 173-178: the name of the file of a module.  [None]: [parent().unwrap()]
      panics.  Simplification: the components of the directory are plain names. *)
  Definition filename (dir path : list str) (m : module) : option (list str) :=
    match m_subs m with
    | [] =>
        match rev (dir ++ path) with
        | [] => None
        | x :: r => Some (rev r ++ [file_stem x ++ dot_rs])
        end
    | _ => Some (dir ++ path ++ [mod_rs])
    end.

  (** The files of a directory tree: the newest entry for a name counts. *)
  Definition files := list (list str * list ttok).
  Fixpoint read_file (n : list str) (fs : files) : option (list ttok) :=
    match fs with
    | [] => None
    | (n', c) :: fs' => if list_eq_dec str_eq_dec n n' then Some c else read_file n fs'
    end.

  (** module.rs 166-190 [write_to_files].  [io]: the errors of [create_dir_all] and
      [write] for a file. *)
  Definition write_module {E} (io : list str -> option E) (dir : list str) (fs : files) (m : module) (path : list str)
    : files * outcome E unit :=
    match filename dir path m with
    | None => (fs, Panic)
    | Some n =>
        match to_code SubFiles m with
        | Ok c => match io n with Some e => (fs, Err e) | None => ((n, c) :: fs, Ok tt) end
        | _ => (fs, Panic)
        end
    end.
  Definition write_to_files {E} (io : list str -> option E) (dir : list str) (m : module) (fs : files) : files * outcome E unit :=
    write_to_files_with files E (write_module io dir) m fs.
End Code.

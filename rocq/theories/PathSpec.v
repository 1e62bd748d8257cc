(** What a path in Rust code means. *)
From Verif Require Import PathModel.

(** The segments of a path without a leading separator. *)
Fixpoint segments (ts : list tok) : option (list str) :=
  match ts with
  | [TId a] => Some [a]
  | TId a :: TSep :: r => option_map (cons a) (segments r)
  | _ => None
  end.

(** A path as the Rust parser reads it: does it start at the crates, and its
    segments. *)
Definition read_path (ts : list tok) : option (bool * list str) :=
  match ts with
  | TSep :: r => option_map (pair true) (segments r)
  | _ => option_map (pair false) (segments ts)
  end.

(** Rust's resolution of the segments of a relative path inside the module [cur]:
    leading [super]s go to the parent, every other segment to the child of that name.
    [super] behind a name is an error, and so is the parent of the root. *)
Fixpoint resolve_from (leading : bool) (cur : list str) (segs : list str) : option (list str) :=
  match segs with
  | [] => Some cur
  | s :: r =>
      if str_eq_dec s kw_super then
        match leading, rev cur with
        | true, _ :: up => resolve_from true (rev up) r
        | _, _ => None
        end
      else resolve_from false (cur ++ [s]) r
  end.

(** A text of the path with the given segments: [::] between the segments and, if it
    is absolute, before the first; white space wherever tokens meet. *)
Definition blank (w : str) : Prop := forallb unicode_ws w = true.
Inductive segs_text : list str -> str -> Prop :=
| ST_last a w1 w2 : blank w1 -> blank w2 -> segs_text [a] (w1 ++ a ++ w2)
| ST_more a segs w1 w2 t : blank w1 -> blank w2 -> segs_text segs t ->
    segs_text (a :: segs) (w1 ++ a ++ w2 ++ colons ++ t).
Inductive path_text : bool -> list str -> str -> Prop :=
| PT_rel segs t : segs_text segs t -> path_text false segs t
| PT_abs segs t w : blank w -> segs_text segs t -> path_text true segs (w ++ colons ++ t).

(** An identifier: not empty, no white space and no colon in it. *)
Definition plain_ident (s : str) : Prop :=
  s <> [] /\ Forall (fun c => unicode_ws c = false /\ c <> 58%N) s.

(** What is left of the types after merging duplicates. *)
From Verif Require Import MetaModel MetaSpec.

(** The types of [ts'] stand for those of [ts]: the identifiers are the same ones, and
    what an identifier resolves to in [ts'] is a definition of [ts], either the one it
    resolved to in [ts] or one with the same structure. *)
Definition stands_for (ts ts' : types) : Prop :=
  map fst ts' = map fst ts /\
  forall i b ty, get_resolved ts i = Some (b, ty) ->
    exists b' ty', get_resolved ts' i = Some (b', ty') /\ lookup b' ts = Some ty' /\
      (b' = b \/ type_eq ts' ty ty' = true).

(** No two identifiers have equal definitions, other than references. *)
Definition no_duplicates (ts : types) : Prop :=
  forall i j ti tj, lookup i ts = Some ti -> lookup j ts = Some tj -> i <> j ->
    type_eq ts ti tj = true -> exists x, m_variant ti = VReference x.

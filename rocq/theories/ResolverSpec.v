(** What the text of a schema should be. *)
From Verif Require Export ResolverModel ParserSpec.
From Coq Require Import List String.
Import ListNotations.
Local Open Scope string_scope.

(** RFC 8089 and RFC 9110: a URL of a local file, and one of the web. *)
Definition local_file (u : url) (path : list string) : Prop :=
  u_scheme u = "file" /\ (u_host u = None \/ u_host u = Some "localhost") /\ u_segments u = Some path.
Definition on_the_web (u : url) : Prop := u_scheme u = "http" \/ u_scheme u = "https".
(** The web resource is on another computer. *)
Definition remote (u : url) : Prop := exists h, u_host u = Some h /\ h <> "localhost".

(** The text of the resource [u] names, for the resolvers that are configured. *)
Definition text_at (files : list string -> option string) (web : url -> option (nat * string))
  (cs : list resolver_config) (u : url) (text : string) : Prop :=
  (In RFile cs /\ exists p, local_file u p /\ files p = Some text) \/
  (In RWeb cs /\ on_the_web u /\ exists status, web u = Some (status, text)).

(** Every URL is one of a local file or has a host other than this computer. *)
Definition ordinary (u : url) : Prop := (exists p, local_file u p) \/ (u_scheme u <> "file" /\ remote u).

(** The extensions of schema files. *)
Definition extensions : list string := [".xml"; ".xsd"].
Definition has_suffix (x s : string) : Prop := exists t, s = t ++ x.

(** The answers of the resolvers before the one that knows the request. *)
Definition knows_nothing {St} (x : dyn_resolver St) (r : request) : Prop := fst (snd x (fst x) r) = Ok None.

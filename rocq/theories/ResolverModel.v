(** Finding the text of a schema (xsd-parser/src/pipeline/parser/resolver, lib.rs 129-147).

    Parameters: parsing and joining URLs (crate url), the files and the web. Asking for a file or
    for a resource of the web twice gives the same answer. *)
From Verif Require Export ParserModel.
From Coq Require Import List String Ascii Bool.
Import ListNotations.
Local Open Scope string_scope.

(** The parts of a URL of the crate url that are used: scheme, host, segments of the path (none
    for URLs such as [data:]; percent encoding is left out) and the whole text. *)
Record url : Type := Url { u_scheme : string; u_host : option string; u_segments : option (list string); u_text : string }.

(** [Url::to_file_path] of url 2.5 (not on Windows): the scheme is not looked at, the host has to
    be missing or [localhost]. *)
Definition to_file_path (u : url) : option (list string) :=
  match u_segments u with
  | None => None
  | Some s => match u_host u with
              | None => Some s
              | Some h => if String.eqb h "localhost" then Some s else None
              end
  end.

(** [str::strip_suffix]. *)
Fixpoint strip_suffix (x s : string) : option string :=
  if String.eqb s x then Some ""
  else match s with
       | EmptyString => None
       | String c r => match strip_suffix x r with Some t => Some (String c t) | None => None end
       end.

(** resolver/mod.rs 139-148 [strip_name_ext]. *)
Definition strip_name_ext (s : string) : string :=
  match strip_suffix ".xml" s with
  | Some t => t
  | None => match strip_suffix ".xsd" s with Some t => t | None => s end
  end.

(** [Path::iter().next_back()]: empty segments and [.] are skipped, the root is the last one left. *)
Definition last_component (p : list string) : string :=
  last (filter (fun s => negb (String.eqb s "" || String.eqb s ".")) p) "/".

(** web_resolver.rs 48-51: the part after the last slash or backslash. *)
Fixpoint after_slash (cur s : string) : string :=
  match s with
  | EmptyString => cur
  | String c r => if Ascii.eqb c "\" || Ascii.eqb c "/" then after_slash "" r else after_slash (cur ++ String c "") r
  end.

(** What a resolver answers: an error, nothing, or a name, a location and a text. *)
Definition answer : Type := outcome unit (option (option string * string * string)).

(** ** [ManyResolver] *)
Section many.
(** [Box<dyn Resolver>]: a state, which [resolve] may change, and a function. *)
Variable St : Type.
Definition dyn_resolver : Type := St * (St -> request -> answer * St).

(** many_resolver.rs 46-55 [resolve]. *)
Fixpoint many_resolve (l : list dyn_resolver) (r : request) : answer * list dyn_resolver :=
  match l with
  | [] => (Ok None, [])
  | (s, f) :: rest =>
    match f s r with
    | (Ok None, s') => let (a, rest') := many_resolve rest r in (a, (s', f) :: rest')
    | (a, s') => (a, (s', f) :: rest)
    end
  end.
End many.

Section resolvers.
Variable url_parse : string -> option url.
Variable url_join : string -> string -> option url.
(** [File::open] and reading it: [None] if it cannot be opened. *)
Variable files : list string -> option string.
(** The status and the body of a response; [None] if there is none. *)
Variable web : url -> option (nat * string).

(** file_resolver.rs 25-34, web_resolver.rs 30-39. *)
Definition request_url (r : request) : option url :=
  match rq_current r with
  | Some c => url_join c (rq_location r)
  | None => url_parse (rq_location r)
  end.

(** file_resolver.rs 25-51 [FileResolver::resolve]. *)
Definition file_resolve (r : request) : answer :=
  match request_url r with
  | None => Ok None
  | Some u => match to_file_path u with
              | None => Ok None
              | Some p => match files p with
                          | None => Err tt
                          | Some text => Ok (Some (Some (strip_name_ext (last_component p)), u_text u, text))
                          end
              end
  end.

(** web_resolver.rs 30-57 [WebResolver::resolve]; the status of the response is not looked at. *)
Definition web_resolve (r : request) : answer :=
  match request_url r with
  | None => Ok None
  | Some u => if String.eqb (u_scheme u) "http" || String.eqb (u_scheme u) "https" then
                match web u with
                | None => Err tt
                | Some (_, text) => Ok (Some (Some (strip_name_ext (after_slash "" (u_text u))), u_text u, text))
                end
              else Ok None
  end.

(** noop_resolver.rs 23-28. *)
Definition noop_resolve (r : request) : answer := Err tt.

(** config/parser.rs 45-53 [Resolver], lib.rs 129-147: the resolver of [exec_parser]. The client of
    a [WebResolver] is its only state and is left out. *)
Inductive resolver_config : Type := RWeb | RFile.
Definition one_resolver (c : resolver_config) : dyn_resolver unit :=
  (tt, fun _ r => (match c with RWeb => web_resolve r | RFile => file_resolve r end, tt)).
Definition config_resolver (cs : list resolver_config) (r : request) : answer :=
  fst (many_resolve unit (map one_resolver cs) r).
End resolvers.

(** C102: a schema is read from the resource its location names. *)
From Verif Require Import ResolverProofs ParserProps.
From Coq Require Import List String.
Import ListNotations.
Local Open Scope string_scope.

(** C102: a request goes to the resolvers in their order until one knows it; its answer, also an
    error, is the answer, and the ones after it are not asked. *)
Theorem C102_first : forall St (l l' : list (dyn_resolver St)) x r,
  (forall y, In y l -> knows_nothing y r) ->
  (~ knows_nothing x r ->
   fst (many_resolve St (l ++ x :: l') r) = fst (snd x (fst x) r) /\
   exists l0 x0, snd (many_resolve St (l ++ x :: l') r) = (l0 ++ x0 :: l')%list /\ List.length l0 = List.length l) /\
  fst (many_resolve St l r) = Ok None.
Proof.
  intros St l l' x r N. split; [|rewrite (many_none St l r N); reflexivity]. intros K. rewrite (many_first St l l' x r N K).
  split; [reflexivity|]. exists (map (asked r) l), (asked r x). split; [reflexivity|apply map_length].
Qed.
Print Assumptions C102_first.

(** C102: for a URL of a local file or of a resource on another computer, the configured resolvers
    give its text and its location, and nothing else. *)
Theorem C102_found_partial : forall url_parse url_join files web cs r u,
  request_url url_parse url_join r = Some u -> ordinary u ->
  (forall text, text_at files web cs u text ->
     exists name, config_resolver url_parse url_join files web cs r = Ok (Some (name, u_text u, text))) /\
  (forall name l text, config_resolver url_parse url_join files web cs r = Ok (Some (name, l, text)) ->
     l = u_text u /\ text_at files web cs u text).
Proof. exact found. Qed.
Print Assumptions C102_found_partial.

(** C102: a file that cannot be opened and a resource that does not answer are errors; a location
    that is no URL, and a URL no configured resolver is for, are not resolved. *)
Theorem C102_missing_partial : forall url_parse url_join files web cs r,
  let config := config_resolver url_parse url_join files web cs r in
  (request_url url_parse url_join r = None -> config = Ok None) /\
  (forall u p, request_url url_parse url_join r = Some u -> local_file u p ->
     (In RFile cs -> files p = None -> config = Err tt) /\ (~ In RFile cs -> config = Ok None)) /\
  (forall u, request_url url_parse url_join r = Some u -> remote u ->
     (on_the_web u -> In RWeb cs -> web u = None -> config = Err tt) /\
     (~ on_the_web u \/ ~ In RWeb cs -> config = Ok None)).
Proof.
  intros. subst config. split; [|split].
  - intros E. apply no_url. exact E.
  - intros u p E L. destruct (file_config url_parse url_join files web cs r u p E L) as (A & B). split; [|exact B].
    intros I F. rewrite (A I), F. reflexivity.
  - intros u E R. split.
    + intros W I F. rewrite (proj1 (web_config url_parse url_join files web cs r u E R W) I), F. reflexivity.
    + intros H. destruct (on_the_web_dec u) as [W|W]; [|exact (other_config url_parse url_join files web cs r u E R W)].
      destruct H as [H|H]; [contradiction|]. exact (proj2 (web_config url_parse url_join files web cs r u E R W) H).
Qed.
Print Assumptions C102_missing_partial.

(** C102: the order of the configured resolvers does not matter, nor does naming one twice. *)
Theorem C102_order_partial : forall url_parse url_join files web cs cs' r,
  (forall u, request_url url_parse url_join r = Some u -> ordinary u) -> (forall c, In c cs <-> In c cs') ->
  config_resolver url_parse url_join files web cs r = config_resolver url_parse url_join files web cs' r.
Proof. exact order. Qed.
Print Assumptions C102_order_partial.

(** C102: the name of a schema from a file is that of the file without the extension .xml or .xsd. *)
Theorem C102_name : forall url_parse url_join files web cs r u path b name l text,
  request_url url_parse url_join r = Some u -> local_file u (path ++ [b]) -> b <> "" -> b <> "." ->
  config_resolver url_parse url_join files web cs r = Ok (Some (name, l, text)) ->
  exists n, name = Some n /\
    ((exists x, In x extensions /\ b = n ++ x) \/ (n = b /\ forall x, In x extensions -> ~ has_suffix x b)).
Proof.
  intros url_parse url_join files web cs r u path b name l text E L N1 N2 C.
  destruct (file_config url_parse url_join files web cs r u _ E L) as (A & B).
  assert (D : {In RFile cs} + {~ In RFile cs}) by (apply in_dec; decide equality).
  destruct D as [I|I]; [rewrite (A I) in C|rewrite (B I) in C; discriminate].
  destruct (files _) as [t|]; [|discriminate]. injection C as <- _ _.
  assert (LC : last_component (path ++ [b]) = b).
  { unfold last_component. rewrite filter_app. cbn [filter].
    destruct (String.eqb_spec b ""); [contradiction|]. destruct (String.eqb_spec b "."); [contradiction|]. cbn. apply last_last. }
  rewrite LC. exists (strip_name_ext b). split; [reflexivity|]. apply strip_name.
Qed.
Print Assumptions C102_name.

(** C102: every schema the parser has loaded from somewhere was read from the text there. *)
Theorem C102_loaded_partial : forall url_parse url_join files web cs parse fuel ops p e l,
  (forall r u, request_url url_parse url_join r = Some u -> ordinary u) -> keeps_resolver ops ->
  parser_run (config_resolver url_parse url_join files web cs) parse fuel ops parser_new = Some (Ok p) ->
  In e (loaded (pa_entries p)) -> pe_location e = Some l ->
  exists u text d, u_text u = l /\ text_at files web cs u text /\ parse text = Some d /\ pe_schema e = set_target d (pe_target e).
Proof.
  intros url_parse url_join files web cs parse fuel ops p e l O K R J L.
  destruct (C39_from_partial _ parse fuel ops p e l K R J L) as (r & text & d & A & P & S1).
  destruct (request_url url_parse url_join r) as [u|] eqn:E.
  - destruct (proj2 (found url_parse url_join files web cs r u E (O r u E)) _ _ _ A) as (-> & T). eauto 7.
  - rewrite no_url in A by exact E. discriminate.
Qed.
Print Assumptions C102_loaded_partial.

(** C102: every schema that another one includes or imports is loaded from the URL that its
    location means there. *)
Theorem C102_closed_partial : forall url_parse url_join files web cs parse fuel ops p e c r kind,
  (forall r u, request_url url_parse url_join r = Some u -> ordinary u) -> keeps_resolver ops -> always_includes ops ->
  parser_run (config_resolver url_parse url_join files web cs) parse fuel ops parser_new = Some (Ok p) ->
  In e (loaded (pa_entries p)) -> refers e c r kind ->
  exists u e', match pe_location e with Some base => url_join base (rq_location r) | None => url_parse (rq_location r) end = Some u /\
    In e' (loaded (pa_entries p)) /\ pe_location e' = Some (u_text u).
Proof.
  intros url_parse url_join files web cs parse fuel ops p e c r kind O K I R J F.
  destruct (C39_closed_partial _ parse fuel ops p e c r kind K I R J F) as (l & e' & (name & text & A) & J' & L).
  assert (Q : rq_current r = pe_location e).
  { destruct F as (_ & F). destruct c as [loc ns|loc|loc|loc|]; cbn in F; try (injection F as <- _; reflexivity); [|discriminate].
    unfold import_req in F. destruct loc; [|discriminate]. destruct ns; injection F as <- _; reflexivity. }
  destruct (request_url url_parse url_join r) as [u|] eqn:E.
  - destruct (proj2 (found url_parse url_join files web cs r u E (O r u E)) _ _ _ A) as (-> & _).
    exists u, e'. split; [|auto]. rewrite <- Q. exact E.
  - rewrite no_url in A by exact E. discriminate.
Qed.
Print Assumptions C102_closed_partial.

(** A schema of a file that includes one in the same folder and imports one of the web. *)
Definition ex_url_parse (s : string) : option url :=
  if String.eqb s "file:///d/main.xsd" then Some (Url "file" None (Some ["d"; "main.xsd"]) s) else None.
Definition ex_url_join (base s : string) : option url :=
  if String.eqb s "http://h/o.xsd" then Some (Url "http" (Some "h") (Some ["o.xsd"]) s)
  else Some (Url "file" None (Some ["d"; s]) ("file:///d/" ++ s)).
Definition ex_files (p : list string) : option string :=
  match p with ["d"; f] => if String.eqb f "main.xsd" then Some "main" else if String.eqb f "part.xml" then Some "part" else None | _ => None end.
Definition ex_web (u : url) : option (nat * string) := if String.eqb (u_text u) "http://h/o.xsd" then Some (200, "other") else None.
Definition ex_docs (t : string) : option schema_doc :=
  Some (SchemaDoc (Some (if String.eqb t "other" then "urn:b" else "urn:a"))
    (if String.eqb t "main" then [CInclude "part.xml"; CImport (Some "http://h/o.xsd") (Some "urn:b")] else []) [] t).
Example C102_case_ordinary : forall r u, request_url ex_url_parse ex_url_join r = Some u -> ordinary u.
Proof.
  intros r u. unfold request_url, ex_url_parse, ex_url_join. destruct (rq_current r); destruct (String.eqb _ _); intros [= <-].
  - right. split; [discriminate|]. exists "h". split; [reflexivity|discriminate].
  - left. eexists. repeat split. auto.
  - left. eexists. repeat split. auto.
Qed.
Example C102_case_loaded : exists p,
  parser_run (config_resolver ex_url_parse ex_url_join ex_files ex_web [RWeb; RFile]) ex_docs 20 [OpUrl "file:///d/main.xsd"] parser_new = Some (Ok p) /\
  map (fun e => (pe_name e, pe_location e, sd_rest (pe_schema e))) (loaded (pa_entries p)) =
    [(Some "main", Some "file:///d/main.xsd", "main"); (Some "part", Some "file:///d/part.xml", "part"); (Some "o", Some "http://h/o.xsd", "other")].
Proof. eexists. split; [vm_compute; reflexivity|]. vm_compute. reflexivity. Qed.

(** A resolver that fails stops the ones after it, also for requests they could answer: a file that
    is missing is not looked for elsewhere. *)
Theorem C102_fallback_refuted : forall url_parse url_join files (St : Type) r u p (s : St) name l text,
  request_url url_parse url_join r = Some u -> local_file u p -> files p = None ->
  let custom := (s, fun s r => (Ok (Some (name, l, text)) : answer, s)) in
  fst (many_resolve St [(s, fun s r => (file_resolve url_parse url_join files r, s)); custom] r) = Err tt /\
  fst (many_resolve St [custom] r) = Ok (Some (name, l, text)).
Proof.
  intros url_parse url_join files St r u p s name l text E L F. split; [|reflexivity].
  cbn. unfold file_resolve. rewrite E, (file_path u p L), F. reflexivity.
Qed.
Print Assumptions C102_fallback_refuted.

(** The page of an error, with any status, is taken for the schema. *)
Theorem C102_status_refuted : forall url_parse url_join files web cs r u status text,
  request_url url_parse url_join r = Some u -> remote u -> on_the_web u -> In RWeb cs -> web u = Some (status, text) ->
  exists name, config_resolver url_parse url_join files web cs r = Ok (Some (name, u_text u, text)).
Proof.
  intros url_parse url_join files web cs r u status text E R W I F.
  rewrite (proj1 (web_config url_parse url_join files web cs r u E R W) I), F. eauto.
Qed.
Print Assumptions C102_status_refuted.

(** http://localhost/s.xsd is taken for the file /s.xsd if the file resolver is the first one. *)
Theorem C102_localhost_refuted : exists url_parse url_join files web r u status text,
  request_url url_parse url_join r = Some u /\ on_the_web u /\ web u = Some (status, text) /\
  config_resolver url_parse url_join files web [RWeb; RFile] r = Ok (Some (Some "s", u_text u, text)) /\
  config_resolver url_parse url_join files web [RFile; RWeb] r = Err tt.
Proof.
  exists (fun s => Some (Url "http" (Some "localhost") (Some ["s.xsd"]) s)), (fun _ _ => None), (fun _ => None), (fun _ => Some (200, "text")),
    (Request "http://localhost/s.xsd" None None None UserDefined), (Url "http" (Some "localhost") (Some ["s.xsd"]) "http://localhost/s.xsd"), 200, "text".
  split; [reflexivity|]. split; [left; reflexivity|]. split; [reflexivity|]. split; reflexivity.
Qed.
Print Assumptions C102_localhost_refuted.

(** The name of a schema of the web keeps the query and then also the extension. *)
Theorem C102_name_refuted : exists url_parse url_join files web r,
  config_resolver url_parse url_join files web [RWeb] r = Ok (Some (Some "s.xsd?v=1", "http://h/s.xsd?v=1", "text")).
Proof.
  exists (fun s => Some (Url "http" (Some "h") (Some ["s.xsd"]) s)), (fun _ _ => None), (fun _ => None), (fun _ => Some (200, "text")),
    (Request "http://h/s.xsd?v=1" None None None UserDefined). reflexivity.
Qed.
Print Assumptions C102_name_refuted.

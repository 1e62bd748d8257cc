(** C39, C40, C41, C59: loading schemas. *)
From Verif Require Import ParserModel ParserSpec ParserProofs CacheProofs.
From Coq Require Import NArith.
Local Open Scope string_scope.

Lemma asked_new resolver : asked resolver parser_new.
Proof. split; [reflexivity|]. intros e c r kind []. Qed.

(** C39: however the parser is used with one resolver, no location is loaded twice. *)
Theorem C39_once_partial resolver parse fuel ops p : keeps_resolver ops ->
  parser_run resolver parse fuel ops parser_new = Some (Ok p) ->
  NoDup (locations (loaded (pa_entries p))).
Proof.
  intros K R. destruct (parser_run_inv resolver parse fuel ops parser_new p) as (I & _); auto.
  - apply pinv_new.
  - apply I.
Qed.
Print Assumptions C39_once_partial.

(** C39: if includes are followed, then after a successful use whatever any loaded schema refers
    to is loaded: a schema is there that comes from the location the resolver answers with. *)
Theorem C39_closed_partial resolver parse fuel ops p e c r kind : keeps_resolver ops -> always_includes ops ->
  parser_run resolver parse fuel ops parser_new = Some (Ok p) ->
  In e (loaded (pa_entries p)) -> refers e c r kind ->
  exists l e', answers resolver r l /\ In e' (loaded (pa_entries p)) /\ pe_location e' = Some l.
Proof.
  intros K A R J RF. destruct (parser_run_inv resolver parse fuel ops parser_new p) as (I & Q & _); auto; [apply pinv_new|].
  destruct (parser_run_asked resolver parse fuel ops parser_new p (asked_new resolver) K A R) as (_ & X).
  destruct (X e c r kind J RF) as [(i & Y)|(l & ids & AN & C)]; [rewrite Q in Y; destruct Y|].
  assert (Z : In l (locations (loaded (pa_entries p)))) by (apply (pv_cache _ _ _ I); eauto).
  apply locations_in in Z as (e' & E' & L). eauto.
Qed.
Print Assumptions C39_closed_partial.

(** C39: nothing else is loaded: a schema with a location is what the resolver answered with for
    the request it was loaded for, read as a schema (up to the target namespace, see C59). *)
Theorem C39_from_partial resolver parse fuel ops p e l : keeps_resolver ops ->
  parser_run resolver parse fuel ops parser_new = Some (Ok p) ->
  In e (loaded (pa_entries p)) -> pe_location e = Some l ->
  exists r text d, resolver r = Ok (Some (pe_name e, l, text)) /\ parse text = Some d /\
    pe_schema e = set_target d (pe_target e).
Proof.
  intros K R J L. destruct (parser_run_inv resolver parse fuel ops parser_new p) as (I & _); auto; [apply pinv_new|].
  destruct (pv_from _ _ _ I e l J L) as (r & text & d & A & B & _ & C). eauto 6.
Qed.
Print Assumptions C39_from_partial.

(** C39: working off the pending references ends, whatever refers to what (cycles included), if
    the resolver only ever answers with finitely many locations. *)
Theorem C39_ends resolver parse U p : (forall r l, answers resolver r l -> In l U) ->
  exists n, forall fuel, n <= fuel -> exists res, resolve_pending resolver parse fuel p = Some res.
Proof.
  intros H. apply (resolve_pending_ends resolver parse U H (S (unloaded U p)) (S (length (pa_pending p)))); lia.
Qed.
Print Assumptions C39_ends.

(** Documents that refer to each other and to themselves. *)
Definition doc (ns : option string) (cs : list content) (x : list (option string * list string)) : schema_doc := SchemaDoc ns cs x "".
Definition parse_ex (t : string) : option schema_doc :=
  if String.eqb t "A" then Some (doc (Some "urn:a") [CInclude "b.xsd"; COther; CImport (Some "c.xsd") (Some "urn:c")] [(Some "urn:a", ["a"])])
  else if String.eqb t "B" then Some (doc None [CInclude "a.xsd"; CRedefine "b.xsd"] [])
  else if String.eqb t "C" then Some (doc (Some "urn:c") [CImport (Some "./b.xsd") (Some "urn:a")] [(Some "urn:c", ["c"]); (Some "urn:a", ["a"])])
  else if String.eqb t "D" then Some (doc None [] [])
  else None.
Definition resolver_ex (r : request) : outcome unit (option (option string * string * string)) :=
  let l := rq_location r in
  if String.eqb l "a.xsd" then Ok (Some (Some "a", "file:/a.xsd", "A"))
  else if String.eqb l "b.xsd" then Ok (Some (None, "file:/b.xsd", "B"))
  else if String.eqb l "./b.xsd" then Ok (Some (None, "file:/b.xsd", "B"))
  else if String.eqb l "c.xsd" then Ok (Some (None, "file:/c.xsd", "C"))
  else if String.eqb l "d.xsd" then Ok (Some (None, "file:/d.xsd", "D"))
  else Ok None.

Example C39_case :
  exists p, parser_run resolver_ex parse_ex 20 [OpUrl "a.xsd"; OpUrl "b.xsd"] parser_new = Some (Ok p) /\
    locations (loaded (pa_entries p)) = ["file:/a.xsd"; "file:/b.xsd"; "file:/c.xsd"] /\
    keeps_resolver [OpUrl "a.xsd"; OpUrl "b.xsd"] /\ always_includes [OpUrl "a.xsd"; OpUrl "b.xsd"] /\
    forall r l, answers resolver_ex r l -> In l ["file:/a.xsd"; "file:/b.xsd"; "file:/c.xsd"; "file:/d.xsd"].
Proof.
  eexists. split; [vm_compute; reflexivity|]. split; [vm_compute; reflexivity|]. split; [intros [[=]|[[=]|[]]]|].
  split; [intros [[=]|[[=]|[]]]|]. intros r l (n & t & E). unfold resolver_ex in E. cbn zeta in E.
  repeat (destruct (String.eqb _ _); [injection E as _ <- _; cbn; auto 6|]). discriminate.
Qed.

(** C39 fails if the resolver is set after a schema was added: the parser forgets what it loaded,
    and the same location is loaded again. *)
Theorem C39_once_refuted : exists resolver parse fuel ops p,
  parser_run resolver parse fuel ops parser_new = Some (Ok p) /\ ~ NoDup (locations (loaded (pa_entries p))).
Proof.
  eexists resolver_ex, parse_ex, 20, [OpUrl "d.xsd"; OpResolver; OpUrl "d.xsd"], _. split; [vm_compute; reflexivity|].
  cbn. intros N. inversion N as [|x l NI _]. apply NI. left. reflexivity.
Qed.
Print Assumptions C39_once_refuted.

(** C40: after every use with one resolver the schemas can be built, and they are numbered 1, 2,
    ... in the order they were loaded, each with its name, content and location and with the
    identifier of its namespace. *)
Theorem C40_schemas_partial resolver parse fuel ops order p : keeps_resolver ops ->
  parser_run resolver parse fuel ops parser_new = Some (Ok p) ->
  exists s, parser_finish order p = Ok s /\
    (forall id e, numbered (pa_entries p) id e -> exists i, get id (sm_schemas s) = Some i /\
       si_name i = pe_name e /\ si_schema i = pe_schema e /\ si_location i = pe_location e /\
       resolve_namespace s (pe_target e) = Some (si_namespace i)) /\
    (forall id i, get id (sm_schemas s) = Some i -> exists e, numbered (pa_entries p) id e).
Proof.
  intros K R. destruct (parser_run_inv resolver parse fuel ops parser_new p) as (I & _); auto; [apply pinv_new|].
  destruct (finish_ok resolver parse order p I) as (s0 & s & E & B & _ & _ & S1 & S2 & _). exists s. split; [exact E|].
  unfold resolve_namespace. rewrite S1, S2. split.
  - intros id e N. assert (M : mentions (pa_entries p) (pe_target e)).
    { right. right. exists e. split; [|reflexivity]. destruct N as (k & _ & N). eapply nth_error_In; eauto. }
    apply (bv_mentions _ _ _ B) in M as (ns & M). eexists. split; [apply (bv_schema _ _ _ B); eauto|]. cbn. auto.
  - intros id i G. apply (bv_schema _ _ _ B) in G as (e & ns & N & _). eauto.
Qed.
Print Assumptions C40_schemas_partial.

(** C40: every namespace that was given or is the target of a loaded schema has one identifier,
    different namespaces have different ones, no identifier is the unknown one (0), 1 stands for
    the absence of a namespace, and a namespace lists exactly the schemas that have it as target. *)
Theorem C40_namespaces_partial resolver parse fuel ops order p s : keeps_resolver ops ->
  parser_run resolver parse fuel ops parser_new = Some (Ok p) -> parser_finish order p = Ok s ->
  (forall ns, (exists id, resolve_namespace s ns = Some id) <-> mentions (pa_entries p) ns) /\
  (forall ns ns' id, resolve_namespace s ns = Some id -> resolve_namespace s ns' = Some id -> ns = ns') /\
  (forall ns id, resolve_namespace s ns = Some id -> id <> 0 /\ (id = 1 <-> ns = None)) /\
  (forall ns id, resolve_namespace s ns = Some id <-> exists i, get id (sm_infos s) = Some i /\ ni_namespace i = ns) /\
  (forall id i k, get id (sm_infos s) = Some i ->
     (In k (ni_schemas i) <-> exists e, numbered (pa_entries p) k e /\ pe_target e = ni_namespace i)).
Proof.
  intros K R F. destruct (parser_run_inv resolver parse fuel ops parser_new p) as (I & _); auto; [apply pinv_new|].
  destruct (finish_ok resolver parse order p I) as (s0 & s' & E & B & _ & _ & S1 & S2 & SI). rewrite E in F. injection F as ->.
  assert (RN : forall ns, resolve_namespace s ns = resolve_namespace s0 ns) by (intros ns; unfold resolve_namespace; rewrite S2; reflexivity).
  assert (IFF : forall ns id, resolve_namespace s ns = Some id <-> exists i, get id (sm_infos s) = Some i /\ ni_namespace i = ns).
  { intros ns id. rewrite RN. split.
    - intros H. destruct (bv_ns _ _ _ B ns id H) as ((i & G & Ei) & _).
      destruct (forall2_get' _ _ _ _ SI G) as (j & G' & _ & EJ & _). exists j. split; [exact G'|]. cbn in EJ. congruence.
    - intros (j & G & <-). destruct (forall2_get _ _ _ _ SI G) as (i & G' & _ & EJ & _). cbn in EJ. rewrite <- EJ.
      apply (bv_info _ _ _ B id i G'). }
  split; [|split; [|split; [|split]]].
  - intros ns. setoid_rewrite RN. apply (bv_mentions _ _ _ B).
  - intros ns ns' id H H'. apply IFF in H as (i & G & <-). apply IFF in H' as (i' & G' & <-). congruence.
  - intros ns id H. rewrite RN in H. destruct (bv_ns _ _ _ B ns id H) as (_ & _ & N & Z). split; [exact Z|]. symmetry. exact N.
  - exact IFF.
  - intros id i k G. destruct (forall2_get _ _ _ _ SI G) as (i0 & G0 & _ & E1 & E2 & _). cbn in E1, E2. rewrite <- E1, <- E2.
    apply (bv_info _ _ _ B id i0 G0).
Qed.
Print Assumptions C40_namespaces_partial.

(** C40: every dependency of a schema in the result is the one for a reference of that schema, of
    the right kind, and points to the schema loaded from the location the resolver answers with. *)
Theorem C40_dependencies_partial resolver parse fuel ops order p s id i loc d : keeps_resolver ops ->
  parser_run resolver parse fuel ops parser_new = Some (Ok p) -> parser_finish order p = Ok s ->
  get id (sm_schemas s) = Some i -> In (loc, d) (si_dependencies i) ->
  exists e c r kind l n e', numbered (pa_entries p) id e /\ refers e c r kind /\ rq_location r = loc /\
    answers resolver r l /\ numbered (pa_entries p) n e' /\ pe_location e' = Some l /\ d = kind n.
Proof.
  intros K R F G D. destruct (parser_run_inv resolver parse fuel ops parser_new p) as (I & Q & _); auto; [apply pinv_new|].
  destruct (finish_ok resolver parse order p I) as (s0 & s' & E & B & _ & _ & S1 & S2 & SI). rewrite E in F. injection F as ->.
  rewrite S1 in G. apply (bv_schema _ _ _ B) in G as (e & ns & N & _ & ->). cbn in D.
  apply map_deps_in in D as (d0 & n & D & GN & ->).
  assert (J : In e (loaded (pa_entries p))) by (destruct N as (k & _ & N); eapply nth_error_In; eauto).
  destruct (deps_renumbered resolver parse p e loc d0 I Q J D) as (c & r & kind & l & e' & n' & X1 & X2 & X3 & X4 & X5 & X6 & X7).
  rewrite GN in X6. injection X6 as ->. exists e, c, r, kind, l, n', e'. auto 8.
Qed.
Print Assumptions C40_dependencies_partial.

(** C40: and if includes are followed no reference is lost: each location a schema refers to has
    a dependency. *)
Theorem C40_dependencies_kept_partial resolver parse fuel ops order p s id i e c r kind : keeps_resolver ops -> always_includes ops ->
  parser_run resolver parse fuel ops parser_new = Some (Ok p) -> parser_finish order p = Ok s ->
  get id (sm_schemas s) = Some i -> numbered (pa_entries p) id e -> refers e c r kind ->
  exists d, In (rq_location r, d) (si_dependencies i).
Proof.
  intros K A R F G N RF. destruct (parser_run_inv resolver parse fuel ops parser_new p) as (I & Q & KP); auto; [apply pinv_new|].
  destruct KP as (_ & KP); [exact A| |].
  { split; [reflexivity|]. intros ? ? ? ? []. }
  destruct (finish_ok resolver parse order p I) as (s0 & s' & E & B & _ & _ & S1 & S2 & SI). rewrite E in F. injection F as ->.
  rewrite S1 in G. apply (bv_schema _ _ _ B) in G as (e1 & ns & N1 & _ & ->). cbn.
  assert (e1 = e). { destruct N as (k & -> & N), N1 as (k1 & [= <-] & N1). congruence. } subst e1.
  assert (J : In e (loaded (pa_entries p))) by (destruct N as (k & _ & N); eapply nth_error_In; eauto).
  pose proof (KP e c r kind J RF) as L. apply in_map_iff in L as ([loc d0] & EL & L). cbn in EL. subst loc.
  destruct (deps_renumbered resolver parse p e _ d0 I Q J L) as (c' & r' & kind' & l & e' & n & _ & _ & _ & _ & _ & X6 & _).
  exists (dep_map d0 n). apply map_deps_in. eauto.
Qed.
Print Assumptions C40_dependencies_kept_partial.

Definition ops_ex : list parser_op := [OpAnonymous; OpNamespace "xs" "urn:xs"; OpUrl "a.xsd"; OpStr None "D"].
Example C40_case :
  exists p s, keeps_resolver ops_ex /\ always_includes ops_ex /\
    parser_run resolver_ex parse_ex 20 ops_ex parser_new = Some (Ok p) /\ parser_finish (fun l => l) p = Ok s /\
    map fst (sm_schemas s) = [1; 2; 3; 4] /\
    map (fun x => (fst x, ni_namespace (snd x), ni_schemas (snd x))) (sm_infos s) =
      [(1, None, [4]); (2, Some "urn:xs", []); (3, Some "urn:a", [1; 2]); (4, Some "urn:c", [3])] /\
    map (fun x => si_dependencies (snd x)) (sm_schemas s) =
      [[("b.xsd", DInclude 2); ("c.xsd", DImport 3)]; [("a.xsd", DInclude 1); ("b.xsd", DRedefine 2)]; [("./b.xsd", DImport 2)]; []].
Proof.
  eexists _, _. split; [intros H; cbn in H; intuition discriminate|]. split; [intros H; cbn in H; intuition discriminate|].
  split; [vm_compute; reflexivity|]. split; [vm_compute; reflexivity|]. vm_compute. auto.
Qed.

(** C40 fails if the resolver is set after a schema was added: the temporary identifiers start
    again, and building the schemas panics. *)
Theorem C40_refuted : exists resolver parse fuel ops p,
  parser_run resolver parse fuel ops parser_new = Some (Ok p) /\ parser_finish (fun l => l) p = Panic.
Proof.
  eexists resolver_ex, parse_ex, 20, [OpStr None "D"; OpResolver; OpUrl "a.xsd"], _. split; vm_compute; reflexivity.
Qed.
Print Assumptions C40_refuted.

(** C41: in the result looking up the prefix of a namespace gives that namespace, so no two
    namespaces have the same prefix, provided that no declared prefix ends in an underscore and
    a number or that prefixes are not generated. *)
Theorem C41_unique_partial resolver parse fuel ops order p s : keeps_resolver ops ->
  (forall l x, In x (order l) <-> In x l) ->
  parser_run resolver parse fuel ops parser_new = Some (Ok p) -> parser_finish order p = Ok s ->
  (pa_generate p = true -> forall x, declared (pa_entries p) x -> ~ numbered_prefix x) ->
  (forall id i x, get id (sm_infos s) = Some i -> ni_prefix i = Some x -> resolve_prefix s x = Some id) /\
  (forall id id' i i' x, get id (sm_infos s) = Some i -> get id' (sm_infos s) = Some i' ->
     ni_prefix i = Some x -> ni_prefix i' = Some x -> id = id') /\
  (forall x id, resolve_prefix s x = Some id -> exists i, get id (sm_infos s) = Some i).
Proof.
  intros K O R F NP. destruct (parser_run_inv resolver parse fuel ops parser_new p) as (I & Q & _); auto; [apply pinv_new|].
  destruct (finish_ok resolver parse order p I) as (s0 & s' & E & B & P0 & D & S1 & S2 & SI). rewrite E in F. injection F as ->.
  destruct (determine_good order O (pa_entries p) (pa_generate p) (pa_alternative p) s0 s P0) as (G & H); [|exact NP|exact D|].
  { intros id i J. apply (bv_info _ _ _ B id i). apply get_in_nodup; [apply B|exact J]. }
  assert (X : forall id i x, get id (sm_infos s) = Some i -> ni_prefix i = Some x -> resolve_prefix s x = Some id).
  { intros id i x J P. destruct (H id i (got_in _ _ _ J)) as (_ & Z). exact (Z x P). }
  split; [exact X|]. split.
  - intros id id' i i' x J J' P P'. pose proof (X _ _ _ J P). pose proof (X _ _ _ J' P'). congruence.
  - intros x id J. destruct (G x id J) as (IN & _). rewrite <- (forall2_keys _ _ SI) in IN. apply get_key in IN. exact IN.
Qed.
Print Assumptions C41_unique_partial.

(** C41: the prefix of a namespace is one that was declared for it, or (if prefixes may be
    generated) such a prefix followed by an underscore and the identifier of the namespace. *)
Theorem C41_origin_partial resolver parse fuel ops order p s id i x : keeps_resolver ops ->
  (forall l x, In x (order l) <-> In x l) ->
  parser_run resolver parse fuel ops parser_new = Some (Ok p) -> parser_finish order p = Ok s ->
  (pa_generate p = true -> forall x, declared (pa_entries p) x -> ~ numbered_prefix x) ->
  get id (sm_infos s) = Some i -> ni_prefix i = Some x ->
  exists y, declared_for (pa_entries p) (ni_namespace i) y /\
    (x = y \/ (pa_generate p = true /\ x = (y ++ "_" ++ show id)%string)).
Proof.
  intros K O R F NP J P. destruct (parser_run_inv resolver parse fuel ops parser_new p) as (I & Q & _); auto; [apply pinv_new|].
  destruct (finish_ok resolver parse order p I) as (s0 & s' & E & B & P0 & D & S1 & S2 & SI). rewrite E in F. injection F as ->.
  destruct (determine_good order O (pa_entries p) (pa_generate p) (pa_alternative p) s0 s P0) as (_ & H); [|exact NP|exact D|].
  { intros n j IN. apply (bv_info _ _ _ B n j). apply get_in_nodup; [apply B|exact IN]. }
  destruct (H id i (got_in _ _ _ J)) as (Z & _). exact (Z x P).
Qed.
Print Assumptions C41_origin_partial.

(** C41: with generated prefixes every namespace for which a prefix was declared has a prefix. *)
Theorem C41_complete_partial resolver parse fuel ops order p s id i x : keeps_resolver ops ->
  (forall l x, In x (order l) <-> In x l) ->
  parser_run resolver parse fuel ops parser_new = Some (Ok p) -> parser_finish order p = Ok s -> pa_generate p = true ->
  get id (sm_infos s) = Some i -> declared_for (pa_entries p) (ni_namespace i) x ->
  exists y, ni_prefix i = Some y.
Proof.
  intros K O R F G J P. destruct (parser_run_inv resolver parse fuel ops parser_new p) as (I & Q & _); auto; [apply pinv_new|].
  destruct (finish_ok resolver parse order p I) as (s0 & s' & E & B & P0 & D & S1 & S2 & SI). rewrite E in F. injection F as ->.
  rewrite G in D. eapply determine_complete; [exact O|exact D|apply got_in, J|exact P].
Qed.
Print Assumptions C41_complete_partial.

(** C41: the last prefix the user gives for a namespace is its prefix if it is declared for no
    other namespace. *)
Theorem C41_user_partial resolver parse fuel ops order p s a b x ns : keeps_resolver ops ->
  parser_run resolver parse fuel ops parser_new = Some (Ok p) -> parser_finish order p = Ok s ->
  pa_entries p = (a ++ PENamespace x ns :: b)%list -> (forall y, ~ In (PENamespace y ns) b) ->
  (forall n, declared_for (pa_entries p) n x -> n = Some ns) ->
  exists id i, resolve_namespace s (Some ns) = Some id /\ get id (sm_infos s) = Some i /\ ni_prefix i = Some x.
Proof.
  intros K R F EP NB DF. destruct (parser_run_inv resolver parse fuel ops parser_new p) as (I & Q & _); auto; [apply pinv_new|].
  destruct (finish_ok resolver parse order p I) as (s0 & s' & E & B & P0 & D & S1 & S2 & SI). rewrite E in F. injection F as ->.
  assert (M : mentions (pa_entries p) (Some ns)).
  { right. left. exists x, ns. split; [reflexivity|]. rewrite EP. apply in_app_iff. right. left. reflexivity. }
  apply (bv_mentions _ _ _ B) in M as (id & M). destruct (bv_ns _ _ _ B _ _ M) as ((i & G & EI) & _).
  rewrite EP in D, DF.
  destruct (determine_user order a b ns x (pa_generate p) (pa_alternative p) s0 s id i P0) as (j & J & PJ); auto.
  - intros n k IN. apply (bv_info _ _ _ B n k). apply get_in_nodup; [apply B|exact IN].
  - apply B.
  - apply got_in, G.
  - intros n k IN NE EK. apply (get_in_nodup _ _ _ (bv_keys _ _ _ B)) in IN.
    destruct (bv_info _ _ _ B n k IN) as (X & _). rewrite EK in X. congruence.
  - exists id, j. unfold resolve_namespace. rewrite S2. auto.
Qed.
Print Assumptions C41_user_partial.

Definition ops_px : list parser_op := [OpNamespace "p" "A"; OpNamespace "p" "B"; OpNamespace "q" "B"; OpUrl "a.xsd"; OpNamespace "a" "D"].
Example C41_case :
  exists p s, keeps_resolver ops_px /\
    parser_run resolver_ex parse_ex 20 ops_px parser_new = Some (Ok p) /\ parser_finish (fun l => l) p = Ok s /\
    map (fun x => (fst x, ni_namespace (snd x), ni_prefix (snd x))) (sm_infos s) =
      [(2, Some "A", Some "p"); (3, Some "B", Some "q"); (4, Some "urn:a", Some "a"); (5, Some "urn:c", Some "c"); (6, Some "D", Some "a_6")] /\
    map (resolve_prefix s) ["p"; "q"; "a"; "c"; "a_6"] = map Some [2; 3; 4; 5; 6] /\
    (forall x, declared (pa_entries p) x -> ~ numbered_prefix x).
Proof.
  eexists _, _. split; [intros H; cbn in H; intuition discriminate|].
  split; [vm_compute; reflexivity|]. split; [vm_compute; reflexivity|]. split; [vm_compute; reflexivity|]. split; [vm_compute; reflexivity|].
  intros x (n & D) (y & m & E).
  assert (X : In x ["p"; "q"; "a"; "c"]).
  { destruct D as [(k & -> & D)|(e & xs & L & D & J)].
    - cbn in D. intuition; match goal with H : PENamespace _ _ = _ |- _ => injection H as <- _; cbn; auto | H : PESchema _ = _ |- _ => discriminate H end.
    - cbn in L. repeat (destruct L as [<-|L]; [cbn in D; repeat (destruct D as [D|D]; [injection D as <- <-; cbn in J; intuition; subst; cbn; auto|]); destruct D|]). destruct L. }
  cbn in X. assert (LEN : String.length x = 1) by (clear D E; intuition; subst; reflexivity).
  subst x. clear X. assert (S1 : String.length (y ++ "_" ++ show m) >= 2).
  { assert (Z : String.length (show m) >= 1).
    { unfold show. destruct (N.to_uint (N.of_nat m)); cbn; lia. }
    clear - Z. induction y; cbn in *; lia. }
  lia.
Qed.

(** C41 fails if a declared prefix looks like a generated one: the generated prefix takes it away. *)
Theorem C41_refuted : exists resolver parse fuel ops p s i i',
  keeps_resolver ops /\ parser_run resolver parse fuel ops parser_new = Some (Ok p) /\ parser_finish (fun l => l) p = Ok s /\
  get 3 (sm_infos s) = Some i /\ get 4 (sm_infos s) = Some i' /\ ni_prefix i = Some "p_3" /\ ni_prefix i' = Some "p_3".
Proof.
  eexists resolver_ex, parse_ex, 20, [OpNamespace "p" "A"; OpNamespace "p" "B"; OpNamespace "p_3" "C"], _, _, _, _.
  split; [intros H; cbn in H; intuition discriminate|]. vm_compute. repeat split.
Qed.
Print Assumptions C41_refuted.

(** C59: a schema brought in by another one keeps the target namespace it declares, which for an
    include, redefine or override is that of the schema asking for it (if that has one); without
    a declared target namespace it gets that of the schema asking for it. *)
Theorem C59_namespace_partial resolver parse fuel ops p e l : keeps_resolver ops ->
  parser_run resolver parse fuel ops parser_new = Some (Ok p) ->
  In e (loaded (pa_entries p)) -> pe_location e = Some l ->
  exists r text d, resolver r = Ok (Some (pe_name e, l, text)) /\ parse text = Some d /\
    namespace_from (sd_target d) r (pe_target e).
Proof.
  intros K R J L. destruct (parser_run_inv resolver parse fuel ops parser_new p) as (I & _); auto; [apply pinv_new|].
  destruct (pv_from _ _ _ I e l J L) as (r & text & d & A & B & C & _). eauto 6.
Qed.
Print Assumptions C59_namespace_partial.

(** C59: an include of a not yet loaded document with another target namespace is refused. *)
Theorem C59_mismatch_refused resolver parse p id r name l text d ns cur :
  resolver r = Ok (Some (name, l, text)) -> assoc l (pa_cache p) = None -> parse text = Some d ->
  rq_type r = IncludeRequest -> sd_target d = Some ns -> rq_current_ns r = Some cur -> ns <> cur ->
  resolve_location resolver parse p id r = Err (MismatchingTargetNamespace l ns cur).
Proof.
  intros A C P T S Q N. unfold resolve_location, apply_namespace. rewrite A, C, P, Q, S, T.
  apply String.eqb_neq in N. rewrite N. reflexivity.
Qed.
Print Assumptions C59_mismatch_refused.

Definition parse_59 (t : string) : option schema_doc :=
  if String.eqb t "I" then Some (doc (Some "urn:i") [CImport (Some "n.xsd") None] [])
  else if String.eqb t "N" then Some (doc None [] [])
  else if String.eqb t "X" then Some (doc (Some "urn:x") [CInclude "n.xsd"] [])
  else if String.eqb t "Y" then Some (doc (Some "urn:y") [CInclude "n.xsd"] [])
  else if String.eqb t "Z" then Some (doc (Some "urn:z") [CInclude "y.xsd"] [])
  else None.
Definition resolver_59 (r : request) : outcome unit (option (option string * string * string)) :=
  let l := rq_location r in
  if String.eqb l "n.xsd" then Ok (Some (None, "file:/n.xsd", "N"))
  else if String.eqb l "y.xsd" then Ok (Some (None, "file:/y.xsd", "Y"))
  else Ok None.

Example C59_case : exists p e,
  keeps_resolver [OpStr None "X"] /\ parser_run resolver_59 parse_59 20 [OpStr None "X"] parser_new = Some (Ok p) /\
  numbered (pa_entries p) 2 e /\ pe_location e = Some "file:/n.xsd" /\ pe_target e = Some "urn:x" /\
  exists err, parser_run resolver_59 parse_59 20 [OpStr None "Z"] parser_new = Some (Err err).
Proof.
  eexists _, _. split; [intros [[=]|[]]|]. split; [vm_compute; reflexivity|]. split; [exists 1; split; [reflexivity|vm_compute; reflexivity]|].
  split; [reflexivity|]. split; [reflexivity|]. eexists. vm_compute. reflexivity.
Qed.

(** C59 fails for an imported schema without target namespace: it is given the importer's. *)
Theorem C59_import_refuted : exists resolver parse fuel ops p e d,
  keeps_resolver ops /\ parser_run resolver parse fuel ops parser_new = Some (Ok p) /\
  In e (loaded (pa_entries p)) /\ pe_location e = Some "file:/n.xsd" /\ parse "N" = Some d /\
  resolver (Request "n.xsd" None None (Some "urn:i") ImportRequest) = Ok (Some (None, "file:/n.xsd", "N")) /\
  sd_target d = None /\ pe_target e = Some "urn:i".
Proof.
  eexists resolver_59, parse_59, 20, [OpStr None "I"], _, _, _. split; [intros [[=]|[]]|]. split; [vm_compute; reflexivity|].
  split; [right; left; reflexivity|]. vm_compute. auto 8.
Qed.
Print Assumptions C59_import_refuted.

(** C59 fails for a schema without target namespace that is included by schemas of two namespaces:
    it is loaded once, for the first; the second schema's include points to a schema of the wrong
    namespace. *)
Theorem C59_chameleon_refuted : exists resolver parse fuel ops p s i j,
  keeps_resolver ops /\ parser_run resolver parse fuel ops parser_new = Some (Ok p) /\ parser_finish (fun l => l) p = Ok s /\
  get 3 (sm_schemas s) = Some i /\ get 2 (sm_schemas s) = Some j /\
  si_dependencies i = [("n.xsd", DInclude 2)] /\ si_namespace i <> si_namespace j.
Proof.
  eexists resolver_59, parse_59, 20, [OpStr None "X"; OpStr None "Y"], _, _, _, _. split; [intros H; cbn in H; intuition discriminate|].
  split; [vm_compute; reflexivity|]. split; [vm_compute; reflexivity|]. split; [vm_compute; reflexivity|]. split; [vm_compute; reflexivity|].
  split; [reflexivity|]. cbn. discriminate.
Qed.
Print Assumptions C59_chameleon_refuted.

(** C59: an include of a schema with another target namespace is not noticed if that schema is
    already loaded. *)
Theorem C59_mismatch_refuted : exists resolver parse fuel ops p s i j,
  keeps_resolver ops /\ parser_run resolver parse fuel ops parser_new = Some (Ok p) /\ parser_finish (fun l => l) p = Ok s /\
  get 3 (sm_schemas s) = Some i /\ get 1 (sm_schemas s) = Some j /\
  si_dependencies i = [("y.xsd", DInclude 1)] /\ si_namespace i <> si_namespace j.
Proof.
  eexists resolver_59, parse_59, 20, [OpUrl "y.xsd"; OpStr None "Z"], _, _, _, _. split; [intros H; cbn in H; intuition discriminate|].
  split; [vm_compute; reflexivity|]. split; [vm_compute; reflexivity|]. split; [vm_compute; reflexivity|]. split; [vm_compute; reflexivity|].
  split; [reflexivity|]. cbn. discriminate.
Qed.
Print Assumptions C59_mismatch_refuted.

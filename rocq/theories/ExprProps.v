(** C107: the types that are written for fields. *)
From Verif Require Import ModModel ModSpec PathModel PathSpec ExprModel ExprSpec ExprProofs.
From Coq Require Import Lia.

(** The type that is written for an element is read by Rust, inside of the module it is
    written to and with the use declarations that are added, as the type of the element,
    wrapped if it is in mixed content or nillable.  [_partial]: not both; crates are not
    renamed if absolute paths are to be written; names are unambiguous (see below). *)
Theorem C107_element_partial : forall ident_ok c imports defs dst ops p r d mixed nillable group e,
  imports_of ident_ok dst ops imports -> unambiguous imports defs dst -> ident_list ident_ok [x_types c; x_alloc c] ->
  proper ident_ok c (x_mixed_type c) -> proper ident_ok c (x_nillable_type c) ->
  ref_path ident_ok c r = Ok d -> proper_ref ident_ok c imports defs dst p r ->
  element_type c mixed nillable (EvType d group) = Some e -> In (fst (resolve_type c dst e)) ops ->
  (mixed && negb group)%bool = false \/ (nillable && x_nillable c)%bool = false ->
  exists t, reads_type (snd (resolve_type c dst e)) t /\
    denote imports defs dst t =
    Some (around c (nillable && x_nillable c) (x_nillable_type c)
            (around c (mixed && negb group) (x_mixed_type c) (RType (ref_item c p r) []))).
Proof.
  intros ident_ok c imports defs dst ops p r d mixed nillable group e IO UN CR PM PN E PR EE I W.
  apply means_reads.
  exact (element_written ident_ok c imports defs dst ops IO UN CR p r d mixed nillable group e PM PN E PR EE (listed_op c dst ops e I) W).
Qed.
Print Assumptions C107_element_partial.

(** The type of the field is the one for how often the element occurs, boxed where this
    is needed. *)
Theorem C107_field_partial : forall ident_ok c imports defs dst ops p r d mixed nillable group e o indirect,
  imports_of ident_ok dst ops imports -> unambiguous imports defs dst -> ident_list ident_ok [x_types c; x_alloc c] ->
  proper ident_ok c (x_mixed_type c) -> proper ident_ok c (x_nillable_type c) ->
  ref_path ident_ok c r = Ok d -> proper_ref ident_ok c imports defs dst p r ->
  element_type c mixed nillable (EvType d group) = Some e -> In (fst (resolve_type c dst e)) ops ->
  (mixed && negb group)%bool = false \/ (nillable && x_nillable c)%bool = false ->
  std_idents ident_ok -> (x_build_in_absolute c = false -> std_visible imports defs dst) ->
  match make_type ident_ok c o (snd (resolve_type c dst e)) indirect with
  | Ok (Some ts) => exists t, reads_type ts t /\ denote imports defs dst t <> None /\
      denote imports defs dst t =
      occurring c o indirect (around c (nillable && x_nillable c) (x_nillable_type c)
        (around c (mixed && negb group) (x_mixed_type c) (RType (ref_item c p r) [])))
  | Ok None => o = OcNone
  | _ => False
  end.
Proof.
  intros ident_ok c imports defs dst ops p r d mixed nillable group e o indirect IO UN CR PM PN E PR EE I W SI SV.
  pose proof (element_written ident_ok c imports defs dst ops IO UN CR p r d mixed nillable group e PM PN E PR EE (listed_op c dst ops e I) W) as M.
  pose proof (occurs_means ident_ok c imports defs dst CR SI SV o indirect _ _ M) as H. cbn [snd resolve_type].
  destruct (make_type ident_ok c o (pd_resolve e dst) indirect) as [[ts|]| |]; try contradiction.
  - destruct (occurring _ _ _ _) as [t'|]; [|contradiction]. apply means_reads in H. destruct H as (t & R & D).
    exists t. split; [exact R|]. split; [rewrite D; discriminate|exact D].
  - destruct o; cbn [occurring] in H; try contradiction. reflexivity.
Qed.
Print Assumptions C107_field_partial.

(** So is the type of a reference. *)
Theorem C107_reference_partial : forall ident_ok c imports defs dst ops p r d nillable,
  imports_of ident_ok dst ops imports -> unambiguous imports defs dst -> ident_list ident_ok [x_types c; x_alloc c] ->
  proper ident_ok c (x_nillable_type c) ->
  ref_path ident_ok c r = Ok d -> proper_ref ident_ok c imports defs dst p r ->
  In (fst (resolve_type c dst (reference_type c nillable d))) ops ->
  exists t, reads_type (snd (resolve_type c dst (reference_type c nillable d))) t /\
    denote imports defs dst t = Some (around c (nillable && x_nillable c) (x_nillable_type c) (RType (ref_item c p r) [])).
Proof.
  intros ident_ok c imports defs dst ops p r d nillable IO UN CR PN E PR I.
  apply means_reads.
  exact (reference_written ident_ok c imports defs dst ops IO UN CR p r d nillable PN E PR (listed_op c dst ops _ I)).
Qed.
Print Assumptions C107_reference_partial.

(** Text, any element (also in mixed content) and any attributes have the configured
    types. *)
Theorem C107_content_partial : forall ident_ok c imports defs dst ops,
  imports_of ident_ok dst ops imports -> unambiguous imports defs dst -> ident_list ident_ok [x_types c; x_alloc c] ->
  (forall mixed nillable e, proper ident_ok c (x_text_type c) -> element_type c mixed nillable EvText = Some e ->
     In (fst (resolve_type c dst e)) ops ->
     exists t, reads_type (snd (resolve_type c dst e)) t /\
       denote imports defs dst t = Some (RType (configured c (x_text_type c)) [])) /\
  (forall mixed nillable e, proper ident_ok c (x_any_type c) -> proper ident_ok c (x_mixed_type c) ->
     element_type c mixed nillable EvAny = Some e -> In (fst (resolve_type c dst e)) ops ->
     exists t, reads_type (snd (resolve_type c dst e)) t /\
       denote imports defs dst t = Some (around c mixed (x_mixed_type c) (RType (configured c (x_any_type c)) []))) /\
  (forall e, proper ident_ok c (x_any_attributes_type c) -> any_attributes_type c = Some e ->
     In (fst (resolve_type c dst e)) ops ->
     exists t, reads_type (snd (resolve_type c dst e)) t /\
       denote imports defs dst t = Some (RType (configured c (x_any_attributes_type c)) [])).
Proof.
  intros ident_ok c imports defs dst ops IO UN CR. repeat split.
  - intros mixed nillable e P E I. cbn [element_type] in E. injection E as <-.
    apply means_reads. exact (text_written ident_ok c imports defs dst ops IO UN CR P (listed_op c dst ops _ I)).
  - intros mixed nillable e PA PM E I.
    apply means_reads. exact (any_written ident_ok c imports defs dst ops IO UN CR mixed nillable e PA PM E (listed_op c dst ops _ I)).
  - intros e P E I.
    apply means_reads. exact (any_attributes_written ident_ok c imports defs dst ops IO UN CR e P E (listed_op c dst ops _ I)).
Qed.
Print Assumptions C107_content_partial.

(** There are fields for any content exactly if they are configured. *)
Theorem C107_any : forall c mixed nillable,
  (element_type c mixed nillable EvAny = None <-> x_any c = false) /\ (any_attributes_type c = None <-> x_any c = false).
Proof. intros c mixed nillable. unfold any_attributes_type. cbn. destruct (x_any c); cbn; split; split; congruence. Qed.
Print Assumptions C107_any.

(** A nillable element in mixed content: whatever its type, what is written has two
    generic arguments, [Nillable<T, Mixed>], and is never a wrapper with one. *)
Theorem C107_both_refuted : forall ident_ok c r d e dst t,
  ref_path ident_ok c r = Ok d -> x_nillable c = true ->
  element_type c true true (EvType d false) = Some e -> reads_type (snd (resolve_type c dst e)) t ->
  forall imports defs w a, denote imports defs dst t <> Some (RType w [a]).
Proof. exact both_wrong. Qed.
Print Assumptions C107_both_refuted.
Example C107_both_case : exists e,
  element_type (xdefault false crate_types) true true (EvType (pd_from_path (path_from_parts [etxt "tns"] (etxt "T"))) false) = Some e /\
  reads_type (snd (resolve_type (xdefault false crate_types) [etxt "tns"] e))
    (TE false [etxt "Nillable"] [TE false [etxt "T"] []; TE false [etxt "Mixed"] []]).
Proof. eexists. split; [reflexivity|]. exists 4. vm_compute. reflexivity. Qed.

(** With absolute paths the configured name of the crate is not used. *)
Theorem C107_crate_refuted :
  let c := xdefault true (etxt "my_types") in
  exists e, element_type c false true (EvType (pd_from_path (path_from_parts [] (etxt "T"))) false) = Some e /\
    pd_usings e = [] /\
    reads_type (snd (resolve_type c [] e)) (TE true [crate_types; etxt "xml"; etxt "Nillable"] [TE false [etxt "T"] []]) /\
    configured c (x_nillable_type c) = ICrate [etxt "my_types"; etxt "xml"; etxt "Nillable"].
Proof.
  cbv zeta. eexists. split; [reflexivity|]. split; [reflexivity|]. split; [|reflexivity]. exists 3. vm_compute. reflexivity.
Qed.
Print Assumptions C107_crate_refuted.

(** A type of the schema that is called like the wrapper, in the same module: the use
    declaration and the definition exclude each other. *)
Theorem C107_names_refuted :
  let c := xdefault false crate_types in
  exists e u, element_type c false true (EvType (pd_from_path (path_from_parts [] (etxt "Nillable"))) false) = Some e /\
    fst (resolve_type c [] e) = OpUsings [] false [u] /\ names_path ascii_ident u [crate_types; etxt "xml"; etxt "Nillable"] /\
    reads_type (snd (resolve_type c [] e)) (TE false [etxt "Nillable"] [TE false [etxt "Nillable"] []]) /\
    forall imports defs, In [crate_types; etxt "xml"; etxt "Nillable"] imports -> In [etxt "Nillable"] defs ->
      denote imports defs [] (TE false [etxt "Nillable"] [TE false [etxt "Nillable"] []]) = None.
Proof.
  cbv zeta. eexists. eexists. split; [reflexivity|]. split; [reflexivity|].
  split; [exists [crate_types; etxt "xml"], (etxt "Nillable"), false; split; vm_compute; reflexivity|].
  split; [exists 3; vm_compute; reflexivity|].
  intros imports defs I D. cbn [denote find_item]. destruct (str_eq_dec (etxt "Nillable") kw_super) as [E|_]; [vm_compute in E; discriminate E|].
  unfold find_name at 1.
  assert (F : In [crate_types; etxt "xml"; etxt "Nillable"] (nodup path_eq_dec (filter (last_is (etxt "Nillable")) imports))).
  { apply nodup_In, filter_In. split; [exact I|vm_compute; reflexivity]. }
  destruct (nodup path_eq_dec _) as [|q [|q' l]]; [destruct F| |reflexivity].
  destruct (in_dec path_eq_dec ([] ++ [etxt "Nillable"]) defs) as [|N]; [reflexivity|contradiction].
Qed.
Print Assumptions C107_names_refuted.

(** With absolute paths a custom type of the own crate is written with [crate] behind
    [super]. *)
Theorem C107_own_crate_refuted :
  let c := xdefault true crate_types in
  exists d, ref_path ascii_ident c (TrCustom (etxt "Foo") (Some (etxt "crate::my::Foo"))) = Ok d /\
    reads_type (snd (resolve_type c [etxt "tns"] d)) (TE false [kw_super; etxt "crate"; etxt "my"; etxt "Foo"] []).
Proof. cbv zeta. eexists. split; [vm_compute; reflexivity|]. exists 1. vm_compute. reflexivity. Qed.
Print Assumptions C107_own_crate_refuted.

(** A type of the schema that is called like a type of the standard library is used
    in its place, unless absolute paths are configured for them. *)
Theorem C107_hidden_refuted :
  let c := xdefault false crate_types in
  exists ts, make_type ascii_ident c OcOptional (snd (resolve_type c [] (pd_from_path (path_from_parts [] (etxt "T"))))) false = Ok (Some ts) /\
    reads_type ts (TE false [etxt "Option"] [TE false [etxt "T"] []]) /\
    denote [] [[etxt "T"]; [etxt "Option"]] [] (TE false [etxt "Option"] [TE false [etxt "T"] []]) =
    Some (RType (ILocal [etxt "Option"]) [RType (ILocal [etxt "T"]) []]).
Proof. cbv zeta. eexists. split; [vm_compute; reflexivity|]. split; [exists 4; vm_compute; reflexivity|vm_compute; reflexivity]. Qed.
Print Assumptions C107_hidden_refuted.

(** A nillable element in the module of its namespace, in the default configuration
    with another name for the crate. *)
Definition expr_config := xdefault false (etxt "my_types").
Definition expr_import := [etxt "my_types"; etxt "xml"; etxt "Nillable"].
Definition expr_ops := [OpAppend [etxt "a"] []; OpUsings [etxt "a"] false [etxt "my_types::xml::Nillable"]].
Lemma expr_proper s : plain_ident s -> ascii_ident s = true -> s <> kw_super -> proper ascii_ident expr_config (xml_type s).
Proof.
  intros P O N. exists crate_types, [etxt "xml"]. split; [reflexivity|]. split; [reflexivity|]. split.
  - split; repeat constructor; try exact O; try exact (proj1 P); try exact (proj2 P); vm_compute; try reflexivity; try discriminate; repeat constructor; discriminate.
  - split; [exact N|discriminate].
Qed.
Example C107_case : exists d e,
  ref_path ascii_ident expr_config (TrGenerated [etxt "b"] (etxt "T")) = Ok d /\
  element_type expr_config false true (EvType d false) = Some e /\
  fst (resolve_type expr_config [etxt "a"] e) = OpUsings [etxt "a"] false [etxt "my_types::xml::Nillable"] /\
  imports_of ascii_ident [etxt "a"] expr_ops [expr_import] /\ unambiguous [expr_import] [[etxt "b"; etxt "T"]] [etxt "a"] /\
  ident_list ascii_ident [x_types expr_config; x_alloc expr_config] /\
  proper ascii_ident expr_config (x_mixed_type expr_config) /\ proper ascii_ident expr_config (x_nillable_type expr_config) /\
  proper_ref ascii_ident expr_config [expr_import] [[etxt "b"; etxt "T"]] [etxt "a"] [] (TrGenerated [etxt "b"] (etxt "T")) /\
  reads_type (snd (resolve_type expr_config [etxt "a"] e))
    (TE false [etxt "Nillable"] [TE false [kw_super; etxt "b"; etxt "T"] []]) /\
  denote [expr_import] [[etxt "b"; etxt "T"]] [etxt "a"] (TE false [etxt "Nillable"] [TE false [kw_super; etxt "b"; etxt "T"] []]) =
  Some (RType (ICrate expr_import) [RType (ILocal [etxt "b"; etxt "T"]) []]).
Proof.
  eexists. eexists. split; [reflexivity|]. split; [reflexivity|]. split; [vm_compute; reflexivity|].
  assert (PL : forall s, forallb (fun x => negb (unicode_ws x) && negb (N.eqb x 58))%bool s = true -> s <> [] -> plain_ident s).
  { intros s F N. split; [exact N|]. rewrite forallb_forall in F. apply Forall_forall. intros x X. apply F in X.
    apply andb_prop in X. destruct X as [X1 X2]. split; [now destruct (unicode_ws x)|]. intros ->. discriminate X2. }
  split.
  { intros q. split.
    - intros [<-|[]]. split; [cbn; lia|]. exists (etxt "my_types::xml::Nillable"). split.
      + exists [etxt "my_types::xml::Nillable"]. split; [right; now left|now left].
      + exists [etxt "my_types"; etxt "xml"], (etxt "Nillable"), false. split; vm_compute; reflexivity.
    - intros (_ & u & (l & [F|[F|[]]] & U) & m & i & abs & P & ->); [discriminate F|]. injection F as <-.
      destruct U as [<-|[]]. assert (E : path_parse ascii_ident (etxt "my_types::xml::Nillable") = Ok (Path (Some [etxt "my_types"; etxt "xml"]) (etxt "Nillable") false)) by (vm_compute; reflexivity).
      rewrite E in P. injection P as <- <- <-. left. reflexivity. }
  split.
  { intros p a [E|[]]. assert (X : expr_import = [etxt "my_types"; etxt "xml"] ++ [etxt "Nillable"]) by reflexivity.
    rewrite X in E. apply PathProofs.snoc_inj in E. destruct E as [<- <-]. split.
    - intros q [E|[]]. rewrite X in E. apply PathProofs.snoc_inj in E. now destruct E as [<- _].
    - intros [E|[]]. vm_compute in E. discriminate E. }
  split; [split; repeat constructor; try (vm_compute; reflexivity); try discriminate; vm_compute; discriminate|].
  split; [apply expr_proper; [apply PL; [vm_compute; reflexivity|discriminate]|vm_compute; reflexivity|vm_compute; discriminate]|].
  split; [apply expr_proper; [apply PL; [vm_compute; reflexivity|discriminate]|vm_compute; reflexivity|vm_compute; discriminate]|].
  split; [split; [intros [E|[]]; vm_compute in E; discriminate E|split; [vm_compute; discriminate|now left]]|].
  split; [exists 3; vm_compute; reflexivity|]. vm_compute. reflexivity.
Qed.

Example C107_case_field : std_idents ascii_ident /\ std_visible [expr_import] [[etxt "b"; etxt "T"]] [etxt "a"] /\
  exists ts, make_type ascii_ident expr_config (OcStatic 3) (map XP (relative_to (path_from_parts [etxt "b"] (etxt "T")) [etxt "a"])) true = Ok (Some ts) /\
    reads_type ts (TArray (TE false [etxt "Box"] [TE false [kw_super; etxt "b"; etxt "T"] []]) 3).
Proof.
  split; [repeat constructor|]. split.
  - intros n V. split.
    + intros [E|[]]. vm_compute in E. discriminate E.
    + intros q [E|[]]. assert (X : expr_import = [etxt "my_types"; etxt "xml"] ++ [etxt "Nillable"]) by reflexivity.
      rewrite X in E. apply PathProofs.snoc_inj in E. destruct E as [_ <-].
      destruct V as [V|[V|[V|[]]]]; vm_compute in V; discriminate V.
  - eexists. split; [vm_compute; reflexivity|]. exists 5. vm_compute. reflexivity.
Qed.

(** C77: values that were read can be written and read again. *)
From Coq Require Import Lia.
From Verif Require Import Utf8 WriteModel DocSpec GenSpec TextSpec WriteSpec TextProofs WriteNsProofs GenProps DocProps WriteProps.
Local Open Scope string_scope.
Local Open Scope list_scope.

(** ** C77: the round trip *)

(** The value of a valid document is written as a document from which it is read again. *)
Theorem C77_read_again_partial : forall (T A : Type) blank ff (no_attrs : A) attrs_of
    (parse : nat -> dhelper -> bytes -> outcome kind (T * dhelper)) charref (env : nat -> tdef)
    cfg collect write_attrs to_bytes known visible n m ty name h0 evs0 v h0',
  (forall ty, tame_type (T:=T) ff no_attrs (env ty) = true) -> (forall ty, readable_type (env ty)) ->
  well_scoped cfg collect env (ty, name) known visible ->
  attrs_again env write_attrs attrs_of visible -> texts_again to_bytes parse ->
  valid blank ff no_attrs attrs_of parse charref env n ty h0 evs0 v h0' -> n <= m ->
  exists evs,
    (exists F, forall fuel calls, F <= fuel -> length evs < calls ->
       serialize ff env (field_tag cfg) (open_tag cfg collect write_attrs) (close_tag cfg) to_bytes
         fuel calls ty name v helper_default = SRDone evs helper_default) /\
    driver_run (type_deser ff no_attrs attrs_of parse charref utf8_valid env m ty) blank driver_new evs = RDone v [].
Proof. intros. eapply read_again; eassumption. Qed.
Print Assumptions C77_read_again_partial.

(** Its condition on namespaces holds in these configurations.  No declarations: no name
    has a prefix. *)
Theorem C77_plain_scopes : forall (V : Type) cfg (collect : nat -> V -> list (option bytes * bytes)) env top,
  wc_mode cfg = NsNone ->
  (forall ns p, wc_prefix cfg ns = Some p -> split_colon p = None) ->
  (forall ty0 l ty, declared env ty0 l ty -> split_colon (snd l) = None /\ field_tag cfg (fst l) (snd l) = snd l) ->
  well_scoped cfg collect env top (fun _ => None) (fun _ _ => False).
Proof. intros. eapply plain_scoped; eassumption. Qed.
Print Assumptions C77_plain_scopes.

(** Declarations where namespaces are used: elements are in the namespace of their types;
    elements of simple types are in the namespace of the type around them. *)
Theorem C77_local_scopes : forall (V : Type) cfg (collect : nat -> V -> list (option bytes * bytes)) env ty name known,
  wc_mode cfg = NsLocal ->
  (forall ns p, wc_prefix cfg ns = Some p -> split_colon p = None) ->
  (forall p ns, known p = Some ns -> prefix_ok p /\ namespace_ok ns) ->
  (forall ty ns, wc_type_ns cfg ty = Some ns -> known (used_prefix cfg ns) = Some ns) ->
  (forall ty ns, In ns (wc_attr_ns cfg ty) -> known (wc_prefix cfg ns) = Some ns) ->
  (forall ty, wc_type_qualified cfg ty = true) ->
  (forall ty0 l ty, declared env ty0 l ty -> split_colon (snd l) = None /\ wc_element_qualified cfg (fst l) (snd l) = true /\
     exists ns, fst l = Some ns /\ (env ty = TSimple \/ wc_type_ns cfg ty = Some ns) /\
       (env ty = TSimple -> wc_type_ns cfg ty0 = Some ns)) ->
  (forall ns, wc_type_ns cfg ty = Some ns -> prefix_in name = used_prefix cfg ns) ->
  well_scoped cfg collect env (ty, name) known
    (fun ty x => exists ns, wc_type_ns cfg ty = Some ns /\ x = (used_prefix cfg ns, ns)).
Proof. intros. eapply local_scoped; eassumption. Qed.
Print Assumptions C77_local_scopes.

(** All declarations on the root: they cover the prefixes of all elements. *)
Theorem C77_global_scopes : forall (V : Type) cfg (collect : nat -> V -> list (option bytes * bytes)) env ty name known,
  wc_mode cfg = NsGlobal ->
  (forall ns p, wc_prefix cfg ns = Some p -> split_colon p = None) ->
  (forall p ns, known p = Some ns -> prefix_ok p /\ namespace_ok ns) ->
  (forall ty p ns, In (p, ns) (wc_global cfg ty) -> known p = Some ns) ->
  (forall w ty1 root nm ns, placed env (field_tag cfg) (ty, name) w ty1 root nm -> env ty1 <> TSimple ->
     wc_type_ns cfg ty1 = Some ns ->
     wc_type_qualified cfg ty1 = true /\ (wc_prefix cfg ns = None -> known (prefix_in nm) = Some ns)) ->
  (forall ty0 l ty1, declared env ty0 l ty1 -> split_colon (snd l) = None /\
     forall ns, fst l = Some ns ->
       wc_element_qualified cfg (Some ns) (snd l) = true /\
       match used_prefix cfg ns with
       | Some p => In (Some p, ns) (wc_global cfg ty)
       | None => True
       end) ->
  well_scoped cfg collect env (ty, name) known (fun _ x => In x (wc_global cfg ty) /\ fst x <> None).
Proof. intros. eapply global_scoped; eassumption. Qed.
Print Assumptions C77_global_scopes.

(** A shelf in one namespace with a book in another one; the title of the book is a text. *)
Definition shelf_env (ty : nat) : tdef :=
  match ty with
  | 0 => TComplex false 1 (Bounded 1) CSequence [PElement 1 (Bounded 1) (Some "urn:b") "book" 1]
  | 1 => TComplex false 1 (Bounded 1) CSequence [PElement 1 (Bounded 1) (Some "urn:b") "title" 2]
  | _ => TSimple
  end.
Definition words_parse (ty : nat) (h : dhelper) (s : bytes) : outcome kind (bytes * dhelper) :=
  if utf8_valid s && negb (contains_cdata_end s) then Ok (s, h) else Err (KInvalidValue s).
Definition shelf_config (mode : ns_mode) : wconfig :=
  WConfig mode None (fun ns => if String.eqb ns "urn:a" then Some "a" else Some "b") (fun _ _ => true)
    (fun ty => match ty with 0 => Some "urn:a" | 1 => Some "urn:b" | _ => None end)
    (fun _ => true) (fun _ => []) (fun _ => [(Some "a", "urn:a"); (Some "b", "urn:b")]).
Definition shelf_known (p : option bytes) : option bytes :=
  match p with
  | Some q => if String.eqb q "a" then Some "urn:a" else if String.eqb q "b" then Some "urn:b" else None
  | None => None
  end.
Definition shelf_input : list event :=
  [EStart "shelf" []; EStart "book" []; EStart "title" []; EText "t"; EEnd "title"; EEnd "book"; EEnd "shelf"].
Definition shelf_value : val bytes unit := VStruct tt [[VStruct tt [[VText "t"]]]].
Notation shelf_open mode := (open_tag (shelf_config mode) no_collect no_write).
Notation shelf_serialize mode := (serialize flat shelf_env (field_tag (shelf_config mode)) (shelf_open mode)
  (close_tag (shelf_config mode)) plain_text).
Notation shelf_read evs :=
  (driver_run (type_deser flat tt attrs_any words_parse (fun _ => None) utf8_valid shelf_env 3 0) ex_blank driver_new evs).
Notation words_valid env := (valid ex_blank flat tt attrs_any words_parse (fun _ => None) env).
Notation shelf_valid := (words_valid shelf_env).

Lemma words_again : texts_again plain_text words_parse.
Proof.
  intros ty t h (d & raw & s & d' & Tr & Pa). unfold words_parse in Pa.
  destruct (utf8_valid s && negb (contains_cdata_end s)) eqn:E; [|discriminate Pa]. injection Pa as -> ->.
  pose proof E as E'. apply andb_true_iff in E' as [U C]. exists (Some t). split; [reflexivity|]. split; [exact C|].
  intros r _. split; [exact U|]. intros d _. exists d. split; [|split; [reflexivity|split; reflexivity]].
  assert (Ti : trimmed_of t t).
  { destruct Tr as (a & b & _ & _ & S & F). exists "", "". split; [rewrite append_nil_r; reflexivity|]. split; [intros c []|auto]. }
  rewrite (trim_ascii_id _ Ti). unfold words_parse. rewrite E. reflexivity.
Qed.
Lemma any_again env visible : attrs_again env no_write attrs_any visible.
Proof.
  split.
  - intros ty [] h _. exists []. split; [reflexivity|]. split; [constructor|]. intros d name decls _ _ _. exists d.
    split; [reflexivity|split; [reflexivity|split; reflexivity]].
  - intros ty d name decls _ _. exists tt, d. split; [reflexivity|split; [reflexivity|split; reflexivity]].
Qed.
Lemma shelf_declared ty0 l ty : declared shelf_env ty0 l ty ->
  (ty0 = 0 /\ l = (Some "urn:b", "book") /\ ty = 1) \/ (ty0 = 1 /\ l = (Some "urn:b", "title") /\ ty = 2).
Proof.
  destruct ty0 as [|[|ty0]]; cbn; try contradiction; (intros [E|[]]; injection E as <- <-); auto.
Qed.
Lemma shelf_readable ty : readable_type (shelf_env ty).
Proof.
  assert (Q : forall l0 t0, clear_names [PElement 1 (Bounded 1) (fst l0) (snd l0) t0]).
  { intros [ns nm] t0 l l' ty0 ty' [E|[]] [E'|[]] _. congruence. }
  destruct ty as [|[|ty]]; [| |exact I]; (split; [|reflexivity]); [exact (Q (Some "urn:b", "book") 1)|exact (Q (Some "urn:b", "title") 2)].
Qed.

Lemma valid_one (env : nat -> tdef) n ty ns name ty' root h h1 evs v h2 h' :
  env ty = TComplex false 1 (Bounded 1) CSequence [PElement 1 (Bounded 1) ns name ty'] ->
  dh_event h (EStart root []) = Some h1 -> words_valid env n ty' h1 evs v h2 ->
  (exists e rest g, evs = e :: rest /\ is_tag e = true /\ dh_event h1 e = Some g /\ check_tag g e ns name = true) ->
  ends_with_tag evs -> dh_event h2 (EEnd root) = Some h' ->
  words_valid env (S n) ty h (EStart root [] :: evs ++ [EEnd root]) (VStruct tt [[v]]) h'.
Proof.
  intros E D1 Va (e & rest & g & Ee & Tg & De & Ck) En D2. cbn [valid]. rewrite E. left.
  exists root, [], h1, tt, h1, evs, root, h2. split; [reflexivity|]. split; [exact D1|]. split; [reflexivity|]. split; [|exact D2].
  cbn [nothing_allowed]. exists [VStruct tt [[v]]]. eexists. split; [|reflexivity]. unfold repeated.
  set (cs := content_slot _ _ _ _ _ _ _ _). eexists. split; [|split; [reflexivity|]].
  - rewrite <- (app_nil_r evs). eapply (follows_item ex_blank [cs] 0 _ _ _ _ 0 cs (VStruct tt [[v]])); [reflexivity| | |apply follows_stop].
    + split; [exact En|]. exists [[v]]. split; [reflexivity|]. split; [exists e, rest; auto|].
      set (s := slot_of ex_blank flat tt (words_valid env n) (PElement 1 (Bounded 1) ns name ty')). eexists. split; [|split; [reflexivity|split; [reflexivity|]]].
      * rewrite <- (app_nil_r evs). eapply (follows_item ex_blank [s] 0 _ _ _ evs 0 s v); [reflexivity| | |apply follows_stop].
        -- split; [exists e, rest, g; split; [exact Ee|split; [exact De|]]|split; [reflexivity|exact Va]].
           exists (ns, name). split; [reflexivity|exact Ck].
        -- intros e0 evs' h0 E0 H. split; [intros (l & [] & _)|]. exists s. split; [reflexivity|]. left. split; [reflexivity|cbn; lia].
      * split; [reflexivity|]. split; [reflexivity|]. intros [|[|k]] t K; cbn in K; try discriminate K. injection K as <-. left. cbn. split; [lia|reflexivity].
    + intros e0 evs' h0 E0 H. split; [intros (l & [] & _)|]. exists cs. split; [reflexivity|]. left. split; [reflexivity|cbn; lia].
  - split; [reflexivity|]. split; [reflexivity|]. intros [|[|k]] t K; cbn in K; try discriminate K. injection K as <-. left. cbn. split; [lia|reflexivity].
Qed.
Lemma shelf_input_valid : exists h', shelf_valid 3 0 dhelper_default shelf_input shelf_value h'.
Proof.
  eexists. eapply (valid_one shelf_env 2 0 (Some "urn:b") "book" 1 "shelf" _ _
    (EStart "book" [] :: ex_el "title" "t" ++ [EEnd "book"])); [reflexivity|reflexivity| | |ends|reflexivity].
  - eapply (valid_one shelf_env 1 1 (Some "urn:b") "title" 2 "book"); [reflexivity|reflexivity| | |ends|reflexivity].
    + exists "t". split; [reflexivity|]. text_parts.
    + do 3 eexists. repeat split; reflexivity.
  - do 3 eexists. repeat split; reflexivity.
Qed.

(** What is written for it. *)
Definition shelf_local : list event :=
  [EStart "a:shelf" [("xmlns:a", "urn:a")]; EStart "b:book" [("xmlns:b", "urn:b")];
   EStart "b:title" []; EText "t"; EEnd "b:title"; EEnd "b:book"; EEnd "a:shelf"].
Definition shelf_global : list event :=
  [EStart "a:shelf" [("xmlns:a", "urn:a"); ("xmlns:b", "urn:b")]; EStart "b:book" [];
   EStart "b:title" []; EText "t"; EEnd "b:title"; EEnd "b:book"; EEnd "a:shelf"].
Lemma shelf_known_ok p ns : shelf_known p = Some ns -> prefix_ok p /\ namespace_ok ns.
Proof.
  destruct p as [q|]; [|discriminate]. cbn [shelf_known]. destruct (String.eqb q "a") eqn:E; [|destruct (String.eqb q "b") eqn:E']; intros K;
    try discriminate K; injection K as <-; (apply String.eqb_eq in E || apply String.eqb_eq in E'); subst q;
    (split; [intros I; cbn in I; repeat destruct I as [I|I]; discriminate I || contradiction|
             intros I; cbn in I; repeat destruct I as [I|I]; discriminate I || contradiction]).
Qed.
Lemma shelf_colon mode ns p : wc_prefix (shelf_config mode) ns = Some p -> split_colon p = None.
Proof. cbn. destruct (String.eqb ns "urn:a"); intros K; injection K as <-; reflexivity. Qed.

Example C77_shelf_tame : forall ty, tame_type (T:=bytes) flat tt (shelf_env ty) = true.
Proof. intros [|[|ty]]; reflexivity. Qed.
Example C77_local_shelf :
  well_scoped (shelf_config NsLocal) no_collect shelf_env (0, "a:shelf") shelf_known
    (fun ty x => exists ns, wc_type_ns (shelf_config NsLocal) ty = Some ns /\ x = (used_prefix (shelf_config NsLocal) ns, ns)) /\
  shelf_serialize NsLocal 20 20 0 "a:shelf" shelf_value helper_default = SRDone shelf_local helper_default /\
  shelf_read shelf_local = RDone shelf_value [].
Proof.
  split; [|split; vm_compute; reflexivity]. apply C77_local_scopes; try reflexivity.
  - apply shelf_colon.
  - apply shelf_known_ok.
  - intros [|[|ty]] ns; cbn; intros K; try discriminate K; injection K as <-; reflexivity.
  - intros ty ns [].
  - intros ty0 l ty D. apply shelf_declared in D as [(-> & -> & ->)|(-> & -> & ->)]; cbn; (split; [reflexivity|split; [reflexivity|]]);
      exists "urn:b"; (split; [reflexivity|split; [auto|intros K; try discriminate K; reflexivity]]).
  - cbn. intros ns K. injection K as <-. reflexivity.
Qed.
Example C77_global_shelf :
  well_scoped (shelf_config NsGlobal) no_collect shelf_env (0, "a:shelf") shelf_known
    (fun _ x => In x (wc_global (shelf_config NsGlobal) 0) /\ fst x <> None) /\
  shelf_serialize NsGlobal 20 20 0 "a:shelf" shelf_value helper_default = SRDone shelf_global helper_default /\
  shelf_read shelf_global = RDone shelf_value [].
Proof.
  split; [|split; vm_compute; reflexivity]. apply C77_global_scopes; try reflexivity.
  - apply shelf_colon.
  - apply shelf_known_ok.
  - cbn. intros ty p ns [K|[K|[]]]; injection K as <- <-; reflexivity.
  - intros w ty1 root nm ns _ _ K. split; [reflexivity|]. cbn. destruct (String.eqb ns "urn:a"); discriminate.
  - intros ty0 l ty D. apply shelf_declared in D as [(-> & -> & ->)|(-> & -> & ->)]; cbn; (split; [reflexivity|]);
      intros ns K; injection K as <-; (split; [reflexivity|cbn; auto]).
Qed.

(** The shelf meets all conditions. *)
Example C77_shelf_again : exists evs,
  (exists F, forall fuel calls, F <= fuel -> length evs < calls ->
     shelf_serialize NsLocal fuel calls 0 "a:shelf" shelf_value helper_default = SRDone evs helper_default) /\
  shelf_read evs = RDone shelf_value [].
Proof.
  destruct shelf_input_valid as [h' V].
  exact (C77_read_again_partial bytes unit ex_blank flat tt attrs_any words_parse (fun _ => None) shelf_env
    (shelf_config NsLocal) no_collect no_write plain_text _ _ 3 3 0 "a:shelf" _ _ _ _
    C77_shelf_tame shelf_readable (proj1 C77_local_shelf) (any_again _ _) words_again V (le_n 3)).
Qed.

(** ** Where it fails *)

(** The full statement, for one configuration: what is written for the value of a valid
    document is read again. *)
Definition round_trip_for (cfg : wconfig) (parse : nat -> dhelper -> bytes -> outcome kind (bytes * dhelper))
    (env : nat -> tdef) (name : bytes) : Prop :=
  forall n m ty evs0 v h', valid ex_blank flat tt attrs_any parse (fun _ => None) env n ty dhelper_default evs0 v h' ->
  n <= m ->
  exists evs,
    (exists F, forall fuel calls, F <= fuel -> length evs < calls ->
       serialize flat env (field_tag cfg) (open_tag cfg no_collect no_write) (close_tag cfg) plain_text
         fuel calls ty name v helper_default = SRDone evs helper_default) /\
    driver_run (type_deser flat tt attrs_any parse (fun _ => None) utf8_valid env m ty) ex_blank driver_new evs = RDone v [].

Ltac run_it S :=
  match type of S with context [SRDone ?evs _] => match goal with F : nat |- _ =>
    specialize (S (20 + F) (20 + length evs) ltac:(lia) ltac:(lia)); vm_compute in S end end.

(** The text [>] after two brackets can be read, but not written. *)
Theorem C77_text_refuted : ~ round_trip_for (shelf_config NsLocal) parse_any (fun _ => TSimple) "a".
Proof.
  intros R. assert (V : exists h', valid ex_blank flat tt attrs_any parse_any (fun _ => None) (fun _ => TSimple) 1 0 dhelper_default
    [EStart "a" []; EText "]]&gt;"; EEnd "a"] (VText "]]>") h').
  { eexists. exists "]]>". split; [reflexivity|]. left. eexists _, _, _, _, [EText _], _, _, _.
    split; [reflexivity|]. split; [reflexivity|]. split; [reflexivity|]. split; [reflexivity|]. split; [reflexivity|]. split; [|reflexivity].
    pose proof (trim_ascii_spec "]]>") as Tr. exact Tr. }
  destruct V as [h' V]. destruct (R 1 1 0 _ _ h' V (le_n 1)) as [evs [[F S] _]]. run_it S. discriminate S.
Qed.
Print Assumptions C77_text_refuted.

(** Names have prefixes although no namespace is declared. *)
Theorem C77_prefix_refuted : ~ round_trip_for (shelf_config NsNone) words_parse shelf_env "a:shelf".
Proof.
  intros R. destruct shelf_input_valid as [h' V]. destruct (R 3 3 0 _ _ h' V (le_n 3)) as [evs [[F S] D]]. run_it S.
  injection S as <-. vm_compute in D. discriminate D.
Qed.
Print Assumptions C77_prefix_refuted.

(** The namespace of the type is declared with the prefix of the element. *)
Definition other_type_config : wconfig :=
  WConfig NsLocal None (wc_prefix (shelf_config NsLocal)) (fun _ _ => true) (fun _ => Some "urn:a") (fun _ => true) (fun _ => []) (fun _ => []).
Theorem C77_type_namespace_refuted : ~ round_trip_for other_type_config words_parse shelf_env "a:shelf".
Proof.
  intros R. destruct shelf_input_valid as [h' V]. destruct (R 3 3 0 _ _ h' V (le_n 3)) as [evs [[F S] D]]. run_it S.
  injection S as <-. vm_compute in D. discriminate D.
Qed.
Print Assumptions C77_type_namespace_refuted.

(** The namespace of an element of a simple type is not declared. *)
Definition title_env (ty : nat) : tdef :=
  match ty with
  | 1 => TSimple
  | _ => TComplex false 1 (Bounded 1) CSequence [PElement 1 (Bounded 1) (Some "urn:b") "title" 1]
  end.
Theorem C77_simple_namespace_refuted : ~ round_trip_for (shelf_config NsLocal) words_parse title_env "a:shelf".
Proof.
  intros R. assert (V : exists h', words_valid title_env 2 0 dhelper_default
    (EStart "shelf" [] :: ex_el "title" "t" ++ [EEnd "shelf"]) (VStruct tt [[VText "t"]]) h').
  { eexists. eapply (valid_one title_env 1 0 (Some "urn:b") "title" 1 "shelf"); [reflexivity|reflexivity| | |ends|reflexivity].
    - exists "t". split; [reflexivity|]. text_parts.
    - do 3 eexists. repeat split; reflexivity. }
  destruct V as [h' V]. destruct (R 2 2 0 _ _ h' V (le_n 2)) as [evs [[F S] D]]. run_it S.
  injection S as <-. vm_compute in D. discriminate D.
Qed.
Print Assumptions C77_simple_namespace_refuted.

(** Values that were not read: two groups, one with [a], the other one with [b], are
    written as [a b], which is read as one group. *)
Definition pairs_env (ty : nat) : tdef :=
  match ty with
  | 0 => TComplex false 0 Unbounded CSequence
           [PElement 0 (Bounded 1) None "a" 1; PElement 0 (Bounded 1) None "b" 1]
  | _ => TSimple
  end.
Definition two_groups : val bytes unit :=
  VStruct tt [[VStruct tt [[VText "1"]; []]; VStruct tt [[]; [VText "2"]]]].
Theorem C77_values_refuted : exists evs v,
  typed flat tt pairs_env (fun _ _ => True) 2 0 two_groups /\
  (ex_serialize flat pairs_env) 20 20 0 "r" two_groups helper_default = SRDone evs helper_default /\
  (read flat pairs_env 2 0 evs) = RDone v [] /\ v <> two_groups.
Proof.
  exists ([EStart "r" []] ++ (ex_el "a" "1" ++ ex_el "b" "2") ++ [EEnd "r"]), (VStruct tt [[VStruct tt [[VText "1"]; [VText "2"]]]]).
  split; [|split; [vm_compute; reflexivity|split; [vm_compute; reflexivity|discriminate]]].
  cbn. repeat first [progress cbn|split|constructor|eexists]; try reflexivity; try lia.
Qed.
Print Assumptions C77_values_refuted.

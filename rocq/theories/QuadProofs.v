(** Proofs about types named in the configuration. *)
From Verif Require Export QuadSpec.
From Verif Require Import CacheProofs CacheProps ParserProofs.
From Verif Require ParserProps.
Local Open Scope string_scope.

(** * The schemas loaded by the parser *)
Record coherent (s : schemas) : Prop := {
  co_keys : NoDup (map fst (sm_schemas s));
  co_infos : NoDup (map fst (sm_infos s));
  co_zero : forall k i, get k (sm_schemas s) = Some i -> k <> 0;
  co_nszero : forall n i, get n (sm_infos s) = Some i -> n <> 0;
  co_uri : forall u n, resolve_namespace s u = Some n <-> exists i, get n (sm_infos s) = Some i /\ ni_namespace i = u;
  co_home : forall k i, get k (sm_schemas s) = Some i -> exists j, get (si_namespace i) (sm_infos s) = Some j;
  co_in : forall n j k, get n (sm_infos s) = Some j ->
    (In k (ni_schemas j) <-> exists i, get k (sm_schemas s) = Some i /\ si_namespace i = n) }.

Lemma get_ns_schemas s ns id s' : get_ns s ns = Ok (id, s') -> sm_schemas s' = sm_schemas s.
Proof.
  unfold get_ns. destruct (oassoc ns (sm_namespaces s)) as [k|].
  - destruct (get k (sm_infos s)); [|discriminate]. intros [= _ <-]. reflexivity.
  - destruct ns as [n|]; (destruct (get _ (sm_infos s)); [discriminate|]); intros [= _ <-]; reflexivity.
Qed.

Lemma build_entries_keys ids es s s' : build_entries ids s es = Ok s' -> NoDup (map fst (sm_schemas s)) -> NoDup (map fst (sm_schemas s')).
Proof.
  revert s. induction es as [|e es IH]; intros s; cbn [build_entries].
  - intros [= <-]. auto.
  - destruct e as [|x n|e].
    + destruct (get_ns s None) as [[id s1]| |] eqn:G; try discriminate. intros E N. apply (IH _ E). now rewrite (get_ns_schemas _ _ _ _ G).
    + destruct (get_ns s (Some n)) as [[id s1]| |] eqn:G; try discriminate. intros E N. apply (IH _ E). now rewrite (get_ns_schemas _ _ _ _ G).
    + unfold build_schema. destruct (get (pe_id e) ids) as [id|]; [|discriminate].
      destruct (get_ns s (pe_target e)) as [[ns s1]| |] eqn:G; try discriminate.
      destruct (get id (sm_schemas s1)) as [|] eqn:GI; [discriminate|]. intros E N. apply (IH _ E). cbn [sm_schemas].
      apply binsert_nodup; [exact GI|]. now rewrite (get_ns_schemas _ _ _ _ G).
Qed.

Lemma loads_coherent resolver parse s : loads resolver parse s -> coherent s.
Proof.
  intros (fuel & ops & order & p & K & R & F).
  destruct (parser_run_inv resolver parse fuel ops parser_new p) as (I & Q & _); auto; [apply pinv_new|].
  destruct (finish_ok resolver parse order p I) as (s0 & s' & E & B & P0 & D & S1 & S2 & SI). rewrite E in F. injection F as ->.
  assert (N0 : NoDup (map fst (sm_schemas s0))).
  { unfold parser_finish in E. destruct (build_entries _ schemas_new (pa_entries p)) as [x| |] eqn:BE; try discriminate.
    pose proof (build_entries_keys _ _ _ _ BE ltac:(constructor)) as N.
    destruct (determine_total order (pa_entries p) (pa_generate p) (pa_alternative p) x) as (y & D' & X1 & X2 & _).
    { intros id i J. apply build_prefixes_has.
      destruct (build_entries_spec (build_ids (pa_cache p) (pa_entries p) 0 []) (pa_entries p) [] schemas_new) as (x' & B' & V).
      { apply binv_new. }
      { cbn. intros k e KK. apply (ids_of resolver parse p (pe_id e) k e I KK). left. reflexivity. }
      rewrite BE in B'. injection B' as <-. cbn in V. apply (bv_mentions _ _ _ V). exists id.
      apply (bv_info _ _ _ V id i). apply get_in_nodup; [apply V|exact J]. }
    rewrite D' in E. injection E as ->. rewrite <- S1, X1. exact N. }
  assert (KI : NoDup (map fst (sm_infos s))) by (rewrite (forall2_keys _ _ SI); apply (bv_keys _ _ _ B)).
  pose proof (ParserProps.C40_namespaces_partial resolver parse fuel ops order p s K R) as NS.
  pose proof (ParserProps.C40_schemas_partial resolver parse fuel ops order p K R) as (s2 & E2 & SC1 & SC2).
  assert (s2 = s) by congruence. subst s2. destruct (NS E) as (_ & INJ & NZ & IFF & MEM). clear NS.
  split.
  - now rewrite S1.
  - exact KI.
  - intros k i G. destruct (SC2 k i G) as (e & j & -> & _). discriminate.
  - intros n i G. apply (NZ (ni_namespace i) n). apply IFF. eauto.
  - exact IFF.
  - intros k i G. destruct (SC2 k i G) as (e & N). destruct (SC1 k e N) as (i' & G' & _ & _ & _ & RN).
    rewrite G in G'. injection G' as <-. apply IFF in RN as (j & J & _). eauto.
  - intros n j k G. rewrite (MEM n j k G). split.
    + intros (e & N & T). destruct (SC1 k e N) as (i & GI & _ & _ & _ & RN). exists i. split; [exact GI|].
      rewrite T in RN. assert (RN' : resolve_namespace s (ni_namespace j) = Some n) by (apply IFF; eauto). congruence.
    + intros (i & GI & <-). destruct (SC2 k i GI) as (e & N). exists e. split; [exact N|].
      destruct (SC1 k e N) as (i' & GI' & _ & _ & _ & RN). rewrite GI in GI'. injection GI' as <-.
      apply IFF in RN as (j' & J' & <-). congruence.
Qed.

Section contents.
Variable comps : schema_doc -> list RedefModel.content.
Variable s : schemas.
Hypothesis CO : coherent s.

(** * What the cache is told *)
Lemma content_idents_in ns k c t : In t (RedefModel.content_idents ns k c) <->
  exists kind n p, t = TIdent ns k (Named n) (kind_of kind) /\
    (c = RedefModel.CComponent (kind, n, p) \/
     exists x l, (c = RedefModel.CRedefine x l \/ c = RedefModel.COverride x l) /\ In (kind, n, p) l).
Proof.
  assert (KT : forall kind, RedefModel.kind_type kind = kind_of kind) by (intros []; reflexivity).
  destruct c as [x|x|x l|x l|[[kind n] p]]; cbn [RedefModel.content_idents].
  - split; [intros []|]. intros (kind & n & p & _ & [[=]|(y & l & [[=]|[=]] & _)]).
  - split; [intros []|]. intros (kind & n & p & _ & [[=]|(y & l & [[=]|[=]] & _)]).
  - rewrite in_map_iff. split.
    + intros ([[kind n] p] & <- & IN). exists kind, n, p. split; [unfold RedefModel.comp_ident; cbn; now rewrite KT|]. right. eauto.
    + intros (kind & n & p & -> & [[=]|(y & l' & [[=]|[= <- <-]] & IN)]). exists (kind, n, p). split; [|exact IN].
      unfold RedefModel.comp_ident; cbn; now rewrite KT.
  - rewrite in_map_iff. split.
    + intros ([[kind n] p] & <- & IN). exists kind, n, p. split; [unfold RedefModel.comp_ident; cbn; now rewrite KT|]. right. eauto.
    + intros (kind & n & p & -> & [[=]|(y & l' & [[= <- <-]|[=]] & IN)]). exists (kind, n, p). split; [|exact IN].
      unfold RedefModel.comp_ident; cbn; now rewrite KT.
  - split.
    + intros [<-|[]]. exists kind, n, p. split; [unfold RedefModel.comp_ident; cbn; now rewrite KT|auto].
    + intros (kind' & n' & p' & -> & [[= <- <- <-]|(y & l & [[=]|[=]] & _)]). left. unfold RedefModel.comp_ident; cbn; now rewrite KT.
Qed.

Lemma history_inserted added t : inserted (cache_history comps s added) t <-> exists_type comps s added t.
Proof.
  unfold inserted, cache_history, exists_type. rewrite !in_app_iff. split.
  - intros [H|[H|H]].
    + apply in_flat_map in H as (x & _ & H). unfold namespace_ops in H. apply in_app_iff in H as [H|H].
      * apply in_map_iff in H as (? & [=] & _).
      * destruct (global_uri _); [destruct H as [[=]|[]]|destruct H].
    + left. unfold RedefModel.create_ident_cache in H. apply in_flat_map in H as (d & ID & H).
      apply in_map_iff in ID as ([k i] & <- & ID). unfold RedefModel.doc_ops, doc_of in H.
      cbn [RedefModel.d_ns RedefModel.d_id RedefModel.d_deps RedefModel.d_content fst snd] in H.
      destruct H as [[=]|H]. apply in_app_iff in H as [H|H]; [apply in_map_iff in H as (? & [=] & _)|].
      apply in_map_iff in H as (t' & [= ->] & H). apply in_flat_map in H as (c & IC & H).
      apply content_idents_in in H as (kind & n & p & -> & H). exists i, kind, n. cbn [ti_schema ti_ns ti_type ti_name].
      split; [apply get_in; [apply CO|exact ID]|]. split; [reflexivity|]. split; [|auto].
      destruct H as [->|(x & l & [->| ->] & H)]; [left; exists p; exact IC|right; exists x, l, p; auto..].
    + apply in_map_iff in H as (t' & [= ->] & H). auto.
  - intros [(i & kind & n & G & NS & H & TT & TN)|H].
    + right. left. unfold RedefModel.create_ident_cache. apply in_flat_map. exists (doc_of comps (ti_schema t, i)).
      split; [apply in_map; apply (get_in (sm_schemas s)) in G; [exact G|apply CO]|]. unfold RedefModel.doc_ops, doc_of.
      cbn [RedefModel.d_ns RedefModel.d_id RedefModel.d_deps RedefModel.d_content fst snd].
      right. apply in_app_iff. right. apply in_map. apply in_flat_map.
      assert (T : t = TIdent (si_namespace i) (ti_schema t) (Named n) (kind_of kind)) by (destruct t; cbn in *; congruence).
      destruct H as [(p & H)|(x & l & p & [H|H] & IN)]; eexists; (split; [exact H|]); apply content_idents_in; exists kind, n, p;
        (split; [exact T|]); eauto 6.
    + right. right. now apply in_map.
Qed.

Lemma history_schema added n k : In (OpSchema n k) (cache_history comps s added) <->
  exists i, get k (sm_schemas s) = Some i /\ si_namespace i = n.
Proof.
  unfold cache_history. rewrite !in_app_iff. split.
  - intros [H|[H|H]].
    + apply in_flat_map in H as ([m j] & IJ & H). unfold namespace_ops in H. cbn [fst snd] in H. apply in_app_iff in H as [H|H].
      * apply in_map_iff in H as (k' & H' & H). injection H' as -> ->. apply (co_in s CO n j k); [|exact H]. apply get_in; [apply CO|exact IJ].
      * destruct (global_uri _); [destruct H as [[=]|[]]|destruct H].
    + unfold RedefModel.create_ident_cache in H. apply in_flat_map in H as (d & ID & H).
      apply in_map_iff in ID as ([k' i] & <- & ID). unfold RedefModel.doc_ops, doc_of in H.
      cbn [RedefModel.d_ns RedefModel.d_id RedefModel.d_deps RedefModel.d_content fst snd] in H. destruct H as [H|H].
      * injection H as <- <-. exists i. split; [apply get_in; [apply CO|exact ID]|reflexivity].
      * apply in_app_iff in H as [H|H]; apply in_map_iff in H as (? & [=] & _).
    + apply in_map_iff in H as (? & [=] & _).
  - intros (i & G & <-). right. left. unfold RedefModel.create_ident_cache. apply in_flat_map. exists (doc_of comps (k, i)).
    split; [apply in_map; apply get_in; [apply CO|exact G]|]. left. reflexivity.
Qed.

Lemma exists_home added t : added_fits s added -> exists_type comps s added t -> ti_schema t <> id_unknown ->
  exists i, get (ti_schema t) (sm_schemas s) = Some i /\ si_namespace i = ti_ns t.
Proof.
  intros A [(i & k & n & G & N & _)|T] NZ; [eauto|]. destruct (A t T) as [Z|H]; [contradiction|exact H].
Qed.

Lemma history_one added : added_fits s added -> one_namespace (cache_history comps s added).
Proof.
  intros A. assert (P : forall k n, places (cache_history comps s added) k n -> exists i, get k (sm_schemas s) = Some i /\ si_namespace i = n).
  { intros k n [H|(t & T & <- & NZ & <-)]; [now apply history_schema in H|]. apply history_inserted in T. now apply (exists_home added). }
  intros k n n' P1 P2. apply P in P1 as (i & G & <-). apply P in P2 as (i' & G' & <-). congruence.
Qed.

Lemma history_added added : added_fits s added -> schemas_added (cache_history comps s added).
Proof.
  intros A t T NZ. apply history_inserted in T. destruct (exists_home added t A T NZ) as (i & G & N).
  exists (ti_ns t). apply history_schema. eauto.
Qed.

(** * Resolving a quadruple *)
Lemma means_ok q ns : means_namespace s q ns -> quad_ns s q = Ok ns /\ exists i, get ns (sm_infos s) = Some i.
Proof.
  destruct q as [[|k|p|u]|]; cbn [means_namespace quad_ns].
  - intros (i & G & N). rewrite (proj2 (co_uri s CO None ns)); eauto.
  - intros (-> & H). eauto.
  - intros (H & I). rewrite H. auto.
  - intros (i & G & N). rewrite (proj2 (co_uri s CO (Some u) ns)); eauto.
  - intros (i & G & N). rewrite (proj2 (co_uri s CO None ns)); eauto.
Qed.

Lemma means_err q e : quad_ns s q = Err e -> forall ns, ~ means_namespace s q ns.
Proof. intros E ns M. apply means_ok in M as (M & _). congruence. Qed.

Lemma quad_ns_ok q : quad_ns s q <> Panic.
Proof. destruct q as [[|k|p|u]|]; cbn [quad_ns]; repeat (destruct (resolve_namespace _ _) || destruct (resolve_prefix _ _)); discriminate. Qed.

Lemma declares_spec t name c : declares t name c = true <->
  exists k p, c = RedefModel.CComponent (k, name, p) /\ t = kind_of k /\ (t = ITElement \/ t = ITType).
Proof.
  unfold declares. split.
  - destruct c as [| | | |[[k n] p]]; try discriminate. destruct t, k; try discriminate; intros E; apply String.eqb_eq in E as ->; eauto 7.
  - intros (k & p & -> & -> & [H|H]); destruct k; try discriminate; cbn; apply String.eqb_refl.
Qed.

Lemma existsb_declares t name cs : existsb (declares t name) cs = true <->
  exists k, at_top cs k name /\ t = kind_of k /\ (t = ITElement \/ t = ITType).
Proof.
  rewrite existsb_exists. split.
  - intros (c & I & D). apply declares_spec in D as (k & p & -> & H). exists k. split; [exists p; exact I|exact H].
  - intros (k & (p & I) & H). eexists. split; [exact I|]. apply declares_spec. eauto.
Qed.

Lemma first_declaring_some t name l k : first_declaring comps s t name l = Some k ->
  In k l /\ exists i, get k (sm_schemas s) = Some i /\ existsb (declares t name) (comps (si_schema i)) = true.
Proof.
  induction l as [|x l IH]; cbn [first_declaring]; [discriminate|]. destruct (get x (sm_schemas s)) as [i|] eqn:G.
  - destruct (existsb _ _) eqn:E.
    + intros [= ->]. split; [left; reflexivity|]. eauto.
    + intros H. destruct (IH H) as (A & B). split; [right; exact A|exact B].
  - intros H. destruct (IH H) as (A & B). split; [right; exact A|exact B].
Qed.

Lemma first_declaring_none t name l k i : first_declaring comps s t name l = None -> In k l ->
  get k (sm_schemas s) = Some i -> existsb (declares t name) (comps (si_schema i)) = false.
Proof.
  induction l as [|x l IH]; cbn [first_declaring]; [intros _ []|]. destruct (get x (sm_schemas s)) as [j|] eqn:G.
  - destruct (existsb (declares t name) (comps (si_schema j))) eqn:E; [discriminate|]. intros H [->|IN] GK; [|now apply IH].
    rewrite G in GK. injection GK as ->. exact E.
  - intros H [->|IN] GK; [congruence|now apply IH].
Qed.

(** Without a schema the search ends in the only schema, in one that declares the type at its top,
    or nowhere, and then none does. *)
Lemma quad_schema_cases ns j q : get ns (sm_infos s) = Some j -> q_schema q = None ->
  (exists k, ni_schemas j = [k] /\ quad_schema comps s ns q = k) \/
  (~ single s ns /\
   ((exists u, top_type comps s u /\ asked_for q ns u /\ quad_schema comps s ns q = ti_schema u /\ (q_type q = ITElement \/ q_type q = ITType)) \/
    (quad_schema comps s ns q = id_unknown /\
     forall u, top_type comps s u -> asked_for q ns u -> ~ (q_type q = ITElement \/ q_type q = ITType)))).
Proof.
  intros G Q. unfold quad_schema, resolve_schema. rewrite Q, G.
  assert (R : (exists k, ni_schemas j = [k]) \/ (~ single s ns /\ match ni_schemas j with [k] => Some k | _ => None end = None)).
  { destruct (ni_schemas j) as [|a [|b l]] eqn:L; [right|left; eauto|right]; (split; [|reflexivity]); intros (i & k & G' & L');
      rewrite G in G'; injection G' as <-; congruence. }
  destruct R as [(k & L)|(NS & ->)].
  - left. exists k. rewrite L. auto.
  - right. split; [exact NS|]. destruct (first_declaring comps s (q_type q) (q_name q) (ni_schemas j)) as [k|] eqn:F.
    + left. apply first_declaring_some in F as (IN & i & GI & E). apply existsb_declares in E as (kind & T & QT & QK).
      apply (co_in s CO ns j k G) in IN as (i' & GI' & N). rewrite GI in GI'. injection GI' as <-.
      exists (TIdent ns k (Named (q_name q)) (q_type q)). split; [|split; [|split]]; [|repeat split|reflexivity|exact QK].
      exists i, kind, (q_name q). cbn. auto.
    + right. split; [reflexivity|]. intros u (i & kind & n & GU & NU & T & KU & NM) (A1 & A2 & A3) QK.
      assert (IN : In (ti_schema u) (ni_schemas j)) by (apply (co_in s CO ns j _ G); exists i; split; [exact GU|congruence]).
      pose proof (first_declaring_none _ _ _ _ i F IN GU) as E.
      assert (E' : existsb (declares (q_type q) (q_name q)) (comps (si_schema i)) = true).
      { apply existsb_declares. exists kind. rewrite NM in A2. cbn in A2. subst n. split; [exact T|]. split; [congruence|exact QK]. }
      congruence.
Qed.

Lemma top_exists t : top_type comps s t -> schema_type comps s t.
Proof. intros (i & k & n & G & N & T & A & B). exists i, k, n. auto. Qed.

Lemma schema_known t : schema_type comps s t -> ti_schema t <> id_unknown.
Proof. intros (i & k & n & G & _). exact (co_zero s CO _ _ G). Qed.

(** * The three uses *)
Lemma types_found added o q ns t : any_order_of o -> added_fits s added -> means_namespace s (q_ns q) ns -> q_schema q = None ->
  exists_type comps s added t -> asked_for q ns t ->
  (forall u, exists_type comps s added u -> asked_for q ns u -> same_type u t) ->
  (ti_schema t = id_unknown -> ~ single s ns) ->
  config_type comps o s added q = Ok (ti_with_name t (Named (q_name q))).
Proof.
  intros O A M Q T AF U SG. destruct (means_ok _ _ M) as (E & j & G). unfold config_type, quad_resolve. rewrite E.
  set (query := TIdent ns (quad_schema comps s ns q) (Named (q_name q)) (q_type q)).
  assert (NZ : ns <> id_unknown) by exact (co_nszero s CO _ _ G).
  assert (F : fits query t).
  { destruct AF as (A1 & A2 & A3). split; [right; symmetry; exact A3|]. split; [|split; cbn; auto].
    cbn [query ti_schema]. destruct (quad_schema_cases ns j q G Q) as [(k & L & ->)|(NS & [(u & TU & AU & -> & _)|(-> & _)])].
    - right. destruct (Nat.eq_dec (ti_schema t) id_unknown) as [Z|KN].
      + destruct (SG Z). exists j, k. auto.
      + destruct (exists_home added t A T KN) as (i & GI & N).
        assert (IN : In (ti_schema t) (ni_schemas j)) by (apply (co_in s CO ns j _ G); exists i; split; [exact GI|congruence]).
        rewrite L in IN. destruct IN as [|[]]. assumption.
    - right. apply (U u); [left; now apply top_exists|exact AU].
    - left. reflexivity. }
  assert (R : cache_resolve o (cache_run (cache_history comps s added)) query = Ok (ti_with_name t (Named (q_name q)))).
  { apply (C37_found_partial _ o query); [exact O|now apply history_one|now apply history_added|].
    exists t. split; [now apply history_inserted|]. split; [exact F|]. split; [|reflexivity].
    intros u IU (F1 & F2 & F3 & F4). apply history_inserted in IU. apply U; [exact IU|]. cbn in F1, F3, F4.
    destruct F1 as [F1|F1]; [contradiction|]. repeat split; congruence. }
  rewrite R. reflexivity.
Qed.

Lemma types_unknown added o q ns : any_order_of o -> added_fits s added -> means_namespace s (q_ns q) ns ->
  (forall t, exists_type comps s added t -> ~ asked_for q ns t) ->
  exists k, config_type comps o s added q = Err (ECache (UnknownType (TIdent ns k (Named (q_name q)) (q_type q)))).
Proof.
  intros O A M N. destruct (means_ok _ _ M) as (E & j & G). exists (quad_schema comps s ns q).
  assert (NZ : ns <> id_unknown) by exact (co_nszero s CO _ _ G).
  unfold config_type, quad_resolve. rewrite E.
  rewrite (proj2 (C37_unknown_partial (cache_history comps s added) o _ O (history_one _ A) (history_added _ A))); [reflexivity|].
  intros t T (F1 & F2 & F3 & F4). apply history_inserted in T. apply (N t T). cbn in F1, F3, F4.
  destruct F1 as [F1|F1]; [contradiction|]. repeat split; congruence.
Qed.

Lemma refers_resolved q t : refers_to comps s q t -> quad_resolve comps s q = Ok t.
Proof.
  intros (Q & M & AF & T & H). destruct (means_ok _ _ M) as (E & j & G). unfold quad_resolve. rewrite E. f_equal.
  assert (NM : exists n, ti_name t = Named n) by (destruct T as (i & k & n & _ & _ & _ & _ & NM); eauto).
  destruct NM as (n & NM). destruct AF as (A1 & A2 & A3). rewrite NM in A2. cbn in A2.
  assert (K : quad_schema comps s (ti_ns t) q = ti_schema t).
  { destruct (quad_schema_cases (ti_ns t) j q G Q) as [(k & L & ->)|(NS & [(u & TU & AU & -> & QK)|(-> & NO)])].
    - destruct T as (i & kk & m & GI & N & _).
      assert (IN : In (ti_schema t) (ni_schemas j)) by (apply (co_in s CO _ j _ G); exists i; auto).
      rewrite L in IN. destruct IN as [|[]]. congruence.
    - destruct H as [(_ & _ & U)|S1]; [|contradiction]. rewrite (U u TU AU). reflexivity.
    - destruct H as [(TT & QK & _)|S1]; [|contradiction]. destruct (NO t TT); [|exact QK].
      split; [exact A1|]. split; [rewrite NM; exact A2|reflexivity]. }
  rewrite K. destruct t as [a b c d]; cbn in *. congruence.
Qed.

Lemma generate_ok known qs ts : Forall2 (refers_to comps s) qs ts -> (forall t, In t ts -> In t known) ->
  config_generate comps s known qs = Ok ts.
Proof.
  induction 1 as [|q t qs ts R _ IH]; intros KN; cbn [config_generate]; [reflexivity|]. rewrite (refers_resolved q t R).
  destruct (in_dec tident_eq_dec t known) as [I|I]; cbn [is_left]; [|destruct I; apply KN; left; reflexivity].
  rewrite IH; [reflexivity|]. intros u U. apply KN. right. exact U.
Qed.

Lemma dynamic_ok qs ts : Forall2 (refers_to comps s) qs ts -> config_dynamic comps s qs = Ok ts.
Proof.
  induction 1 as [|q t qs ts R _ IH]; cbn [config_dynamic]; [reflexivity|]. rewrite (refers_resolved q t R), IH. reflexivity.
Qed.

Lemma find_schema_only f P k : (forall i, f i = true <-> P i) -> only_schema s P k -> find_schema s f = k.
Proof.
  intros FP ((i & G & PI) & U). unfold find_schema. destruct (find (fun x => f (snd x)) (sm_schemas s)) as [[k' i']|] eqn:F.
  - apply find_some in F as (IN & FT). cbn [fst snd] in *. apply (U k' i'); [apply get_in; [apply CO|exact IN]|now apply FP].
  - pose proof (find_none _ _ F (k, i)) as N. cbn [snd] in N. rewrite (proj2 (FP i) PI) in N. discriminate N.
    apply get_in; [apply CO|exact G].
Qed.

Lemma opt_str_eqb_spec a b : opt_str_eqb a b = true <-> a = b.
Proof. destruct a, b; cbn; [rewrite String.eqb_eq|..]; split; congruence. Qed.

Lemma schema_resolved q x ns k : means_namespace s (q_ns q) ns -> q_schema q = Some x -> means_schema s x k ->
  quad_resolve comps s q = Ok (TIdent ns k (Named (q_name q)) (q_type q)).
Proof.
  intros M Q MS. destruct (means_ok _ _ M) as (E & j & G). unfold quad_resolve, quad_schema. rewrite E, Q. do 2 f_equal.
  destruct x as [m|n|l]; cbn [means_schema] in MS.
  - congruence.
  - apply (find_schema_only _ _ k (fun i => opt_str_eqb_spec (si_name i) (Some n)) MS).
  - apply (find_schema_only _ _ k (fun i => opt_str_eqb_spec (si_location i) (Some l)) MS).
Qed.

Lemma schema_types_found added o q x ns t : any_order_of o -> added_fits s added -> means_namespace s (q_ns q) ns ->
  q_schema q = Some x -> means_schema s x (ti_schema t) -> ti_schema t <> id_unknown ->
  exists_type comps s added t -> asked_for q ns t ->
  config_type comps o s added q = Ok (ti_with_name t (Named (q_name q))).
Proof.
  intros O A M Q MS NZ T (A1 & A2 & A3). unfold config_type. rewrite (schema_resolved q x ns _ M Q MS).
  destruct (means_ok _ _ M) as (_ & j & G). assert (NN : ns <> id_unknown) by exact (co_nszero s CO _ _ G).
  rewrite (proj2 (C37_found_partial (cache_history comps s added) o (TIdent ns (ti_schema t) (Named (q_name q)) (q_type q))
    (ti_with_name t (Named (q_name q))) O (history_one _ A) (history_added _ A))); [reflexivity|].
  exists t. split; [now apply history_inserted|]. split; [|split; [|reflexivity]].
  - repeat split; cbn; auto.
  - intros u U (F1 & F2 & F3 & F4). cbn in F1, F2, F3, F4. destruct F1 as [F1|F1]; [contradiction|].
    destruct F2 as [F2|F2]; [contradiction|]. repeat split; congruence.
Qed.
End contents.

Lemma split_colon_app p n : ~ In ":"%char (list_ascii_of_string p) -> SerHelperModel.split_colon (p ++ String ":" n) = Some (p, n).
Proof.
  induction p as [|c p IH]; intros N; [reflexivity|]. cbn [append SerHelperModel.split_colon]. cbn in N.
  destruct (Ascii.eqb_spec c ":") as [->|NE]; [destruct N; left; reflexivity|]. rewrite IH; [reflexivity|]. intros I. apply N. right. exact I.
Qed.
Lemma split_colon_none x : ~ In ":"%char (list_ascii_of_string x) -> SerHelperModel.split_colon x = None.
Proof.
  induction x as [|c x IH]; intros N; [reflexivity|]. cbn [SerHelperModel.split_colon]. cbn in N.
  destruct (Ascii.eqb_spec c ":") as [->|NE]; [destruct N; left; reflexivity|]. rewrite IH; [reflexivity|]. intros I. apply N. right. exact I.
Qed.

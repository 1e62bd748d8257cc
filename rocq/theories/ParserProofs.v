From Verif Require Import ParserModel ParserSpec CacheProofs.
From Coq Require Import NArith DecimalString.
From Coq Require DecimalN.
Local Open Scope string_scope.

(** * Maps *)
Lemma assoc_sput {V} k (v : V) m k' : assoc k' (sput k v m) = if String.eqb k' k then Some v else assoc k' m.
Proof.
  induction m as [|[a w] m IH]; cbn; [reflexivity|].
  destruct (String.eqb_spec k a) as [->|N]; cbn.
  - destruct (String.eqb k' a); reflexivity.
  - rewrite IH. destruct (String.eqb_spec k' a) as [E|E]; destruct (String.eqb_spec k' k) as [F|F]; try reflexivity. congruence.
Qed.

Lemma assoc_key {V} (m : list (string * V)) k : In k (map fst m) <-> exists v, assoc k m = Some v.
Proof.
  induction m as [|[a w] m IH]; cbn; [split; [tauto|intros [? [=]]]|].
  destruct (String.eqb_spec k a) as [->|N]; [split; eauto|].
  rewrite IH. split; [intros [|]; [congruence|auto]|auto].
Qed.

Lemma sput_in {V} k (v : V) m k' v' : In (k', v') (sput k v m) -> (k' = k /\ v' = v) \/ In (k', v') m.
Proof.
  induction m as [|[a w] m IH]; cbn.
  - intros [[= <- <-]|[]]. auto.
  - destruct (String.eqb_spec k a) as [->|N]; cbn.
    + intros [[= <- <-]|I]; auto.
    + intros [[= <- <-]|I]; [auto|]. destruct (IH I); auto.
Qed.

Lemma assoc_in {V} (m : list (string * V)) k v : assoc k m = Some v -> In (k, v) m.
Proof.
  induction m as [|[a w] m IH]; cbn; [discriminate|].
  destruct (String.eqb_spec k a) as [->|]; [intros [= ->]; auto|auto].
Qed.

Lemma loaded_app a b : loaded (a ++ b) = (loaded a ++ loaded b)%list.
Proof. induction a as [|[|x n|e] a IH]; cbn; congruence. Qed.
Lemma locations_app a b : locations (a ++ b) = (locations a ++ locations b)%list.
Proof. induction a as [|e a IH]; cbn; [reflexivity|]. destruct (pe_location e); cbn; congruence. Qed.
Lemma locations_in es l : In l (locations es) <-> exists e, In e es /\ pe_location e = Some l.
Proof.
  induction es as [|e es IH]; cbn; [split; [tauto|intros (? & [] & _)]|].
  destruct (pe_location e) as [l'|] eqn:E; cbn; rewrite IH; split.
  - intros [<-|(x & I & L)]; eauto.
  - intros (x & [<-|I] & L); [left; congruence|right; eauto].
  - intros (x & I & L). eauto.
  - intros (x & [<-|I] & L); [congruence|eauto].
Qed.

Lemma nodup_app_r {A} (a b : list A) : NoDup (a ++ b) -> NoDup b.
Proof. induction a as [|x a IH]; cbn; intros H; [exact H|]. inversion H; auto. Qed.

Section loading.
Variable resolver : request -> outcome unit (option (option string * string * string)).
Variable parse : string -> option schema_doc.

(** [id] has been used up for the schema at location [l] or for the schema text with that id. *)
Record pinv (p : parser) : Prop := {
  pv_locs : NoDup (locations (loaded (pa_entries p)));
  pv_cache : forall l, (exists ids, assoc l (pa_cache p) = Some ids) <-> In l (locations (loaded (pa_entries p)));
  pv_own : forall e l ids, In e (loaded (pa_entries p)) -> pe_location e = Some l -> assoc l (pa_cache p) = Some ids -> In (pe_id e) ids;
  pv_eids : NoDup (map pe_id (loaded (pa_entries p)));
  pv_pids : NoDup (map fst (pa_pending p));
  pv_elt : forall e, In e (loaded (pa_entries p)) -> pe_id e < pa_next p;
  pv_clt : forall l ids i, assoc l (pa_cache p) = Some ids -> In i ids -> i < pa_next p;
  pv_plt : forall i, In i (map fst (pa_pending p)) -> i < pa_next p;
  pv_pe : forall e, In e (loaded (pa_entries p)) -> ~ In (pe_id e) (map fst (pa_pending p));
  pv_pc : forall l ids i, assoc l (pa_cache p) = Some ids -> In i ids -> ~ In i (map fst (pa_pending p));
  pv_cc : forall l l' ids ids' i, assoc l (pa_cache p) = Some ids -> assoc l' (pa_cache p) = Some ids' -> In i ids -> In i ids' -> l = l';
  pv_ce : forall e l ids, In e (loaded (pa_entries p)) -> assoc l (pa_cache p) = Some ids -> In (pe_id e) ids -> pe_location e = Some l;
  pv_deps : forall e loc d, In e (loaded (pa_entries p)) -> In (loc, d) (pe_deps e) ->
    exists c r kind, refers e c r kind /\ rq_location r = loc /\ d = kind (dep_id d) /\
      (In (dep_id d, r) (pa_pending p) \/
       exists l ids, answers resolver r l /\ assoc l (pa_cache p) = Some ids /\ In (dep_id d) ids);
  pv_from : forall e l, In e (loaded (pa_entries p)) -> pe_location e = Some l ->
    exists r text d, resolver r = Ok (Some (pe_name e, l, text)) /\ parse text = Some d /\
      namespace_from (sd_target d) r (pe_target e) /\ pe_schema e = set_target d (pe_target e);
  pv_target : forall e, In e (loaded (pa_entries p)) -> sd_target (pe_schema e) = pe_target e }.

(** Every reference of every loaded schema has a dependency. *)
Definition refs_kept (p : parser) : Prop :=
  pa_includes p = true /\
  forall e c r kind, In e (loaded (pa_entries p)) -> refers e c r kind -> In (rq_location r) (map fst (pe_deps e)).

Lemma pinv_new : pinv parser_new.
Proof.
  split; cbn; try constructor; try (intros; contradiction); try (intros; discriminate).
  intros [ids [=]].
Qed.

Lemma sput_keys {V} k (v : V) m x : In x (map fst (sput k v m)) <-> x = k \/ In x (map fst m).
Proof.
  induction m as [|[a w] m IH]; cbn; [intuition|]. destruct (String.eqb_spec k a) as [->|N]; cbn; [intuition|].
  rewrite IH. intuition.
Qed.

Lemma kind_dep ns loc c r kind : content_req ns loc c = Some (r, kind) -> forall n, dep_id (kind n) = n.
Proof.
  destruct c as [[l|] n|l|l|l|]; cbn; try discriminate; intros [= _ <-] m; reflexivity.
Qed.

Lemma add_contents_spec ns cur : forall cs pending next deps pending' next' deps',
  add_contents ns cur cs pending next deps = (pending', next', deps') ->
  next <= next' /\
  (exists new, pending' = (pending ++ new)%list /\ map fst new = seq next (next' - next)) /\
  (forall loc d, In (loc, d) deps' -> In (loc, d) deps \/
     exists c r kind, In c cs /\ content_req ns cur c = Some (r, kind) /\ rq_location r = loc /\ d = kind (dep_id d) /\
                      In (dep_id d, r) pending') /\
  (forall x, In x pending -> In x pending') /\
  (forall l, In l (map fst deps) -> In l (map fst deps')) /\
  (forall c r kind, In c cs -> content_req ns cur c = Some (r, kind) -> In (rq_location r) (map fst deps')).
Proof.
  induction cs as [|c cs IH]; intros pending next deps pending' next' deps'; cbn [add_contents].
  - intros [= <- <- <-]. split; [lia|]. split; [exists []; rewrite app_nil_r, Nat.sub_diag; auto|].
    split; [auto|]. split; [auto|]. split; [auto|]. intros c r kind [].
  - destruct (content_req ns cur c) as [[r kind]|] eqn:C; intros E.
    + apply IH in E as (L & (new & P & N) & D & PP & K & F). split; [lia|]. split; [|split; [|split; [|split]]].
      * exists ((next, r) :: new). rewrite P, <- app_assoc. split; [reflexivity|]. cbn [map fst]. rewrite N.
        destruct (next' - next) as [|m] eqn:M; [lia|]. cbn. f_equal. f_equal. lia.
      * intros loc d I. destruct (D loc d I) as [J|(c' & r' & k' & J & X)].
        -- apply sput_in in J as [[-> ->]|J]; [|auto]. right. exists c, r, kind.
           rewrite (kind_dep _ _ _ _ _ C). repeat split; auto; [left; reflexivity|].
           apply PP. apply in_app_iff. right. left. reflexivity.
        -- right. exists c', r', k'. split; [right; exact J|exact X].
      * intros x I. apply PP, in_app_iff. auto.
      * intros l I. apply K, sput_keys. auto.
      * intros c' r' k' [<-|I] C'; [|eauto]. rewrite C in C'. injection C' as <- <-. apply K, sput_keys. auto.
    + apply IH in E as (L & X & D & PP & K & F). split; [exact L|]. split; [exact X|]. split; [|split; [exact PP|split; [exact K|]]].
      * intros loc d I. destruct (D loc d I) as [J|(c' & r' & k' & J & Y)]; [auto|]. right. exists c', r', k'. split; [right; exact J|exact Y].
      * intros c' r' k' [<-|I] C'; [congruence|eauto].
Qed.

(** Adding a schema whose identifier [id] is fresh; [cached] is the cache afterwards. *)
Lemma add_schema_inv p id name d loc ex :
  pinv (with_pending p (ex ++ pa_pending p)) ->
  (forall i r, In (i, r) ex -> i = id /\ exists l, loc = Some l /\ answers resolver r l) -> id < pa_next p -> ~ In id (map fst (pa_pending p)) ->
  (forall e, In e (loaded (pa_entries p)) -> pe_id e <> id) ->
  (forall l ids, assoc l (pa_cache p) = Some ids -> ~ In id ids) ->
  match loc with
  | None => True
  | Some l => assoc l (pa_cache p) = None /\
      exists r text d0, resolver r = Ok (Some (name, l, text)) /\ parse text = Some d0 /\
        namespace_from (sd_target d0) r (sd_target d) /\ d = set_target d0 (sd_target d)
  end ->
  pinv (match loc with
        | None => add_schema p id name d loc
        | Some l => let p := add_schema p id name d loc in with_cache p (sput l [id] (pa_cache p))
        end) /\
  (refs_kept p -> refs_kept (add_schema p id name d loc)).
Proof.
  intros I HX Lid NP NE NC HL.
  assert (Z : exists pending next deps,
    (if pa_includes p then add_contents (sd_target d) loc (sd_content d) (pa_pending p) (pa_next p) []
     else (pa_pending p, pa_next p, [])) = (pending, next, deps) /\
    pa_next p <= next /\ (exists new, pending = (pa_pending p ++ new)%list /\ map fst new = seq (pa_next p) (next - pa_next p)) /\
    (forall l x, In (l, x) deps -> exists c r kind, In c (sd_content d) /\
       content_req (sd_target d) loc c = Some (r, kind) /\ rq_location r = l /\ x = kind (dep_id x) /\ In (dep_id x, r) pending) /\
    (pa_includes p = true -> forall c r kind, In c (sd_content d) -> content_req (sd_target d) loc c = Some (r, kind) -> In (rq_location r) (map fst deps))).
  { destruct (pa_includes p).
    - destruct (add_contents (sd_target d) loc (sd_content d) (pa_pending p) (pa_next p) []) as [[pending next] deps] eqn:E.
      exists pending, next, deps. split; [reflexivity|].
      apply add_contents_spec in E as (L & N & D & PP & K & F). split; [exact L|]. split; [exact N|]. split; [|intros _; exact F].
      intros l x J. destruct (D l x J) as [[]|X]. exact X.
    - exists (pa_pending p), (pa_next p), []. split; [reflexivity|]. split; [lia|]. split.
      + exists []. rewrite app_nil_r, Nat.sub_diag. auto.
      + split; [intros l x []|discriminate]. }
  destruct Z as (pending & next & deps & E & L & (new & EP & EN) & D & F).
  set (e0 := SchemaEntry id name d loc (sd_target d) deps).
  assert (EA : add_schema p id name d loc =
    Parser (pa_cache p) (pa_entries p ++ [PESchema e0]) pending next (pa_includes p) (pa_generate p) (pa_alternative p)).
  { unfold add_schema. rewrite E. reflexivity. }
  split.
  2: { rewrite EA. intros (R1 & R2). split; cbn; [exact R1|]. intros e c r kind. rewrite loaded_app, in_app_iff. cbn.
       intros [J|[<-|[]]] RF; [eapply R2; eassumption|]. destruct RF as (RF1 & RF2). cbn in *. eapply F; eassumption. }
  set (cache' := match loc with Some l => sput l [id] (pa_cache p) | None => pa_cache p end).
  assert (EX : match loc with
        | None => add_schema p id name d loc
        | Some l => let p := add_schema p id name d loc in with_cache p (sput l [id] (pa_cache p))
        end = Parser cache' (pa_entries p ++ [PESchema e0]) pending next (pa_includes p) (pa_generate p) (pa_alternative p)).
  { unfold cache'. rewrite EA. destruct loc; reflexivity. }
  rewrite EX. clear EX EA E.
  assert (AC : forall l ids, assoc l cache' = Some ids -> (loc = Some l /\ ids = [id]) \/ (assoc l (pa_cache p) = Some ids /\ loc <> Some l)).
  { intros l ids. unfold cache'. destruct loc as [l0|]; [|intros; right; split; [assumption|discriminate]].
    rewrite assoc_sput. destruct (String.eqb_spec l l0) as [->|N]; [intros [= <-]; auto|]. intros; right; split; [assumption|congruence]. }
  assert (CA : forall l ids, assoc l (pa_cache p) = Some ids -> assoc l cache' = Some ids).
  { intros l ids A. unfold cache'. destruct loc as [l0|]; [|exact A]. destruct HL as (HL & _). rewrite assoc_sput.
    destruct (String.eqb_spec l l0) as [->|]; [congruence|exact A]. }
  assert (LE : loaded (pa_entries p ++ [PESchema e0]) = (loaded (pa_entries p) ++ [e0])%list) by (rewrite loaded_app; reflexivity).
  assert (INL : forall e, In e (loaded (pa_entries p) ++ [e0])%list <-> In e (loaded (pa_entries p)) \/ e = e0).
  { intros e. rewrite in_app_iff. cbn. intuition. }
  assert (NEW : forall i, In i (map fst new) <-> pa_next p <= i < next).
  { intros i. rewrite EN, in_seq. lia. }
  assert (PEN : forall i, In i (map fst pending) <-> In i (map fst (pa_pending p)) \/ pa_next p <= i < next).
  { intros i. rewrite EP, map_app, in_app_iff, NEW. reflexivity. }
  assert (OLD : forall i, In i (map fst (pa_pending p)) -> i < pa_next p).
  { intros i J. apply (pv_plt _ I). cbn. rewrite map_app, in_app_iff. auto. }
  split; cbn [pa_cache pa_entries pa_pending pa_next]; try rewrite LE.
  - rewrite locations_app. cbn. destruct loc as [l|]; [|rewrite app_nil_r; apply I]. apply nodup_app; [apply I|repeat constructor; auto|].
    intros x J [<-|[]]. apply (pv_cache _ I) in J as [ids J]. destruct HL. cbn in *. congruence.
  - intros l. rewrite locations_app, in_app_iff, <- (pv_cache _ I). cbn. unfold cache'. destruct loc as [l0|]; cbn.
    + rewrite assoc_sput. destruct (String.eqb_spec l l0) as [->|N]; [split; eauto|]. split; [auto|]. intros [|[|[]]]; [assumption|congruence].
    + intuition.
  - intros e l ids J EL A. apply INL in J as [J| ->].
    + apply AC in A as [[-> ->]|[A _]]; [|apply (pv_own _ I e l ids J EL A)]. exfalso.
      assert (X : In l (locations (loaded (pa_entries p)))) by (apply locations_in; eauto).
      apply (pv_cache _ I) in X as [ids X]. destruct HL. cbn in *. congruence.
    + cbn in EL. apply AC in A as [[_ ->]|[A N]]; [left; reflexivity|congruence].
  - rewrite map_app. apply nodup_app; [apply I|repeat constructor; auto|]. intros x J [<-|[]].
    apply in_map_iff in J as (e & X & J). exact (NE e J X).
  - rewrite EP, map_app. apply nodup_app; [|rewrite EN; apply seq_NoDup|].
    + pose proof (pv_pids _ I) as Q. cbn in Q. rewrite map_app in Q. apply nodup_app_r in Q. exact Q.
    + intros x J K. apply NEW in K. apply OLD in J. cbn in *. lia.
  - intros e J. apply INL in J as [J| ->]; [apply (pv_elt _ I) in J; cbn in *; lia|cbn in *; lia].
  - intros l ids i A J. apply AC in A as [[_ ->]|[A _]]; [destruct J as [<-|[]]; cbn in *; lia|]. apply (pv_clt _ I l ids i A) in J. cbn in *. lia.
  - intros i J. apply PEN in J as [J|J]; [apply OLD in J; cbn in *; lia|cbn in *; lia].
  - intros e J K. apply PEN in K. apply INL in J as [J| ->].
    + destruct K as [K|K]; [|apply (pv_elt _ I) in J; cbn in J; cbn in *; lia].
      apply (pv_pe _ I e J). cbn. rewrite map_app, in_app_iff. auto.
    + cbn in K. destruct K as [K|K]; [exact (NP K)|cbn in *; lia].
  - intros l ids i A J K. apply PEN in K. apply AC in A as [[_ ->]|[A _]].
    + destruct J as [<-|[]]. destruct K as [K|K]; [exact (NP K)|cbn in *; lia].
    + destruct K as [K|K]; [|apply (pv_clt _ I l ids i A) in J; cbn in J; cbn in *; lia].
      apply (pv_pc _ I l ids i A J). cbn. rewrite map_app, in_app_iff. auto.
  - intros l l' ids ids' i A A' J J'. apply AC in A as [[A ->]|[A N]]; apply AC in A' as [[A' ->]|[A' N']].
    + congruence.
    + destruct J as [<-|[]]. destruct (NC _ _ A' J').
    + destruct J' as [<-|[]]. destruct (NC _ _ A J).
    + exact (pv_cc _ I l l' ids ids' i A A' J J').
  - intros e l ids J A K. apply INL in J as [J| ->].
    + apply AC in A as [[A ->]|[A _]]; [|exact (pv_ce _ I e l ids J A K)].
      destruct K as [K|[]]. symmetry in K. destruct (NE e J K).
    + cbn in *. apply AC in A as [[A ->]|[A _]]; [exact A|]. destruct (NC _ _ A K).
  - intros e l x J K. apply INL in J as [J| ->].
    + destruct (pv_deps _ I e l x J K) as (c & r & kind & R & RL & RD & S). exists c, r, kind. split; [exact R|]. split; [exact RL|]. split; [exact RD|].
      destruct S as [S|(l' & ids & S1 & S2 & S3)]; [|right; exists l', ids; split; [exact S1|]; split; [apply CA, S2|exact S3]].
      cbn in S. apply in_app_iff in S as [S|S]; [right|left; rewrite EP; apply in_app_iff; auto].
      destruct (HX _ _ S) as (-> & l' & -> & S'). exists l', [id]. split; [exact S'|]. split; [|left; reflexivity].
      unfold cache'. rewrite assoc_sput, String.eqb_refl. reflexivity.
    + cbn in K. destruct (D l x K) as (c & r & kind & R1 & R2 & R3 & R4 & R5). exists c, r, kind.
      split; [split; [exact R1|exact R2]|]. auto.
  - intros e l J EL. apply INL in J as [J| ->]; [apply (pv_from _ I e l J EL)|]. cbn in EL. subst loc. cbn.
    destruct HL as (_ & r & text & d0 & H1 & H2 & H3 & H4). exists r, text, d0. auto.
  - intros e J. apply INL in J as [J| ->]; [apply (pv_target _ I e J)|reflexivity].
Qed.

Lemma apply_namespace_spec r l d d' : apply_namespace r l d = Ok d' ->
  namespace_from (sd_target d) r (sd_target d') /\ d' = set_target d (sd_target d').
Proof.
  unfold apply_namespace, namespace_from. destruct d as [t cs xs rest]; cbn.
  destruct (rq_current_ns r) as [cur|] eqn:C.
  - destruct t as [n|].
    + destruct (rq_type r) eqn:T.
      * intros [= <-]. cbn. split; [split; [reflexivity|discriminate]|reflexivity].
      * destruct (String.eqb_spec n cur) as [->|]; [|discriminate]. intros [= <-]. cbn.
        split; [split; [reflexivity|]|reflexivity]. intros _ c [= <-]. reflexivity.
      * intros [= <-]. cbn. split; [split; [reflexivity|discriminate]|reflexivity].
    + intros [= <-]. cbn. auto.
  - intros [= <-]. cbn. split; [|reflexivity]. destruct t; [|reflexivity]. split; [reflexivity|]. intros _ c [=].
Qed.

Lemma resolve_location_inv p id r p' :
  pinv (with_pending p ((id, r) :: pa_pending p)) ->
  resolve_location resolver parse p id r = Ok p' ->
  pinv p' /\ (refs_kept p -> refs_kept p').
Proof.
  intros I. unfold resolve_location.
  destruct (resolver r) as [[[[name l] text]|]|e|] eqn:A; try discriminate.
  assert (Iid : id < pa_next p). { apply (pv_plt _ I). left. reflexivity. }
  pose proof (pv_pids _ I) as ND. cbn in ND. inversion ND as [|x y N1 N2]; subst x y.
  destruct (assoc l (pa_cache p)) as [ids|] eqn:C.
  - intros [= <-]. split; [|intros R; exact R].
    assert (AC : forall l' ids', assoc l' (sput l (set_add Nat.eq_dec id ids) (pa_cache p)) = Some ids' ->
              exists ids0, assoc l' (pa_cache p) = Some ids0 /\ (ids' = ids0 \/ l' = l /\ ids0 = ids /\ ids' = set_add Nat.eq_dec id ids)).
    { intros l' ids'. rewrite assoc_sput. destruct (String.eqb_spec l' l) as [->|]; [intros [= <-]; eauto 6|eauto]. }
    assert (MEM : forall l' ids' i, assoc l' (sput l (set_add Nat.eq_dec id ids) (pa_cache p)) = Some ids' -> In i ids' ->
              (i = id /\ l' = l) \/ exists ids0, assoc l' (pa_cache p) = Some ids0 /\ In i ids0).
    { intros l' ids' i X J. destruct (AC _ _ X) as (ids0 & Y & [->|(-> & -> & ->)]); [eauto|].
      apply set_add_in in J as [->|J]; eauto. }
    assert (UP : forall l' ids0 i, assoc l' (pa_cache p) = Some ids0 -> In i ids0 ->
              exists ids', assoc l' (sput l (set_add Nat.eq_dec id ids) (pa_cache p)) = Some ids' /\ In i ids').
    { intros l' ids0 i X J. rewrite assoc_sput. destruct (String.eqb_spec l' l) as [->|]; [|eauto].
      eexists. split; [reflexivity|]. apply set_add_in. right. congruence. }
    split; cbn [with_cache pa_cache pa_entries pa_pending pa_next].
    + apply I.
    + intros l'. rewrite <- (pv_cache _ I l'). cbn. rewrite assoc_sput. destruct (String.eqb_spec l' l) as [->|]; [|reflexivity].
      split; eauto.
    + intros e l' ids' J EL X. destruct (AC _ _ X) as (ids0 & Y & [->|(-> & -> & ->)]).
      * exact (pv_own _ I e l' ids0 J EL Y).
      * apply set_add_in. right. exact (pv_own _ I e l ids J EL Y).
    + apply I.
    + exact N2.
    + apply I.
    + intros l' ids' i X J. destruct (MEM _ _ _ X J) as [[-> _]|(ids0 & Y & K)]; [exact Iid|exact (pv_clt _ I l' ids0 i Y K)].
    + intros i J. apply (pv_plt _ I). right. exact J.
    + intros e J K. apply (pv_pe _ I e J). right. exact K.
    + intros l' ids' i X J K. destruct (MEM _ _ _ X J) as [[-> _]|(ids0 & Y & M)]; [exact (N1 K)|].
      apply (pv_pc _ I l' ids0 i Y M). right. exact K.
    + intros l1 l2 ids1 ids2 i X1 X2 J1 J2.
      destruct (MEM _ _ _ X1 J1) as [[-> ->]|(a1 & Y1 & M1)]; destruct (MEM _ _ _ X2 J2) as [[? ->]|(a2 & Y2 & M2)].
      * reflexivity.
      * exfalso. apply (pv_pc _ I l2 a2 id Y2 M2). left. reflexivity.
      * subst i. exfalso. apply (pv_pc _ I l1 a1 id Y1 M1). left. reflexivity.
      * exact (pv_cc _ I l1 l2 a1 a2 i Y1 Y2 M1 M2).
    + intros e l' ids' J X K. destruct (MEM _ _ _ X K) as [[Q ->]|(a & Y & M)].
      * exfalso. apply (pv_pe _ I e J). left. exact (eq_sym Q).
      * exact (pv_ce _ I e l' a J Y M).
    + intros e loc d J K. destruct (pv_deps _ I e loc d J K) as (c & r0 & kind & R & RL & RD & S).
      exists c, r0, kind. split; [exact R|]. split; [exact RL|]. split; [exact RD|].
      destruct S as [[S|S]|(l' & ids0 & S1 & S2 & S3)].
      * injection S as S1 S2. subst r0. right. exists l. eexists. split; [exists name, text; exact A|]. split.
        -- rewrite assoc_sput, String.eqb_refl. reflexivity.
        -- apply set_add_in. auto.
      * left. exact S.
      * right. destruct (UP l' ids0 _ S2 S3) as (ids' & X & Y). exists l', ids'. auto.
    + apply I.
    + apply I.
  - destruct (parse text) as [d|] eqn:P; [|discriminate].
    destruct (apply_namespace r l d) as [d'|e|] eqn:N; try discriminate.
    apply apply_namespace_spec in N as (NF & ED). intros [= <-].
    apply (add_schema_inv p id name d' (Some l) [(id, r)]).
    + exact I.
    + intros i r' [[= <- <-]|[]]. split; [reflexivity|]. exists l. split; [reflexivity|]. exists name, text. exact A.
    + exact Iid.
    + exact N1.
    + intros e J K. apply (pv_pe _ I e J). left. exact (eq_sym K).
    + intros l' ids X J. apply (pv_pc _ I l' ids id X J). left. reflexivity.
    + split; [exact C|]. exists r, text, d. auto.
Qed.

Lemma refs_pending p q : refs_kept (with_pending p q) <-> refs_kept p.
Proof. reflexivity. Qed.

Lemma resolve_pending_inv fuel p p' :
  pinv p -> resolve_pending resolver parse fuel p = Some (Ok p') ->
  pinv p' /\ (refs_kept p -> refs_kept p') /\ pa_pending p' = [].
Proof.
  revert p. induction fuel as [|fuel IH]; intros p I; cbn [resolve_pending].
  - destruct (pa_pending p) as [|[id r] q] eqn:Q; [|discriminate]. intros [= <-]. auto.
  - destruct (pa_pending p) as [|[id r] q] eqn:Q; [intros [= <-]; auto|].
    destruct (resolve_location resolver parse (with_pending p q) id r) as [p1| |] eqn:R; [|discriminate|discriminate].
    intros E. apply resolve_location_inv in R as (I1 & K1).
    + destruct (IH _ I1 E) as (A & B & C). split; [exact A|]. split; [|exact C]. intros X. apply B, K1, X.
    + destruct p; cbn in *. subst. exact I.
Qed.

Lemma with_next_inv p id : pinv p -> id = pa_next p ->
  forall r, pinv (with_pending (with_next p (S id)) ((id, r) :: pa_pending p)).
Proof.
  intros I -> r. destruct I as [A B C D E F G H I J K L M N O]. split; cbn in *; auto.
  - constructor; [|exact E]. intros X. apply H in X. lia.
  - intros e X. apply F in X. lia.
  - intros l ids i X Y. specialize (G l ids i X Y). lia.
  - intros i [<-|X]; [lia|]. apply H in X. lia.
  - intros e X [Y|Y]; [apply F in X; lia|exact (I e X Y)].
  - intros l ids i X Y [Z|Z]; [specialize (G l ids i X Y); lia|exact (J l ids i X Y Z)].
  - intros e loc d X Y. destruct (M e loc d X Y) as (c & r0 & kind & R1 & R2 & R3 & [S|S]); exists c, r0, kind; auto.
    split; [exact R1|]. split; [exact R2|]. split; [exact R3|]. auto.
Qed.

Lemma with_next_inv0 p n : pinv p -> pa_next p <= n -> pinv (with_next p n).
Proof.
  intros I Le. destruct I as [A B C D E F G H I J K L M N O]. split; cbn in *; auto.
  - intros e X. apply F in X. lia.
  - intros l ids i X Y. specialize (G l ids i X Y). lia.
  - intros i X. apply H in X. lia.
Qed.

Lemma parser_do_inv fuel p op p' :
  pinv p -> pa_pending p = [] -> op <> OpResolver -> parser_do resolver parse fuel p op = Some (Ok p') ->
  pinv p' /\ pa_pending p' = [] /\ (op <> OpIncludes false -> refs_kept p -> refs_kept p').
Proof.
  intros I Q NR. destruct op as [x n| |name text|url|b|b|b|]; cbn [parser_do].
  - intros [= <-]. split; [|split; [exact Q|]].
    + destruct I. split; cbn in *; rewrite ?loaded_app; cbn; rewrite ?app_nil_r; auto.
    + intros _ (R1 & R2). split; cbn; rewrite ?loaded_app; cbn; rewrite ?app_nil_r; auto.
  - intros [= <-]. split; [|split; [exact Q|]].
    + destruct I. split; cbn in *; rewrite ?loaded_app; cbn; rewrite ?app_nil_r; auto.
    + intros _ (R1 & R2). split; cbn; rewrite ?loaded_app; cbn; rewrite ?app_nil_r; auto.
  - destruct (parse text) as [d|]; [|discriminate]. intros E.
    destruct (add_schema_inv (with_next p (S (pa_next p))) (pa_next p) name d None []) as (I1 & K1).
    + cbn. apply (with_next_inv0 p (S (pa_next p))) in I; [|lia]. destruct p; cbn in *. exact I.
    + intros i r [].
    + cbn. lia.
    + cbn. intros X. apply (pv_plt _ I) in X. lia.
    + cbn. intros e X Y. apply (pv_elt _ I) in X. lia.
    + cbn. intros l ids X Y. apply (pv_clt _ I l ids _ X) in Y. lia.
    + exact Logic.I.
    + apply resolve_pending_inv in E as (A & B & C); [|exact I1]. split; [exact A|]. split; [exact C|].
      intros _ R. apply B, K1, R.
  - destruct (resolve_location _ _ _ _ _) as [p1| |] eqn:R; [|discriminate|discriminate]. intros E.
    apply resolve_location_inv in R as (I1 & K1); [|exact (with_next_inv p (pa_next p) I eq_refl _)].
    apply resolve_pending_inv in E as (A & B & C); [|exact I1]. split; [exact A|]. split; [exact C|].
    intros _ X. apply B, K1, X.
  - intros [= <-]. split; [destruct I; split; auto|]. split; [exact Q|]. intros NB (R1 & R2).
    split; [destruct b; [reflexivity|congruence]|exact R2].
  - intros [= <-]. split; [destruct I; split; auto|]. split; [exact Q|]. intros _ R. exact R.
  - intros [= <-]. split; [destruct I; split; auto|]. split; [exact Q|]. intros _ R. exact R.
  - congruence.
Qed.

Lemma parser_run_inv fuel ops p p' :
  pinv p -> pa_pending p = [] -> keeps_resolver ops -> parser_run resolver parse fuel ops p = Some (Ok p') ->
  pinv p' /\ pa_pending p' = [] /\ (always_includes ops -> refs_kept p -> refs_kept p').
Proof.
  revert p. induction ops as [|op ops IH]; intros p I Q KR; cbn [parser_run].
  - intros [= <-]. auto.
  - destruct (parser_do resolver parse fuel p op) as [[p1| |]|] eqn:D; try discriminate. intros E.
    apply parser_do_inv in D as (I1 & Q1 & K1); [|assumption|assumption|intros ->; apply KR; left; reflexivity].
    apply IH in E as (I2 & Q2 & K2); [|assumption|assumption|intros X; apply KR; right; exact X].
    split; [exact I2|]. split; [exact Q2|]. intros AI R. apply K2; [intros X; apply AI; right; exact X|].
    apply K1; [|exact R]. intros ->. apply AI. left. reflexivity.
Qed.

(** The queue is worked off if the resolver only answers with finitely many locations. *)
Definition unloaded (U : list string) (p : parser) : nat :=
  length (filter (fun l => match assoc l (pa_cache p) with Some _ => false | None => true end) U).

Lemma resolve_pending_ends U : (forall r l, answers resolver r l -> In l U) ->
  forall a b p, unloaded U p < a -> length (pa_pending p) < b ->
  exists n, forall fuel, n <= fuel -> exists res, resolve_pending resolver parse fuel p = Some res.
Proof.
  intros HU. induction a as [|a IHa]; [lia|]. induction b as [|b IHb]; [lia|]. intros p La Lb.
  destruct (pa_pending p) as [|[id r] q] eqn:Q.
  - exists 0. intros fuel _. exists (Ok p). destruct fuel; cbn; rewrite Q; reflexivity.
  - assert (X : exists n, forall fuel, n <= fuel -> exists res,
        (match resolve_location resolver parse (with_pending p q) id r with
         | Ok p' => resolve_pending resolver parse fuel p'
         | Err e => Some (Err e)
         | Panic => Some Panic
         end) = Some res).
    { unfold resolve_location. destruct (resolver r) as [[[[name l] text]|]|e|] eqn:A.
      2-4: exists 0; intros fuel _; eauto.
      assert (IU : In l U) by (apply (HU r); exists name, text; exact A).
      cbn [with_pending pa_cache]. destruct (assoc l (pa_cache p)) as [ids|] eqn:C.
      - apply IHb; [|cbn in *; lia]. eapply Nat.le_lt_trans; [|exact La]. apply filter_le. cbn. intros l'.
        rewrite assoc_sput. destruct (String.eqb_spec l' l) as [->|]; [discriminate|auto].
      - destruct (parse text) as [d|]; [|exists 0; intros fuel _; eauto].
        destruct (apply_namespace r l d) as [d'| |]; [|exists 0; intros fuel _; eauto..].
        eapply IHa; [|apply Nat.lt_succ_diag_r]. eapply Nat.lt_le_trans; [|apply (proj1 (Nat.lt_succ_r _ _) La)].
        assert (EC : pa_cache (add_schema (with_pending p q) id name d' (Some l)) = pa_cache p).
        { unfold add_schema. destruct (if pa_includes _ then _ else _) as [[? ?] ?]. reflexivity. }
        unfold unloaded. cbn [with_cache pa_cache]. rewrite EC. apply (filter_lt _ _ _ l).
        + intros l'. rewrite assoc_sput. destruct (String.eqb_spec l' l) as [->|]; [discriminate|auto].
        + exact IU.
        + rewrite assoc_sput, String.eqb_refl. reflexivity.
        + rewrite C. reflexivity. }
    destruct X as (n & X). exists (S n). intros fuel F. destruct fuel as [|fuel]; [lia|]. cbn. rewrite Q. apply X. lia.
Qed.
End loading.

(** * Numbering the schemas *)
Lemma opt_str_eqb_spec a b : reflect (a = b) (opt_str_eqb a b).
Proof.
  destruct a as [a|], b as [b|]; cbn; try (constructor; congruence).
  destruct (String.eqb_spec a b); constructor; congruence.
Qed.

Lemma oassoc_oput {V} k (v : V) m k' : oassoc k' (oput k v m) = if opt_str_eqb k' k then Some v else oassoc k' m.
Proof.
  induction m as [|[a w] m IH]; cbn; [destruct (opt_str_eqb k' k); reflexivity|].
  destruct (opt_str_eqb_spec k a) as [->|N]; cbn.
  - destruct (opt_str_eqb k' a); reflexivity.
  - rewrite IH. destruct (opt_str_eqb_spec k' a) as [E|E]; destruct (opt_str_eqb_spec k' k) as [F|F]; try reflexivity. congruence.
Qed.

Lemma get_binsert {V} k (v : V) m k' : get k m = None -> get k' (binsert k v m) = if Nat.eqb k' k then Some v else get k' m.
Proof.
  induction m as [|[a w] m IH]; cbn; [destruct (Nat.eqb k' k); reflexivity|].
  destruct (Nat.eqb_spec k a) as [->|N]; [discriminate|]. intros G.
  destruct (Nat.ltb k a); cbn; [reflexivity|]. rewrite (IH G).
  destruct (Nat.eqb_spec k' a) as [E|E]; destruct (Nat.eqb_spec k' k) as [F|F]; try reflexivity. congruence.
Qed.

Lemma binsert_keys {V} k (v : V) m x : In x (map fst (binsert k v m)) <-> x = k \/ In x (map fst m).
Proof.
  induction m as [|[a w] m IH]; cbn; [intuition|]. destruct (Nat.ltb k a); cbn; [intuition|]. rewrite IH. intuition.
Qed.

Lemma binsert_nodup {V} k (v : V) m : get k m = None -> NoDup (map fst m) -> NoDup (map fst (binsert k v m)).
Proof.
  intros G. assert (NI : ~ In k (map fst m)). { intros I. apply get_key in I as [w I]. congruence. }
  clear G. induction m as [|[a w] m IH]; cbn in *; intros H; [repeat constructor; auto|]. inversion H; subst.
  destruct (Nat.ltb k a); cbn; constructor; auto.
  rewrite binsert_keys. intros [->|X]; auto.
Qed.

Definition owns (locs : list (string * list nat)) (t : nat) (e : schema_entry) : Prop :=
  t = pe_id e \/ exists l ids, pe_location e = Some l /\ assoc l locs = Some ids /\ In t ids.

Lemma iput_get k v m k' : get k' (iput k v m) = if Nat.eqb k' k then Some v else get k' m.
Proof. apply get_upd. Qed.

Lemma fold_iput v l m k : get k (fold_left (fun m a => iput a v m) l m) = if in_dec Nat.eq_dec k l then Some v else get k m.
Proof.
  revert m. induction l as [|a l IH]; intros m; [reflexivity|]. cbn [fold_left]. rewrite IH, iput_get.
  destruct (in_dec Nat.eq_dec k l) as [I|N]; destruct (in_dec Nat.eq_dec k (a :: l)) as [J|M]; try reflexivity.
  - destruct M. right. exact I.
  - destruct (Nat.eqb_spec k a) as [E|E]; [reflexivity|]. destruct J as [J|J]; [congruence|contradiction].
  - destruct (Nat.eqb_spec k a) as [->|E]; [|reflexivity]. destruct M. left. reflexivity.
Qed.

Definition entry_ids (locs : list (string * list nat)) (e : schema_entry) : list nat :=
  match pe_location e with Some l => match assoc l locs with Some a => a | None => [] end | None => [] end.

Lemma owns_iff locs t e : owns locs t e <-> t = pe_id e \/ In t (entry_ids locs e).
Proof.
  unfold owns, entry_ids. destruct (pe_location e) as [l|]; [|split; [intros [|(? & ? & [=] & _)]; auto|intros [|[]]; auto]].
  destruct (assoc l locs) as [a|] eqn:A.
  - split; intros [->|X]; auto.
    + destruct X as (l' & ids & [= <-] & B & C). right. congruence.
    + right. eauto.
  - split; intros [->|X]; auto; [|destruct X]. destruct X as (l' & ids & [= <-] & B & C). congruence.
Qed.

Lemma build_ids_cons locs e es n ids :
  build_ids locs (PESchema e :: es) n ids =
  build_ids locs es (S n) (fold_left (fun m a => iput a (S n) m) (entry_ids locs e) (iput (pe_id e) (S n) ids)).
Proof. reflexivity. Qed.

Lemma first_get locs t e n ids :
  get t (fold_left (fun m a => iput a n m) (entry_ids locs e) (iput (pe_id e) n ids)) =
  if in_dec Nat.eq_dec t (pe_id e :: entry_ids locs e) then Some n else get t ids.
Proof.
  rewrite fold_iput, iput_get.
  destruct (in_dec Nat.eq_dec t (entry_ids locs e)) as [I|N]; destruct (in_dec Nat.eq_dec t (pe_id e :: entry_ids locs e)) as [J|M]; try reflexivity.
  - destruct M. right. exact I.
  - destruct (Nat.eqb_spec t (pe_id e)) as [E|E]; [reflexivity|]. destruct J as [J|J]; [congruence|contradiction].
  - destruct (Nat.eqb_spec t (pe_id e)) as [->|E]; [|reflexivity]. destruct M. left. reflexivity.
Qed.

Lemma build_ids_none locs t : forall es n ids, (forall e, In e (loaded es) -> ~ owns locs t e) ->
  get t (build_ids locs es n ids) = get t ids.
Proof.
  induction es as [|[|x m|e] es IH]; intros n ids H; [reflexivity|apply IH, H|apply IH, H|].
  rewrite build_ids_cons, IH by (intros e' I; apply H; right; exact I). rewrite first_get.
  destruct (in_dec _ _ _) as [I|I]; [|reflexivity]. exfalso. apply (H e); [left; reflexivity|].
  apply owns_iff. destruct I as [I|I]; auto.
Qed.

Lemma build_ids_get locs t : forall es n ids k e,
  (forall i j a b, nth_error (loaded es) i = Some a -> nth_error (loaded es) j = Some b -> owns locs t a -> owns locs t b -> i = j) ->
  nth_error (loaded es) k = Some e -> owns locs t e ->
  get t (build_ids locs es n ids) = Some (S (n + k)).
Proof.
  induction es as [|[|x m|e0] es IH]; intros n ids k e D K O; cbn [loaded] in K.
  - destruct k; discriminate.
  - apply (IH _ _ _ _ D K O).
  - apply (IH _ _ _ _ D K O).
  - rewrite build_ids_cons. destruct k as [|k].
    + cbn in K. injection K as ->. rewrite build_ids_none.
      * rewrite first_get. destruct (in_dec _ _ _) as [I|I]; [f_equal; lia|]. exfalso. apply I.
        apply owns_iff in O as [->|O]; [left; reflexivity|right; exact O].
      * intros e' I O'. apply In_nth_error in I as [j J].
        specialize (D 0 (S j) e e' eq_refl J O O'). discriminate.
    + cbn in K. rewrite (IH (S n) _ k e); [f_equal; lia| |exact K|exact O].
      intros i j a b A B OA OB. specialize (D (S i) (S j) a b A B OA OB). lia.
Qed.

Section finishing.
Variable resolver : request -> outcome unit (option (option string * string * string)).
Variable parse : string -> option schema_doc.

Lemma nodup_nth {A} (l : list A) i j a : NoDup l -> nth_error l i = Some a -> nth_error l j = Some a -> i = j.
Proof.
  intros N H K. apply (NoDup_nth_error l); [exact N| |congruence]. apply nth_error_Some. congruence.
Qed.

Lemma location_same p e e' l : pinv resolver parse p -> In e (loaded (pa_entries p)) -> In e' (loaded (pa_entries p)) ->
  pe_location e = Some l -> pe_location e' = Some l -> e = e'.
Proof.
  intros I. pose proof (pv_locs _ _ _ I) as N. induction (loaded (pa_entries p)) as [|x r IH]; [intros []|].
  cbn in N. intros J J' L L'.
  assert (X : forall y, In y r -> pe_location y = Some l -> pe_location x = Some l -> False).
  { intros y Y Ly Lx. rewrite Lx in N. inversion N; subst. apply H1. apply locations_in. eauto. }
  destruct J as [<-|J], J' as [<-|J'].
  - reflexivity.
  - exfalso. eauto.
  - exfalso. eauto.
  - apply IH; auto. destruct (pe_location x); [inversion N; assumption|exact N].
Qed.

Lemma owner_same p t e e' : pinv resolver parse p -> In e (loaded (pa_entries p)) -> In e' (loaded (pa_entries p)) ->
  owns (pa_cache p) t e -> owns (pa_cache p) t e' -> pe_id e = pe_id e'.
Proof.
  intros I J J' [->|(l & ids & L & A & T)] [E|(l' & ids' & L' & A' & T')].
  - exact E.
  - pose proof (pv_ce _ _ _ I e l' ids' J A' T') as LE. rewrite (location_same p e e' l' I J J' LE L'). reflexivity.
  - subst t. pose proof (pv_ce _ _ _ I e' l ids J' A T) as LE. rewrite (location_same p e e' l I J J' L LE). reflexivity.
  - pose proof (pv_cc _ _ _ I l l' ids ids' t A A' T T') as LL. subst l'. rewrite (location_same p e e' l I J J' L L'). reflexivity.
Qed.

Lemma ids_of p t k e : pinv resolver parse p -> nth_error (loaded (pa_entries p)) k = Some e -> owns (pa_cache p) t e ->
  get t (build_ids (pa_cache p) (pa_entries p) 0 []) = Some (S k).
Proof.
  intros I K O. apply (build_ids_get (pa_cache p) t (pa_entries p) 0 [] k e); [|exact K|exact O].
  intros i j a b A B OA OB.
  pose proof (owner_same p t a b I (nth_error_In _ _ A) (nth_error_In _ _ B) OA OB) as E.
  apply (nodup_nth (map pe_id (loaded (pa_entries p))) i j (pe_id a)); [apply I| |].
  - apply map_nth_error, A.
  - rewrite E. apply map_nth_error, B.
Qed.

End finishing.

(** * Building the result *)
Record binv (ids : list (nat * nat)) (es : list parser_entry) (s : schemas) : Prop := {
  bv_schema : forall id i, get id (sm_schemas s) = Some i <->
    exists e ns, numbered es id e /\ resolve_namespace s (pe_target e) = Some ns /\
      i = SchemaInfo (pe_name e) (pe_schema e) (pe_location e) ns (map_deps ids (pe_deps e));
  bv_info : forall id i, get id (sm_infos s) = Some i -> resolve_namespace s (ni_namespace i) = Some id /\ ni_prefix i = None /\
    forall k, In k (ni_schemas i) <-> exists e, numbered es k e /\ pe_target e = ni_namespace i;
  bv_ns : forall ns id, resolve_namespace s ns = Some id -> (exists i, get id (sm_infos s) = Some i /\ ni_namespace i = ns) /\
    id <= sm_last_namespace s /\ (ns = None <-> id = 1) /\ id <> 0;
  bv_mentions : forall ns, (exists id, resolve_namespace s ns = Some id) <-> mentions es ns;
  bv_last : 1 <= sm_last_namespace s;
  bv_keys : NoDup (map fst (sm_infos s)) }.

Lemma numbered_app es e k x : numbered (es ++ [PESchema e]) k x <-> numbered es k x \/ (k = S (length (loaded es)) /\ x = e).
Proof.
  unfold numbered. rewrite loaded_app. cbn [loaded]. split.
  - intros (j & -> & N). destruct (Nat.lt_ge_cases j (length (loaded es))) as [L|L].
    + rewrite nth_error_app1 in N by exact L. left. eauto.
    + rewrite nth_error_app2 in N by exact L. destruct (j - length (loaded es)) as [|m] eqn:M.
      * cbn in N. injection N as <-. right. split; [lia|reflexivity].
      * cbn in N. destruct m; discriminate.
  - intros [(j & -> & N)|(-> & ->)].
    + exists j. split; [reflexivity|]. rewrite nth_error_app1; [exact N|]. apply nth_error_Some. congruence.
    + exists (length (loaded es)). split; [reflexivity|]. rewrite nth_error_app2 by lia. rewrite Nat.sub_diag. reflexivity.
Qed.

Lemma numbered_other es y k x : loaded [y] = [] -> numbered (es ++ [y]) k x <-> numbered es k x.
Proof. intros L. unfold numbered. rewrite loaded_app, L, app_nil_r. reflexivity. Qed.

Lemma mentions_app es y ns : mentions (es ++ [y]) ns <-> mentions es ns \/ mentions [y] ns.
Proof.
  unfold mentions. rewrite loaded_app. setoid_rewrite in_app_iff. split.
  - intros [(A & [B|B])|[(x & n & A & [B|B])|(e & [A|A] & B)]]; eauto 7.
  - intros [[(A & B)|[(x & n & A & B)|(e & A & B)]]|[(A & B)|[(x & n & A & B)|(e & A & B)]]]; eauto 8.
Qed.

(** Asking for a namespace adds it. *)
Record ninv (es : list parser_entry) (ids : list (nat * nat)) (s : schemas) (ns : option string) : Prop := {
  nv_schema : forall id i, get id (sm_schemas s) = Some i <->
    exists e m, numbered es id e /\ resolve_namespace s (pe_target e) = Some m /\
      i = SchemaInfo (pe_name e) (pe_schema e) (pe_location e) m (map_deps ids (pe_deps e));
  nv_info : forall id i, get id (sm_infos s) = Some i -> resolve_namespace s (ni_namespace i) = Some id /\ ni_prefix i = None /\
    forall k, In k (ni_schemas i) <-> exists e, numbered es k e /\ pe_target e = ni_namespace i;
  nv_ns : forall ns id, resolve_namespace s ns = Some id -> (exists i, get id (sm_infos s) = Some i /\ ni_namespace i = ns) /\
    id <= sm_last_namespace s /\ (ns = None <-> id = 1) /\ id <> 0;
  nv_mentions : forall m, (exists id, resolve_namespace s m = Some id) <-> mentions es m \/ m = ns;
  nv_last : 1 <= sm_last_namespace s;
  nv_keys : NoDup (map fst (sm_infos s)) }.

Lemma get_ns_spec ids es s ns : binv ids es s ->
  exists id s', get_ns s ns = Ok (id, s') /\ resolve_namespace s' ns = Some id /\ ninv es ids s' ns.
Proof.
  intros B. unfold get_ns. change (oassoc ns (sm_namespaces s)) with (resolve_namespace s ns).
  destruct (resolve_namespace s ns) as [id|] eqn:R.
  - destruct (bv_ns _ _ _ B ns id R) as ((i & G & _) & _). rewrite G. exists id, s. split; [reflexivity|]. split; [exact R|].
    destruct B. split; auto. intros m. rewrite bv_mentions0. split; [auto|]. intros [| ->]; [assumption|]. apply bv_mentions0. eauto.
  - set (id := match ns with None => 1 | Some _ => S (sm_last_namespace s) end).
    set (last := match ns with None => sm_last_namespace s | Some _ => S (sm_last_namespace s) end).
    replace (match ns with Some _ => (S (sm_last_namespace s), S (sm_last_namespace s)) | None => (1, sm_last_namespace s) end)
      with (id, last) by (destruct ns; reflexivity).
    assert (G : get id (sm_infos s) = None).
    { destruct (get id (sm_infos s)) as [i|] eqn:G; [|reflexivity]. exfalso.
      destruct (bv_info _ _ _ B id i G) as (R' & _). destruct (bv_ns _ _ _ B _ _ R') as (_ & L & N & _).
      unfold id in *. destruct ns as [n|]; [lia|]. rewrite (proj2 N eq_refl) in R'. congruence. }
    rewrite G. eexists id, _. split; [reflexivity|].
    assert (NZ : id <> 0 /\ id <= last /\ sm_last_namespace s <= last /\ (ns = None <-> id = 1)).
    { pose proof (bv_last _ _ _ B). unfold id, last. destruct ns as [n|]; repeat split; try lia; try discriminate; auto. }
    destruct NZ as (NZ & Lid & Ll & N1).
    assert (RN : forall m, resolve_namespace (Schemas (sm_schemas s) (binsert id (NsInfo None ns []) (sm_infos s)) (sm_prefixes s) (oput ns id (sm_namespaces s)) last) m =
                 if opt_str_eqb m ns then Some id else resolve_namespace s m).
    { intros m. apply oassoc_oput. }
    split; [rewrite RN; destruct (opt_str_eqb_spec ns ns); congruence|].
    assert (NM : forall e k, numbered es k e -> pe_target e <> ns).
    { intros e k (j & -> & N) E. assert (M : mentions es ns) by (right; right; exists e; split; [eapply nth_error_In; eauto|exact E]).
      apply (bv_mentions _ _ _ B) in M as [x M]. congruence. }
    split; cbn [sm_schemas sm_infos sm_last_namespace].
    + intros k i. rewrite (bv_schema _ _ _ B). split; intros (e & m & N & R' & E); exists e, m; [rewrite RN|rewrite RN in R'];
        (destruct (opt_str_eqb_spec (pe_target e) ns) as [X|X]; [destruct (NM e k N X)|auto]).
    + intros k i. rewrite get_binsert by exact G. destruct (Nat.eqb_spec k id) as [->|Nk].
      * intros [= <-]. rewrite RN. cbn [ni_namespace ni_prefix ni_schemas]. destruct (opt_str_eqb_spec ns ns) as [E0|E0]; [|congruence]. split; [reflexivity|]. split; [reflexivity|].
        intros j. split; [intros []|]. intros (e & N & E). destruct (NM e j N E).
      * intros Gk. destruct (bv_info _ _ _ B k i Gk) as (R' & P & S). rewrite RN.
        destruct (opt_str_eqb_spec (ni_namespace i) ns) as [X|X]; [congruence|auto].
    + intros m k. rewrite RN. destruct (opt_str_eqb_spec m ns) as [->|X].
      * intros [= <-]. split; [|auto]. exists (NsInfo None ns []). rewrite get_binsert by exact G. rewrite Nat.eqb_refl. auto.
      * intros R'. destruct (bv_ns _ _ _ B m k R') as ((i & Gi & Ei) & L & N & Z). split; [|split; [lia|auto]].
        exists i. rewrite get_binsert by exact G. destruct (Nat.eqb_spec k id) as [->|]; [congruence|auto].
    + intros m. rewrite RN. destruct (opt_str_eqb_spec m ns) as [->|X]; [split; eauto|].
      rewrite (bv_mentions _ _ _ B). split; [auto|]. intros [|]; [assumption|congruence].
    + pose proof (bv_last _ _ _ B). lia.
    + apply binsert_nodup; [exact G|apply B].
Qed.

Lemma build_step_ns ids es s y ns : binv ids es s -> loaded [y] = [] -> (forall m, mentions [y] m <-> m = ns) ->
  exists s', (match get_ns s ns with Ok (_, s) => Ok s | Err e => Err e | Panic => Panic end) = @Ok unit schemas s' /\ binv ids (es ++ [y]) s'.
Proof.
  intros B L M. destruct (get_ns_spec ids es s ns B) as (id & s' & -> & R & N). exists s'. split; [reflexivity|].
  destruct N as [N1 N2 N3 N4 N5 N6]. split; auto.
  - intros k i. rewrite N1. split; intros (e & m & A & X); exists e, m; rewrite (numbered_other es y) in * by exact L; auto.
  - intros k i G. destruct (N2 k i G) as (A & P & S). split; [exact A|]. split; [exact P|]. intros j. rewrite S.
    split; intros (e & X & Y); exists e; rewrite (numbered_other es y) in * by exact L; auto.
  - intros m. rewrite N4, mentions_app, M. reflexivity.
Qed.

Lemma build_step_schema ids es s e : binv ids es s -> get (pe_id e) ids = Some (S (length (loaded es))) ->
  exists s', build_schema ids s e = Ok s' /\ binv ids (es ++ [PESchema e]) s'.
Proof.
  intros B G. unfold build_schema. rewrite G.
  destruct (get_ns_spec ids es s (pe_target e) B) as (ns & s1 & -> & R & [N1 N2 N3 N4 N5 N6]).
  set (id := S (length (loaded es))) in *.
  destruct (get id (sm_schemas s1)) as [i|] eqn:GS.
  { exfalso. apply N1 in GS as (x & m & (k & E & N) & _). unfold id in E. injection E as <-.
    assert (X : nth_error (loaded es) (length (loaded es)) <> None) by congruence. apply nth_error_Some in X. lia. }
  eexists. split; [reflexivity|].
  set (s2 := Schemas _ _ _ _ _).
  assert (RN : forall m, resolve_namespace s2 m = resolve_namespace s1 m) by reflexivity.
  split.
  - intros k i. cbn [s2 sm_schemas]. rewrite get_binsert by exact GS. destruct (Nat.eqb_spec k id) as [->|Nk].
    + split.
      * intros [= <-]. exists e, ns. rewrite numbered_app. auto.
      * intros (x & m & N & R' & ->). apply numbered_app in N as [N|(_ & ->)].
        -- assert (X : exists i, get id (sm_schemas s1) = Some i) by (eexists; apply N1; eauto). destruct X. congruence.
        -- rewrite RN in R'. congruence.
    + rewrite N1. split; intros (x & m & N & X); exists x, m; rewrite numbered_app in *; auto.
      destruct N as [N|(E & _)]; [auto|]. destruct (Nk E).
  - intros k i. cbn [s2 sm_infos]. rewrite get_alter. intros Gk.
    assert (X : exists i0, get k (sm_infos s1) = Some i0 /\ ni_namespace i = ni_namespace i0 /\ ni_prefix i = ni_prefix i0 /\
                ((k = ns /\ ni_schemas i = (ni_schemas i0 ++ [id])%list) \/ (k <> ns /\ ni_schemas i = ni_schemas i0))).
    { destruct (Nat.eqb_spec k ns) as [->|Nk]; [|eauto 7].
      destruct (get ns (sm_infos s1)) as [i0|] eqn:G0; [|discriminate]. injection Gk as <-. exists i0. cbn. auto 8. }
    destruct X as (i0 & G0 & E1 & E2 & E3). destruct (N2 k i0 G0) as (A & P & S). rewrite E1, E2, RN. split; [exact A|]. split; [exact P|].
    intros j. destruct E3 as [(-> & ->)|(Nk & ->)].
    + rewrite in_app_iff, S. cbn. assert (T : pe_target e = ni_namespace i0).
      { destruct (N3 _ _ R) as ((i1 & G1 & T) & _). congruence. }
      split.
      * intros [(x & N & X)|[<-|[]]]; [exists x|exists e]; rewrite numbered_app; auto.
      * intros (x & N & X). apply numbered_app in N as [N|(-> & ->)]; [left; eauto|auto].
    + rewrite S. split; intros (x & N & X); exists x; rewrite numbered_app in *; auto.
      destruct N as [N|(_ & ->)]; [auto|]. rewrite <- X in A. congruence.
  - intros m k R'. rewrite RN in R'. destruct (N3 m k R') as ((i & Gi & Ei) & X). split; [|exact X].
    cbn [s2 sm_infos]. rewrite get_alter. destruct (Nat.eqb_spec k ns) as [->|]; [|eauto]. rewrite Gi. eexists. split; [reflexivity|exact Ei].
  - intros m. rewrite RN, N4, mentions_app. unfold mentions at 3. cbn. split.
    + intros [M| ->]; [auto|]. right. right. right. eauto.
    + intros [M|[(_ & [?|[]])|[(x & n & _ & [?|[]])|(x & [<-|[]] & X)]]]; try discriminate; auto.
  - exact N5.
  - cbn [s2 sm_infos]. rewrite alter_keys. exact N6.
Qed.

Lemma build_entries_spec ids : forall rest es s, binv ids es s ->
  (forall k e, nth_error (loaded (es ++ rest)) k = Some e -> get (pe_id e) ids = Some (S k)) ->
  exists s', build_entries ids s rest = Ok s' /\ binv ids (es ++ rest) s'.
Proof.
  induction rest as [|y rest IH]; intros es s B H.
  - exists s. rewrite app_nil_r. auto.
  - cbn [build_entries].
    replace (es ++ y :: rest)%list with ((es ++ [y]) ++ rest)%list in * by (rewrite <- app_assoc; reflexivity).
    assert (X : exists s', (match y with
           | PEAnonymous => match get_ns s None with Ok (_, s) => Ok s | Err e => Err e | Panic => Panic end
           | PENamespace _ ns => match get_ns s (Some ns) with Ok (_, s) => Ok s | Err e => Err e | Panic => Panic end
           | PESchema e => build_schema ids s e
           end) = @Ok unit schemas s' /\ binv ids (es ++ [y]) s').
    { destruct y as [|x n|e].
      - apply build_step_ns; [exact B|reflexivity|]. intros m. unfold mentions. cbn. split.
        + intros [(-> & _)|[(x & n & _ & [?|[]])|(e & [] & _)]]; [reflexivity|discriminate].
        + intros ->. auto.
      - apply build_step_ns; [exact B|reflexivity|]. intros m. unfold mentions. cbn. split.
        + intros [(_ & [?|[]])|[(x' & n' & -> & [E|[]])|(e & [] & _)]]; [discriminate|congruence].
        + intros ->. right. left. eauto.
      - apply build_step_schema; [exact B|]. apply H. rewrite <- app_assoc, loaded_app, nth_error_app2 by lia.
        rewrite Nat.sub_diag. reflexivity. }
    destruct X as (s1 & -> & B1). apply IH; assumption.
Qed.

Lemma binv_new ids : binv ids [] schemas_new.
Proof.
  split; cbn.
  - intros id i. split; [discriminate|]. intros (e & ns & (k & _ & N) & _). destruct k; discriminate.
  - discriminate.
  - discriminate.
  - intros ns. split; [intros (? & [=])|]. intros [(_ & [])|[(x & n & _ & [])|(e & [] & _)]].
  - lia.
  - constructor.
Qed.

(** * Prefixes *)
Lemma px_update_get ns f m ns' : oassoc ns' (px_update ns f m) =
  if opt_str_eqb ns' ns then Some (f (match oassoc ns m with Some e => e | None => PrefixEntry None [] end)) else oassoc ns' m.
Proof. apply oassoc_oput. Qed.

Definition px_has (m : list (option string * prefix_entry)) (ns : option string) : Prop := exists e, oassoc ns m = Some e.

Lemma px_update_has ns f m ns' : px_has (px_update ns f m) ns' <-> px_has m ns' \/ ns' = ns.
Proof.
  unfold px_has. rewrite px_update_get. destruct (opt_str_eqb_spec ns' ns) as [->|]; [split; eauto|]. intuition.
Qed.

Definition px_alts (m : list (option string * prefix_entry)) (l : list (option string * list string)) :=
  fold_left (fun m nx => fold_left (fun m x => px_update (fst nx) (px_add_alt x) m) (snd nx) m) l m.

(** The prefixes recorded for a namespace. *)
Definition px_offers (m : list (option string * prefix_entry)) (ns : option string) (x : string) : Prop :=
  exists e, oassoc ns m = Some e /\ (px_prefix e = Some x \/ In x (px_alt e)).

Lemma px_add_alt_offers ns y m ns' x :
  px_offers (px_update ns (px_add_alt y) m) ns' x <-> px_offers m ns' x \/ (ns' = ns /\ x = y).
Proof.
  unfold px_offers. rewrite px_update_get. destruct (opt_str_eqb_spec ns' ns) as [->|N].
  - split.
    + intros (e & [= <-] & H). cbn in H. rewrite set_add_in in H.
      destruct (oassoc ns m) as [e|]; cbn in H.
      * destruct H as [H|[H|H]]; eauto.
      * destruct H as [H|[H|[]]]; [discriminate|auto].
    + intros [(e & E & H)|(_ & ->)]; (eexists; split; [reflexivity|]); cbn; rewrite set_add_in.
      * rewrite E. intuition.
      * auto.
  - split; [auto|]. intros [H|(E & _)]; [exact H|congruence].
Qed.

Lemma px_alts_inner ns xs m ns' x :
  px_offers (fold_left (fun m x => px_update ns (px_add_alt x) m) xs m) ns' x <-> px_offers m ns' x \/ (ns' = ns /\ In x xs).
Proof.
  revert m. induction xs as [|y xs IH]; intros m; cbn; [tauto|]. rewrite IH, px_add_alt_offers. intuition.
Qed.
Lemma px_alts_inner_has ns xs m ns' :
  px_has m ns' -> px_has (fold_left (fun m x => px_update ns (px_add_alt x) m) xs m) ns'.
Proof. revert m. induction xs as [|y xs IH]; intros m H; cbn; [exact H|]. apply IH, px_update_has. auto. Qed.

Lemma px_alts_offers l m ns x :
  px_offers (px_alts m l) ns x <-> px_offers m ns x \/ exists xs, In (ns, xs) l /\ In x xs.
Proof.
  revert m. induction l as [|[n ys] l IH]; intros m; cbn.
  - split; [auto|]. intros [|(? & [] & _)]; assumption.
  - unfold px_alts in *. cbn [fold_left]. rewrite IH, px_alts_inner. cbn. split.
    + intros [[H|(-> & H)]|(xs & H & K)]; eauto 6.
    + intros [H|(xs & [E|H] & K)]; [auto|injection E as -> ->; auto|eauto].
Qed.
Lemma px_alts_has l m ns : px_has m ns -> px_has (px_alts m l) ns.
Proof.
  revert m. induction l as [|[n ys] l IH]; intros m H; cbn; [exact H|]. apply IH, px_alts_inner_has, H.
Qed.

Lemma oassoc_in {V} k (m : list (option string * V)) v : oassoc k m = Some v -> In (k, v) m.
Proof.
  induction m as [|[a w] m IH]; cbn; [discriminate|]. destruct (opt_str_eqb_spec k a) as [->|]; [intros [= ->]; auto|auto].
Qed.

Lemma px_schema_offers e m ns x :
  px_offers (prefix_step m (PESchema e)) ns x <->
  px_offers m ns x \/ exists xs, In (ns, xs) (sd_xmlns (pe_schema e)) /\ In x xs.
Proof.
  cbn [prefix_step]. set (own := match oassoc _ _ with Some (x :: _) => Some x | _ => None end).
  fold (px_alts (px_update (pe_target e) (px_main own) m) (sd_xmlns (pe_schema e))).
  rewrite px_alts_offers.
  assert (OWN : forall y, own = Some y -> exists xs, In (pe_target e, xs) (sd_xmlns (pe_schema e)) /\ In y xs).
  { unfold own. intros y. destruct (oassoc (pe_target e) (sd_xmlns (pe_schema e))) as [[|z zs]|] eqn:A; try discriminate.
    intros [= ->]. apply oassoc_in in A. eexists. split; [exact A|left; reflexivity]. }
  assert (X : px_offers (px_update (pe_target e) (px_main own) m) ns x -> px_offers m ns x \/ (ns = pe_target e /\ own = Some x)).
  { unfold px_offers. rewrite px_update_get. destruct (opt_str_eqb_spec ns (pe_target e)) as [->|N]; [|auto].
    intros (e' & [= <-] & H). destruct (oassoc (pe_target e) m) as [e0|].
    - unfold px_main in H. destruct (px_prefix e0) as [z|] eqn:Z.
      + destruct own as [y|].
        * cbn in H. rewrite set_add_in in H. destruct H as [H|[H|H]]; [left; exists e0; split; [reflexivity|left; congruence]|right; split; congruence|left; exists e0; auto].
        * left. exists e0. rewrite Z in *. auto.
      + cbn in H. destruct H as [H|H]; [auto|left; exists e0; auto].
    - cbn in H. destruct H as [H|[]]. auto. }
  assert (Y : px_offers m ns x -> px_offers (px_update (pe_target e) (px_main own) m) ns x).
  { unfold px_offers. rewrite px_update_get. destruct (opt_str_eqb_spec ns (pe_target e)) as [->|N]; [|auto].
    intros (e0 & -> & H). eexists. split; [reflexivity|]. unfold px_main. destruct (px_prefix e0) as [z|] eqn:Z.
    - destruct own as [y|]; cbn; rewrite ?set_add_in, Z; intuition.
    - cbn. destruct H; [discriminate|auto]. }
  split.
  - intros [H|H]; [|auto]. apply X in H as [H|(-> & H)]; auto.
  - intros [H|H]; auto.
Qed.

Lemma build_prefixes_snoc es y : build_prefixes (es ++ [y]) = prefix_step (build_prefixes es) y.
Proof. unfold build_prefixes. rewrite fold_left_app. reflexivity. Qed.

Lemma build_prefixes_has es ns : mentions es ns -> px_has (build_prefixes es) ns.
Proof.
  induction es as [|y es IH] using rev_ind; [intros [(_ & [])|[(x & n & _ & [])|(e & [] & _)]]|].
  rewrite mentions_app, build_prefixes_snoc. intros M.
  assert (K : forall m, px_has m ns \/ mentions [y] ns -> px_has (prefix_step m y) ns).
  { intros m H. destruct y as [|x n|e]; cbn [prefix_step].
    - apply px_update_has. destruct H as [|[(-> & _)|[(x & n & _ & [?|[]])|(e & [] & _)]]]; [auto|auto|discriminate].
    - apply px_update_has. destruct H as [|[(_ & [?|[]])|[(x' & n' & -> & [E|[]])|(e & [] & _)]]]; [auto|discriminate|right; congruence].
    - apply px_alts_has, px_update_has. destruct H as [|[(_ & [?|[]])|[(x' & n' & -> & [?|[]])|(e' & [<-|[]] & E)]]]; try discriminate; auto. }
  apply K. destruct M; auto.
Qed.

(** What is recorded was declared for the namespace. *)
Lemma build_prefixes_sound es ns x : px_offers (build_prefixes es) ns x -> declared_for es ns x.
Proof.
  induction es as [|y es IH] using rev_ind; [intros (e & [=] & _)|]. rewrite build_prefixes_snoc.
  assert (UP : declared_for es ns x -> declared_for (es ++ [y]) ns x).
  { intros [(n & -> & H)|(e & xs & H & K)]; [left; exists n; rewrite in_app_iff; auto|right].
    exists e, xs. rewrite loaded_app, in_app_iff. auto. }
  destruct y as [|x' n|e].
  - cbn [prefix_step]. unfold px_offers. rewrite px_update_get. destruct (opt_str_eqb_spec ns None) as [->|N]; [|auto].
    intros (e' & [= <-] & H). apply UP, IH. unfold px_offers. destruct (oassoc None (build_prefixes es)) as [e0|]; [eauto|].
    cbn in H. destruct H as [|[]]. discriminate.
  - cbn [prefix_step]. unfold px_offers. rewrite px_update_get. destruct (opt_str_eqb_spec ns (Some n)) as [->|N]; [|auto].
    intros (e' & [= <-] & H). cbn in H. destruct H as [H|H].
    + injection H as ->. left. exists n. rewrite in_app_iff. cbn. auto.
    + apply UP, IH. unfold px_offers. destruct (oassoc (Some n) (build_prefixes es)) as [e0|]; [eauto|destruct H].
  - rewrite px_schema_offers. intros [H|(xs & H & K)]; [auto|]. right. exists e, xs. rewrite loaded_app, in_app_iff. cbn. auto.
Qed.

(** Some declared prefix is recorded. *)
Lemma build_prefixes_complete es ns x : declared_for es ns x -> exists y, px_offers (build_prefixes es) ns y.
Proof.
  induction es as [|z es IH] using rev_ind; [intros [(n & _ & [])|(e & xs & [] & _)]|]. rewrite build_prefixes_snoc.
  assert (KEEP : (exists y, px_offers (build_prefixes es) ns y) -> exists y, px_offers (prefix_step (build_prefixes es) z) ns y).
  { intros (y & H). destruct z as [|x' n|e]; cbn [prefix_step].
    - exists y. unfold px_offers in *. rewrite px_update_get. destruct (opt_str_eqb_spec ns None) as [->|N]; [|auto].
      destruct H as (e & -> & H). eauto.
    - destruct (opt_str_eqb_spec ns (Some n)) as [->|N].
      + exists x'. unfold px_offers. rewrite px_update_get. destruct (opt_str_eqb_spec (Some n) (Some n)); [|congruence].
        eexists. split; [reflexivity|]. auto.
      + exists y. unfold px_offers. rewrite px_update_get. destruct (opt_str_eqb_spec ns (Some n)); [congruence|exact H].
    - exists y. apply px_schema_offers. auto. }
  intros [(n & -> & H)|(e & xs & H & K)].
  - apply in_app_iff in H as [H|[->|[]]]; [apply KEEP, IH; left; eauto|]. exists x. cbn [prefix_step]. unfold px_offers.
    rewrite px_update_get. destruct (opt_str_eqb_spec (Some n) (Some n)); [|congruence]. eexists. split; [reflexivity|]. auto.
  - rewrite loaded_app, in_app_iff in H. destruct H as [H|H]; [apply KEEP, IH; right; eauto|].
    destruct z as [|x' n|e']; [destruct H|destruct H|]. destruct H as [->|[]]. exists x. apply px_schema_offers. right. eauto.
Qed.

(** ** The loops *)
Section loops.
Variable choose : nat -> prefix_entry -> ns_info -> list (string * nat) -> ns_info * list (string * nat).
Hypothesis choose_same : forall id e i k, ni_namespace (fst (choose id e i k)) = ni_namespace i /\ ni_schemas (fst (choose id e i k)) = ni_schemas i.
Variable px : list (option string * prefix_entry).

Definition same_info (a b : nat * ns_info) : Prop :=
  fst a = fst b /\ ni_namespace (snd a) = ni_namespace (snd b) /\ ni_schemas (snd a) = ni_schemas (snd b) /\
  (forall x, ni_prefix (snd a) = Some x -> ni_prefix (snd b) = Some x).

Lemma loop_same : forall infos known infos' known', prefix_loop choose px infos known = Some (infos', known') ->
  Forall2 same_info infos infos'.
Proof.
  induction infos as [|[id i] r IH]; intros known infos' known'; cbn.
  - intros [= <- <-]. constructor.
  - destruct (ni_prefix i) as [x|] eqn:P.
    + destruct (prefix_loop choose px r known) as [[r' k']|] eqn:L; [|discriminate]. intros [= <- <-].
      constructor; [repeat split; auto|eauto].
    + destruct (oassoc (ni_namespace i) px) as [e|]; [|discriminate].
      pose proof (choose_same id e i known) as C. destruct (choose id e i known) as [i' k1]. cbn in C.
      destruct (prefix_loop choose px r k1) as [[r' k']|] eqn:L; [|discriminate]. intros [= <- <-].
      constructor; [|eauto]. destruct C. repeat split; cbn; auto. intros x E. congruence.
Qed.

Lemma loop_total : forall infos known, (forall id i, In (id, i) infos -> px_has px (ni_namespace i)) ->
  exists r, prefix_loop choose px infos known = Some r.
Proof.
  induction infos as [|[id i] r IH]; intros known H; cbn; [eauto|].
  assert (R : forall k, exists q, prefix_loop choose px r k = Some q) by (intros k; apply IH; intros; eapply H; right; eauto).
  destruct (ni_prefix i) as [x|].
  - destruct (R known) as [[r' k'] ->]. eauto.
  - destruct (H id i (or_introl eq_refl)) as [e ->]. destruct (choose id e i known) as [i' k1].
    destruct (R k1) as [[r' k'] ->]. eauto.
Qed.

Variable good : list (string * nat) -> Prop.
Variable origin : nat -> ns_info -> Prop.

Definition extends (k k' : list (string * nat)) : Prop := forall x id, assoc x k = Some id -> assoc x k' = Some id.

Lemma loop_good : forall infos known infos' known',
  (forall id e i k, In (id, i) infos -> ni_prefix i = None -> oassoc (ni_namespace i) px = Some e -> good k ->
     extends k (snd (choose id e i k)) /\ good (snd (choose id e i k)) /\ origin id (fst (choose id e i k)) /\
     forall x, ni_prefix (fst (choose id e i k)) = Some x -> assoc x (snd (choose id e i k)) = Some id) ->
  good known ->
  (forall id i, In (id, i) infos -> origin id i /\ forall x, ni_prefix i = Some x -> assoc x known = Some id) ->
  prefix_loop choose px infos known = Some (infos', known') ->
  extends known known' /\ good known' /\
  (forall id i, In (id, i) infos' -> origin id i /\ forall x, ni_prefix i = Some x -> assoc x known' = Some id).
Proof.
  induction infos as [|[id i] r IH]; intros known infos' known' C G O; cbn.
  - intros [= <- <-]. split; [intros x k E; exact E|]. split; [exact G|]. intros ? ? [].
  - assert (CR : forall id e i k, In (id, i) r -> ni_prefix i = None -> oassoc (ni_namespace i) px = Some e -> good k ->
       extends k (snd (choose id e i k)) /\ good (snd (choose id e i k)) /\ origin id (fst (choose id e i k)) /\
       forall x, ni_prefix (fst (choose id e i k)) = Some x -> assoc x (snd (choose id e i k)) = Some id).
    { intros id0 e0 i0 k0 I0. apply C. right. exact I0. }
    destruct (ni_prefix i) as [x|] eqn:P.
    + destruct (prefix_loop choose px r known) as [[r' k']|] eqn:L; [|discriminate]. intros [= <- <-].
      destruct (IH known r' k' CR G (fun a b I => O a b (or_intror I)) L) as (X & G' & O').
      split; [exact X|]. split; [exact G'|]. intros a b [[= <- <-]|I]; [|apply O', I].
      destruct (O id i (or_introl eq_refl)) as (Q & K). split; [exact Q|]. intros y Y. apply X, K, Y.
    + destruct (oassoc (ni_namespace i) px) as [e|] eqn:E; [|discriminate].
      destruct (C id e i known (or_introl eq_refl) P E G) as (X1 & G1 & Q1 & P1).
      destruct (choose id e i known) as [i' k1]. cbn [fst snd] in *.
      destruct (prefix_loop choose px r k1) as [[r' k']|] eqn:L; [|discriminate]. intros [= <- <-].
      destruct (IH k1 r' k' CR G1) as (X & G' & O'); [|exact L|].
      { intros a b I. destruct (O a b (or_intror I)) as (Q & K). split; [exact Q|]. intros y Y. apply X1, K, Y. }
      split; [intros y n Y; apply X, X1, Y|]. split; [exact G'|]. intros a b [[= <- <-]|I]; [|apply O', I].
      split; [exact Q1|]. intros y Y. apply X, P1, Y.
Qed.
End loops.

Lemma same_info_trans a b c : same_info a b -> same_info b c -> same_info a c.
Proof. intros (A & B & C & D) (E & F & G & H). repeat split; try congruence. auto. Qed.
Lemma same_info_refl a : same_info a a.
Proof. repeat split; auto. Qed.
Lemma forall2_refl l : Forall2 same_info l l.
Proof. induction l; constructor; [apply same_info_refl|assumption]. Qed.
Lemma forall2_trans a b c : Forall2 same_info a b -> Forall2 same_info b c -> Forall2 same_info a c.
Proof.
  intros H. revert c. induction H as [|x y l m]; intros c K; inversion K; subst; constructor; [eapply same_info_trans; eauto|auto].
Qed.
Lemma forall2_get a b id j : Forall2 same_info a b -> get id b = Some j ->
  exists i, get id a = Some i /\ same_info (id, i) (id, j).
Proof.
  intros H. induction H as [|[n x] [m y] l k S F IH]; [discriminate|]. cbn. pose proof S as (E & _). cbn in E. subst m.
  destruct (Nat.eqb_spec id n) as [->|]; [intros [= <-]; eauto|auto].
Qed.
Lemma forall2_get' a b id i : Forall2 same_info a b -> get id a = Some i ->
  exists j, get id b = Some j /\ same_info (id, i) (id, j).
Proof.
  intros H. induction H as [|[n x] [m y] l k S F IH]; [discriminate|]. cbn. pose proof S as (E & _). cbn in E. subst m.
  destruct (Nat.eqb_spec id n) as [->|]; [intros [= <-]; eauto|auto].
Qed.
Lemma forall2_in a b id j : Forall2 same_info a b -> In (id, j) b -> exists i, In (id, i) a /\ same_info (id, i) (id, j).
Proof.
  intros H. induction H as [|[n x] [m y] l k S F IH]; [intros []|]. pose proof S as (E & _). cbn in E. subst m.
  intros [[= -> ->]|I]; [exists x; cbn; auto|]. destruct (IH I) as (i & A & B). exists i. cbn. auto.
Qed.
Lemma forall2_keys a b : Forall2 same_info a b -> map fst b = map fst a.
Proof. induction 1 as [|[n x] [m y] l k (E & _) F IH]; cbn in *; congruence. Qed.

Lemma take_same cands id : forall i k, ni_namespace (fst (take_prefixes cands id i k)) = ni_namespace i /\
  ni_schemas (fst (take_prefixes cands id i k)) = ni_schemas i.
Proof.
  induction cands as [|x c IH]; intros i k; cbn; [auto|]. destruct (assoc x k); [apply IH|].
  destruct (IH (set_prefix x i) (sput x id k)) as (-> & ->). auto.
Qed.

Section order.
Variable order : list string -> list string.
Hypothesis order_in : forall l x, In x (order l) <-> In x l.

Lemma main_same id e i k : ni_namespace (fst (choose_main id e i k)) = ni_namespace i /\ ni_schemas (fst (choose_main id e i k)) = ni_schemas i.
Proof. apply take_same. Qed.
Lemma alt_same id e i k : ni_namespace (fst (choose_alt order id e i k)) = ni_namespace i /\ ni_schemas (fst (choose_alt order id e i k)) = ni_schemas i.
Proof. apply take_same. Qed.
Lemma gen_same id e i k : ni_namespace (fst (choose_generated order id e i k)) = ni_namespace i /\ ni_schemas (fst (choose_generated order id e i k)) = ni_schemas i.
Proof. unfold choose_generated. destruct (match px_prefix e with Some x => Some x | None => hd_error (order (px_alt e)) end); auto. Qed.

Lemma take_good (ok : string -> Prop) (good : list (string * nat) -> Prop) id :
  (forall k x, good k -> ok x -> assoc x k = None -> good (sput x id k)) ->
  forall cands i k, (forall x, In x cands -> ok x) -> good k ->
  (forall x, ni_prefix i = Some x -> ok x /\ assoc x k = Some id) ->
  extends k (snd (take_prefixes cands id i k)) /\ good (snd (take_prefixes cands id i k)) /\
  forall x, ni_prefix (fst (take_prefixes cands id i k)) = Some x -> ok x /\ assoc x (snd (take_prefixes cands id i k)) = Some id.
Proof.
  intros HG. induction cands as [|y c IH]; intros i k HC G P; cbn.
  - split; [intros a b E; exact E|]. auto.
  - destruct (assoc y k) as [n|] eqn:A.
    + apply IH; auto. intros z Z. apply HC. right. exact Z.
    + destruct (IH (set_prefix y i) (sput y id k)) as (X & G' & P').
      * intros z Z. apply HC. right. exact Z.
      * apply HG; [exact G|apply HC; left; reflexivity|exact A].
      * cbn. intros x [= <-]. split; [apply HC; left; reflexivity|]. rewrite assoc_sput, String.eqb_refl. reflexivity.
      * split; [|auto]. intros x m E. apply X. rewrite assoc_sput. destruct (String.eqb_spec x y) as [->|]; [congruence|exact E].
Qed.

(** ** Generated prefixes *)
Lemma no_underscore_split a b d d' : ~ In "_"%char (list_ascii_of_string d) -> ~ In "_"%char (list_ascii_of_string d') ->
  (a ++ "_" ++ d = b ++ "_" ++ d')%string -> d = d'.
Proof.
  intros D D'. assert (IN : forall s t, In "_"%char (list_ascii_of_string (s ++ "_" ++ t)%string)).
  { induction s as [|c s IH]; intros t; cbn; [auto|right; apply IH]. }
  revert b. induction a as [|c a IH]; intros [|c' b]; cbn; intros E.
  - congruence.
  - injection E as _ E. exfalso. apply D. rewrite E. apply (IN b d').
  - injection E as _ E. exfalso. apply D'. rewrite <- E. apply (IN a d).
  - injection E as _ E. apply (IH b E).
Qed.

Lemma uint_no_underscore d : ~ In "_"%char (list_ascii_of_string (NilZero.string_of_uint d)).
Proof.
  assert (X : forall d, ~ In "_"%char (list_ascii_of_string (NilEmpty.string_of_uint d))).
  { induction d0; cbn; [intros []|..]; (intros [E|E]; [discriminate|auto]). }
  destruct d; [cbn; intros [E|[]]; discriminate|..]; apply X.
Qed.

Lemma show_inj n m : show n = show m -> n = m.
Proof.
  unfold show. intros E.
  assert (NN : forall k, N.to_uint k <> Decimal.Nil).
  { intros k Q. assert (X : N.of_uint (N.to_uint k) = N.of_uint Decimal.Nil) by (rewrite Q; reflexivity).
    rewrite DecimalN.Unsigned.of_to in X. cbn in X. subst k. discriminate. }
  assert (U : N.to_uint (N.of_nat n) = N.to_uint (N.of_nat m)).
  { apply (f_equal NilZero.uint_of_string) in E. rewrite !NilZero.usu in E by apply NN. congruence. }
  apply DecimalN.Unsigned.to_uint_inj in U. lia.
Qed.

Lemma numbered_inj y n y' m : (y ++ "_" ++ show n = y' ++ "_" ++ show m)%string -> n = m.
Proof. intros E. apply show_inj. eapply no_underscore_split; [apply uint_no_underscore|apply uint_no_underscore|exact E]. Qed.

(** ** The whole procedure *)
Definition origin_of (es : list parser_entry) (generate : bool) (id : nat) (i : ns_info) : Prop :=
  forall x, ni_prefix i = Some x -> exists y, declared_for es (ni_namespace i) y /\
    (x = y \/ (generate = true /\ x = (y ++ "_" ++ show id)%string)).

Definition good_known (es : list parser_entry) (generate : bool) (keys : list nat) (k : list (string * nat)) : Prop :=
  forall x n, assoc x k = Some n -> In n keys /\ (declared es x \/ (generate = true /\ exists y, x = (y ++ "_" ++ show n)%string)).

Lemma take_step es g keys id e i k cands :
  In id keys -> ni_prefix i = None -> oassoc (ni_namespace i) (build_prefixes es) = Some e -> good_known es g keys k ->
  (forall x, In x cands -> px_prefix e = Some x \/ In x (px_alt e)) ->
  extends k (snd (take_prefixes cands id i k)) /\ good_known es g keys (snd (take_prefixes cands id i k)) /\
  origin_of es g id (fst (take_prefixes cands id i k)) /\
  forall x, ni_prefix (fst (take_prefixes cands id i k)) = Some x -> assoc x (snd (take_prefixes cands id i k)) = Some id.
Proof.
  intros I P E G C.
  destruct (take_good (declared_for es (ni_namespace i)) (good_known es g keys) id) with (cands := cands) (i := i) (k := k) as (X & G' & P').
  - intros k' x Gk D A y n. rewrite assoc_sput. destruct (String.eqb_spec y x) as [->|]; [|apply Gk].
    intros [= <-]. split; [exact I|]. left. exists (ni_namespace i). exact D.
  - intros x J. apply build_prefixes_sound. exists e. auto.
  - exact G.
  - intros x J. congruence.
  - split; [exact X|]. split; [exact G'|]. split.
    + intros x J. exists x. destruct (take_same cands id i k) as (-> & _). split; [apply P', J|auto].
    + intros x J. apply P', J.
Qed.

Lemma gen_step es keys id e i k :
  (forall x, declared es x -> ~ numbered_prefix x) ->
  In id keys -> ni_prefix i = None -> oassoc (ni_namespace i) (build_prefixes es) = Some e -> good_known es true keys k ->
  let r := choose_generated order id e i k in
  extends k (snd r) /\ good_known es true keys (snd r) /\ origin_of es true id (fst r) /\
  forall x, ni_prefix (fst r) = Some x -> assoc x (snd r) = Some id.
Proof.
  intros NP I P E G. unfold choose_generated.
  destruct (match px_prefix e with Some x => Some x | None => hd_error (order (px_alt e)) end) as [y|] eqn:Y; cbn.
  - assert (D : declared_for es (ni_namespace i) y).
    { apply build_prefixes_sound. exists e. split; [exact E|]. destruct (px_prefix e); [left; exact Y|right].
      apply order_in. destruct (order (px_alt e)); [discriminate|]. injection Y as ->. left. reflexivity. }
    set (p := (y ++ String "_" (show id))%string).
    assert (F : assoc p k = None \/ assoc p k = Some id).
    { destruct (assoc p k) as [n|] eqn:A; [|auto]. right. destruct (G p n A) as (_ & [Q|(_ & z & Q)]).
      - destruct (NP p Q). exists y, id. reflexivity.
      - f_equal. symmetry. apply (numbered_inj y id z n). exact Q. }
    split; [|split; [|split]].
    + intros x n A. rewrite assoc_sput. destruct (String.eqb_spec x p) as [->|]; [destruct F; congruence|exact A].
    + intros x n. rewrite assoc_sput. destruct (String.eqb_spec x p) as [->|]; [|apply G]. intros [= <-].
      split; [exact I|]. right. split; [reflexivity|]. exists y. reflexivity.
    + intros x [= <-]. exists y. split; [exact D|]. right. auto.
    + intros x [= <-]. rewrite assoc_sput, String.eqb_refl. reflexivity.
  - split; [intros x n A; exact A|]. split; [exact G|]. split; [intros x X; congruence|intros x X; congruence].
Qed.

Lemma determine_total es g a s : (forall id i, In (id, i) (sm_infos s) -> px_has (build_prefixes es) (ni_namespace i)) ->
  exists s', determine_prefixes order g a (build_prefixes es) s = Ok s' /\ sm_schemas s' = sm_schemas s /\
    sm_namespaces s' = sm_namespaces s /\ sm_last_namespace s' = sm_last_namespace s /\ Forall2 same_info (sm_infos s) (sm_infos s').
Proof.
  intros H. unfold determine_prefixes.
  assert (H' : forall l, Forall2 same_info (sm_infos s) l -> forall id i, In (id, i) l -> px_has (build_prefixes es) (ni_namespace i)).
  { intros l F id i I. destruct (forall2_in _ _ _ _ F I) as (j & J & _ & E & _). cbn in E. rewrite <- E. eapply H. exact J. }
  destruct (loop_total choose_main (build_prefixes es) (sm_infos s) (sm_prefixes s) H) as [[i1 k1] L1]. rewrite L1.
  pose proof (loop_same _ main_same _ _ _ _ _ L1) as F1.
  assert (A2 : exists i2 k2, (if a then prefix_loop (choose_alt order) (build_prefixes es) i1 k1 else Some (i1, k1)) = Some (i2, k2) /\ Forall2 same_info i1 i2).
  { destruct a; [|exists i1, k1; split; [reflexivity|apply forall2_refl]].
    destruct (loop_total (choose_alt order) (build_prefixes es) i1 k1 (H' i1 F1)) as [[i2 k2] L2]. exists i2, k2. split; [exact L2|].
    exact (loop_same _ alt_same _ _ _ _ _ L2). }
  destruct A2 as (i2 & k2 & -> & F2). pose proof (forall2_trans _ _ _ F1 F2) as F12.
  assert (A3 : exists i3 k3, (if g then prefix_loop (choose_generated order) (build_prefixes es) i2 k2 else Some (i2, k2)) = Some (i3, k3) /\ Forall2 same_info i2 i3).
  { destruct g; [|exists i2, k2; split; [reflexivity|apply forall2_refl]].
    destruct (loop_total (choose_generated order) (build_prefixes es) i2 k2 (H' i2 F12)) as [[i3 k3] L3]. exists i3, k3. split; [exact L3|].
    exact (loop_same _ gen_same _ _ _ _ _ L3). }
  destruct A3 as (i3 & k3 & -> & F3). eexists. split; [reflexivity|]. cbn. repeat split.
  exact (forall2_trans _ _ _ F12 F3).
Qed.

Lemma determine_good es (g a : bool) s s' : sm_prefixes s = [] -> (forall id i, In (id, i) (sm_infos s) -> ni_prefix i = None) ->
  (g = true -> forall x, declared es x -> ~ numbered_prefix x) ->
  determine_prefixes order g a (build_prefixes es) s = Ok s' ->
  good_known es g (map fst (sm_infos s)) (sm_prefixes s') /\
  forall id i, In (id, i) (sm_infos s') -> origin_of es g id i /\ forall x, ni_prefix i = Some x -> assoc x (sm_prefixes s') = Some id.
Proof.
  intros P0 N0 NP. unfold determine_prefixes. rewrite P0. set (keys := map fst (sm_infos s)).
  destruct (prefix_loop choose_main (build_prefixes es) (sm_infos s) []) as [[i1 k1]|] eqn:L1; [|discriminate].
  pose proof (loop_same _ main_same _ _ _ _ _ L1) as F1.
  destruct (loop_good choose_main (build_prefixes es) (good_known es g keys) (origin_of es g) (sm_infos s) [] i1 k1) as (_ & G1 & O1); [| | |exact L1|].
  { intros id e i k I P E G. apply (take_step es g keys id e); auto.
    - apply (in_map fst) in I. exact I.
    - intros x. destruct (px_prefix e); [|intros []]. intros [->|[]]. auto. }
  { intros x n. discriminate. }
  { intros id i I. split; intros x X; rewrite (N0 id i I) in X; discriminate. }
  destruct (if a then prefix_loop (choose_alt order) (build_prefixes es) i1 k1 else Some (i1, k1)) as [[i2 k2]|] eqn:L2; [|discriminate].
  assert (A2 : Forall2 same_info i1 i2 /\ good_known es g keys k2 /\
     forall id i, In (id, i) i2 -> origin_of es g id i /\ forall x, ni_prefix i = Some x -> assoc x k2 = Some id).
  { destruct a; [|injection L2 as <- <-; split; [apply forall2_refl|auto]].
    split; [exact (loop_same _ alt_same _ _ _ _ _ L2)|].
    apply (loop_good (choose_alt order) (build_prefixes es) (good_known es g keys) (origin_of es g) i1 k1 i2 k2); auto.
    intros id e i k I P E G. apply (take_step es g keys id e); auto.
    - unfold keys. rewrite <- (forall2_keys _ _ F1). apply (in_map fst) in I. exact I.
    - intros x X. right. apply order_in, X. }
  destruct A2 as (F2 & G2 & O2). pose proof (forall2_trans _ _ _ F1 F2) as F12.
  destruct g; [|intros [= <-]; cbn; auto].
  destruct (prefix_loop (choose_generated order) (build_prefixes es) i2 k2) as [[i3 k3]|] eqn:L3; [|discriminate].
  intros [= <-]. cbn.
  apply (loop_good (choose_generated order) (build_prefixes es) (good_known es true keys) (origin_of es true) i2 k2 i3 k3); auto.
  intros id e i k I P E G. apply (gen_step es keys id e); auto.
  unfold keys. rewrite <- (forall2_keys _ _ F12). apply (in_map fst) in I. exact I.
Qed.

Lemma gen_complete px : forall infos known infos' known', prefix_loop (choose_generated order) px infos known = Some (infos', known') ->
  forall id i, In (id, i) infos' -> ni_prefix i = None -> forall y, ~ px_offers px (ni_namespace i) y.
Proof.
  induction infos as [|[id0 i0] r IH]; intros known infos' known'; cbn.
  - intros [= <- <-] id i [].
  - destruct (ni_prefix i0) as [x|] eqn:P.
    + destruct (prefix_loop (choose_generated order) px r known) as [[r' k']|] eqn:L; [|discriminate]. intros [= <- <-] id i [[= <- <-]|I] N.
      * congruence.
      * eapply IH; eauto.
    + destruct (oassoc (ni_namespace i0) px) as [e|] eqn:E; [|discriminate].
      pose proof (gen_same id0 e i0 known) as C.
      assert (Q : ni_prefix (fst (choose_generated order id0 e i0 known)) = None -> forall y, ~ px_offers px (ni_namespace i0) y).
      { unfold choose_generated. destruct (px_prefix e) as [z|] eqn:Z; [discriminate|].
        destruct (order (px_alt e)) as [|w ws] eqn:W; [|discriminate]. intros _ y (e' & E' & [H|H]); [congruence|].
        assert (e' = e) by congruence. subst. apply order_in in H. rewrite W in H. exact H. }
      destruct (choose_generated order id0 e i0 known) as [i' k1]. cbn in C, Q.
      destruct (prefix_loop (choose_generated order) px r k1) as [[r' k']|] eqn:L; [|discriminate]. intros [= <- <-] id i [[= <- <-]|I] N.
      * destruct C as (-> & _). apply Q, N.
      * eapply IH; eauto.
Qed.

Lemma determine_complete es a s s' id i x : determine_prefixes order true a (build_prefixes es) s = Ok s' ->
  In (id, i) (sm_infos s') -> declared_for es (ni_namespace i) x -> exists y, ni_prefix i = Some y.
Proof.
  unfold determine_prefixes.
  destruct (prefix_loop choose_main (build_prefixes es) (sm_infos s) (sm_prefixes s)) as [[i1 k1]|]; [|discriminate].
  destruct (if a then prefix_loop (choose_alt order) (build_prefixes es) i1 k1 else Some (i1, k1)) as [[i2 k2]|]; [|discriminate].
  destruct (prefix_loop (choose_generated order) (build_prefixes es) i2 k2) as [[i3 k3]|] eqn:L3; [|discriminate].
  intros [= <-] I D. cbn in I. destruct (ni_prefix i) as [y|] eqn:P; [eauto|].
  destruct (build_prefixes_complete es _ _ D) as [z Z]. destruct (gen_complete _ _ _ _ _ L3 id i I P z Z).
Qed.

(** A wanted prefix nobody else wants is given in the first round. *)
Lemma main_takes px x id i : forall infos known infos' known', prefix_loop choose_main px infos known = Some (infos', known') ->
  NoDup (map fst infos) -> (forall n j, In (n, j) infos -> ni_prefix j = None) -> assoc x known = None ->
  In (id, i) infos -> (exists e, oassoc (ni_namespace i) px = Some e /\ px_prefix e = Some x) ->
  (forall n j e, In (n, j) infos -> n <> id -> oassoc (ni_namespace j) px = Some e -> px_prefix e <> Some x) ->
  exists i', In (id, i') infos' /\ ni_prefix i' = Some x.
Proof.
  induction infos as [|[n j] r IH]; intros known infos' known' L ND NP A I (e & E & P) O; [destruct I|]. cbn in L.
  rewrite (NP n j (or_introl eq_refl)) in L. inversion ND; subst.
  destruct (oassoc (ni_namespace j) px) as [e'|] eqn:E'; [|discriminate].
  destruct (choose_main n e' j known) as [i0 k1] eqn:T. unfold choose_main in T.
  destruct I as [[= -> ->]|I].
  - assert (e' = e) by congruence. subst. rewrite P in T. cbn in T. rewrite A in T. cbn in T. injection T as <- <-.
    destruct (prefix_loop choose_main px r _) as [[r' k']|]; [|discriminate]. injection L as <- <-.
    exists (set_prefix x i). cbn. auto.
  - assert (NE : n <> id). { intros ->. apply H1. apply (in_map fst) in I. exact I. }
    pose proof (O n j e' (or_introl eq_refl) NE E') as NX.
    assert (STEP : forall i' k1 r' k', take_prefixes (match px_prefix e' with Some x => [x] | None => [] end) n j known = (i', k1) ->
      prefix_loop choose_main px r k1 = Some (r', k') -> exists i', In (id, i') r' /\ ni_prefix i' = Some x).
    { clear T L. intros i' k2 r' k' T L'. eapply (IH k2 r' k' L' H2); eauto.
      - intros; eapply NP; right; eauto.
      - destruct (px_prefix e') as [z|]; cbn in T; [|injection T as <- <-; exact A].
        destruct (assoc z known); [injection T as <- <-; exact A|]. injection T as <- <-. rewrite assoc_sput.
        destruct (String.eqb_spec x z) as [->|]; [congruence|exact A].
      - intros; eapply O; eauto. right; eauto. }
    destruct (prefix_loop choose_main px r k1) as [[r' k']|] eqn:L'; [|discriminate]. injection L as <- <-.
    destruct (STEP _ _ _ _ T L') as (q & Q & R). exists q. cbn. auto.
Qed.

Lemma main_stays b ns x : forall m, (exists e, oassoc (Some ns) m = Some e /\ px_prefix e = Some x) ->
  (forall y, ~ In (PENamespace y ns) b) ->
  exists e, oassoc (Some ns) (fold_left prefix_step b m) = Some e /\ px_prefix e = Some x.
Proof.
  induction b as [|z b IH]; intros m H N; [exact H|]. cbn [fold_left]. apply IH; [|intros y Y; apply (N y); right; exact Y].
  destruct H as (e & E & P).
  assert (ALT : forall l m, (exists e, oassoc (Some ns) m = Some e /\ px_prefix e = Some x) ->
    exists e, oassoc (Some ns) (px_alts m l) = Some e /\ px_prefix e = Some x).
  { induction l as [|[n ys] l IHl]; intros m' H; [exact H|]. unfold px_alts. cbn [fold_left]. apply IHl. cbn [fst snd].
    clear - H. revert m' H. induction ys as [|y ys IHy]; intros m' H; [exact H|]. cbn [fold_left]. apply IHy.
    rewrite px_update_get. destruct (opt_str_eqb_spec (Some ns) n) as [<-|]; [|exact H]. destruct H as (e & -> & P).
    eexists. split; [reflexivity|]. exact P. }
  destruct z as [|y n|s].
  - exists e. cbn. rewrite px_update_get. cbn. auto.
  - exists e. cbn [prefix_step]. rewrite px_update_get. destruct (opt_str_eqb_spec (Some ns) (Some n)) as [[= <-]|]; [|auto].
    destruct (N y). left. reflexivity.
  - apply ALT. rewrite px_update_get. destruct (opt_str_eqb_spec (Some ns) (pe_target s)) as [<-|]; [|eauto].
    rewrite E. eexists. split; [reflexivity|]. unfold px_main. rewrite P.
    destruct (match oassoc (Some ns) (sd_xmlns (pe_schema s)) with Some (x0 :: _) => Some x0 | _ => None end); exact P.
Qed.

Lemma determine_user a0 b ns x (g a : bool) s s' id i : sm_prefixes s = [] ->
  (forall n j, In (n, j) (sm_infos s) -> ni_prefix j = None) -> NoDup (map fst (sm_infos s)) ->
  (forall y, ~ In (PENamespace y ns) b) ->
  In (id, i) (sm_infos s) -> ni_namespace i = Some ns ->
  (forall n j, In (n, j) (sm_infos s) -> n <> id -> ni_namespace j <> Some ns) ->
  (forall n, declared_for (a0 ++ PENamespace x ns :: b) n x -> n = Some ns) ->
  determine_prefixes order g a (build_prefixes (a0 ++ PENamespace x ns :: b)) s = Ok s' ->
  exists i', get id (sm_infos s') = Some i' /\ ni_prefix i' = Some x.
Proof.
  intros P0 N0 ND NB I IN OT D. unfold determine_prefixes. rewrite P0. set (px := build_prefixes _).
  assert (M : exists e, oassoc (Some ns) px = Some e /\ px_prefix e = Some x).
  { unfold px, build_prefixes. rewrite fold_left_app. cbn [fold_left]. apply main_stays; [|exact NB].
    cbn [prefix_step]. rewrite px_update_get. destruct (opt_str_eqb_spec (Some ns) (Some ns)); [|congruence]. eexists. split; reflexivity. }
  destruct (prefix_loop choose_main px (sm_infos s) []) as [[i1 k1]|] eqn:L1; [|discriminate].
  destruct (main_takes px x id i (sm_infos s) [] i1 k1) as (j & J & PJ); auto.
  { rewrite IN. exact M. }
  { intros n j e J NE E P. apply (OT n j J NE). apply D. apply build_prefixes_sound. exists e. auto. }
  destruct (if a then prefix_loop (choose_alt order) px i1 k1 else Some (i1, k1)) as [[i2 k2]|] eqn:L2; [|discriminate].
  assert (F2 : Forall2 same_info i1 i2).
  { destruct a; [exact (loop_same _ alt_same _ _ _ _ _ L2)|]. injection L2 as <- <-. apply forall2_refl. }
  destruct (if g then prefix_loop (choose_generated order) px i2 k2 else Some (i2, k2)) as [[i3 k3]|] eqn:L3; [|discriminate].
  assert (F3 : Forall2 same_info i2 i3).
  { destruct g; [exact (loop_same _ gen_same _ _ _ _ _ L3)|]. injection L3 as <- <-. apply forall2_refl. }
  intros [= <-]. cbn.
  assert (K1 : NoDup (map fst i1)) by (rewrite (forall2_keys _ _ (loop_same _ main_same _ _ _ _ _ L1)); exact ND).
  assert (G1 : get id i1 = Some j).
  { clear - J K1. induction i1 as [|[n y] r IH]; [destruct J|]. cbn in *. inversion K1; subst. destruct J as [[= -> ->]|J].
    - rewrite Nat.eqb_refl. reflexivity.
    - destruct (Nat.eqb_spec id n) as [->|]; [|auto]. destruct H1. apply (in_map fst) in J. exact J. }
  destruct (forall2_get' _ _ _ _ (forall2_trans _ _ _ F2 F3) G1) as (k & G & _ & _ & _ & S). exists k. auto.
Qed.
End order.

(** ** Putting the parts together *)
Section together.
Variable resolver : request -> outcome unit (option (option string * string * string)).
Variable parse : string -> option schema_doc.

Lemma get_in_nodup {V} (l : list (nat * V)) k v : NoDup (map fst l) -> In (k, v) l -> get k l = Some v.
Proof.
  induction l as [|[n y] r IH]; [intros _ []|]. cbn. intros ND. inversion ND; subst. intros [[= -> ->]|J].
  - rewrite Nat.eqb_refl. reflexivity.
  - destruct (Nat.eqb_spec k n) as [->|]; [|auto]. destruct H1. apply (in_map fst) in J. exact J.
Qed.

Lemma got_in {V} k (l : list (nat * V)) v : get k l = Some v -> In (k, v) l.
Proof.
  induction l as [|[n y] r IH]; cbn; [discriminate|]. destruct (Nat.eqb_spec k n) as [->|]; [intros [= ->]; auto|auto].
Qed.

Lemma build_prefix_less ids : forall es s s', build_entries ids s es = Ok s' -> sm_prefixes s' = sm_prefixes s.
Proof.
  assert (GN : forall s n id s', get_ns s n = Ok (id, s') -> sm_prefixes s' = sm_prefixes s).
  { intros s n id s'. unfold get_ns. destruct (oassoc n (sm_namespaces s)) as [k|].
    - destruct (get k (sm_infos s)); [|discriminate]. intros [= <- <-]. reflexivity.
    - destruct n; cbn; (destruct (get _ (sm_infos s)); [discriminate|]); intros [= <- <-]; reflexivity. }
  induction es as [|e es IH]; intros s s'; cbn; [intros [= <-]; reflexivity|].
  destruct e as [|x n|e].
  - destruct (get_ns s None) as [[k s1]| |] eqn:G; try discriminate. intros H. rewrite (IH _ _ H). eapply GN; eauto.
  - destruct (get_ns s (Some n)) as [[k s1]| |] eqn:G; try discriminate. intros H. rewrite (IH _ _ H). eapply GN; eauto.
  - unfold build_schema. destruct (get (pe_id e) ids); [|discriminate]. destruct (get_ns s (pe_target e)) as [[k s1]| |] eqn:G; try discriminate.
    destruct (get _ (sm_schemas s1)); [discriminate|]. intros H. rewrite (IH _ _ H). cbn. eapply GN; eauto.
Qed.

Lemma finish_ok order p : pinv resolver parse p ->
  exists s0 s, parser_finish order p = Ok s /\
    binv (build_ids (pa_cache p) (pa_entries p) 0 []) (pa_entries p) s0 /\ sm_prefixes s0 = [] /\
    determine_prefixes order (pa_generate p) (pa_alternative p) (build_prefixes (pa_entries p)) s0 = Ok s /\
    sm_schemas s = sm_schemas s0 /\ sm_namespaces s = sm_namespaces s0 /\ Forall2 same_info (sm_infos s0) (sm_infos s).
Proof.
  intros I. unfold parser_finish. set (ids := build_ids _ _ _ _).
  destruct (build_entries_spec ids (pa_entries p) [] schemas_new) as (s0 & B & V).
  { apply binv_new. }
  { cbn. intros k e K. apply (ids_of resolver parse p (pe_id e) k e I K). left. reflexivity. }
  cbn in V. rewrite B.
  destruct (determine_total order (pa_entries p) (pa_generate p) (pa_alternative p) s0) as (s & D & S1 & S2 & _ & F).
  { intros id i J. apply build_prefixes_has. apply (bv_mentions _ _ _ V). exists id.
    apply (bv_info _ _ _ V id i). apply get_in_nodup; [apply V|exact J]. }
  exists s0, s. split; [exact D|]. split; [exact V|]. split; [exact (build_prefix_less _ _ _ _ B)|]. auto.
Qed.
End together.

(** * Every reference is followed *)
Section asking.
Variable resolver : request -> outcome unit (option (option string * string * string)).
Variable parse : string -> option schema_doc.

Definition asked (p : parser) : Prop :=
  pa_includes p = true /\
  forall e c r kind, In e (loaded (pa_entries p)) -> refers e c r kind ->
    (exists id, In (id, r) (pa_pending p)) \/ (exists l ids, answers resolver r l /\ assoc l (pa_cache p) = Some ids).

Lemma add_contents_asks ns cur : forall cs pending next deps pending' next' deps',
  add_contents ns cur cs pending next deps = (pending', next', deps') ->
  (forall x, In x pending -> In x pending') /\
  (forall c r kind, In c cs -> content_req ns cur c = Some (r, kind) -> exists id, In (id, r) pending').
Proof.
  induction cs as [|c cs IH]; intros pending next deps pending' next' deps'; cbn [add_contents].
  - intros [= <- <- <-]. split; [auto|]. intros c r kind [].
  - destruct (content_req ns cur c) as [[r kind]|] eqn:C; intros E; apply IH in E as (P & F).
    + split; [intros x I; apply P, in_app_iff; auto|]. intros c' r' k' [<-|I] C'; [|eauto].
      rewrite C in C'. injection C' as <- <-. exists next. apply P, in_app_iff. cbn. auto.
    + split; [exact P|]. intros c' r' k' [<-|I] C'; [congruence|eauto].
Qed.

Lemma add_schema_asked p id name d loc : asked p -> asked (add_schema p id name d loc).
Proof.
  intros (T & A). unfold add_schema. rewrite T.
  destruct (add_contents (sd_target d) loc (sd_content d) (pa_pending p) (pa_next p) []) as [[pending next] deps] eqn:E.
  apply add_contents_asks in E as (P & F). split; cbn; [reflexivity|].
  intros e c r kind. rewrite loaded_app, in_app_iff. cbn. intros [J|[<-|[]]] R.
  - destruct (A e c r kind J R) as [(i & X)|X]; [left; exists i; auto|auto].
  - destruct R as (R1 & R2). cbn in *. left. eapply F; eauto.
Qed.

Lemma resolve_location_asked p id r p' : asked (with_pending p ((id, r) :: pa_pending p)) ->
  resolve_location resolver parse p id r = Ok p' -> asked p'.
Proof.
  intros (T & A). unfold resolve_location. cbn in T, A.
  destruct (resolver r) as [[[[name l] text]|]|e|] eqn:RR; try discriminate.
  assert (AN : answers resolver r l) by (exists name, text; exact RR).
  assert (UP : forall e c q kind (cache' : list (string * list nat)), (forall l' ids, assoc l' (pa_cache p) = Some ids -> exists ids', assoc l' cache' = Some ids') ->
     (exists ids, assoc l cache' = Some ids) -> In e (loaded (pa_entries p)) -> refers e c q kind ->
     (exists i, In (i, q) (pa_pending p)) \/ (exists l ids, answers resolver q l /\ assoc l cache' = Some ids)).
  { intros e c q kind cache' K (ids & L) J R. destruct (A e c q kind J R) as [(i & [E|X])|(l' & ids' & X & Y)].
    - injection E as <- <-. right. eauto.
    - eauto.
    - right. destruct (K _ _ Y) as (ids2 & Z). eauto. }
  destruct (assoc l (pa_cache p)) as [ids|] eqn:C.
  - intros [= <-]. split; cbn; [exact T|]. intros e c q kind J R. apply (UP e c q kind); auto.
    + intros l' ids' X. rewrite assoc_sput. destruct (String.eqb l' l); eauto.
    + rewrite assoc_sput, String.eqb_refl. eauto.
  - destruct (parse text) as [d|]; [|discriminate]. destruct (apply_namespace r l d) as [d'| |]; try discriminate.
    intros [= <-].
    unfold add_schema. rewrite T.
    destruct (add_contents (sd_target d') (Some l) (sd_content d') (pa_pending p) (pa_next p) []) as [[pending next] deps] eqn:E.
    apply add_contents_asks in E as (P & F). split; cbn; [reflexivity|].
    intros e c q kind. rewrite loaded_app, in_app_iff. cbn. intros [J|[<-|[]]] R.
    + destruct (UP e c q kind (sput l [id] (pa_cache p))) as [(i & X)|X]; auto.
      * intros l' ids' X. rewrite assoc_sput. destruct (String.eqb l' l); eauto.
      * rewrite assoc_sput, String.eqb_refl. eauto.
      * left. exists i. auto.
    + destruct R as (R1 & R2). cbn in *. left. eapply F; eauto.
Qed.

Lemma resolve_pending_asked fuel p p' : asked p -> resolve_pending resolver parse fuel p = Some (Ok p') -> asked p'.
Proof.
  revert p. induction fuel as [|fuel IH]; intros p A; cbn [resolve_pending].
  - destruct (pa_pending p) as [|[id r] q]; [intros [= <-]; exact A|discriminate].
  - destruct (pa_pending p) as [|[id r] q] eqn:Q; [intros [= <-]; exact A|].
    destruct (resolve_location resolver parse (with_pending p q) id r) as [p1| |] eqn:R; [|discriminate|discriminate].
    apply resolve_location_asked in R; [apply IH, R|]. destruct p; cbn in *. subst. exact A.
Qed.

Lemma parser_run_asked fuel ops p p' : asked p -> keeps_resolver ops -> always_includes ops ->
  parser_run resolver parse fuel ops p = Some (Ok p') -> asked p'.
Proof.
  revert p. induction ops as [|op ops IH]; intros p A KR AI; cbn [parser_run]; [intros [= <-]; exact A|].
  destruct (parser_do resolver parse fuel p op) as [[p1| |]|] eqn:D; try discriminate.
  apply IH; [|intros X; apply KR; right; exact X|intros X; apply AI; right; exact X].
  destruct op as [x n| |name text|url|b|b|b|]; cbn [parser_do] in D.
  - injection D as <-. destruct A as (T & A). split; cbn; rewrite ?loaded_app; cbn; rewrite ?app_nil_r; auto.
  - injection D as <-. destruct A as (T & A). split; cbn; rewrite ?loaded_app; cbn; rewrite ?app_nil_r; auto.
  - destruct (parse text) as [d|]; [|discriminate]. eapply resolve_pending_asked; [|exact D]. apply add_schema_asked. exact A.
  - destruct (resolve_location _ _ _ _ _) as [p2| |] eqn:R; [|discriminate|discriminate].
    eapply resolve_pending_asked; [|exact D]. eapply resolve_location_asked; [|exact R]. destruct A as (T & A). split; cbn; [exact T|].
    intros e c r kind J RF. destruct (A e c r kind J RF) as [(i & X)|X]; [left; exists i; cbn; auto|auto].
  - injection D as <-. destruct A as (T & A). split; [|exact A]. destruct b; [reflexivity|]. destruct AI. left. reflexivity.
  - injection D as <-. exact A.
  - injection D as <-. exact A.
  - destruct KR. left. reflexivity.
Qed.

Lemma map_deps_in ids deps loc d : In (loc, d) (map_deps ids deps) <->
  exists d0 n, In (loc, d0) deps /\ get (dep_id d0) ids = Some n /\ d = dep_map d0 n.
Proof.
  unfold map_deps. rewrite in_flat_map. split.
  - intros ([l d0] & I & J). cbn in J. destruct (get (dep_id d0) ids) as [n|] eqn:G; [|destruct J].
    destruct J as [[= <- <-]|[]]. eauto.
  - intros (d0 & n & I & G & ->). exists (loc, d0). split; [exact I|]. cbn. rewrite G. left. reflexivity.
Qed.

Lemma dep_map_kind ns loc c r kind : content_req ns loc c = Some (r, kind) -> forall a n, dep_map (kind a) n = kind n.
Proof. destruct c as [[l|] x|l|l|l|]; cbn; try discriminate; intros [= _ <-] a n; reflexivity. Qed.

(** The dependencies after renumbering. *)
Lemma deps_renumbered p e loc d : pinv resolver parse p -> pa_pending p = [] -> In e (loaded (pa_entries p)) ->
  In (loc, d) (pe_deps e) ->
  exists c r kind l e' n, refers e c r kind /\ rq_location r = loc /\ answers resolver r l /\
    numbered (pa_entries p) n e' /\ pe_location e' = Some l /\
    get (dep_id d) (build_ids (pa_cache p) (pa_entries p) 0 []) = Some n /\ dep_map d n = kind n.
Proof.
  intros I Q J K. destruct (pv_deps _ _ _ I e loc d J K) as (c & r & kind & R & L & D & [X|(l & ids & A & C & M)]).
  - rewrite Q in X. destruct X.
  - assert (X : In l (locations (loaded (pa_entries p)))) by (apply (pv_cache _ _ _ I); eauto).
    apply locations_in in X as (e' & E' & EL). apply In_nth_error in E' as [k E'].
    exists c, r, kind, l, e', (S k). split; [exact R|]. split; [exact L|]. split; [exact A|]. split; [exists k; auto|].
    split; [exact EL|]. split.
    + apply (ids_of resolver parse p _ k e' I E'). right. eauto.
    + rewrite D. destruct R as (_ & R). apply (dep_map_kind _ _ _ _ _ R).
Qed.
End asking.

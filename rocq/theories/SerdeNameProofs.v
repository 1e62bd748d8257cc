(** Proofs about the serde names of fields. *)
From Verif Require Export SerdeNameSpec.
From Verif Require SerHelperModel SerHelperProofs.
From Coq Require Import List String Ascii Arith Bool Lia.
Import ListNotations.
Local Open Scope string_scope.

Lemma nodup_app {A} (a b : list A) : NoDup a -> NoDup b -> (forall x, In x a -> ~ In x b) -> NoDup (a ++ b)%list.
Proof.
  induction a as [|x a IH]; cbn; intros N M D; [exact M|]. inversion N; subst. constructor; [|apply IH; auto].
  rewrite in_app_iff. intros [?|?]; [auto|apply (D x); auto].
Qed.

Lemma nodup_map_by {A B C} (f : A -> B) (g : A -> C) (l : list A) :
  NoDup (map f l) -> (forall x y, In x l -> In y l -> g x = g y -> f x = f y) -> NoDup (map g l).
Proof.
  induction l as [|x l IH]; cbn; intros N I; [constructor|]. inversion N; subst. constructor.
  - intros J. apply in_map_iff in J as (y & E & K). apply H1. apply in_map_iff. exists y. split; [|exact K].
    symmetry. apply I; auto.
  - apply IH; auto.
Qed.

Lemma finds (l : list (field * string)) i f n : NoDup (map snd l) -> nth_error l i = Some (f, n) ->
  serde_finds l n = Some f /\ forall j g, nth_error l j = Some (g, n) -> j = i.
Proof.
  revert i. induction l as [|[g m] l IH]; intros i N E; [destruct i; discriminate|].
  cbn in N. inversion N; subst. destruct i as [|i]; cbn in E.
  - injection E as -> ->. cbn. rewrite String.eqb_refl. split; [reflexivity|]. intros [|j] h E; [reflexivity|].
    cbn in E. apply nth_error_In in E. destruct H1. apply in_map_iff. exists (h, n). auto.
  - pose proof (nth_error_In _ _ E) as J. destruct (IH i H2 E) as (F & U). cbn.
    destruct (String.eqb_spec n m) as [->|NE].
    + destruct H1. apply in_map_iff. exists (f, m). auto.
    + split; [exact F|]. intros [|j] h K; cbn in K; [congruence|]. f_equal. eauto.
Qed.

Lemma all_found_nodup prefix_of b o c :
  (forall l, In l (generate o c) -> NoDup (map (serde_name prefix_of b) l)) -> all_found (rendered prefix_of b o c).
Proof.
  intros H l i f n J E. apply in_map_iff in J as (k & <- & J). apply finds; [|exact E]. rewrite map_map. cbn. auto.
Qed.

(** * The names of the parts *)
Lemma attribute_fields_is c : attribute_fields (cm_attributes c) = map FAttribute (attributes_of c).
Proof. unfold attribute_fields, attributes_of. rewrite map_map. reflexivity. Qed.

Lemma occurs_none m x : is_none (from_occurs m x) = match x with Bounded 0 => Nat.eqb m 0 | _ => false end.
Proof.
  destruct x as [|[|[|n]]]; destruct m as [|[|m]]; cbn; try reflexivity; destruct (Nat.eqb _ _); reflexivity.
Qed.

Lemma element_fields_is l : element_fields l =
  map element_field (map em_particle (filter (fun e => match em_max e with Bounded 0 => negb (Nat.eqb (em_min e) 0) | _ => true end) l)).
Proof.
  unfold element_fields. rewrite map_map. f_equal. apply filter_ext. intros e. rewrite occurs_none.
  destruct (em_max e) as [|[|n]]; reflexivity.
Qed.

Section names.
Variables (prefix_of : nat -> option string) (b : backend) (o : options) (c : complex_meta).
Let nm := serde_name prefix_of b.

Record good_names : Prop := {
  gn_attributes : NoDup (map (fun t => nm (FAttribute t)) (attributes_of c));
  gn_elements : NoDup (map (fun t => nm (FElement t)) (elements_of c));
  gn_apart : forall a e, In a (attributes_of c) -> In e (elements_of c) -> nm (FAttribute a) <> nm (FElement e);
  gn_own : forall a, In a (attributes_of c) ->
    nm (FAttribute a) <> nm FText /\ nm (FAttribute a) <> nm FContent /\ (forall k, nm (FAttribute a) <> nm (FSimple k)) /\
    nm (FAttribute a) <> nm (FContentElement (o_content_name o));
  gn_text : forall e, In e (elements_of c) -> nm (FElement e) <> nm FText;
  gn_content : nm FText <> nm (FContentElement (o_content_name o));
  gn_texts : texts_of c + (if mixed_of c then 1 else 0) <= 1 }.

Lemma attribute_in x : In x (map nm (map FAttribute (attributes_of c))) -> exists a, In a (attributes_of c) /\ x = nm (FAttribute a).
Proof. rewrite map_map. intros J. apply in_map_iff in J as (a & <- & J). eauto. Qed.

Lemma element_in x : In x (map nm (map element_field (particles_of c))) ->
  (exists e, In e (elements_of c) /\ x = nm (FElement e)) \/ (x = nm FText /\ 1 <= texts_of c).
Proof.
  rewrite map_map. intros J. apply in_map_iff in J as ([t|] & <- & J); [left|right]; cbn.
  - exists t. split; [|reflexivity]. unfold elements_of. apply in_flat_map. exists (PElement t). cbn. auto.
  - split; [reflexivity|]. unfold texts_of.
    induction (particles_of c) as [|[t|] ps IH]; [destruct J|destruct J as [[=]|J]; auto|cbn; lia].
Qed.

Lemma elements_nodup : good_names -> NoDup (map nm (map element_field (particles_of c))).
Proof.
  intros G. rewrite map_map. pose proof (gn_elements G) as N. pose proof (gn_text G) as T. pose proof (gn_texts G) as L.
  assert (L' : texts_of c <= 1) by lia. clear L. unfold elements_of, texts_of in *.
  induction (particles_of c) as [|[t|] ps IH]; cbn in *; [constructor| |].
  - inversion N; subst. constructor; [|apply IH; auto]. intros J. apply in_map_iff in J as ([u|] & E & J).
    + apply H1. apply in_map_iff. exists u. split; [exact E|]. apply in_flat_map. exists (PElement u). cbn. auto.
    + cbn in E. apply (T t); auto.
  - constructor; [|apply IH; auto; lia]. intros J. apply in_map_iff in J as ([u|] & E & J).
    + cbn in E. apply (T u); [|exact E]. apply in_flat_map. exists (PElement u). cbn. auto.
    + clear -J L'. induction ps as [|[t|] ps IH]; cbn in *; [destruct J|destruct J as [[=]|J]; auto|lia].
Qed.

Lemma attributes_then extra : good_names -> NoDup (map nm extra) ->
  (forall a f, In a (attributes_of c) -> In f extra -> nm (FAttribute a) <> nm f) ->
  NoDup (map nm (map FAttribute (attributes_of c) ++ extra)%list).
Proof.
  intros G N D. rewrite map_app. apply nodup_app; [|exact N|].
  - rewrite map_map. exact (gn_attributes G).
  - intros x J K. apply attribute_in in J as (a & J & ->). apply in_map_iff in K as (f & E & K). exact (D a f J K (eq_sym E)).
Qed.

Lemma attributes_only : good_names -> NoDup (map nm (map FAttribute (attributes_of c))).
Proof. intros G. rewrite map_map. exact (gn_attributes G). Qed.

Lemma names_nodup l : good_names -> In l (generate o c) -> NoDup (map nm l).
Proof.
  intros G. pose proof (elements_nodup G) as EN. pose proof (attributes_only G) as AN. unfold generate. rewrite attribute_fields_is.
  assert (Two : NoDup (map nm [FText; FContentElement (o_content_name o)])).
  { cbn. constructor; [intros [E|[]]; exact (gn_content G (eq_sym E))|]. constructor; [intros []|constructor]. }
  assert (OneN : forall f, NoDup (map nm [f])) by (intros f; constructor; [intros []|constructor]).
  assert (Wrap : forall m : bool, NoDup (map nm (map FAttribute (attributes_of c) ++
            (if m then [FText; FContentElement (o_content_name o)] else [FContent]))%list)).
  { intros m. apply attributes_then; [exact G|destruct m; auto|]. intros a f J K. destruct (gn_own G a J) as (T1 & T2 & T3 & T4).
    destruct m; cbn in K; repeat destruct K as [<-|K]; auto; destruct K. }
  destruct (cm_body c) as [k mn mx|m mn mx es|m mn mx es] eqn:B.
  - intros [<-|[]]. destruct (is_none _); [rewrite app_nil_r; exact AN|].
    apply attributes_then; auto. intros a f J [<-|[]]. apply (gn_own G a J).
  - assert (P : element_fields es = map element_field (particles_of c)) by (rewrite element_fields_is; unfold particles_of; rewrite B; reflexivity).
    rewrite P. destruct (is_single _ && _).
    + intros [<-|[]]. apply attributes_then; [exact G| |].
      * destruct m; [|exact EN]. cbn. constructor; [|exact EN]. intros J. apply element_in in J as [(e & J & E)|(_ & T)].
        -- exact (gn_text G e J (eq_sym E)).
        -- pose proof (gn_texts G) as L. unfold mixed_of in L. rewrite B in L. lia.
      * intros a f J K E. apply in_app_iff in K as [K|K].
        -- destruct m; [|destruct K]. destruct K as [<-|[]]. exact (proj1 (gn_own G a J) E).
        -- assert (X : In (nm (FAttribute a)) (map nm (map element_field (particles_of c)))) by (rewrite E; apply in_map; exact K).
           apply element_in in X as [(e & Q & X)|(X & _)]; [exact (gn_apart G a e J Q X)|exact (proj1 (gn_own G a J) X)].
    + destruct (is_none _ || _); [intros [<-|[]]; exact AN|]. intros [<-|[<-|[]]]; [apply Wrap|exact EN].
  - assert (P : element_fields es = map element_field (particles_of c)) by (rewrite element_fields_is; unfold particles_of; rewrite B; reflexivity).
    rewrite P. destruct (is_single _ && _ && _ && _); [intros [<-|[]]; exact EN|].
    destruct (is_none _ || _); [intros [<-|[]]; exact AN|]. intros [<-|[<-|[]]]; [apply Wrap|exact EN].
Qed.

Lemma good_found : good_names -> all_found (rendered prefix_of b o c).
Proof. intros G. apply all_found_nodup. intros l. apply names_nodup. exact G. Qed.
End names.

(** * The names are different *)
Lemma no_colon_in s : xml_name s -> SerHelperModel.split_colon s = None.
Proof.
  intros (_ & H). induction s as [|d s IH]; [reflexivity|]. cbn [SerHelperModel.split_colon].
  destruct (Ascii.eqb_spec d ":") as [->|_]; [destruct (H ":"%char) as (? & _); [left; reflexivity|congruence]|].
  rewrite IH; [reflexivity|]. intros e J. apply H. right. exact J.
Qed.
Lemma colon_in p s : xml_name p -> SerHelperModel.split_colon (p ++ ":" ++ s) = Some (p, s).
Proof.
  intros (_ & H). induction p as [|d p IH]; [reflexivity|]. cbn.
  destruct (Ascii.eqb_spec d ":") as [->|_]; [destruct (H ":"%char) as (? & _); [left; reflexivity|congruence]|].
  cbn in IH. rewrite IH; [reflexivity|]. intros e J. apply H. right. exact J.
Qed.

Section tags.
Variables (prefix_of : nat -> option string) (l : list tag).
Hypothesis P : own_prefixes prefix_of l.
Hypothesis N : forall t, In t l -> xml_name (tg_name t).

Lemma tag_get_cases t : In t l ->
  (tg_qualified t = false /\ tag_get prefix_of t = tg_name t) \/
  (tg_qualified t = true /\ exists p, prefix_of (tg_ns t) = Some p /\ xml_name p /\ tag_get prefix_of t = p ++ ":" ++ tg_name t).
Proof.
  intros J. unfold tag_get. destruct (tg_qualified t) eqn:Q; [right|left; auto].
  destruct (proj1 P t J Q) as (p & E & X). rewrite E. eauto 6.
Qed.

Lemma tag_get_inj t u : In t l -> In u l -> tag_get prefix_of t = tag_get prefix_of u -> expanded t = expanded u.
Proof.
  intros J K E. unfold expanded. pose proof (no_colon_in _ (N t J)) as S1. pose proof (no_colon_in _ (N u K)) as S2.
  destruct (tag_get_cases t J) as [(Q1 & G1)|(Q1 & p & P1 & X1 & G1)], (tag_get_cases u K) as [(Q2 & G2)|(Q2 & q & P2 & X2 & G2)];
    rewrite Q1, Q2; rewrite G1, G2 in E.
  - congruence.
  - rewrite E, (colon_in q _ X2) in S1. discriminate.
  - rewrite <- E, (colon_in p _ X1) in S2. discriminate.
  - pose proof (colon_in p (tg_name t) X1) as C1. rewrite E, (colon_in q _ X2) in C1. injection C1 as -> ->.
    f_equal. f_equal. apply (proj2 P); congruence.
Qed.

Lemma xml_first s : xml_name s -> exists d r, s = String d r /\ d <> ":"%char /\ d <> "@"%char /\ d <> "#"%char /\ d <> "$"%char.
Proof. intros (E & H). destruct s as [|d r]; [congruence|]. exists d, r. split; [reflexivity|]. apply H. left. reflexivity. Qed.

(** The first character of a tag is that of a name. *)
Lemma tag_first t : In t l -> exists d r, tag_get prefix_of t = String d r /\ d <> "@"%char /\ d <> "#"%char /\ d <> "$"%char.
Proof.
  intros J. destruct (tag_get_cases t J) as [(_ & ->)|(_ & p & _ & X & ->)].
  - destruct (xml_first _ (N t J)) as (d & r & -> & _ & H). eauto.
  - destruct (xml_first _ X) as (d & r & -> & _ & H). cbn. eauto.
Qed.
End tags.

(** * The three renderers *)
Lemma own_prefixes_incl prefix_of l l' : own_prefixes prefix_of l -> (forall t, In t l' -> In t l) -> own_prefixes prefix_of l'.
Proof. intros (A & B) I. split; eauto. Qed.

Lemma found_v8 prefix_of o c : declared c -> own_prefixes prefix_of (attributes_of c ++ elements_of c) ->
  all_found (rendered prefix_of XmlRs8 o c).
Proof.
  intros (N & NA & NE & T) P.
  assert (PA : own_prefixes prefix_of (attributes_of c)) by (apply (own_prefixes_incl _ _ _ P); intros; apply in_app_iff; auto).
  assert (PE : own_prefixes prefix_of (elements_of c)) by (apply (own_prefixes_incl _ _ _ P); intros; apply in_app_iff; auto).
  assert (XA : forall t, In t (attributes_of c) -> xml_name (tg_name t)) by auto.
  assert (XE : forall t, In t (elements_of c) -> xml_name (tg_name t)) by auto.
  apply good_found. constructor; cbn.
  - apply (nodup_map_by expanded); [exact NA|]. intros t u J K E. injection E as E. exact (tag_get_inj _ _ PA XA t u J K E).
  - apply (nodup_map_by expanded); [exact NE|]. intros t u J K E. exact (tag_get_inj _ _ PE XE t u J K E).
  - intros a e _ J E. destruct (tag_first _ _ PE XE e J) as (d & r & E' & H & _). rewrite E' in E. injection E as E _. congruence.
  - intros a _. repeat split; try discriminate. intros [| |]; discriminate.
  - intros e J E. destruct (tag_first _ _ PE XE e J) as (d & r & E' & _ & H & _). rewrite E' in E. injection E as E _. congruence.
  - discriminate.
  - exact T.
Qed.

Lemma found_quick prefix_of o c : declared c -> xml_name (o_content_name o) ->
  NoDup (map tg_name (attributes_of c)) -> NoDup (map tg_name (elements_of c)) ->
  all_found (rendered prefix_of QuickXml o c).
Proof.
  intros (N & _ & _ & T) XC NA NE.
  apply good_found. constructor; cbn.
  - apply (nodup_map_by tg_name); [exact NA|]. intros t u J K E. injection E as E. exact E.
  - exact NE.
  - intros a e _ J E. destruct (xml_first (tg_name e)) as (d & r & E' & _ & H & _); [auto|]. rewrite E' in E. injection E as E _. congruence.
  - intros a _. repeat split; try discriminate. intros E.
    destruct (xml_first _ XC) as (d & r & E' & _ & H & _). rewrite E' in E. injection E as E _. congruence.
  - intros e J E. destruct (xml_first (tg_name e)) as (d & r & E' & _ & _ & _ & H); [auto|]. rewrite E' in E. injection E as E _. congruence.
  - intros E. destruct (xml_first _ XC) as (d & r & E' & _ & _ & _ & H). rewrite E' in E. injection E as E _. congruence.
  - exact T.
Qed.

Lemma found_v7 prefix_of o c : declared c -> xml_name (o_content_name o) -> own_prefixes prefix_of (attributes_of c) ->
  NoDup (map tg_name (elements_of c)) ->
  (forall a, In a (attributes_of c) -> tg_qualified a = false ->
     ~ In (tg_name a) (map tg_name (elements_of c)) /\ tg_name a <> o_content_name o) ->
  all_found (rendered prefix_of XmlRs7 o c).
Proof.
  intros (N & NA & _ & T) XC P NE D.
  assert (XA : forall t, In t (attributes_of c) -> xml_name (tg_name t)) by auto.
  assert (Q : forall a s, In a (attributes_of c) -> xml_name s -> tag_get prefix_of a = s -> tg_qualified a = false /\ tg_name a = s).
  { intros a s J X E. destruct (tag_get_cases _ _ P a J) as [(F & G)|(_ & p & _ & XP & G)]; [split; congruence|].
    apply no_colon_in in X. rewrite <- E, G, (colon_in _ _ XP) in X. discriminate. }
  apply good_found. constructor; cbn.
  - apply (nodup_map_by expanded); [exact NA|]. intros t u J K E. exact (tag_get_inj _ _ P XA t u J K E).
  - exact NE.
  - intros a e J K E. destruct (Q a (tg_name e) J) as (F & G); auto. apply (proj1 (D a J F)). rewrite G. apply in_map. exact K.
  - intros a J. destruct (tag_first _ _ P XA a J) as (d & r & E' & _ & H1 & H2). rewrite E'.
    assert (A : String d r <> "#text") by (intros E; injection E as E _; congruence).
    assert (B : String d r <> "$value") by (intros E; injection E as E _; congruence).
    repeat split; auto. intros E. rewrite <- E' in E. destruct (Q a _ J XC E) as (F & G). exact (proj2 (D a J F) G).
  - intros e J E. destruct (xml_first (tg_name e)) as (d & r & E' & _ & _ & H & _); [auto|]. rewrite E' in E. injection E as E _. congruence.
  - intros E. destruct (xml_first _ XC) as (d & r & E' & _ & _ & H & _). rewrite E' in E. injection E as E _. congruence.
  - exact T.
Qed.

(** * Every attribute and element has a field *)
Lemma fields_there prefix_of b o c :
  (forall t, In t (attributes_of c) -> exists l n, In l (rendered prefix_of b o c) /\ In (FAttribute t, n) l) /\
  (forall mixed min max es, cm_body c = BGroup mixed min max es \/ cm_body c = BChoice mixed min max es ->
     max <> Bounded 0 -> forall t, In t (elements_of c) ->
     exists l n, In l (rendered prefix_of b o c) /\ In (FElement t, n) l).
Proof.
  assert (R : forall l f, In l (generate o c) -> In f l -> exists l' n, In l' (rendered prefix_of b o c) /\ In (f, n) l').
  { intros l f J K. exists (map (fun f => (f, serde_name prefix_of b f)) l), (serde_name prefix_of b f).
    split; [apply in_map; exact J|]. apply in_map_iff. eauto. }
  split.
  - intros t J. assert (F : In (FAttribute t) (attribute_fields (cm_attributes c))) by (rewrite attribute_fields_is; apply in_map; exact J).
    unfold generate in R. destruct (cm_body c) as [k mn mx|m mn mx es|m mn mx es].
    + eapply R; [left; reflexivity|]. apply in_app_iff. auto.
    + destruct (is_single _ && _); [eapply R; [left; reflexivity|apply in_app_iff; auto]|].
      destruct (is_none _ || _); eapply R; [left; reflexivity|exact F|left; reflexivity|apply in_app_iff; auto].
    + destruct (is_nil (attribute_fields (cm_attributes c))) eqn:NL; [destruct (attribute_fields (cm_attributes c)); [destruct F|discriminate]|].
      rewrite andb_false_r in R. cbn [andb] in R.
      destruct (is_none _ || _); eapply R; [left; reflexivity|exact F|left; reflexivity|apply in_app_iff; auto].
  - intros mixed mn mx es B NM t J.
    assert (O : is_none (from_occurs mn mx) = false) by (rewrite occurs_none; destruct mx as [|[|n]]; congruence).
    assert (F : In (FElement t) (element_fields es)).
    { rewrite element_fields_is. unfold elements_of, particles_of in J. apply in_flat_map in J as ([u|] & J & K); [|destruct K].
      destruct K as [->|[]]. apply in_map_iff. exists (PElement t). split; [reflexivity|]. destruct B as [B|B]; rewrite B in J; exact J. }
    assert (NL : is_nil (element_fields es) = false) by (destruct (element_fields es); [destruct F|reflexivity]).
    unfold generate in R. destruct B as [B|B]; rewrite B, O, NL in R; cbn [orb] in R.
    + destruct (is_single _ && _); eapply R; [left; reflexivity|rewrite !in_app_iff; auto|right; left; reflexivity|exact F].
    + destruct (is_single _ && _ && _ && _); eapply R; [left; reflexivity|exact F|right; left; reflexivity|exact F].
Qed.

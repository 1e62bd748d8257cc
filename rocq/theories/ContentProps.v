(** C46, C63, C64: the content of complex types and the names of its members. *)
From Coq Require Import NArith.
From Verif Require ParserProofs.
From Verif Require Import MetaModel MetaSpec OccursSpec FlatModel FlatSpec FlatProofs ContentModel ContentSpec ContentProofs.
Local Open Scope string_scope.
Local Open Scope list_scope.

(** * A schema to try the theorems on *)

Definition el (s : string) : pident := PIdent 2 (Named s).
Definition ty (s : string) : tident := TIdent 2 1 (Named s) ITType.
Definition gr (s : string) : tident := TIdent 2 1 (Named s) ITGroup.
Definition once (s : string) : particle := PElement (el s) (ty "T") Qualified 1 (Bounded 1) None.
Definition opt (s : string) : particle := PElement (el s) (ty "T") Qualified 0 (Bounded 1) None.
Definition seq1 (ps : list particle) : particle := PGroup CSequence 1 (Bounded 1) ps.
Definition alt1 (ps : list particle) : particle := PGroup CChoice 1 (Bounded 1) ps.
Definition ref1 (s : string) : particle := PGroupRef (gr s) 1 (Bounded 1).
Definition groups1 (t : tident) : option (compositor * list particle) :=
  if tident_eq_dec t (gr "g") then Some (CChoice, [opt "a"; opt "b"]) else None.
Definition fields (n : nat) (r : option tident) : name :=
  match r with Some t => ti_name t | None => Generated (suffixed "Content" (N.of_nat n)) end.
Definition generated (n : nat) : tident := TIdent 2 1 (Generated (suffixed "Content" (N.of_nat n))) ITType.
Definition start : istate := IState [] [] 0.
Definition run (p : particle) := interpret groups1 2 fields generated mtype_new false 5 start p.
Definition the_child (s : string) : child := (el s, KType (ty "T")).

(** * C63: the content of a complex type *)

(** The children a generated complex type allows are the ones the particle of the schema
    allows, and the types there were before are the same.  [_partial]: for particles
    without empty groups and without two elements of the same name in one group (see the
    refutations below), and if the result is not a panic. *)
Theorem C63_content_partial groups ns field_name type_name finished mixed fuel st p st' x :
  (forall v, m_variant (finished v) = v) -> s_cache st = [] -> tidy groups p ->
  interpret groups ns field_name type_name finished mixed fuel st p = Some (Ok (st', x)) ->
  (forall t ty, lookup t (s_types st) = Some ty -> lookup t (s_types st') = Some ty) /\
  forall w, allows_children (s_types st') x w <-> says groups p w.
Proof. intros F C T H. exact (interpret_ok groups ns field_name type_name finished mixed F fuel st p st' x C T H). Qed.
Print Assumptions C63_content_partial.

(** The processing ends. *)
Theorem C63_ends groups ns field_name type_name finished mixed p : tidy groups p ->
  exists f0, forall fuel, f0 <= fuel -> forall st, interpret groups ns field_name type_name finished mixed fuel st p <> None.
Proof. exact (interpret_ends groups ns field_name type_name finished mixed p). Qed.
Print Assumptions C63_ends.

(** Names that are generated only once never lead to an error. *)
Theorem C63_no_error groups ns field_name type_name finished mixed fuel st p e :
  (forall a b, type_name a = type_name b -> a = b) -> new_names type_name st ->
  interpret groups ns field_name type_name finished mixed fuel st p <> Some (Err e).
Proof. intros I N. exact (interpret_fine groups ns field_name type_name finished mixed I fuel st p e N). Qed.
Print Assumptions C63_no_error.

Definition sample : particle :=
  seq1 [once "x"; PGroup CChoice 0 Unbounded [opt "y"; ref1 "g"]; PAny (PIdent 0 (Generated "any0")) (AnyMeta None "##any") 0 (Bounded 2); ref1 "g"].

Ltac tidiness := repeat (first [constructor | discriminate | (intros I; cbn in I; intuition discriminate) | (intros I; repeat (destruct I as [I|I]; [discriminate|]); exact I)]).

Lemma sample_tidy : tidy groups1 sample.
Proof.
  assert (R : tidy groups1 (ref1 "g")).
  { apply (tidy_ref groups1 (gr "g") CChoice 1 (Bounded 1) [opt "a"; opt "b"]); [reflexivity|discriminate| |].
    - repeat constructor; cbn; intuition discriminate.
    - repeat constructor. }
  apply tidy_group; [discriminate| |].
  - cbn. repeat constructor; cbn; intuition discriminate.
  - constructor; [constructor|]. constructor; [|constructor; [constructor|constructor; [exact R|constructor]]].
    apply tidy_group; [discriminate| |].
    + cbn. repeat constructor; cbn; intuition discriminate.
    + constructor; [constructor|constructor; [exact R|constructor]].
Qed.

Example C63_case : exists st x, run sample = Some (Ok (st, x)) /\ tidy groups1 sample /\ length (s_types st) = 3.
Proof. eexists. eexists. split; [vm_compute; reflexivity|]. split; [exact sample_tidy|reflexivity]. Qed.

Lemma show_n_inj a b : suffixed "Content" (N.of_nat a) = suffixed "Content" (N.of_nat b) -> a = b.
Proof. exact (ParserProofs.numbered_inj "Content" a "Content" b). Qed.

Example C63_no_error_case : (forall a b, generated a = generated b -> a = b) /\ new_names generated start.
Proof.
  split.
  - intros a b [= H]. apply show_n_inj. unfold suffixed. cbn. now rewrite H.
  - intros n _. reflexivity.
Qed.

(** ** What it does not do *)

Lemma one_child ts e w : is_group e = None -> el_min e = 1 -> el_max e = Bounded 1 -> part ts e w -> w = [child_of e].
Proof.
  intros G Mn Mx H. inversion H as [e' t n w' Ge|e' n Ge (W1 & W2)]; subst; [congruence|].
  rewrite Mn in W1. rewrite Mx in W2. cbn in W2. replace n with 1 by lia. reflexivity.
Qed.

Lemma once_word ts x t w : cx_content x = Some t -> occurs_once x -> allows_children ts x w -> accepts ts t w.
Proof. intros C O. unfold allows_children. rewrite C. now apply (once_accepts ts t t x w C eq_refl). Qed.

Lemma says_once groups s : says groups (once s) [the_child s].
Proof. apply (says_element groups (el s) (ty "T") Qualified 1 (Bounded 1) None 1). split; cbn; lia. Qed.

Lemma says_seq1 groups ps w : in_order (says groups) ps w -> says groups (seq1 ps) w.
Proof.
  intros H. apply (says_group groups CSequence 1 (Bounded 1) ps 1); [split; cbn; lia|].
  rewrite <- (app_nil_r w). constructor; [now constructor|constructor].
Qed.
Lemma says_alt1 groups ps p w : In p ps -> says groups p w -> says groups (alt1 ps) w.
Proof.
  intros I H. apply (says_group groups CChoice 1 (Bounded 1) ps 1); [split; cbn; lia|].
  rewrite <- (app_nil_r w). constructor; [now apply (co_choice _ _ p)|constructor].
Qed.
Lemma in_order_cons {A B} (P : A -> list B -> Prop) e es b w : P e [b] -> in_order P es w -> in_order P (e :: es) (b :: w).
Proof. intros H H'. exact (io_cons P e es [b] w H H'). Qed.

(** The sequence (a, b, a) becomes (a, b). *)
Theorem C63_repeated_name_refuted : exists st x, run (seq1 [once "a"; once "b"; once "a"]) = Some (Ok (st, x)) /\
  says groups1 (seq1 [once "a"; once "b"; once "a"]) [the_child "a"; the_child "b"; the_child "a"] /\
  ~ allows_children (s_types st) x [the_child "a"; the_child "b"; the_child "a"].
Proof.
  eexists. eexists. split; [vm_compute; reflexivity|]. split.
  - apply says_seq1. repeat (apply in_order_cons; [apply says_once|]). constructor.
  - intros H. eapply once_word in H; [|vm_compute; reflexivity|split; vm_compute; reflexivity].
    inversion H as [i ty0 g w L V Io|i ty0 g e w L V|i ty0 g w L V]; subst; cbn in L; injection L as <-; cbn in V; try discriminate V. injection V as <-.
    cbn in Io. inversion Io as [|e es v w P1 R Ee Ew]; subst. apply one_child in P1; [|reflexivity..]. subst v. cbn in Ew. injection Ew as ->.
    inversion R as [|e es v w P2 R2 Ee Ew]; subst. apply one_child in P2; [|reflexivity..]. subst v. injection Ew as ->. inversion R2.
Qed.
Print Assumptions C63_repeated_name_refuted.

(** The choice of a and nothing becomes a alone. *)
Theorem C63_empty_group_refuted : exists st x, run (alt1 [once "a"; seq1 []]) = Some (Ok (st, x)) /\
  says groups1 (alt1 [once "a"; seq1 []]) [] /\ ~ allows_children (s_types st) x [].
Proof.
  eexists. eexists. split; [vm_compute; reflexivity|]. split.
  - apply (says_alt1 _ _ (seq1 [])); [right; now left|]. apply says_seq1. constructor.
  - intros H. eapply once_word in H; [|vm_compute; reflexivity|split; vm_compute; reflexivity].
    inversion H as [i ty0 g w L V|i ty0 g e w L V I P|i ty0 g w L V]; subst; cbn in L; injection L as <-; cbn in V; try discriminate V. injection V as <-.
    cbn in I. destruct I as [<-|[]]. apply one_child in P; [discriminate P|reflexivity..].
Qed.
Print Assumptions C63_empty_group_refuted.

(** A reference to the group g followed by an element g: an assertion fails. *)
Theorem C63_group_and_element_refuted : run (seq1 [ref1 "g"; once "g"]) = Some Panic /\
  tidy groups1 (seq1 [ref1 "g"; once "g"]) /\ says groups1 (seq1 [ref1 "g"; once "g"]) [the_child "a"; the_child "g"].
Proof.
  split; [vm_compute; reflexivity|]. split.
  - apply tidy_group; [discriminate| |].
    + cbn. repeat constructor; cbn; intuition discriminate.
    + constructor; [|repeat constructor]. pose proof sample_tidy as T. inversion T as [| |? ? ? ? ? ? F|]; subst.
      rewrite Forall_forall in F. apply F. cbn. tauto.
  - apply says_seq1. apply in_order_cons; [|apply in_order_cons; [apply says_once|constructor]].
    apply (says_ref groups1 (gr "g") CChoice 1 (Bounded 1) [opt "a"; opt "b"] 1); [reflexivity|split; cbn; lia|].
    apply (times_more _ 0 [the_child "a"] []); [|constructor]. apply (co_choice _ _ (opt "a")); [now left|].
    apply (says_element groups1 (el "a") (ty "T") Qualified 0 (Bounded 1) None 1). split; cbn; lia.
Qed.
Print Assumptions C63_group_and_element_refuted.

(** The 32nd reference to a group: the number of the next name overflows. *)
Theorem C63_many_references_refuted : run (seq1 (repeat (ref1 "g") 32)) = Some Panic /\
  tidy groups1 (seq1 (repeat (ref1 "g") 32)) /\ says groups1 (seq1 (repeat (ref1 "g") 32)) [] /\
  exists st x, run (seq1 (repeat (ref1 "g") 31)) = Some (Ok (st, x)).
Proof.
  split; [vm_compute; reflexivity|]. split; [|split].
  - apply tidy_group; [discriminate| |].
    + replace (element_names (repeat (ref1 "g") 32)) with (@nil pident) by reflexivity. constructor.
    + apply Forall_forall. intros p I. apply repeat_spec in I. subst p. pose proof sample_tidy as T. inversion T as [| |? ? ? ? ? ? F|]; subst.
      rewrite Forall_forall in F. apply F. cbn. tauto.
  - apply says_seq1. assert (S : says groups1 (ref1 "g") []).
    { apply (says_ref groups1 (gr "g") CChoice 1 (Bounded 1) [opt "a"; opt "b"] 1); [reflexivity|split; cbn; lia|].
      apply (times_more _ 0 [] []); [|constructor]. apply (co_choice _ _ (opt "a")); [now left|].
      apply (says_element groups1 (el "a") (ty "T") Qualified 0 (Bounded 1) None 0). split; cbn; lia. }
    generalize 32. intros n. induction n as [|n IH]; cbn; [constructor|]. exact (io_cons _ _ _ [] [] S IH).
  - eexists. eexists. vm_compute. reflexivity.
Qed.
Print Assumptions C63_many_references_refuted.

(** * C64: derived types *)

(** A type that extends another one allows what that one allows followed by what the
    extension adds; the types there were before are the same.  [_partial]: for bases
    without content or with a sequence that occurs once; an extension by a sequence must
    occur once, too, and have other names than the base (see the refutations). *)
Theorem C64_extension_partial groups ns field_name type_name finished mixed fuel st base x p c mn mx ps st' x' es :
  (forall v, m_variant (finished v) = v) -> s_cache st = [] -> tidy groups p -> made_of groups p c mn mx ps ->
  base_is (s_types st) base x -> groups_present (s_types st) ->
  (cx_content x = None \/
   occurs_once x /\ sequence_content (s_types st) x /\ content_elements (s_types st) x es /\
   (c = CSequence -> mn = 1 /\ mx = Bounded 1 /\ forall id, In id (element_names ps) -> ~ In id (map el_ident es))) ->
  derive groups ns field_name type_name finished mixed fuel Extension st base p = Some (Ok (st', x')) ->
  (forall t ty, lookup t (s_types st) = Some ty -> lookup t (s_types st') = Some ty) /\ cx_base x' = BaseExt base /\
  forall w, allows_children (s_types st') x' w <->
    exists u v, w = u ++ v /\ allows_children (s_types st) x u /\ says groups p v.
Proof.
  intros F C T M B G H D. exact (extension_ok groups ns field_name type_name finished mixed F fuel st base x p c mn mx ps st' x' es C T M B G H D).
Qed.
Print Assumptions C64_extension_partial.

(** A type that restricts another one allows what the restriction says.  [_partial]: for
    bases without content, and for sequences that occur once restricted by a sequence
    that begins with the required elements of the base, in the same order and with the
    same types. *)
Theorem C64_restriction_partial groups ns field_name type_name finished mixed fuel st base x p c mn mx ps ps1 ps2 st' x' es :
  (forall v, m_variant (finished v) = v) -> s_cache st = [] -> tidy groups p -> made_of groups p c mn mx ps ->
  base_is (s_types st) base x ->
  (cx_content x = None \/
   occurs_once x /\ sequence_content (s_types st) x /\ content_elements (s_types st) x es /\
   c = CSequence /\ mn = 1 /\ mx = Bounded 1 /\ NoDup (map el_ident es) /\ ps = ps1 ++ ps2 /\
   Forall2 redeclares ps1 (filter (fun e => Nat.ltb 0 (el_min e)) es)) ->
  derive groups ns field_name type_name finished mixed fuel Restriction st base p = Some (Ok (st', x')) ->
  (forall t ty, lookup t (s_types st) = Some ty -> lookup t (s_types st') = Some ty) /\ cx_base x' = BaseRes base /\
  forall w, allows_children (s_types st') x' w <-> says groups p w.
Proof.
  intros F C T M B H D. exact (restriction_ok groups ns field_name type_name finished mixed F fuel st base x p c mn mx ps ps1 ps2 st' x' es C T M B H D).
Qed.
Print Assumptions C64_restriction_partial.

(** The state after a complex type with the particle was processed. *)
Definition with_base (p : particle) : istate * complex_meta :=
  match run p with
  | Some (Ok (st, x)) => (IState (s_types st ++ [(ty "Base", mtype_new (VComplex x))]) [] (s_next st), x)
  | _ => (start, complex_default false)
  end.
Definition derived (d : derivation) (base p : particle) :=
  derive groups1 2 fields generated mtype_new false 5 d (fst (with_base base)) (ty "Base") p.

Definition base1 : particle := seq1 [opt "x"; once "y"; alt1 [once "u"; once "v"]].
Ltac simple_tidy := repeat first [apply tidy_element | apply tidy_group; [discriminate|cbn; repeat constructor; cbn; intuition discriminate|]
  | apply Forall_cons | apply Forall_nil].

Example C64_extension_case : let st := fst (with_base base1) in let x := snd (with_base base1) in
  let p := seq1 [once "z"; alt1 [once "x"; once "y"]] in
  tidy groups1 p /\ base_is (s_types st) (ty "Base") x /\ groups_present (s_types st) /\ occurs_once x /\ sequence_content (s_types st) x /\
  (exists es, content_elements (s_types st) x es /\ forall id, In id [el "z"] -> ~ In id (map el_ident es)) /\
  exists st' x', derived Extension base1 p = Some (Ok (st', x')).
Proof.
  cbn zeta. split; [unfold seq1, alt1; simple_tidy|]. split; [eapply base_complex; vm_compute; reflexivity|].
  split; [|split; [split; vm_compute; reflexivity|split; [|split]]].
  - intros i ty0 m g e t. vm_compute s_types. cbn. intros L.
    repeat match type of L with (if ?c then _ else _) = _ => destruct c; [injection L as <-; cbn; intros G; try discriminate G; injection G as <- <-; cbn; intuition (subst; cbn in *; try discriminate)|] end; try discriminate L.
    all: match goal with H : Some _ = Some _ |- _ => injection H as <- end; vm_compute; eexists; reflexivity.
  - eexists. eexists. eexists. split; [|split]; vm_compute; reflexivity.
  - eexists. split; [eexists; eexists; eexists; eexists; split; [|split; [|split]]; vm_compute; reflexivity|].
    vm_compute. intuition (subst; discriminate).
  - eexists. eexists. vm_compute. reflexivity.
Qed.

Example C64_restriction_case : let base := seq1 [opt "x"; once "y"; once "z"] in let st := fst (with_base base) in let x := snd (with_base base) in
  let p := seq1 [once "y"; once "z"; opt "w"] in
  tidy groups1 p /\ base_is (s_types st) (ty "Base") x /\ occurs_once x /\ sequence_content (s_types st) x /\
  (exists es, content_elements (s_types st) x es /\ NoDup (map el_ident es) /\
    Forall2 redeclares [once "y"; once "z"] (filter (fun e => Nat.ltb 0 (el_min e)) es)) /\
  exists st' x', derived Restriction base p = Some (Ok (st', x')).
Proof.
  cbn zeta. split; [unfold seq1; simple_tidy|]. split; [eapply base_complex; vm_compute; reflexivity|].
  split; [split; vm_compute; reflexivity|]. split; [|split].
  - eexists. eexists. eexists. split; [|split]; vm_compute; reflexivity.
  - eexists. split; [eexists; eexists; eexists; eexists; split; [|split; [|split]]; vm_compute; reflexivity|].
    split; [vm_compute; repeat constructor; cbn; intuition discriminate|]. vm_compute filter. repeat constructor.
  - eexists. eexists. vm_compute. reflexivity.
Qed.

(** ** What it does not do *)

Lemma only_once groups s w : says groups (once s) w -> w = [the_child s].
Proof. intros H. inversion H as [id t f mn mx nl n (W1 & W2)| | |]; subst. cbn in W2. replace n with 1 by lia. reflexivity. Qed.
Lemma times_one {A} (L : list A -> Prop) n w : within 1 (Bounded 1) n -> times L n w -> L w.
Proof. intros (W1 & W2) T. cbn in W2. destruct (times_few _ _ _ T W2) as [(E & _)|(_ & H)]; [lia|exact H]. Qed.
Lemma alt1_word groups ps w : says groups (alt1 ps) w -> exists p, In p ps /\ says groups p w.
Proof. intros H. inversion H as [| |c mn mx ps' n w' W T|]; subst. apply (times_one _ _ _ W) in T. inversion T as [|ps' p w' I P|]; subst. now exists p. Qed.
Lemma seq1_word groups ps w : says groups (seq1 ps) w -> in_order (says groups) ps w.
Proof. intros H. inversion H as [| |c mn mx ps' n w' W T|]; subst. apply (times_one _ _ _ W) in T. now inversion T. Qed.

(** The choice of a and b extended by the choice of c and d becomes the choice of all
    four: a alone is allowed. *)
Theorem C64_choice_choice_refuted : exists st x w, derived Extension (alt1 [once "a"; once "b"]) (alt1 [once "c"; once "d"]) = Some (Ok (st, x)) /\
  allows_children (s_types st) x w /\
  ~ exists u v, w = u ++ v /\ allows_children (s_types (fst (with_base (alt1 [once "a"; once "b"])))) (snd (with_base (alt1 [once "a"; once "b"]))) u /\
    says groups1 (alt1 [once "c"; once "d"]) v.
Proof.
  eexists. eexists. exists [the_child "a"]. split; [vm_compute; reflexivity|]. split.
  - unfold allows_children. cbn. eexists. exists 1. split; [reflexivity|]. split; [split; cbn; lia|].
    apply (times_more _ 0 [the_child "a"] []); [|constructor]. eapply acc_choice; [vm_compute; reflexivity|reflexivity|now left|].
    refine (part_child _ _ 1 _ _); [reflexivity|split; cbn; lia].
  - intros (u & v & E & A & S). apply alt1_word in S. destruct S as (p & I & S).
    assert (Hv : v = [the_child "c"] \/ v = [the_child "d"]) by (cbn in I; destruct I as [<-|[<-|[]]]; apply only_once in S; auto).
    destruct u as [|u0 u]; destruct Hv as [-> | ->]; try discriminate E; injection E as E; destruct u; discriminate.
Qed.
Print Assumptions C64_choice_choice_refuted.

(** The choice of a and b extended by the sequence (c): c becomes an alternative. *)
Theorem C64_choice_sequence_refuted : exists st x w, derived Extension (alt1 [once "a"; once "b"]) (seq1 [once "c"]) = Some (Ok (st, x)) /\
  allows_children (s_types st) x w /\
  ~ exists u v, w = u ++ v /\ allows_children (s_types (fst (with_base (alt1 [once "a"; once "b"])))) (snd (with_base (alt1 [once "a"; once "b"]))) u /\
    says groups1 (seq1 [once "c"]) v.
Proof.
  eexists. eexists. exists [the_child "a"]. split; [vm_compute; reflexivity|]. split.
  - unfold allows_children. cbn. eexists. exists 1. split; [reflexivity|]. split; [split; cbn; lia|].
    apply (times_more _ 0 [the_child "a"] []); [|constructor]. eapply acc_choice; [vm_compute; reflexivity|reflexivity|now left|].
    refine (part_child _ _ 1 _ _); [reflexivity|split; cbn; lia].
  - intros (u & v & E & A & S). apply seq1_word in S. inversion S as [|e es v' w' P R]; subst. apply only_once in P. subst v'. inversion R; subst. rewrite app_nil_r in E.
    destruct u as [|u0 u]; [discriminate E|]; injection E as E; destruct u; discriminate.
Qed.
Print Assumptions C64_choice_sequence_refuted.

(** A sequence (a) that may occur any number of times, extended by the sequence (c),
    becomes the sequence (a, c) any number of times: c is allowed before a. *)
Theorem C64_repeated_base_refuted : exists st x w, derived Extension (PGroup CSequence 1 Unbounded [once "a"]) (seq1 [once "c"]) = Some (Ok (st, x)) /\
  allows_children (s_types st) x w /\
  ~ exists u v, w = u ++ v /\ allows_children (s_types (fst (with_base (PGroup CSequence 1 Unbounded [once "a"])))) (snd (with_base (PGroup CSequence 1 Unbounded [once "a"]))) u /\
    says groups1 (seq1 [once "c"]) v.
Proof.
  eexists. eexists. exists [the_child "a"; the_child "c"; the_child "a"; the_child "c"]. split; [vm_compute; reflexivity|]. split.
  - unfold allows_children. cbn. eexists. exists 2. split; [reflexivity|]. split; [split; cbn; auto; lia|].
    assert (A : forall ts t ty0 m e1 e2, lookup t ts = Some ty0 -> m_variant ty0 = VSequence (GroupMeta m [e1; e2]) -> is_group e1 = None -> is_group e2 = None ->
      child_of e1 = the_child "a" -> child_of e2 = the_child "c" -> within (el_min e1) (el_max e1) 1 -> within (el_min e2) (el_max e2) 1 ->
      accepts ts t [the_child "a"; the_child "c"]).
    { intros ts t ty0 m e1 e2 L V G1 G2 C1 C2 W1 W2. apply (acc_sequence ts t ty0 _ _ L V). cbn. rewrite <- C1, <- C2.
      apply in_order_cons; [exact (part_child ts e1 1 G1 W1)|]. apply in_order_cons; [exact (part_child ts e2 1 G2 W2)|constructor]. }
    apply (times_more _ 1 [the_child "a"; the_child "c"] [the_child "a"; the_child "c"]); [|apply (times_more _ 0 [the_child "a"; the_child "c"] []); [|constructor]];
      (eapply A; [vm_compute; reflexivity|reflexivity|reflexivity|reflexivity|reflexivity|reflexivity|split; cbn; lia|split; cbn; lia]).
  - intros (u & v & E & A & S). apply seq1_word in S. inversion S as [|e es v' w' P R]; subst. apply only_once in P. subst v'. inversion R; subst. rewrite app_nil_r in E.
    unfold allows_children in A. vm_compute cx_content in A. destruct A as (c & n & C & _ & T). vm_compute in C. injection C as <-.
    assert (All : forall y, In y u -> y = the_child "a").
    { clear E. set (ts := s_types _) in T. induction T as [|n v w H T IH]; intros y I; [destruct I|]. apply in_app_or in I. destruct I as [I|I]; [|now apply IH].
      inversion H as [i ty0 g w0 L V Io|i ty0 g e w0 L V|i ty0 g w0 L V]; subst; vm_compute in L; injection L as <-; cbn in V; try discriminate V. injection V as <-.
      cbn in Io. inversion Io as [|e es v1 w1 P1 R1]; subst. apply one_child in P1; [|reflexivity..]. subst v1. inversion R1; subst. cbn in I. destruct I as [<-|[]]. reflexivity. }
    destruct u as [|u0 [|u1 [|u2 [|u3 u]]]]; try discriminate E; injection E as; subst; try (destruct u; discriminate). specialize (All (the_child "c") (or_intror (or_introl eq_refl))). discriminate All.
Qed.
Print Assumptions C64_repeated_base_refuted.

(** The sequence (a?, b) restricted to (a, b) becomes (b, a). *)
Theorem C64_restriction_order_refuted : exists st x, derived Restriction (seq1 [opt "a"; once "b"]) (seq1 [once "a"; once "b"]) = Some (Ok (st, x)) /\
  says groups1 (seq1 [once "a"; once "b"]) [the_child "a"; the_child "b"] /\ ~ allows_children (s_types st) x [the_child "a"; the_child "b"].
Proof.
  eexists. eexists. split; [vm_compute; reflexivity|]. split.
  - apply says_seq1. repeat (apply in_order_cons; [apply says_once|]). constructor.
  - intros H. eapply once_word in H; [|vm_compute; reflexivity|split; vm_compute; reflexivity].
    inversion H as [i ty0 g w L V Io|i ty0 g e w L V|i ty0 g w L V]; subst; vm_compute in L; injection L as <-; cbn in V; try discriminate V. injection V as <-.
    cbn in Io. inversion Io as [|e es v w P1 R Ee Ew]; subst. apply one_child in P1; [|reflexivity..]. subst v. discriminate Ew.
Qed.
Print Assumptions C64_restriction_order_refuted.

(** A sequence with a choice in it, restricted to itself, has the choice twice. *)
Theorem C64_restriction_group_refuted : exists st x, derived Restriction (seq1 [alt1 [once "a"; once "b"]]) (seq1 [alt1 [once "a"; once "b"]]) = Some (Ok (st, x)) /\
  says groups1 (seq1 [alt1 [once "a"; once "b"]]) [the_child "a"] /\ ~ allows_children (s_types st) x [the_child "a"].
Proof.
  eexists. eexists. split; [vm_compute; reflexivity|]. split.
  - apply says_seq1. apply in_order_cons; [|constructor]. apply (says_alt1 _ _ (once "a")); [now left|apply says_once].
  - intros H. eapply once_word in H; [|vm_compute; reflexivity|split; vm_compute; reflexivity].
    assert (NE : forall ts t ty0 m e1 e2 w, lookup t ts = Some ty0 -> m_variant ty0 = VChoice (GroupMeta m [e1; e2]) -> is_group e1 = None -> is_group e2 = None ->
      el_min e1 = 1 -> el_max e1 = Bounded 1 -> el_min e2 = 1 -> el_max e2 = Bounded 1 -> accepts ts t w -> exists y, w = [y]).
    { intros ts t ty0 m e1 e2 w L V G1 G2 A1 B1 A2 B2 A. inversion A as [? ? ? ? L' V'|? ? ? ? ? L' V' I P|? ? ? ? L' V']; subst; rewrite L in L'; injection L' as <-; rewrite V in V'; try discriminate V'.
      injection V' as <-. cbn in I. destruct I as [<-|[<-|[]]]; apply one_child in P; auto; eexists; exact P. }
    inversion H as [i ty0 g w L V Io|i ty0 g e w L V|i ty0 g w L V]; subst; vm_compute in L; injection L as <-; cbn in V; try discriminate V. injection V as <-.
    cbn in Io. inversion Io as [|e es v w P1 R Ee Ew]; subst. inversion R as [|e es v2 w2 P2 R2 Ee2 Ew2]; subst. inversion R2; subst. clear Io R R2.
    inversion P1 as [e t n w' Ge Wi T|e n Ge]; subst; [|discriminate Ge]. cbn in Ge. injection Ge as <-. apply (times_one _ _ _ Wi) in T.
    inversion P2 as [e t n2 w' Ge Wi2 T2|e n2 Ge]; subst; [|discriminate Ge]. cbn in Ge. injection Ge as <-. apply (times_one _ _ _ Wi2) in T2.
    eapply NE in T; [|vm_compute; reflexivity|reflexivity..]. eapply NE in T2; [|vm_compute; reflexivity|reflexivity..].
    destruct T as (y & ->). destruct T2 as (y2 & ->). discriminate Ew.
Qed.
Print Assumptions C64_restriction_group_refuted.

(** A restriction that gives an element another type: the type of the base is kept. *)
Theorem C64_restriction_type_refuted : exists st x, let p := seq1 [PElement (el "a") (ty "U") Qualified 1 (Bounded 1) None] in
  derived Restriction (seq1 [once "a"]) p = Some (Ok (st, x)) /\
  says groups1 p [(el "a", KType (ty "U"))] /\ ~ allows_children (s_types st) x [(el "a", KType (ty "U"))].
Proof.
  eexists. eexists. cbn zeta. split; [vm_compute; reflexivity|]. split.
  - apply says_seq1. apply in_order_cons; [|constructor]. apply (says_element groups1 (el "a") (ty "U") Qualified 1 (Bounded 1) None 1). split; cbn; lia.
  - intros H. eapply once_word in H; [|vm_compute; reflexivity|split; vm_compute; reflexivity].
    inversion H as [i ty0 g w L V Io|i ty0 g e w L V|i ty0 g w L V]; subst; vm_compute in L; injection L as <-; cbn in V; try discriminate V. injection V as <-.
    cbn in Io. inversion Io as [|e es v w P1 R Ee Ew]; subst. apply one_child in P1; [|reflexivity..]. subst v. discriminate Ew.
Qed.
Print Assumptions C64_restriction_type_refuted.

(** * C46: the names of members *)

(** Whatever is inserted into a group, no two of its elements have the same identifier,
    the identifiers that were there stay, and the same holds for the groups made on the
    way. *)
Theorem C46_insertions groups ns field_name type_name finished mixed fuel ps st es st' es' :
  (forall v, m_variant (finished v) = v) -> ns <> 0 -> Forall (apart groups) ps -> NoDup (any_names ps) ->
  distinct_members (s_types st) -> NoDup (map el_ident es) -> (forall id, In id (any_names ps) -> ~ In id (map el_ident es)) ->
  apply_particles (apply_particle groups ns field_name type_name finished mixed fuel) st es ps = Some (Ok (st', es')) ->
  distinct_members (s_types st') /\ NoDup (map el_ident es') /\ exists l, map el_ident es' = map el_ident es ++ l.
Proof.
  intros F Hn A NA D N Fr H. exact (insertions_ok groups ns field_name type_name finished mixed F Hn fuel ps st es st' es' A NA D N Fr H).
Qed.
Print Assumptions C46_insertions.

(** The same for a whole complex type. *)
Theorem C46_members groups ns field_name type_name finished mixed fuel st p st' x :
  (forall v, m_variant (finished v) = v) -> ns <> 0 -> apart groups p -> distinct_members (s_types st) ->
  interpret groups ns field_name type_name finished mixed fuel st p = Some (Ok (st', x)) -> distinct_members (s_types st').
Proof. intros F Hn A D H. exact (interpret_members groups ns field_name type_name finished mixed F Hn fuel st p st' x A D H). Qed.
Print Assumptions C46_members.

(** Elements with the same local name in different namespaces are named after their
    namespace; the other ones are left alone. *)
Theorem C46_display prefix es : told_apart es ->
  Forall2 (fun e e' => (namesake es e -> e' = set_display (ns_display prefix (el_ident e)) e) /\ (~ namesake es e -> e' = e))
    es (fix_naming_conflicts prefix es).
Proof. exact (conflicts_ok prefix es). Qed.
Print Assumptions C46_display.

(** So they get different names, if their namespaces have different ones.  [_partial]:
    compares elements with the same local name (see the refutations). *)
Theorem C46_display_distinct_partial prefix es a b ea eb : told_apart es ->
  nth_error (fix_naming_conflicts prefix es) a = Some ea -> nth_error (fix_naming_conflicts prefix es) b = Some eb -> a <> b ->
  name_str (pi_name (el_ident ea)) = name_str (pi_name (el_ident eb)) ->
  (forall n, In n (map (fun e => pi_ns (el_ident e)) es) -> prefix n <> None) ->
  (forall n n', In n (map (fun e => pi_ns (el_ident e)) es) -> In n' (map (fun e => pi_ns (el_ident e)) es) -> prefix n = prefix n' -> n = n') ->
  member_name ea <> member_name eb.
Proof. exact (display_distinct prefix es a b ea eb). Qed.
Print Assumptions C46_display_distinct_partial.

Example C46_case : Forall (apart groups1) [sample] /\ distinct_members [] /\
  (exists st x, run sample = Some (Ok (st, x))) /\
  let es := [element_new (PIdent 2 (Named "x")) (ty "T") ModeElement Qualified; element_new (PIdent 3 (Named "x")) (ty "T") ModeElement Qualified] in
  told_apart es /\
  map member_name (fix_naming_conflicts (fun n => match n with 2 => Some "p" | 3 => Some "q" | _ => None end) es) = ["p_x"; "q_x"].
Proof.
  assert (R : apart groups1 (ref1 "g")).
  { apply (ap_ref groups1 (gr "g") CChoice 1 (Bounded 1) [opt "a"; opt "b"]); [reflexivity|constructor|]. repeat constructor; discriminate. }
  repeat split.
  - constructor; [|constructor]. apply ap_group; [repeat constructor; intros []|].
    constructor; [constructor; discriminate|]. constructor; [|constructor; [now constructor|constructor; [exact R|constructor]]].
    apply ap_group; [constructor|]. constructor; [constructor; discriminate|]. now constructor.
  - discriminate.
  - eexists. eexists. vm_compute. reflexivity.
  - repeat constructor; cbn; intuition discriminate.
Qed.

(** Two references to the group a and an element a_1: two members named a_1. *)
Definition groups2 (t : tident) : option (compositor * list particle) :=
  if tident_eq_dec t (gr "a") then Some (CSequence, [once "u"]) else None.
Theorem C46_display_refuted : exists st x c ty0 g, interpret groups2 2 fields generated mtype_new false 5 start (seq1 [ref1 "a"; ref1 "a"; once "a_1"]) = Some (Ok (st, x)) /\
  cx_content x = Some c /\ lookup c (s_types st) = Some ty0 /\ m_variant ty0 = VSequence g /\
  map member_name (fix_naming_conflicts (fun _ => Some "p") (gr_elements g)) = ["a_1"; "a_2"; "a_1"].
Proof. do 5 eexists. repeat split; vm_compute; reflexivity. Qed.
Print Assumptions C46_display_refuted.

(** Elements x of two namespaces p and q, and an element p_x: two members named p_x. *)
Theorem C46_prefix_refuted : exists st x c ty0 g,
  interpret groups2 2 fields generated mtype_new false 5 start
    (seq1 [once "x"; PElement (PIdent 3 (Named "x")) (ty "T") Qualified 1 (Bounded 1) None; once "p_x"]) = Some (Ok (st, x)) /\
  cx_content x = Some c /\ lookup c (s_types st) = Some ty0 /\ m_variant ty0 = VSequence g /\
  map member_name (fix_naming_conflicts (fun n => match n with 2 => Some "p" | 3 => Some "q" | _ => None end) (gr_elements g)) = ["p_x"; "q_x"; "p_x"].
Proof. do 5 eexists. repeat split; vm_compute; reflexivity. Qed.
Print Assumptions C46_prefix_refuted.

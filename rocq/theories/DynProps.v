(** C86: the types of elements with dynamic types. *)
From Verif Require Import SerHelperModel DeModel DeSpec WrapModel TextModel TextSpec TextProofs TagSpec DynModel DynSpec DynProofs.
Local Open Scope string_scope.

(** Full statement: an element is read by the type that [denoted] says, for every name of the
    declared element.  Proved if the element has the name of the dynamic type, for clear
    names and attributes. *)
Theorem C86_read_partial : forall charref V D (types : nat -> deser V D) d ops h e n attrs y,
  well_nested (events_of ops) -> dh_run dhelper_default ops = Some h -> (e = EStart n attrs \/ e = EEmpty n attrs) ->
  plain_dynamic d -> clear_instance (enclosing (events_of ops)) n attrs d ->
  denoted charref (enclosing (events_of ops)) n attrs d (t_ns d, t_name d) y ->
  read_by types d h e (y_target y).
Proof.
  intros charref V D types d ops h e n attrs y HW HR HE HP HC HD. eapply chosen_read; [exact HE|].
  eapply choose_exact; eauto.
Qed.
Print Assumptions C86_read_partial.

(** Nothing else is read. *)
Theorem C86_other_partial : forall charref V D (types : nat -> deser V D) d ops h e n attrs,
  well_nested (events_of ops) -> dh_run dhelper_default ops = Some h -> (e = EStart n attrs \/ e = EEmpty n attrs) ->
  plain_dynamic d -> clear_instance (enclosing (events_of ops)) n attrs d ->
  (forall y, ~ denoted charref (enclosing (events_of ops)) n attrs d (t_ns d, t_name d) y) ->
  de_init (dyn_deser types d) h e = Ok (DOut ANone (DBreak e) false, h).
Proof.
  intros charref V D types d ops h e n attrs HW HR HE HP HC HN.
  assert (C : choose d (d_res h) n attrs = None).
  { destruct (choose d (d_res h) n attrs) as [y|] eqn:C; [|reflexivity]. exfalso. apply (HN y). eapply choose_exact; eauto. }
  destruct HE as [-> | ->]; cbn [dyn_deser de_init dyn_init]; rewrite C; reflexivity.
Qed.
Print Assumptions C86_other_partial.

(** The value has the type that was chosen. *)
Theorem C86_type_kept : forall V D (types : nat -> deser V D) d s h,
  (forall e o h', de_next (dyn_deser types d) s h e = Ok (o, h') ->
     (forall v, o_art o = AData v -> bx_type v = bx_type s) /\ (forall s', o_art o = ADes s' -> bx_type s' = bx_type s)) /\
  (forall v h', de_finish (dyn_deser types d) s h = Ok (v, h') -> bx_type v = bx_type s).
Proof.
  intros V D types d s h. split.
  - intros e o h'. cbn. unfold dyn_next, box_out. destruct (de_next _ _ _ _) as [[o0 h0]|k|]; try discriminate.
    intros E. injection E as <- _. cbn. destruct (o_art o0); split; intros x X; try discriminate; injection X as <-; reflexivity.
  - intros v h'. cbn. unfold dyn_finish. destruct (de_finish _ _ _) as [[v0 h0]|k|]; try discriminate.
    intros E. injection E as <- _. reflexivity.
Qed.
Print Assumptions C86_type_kept.

(** What is written is read by the type of the value again. *)
Theorem C86_written_partial : forall V S (mk : nat -> V -> option bytes -> bool -> outcome kind S) next own U D
  (types : nat -> deser U D) d v name root s h e s' h' ops dh,
  writes_tag mk next own -> dyn_serializer mk d v name root = Ok s -> dser_next next s h = (Some (Ok e), s', h') ->
  well_nested (events_of (ops ++ [DEvent e])) -> dh_run dhelper_default (ops ++ [DEvent e]) = Some dh ->
  plain_dynamic d -> plain_tags own (enclosing (events_of (ops ++ [DEvent e]))) d name ->
  (exists y, In y (t_entries d) /\ y_kind y <> DynOther /\ y_target y = bx_type v) ->
  read_by types d dh e (bx_type v).
Proof.
  intros V S mk next own U D types d v name root s h e s' h' ops dh HM HS HN HW HR HP HT HY.
  exact (written mk next own HM types (fun _ => None) d v name root s h e s' h' ops dh HS HN HW HR HP HT HY).
Qed.
Print Assumptions C86_written_partial.

(** ** Cases *)

(** Animals: the type itself, dogs, and the element [cat] of its substitution group. *)
Definition animal := DEntry DynType (Some "urn:z") "animal" 0 0 true "z:animal".
Definition dog := DEntry DynType (Some "urn:z") "dog" 1 1 false "z:dog".
Definition cat := DEntry DynElement (Some "urn:z") "cat" 2 2 false "z:cat".
Definition zoo := DType (Some "urn:z") "animal" "z:animal" [animal; dog; cat].
(** Inside of [<z:r xmlns:z="urn:z" xmlns:xsi="..">]. *)
Definition zoo_ops (e : event) : list dop :=
  [DEvent (EStart "z:r" [("xmlns:z", "urn:z"); ("xmlns:xsi", XSI_NS)])] ++ [DEvent e].
Definition zoo_els (e : event) := enclosing (events_of (zoo_ops e)).
Definition inside (e : event) : dhelper :=
  match dh_run dhelper_default (zoo_ops e) with Some h => h | None => dhelper_default end.
(** The deserializer of the type [k] returns [k]. *)
Definition kinds (k : nat) : deser nat unit :=
  Deser (fun h _ => Ok (DOut (AData k) DNone false, h)) (fun _ h _ => Ok (DOut (AData k) DNone false, h)) (fun _ h => Ok (k, h)).

Lemma zoo_nested n a : well_nested (events_of (zoo_ops (EStart n a))) /\ well_nested (events_of (zoo_ops (EEmpty n a))).
Proof.
  split; intros q s E; cbn in E; repeat (destruct q as [|x q]; [reflexivity|injection E as <- E]);
    symmetry in E; apply app_eq_nil in E; destruct E as [-> _]; reflexivity.
Qed.

Lemma zoo_plain : plain_dynamic zoo.
Proof.
  split; [reflexivity|]. split.
  { intros y [<-|[<-|[<-|[]]]]; reflexivity. }
  split.
  { intros y z [<-|[<-|[<-|[]]]] [<-|[<-|[<-|[]]]]; cbn; congruence. }
  split.
  { intros b y a z E K C I. destruct b as [|w b]; [destruct I|]. injection E as <- E.
    destruct b as [|w b]; [injection E as <- <-; discriminate C|]. injection E as <- E.
    destruct b as [|w b]; [injection E as <- <-; discriminate C|]. injection E as <- E.
    destruct b; discriminate. }
  intros y z [<-|[<-|[<-|[]]]] [<-|[<-|[<-|[]]]]; cbn; congruence.
Qed.

Ltac names := unfold expanded, clear_name;
  cbn [y_target y_ns y_name t_ns t_name t_tag animal dog cat zoo];
  repeat match goal with
  | |- context [split_colon ?x] => let y := eval vm_compute in (split_colon x) in change (split_colon x) with y; cbv iota beta
  | |- exists ns, stands_for _ _ ns /\ _ => eexists; split; [right; split; [discriminate|split; [discriminate|split; [reflexivity|discriminate]]]|reflexivity]
  | |- _ <> _ => discriminate
  end.
Lemma self_trimmed s : trim_ascii s = s -> trimmed_of s s.
Proof. intros E. rewrite <- E at 2. apply trim_ascii_spec. Qed.

(** [<z:animal xsi:type="z:dog" id="1">] is a dog, [<z:animal>] an animal, [<z:cat>] a cat. *)
Definition a_dog := EStart "z:animal" [("xsi:type", "z:dog"); ("id", "1")].
Example C86_read_dog : forall charref,
  clear_instance (zoo_els a_dog) "z:animal" [("xsi:type", "z:dog"); ("id", "1")] zoo /\
  denoted charref (zoo_els a_dog) "z:animal" [("xsi:type", "z:dog"); ("id", "1")] zoo (Some "urn:z", "animal") dog /\
  de_init (dyn_deser kinds zoo) (inside a_dog) a_dog = Ok (DOut (AData (Boxed 1 1)) DNone false, inside a_dog) /\
  de_init (dyn_deser kinds zoo) (inside a_dog) (EEmpty "z:animal" []) = Ok (DOut (AData (Boxed 0 0)) DNone false, inside a_dog) /\
  de_init (dyn_deser kinds zoo) (inside a_dog) (EEmpty "z:cat" []) = Ok (DOut (AData (Boxed 2 2)) DNone false, inside a_dog) /\
  de_init (dyn_deser kinds zoo) (inside a_dog) (EEmpty "z:dog" []) =
    Ok (DOut ANone (DBreak (EEmpty "z:dog" [])) false, inside a_dog).
Proof.
  intros charref. 
  assert (X : xsi_type_attribute (zoo_els a_dog) ("xsi:type", "z:dog")).
  { exists "xsi". split; [reflexivity|]. right. repeat split; discriminate. }
  assert (Y : ~ xsi_type_attribute (zoo_els a_dog) ("id", "1")) by (intros (p & E & _); discriminate).
  assert (T : trimmed_of "z:dog" "z:dog") by (apply self_trimmed; reflexivity).
  split; [|split; [|repeat split; vm_compute; reflexivity]].
  - split; [names|]. unfold clear_attributes. split; [|split; [|split; [|split]]].
    + cbn. repeat constructor; cbn; intuition discriminate.
    + cbn. intuition discriminate.
    + intros a [<-|[<-|[]]] p l E ->; cbn in E; congruence.
    + intros a b [<-|[<-|[]]] [<-|[<-|[]]]; congruence.
    + intros a [<-|[<-|[]]] A; [|contradiction]. split; [cbn; intuition discriminate|]. split; [exact T|names].
  - left. split; [cbn; auto|]. split; [reflexivity|]. split; [names|]. left.
    exists ("xsi:type", "z:dog"), "z:dog", "z:dog". split; [left; reflexivity|]. split; [exact X|].
    split; [reflexivity|]. split; [exact T|names].
Qed.

(** Writing: every value writes one empty tag. *)
Definition own_tag (k : nat) : bytes := match k with 0 => "z:animal" | 1 => "z:dog" | _ => "z:pet" end.
Definition one_tag (k : nat) (v : unit) (name : option bytes) (root : bool) : outcome kind (option bytes) :=
  Ok (Some (match name with Some n => n | None => own_tag k end)).
Definition one_next : ser_next (option bytes) := fun s h =>
  match s with Some n => (Some (Ok (EEmpty n [("id", "1")])), None, h) | None => (None, None, h) end.
Definition first_event (d : dtype) (k : nat) (name : option bytes) : option event :=
  match dyn_serializer one_tag d (Boxed k tt) name false with
  | Ok s => match dser_next one_next s helper_default with (Some (Ok e), _, _) => Some e | _ => None end
  | _ => None
  end.
Example C86_written_ex :
  writes_tag one_tag one_next own_tag /\
  first_event zoo 0 None = Some (EEmpty "z:animal" [("id", "1")]) /\
  first_event zoo 1 None = Some (EEmpty "z:animal" [("xsi:type", "z:dog"); ("id", "1")]) /\
  first_event zoo 2 None = Some (EEmpty "z:cat" [("id", "1")]) /\
  plain_tags own_tag (zoo_els (EEmpty "z:animal" [("xsi:type", "z:dog"); ("id", "1")])) zoo None.
Proof.
  split; [|split; [reflexivity|split; [reflexivity|split; [reflexivity|]]]].
  - intros ty x name root s E h e s' h' N. injection E as <-. cbn in N. injection N as <- _ _. exists [("id", "1")].
    split; [right; reflexivity|]. split; [repeat constructor; cbn; auto|]. intros k [<-|[]]. split; [discriminate|]. cbn. discriminate.
  - split; [right; repeat split; discriminate|]. split.
    { intros y z [<-|[<-|[<-|[]]]] [<-|[<-|[<-|[]]]]; cbn; congruence. }
    split; [split; names|]. intros y [<-|[<-|[<-|[]]]]; cbn [y_kind animal dog cat].
    + split; [split; reflexivity|]. split; [split; names|]. split; [intros _; names|].
      split; [cbn; intuition discriminate|apply self_trimmed; reflexivity].
    + split; [split; discriminate|]. split; [split; names|]. split; [discriminate|].
      split; [cbn; intuition discriminate|apply self_trimmed; reflexivity].
    + split; [split; names|]. discriminate.
Qed.

(** ** Where it is false *)

(** [<element name="pet" type="z:animal"/>]: the element is not read, it is an error. *)
Definition a_pet := EStart "z:pet" [("xsi:type", "z:dog")].
Theorem C86_element_name_refuted : forall charref V D (types : nat -> deser V D) text_blank,
  denoted charref (zoo_els a_pet) "z:pet" [("xsi:type", "z:dog")] zoo (Some "urn:z", "pet") dog /\
  de_init (dyn_deser types zoo) (inside a_pet) a_pet = Ok (DOut ANone (DBreak a_pet) false, inside a_pet) /\
  driver_step (dyn_deser types zoo) text_blank
    (Driver (inside (EStart "z:q" [])) None None) a_pet = Err (KUnexpectedEvent a_pet).
Proof.
  intros charref V D types text_blank. split; [|split; reflexivity].
  left. split; [cbn; auto|]. split; [reflexivity|]. split; [names|]. left.
  exists ("xsi:type", "z:dog"), "z:dog", "z:dog". split; [left; reflexivity|].
  split; [exists "xsi"; split; [reflexivity|]; right; repeat split; discriminate|].
  split; [reflexivity|]. split; [apply self_trimmed; reflexivity|names].
Qed.
Print Assumptions C86_element_name_refuted.

(** If such a value is written with the name of its element, an animal gets the name of its type. *)
Theorem C86_written_name_refuted : forall V S (mk : nat -> V -> option bytes -> bool -> outcome kind S) v name root,
  dyn_serializer mk zoo (Boxed 0 v) name root = plain_ser (mk 0 v None root) /\
  first_event zoo 0 (Some "z:pet") = Some (EEmpty "z:animal" [("id", "1")]) /\
  first_event zoo 1 (Some "z:pet") = Some (EEmpty "z:pet" [("xsi:type", "z:dog"); ("id", "1")]).
Proof. intros. repeat split; reflexivity. Qed.
Print Assumptions C86_written_name_refuted.

(** [<z:animal type="z:dog">]: an attribute called [type] that has no namespace is taken for
    [xsi:type]. *)
Definition typed := EStart "z:animal" [("type", "z:dog")].
Theorem C86_type_attribute_refuted : forall charref V D (types : nat -> deser V D),
  denoted charref (zoo_els typed) "z:animal" [("type", "z:dog")] zoo (Some "urn:z", "animal") animal /\
  read_by types zoo (inside typed) typed 1.
Proof.
  intros charref V D types. split; [|reflexivity].
  left. split; [cbn; auto|]. split; [reflexivity|]. split; [names|]. right. split; [|reflexivity].
  intros a [<-|[]] (p & E & _). discriminate.
Qed.
Print Assumptions C86_type_attribute_refuted.

(** Blanks around the name of the type, and references in it, are not removed. *)
Definition blank_dog (v : bytes) := EStart "z:animal" [("xsi:type", v)].
Theorem C86_value_refuted : forall charref V D (types : nat -> deser V D) v,
  charref "111" = Some "o" -> v = " z:dog" \/ v = "z:d&#111;g" ->
  denoted charref (zoo_els (blank_dog v)) "z:animal" [("xsi:type", v)] zoo (Some "urn:z", "animal") dog /\
  de_init (dyn_deser types zoo) (inside (blank_dog v)) (blank_dog v) =
    Ok (DOut ANone (DBreak (blank_dog v)) false, inside (blank_dog v)).
Proof.
  intros charref V D types v CR Hv. split; [|destruct Hv as [-> | ->]; reflexivity].
  assert (T : exists t, unescape charref v = Some t /\ trimmed_of t "z:dog").
  { destruct Hv as [-> | ->].
    - exists " z:dog". split; [reflexivity|]. exact (trim_ascii_spec " z:dog").
    - exists "z:dog". split; [unfold unescape; cbn; rewrite CR; reflexivity|apply self_trimmed; reflexivity]. }
  destruct T as (t & T1 & T2).
  left. split; [cbn; auto|]. split; [reflexivity|]. split; [names|]. left. exists ("xsi:type", v), t, "z:dog".
  split; [left; reflexivity|]. split; [exists "xsi"; split; [reflexivity|]; right; repeat split; discriminate|].
  split; [exact T1|]. split; [exact T2|names].
Qed.
Print Assumptions C86_value_refuted.

(** A type without prefix is found in every namespace: [xsi:type="dog"] where there is no
    default namespace. *)
Definition bare_dog := EStart "z:animal" [("xsi:type", "dog")].
Theorem C86_unprefixed_refuted : forall charref V D (types : nat -> deser V D),
  (forall y, ~ denoted charref (zoo_els bare_dog) "z:animal" [("xsi:type", "dog")] zoo (Some "urn:z", "animal") y) /\
  read_by types zoo (inside bare_dog) bare_dog 1.
Proof.
  intros charref V D types. split; [|reflexivity].
  assert (X : xsi_type_attribute (zoo_els bare_dog) ("xsi:type", "dog")).
  { exists "xsi". split; [reflexivity|]. right. repeat split; discriminate. }
  intros y [(I & K & _ & [(a & t & v & [<-|[]] & _ & Un & Tr & Ex)|[NS _]])|(_ & I & K & Ex)].
  - cbn in Un. injection Un as <-. assert (v = "dog").
    { apply (trimmed_self "dog" v); [apply self_trimmed; reflexivity|exact Tr]. }
    subst v. cbn in Ex. destruct Ex as [(ns & [B _] & _)|[_ Ex]]; [discriminate B|].
    destruct I as [<-|[<-|[<-|[]]]]; discriminate.
  - exact (NS _ (or_introl eq_refl) X).
  - destruct I as [<-|[<-|[<-|[]]]]; try discriminate. cbn in Ex. destruct Ex as (ns & _ & E). discriminate.
Qed.
Print Assumptions C86_unprefixed_refuted.

(** Two elements of a substitution group with the same type: what was read from the second is
    written with the name of the first. *)
Definition pets := DType (Some "urn:z") "pet" "z:pet"
  [DEntry DynElement (Some "urn:z") "pet" 0 0 true "z:pet"; DEntry DynElement (Some "urn:z") "dog" 1 2 false "z:dog";
   DEntry DynElement (Some "urn:z") "cat" 2 2 false "z:cat"].
Theorem C86_same_type_refuted :
  de_init (dyn_deser kinds pets) (inside typed) (EEmpty "z:cat" [("id", "1")]) =
    Ok (DOut (AData (Boxed 2 2)) DNone false, inside typed) /\
  first_event pets 2 None = Some (EEmpty "z:dog" [("id", "1")]).
Proof. split; vm_compute; reflexivity. Qed.
Print Assumptions C86_same_type_refuted.

(** Text where an element with a dynamic type is expected is dropped, whatever it is. *)
Theorem C86_text_refuted : forall V D (types : nat -> deser V D) d text_blank h t, dh_pop h = h ->
  driver_step (dyn_deser types d) text_blank (Driver h None None) (EText t) = Ok (None, Driver h None None).
Proof. intros V D types d text_blank h t P. unfold driver_step, dh_event. cbn [v_helper]. rewrite P. reflexivity. Qed.
Print Assumptions C86_text_refuted.

(** C78: the namespaces that are declared at the root element. *)
From Verif Require Import CollectModel CollectSpec CollectProofs.

(** The serializers of a list of types are generated if all types that they mention,
    directly or not, are defined; otherwise the generator panics. *)
Theorem C78_total : forall nillable ts default_ns tys,
  ((exists r, collect nillable ts default_ns tys = CDone r) <-> forall ty, In ty tys -> complete ts ty) /\
  (collect nillable ts default_ns tys = CPanic <-> exists ty, In ty tys /\ ~ complete ts ty) /\
  collect nillable ts default_ns tys <> CMore.
Proof.
  intros nillable ts d tys. destruct (collected nillable ts d tys) as [(r & -> & C & _)|(-> & ty & I & N)].
  - split; [split; [auto|eauto]|]. split; [split; [discriminate|]|discriminate]. intros (ty & I & N). now destruct (N (C ty I)).
  - split; [split; [intros (r & H); discriminate|]|split; [split; eauto|discriminate]]. intros H. now destruct (N (H ty I)).
Qed.
Print Assumptions C78_total.

(** The first type that is rendered gets each declaration that its documents need once,
    and no other. *)
Theorem C78_first : forall nillable ts default_ns ty tys l r,
  collect nillable ts default_ns (ty :: tys) = CDone (l :: r) ->
  NoDup l /\ forall key, In key l <-> needed nillable ts default_ns ty key.
Proof.
  intros nillable ts d ty tys l r E. destruct (collected nillable ts d (ty :: tys)) as [(r' & E' & _ & F & H)|(E' & _)]; rewrite E in E'; [|discriminate].
  injection E' as <-. inversion F as [|? ? ? ? (N & S & _) _]; subst. split; [exact N|]. intros k. split; auto.
Qed.
Print Assumptions C78_first.

(** In any order of rendering, each type gets declarations that its documents need, none
    twice; and it gets all of them if none of its parts contains itself.  [_partial]: for
    recursive types, only the first type that is rendered gets all. *)
Theorem C78_every_partial : forall nillable ts default_ns tys r,
  collect nillable ts default_ns tys = CDone r ->
  Forall2 (fun ty l => NoDup l /\ (forall key, In key l -> needed nillable ts default_ns ty key) /\
    ((forall part, reaches ts ty part -> ~ recursive ts part) -> forall key, needed nillable ts default_ns ty key -> In key l)) tys r.
Proof.
  intros nillable ts d tys r E. destruct (collected nillable ts d tys) as [(r' & E' & _ & F & _)|(E' & _)]; rewrite E in E'; [|discriminate].
  injection E' as <-. exact F.
Qed.
Print Assumptions C78_every_partial.

(** A library of two schemas: a catalog (1) with entries (2, 3) and, from the other
    schema, prices (4) with a qualified attribute, and nillable notes. *)
Definition library_modules : list (nat * module_meta) :=
  [(10, ModuleMeta (Some "xs") None (Some "http://www.w3.org/2001/XMLSchema")); (11, ModuleMeta (Some "xsi") None (Some xsi_ns));
   (12, ModuleMeta (Some "lib") None (Some "urn:lib")); (13, ModuleMeta None (Some "p") (Some "urn:price"))]%string.
Definition library : mtypes := MTypes
  [(0, MType 10 false MBuildIn);
   (1, MType 12 true (MComplex (Some 2) []));
   (2, MType 12 true (MGroup GSequence [Element (Some 3) false false (Some 12)]));
   (3, MType 12 true (MGroup GSequence [Element (Some 0) true false (Some 12); Element (Some 4) false false (Some 12)]));
   (4, MType 13 true (MComplex (Some 0) [Attribute true 13; Attribute false 13]))]
  library_modules.

Example C78_case :
  collect true library (Some "urn:lib"%string) [1; 4; 3; 2] =
    CDone [[KNormal 11; KNormal 13; KDefault 12]; [KNormal 13]; [KNormal 11; KNormal 13; KDefault 12]; [KNormal 11; KNormal 13; KDefault 12]] /\
  (forall part, reaches library 1 part -> ~ recursive library part).
Proof.
  split; [vm_compute; reflexivity|].
  assert (M : forall a b, mentions library a b -> a = 1 /\ b = 2 \/ a = 2 /\ b = 3 \/ a = 3 /\ (b = 0 \/ b = 4) \/ a = 4 /\ b = 0).
  { intros a b (t & G & I). do 5 (destruct a as [|a]; [injection G as <-; cbn in I; try contradiction;
      try (injection I as <-); try (destruct I as (e & I & E); cbn in I; repeat (destruct I as [<-|I]; [cbn in E; injection E as <-|]); try contradiction); tauto|]). discriminate. }
  assert (R : forall a b, reaches library a b -> a = b \/ (a = 1 /\ 2 <= b \/ a = 1 /\ b = 0) \/ (a = 2 /\ (3 <= b \/ b = 0)) \/ (a = 3 /\ (4 <= b \/ b = 0)) \/ (a = 4 /\ b = 0)).
  { intros a b L. induction L as [a|a b c Hm L IH]; [auto|]. apply M in Hm. lia. }
  intros part _ (b & Hm & L). apply M in Hm. apply R in L. lia.
Qed.

(** The same types, with entries that contain catalogs. *)
Definition nested_library : mtypes := MTypes
  [(0, MType 10 false MBuildIn);
   (1, MType 12 true (MGroup GSequence [Element (Some 2) false false (Some 12); Element (Some 4) false false (Some 12)]));
   (2, MType 12 true (MGroup GSequence [Element (Some 1) false false (Some 12)]));
   (4, MType 13 true (MComplex (Some 0) [Attribute true 13]))]
  library_modules.

(** Types that contain each other get declarations that depend on the order in which
    they are rendered: behind the other one, a type misses namespaces of its parts. *)
Theorem C78_recursive_refuted : exists first second key,
  collect false nested_library None [1; 2] = CDone [first; second] /\ needed false nested_library None 2 key /\ ~ In key second /\
  exists l, collect false nested_library None [2] = CDone [l] /\ In key l.
Proof.
  exists [KNormal 12; KNormal 13], [KNormal 12], (KNormal 13). split; [vm_compute; reflexivity|]. split.
  { split; [do 2 eexists; repeat split; right; discriminate|]. exists 4. eexists. split; [|split; [reflexivity|]].
    - apply (reaches_next _ 2 1); [eexists; split; [reflexivity|]; cbn; eexists; split; [now left|reflexivity]|].
      apply (reaches_next _ 1 4); [eexists; split; [reflexivity|]; cbn; eexists; split; [right; now left|reflexivity]|]. constructor.
    - apply (calls_attribute _ _ _ _ (Some 0) [Attribute true 13] (Attribute true 13)); [reflexivity|now left|reflexivity]. }
  split; [intros [[=]|[]]|]. eexists. split; [vm_compute; reflexivity|]. vm_compute. tauto.
Qed.
Print Assumptions C78_recursive_refuted.

(** Namespaces of elements are not looked at: an entry of the qualified library contains
    an element of another schema, of a type of a schema with unqualified elements; its
    namespace is not declared. *)
Definition plain_price : mtypes := MTypes
  [(0, MType 10 false MBuildIn); (1, MType 12 true (MGroup GSequence [Element (Some 4) false false (Some 13)])); (4, MType 13 false (MReference 0 false))]
  library_modules.
Theorem C78_elements_refuted : exists l e n,
  collect false plain_price None [1] = CDone [l] /\
  get 1 (ts_items plain_price) = Some (MType 12 true (MGroup GSequence [e])) /\ el_tag_ns e = Some n /\
  declarable plain_price (KNormal n) /\ ~ In (KNormal n) l /\ ~ In (KDefault n) l.
Proof.
  exists [KNormal 12], (Element (Some 4) false false (Some 13)), 13. split; [vm_compute; reflexivity|]. split; [reflexivity|]. split; [reflexivity|].
  split; [do 2 eexists; repeat split; right; discriminate|]. split; intros [[=]|[]].
Qed.
Print Assumptions C78_elements_refuted.

(** Two namespaces are declared as the default namespace if custom types name them by
    their identifiers. *)
Theorem C78_default_refuted : exists ts l a b, a <> b /\ collect false ts None [1] = CDone [l] /\ In (KDefault a) l /\ In (KDefault b) l.
Proof.
  exists (MTypes [(1, MType 12 false (MUnion [2; 3])); (2, MType 12 false (MCustom [CId 12])); (3, MType 12 false (MCustom [CId 13]))] library_modules).
  eexists. exists 12, 13. split; [discriminate|]. split; [vm_compute; reflexivity|]. cbn. tauto.
Qed.
Print Assumptions C78_default_refuted.

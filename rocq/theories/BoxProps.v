(** Generated types have a finite size (C60); the generated code is closed (C61). *)
From Verif Require Import BoxSpec BoxProofs.
Local Open Scope string_scope.
Local Open Scope list_scope.

(** C60: no type contains itself through elements, if the types of the cycle can be read,
    from one of them on, as at most two stretches that each follow the order in which the
    types were generated.  Missing: other cycles, and cycles through references, unions
    and enumerations (C60_finite_refuted, C60_reference_refuted). *)
Theorem C60_finite_partial : forall ts flags mentions fixed calls out first second,
  generate ts flags mentions fixed calls = Ok out ->
  within first (map fst out) -> within second (map fst out) ->
  ~ cycle (keeps_element out) (first ++ second).
Proof. exact no_two_runs. Qed.
Print Assumptions C60_finite_partial.

(** C60: whatever the order, there is no such cycle of up to three types. *)
Theorem C60_short_partial : forall ts flags mentions fixed calls out l,
  generate ts flags mentions fixed calls = Ok out -> length l <= 3 -> ~ cycle (keeps_element out) l.
Proof. exact no_short. Qed.
Print Assumptions C60_short_partial.

Definition named_ (s : string) : tident := TIdent 2 1 (Named s) ITType.
Definition content_ (s : string) : tident := TIdent 2 1 (Generated s) ITType.
Definition element_ (s : string) : tident := TIdent 2 1 (Named s) ITElement.
Definition one (s : string) (t : tident) : element_meta :=
  ElementMeta (PIdent 2 (Named s)) (EVType t ModeElement) Qualified 0 1 (Bounded 1) None [].
Definition struct_ (s : string) (l : list (string * tident)) : types :=
  [ (named_ s, mtype_new (VComplex (ComplexMeta BaseNone (Some (content_ s)) 1 (Bounded 1) false false [])))
  ; (content_ s, mtype_new (VSequence (GroupMeta false (map (fun p => one (fst p) (snd p)) l)))) ].
Definition no_flags := BoxFlags false false.

(** C60 fails: four complex types, each with one element of the next type,
    a -> d -> c -> b -> a, all kept in place. *)
Definition four : types :=
  struct_ "a" [("x", named_ "d")] ++ struct_ "b" [("x", named_ "a")] ++
  struct_ "c" [("x", named_ "b")] ++ struct_ "d" [("x", named_ "c")].
Theorem C60_finite_refuted :
  exists out, generate four no_flags (fun _ => []) [] [named_types four] = Ok out /\
  cycle (keeps_element out) [named_ "a"; named_ "d"; named_ "c"; named_ "b"] /\ ~ finite_sizes out.
Proof.
  eexists. split; [vm_compute; reflexivity|].
  match goal with |- ?P /\ _ => assert (H : P) end.
  { cbn. repeat split; (eexists; eexists; split; [cbn; eauto 6|]; cbn; eauto). }
  split; [exact H|]. intros F. apply (F [named_ "a"; named_ "d"; named_ "c"; named_ "b"]).
  revert H. generalize ([named_ "a"; named_ "d"; named_ "c"; named_ "b"]). intros l.
  destruct l as [|a l]; [auto|]. apply chain_mono.
  intros x y _ (fs & f & I & J & T & K & _). exists fs, f. auto.
Qed.
Print Assumptions C60_finite_refuted.

(** C60 fails: a type that contains a reference to a global element of this type, if
    the generation starts with the type. *)
Definition tree : types :=
  struct_ "tree" [("branch", element_ "branch")] ++
  [ (element_ "branch", mtype_new (VReference (ref_new (named_ "tree")))) ].
Theorem C60_reference_refuted :
  exists out, generate tree no_flags (fun _ => []) [] [[named_ "tree"]] = Ok out /\ ~ finite_sizes out.
Proof.
  eexists. split; [vm_compute; reflexivity|].
  intros F. apply (F [named_ "tree"; element_ "branch"]). cbn.
  split; (eexists; eexists; split; [cbn; eauto|]; cbn; eauto).
Qed.
Print Assumptions C60_reference_refuted.

(** The same types, all of them generated: the element is boxed.  A list of three types
    and a type within itself are broken up, too. *)
Example C60_case_reference :
  generate tree no_flags (fun _ => []) [] [map fst tree] =
  Ok [ (named_ "tree", [Field (element_ "branch") false true])
     ; (content_ "tree", [Field (element_ "branch") true true])
     ; (element_ "branch", [Field (named_ "tree") true false]) ].
Proof. vm_compute. reflexivity. Qed.
Example C60_case :
  generate (struct_ "a" [("x", named_ "b"); ("y", named_ "a")] ++ struct_ "b" [("x", named_ "c")] ++
            struct_ "c" [("x", named_ "a")]) no_flags (fun _ => []) []
    [[named_ "b"]; [named_ "a"; named_ "c"]] =
  Ok [ (named_ "b", [Field (named_ "c") true true]); (named_ "c", [Field (named_ "a") true true])
     ; (named_ "a", [Field (named_ "b") false true; Field (named_ "a") false true]) ].
Proof. vm_compute. reflexivity. Qed.

(** C60: an element is never kept in place if its type leads back: if the type is one of
    those that contain the type under construction, or if one of its alternatives is,
    through references, unions and variants, all of them asked for already. *)
Theorem C60_boxed : forall ts flags mentions g i g' done fs f,
  generate_intern ts flags mentions g i = Ok g' -> g_done g' = done ++ [(i, fs)] ->
  In f fs -> f_element f = true ->
  leads ts (fun t => lookup t (g_cache g) <> None) (get_reachable g i) (f_target f) -> f_inline f = false.
Proof.
  intros ts flags mentions g i g' done fs f G D I E L. eapply intern_boxed; eauto.
  eapply leads_mono; [|exact L]. cbn. intros t. unfold is_cached. destruct (lookup t (g_cache g)); congruence.
Qed.
Print Assumptions C60_boxed.

(** A type whose element is a union that contains the type again, all types queued. *)
Definition union_tree : types :=
  struct_ "tree" [("branch", named_ "either")] ++
  [ (named_ "either", mtype_new (VUnion (UnionMeta BaseNone [UType (named_ "leaf") None; UType (named_ "tree") None] no_constrains)))
  ; (named_ "leaf", mtype_new (VBuildIn BString)) ].
Definition union_queued : gen :=
  Gen [(named_ "tree", []); (named_ "either", []); (named_ "leaf", [])] [named_ "either"; named_ "leaf"] [].
Example C60_boxed_case :
  (exists g', generate_intern union_tree no_flags (fun _ => []) union_queued (named_ "tree") = Ok g' /\
     g_done g' = [] ++ [(named_ "tree", [Field (named_ "either") false true])]) /\
  leads union_tree (fun t => lookup t (g_cache union_queued) <> None) (get_reachable union_queued (named_ "tree"))
    (named_ "either").
Proof.
  split.
  - eexists. vm_compute. split; reflexivity.
  - eapply leads_union; [reflexivity|vm_compute; discriminate|reflexivity|right; left; reflexivity|].
    apply leads_here; [vm_compute; discriminate..|]. vm_compute. auto.
Qed.

(** C61: every type is generated once, every type that is asked for or that the code names
    is generated or supplied by the user, no supplied type is generated, and only types
    that exist and that somebody asked for or names are. *)
Theorem C61_once : forall ts flags mentions fixed calls out,
  generate ts flags mentions fixed calls = Ok out -> NoDup (map fst out).
Proof. exact gen_nodup. Qed.
Print Assumptions C61_once.

Theorem C61_closed : forall ts flags mentions fixed calls out,
  generate ts flags mentions fixed calls = Ok out ->
  (forall a b, names out a b -> In b (map fst out) \/ In b fixed) /\
  (forall i, In i (concat calls) -> In i (map fst out) \/ In i fixed) /\
  (forall i, In i fixed -> ~ In i (map fst out)) /\
  (forall i, In i (map fst out) -> lookup i ts <> None /\ (In i (concat calls) \/ exists a, names out a i)).
Proof. exact generate_closed. Qed.
Print Assumptions C61_closed.

(** C61: the code of a type names exactly the types its definition refers to, and those
    whose values it mentions. *)
Theorem C61_faithful : forall ts flags mentions fixed calls out a ty,
  generate ts flags mentions fixed calls = Ok out -> In a (map fst out) -> lookup a ts = Some ty ->
  forall b, names out a b <-> In b (mentions a) \/ refers ts (m_variant ty) b.
Proof. exact generate_faithful. Qed.
Print Assumptions C61_faithful.

(** C61: the generator ends: it neither queues types without end nor follows references
    without end. *)
Theorem C61_ends : forall ts flags mentions fixed calls, generate ts flags mentions fixed calls <> Panic.
Proof. exact generate_ends. Qed.
Print Assumptions C61_ends.

Example C61_case :
  generate (struct_ "a" [("x", named_ "b"); ("y", named_ "c")] ++ struct_ "b" [("x", named_ "c")]) no_flags
    (fun _ => []) [named_ "c"] [[named_ "a"]] =
  Ok [ (named_ "a", [Field (named_ "b") true true; Field (named_ "c") true true])
     ; (named_ "b", [Field (named_ "c") true true]) ].
Proof. vm_compute. reflexivity. Qed.
Example C61_case_unknown :
  generate (struct_ "a" [("x", named_ "b")]) no_flags (fun _ => []) [] [[named_ "a"]] = Err (UnknownType (named_ "b")).
Proof. vm_compute. reflexivity. Qed.
Example C61_faithful_case :
  refers (struct_ "a" [("x", named_ "b")])
    (VComplex (ComplexMeta BaseNone (Some (content_ "a")) 1 (Bounded 1) false false
       [AttrMeta (PIdent 2 (Named "k")) (AVType (named_ "c")) UseOptional Unqualified None None [] None])) (named_ "b") /\
  refers (struct_ "a" [("x", named_ "b")])
    (VComplex (ComplexMeta BaseNone (Some (content_ "a")) 1 (Bounded 1) false false
       [AttrMeta (PIdent 2 (Named "k")) (AVType (named_ "c")) UseOptional Unqualified None None [] None])) (named_ "c").
Proof.
  split.
  - eapply refers_element; [left; reflexivity|left; discriminate|reflexivity].
  - eapply refers_attribute; [left; reflexivity|discriminate|reflexivity].
Qed.

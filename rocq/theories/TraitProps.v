(** C98: the generated types implement the traits of the dynamic types they are derived
    from. *)
From Verif Require Import TraitModel TraitSpec TraitProofs.
Local Open Scope string_scope.
Local Open Scope list_scope.

(** The generator always comes to an end. *)
Theorem C98_ends : forall ts flags mentions fixed calls, trait_generate ts flags mentions fixed calls <> Panic.
Proof. intros. apply (calls_no_panic ts flags mentions fixed); [apply new_good|reflexivity]. Qed.
Print Assumptions C98_ends.

(** A type only implements traits of dynamic types it is derived from, each once, and that
    are generated, too; and its own trait only extends those of which it is a direct
    child. *)
Theorem C98_only : forall ts flags mentions fixed calls g, trait_generate ts flags mentions fixed calls = Ok g ->
  (forall d impls supers, In (d, (impls, supers)) (tg_done g) -> NoDup impls /\ NoDup supers) /\
  (forall d b, implements g d b -> own ts d /\ (exists m, derives ts b m /\ dt_type m = d) /\
     exists impls supers, In (b, (impls, supers)) (tg_done g)) /\
  (forall d b, subtrait g d b -> dynamic ts d /\ (exists m, derives ts b m /\ dt_type m = d /\ dt_rel m = RelDirect) /\
     ti_type b = ti_type d).
Proof.
  intros ts flags mentions fixed calls g E. destruct (run_good_any ts flags mentions fixed calls g E) as [G P].
  pose proof G as (reg & V & R & _ & D). split; [|split].
  - intros d bs ss I. destruct (D _ I) as ((s1 & r1 & _ & _ & _ & ->) & (s2 & r2 & _ & _ & _ & ->) & _).
    split; [destruct (has_impls _)|destruct (is_dynamic_type _ _)]; try constructor; apply entry_nodup.
  - intros d b (bs & ss & I & J). destruct (D _ I) as ((s1 & r1 & R1 & _ & _ & ->) & _).
    destruct (has_impls (type_of ts d)) eqn:O; [|destruct J]. apply entry_iff, impl_flat in J. destruct J as (J & M).
    split; [now apply own_impls|]. split; [exact M|]. 
    assert (K : In b reg) by (rewrite R1; apply in_app_iff; now left).
    rewrite R, P, app_nil_r in K. apply in_map_iff in K. destruct K as ([j [x y]] & <- & K). eauto.
  - intros d b (bs & ss & I & J). destruct (D _ I) as (_ & (s1 & r1 & R1 & _ & _ & ->) & _).
    destruct (is_dynamic_type ts d) eqn:O; [|destruct J]. apply entry_iff, derive_flat in J.
    destruct J as (J & m & M & T & Y & K & L). split; [exact Y|]. split; [eauto|exact K].
Qed.
Print Assumptions C98_only.

(** If a dynamic type is asked for in the first call (it always is with
    [generate_all_types], and with [generate_named_types] if it has a name), each of its
    derived types is generated and implements its trait; and the traits of derived dynamic
    types extend it.  [_partial]: for derived types that the generator defines, and for
    dynamic types of the first call. *)
Theorem C98_first_partial : forall ts flags mentions fixed first calls g b m,
  trait_generate ts flags mentions fixed (first :: calls) = Ok g ->
  In b first -> ~ In b fixed -> derives ts b m -> own ts (dt_type m) -> ~ In (dt_type m) fixed ->
  implements g (dt_type m) b /\
  (dynamic ts (dt_type m) -> ti_type b = ti_type (dt_type m) -> dt_rel m = RelDirect -> subtrait g (dt_type m) b).
Proof.
  intros ts flags mentions fixed first calls g b m E IB NB DM OW ND.
  destruct (run_good ts flags mentions fixed first calls g E) as [G P]. pose proof G as (reg & V & R & F & D).
  assert (FB : In b (filter (fun i => negb (contains i fixed)) first)).
  { apply filter_In. split; [exact IB|]. destruct (contains b fixed) eqn:X; [|reflexivity]. now apply contains_iff in X. }
  assert (CB : In b (tg_cache g)). { destruct V as (C & _). rewrite C. apply in_app_iff. right. now apply F. }
  destruct (finished_done ts flags mentions fixed _ g b G P CB NB) as (bs & ss & DB).
  assert (CD : In (dt_type m) (tg_cache g)). { destruct (D _ DB) as (_ & _ & A). apply A. now apply derived_asked. }
  destruct (finished_done ts flags mentions fixed _ g _ G P CD ND) as (bs' & ss' & DD).
  destruct (D _ DD) as ((s1 & r1 & R1 & I1 & F1 & B1) & (s2 & r2 & R2 & I2 & F2 & B2) & _). split.
  - exists bs', ss'. split; [exact DD|]. rewrite B1. apply own_impls in OW. rewrite OW. apply entry_iff, impl_flat. split; [now apply F1|eauto].
  - intros Y K L. exists bs', ss'. split; [exact DD|]. rewrite B2. pose proof Y as Y'. apply is_dynamic_iff in Y'. rewrite Y'.
    apply entry_iff, derive_flat. split; [now apply F2|]. exists m. auto.
Qed.
Print Assumptions C98_first_partial.

(** Nor does it matter if the dynamic type is asked for before its derived type, e.g. if
    only the dynamic type asks for it. *)
Theorem C98_before_partial : forall ts flags mentions fixed calls g b m,
  trait_generate ts flags mentions fixed calls = Ok g ->
  before g b (dt_type m) -> ~ In b fixed -> derives ts b m -> own ts (dt_type m) -> ~ In (dt_type m) fixed ->
  implements g (dt_type m) b /\
  (dynamic ts (dt_type m) -> ti_type b = ti_type (dt_type m) -> dt_rel m = RelDirect -> subtrait g (dt_type m) b).
Proof.
  intros ts flags mentions fixed calls g b m E BF NB DM OW ND.
  destruct (run_good_any ts flags mentions fixed calls g E) as [G P]. pose proof G as (reg & V & R & _ & D).
  assert (CD : In (dt_type m) (tg_cache g)).
  { destruct BF as (x & y & z & ->). apply in_app_iff. right. right. apply in_app_iff. right. now left. }
  destruct (finished_done ts flags mentions fixed _ g _ G P CD ND) as (bs' & ss' & DD).
  destruct (D _ DD) as ((s1 & r1 & R1 & I1 & F1 & B1) & (s2 & r2 & R2 & I2 & F2 & B2) & _). split.
  - exists bs', ss'. split; [exact DD|]. rewrite B1. apply own_impls in OW. rewrite OW. apply entry_iff, impl_flat.
    split; [|eauto]. eapply before_in; eassumption.
  - intros Y K L. exists bs', ss'. split; [exact DD|]. rewrite B2. pose proof Y as Y'. apply is_dynamic_iff in Y'. rewrite Y'.
    apply entry_iff, derive_flat. split; [|exists m; auto]. eapply before_in; eassumption.
Qed.
Print Assumptions C98_before_partial.

(** A zoo: animals, a direct child of them that is dynamic, too, and concrete types. *)
Definition ty_ (s : string) : tident := TIdent 2 1 (Named s) ITType.
Definition gn_ (s : string) : tident := TIdent 2 1 (Generated s) ITType.
Definition fld (s : string) (t : tident) : element_meta :=
  ElementMeta (PIdent 2 (Named s)) (EVType t ModeElement) Qualified 0 1 (Bounded 1) None [].
Definition rec_ (s : string) (l : list (string * tident)) : types :=
  [ (ty_ s, mtype_new (VComplex (ComplexMeta BaseNone (Some (gn_ s)) 1 (Bounded 1) false false [])))
  ; (gn_ s, mtype_new (VSequence (GroupMeta false (map (fun p => fld (fst p) (snd p)) l)))) ].
Definition dyn_ (s : string) (l : list (string * relationship)) : types :=
  [ (ty_ s, mtype_new (VDynamic (DynMeta None true (map (fun p => (ty_ (fst p), Derived (ty_ (fst p)) None (snd p))) l)))) ].
Definition zoo : types :=
  dyn_ "Animal" [("Bird", RelDirect); ("Duck", RelIndirect); ("Dog", RelDirect)] ++ dyn_ "Bird" [("Duck", RelDirect)] ++
  rec_ "Dog" [] ++ rec_ "Duck" [] ++ rec_ "Cage" [("inmate", ty_ "Animal")] ++
  rec_ "Shop" [("guard", ty_ "Dog"); ("cage", ty_ "Cage")].
Definition plain := BoxFlags false false.
Definition traits_of (g : outcome gen_error tgen) (i : tident) : option (list tident * list tident) :=
  match g with Ok g => lookup i (tg_done g) | _ => None end.

Example C98_case :
  let g := trait_generate zoo plain (fun _ => []) [] [all_types zoo] in
  traits_of g (ty_ "Duck") = Some ([ty_ "Animal"; ty_ "Bird"], []) /\ traits_of g (ty_ "Bird") = Some ([ty_ "Animal"], [ty_ "Animal"]) /\
  traits_of g (ty_ "Dog") = Some ([ty_ "Animal"], []) /\
  derives zoo (ty_ "Animal") (Derived (ty_ "Duck") None RelIndirect) /\ own zoo (ty_ "Duck").
Proof.
  cbv zeta. repeat (split; [vm_compute; reflexivity|]). split.
  - do 3 eexists. split; [vm_compute; reflexivity|]. split; [reflexivity|]. cbn. right. left. reflexivity.
  - eexists. split; [vm_compute; reflexivity|]. exact Logic.I.
Qed.
Example C98_case_before : exists g, trait_generate zoo plain (fun _ => []) [] [[ty_ "Cage"]] = Ok g /\
  before g (ty_ "Animal") (ty_ "Dog") /\ implements g (ty_ "Dog") (ty_ "Animal").
Proof.
  eexists. split; [vm_compute; reflexivity|]. split.
  - exists [ty_ "Cage"], [ty_ "Bird"; ty_ "Duck"], []. reflexivity.
  - do 2 eexists. split; [right; right; right; right; left; reflexivity|]. now left.
Qed.

(** If only one type is generated, a derived type may be generated before its base is
    asked for.  Then it does not implement its trait: the code does not compile. *)
Theorem C98_order_refuted : exists ts root g b m,
  trait_generate ts plain (fun _ => []) [] [[root]] = Ok g /\ derives ts b m /\ own ts (dt_type m) /\
  (exists impls supers, In (b, (impls, supers)) (tg_done g)) /\ ~ implements g (dt_type m) b.
Proof.
  exists zoo, (ty_ "Shop"). eexists. exists (ty_ "Animal"), (Derived (ty_ "Dog") None RelDirect).
  split; [vm_compute; reflexivity|]. split; [|split; [|split]].
  - do 3 eexists. split; [vm_compute; reflexivity|]. split; [reflexivity|]. cbn. right. right. left. reflexivity.
  - eexists. split; [vm_compute; reflexivity|]. exact Logic.I.
  - do 2 eexists. right. right. right. left. reflexivity.
  - intros (bs & ss & I & J). cbn in I. repeat (destruct I as [I|I]; [injection I; intros; subst; try discriminate; destruct J; fail || (try destruct J) |]); destruct I.
Qed.
Print Assumptions C98_order_refuted.

(** The same with two calls: first the derived type, then its base. *)
Theorem C98_calls_refuted : exists ts d b m g,
  trait_generate ts plain (fun _ => []) [] [[d]; [b]] = Ok g /\ derives ts b m /\ dt_type m = d /\ own ts d /\
  (exists impls supers, In (b, (impls, supers)) (tg_done g)) /\ ~ implements g d b.
Proof.
  exists zoo, (ty_ "Dog"), (ty_ "Animal"), (Derived (ty_ "Dog") None RelDirect). eexists.
  split; [vm_compute; reflexivity|]. split; [|split; [reflexivity|split; [|split]]].
  - do 3 eexists. split; [vm_compute; reflexivity|]. split; [reflexivity|]. cbn. right. right. left. reflexivity.
  - eexists. split; [vm_compute; reflexivity|]. exact Logic.I.
  - do 2 eexists. right. left. reflexivity.
  - intros (bs & ss & I & J). cbn in I. repeat (destruct I as [I|I]; [injection I; intros; subst; try discriminate; destruct J; fail || (try destruct J) |]); destruct I.
Qed.
Print Assumptions C98_calls_refuted.

(** A derived type that is a type of Rust, e.g. an element [xs:string] of a substitution
    group whose type definition was resolved, never implements the trait. *)
Theorem C98_build_in_refuted : exists ts b m g,
  trait_generate ts plain (fun _ => []) [] [all_types ts] = Ok g /\ derives ts b m /\
  (exists impls supers, In (dt_type m, (impls, supers)) (tg_done g)) /\ ~ implements g (dt_type m) b.
Proof.
  exists ((ty_ "string", mtype_new (VBuildIn BString)) :: dyn_ "Head" [("string", RelDirect)]), (ty_ "Head"), (Derived (ty_ "string") None RelDirect).
  eexists. split; [vm_compute; reflexivity|]. split; [|split].
  - do 3 eexists. split; [vm_compute; reflexivity|]. split; [reflexivity|]. cbn. left. reflexivity.
  - do 2 eexists. left. reflexivity.
  - intros (bs & ss & I & J). cbn in I. repeat (destruct I as [I|I]; [injection I; intros; subst; try discriminate; destruct J; fail || (try destruct J) |]); destruct I.
Qed.
Print Assumptions C98_build_in_refuted.

(** If type definitions are not resolved, two derived types that are aliases of one type
    implement the trait twice for it: the code does not compile. *)
Theorem C98_alias_refuted : exists ts b g,
  trait_generate ts plain (fun _ => []) [] [all_types ts] = Ok g /\ conflict ts TDAuto true g b.
Proof.
  exists ([(ty_ "A", mtype_new (VReference (ref_new (ty_ "Base")))); (ty_ "B", mtype_new (VReference (ref_new (ty_ "Base"))))] ++
    rec_ "Base" [] ++ dyn_ "Head" [("A", RelDirect); ("B", RelDirect)]), (ty_ "Head").
  eexists. split; [vm_compute; reflexivity|]. exists (ty_ "A"), (ty_ "B"), (ty_ "Base"). split; [discriminate|].
  split; [do 2 eexists; split; [left; reflexivity|now left]|]. split; [do 2 eexists; split; [right; left; reflexivity|now left]|].
  split; (eapply stands_alias; [vm_compute; reflexivity|constructor]).
Qed.
Print Assumptions C98_alias_refuted.

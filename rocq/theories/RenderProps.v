(** C108: the run of the renderer over all types and steps. *)
From Verif Require Import Base PathModel ExprModel RenderModel RenderSpec RenderProofs.
From Coq Require Import String Lia Permutation.
Local Open Scope list_scope.

(** Every step is given every type exactly once, type by type in their order and for each
    type step by step in the order of the configuration, and whatever other steps there
    are, of the crate or of the user, a step of the crate writes what its own settings
    ask for: the settings are there when they are looked up and are never those of
    another step.  The run does not panic if the steps of the user do not.  The memory of
    the collector of namespaces must be faithful, if it is used (this is C78). *)
Theorem C108_steps : forall scfg dcfg cache ty item new_cache ser_global ser_code ser_ideal ser_code_global de_code
    collect_code plain_code types_crate derive dyn (ss : list (rstep scfg dcfg cache ty item)) (l : list ty),
  memory_faithful scfg cache ty item ser_ideal new_cache ser_code_global \/
    (forall c, In (SSer _ _ _ _ _ c) ss -> ser_global c = false) ->
  Forall (keeps_private _ _ _ _ _) ss ->
  let run := render scfg dcfg cache ty item new_cache ser_global ser_code ser_code_global de_code collect_code
               plain_code types_crate derive dyn ss l in
  (Forall (always_works _ _ _ _ _) ss -> exists out, run = Ok out) /\
  forall out, run = Ok out ->
    map fst out = turns _ _ _ _ _ ss l /\
    forall k t code s w, In (k, t, code) out -> nth_error ss k = Some s ->
      own_work scfg dcfg cache ty item ser_global ser_code ser_ideal de_code collect_code plain_code
        (all_traits _ _ _ _ _ types_crate derive dyn ss) s t = Some w -> code = w.
Proof.
  intros. destruct (run_ok scfg dcfg cache ty item new_cache ser_global ser_code ser_ideal ser_code_global de_code
    collect_code plain_code types_crate derive dyn ss l H H0) as [A B].
  split; [exact A|]. intros out E. destruct (B out E) as [M C]. split; [exact M|].
  intros k t code s w I1 N W. exact (C k t code I1 s w N W).
Qed.
Print Assumptions C108_steps.

(** The traits of dynamic types: first the configured ones, then exactly those the steps
    need, however often a step occurs; none of them twice. *)
Theorem C108_traits : forall scfg dcfg cache ty item types_crate derive dyn (ss : list (rstep scfg dcfg cache ty item)),
  let base := base_traits types_crate derive dyn in
  let all := all_traits _ _ _ _ _ types_crate derive dyn ss in
  starts_as base all /\
  (forall t, In t all <-> In t base \/ exists s, In s ss /\ needed types_crate s t) /\
  (NoDup base -> (forall own f, In (SOwn _ _ _ _ _ own f) ss -> own = []) -> NoDup all).
Proof.
  intros. split; [apply init_starts|]. split; [intro; apply init_in|].
  intros N O. apply init_nodup; auto. intros s own f I1 ->. exact (O own f I1).
Qed.
Print Assumptions C108_traits.

(** Configured traits replace the automatic ones. *)
Theorem C108_custom : forall scfg dcfg cache ty item types_crate derive ts (ss : list (rstep scfg dcfg cache ty item)),
  let all := all_traits _ _ _ _ _ types_crate derive (DynCustom ts) ss in
  starts_as ts all /\ forall t, In t all <-> In t ts \/ exists s, In s ss /\ needed types_crate s t.
Proof. intros. split; [apply (init_starts _ _ _ _ _ types_crate ss ts)|intro; apply (init_in _ _ _ _ _ types_crate ss ts)]. Qed.
Print Assumptions C108_custom.

(** If the traits are not configured, each derived trait is asked of the values of a
    dynamic type, and so is the cast to [Any]. *)
Theorem C108_auto : forall types_crate derive,
  In (path_from_parts [types_crate] (etxt "AsAny")) (base_traits types_crate derive DynAuto) /\
  forall p, In p derive -> exists t, In t (base_traits types_crate derive DynAuto) /\
    (t = p \/ path_display p = etxt "Debug" /\ t = path_fmt_debug \/ path_display p = etxt "Hash" /\ t = path_hash_hash).
Proof.
  intros. cbn [base_traits]. split; [apply in_or_app; right; left; reflexivity|].
  intros p I1. exists (auto_trait p). split; [apply in_or_app; left; apply in_map; exact I1|].
  unfold auto_trait. destruct (str_eq_dec (path_display p) (etxt "Debug")); auto.
  destruct (str_eq_dec (path_display p) (etxt "Hash")); auto.
Qed.
Print Assumptions C108_auto.

(** The trait of a dynamic type can be used as [dyn Trait].  [_partial]: if only [Debug]
    is derived, and with the steps of the crate for quick_xml. *)
Theorem C108_dyn_partial : forall scfg dcfg cache ty item types_crate derive (ss : list (rstep scfg dcfg cache ty item)),
  (forall p, In p derive -> path_display p = etxt "Debug") ->
  (forall own f, In (SOwn _ _ _ _ _ own f) ss -> own = []) ->
  dyn_usable (supertraits (all_traits _ _ _ _ _ types_crate derive DynAuto ss) []).
Proof.
  intros scfg dcfg cache ty item types_crate derive ss D O t I1.
  unfold supertraits in I1. rewrite app_nil_r in I1. apply init_in in I1.
  assert (H : In (ip_ident t) (map etxt ["Debug"; "AsAny"; "WithBoxedSerializer"; "CollectNamespaces"]%string)).
  { destruct I1 as [I1|(s & I1 & N)].
    - cbn [base_traits] in I1. apply in_app_or in I1. destruct I1 as [I1|[<-|[]]].
      + apply in_map_iff in I1. destruct I1 as (p & <- & I1). unfold auto_trait. rewrite (D p I1).
        destruct (str_eq_dec (etxt "Debug") (etxt "Debug")); [left; reflexivity|contradiction].
      + right; left; reflexivity.
    - destruct s as [c|c| |n|own f]; cbn [needed] in N; try contradiction.
      + subst. do 2 right; left; reflexivity.
      + subst. do 3 right; left; reflexivity.
      + rewrite (O own f I1) in N. destruct N. }
  intro X. destruct H as [H|[H|[H|[H|[]]]]]; rewrite <- H in X;
    vm_compute in X; repeat (destruct X as [X|X]; [discriminate X|]); exact X.
Qed.
Print Assumptions C108_dyn_partial.

(** Refuted: with [Clone] or with [Hash] among the derived traits, the trait that is
    written cannot be used as [dyn Trait], whatever the steps; the code does not compile. *)
Theorem C108_dyn_refuted : forall scfg dcfg cache ty item types_crate (ss : list (rstep scfg dcfg cache ty item)) name,
  In name ["Clone"; "Hash"; "PartialEq"; "Eq"]%string ->
  exists p, path_parse ascii_ident (etxt name) = Ok p /\
    ~ dyn_usable (supertraits (all_traits _ _ _ _ _ types_crate [path_from_ident (etxt "Debug"); p] DynAuto ss) []).
Proof.
  intros scfg dcfg cache ty item types_crate ss name N.
  assert (H : exists p, path_parse ascii_ident (etxt name) = Ok p /\ In (ip_ident (auto_trait p)) not_for_dyn).
  { cbn [In] in N. destruct N as [<-|[<-|[<-|[<-|[]]]]];
      (eexists; split; [vm_compute; reflexivity|]).
    - vm_compute. auto 20.
    - vm_compute. auto 20.
    - vm_compute. auto 20.
    - vm_compute. auto 20. }
  destruct H as (p & E & I1). exists p. split; [exact E|]. intro X.
  refine (X (auto_trait p) _ I1).
  unfold supertraits. rewrite app_nil_r. apply init_in. left. cbn [base_traits].
  apply in_or_app. left. apply in_map. right; left; reflexivity.
Qed.
Print Assumptions C108_dyn_refuted.

(** Refuted: the steps for serde always write such a trait. *)
Theorem C108_serde_refuted : forall traits, ~ dyn_usable (supertraits traits serde_extra).
Proof.
  intros traits X. refine (X (Path (Some [etxt "serde"; etxt "de"]) (etxt "DeserializeOwned") false) _ _).
  - unfold supertraits. apply in_or_app. right. right; left; reflexivity.
  - vm_compute. auto 20.
Qed.
Print Assumptions C108_serde_refuted.

(** The traits that are derived for a type are the configured ones, and none of them is
    written twice.  [_partial]: if all of them were read from texts. *)
Theorem C108_derive_partial : forall derive extra c,
  (forall p, In p (get_derive derive extra c) <->
     match c with
     | DeriveDefault => In p derive \/ In p extra
     | DeriveExtend l => In p derive \/ In p extra \/ In p l
     | DeriveOverwrite l => In p l
     end) /\
  (Forall parsed derive -> Forall parsed extra ->
   match c with DeriveDefault => True | DeriveExtend l | DeriveOverwrite l => Forall parsed l end ->
   NoDup (map path_tokens (get_derive derive extra c))).
Proof.
  intros derive extra c. split; [|apply derive_once].
  intro p. unfold get_derive. rewrite nodup_In. destruct c; rewrite ?in_app_iff; tauto.
Qed.
Print Assumptions C108_derive_partial.

(** The code is the same from run to run: whatever the order in which the set of derived
    traits is visited, the same list of the same traits is written. *)
Theorem C108_derive_order : forall derive extra c visit1 visit2,
  Permutation visit1 (get_derive derive extra c) -> Permutation visit2 (get_derive derive extra c) ->
  sort_paths visit1 = sort_paths visit2 /\ Permutation (sort_paths visit1) (get_derive derive extra c).
Proof.
  intros derive extra c a b A B. split.
  - apply sort_unique.
    + eapply Permutation_NoDup; [apply Permutation_sym; exact A|apply NoDup_nodup].
    + eapply perm_trans; [exact A|apply Permutation_sym; exact B].
  - eapply perm_trans; [apply Permutation_sym, sort_perm|exact A].
Qed.
Print Assumptions C108_derive_order.

(** Refuted: the [Debug] that is derived by default is not the one that is read from a
    text.  If a type is configured to derive [Debug] in addition, it is written twice. *)
Theorem C108_derive_refuted : exists p,
  path_parse ascii_ident (etxt "Debug") = Ok p /\
  ~ NoDup (map path_tokens (get_derive default_derive [] (DeriveExtend [p]))).
Proof.
  eexists. split; [vm_compute; reflexivity|]. vm_compute. intro N. inversion N as [|? ? X ?]. apply X. left; reflexivity.
Qed.
Print Assumptions C108_derive_refuted.

(** A run with two serializers with different settings, of which one asks the collector,
    a deserializer and a step of the user that counts the types. *)
Definition count_step : rstep nat nat (list nat) nat nat :=
  SOwn _ _ _ _ _ [] (fun _ v t =>
    let n := match vget _ _ _ (KOwn 0) v with Some (VOwn _ _ _ n) => n | _ => 0 end in
    Ok (vset _ _ _ (KOwn 0) (VOwn _ _ _ (S n)) v, [n])).
Definition case_steps : list (rstep nat nat (list nat) nat nat) :=
  [SSer _ _ _ _ _ 1; count_step; SDe _ _ _ _ _ 7; SSer _ _ _ _ _ 2; SCollect _ _ _ _ _].
Definition case_run (l : list nat) :=
  render nat nat (list nat) nat nat [] (Nat.eqb 1) (fun ts c t => [c; t]) (fun ts c m t => (t :: m, [c; t; 9]))
    (fun ts c t => [c; t]) (fun ts t => [t]) (fun n ts t => []) (etxt "x") default_derive DynAuto case_steps l.

Example C108_case :
  case_run [20; 30] = Ok
    [(0, 20, [1; 20; 9]); (1, 20, [0]); (2, 20, [7; 20]); (3, 20, [2; 20]); (4, 20, [20]);
     (0, 30, [1; 30; 9]); (1, 30, [1]); (2, 30, [7; 30]); (3, 30, [2; 30]); (4, 30, [30])].
Proof. vm_compute. reflexivity. Qed.

Example C108_case_hypotheses :
  memory_faithful nat (list nat) nat nat (fun ts c t => [c; t; 9]) [] (fun ts c m t => (t :: m, [c; t; 9])) /\
  Forall (keeps_private _ _ _ _ _) case_steps /\ Forall (always_works _ _ _ _ _) case_steps /\
  List.length (all_traits nat nat (list nat) nat nat (etxt "x") default_derive DynAuto case_steps) = 4.
Proof.
  split; [exists (fun _ => True); auto|]. split; [|split; [|vm_compute; reflexivity]].
  - repeat constructor. intros ts v t v' code E k K. apply ok_inj in E. destruct E as [<- _].
    apply get_set_other. destruct K as [->|[->| ->]]; discriminate.
  - repeat constructor. intros ts v t. cbn. eauto.
Qed.

Example C108_case_derive :
  match path_parse ascii_ident (etxt "Clone"), path_parse ascii_ident (etxt "serde::Serialize") with
  | Ok a, Ok b => map path_tokens (get_derive [a; b] [a] (DeriveExtend [b; a])) =
                  [[TId (etxt "serde"); TSep; TId (etxt "Serialize")]; [TId (etxt "Clone")]]
  | _, _ => False
  end.
Proof. vm_compute. reflexivity. Qed.

Example C108_case_order :
  let a := path_from_ident (etxt "Debug") in let b := path_from_parts [etxt "serde"] (etxt "Serialize") in
  let c := path_from_parts [] (etxt "Clone") in let d := Path (Some []) (etxt "Clone") true in
  sort_paths [b; d; c; a] = [a; c; d; b] /\ sort_paths [a; b; c; d] = [a; c; d; b].
Proof. vm_compute. auto. Qed.

(** What it means that a redefinition reaches all uses of the redefined component
    (XML Schema 1.1, part 1, 4.2.4 and 4.2.5: the modified definitions are pervasive). *)
From Verif Require Import Base IdentModel CacheSpec.
From Verif Require Import RedefModel.

Section Spec.
  (** The schema with the redefinition, and the calls made on the identifier cache. *)
  Variables (main : nat) (h : history).

  (** The component can be seen from [main]: it is found along its dependencies, and no component
      of [main] itself with the same name hides it. *)
  Definition visible (x : tident) : Prop :=
    named x /\ (exists u, in_reach h main u /\ same_type x u) /\
    (ti_schema x = main \/
     forall u, in_reach h main u -> ti_ns u = ti_ns x -> kind_name u = kind_name x -> ti_schema u <> main).

  (** A kind and name belong to one namespace and, apart from [main], to one schema. *)
  Definition one_definition : Prop :=
    forall u v, in_reach h main u -> in_reach h main v -> kind_name u = kind_name v ->
      ti_ns u = ti_ns v /\ (ti_schema u <> main -> ti_schema v <> main -> same_type u v).

  (** The components that [main] redefines, each with a component of the same name. *)
  Variable redefined : list tident.
  Definition redefinition_of (x t : tident) : Prop := In t redefined /\ x = ti_with_schema t main.

  Variable nodes : rnodes.
  Definition points (x t : tident) : Prop :=
    exists e k d, rget x nodes = Some e /\ In (k, d) (r_deps e) /\ dep_target d = t.

  (** [x] refers to [t], other than as the component that it redefines. *)
  Definition refers (x t : tident) : Prop := points x t /\ ~ redefinition_of x t.

  (** The components that [main] works with: those it sees, and what these refer to. *)
  Inductive used : tident -> Prop :=
  | used_visible x : visible x -> used x
  | used_next x t : used x -> refers x t -> used t.

  (** [main] has a component of that kind and name in that namespace, and it is another one. *)
  Definition replaced (t : tident) : Prop :=
    ti_schema t <> main /\ exists u, inserted h u /\ ti_schema u = main /\ ti_ns u = ti_ns t /\ kind_name u = kind_name t.

  (** No component that [main] works with refers to one that was replaced in [main]. *)
  Definition pervasive : Prop := forall x t, used x -> refers x t -> ~ replaced t.
End Spec.

(** A component outside of [main] that needs a copy: it refers to a redefined component or to one that needs
    a copy. *)
Inductive affected (main : nat) (s : rstate) : tident -> Prop :=
| affected_by x t : visible main (s_hist s) x -> ti_schema x <> main -> points (s_nodes s) x t ->
    In t (s_todo s) \/ affected main s t -> affected main s x.

(** * What is expected of the nodes when the redefined components have been added *)
Record ready (main ns : nat) (redefined : list tident) (s : rstate) : Prop := {
  (** [main] is a schema of the namespace [ns]; all schemas have one namespace. *)
  rd_main : main <> id_unknown /\ places (s_hist s) main ns;
  rd_ns : one_namespace (s_hist s);
  rd_one : one_definition main (s_hist s);
  (** The affected components are of the namespace. *)
  rd_same : forall x, affected main s x -> ti_ns x = ns;
  (** Nodes have identifiers that are known. *)
  rd_known : forall i e, rget i (s_nodes s) = Some e -> inserted (s_hist s) i;
  (** Nodes with made up names (inline elements) do not refer to what is redirected. *)
  rd_inner : forall i t, ~ named i -> points (s_nodes s) i t -> ~ (In t (s_todo s) \/ affected main s t);
  (** A node refers to a component in one way only. *)
  rd_keys : forall i e, rget i (s_nodes s) = Some e ->
    NoDup (map fst (r_deps e)) /\ NoDup (map (fun x => dep_target (snd x)) (r_deps e));
  (** What [main] sees of other schemas is not itself a redefinition. *)
  rd_base : forall i e, visible main (s_hist s) i -> ti_schema i <> main -> rget i (s_nodes s) = Some e -> r_base e = None;
  (** In [main] only redefinitions refer to what they were made from. *)
  rd_self : forall i e t, ti_schema i = main -> rget i (s_nodes s) = Some e -> r_base e = Some t -> points (s_nodes s) i t ->
    redefinition_of main redefined i t;
  rd_new : forall t e, In t redefined -> rget (ti_with_schema t main) (s_nodes s) = Some e -> r_base e = Some t;
  (** The redefined components are not those of [main], and [main] has a new one for each; some or all of them
      are still to be dealt with. *)
  rd_old : forall i, In i redefined -> named i /\ ti_schema i <> main /\ inserted (s_hist s) (ti_with_schema i main);
  rd_todo : NoDup (s_todo s) /\ incl (s_todo s) redefined;
}.

(** No component refers to itself (outside of [main]). *)
Definition not_recursive (main : nat) (s : rstate) : Prop :=
  forall i, ti_schema i <> main -> ~ points (s_nodes s) i i.

(** A component with a made up name that is not the name of another one. *)
Definition inner_node (main : nat) (s : rstate) (x : tident) : Prop :=
  ~ named x /\ ~ replaced main (s_hist s) x /\
  forall u, visible main (s_hist s) u -> kind_name u = kind_name x -> rget u (s_nodes s) = None.

(** What such a component or a visible one refers to is redefined, visible, such a component, or of another namespace
    and has no node. *)
Definition closed (main ns : nat) (redefined : list tident) (s : rstate) : Prop :=
  forall x t, visible main (s_hist s) x \/ inner_node main s x -> refers main redefined (s_nodes s) x t ->
    In t (s_todo s) \/ visible main (s_hist s) t \/ inner_node main s t \/ ti_ns t <> ns /\ rget t (s_nodes s) = None.

(** A reference is replaced by one to [main] if it leads to such a component, unless [keep] says otherwise. *)
Definition moved_dep (main : nat) (s : rstate) (keep : tident -> Prop) (a b : NodeModel.dep_key * NodeModel.dependency) : Prop :=
  fst a = fst b /\
  let t := dep_target (snd a) in
  snd b = snd a /\ (keep t \/ ~ (In t (s_todo s) \/ affected main s t)) \/
  snd b = dep_with (snd a) (ti_with_schema t main) /\ ~ keep t /\ (In t (s_todo s) \/ affected main s t).

(** The nodes afterwards. *)
Record redirected (main : nat) (redefined : list tident) (s s' : rstate) : Prop := {
  (** Affected components have copies in [main]. *)
  re_copy : forall i e, affected main s i -> rget i (s_nodes s) = Some e ->
    exists deps, rget (ti_with_schema i main) (s_nodes s') = Some (REntry (r_kind e) deps (Some i)) /\
      Forall2 (moved_dep main s (fun _ => False)) (r_deps e) deps;
  (** The components of [main] are kept, but for these references. *)
  re_main : forall i e, ti_schema i = main -> rget i (s_nodes s) = Some e ->
    exists deps, rget i (s_nodes s') = Some (REntry (r_kind e) deps (r_base e)) /\
      Forall2 (moved_dep main s (redefinition_of main redefined i)) (r_deps e) deps;
  (** All others are unchanged. *)
  re_kept : forall i, ti_schema i <> main -> rget i (s_nodes s') = rget i (s_nodes s);
  re_new : forall i e, ti_schema i = main -> rget i (s_nodes s) = None -> rget i (s_nodes s') = Some e ->
    exists j, affected main s j /\ i = ti_with_schema j main;
  (** The copies are known. *)
  re_known : forall i, inserted (s_hist s') i <-> inserted (s_hist s) i \/ exists j, affected main s j /\ i = ti_with_schema j main;
}.

(** [pick] gives an element of a set that is not empty. *)
Definition any_pick (pick : list tident -> option tident) : Prop :=
  forall l, match pick l with Some x => In x l | None => l = [] end.

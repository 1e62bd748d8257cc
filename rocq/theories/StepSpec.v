(* What it means that two render steps do the same job, and which steps a step
   needs. Independent of how the configuration compares its entries. *)
From Coq Require Import List Bool Arith.
From Verif Require Import Base StepModel.
Import ListNotations.

(* Two entries do the same job if they run the same render step, or if both
   render the types themselves ("only one TypesXXX step should be used",
   xsd-parser/src/config/renderer.rs:132-138). Running both renders the same
   items twice. *)
Definition same_job (a b : config) : Prop :=
  step_of a = step_of b \/ (kind_of a = KTypes /\ kind_of b = KTypes).

(* The entries of a list do different jobs. *)
Definition distinct_jobs (l : list config) : Prop :=
  forall i j a b, nth_error l i = Some a -> nth_error l j = Some b ->
    same_job a b -> i = j.

(* What one addition should do to the list: the new entry takes the place of
   the first one that does the same job, the other ones that do the same job
   are dropped, and everything else stays where it is; if no entry does the
   same job, then the new one comes last. *)
Inductive kept (s : config) : list config -> list config -> Prop :=
| kept_nil : kept s [] []
| kept_skip x l l' : same_job x s -> kept s l l' -> kept s (x :: l) l'
| kept_cons x l l' : ~ same_job x s -> kept s l l' -> kept s (x :: l) (x :: l').

Inductive added (s : config) : list config -> list config -> Prop :=
| added_last : added s [] [s]
| added_here x l l' : same_job x s -> kept s l l' -> added s (x :: l) (s :: l')
| added_later x l l' : ~ same_job x s -> added s l l' -> added s (x :: l) (x :: l').

(* The steps whose code is named in the code of a step: the serializer, the
   deserializer and the collector use the constants of the namespaces
   (xsd-parser/src/pipeline/renderer/steps/quick_xml/serialize.rs:797, 1806,
   deserialize.rs, collect_namespaces.rs:344), and a serializer for dynamic
   namespaces uses the collector (serialize.rs:60-67). *)
Definition needs (c : config) : list rid :=
  match c with
  | Named (QuickXmlSerialize NsNone _) => [RNamespaceConst]
  | Named (QuickXmlSerialize NsLocal _)
  | Named (QuickXmlSerialize NsGlobal _) => [RNamespaceConst; RPrefixConst]
  | Named (QuickXmlSerialize NsDynamic _) => [RNamespaceConst; RPrefixConst; RCollect]
  | Named (QuickXmlDeserialize _) => [RNamespaceConst]
  | Named QuickXmlCollectNamespaces => [RNamespaceConst; RPrefixConst]
  | _ => []
  end.

Definition complete (l : list config) : Prop :=
  forall c r, In c l -> In r (needs c) -> exists c', In c' l /\ step_of c' = r.

(* The entries that a call names directly, without the help of the program. *)
Definition direct (c : call) : list config :=
  match c with CStep s => [s] | CSteps l => l | _ => [] end.

(* A step of the crate that is used as its own configuration answers the type
   that the crate gave it; for a step of the user any answer is possible. *)
Definition honest (c : config) : Prop :=
  match c with
  | Own (RTypes | RSerdeV7 | RSerdeV8 | RSerdeQuickXml) k _ => k = KTypes
  | Own (ROwn _) _ _ => True
  | Own _ k _ => k = KExtraImpls
  | Named _ => True
  end.

(* What the steps of a user answer depends on their type only. *)
Definition own_kind (f : nat -> kind) (c : config) : Prop :=
  match c with Own (ROwn n) k _ => k = f n | _ => True end.

(* Exactly one entry of the list renders the types. *)
Definition one_types_step (l : list config) : Prop :=
  exists i c, nth_error l i = Some c /\ kind_of c = KTypes
    /\ forall j c', nth_error l j = Some c' -> kind_of c' = KTypes -> j = i.

(* C91: the render steps of a configuration. *)
From Coq Require Import List Bool Arith.
From Verif Require Import Base StepModel StepSpec StepProofs.
Import ListNotations.

(* No chain of calls panics. *)
Theorem C91_total : forall cs l, exists l', calls l cs = Ok l'.
Proof. exact calls_total. Qed.
Print Assumptions C91_total.

(* One addition changes exactly what it should. The case of the helpers for
   contents, which are only recognised if they are given as a step of their
   own, is missing. *)
Theorem C91_added_partial : forall l s l',
  (s = Named ContentHelpers -> ~ In (Named ContentHelpers) l) ->
  with_render_step l s = Ok l' -> added s l l'.
Proof. exact with_step_added. Qed.
Print Assumptions C91_added_partial.

(* After any chain of calls no two entries do the same job, except for the
   helpers for contents. *)
Theorem C91_once_partial : forall cs l',
  calls default_steps cs = Ok l' ->
  forall i j a b, nth_error l' i = Some a -> nth_error l' j = Some b -> same_job a b ->
    i = j \/ (a = Named ContentHelpers /\ b = Named ContentHelpers).
Proof.
  intros cs l' E. apply pairs_nth. apply (pairs_calls cs default_steps); [|exact E].
  repeat constructor. intros y [].
Qed.
Print Assumptions C91_once_partial.

(* The same for every list without repeated jobs that one starts from. *)
Theorem C91_once_from_partial : forall cs l l',
  distinct_jobs l -> calls l cs = Ok l' ->
  forall i j a b, nth_error l' i = Some a -> nth_error l' j = Some b -> same_job a b ->
    i = j \/ (a = Named ContentHelpers /\ b = Named ContentHelpers).
Proof.
  intros cs l l' D E. apply pairs_nth. apply (pairs_calls cs l); [|exact E].
  apply pairs_nth. intros i j a b A B J. left. exact (D i j a b A B J).
Qed.
Print Assumptions C91_once_from_partial.

(* An entry that was added runs, unless a later one does its job. *)
Theorem C91_last_wins : forall cs l l1 l' s,
  with_render_step l s = Ok l1 -> calls l1 cs = Ok l' ->
  (forall c x, In c cs -> In x (call_steps c) -> ~ same_job s x) -> In s l'.
Proof.
  intros cs l l1 l' s E1 E2 N. rewrite calls_flat in E2.
  apply (last_wins _ l1 l' s E2 (with_step_in _ _ _ E1)).
  intros x X. apply in_flat_map in X. destruct X as (c & C & X). exact (N c x C X).
Qed.
Print Assumptions C91_last_wins.

(* No entry is invented. *)
Theorem C91_only : forall cs l l' x,
  calls l cs = Ok l' -> In x l' -> In x l \/ exists c, In c cs /\ In x (call_steps c).
Proof.
  intros cs l l' x E. rewrite calls_flat in E.
  assert (H : forall n l l', with_render_steps l n = Ok l' -> In x l' -> In x l \/ In x n).
  { clear. induction n as [|s n IH]; cbn; intros l l'; [intros [= <-]; auto|].
    destruct (with_render_step l s) as [l0| |] eqn:E; try discriminate. intros E2 X.
    destruct (IH _ _ E2 X) as [Y|Y]; [|auto].
    destruct (with_step_only _ _ _ _ E Y) as [->|Z]; auto. }
  intro X. destruct (H _ _ _ E X) as [Y|Y]; [auto|].
  right. apply in_flat_map in Y. exact Y.
Qed.
Print Assumptions C91_only.

(* Whatever is called in whatever order, the constants and traits that the
   serializer and the deserializer name are rendered, if these steps are only
   asked for by the calls that are made for them. *)
Theorem C91_complete : forall cs l',
  (forall c, In c cs -> Forall (fun s => honest s /\ needs s = []) (direct c)) ->
  calls default_steps cs = Ok l' -> complete l'.
Proof.
  intros cs l' D E. apply (complete_calls cs default_steps); auto.
  - repeat constructor.
  - intros c r [<-|[]] [].
Qed.
Print Assumptions C91_complete.

(* The types are rendered by exactly one step. *)
Theorem C91_types : forall f cs l',
  (forall c, In c cs -> Forall (fun s => honest s /\ own_kind f s) (direct c)) ->
  calls default_steps cs = Ok l' -> one_types_step l'.
Proof.
  intros f cs l' D E.
  destruct (types_calls f cs default_steps l') as (c & C & K); auto.
  - repeat constructor.
  - exists (Named Types). split; [left|]; reflexivity.
  - apply In_nth_error in C. destruct C as [i C]. exists i, c. repeat split; auto.
    intros j c' J K'.
    destruct (C91_once_partial cs l' E j i c' c J C (or_intror (conj K' K))) as [H|[-> ->]].
    + exact H.
    + discriminate K.
Qed.
Print Assumptions C91_types.

(* Asked for twice, the helpers for contents are rendered twice. *)
Theorem C91_helpers_refuted :
  ~ (forall cs l', calls default_steps cs = Ok l' -> distinct_jobs l').
Proof.
  intro H.
  specialize (H [CStep (Named ContentHelpers); CStep (Named ContentHelpers)] _ eq_refl).
  specialize (H 1 2 (Named ContentHelpers) (Named ContentHelpers) eq_refl eq_refl (or_introl eq_refl)).
  discriminate.
Qed.
Print Assumptions C91_helpers_refuted.

(* Without the restriction on direct entries the constants can be missing:
   the step alone does not bring them. *)
Theorem C91_direct_refuted :
  ~ (forall cs l', calls default_steps cs = Ok l' -> complete l').
Proof.
  intro H.
  specialize (H [CStep (Named (QuickXmlDeserialize true))] _ eq_refl).
  destruct (H (Named (QuickXmlDeserialize true)) RNamespaceConst) as (c & C & E); cbn; auto.
  destruct C as [<-|[<-|[]]]; discriminate.
Qed.
Print Assumptions C91_direct_refuted.

(* A chain with steps of the user, replaced settings and both kinds of types. *)
Definition case_calls : list call :=
  [CSerdeXmlRs V7; CStep (Own (ROwn 3) KTypes 1); CQuickXml NsDynamic (Some 4) true;
   CStep (Own RDefaults KExtraImpls 0); CStep (Own (ROwn 5) KUndefined 2);
   CSerialize NsLocal None; CAdvancedEnums; CSteps [Own (ROwn 5) KUndefined 9; Named ContentHelpers]].

Example C91_case_result : calls default_steps case_calls =
  Ok [Named Types; Named Defaults; Named PrefixConstants; Named QuickXmlCollectNamespaces;
      Named NamespaceConstants; Named (QuickXmlSerialize NsLocal None);
      Named (QuickXmlDeserialize true); Own (ROwn 5) KUndefined 9; Named EnumConstants;
      Named ContentHelpers].
Proof. reflexivity. Qed.

Example C91_case_hypotheses :
  (forall c, In c case_calls -> Forall (fun s => honest s /\ needs s = []) (direct c)) /\
  (forall c, In c case_calls ->
     Forall (fun s => honest s /\ own_kind (fun n => if Nat.eqb n 3 then KTypes else KUndefined) s) (direct c)).
Proof.
  split; intros c C; cbn in C;
    repeat (destruct C as [<-|C]; [repeat constructor|]); destruct C.
Qed.

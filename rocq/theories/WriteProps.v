(** C76: the serializers of whole documents. *)
From Verif Require Import Utf8 WriteModel DocSpec GenSpec TextSpec WriteSpec WriteProofs GenProps DocProps.
Local Open Scope string_scope.
Local Open Scope list_scope.

(** ** C76: the generated serializers write the document of a value *)

(** The events are the document, and the iteration ends after them. *)
Theorem C76_document : forall (T A : Type) ff (no_attrs : A) env tag opening closing
    (to_bytes : nat -> T -> helper -> outcome kind (option bytes) * helper) (ok : nat -> val T A -> Prop) n ty name v h evs h',
  (forall ty attributed min max c ps, env ty = TComplex attributed min max c ps ->
     (max = Bounded 0 -> min = 0) /\ (is_choice c = true -> ps <> [])) ->
  typed ff no_attrs env ok n ty v ->
  written ff no_attrs env tag opening closing to_bytes n ty true name v h evs h' ->
  exists F, forall fuel calls, F <= fuel -> length evs < calls ->
    serialize ff env tag opening closing to_bytes fuel calls ty name v h = SRDone evs h'.
Proof. intros. eapply serialize_written; eassumption. Qed.
Print Assumptions C76_document.

(** Every value whose attributes and texts can be written has a document. *)
Theorem C76_total : forall (T A : Type) ff (no_attrs : A) env tag opening closing
    (to_bytes : nat -> T -> helper -> outcome kind (option bytes) * helper) (ok : nat -> val T A -> Prop) n ty name v h,
  (forall ty attributed min max c ps, env ty = TComplex attributed min max c ps ->
     (max = Bounded 0 -> min = 0) /\ (is_choice c = true -> ps <> [])) ->
  (forall ty root name v h, ok ty v -> env ty <> TSimple -> exists attrs h', opening ty root name v h = (Ok attrs, h')) ->
  (forall ty t v h, ok ty v -> val_text v = Some t ->
     exists data h', to_bytes ty t h = (Ok data, h') /\ text_ok data = true) ->
  typed ff no_attrs env ok n ty v ->
  exists evs h', written ff no_attrs env tag opening closing to_bytes n ty true name v h evs h' /\
    exists F, forall fuel calls, F <= fuel -> length evs < calls ->
      serialize ff env tag opening closing to_bytes fuel calls ty name v h = SRDone evs h'.
Proof.
  intros T A ff no_attrs env tag opening closing to_bytes ok n ty name v h S O B Ty.
  destruct (written_total ff no_attrs env tag opening closing to_bytes ok O B n ty true name v Ty h) as [evs [h' W]].
  exists evs, h'. split; [exact W|]. eapply serialize_written; eassumption.
Qed.
Print Assumptions C76_total.

(** A value has only one document. *)
Theorem C76_unique : forall (T A : Type) ff (no_attrs : A) env tag opening closing
    (to_bytes : nat -> T -> helper -> outcome kind (option bytes) * helper) (ok : nat -> val T A -> Prop) n n' ty root name v h evs h' evs2 h2,
  (forall ty attributed min max c ps, env ty = TComplex attributed min max c ps ->
     (max = Bounded 0 -> min = 0) /\ (is_choice c = true -> ps <> [])) ->
  typed ff no_attrs env ok n ty v -> typed ff no_attrs env ok n' ty v ->
  written ff no_attrs env tag opening closing to_bytes n ty root name v h evs h' ->
  written ff no_attrs env tag opening closing to_bytes n' ty root name v h evs2 h2 -> evs = evs2 /\ h' = h2.
Proof. intros. eapply (written_unique ff no_attrs env tag opening closing to_bytes); [eassumption|exact H0|exact H1|eassumption|eassumption]. Qed.
Print Assumptions C76_unique.

(** After an error, the iterator ends. *)
Theorem C76_error : forall (T A : Type) ff env tag opening closing
    (to_bytes : nat -> T -> helper -> outcome kind (option bytes) * helper) fuel (s : wst T A) h k s' h',
  wnext ff env tag opening closing to_bytes fuel s h = (Some (Err k), s', h') ->
  exists s2, wnext ff env tag opening closing to_bytes 1 s' h' = (None, s2, h').
Proof. intros. eapply error_ends; eassumption. Qed.
Print Assumptions C76_error.

(** The order of DocProps, without namespaces. *)
Definition plain_config : wconfig :=
  WConfig NsNone None (fun _ => None) (fun _ _ => false) (fun _ => None) (fun _ => false) (fun _ => []) (fun _ => []).
Definition no_collect (ty : nat) (v : val bytes unit) : list (option bytes * bytes) := [].
Definition no_write (ty : nat) (a : unit) (h : helper) : outcome kind (list attr) * helper := (Ok [], h).
Definition plain_text (ty : nat) (t : bytes) (h : helper) : outcome kind (option bytes) * helper := (Ok (Some t), h).
Definition ex_helper : helper := Helper 0 [].
Notation plain_open := (open_tag plain_config no_collect no_write).
Notation plain_close := (close_tag plain_config).
Notation ex_written ff env := (written ff tt env (field_tag plain_config) plain_open plain_close plain_text).
Notation ex_serialize ff env := (serialize ff env (field_tag plain_config) plain_open plain_close plain_text).

Ltac write_all :=
  repeat (cbn; match goal with
    | |- exists _, _ => eexists
    | |- _ /\ _ => split
    | |- _ = _ => reflexivity
    end).
Definition nested_order : val bytes unit :=
  VStruct tt [[VStruct tt [[VSimple tt "c"];
    [VStruct tt [[VEnum 0 [VStruct tt [[VStruct tt [[VText "i"]; [VText "1"]]]]]]]]; [VText "d"]]]].

Example C76_order : forall ff v, In (ff, v) [(flat, order_value); (nested, nested_order)] ->
  typed ff tt order_env (fun _ _ => True) 2 0 v /\
  ex_written ff order_env 2 0 true "order" v ex_helper order_doc ex_helper /\
  ex_serialize ff order_env 20 20 0 "order" v ex_helper = SRDone order_doc ex_helper.
Proof.
  intros ff v [E|[E|[]]]; injection E as <- <-; (split; [|split; [|vm_compute; reflexivity]]).
  - cbn. repeat first [progress cbn|split|constructor|eexists]; try reflexivity; try lia.
  - assert (exists evs, ex_written flat order_env 2 0 true "order" order_value ex_helper evs ex_helper /\ evs = order_doc)
      as [evs [W <-]]; [|exact W]. eexists. split; [write_all|reflexivity].
  - cbn. repeat first [progress cbn|split|constructor|eexists]; try reflexivity; try lia.
  - assert (exists evs, ex_written nested order_env 2 0 true "order" nested_order ex_helper evs ex_helper /\ evs = order_doc)
      as [evs [W <-]]; [|exact W]. eexists. split; [write_all|reflexivity].
Qed.

(** A text that cannot be written ends the document. *)
Example C76_bad_text :
  ex_serialize flat order_env 20 20 0 "order"
    (VStruct tt [[VSimple tt "]]>"]; [VEnum 1 [VText "n"]]; []]) ex_helper
  = SRErr [EStart "order" []; EStart "customer" []] (KInvalidData "]]>").
Proof. vm_compute. reflexivity. Qed.

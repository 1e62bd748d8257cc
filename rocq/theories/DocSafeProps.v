(** C74: no input makes the generated deserializers of a steady schema panic. *)
From Verif Require Import Utf8 DocModel DocSpec GenSpec DeSpec DocSafeProofs GenProps DocProps.
Local Open Scope string_scope.
Local Open Scope list_scope.

(** ** C74: unexpected input does not make a deserializer panic *)

(** Whatever the events are, well nested or not, and however they go on: reading them as any
    type of the schema panics nowhere.  The types are unfolded at least as deep as there are
    events, so the depth is never what stops the reading; the code that reads attributes and
    simple values does not panic.

    What is missing for the full claim is false of the code: schemas that are not [steady]
    (see [C74_inner_choice_refuted], [C74_array_refuted]) and [xs:any]
    ([C74_no_panic_refuted]). *)
Theorem C74_no_panic_partial : forall (T A : Type) ff (no_attrs : A) attrs_of
    (parse : nat -> dhelper -> bytes -> outcome kind (T * dhelper)) charref env,
  (forall ty h n a, attrs_of ty h n a <> Panic) ->
  (forall ty h s, parse ty h s <> Panic) ->
  (forall ty, steady_type ff (env ty) = true) ->
  forall m ty blank evs, length evs <= m ->
  driver_run (type_deser ff no_attrs attrs_of parse charref utf8_valid env m ty) blank driver_new evs <> RPanic.
Proof. intros. apply document_safe; assumption. Qed.
Print Assumptions C74_no_panic_partial.

(** The schema of the order is steady with all options, and so is one with repeated choices,
    arrays and [xs:all]; the refuted ones are not. *)
Definition steady_env (ty : nat) : tdef :=
  match ty with
  | 0 => TComplex true 1 (Bounded 1) CSequence
           [PElement 2 (Bounded 2) None "a" 1;
            PGroup 0 Unbounded CChoice
              [PElement 1 (Bounded 1) None "b" 0;
               PGroup 0 (Bounded 1) CSequence [PElement 0 (Bounded 1) None "c" 2; PElement 3 (Bounded 5) None "d" 1]]]
  | 1 => TSimpleContent
  | _ => TComplex false 1 (Bounded 1) CAll
           [PElement 0 (Bounded 1) None "x" 0; PElement 1 (Bounded 1) None "y" 1]
  end.
Example C74_steady_cases :
  (forall ff ty, steady_type ff (order_env ty) = true) /\
  (forall ff ty, steady_type ff (steady_env ty) = true) /\
  (forall ty h n a, attrs_any ty h n a <> Panic) /\ (forall ty h s, parse_any ty h s <> Panic) /\
  steady_type flat (inner_env 0) = false /\ steady_type nested (inner_env 0) = true /\
  (forall ff, steady_type ff (array_env 0) = false).
Proof.
  repeat split; try discriminate.
  - intros [[|] [|]] [|[|[|ty]]]; reflexivity.
  - intros [[|] [|]] [|[|[|ty]]]; reflexivity.
Qed.

(** Events that no document has: tags that do not belong together, text in between. *)
Example C74_broken_case :
  (exists k, read flat steady_env 9 0 [EStart "o" []; EStart "a" []; EEnd "b"; EStart "d" []; EText "t"; EEof; EEnd "o"] = RErr k) /\
  (exists v r, read flat steady_env 9 0 [EStart "o" []; EEmpty "a" []; EEmpty "a" []; EStart "b" []; EEmpty "a" []; EEmpty "a" []; EEnd "x"; EEnd "o"; EEof] = RDone v r).
Proof. split; [eexists; vm_compute; reflexivity|do 2 eexists; vm_compute; reflexivity]. Qed.

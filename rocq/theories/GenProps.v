(** C68-C71: what the generated deserializers read. *)
From Verif Require Import Utf8 GenModel GenSpec TextSpec GenProofs GenChoiceProofs GenContentProofs
  GenAllProofs GenTextProofs.
Local Open Scope string_scope.
Local Open Scope list_scope.

Definition ex_blank (s : bytes) : option bool := Some (String.eqb s " ").
Definition ex_text : deser bytes bytes :=
  content_deser (fun _ => None) utf8_valid (fun h s => Ok (s, h)).
Definition ex_m (name : bytes) (min : nat) (max : max_occurs) : member bytes bytes :=
  Member name None KindElement min max false false None ex_text.
Definition ex_reads (h : dhelper) (evs : list event) (v : bytes) (h' : dhelper) : Prop :=
  text_of (fun _ => None) utf8_valid (fun h _ _ => Ok (tt, h)) (fun h s => Ok (s, h)) h evs (tt, v) h'.
Definition ex_s (name : bytes) (min : nat) (max : max_occurs) : slot bytes :=
  Slot (element_lang (None, name) ex_reads) min max None.
Definition ex_attrs (h : dhelper) (n : bytes) (attrs : list attr) : outcome kind (unit * dhelper) := Ok (tt, h).

Lemma ex_ok name min max : match max with Bounded k => 1 <= k /\ min <= k | Unbounded => True end ->
  member_ok ex_blank (ex_m name min max) (ex_s name min max).
Proof.
  intros B. split; [reflexivity|]. split.
  - intros any. apply (element_implements ex_blank (ex_m name min max) ex_reads any). intros h evs v h' R.
    split; [exact (plain_element _ _ _ _ _ _ _ R)|].
    destruct R as [(n & attrs & _ & _ & body & n' & _ & _ & -> & _)|(n & attrs & _ & _ & -> & _)]; eexists; eexists; split; reflexivity.
  - split; [exact B|]. split; [reflexivity|]. split; [|right; exact I].
    unfold m_occ. cbn [m_min m_max m_opt ex_m s_min ex_s]. 
    unfold from_occurs. destruct max as [|[|[|k]]]; destruct min as [|[|i]]; try reflexivity; cbn;
      match goal with |- context [if ?b then _ else _] => destruct b; reflexivity end.
Qed.


Lemma trimmed_one c : ascii_ws c = false -> trimmed_of (String c "") (String c "").
Proof.
  intros W. exists "", "". split; [reflexivity|]. split; [intros x []|]. split; intros x r E.
  - injection E as <- _. exact W.
  - destruct r as [|y r]; [injection E as <-; exact W|]. injection E as _ E. destruct r; discriminate E.
Qed.

Definition ex_el (n t : bytes) : list event := [EStart n []; EText t; EEnd n].

Ltac ex_occ :=
  split; [eexists _, _, _; split; [reflexivity|]; split; [reflexivity|]; eexists; split; reflexivity|];
  split; [reflexivity|]; left; eexists _, _, _, _, [EText _], _, _, _;
  split; [reflexivity|]; split; [reflexivity|]; split; [reflexivity|]; split; [reflexivity|];
  split; [reflexivity|]; split; [apply trimmed_one; reflexivity|reflexivity].
Ltac ex_members := repeat (apply Forall2_cons; [apply ex_ok; cbn; lia|]); apply Forall2_nil.
Ltac not_fits := let l := fresh "l" in let E := fresh "E" in let C := fresh "C" in
  intros (l & E & C); cbn in E; unfold one_label in E; subst l; vm_compute in C; discriminate C.

(** ** C68: sequences *)

(** An element whose type is a sequence, and a sequence as a part of another type. *)
Theorem C68_sequence_element : forall blank (V D A : Type) from_start (no_attrs : A) allow_any mixed
    (ms : list (member V D)) (ss : list (slot V)) h evs v h',
  Forall2 (member_ok blank) ms ss -> ms <> [] ->
  element_of from_start
    (fun a h evs v h' => exists p, follows blank ss (first_place ss) h evs p h' /\
       fst v = a /\ settled_at ss p (snd v)) h evs v h' ->
  reads_element blank (seq_deser from_start true no_attrs allow_any mixed ms) h evs v h'.
Proof. intros blank V D A fs na aa mx ms ss h evs v h' OK NE. exact (sequence_element blank fs true na aa mx ms ss OK h evs v h' eq_refl NE). Qed.
Print Assumptions C68_sequence_element.

Theorem C68_sequence_group : forall blank (V D A : Type) from_start (no_attrs : A) allow_any mixed
    (ms : list (member V D)) (ss : list (slot V)),
  Forall2 (member_ok blank) ms ss -> ms <> [] ->
  let d := seq_deser from_start false no_attrs allow_any mixed ms in
  implements blank d (de_init d) (sequence_lang blank no_attrs ss) /\ ignores blank (de_init d).
Proof.
  intros blank V D A fs na aa mx ms ss OK NE. split.
  - exact (sequence_group blank fs false na aa mx ms ss OK eq_refl NE).
  - exact (sequence_ignores blank fs false na aa mx ms ss OK NE).
Qed.
Print Assumptions C68_sequence_group.

(** a, then up to two b, then possibly c: [<r><a>1</a> <b>2</b><b>3</b></r>]. *)
Definition seq_ms := [ex_m "a" 1 (Bounded 1); ex_m "b" 0 (Bounded 2); ex_m "c" 0 (Bounded 1)].
Definition seq_ss := [ex_s "a" 1 (Bounded 1); ex_s "b" 0 (Bounded 2); ex_s "c" 0 (Bounded 1)].
Definition seq_doc := [EStart "r" []] ++ (ex_el "a" "1" ++ EText " " :: ex_el "b" "2" ++ ex_el "b" "3") ++ [EEnd "r"].
Example C68_example : Forall2 (member_ok ex_blank) seq_ms seq_ss /\ exists h',
  element_of ex_attrs
    (fun a h evs v h' => exists p, follows ex_blank seq_ss (first_place seq_ss) h evs p h' /\
       fst v = a /\ settled_at seq_ss p (snd v)) dhelper_default seq_doc (tt, [["1"]; ["2"; "3"]; []]) h'.
Proof.
  split; [ex_members|]. eexists. left.
  eexists _, _, _, _, _, (ex_el "a" "1" ++ EText " " :: ex_el "b" "2" ++ ex_el "b" "3"), _, _.
  split; [reflexivity|]. split; [reflexivity|]. split; [reflexivity|]. split.
  - eexists. split.
    + eapply (follows_item ex_blank seq_ss 0 _ _ _ (ex_el "a" "1") 0 (ex_s "a" 1 (Bounded 1))); [reflexivity|ex_occ| |].
      { intros e evs' h0 E H. injection E as <- <-. vm_compute in H. injection H as <-. split; [intros (l & [] & _)|].
        exists (ex_s "a" 1 (Bounded 1)). split; [reflexivity|]. left. split; [reflexivity|]. cbn. lia. }
      eapply follows_space; [reflexivity|reflexivity|].
      eapply (follows_item ex_blank seq_ss 0 _ _ _ (ex_el "b" "2") 1 (ex_s "b" 0 (Bounded 2))); [reflexivity|ex_occ| |].
      { intros e evs' h0 E H. injection E as <- <-. vm_compute in H. injection H as <-. split; [intros (l & [] & _)|].
        exists (ex_s "a" 1 (Bounded 1)). split; [reflexivity|]. right. split; [lia|]. split; [left; cbn; lia|]. split; [cbn; intros; lia|intros k t K; lia]. }
      rewrite <- (app_nil_r (ex_el "b" "3")).
      eapply (follows_item ex_blank seq_ss 1 _ _ _ (ex_el "b" "3") 1 (ex_s "b" 0 (Bounded 2))); [reflexivity|ex_occ| |].
      { intros e evs' h0 E H. injection E as <- <-. vm_compute in H. injection H as <-. split; [intros (l & [] & _)|].
        exists (ex_s "b" 0 (Bounded 2)). split; [reflexivity|]. left. split; [reflexivity|]. cbn. lia. }
      apply follows_stop.
    + split; [reflexivity|]. split; [reflexivity|]. split; [reflexivity|].
      intros [|[|[|k]]] s E; cbn in E; try (destruct k; discriminate E); injection E as <-; left; cbn; split; auto; lia.
  - reflexivity.
Qed.
Example C68_runs : driver_run (seq_deser ex_attrs true tt false false seq_ms) ex_blank driver_new seq_doc =
  RDone (tt, [["1"]; ["2"; "3"]; []]) [].
Proof. vm_compute. reflexivity. Qed.

(** A sequence whose last child must occur at least twice accepts documents with only one. *)
Theorem C68_minimum_refuted : ~ forall h evs v h',
  reads_element ex_blank (seq_deser ex_attrs true tt false false [ex_m "a" 1 (Bounded 1); ex_m "b" 2 (Bounded 3)]) h evs v h' ->
  2 <= length (nth 1 (snd v) []).
Proof.
  intros H. assert (R : exists h', reads_element ex_blank (seq_deser ex_attrs true tt false false [ex_m "a" 1 (Bounded 1); ex_m "b" 2 (Bounded 3)])
    dhelper_default ([EStart "r" []] ++ ex_el "a" "1" ++ ex_el "b" "2" ++ [EEnd "r"]) (tt, [["1"]; ["2"]]) h').
  { eexists. repeat first [eapply begins_more; [reflexivity|reflexivity|exact I|]|eapply feeds_last; [reflexivity|reflexivity|exact I|discriminate]|eapply feeds_step; [reflexivity|reflexivity|exact I|]]. }
  destruct R as (h' & R). apply H in R. cbn in R. lia.
Qed.
Print Assumptions C68_minimum_refuted.

(** ** C69: choices *)

Theorem C69_choice_element : forall blank (V D A : Type) (from_start : dhelper -> bytes -> list attr -> outcome kind (A * dhelper))
    allow_any mixed defaultable (ms : list (member V D)) (ss : list (slot V)) h evs v h',
  Forall2 (member_ok blank) ms ss -> (defaultable = true -> ms <> []) ->
  element_of from_start (fun _ h evs v h' => choice_content blank defaultable ss h evs v h') h evs v h' ->
  reads_element blank (enum_deser from_start true allow_any mixed defaultable ms) h evs v h'.
Proof. intros blank V D A fs aa mx df ms ss h evs v h' OK NE. exact (choice_element blank fs true aa mx df ms ss OK h evs v h' eq_refl NE). Qed.
Print Assumptions C69_choice_element.

Theorem C69_choice_group : forall blank (V D A : Type) (from_start : dhelper -> bytes -> list attr -> outcome kind (A * dhelper))
    allow_any mixed defaultable (ms : list (member V D)) (ss : list (slot V)),
  Forall2 (member_ok blank) ms ss ->
  let d := enum_deser from_start false allow_any mixed defaultable ms in
  implements blank d (de_init d) (choice_lang blank ss) /\ ignores blank (de_init d).
Proof.
  intros blank V D A fs aa mx df ms ss OK. split.
  - exact (choice_group blank fs false aa mx df ms ss OK eq_refl).
  - exact (choice_ignores blank fs false aa mx df ms ss OK).
Qed.
Print Assumptions C69_choice_group.

(** a, or one to three b: [<r> <b>2</b><b>3</b></r>]. *)
Definition choice_ms := [ex_m "a" 1 (Bounded 1); ex_m "b" 1 (Bounded 3)].
Definition choice_ss := [ex_s "a" 1 (Bounded 1); ex_s "b" 1 (Bounded 3)].
Definition choice_body := EText " " :: ex_el "b" "2" ++ ex_el "b" "3".
Definition choice_doc := [EStart "r" []] ++ choice_body ++ [EEnd "r"].

Definition ex_inside : dhelper :=
  match dh_event dhelper_default (EStart "r" []) with Some h => h | None => dhelper_default end.

Lemma ex_repeated : exists more h', repeated ex_blank (ex_s "b" 1 (Bounded 3)) ex_inside choice_body ["2"; "3"] more h'.
Proof.
  eexists. eexists. eexists. split.
  - eapply follows_space; [reflexivity|reflexivity|].
    eapply (follows_item ex_blank _ 0 _ _ _ (ex_el "b" "2") 0 (ex_s "b" 1 (Bounded 3))); [reflexivity|ex_occ| |].
    { intros e evs' h0 E H. injection E as <- <-. cbn in H. injection H as <-. split; [intros (l & [] & _)|].
      exists (ex_s "b" 1 (Bounded 3)). split; [reflexivity|]. left. split; [reflexivity|]. cbn. lia. }
    rewrite <- (app_nil_r (ex_el "b" "3")).
    eapply (follows_item ex_blank _ 0 _ _ _ (ex_el "b" "3") 0 (ex_s "b" 1 (Bounded 3))); [reflexivity|ex_occ| |].
    { intros e evs' h0 E H. injection E as <- <-. split; [intros (l & [] & _)|].
      exists (ex_s "b" 1 (Bounded 3)). split; [reflexivity|]. left. split; [reflexivity|]. cbn. lia. }
    apply follows_stop.
  - split; [reflexivity|]. split; [reflexivity|]. split; [reflexivity|].
    intros [|k] s E; cbn in E; try (destruct k; discriminate E); injection E as <-; left; cbn; split; auto; lia.
Qed.

Example C69_example : Forall2 (member_ok ex_blank) choice_ms choice_ss /\ exists h',
  element_of ex_attrs (fun _ h evs v h' => choice_content ex_blank false choice_ss h evs v h')
    dhelper_default choice_doc (1, ["2"; "3"]) h'.
Proof.
  split; [ex_members|]. destruct ex_repeated as (more & h' & R).
  assert (E : dh_event h' (EEnd "r") <> None) by (cbn; discriminate).
  destruct (dh_event h' (EEnd "r")) as [h''|] eqn:EE; [clear E|elim E; reflexivity].
  exists h''. left. exists "r", [], ex_inside, tt, ex_inside, choice_body, "r", h'.
  split; [reflexivity|]. split; [reflexivity|]. split; [reflexivity|]. split; [|exact EE].
  left. exists (ex_s "b" 1 (Bounded 3)), more. split; [reflexivity|]. split; [exact R|].
  split; [exists (EStart "b" []); split; [right; left; reflexivity|reflexivity]|].
  intros sp e rest h1 h2 k t EQ SP TE E2 NK DI.
  assert (EB : e = EStart "b" []).
  { destruct sp as [|x sp]; [injection EQ as <- _; discriminate TE|]. injection EQ as <- EQ.
    destruct sp as [|y sp]; [injection EQ as <- _; reflexivity|]. injection EQ as <- _.
    inversion SP as [|h3 e3 h4 evs3 h5 _ _ SP']; subst. inversion SP' as [|h6 e6 h7 evs6 h8 IG]; subst. discriminate IG. }
  subst e. destruct k as [|[|k]]; [|elim DI; reflexivity|destruct k; discriminate NK]. injection NK as <-. not_fits.
Qed.
Example C69_runs : driver_run (enum_deser ex_attrs true false false false choice_ms) ex_blank driver_new choice_doc =
  RDone (1, ["2"; "3"]) [].
Proof. vm_compute. reflexivity. Qed.

(** ** C70: types whose content is another particle *)

Theorem C70_content_element : forall blank (V D A : Type) from_start (no_attrs : A)
    (m : member V D) (s : slot V) h evs v h',
  member_ok blank m s -> m_kind m = KindGroup ->
  element_of from_start
    (fun a h evs v h' => fst v = a /\ exists more, repeated blank s h evs (snd v) more h') h evs v h' ->
  reads_element blank (cdes_deser from_start true no_attrs m) h evs v h'.
Proof. intros blank V D A fs na m s h evs v h' OK KG. exact (content_element blank fs true na m s OK KG h evs v h' eq_refl). Qed.
Print Assumptions C70_content_element.

Theorem C70_content_group : forall blank (V D A : Type) (from_start : dhelper -> bytes -> list attr -> outcome kind (A * dhelper))
    (no_attrs : A) (m : member V D) (s : slot V),
  member_ok blank m s -> m_kind m = KindGroup -> can_refuse m ->
  let d := cdes_deser from_start false no_attrs m in
  implements blank d (de_init d) (content_lang blank no_attrs s) /\ ignores blank (de_init d).
Proof.
  intros blank V D A fs na m s OK KG CR. split.
  - exact (content_group blank fs false na m s OK KG eq_refl CR).
  - exact (content_ignores blank fs false na m s OK KG).
Qed.
Print Assumptions C70_content_group.

(** One to three times the sequence a, b: [<r><a>1</a><b>2</b><a>3</a><b>4</b></r>]. *)
Definition pair_ms := [ex_m "a" 1 (Bounded 1); ex_m "b" 1 (Bounded 1)].
Definition pair_ss := [ex_s "a" 1 (Bounded 1); ex_s "b" 1 (Bounded 1)].
Definition content_m : member (unit * list (list bytes)) (sdes (V:=bytes) (D:=bytes) (A:=unit)) :=
  Member "" None KindGroup 1 (Bounded 3) false false None (seq_deser ex_attrs false tt false false pair_ms).
Definition content_s : slot (unit * list (list bytes)) :=
  Slot (sequence_lang ex_blank tt pair_ss) 1 (Bounded 3) None.
Definition pair_evs (x y : bytes) := ex_el "a" x ++ ex_el "b" y.
Definition content_doc := [EStart "r" []] ++ (pair_evs "1" "2" ++ pair_evs "3" "4") ++ [EEnd "r"].

Lemma content_ok : member_ok ex_blank content_m content_s.
Proof.
  assert (PO : Forall2 (member_ok ex_blank) pair_ms pair_ss) by ex_members.
  destruct (C68_sequence_group ex_blank _ _ _ ex_attrs tt false false pair_ms pair_ss PO ltac:(discriminate)) as [IM IG].
  split; [exact IG|]. split; [intros any; exact IM|]. split; [cbn; lia|]. split; [reflexivity|]. split; [reflexivity|]. right. exact I.
Qed.

Ltac pair_occ :=
  split; [eexists; eexists; split; reflexivity|]; eexists; split;
  [eapply (follows_item ex_blank pair_ss 0 _ _ _ (ex_el "a" _) 0 (ex_s "a" 1 (Bounded 1))); [reflexivity|ex_occ| |];
   [intros e evs' h0 E H; injection E as <- <-; split; [intros (l & [] & _)|];
    exists (ex_s "a" 1 (Bounded 1)); split; [reflexivity|]; left; split; [reflexivity|cbn; lia]|];
   rewrite <- (app_nil_r (ex_el "b" _));
   eapply (follows_item ex_blank pair_ss 0 _ _ _ (ex_el "b" _) 1 (ex_s "b" 1 (Bounded 1))); [reflexivity|ex_occ| |];
   [intros e evs' h0 E H; injection E as <- <-; split; [intros (l & [] & _)|];
    exists (ex_s "a" 1 (Bounded 1)); split; [reflexivity|]; right; split; [lia|]; split; [left; cbn; lia|]; split; [cbn; intros; lia|intros k t K; lia]|];
   apply follows_stop|];
  split; [reflexivity|]; split; [reflexivity|]; split; [reflexivity|]; split; [reflexivity|];
  intros [|[|k]] s E; cbn in E; try (destruct k; discriminate E); injection E as <-; left; cbn; split; auto; lia.

Example C70_example : member_ok ex_blank content_m content_s /\ m_kind content_m = KindGroup /\ exists h',
  element_of ex_attrs
    (fun a h evs v h' => fst v = a /\ exists more, repeated ex_blank content_s h evs (snd v) more h')
    dhelper_default content_doc (tt, [(tt, [["1"]; ["2"]]); (tt, [["3"]; ["4"]])]) h'.
Proof.
  split; [exact content_ok|]. split; [reflexivity|]. eexists. left.
  eexists _, _, _, _, _, (pair_evs "1" "2" ++ pair_evs "3" "4"), _, _.
  split; [reflexivity|]. split; [reflexivity|]. split; [reflexivity|]. split.
  - split; [reflexivity|]. eexists. eexists. split.
    + eapply (follows_item ex_blank [content_s] 0 _ _ _ (pair_evs "1" "2") 0 content_s (tt, [["1"]; ["2"]])); [reflexivity| | |].
      * cbn [s_lang content_s sequence_lang l_occ]. pair_occ.
      * intros e evs' h0 E H; injection E as <- <-; split; [intros (l & [] & _)|].
        exists content_s. split; [reflexivity|]. left. split; [reflexivity|]. cbn. lia.
      * rewrite <- (app_nil_r (pair_evs "3" "4")).
        eapply (follows_item ex_blank [content_s] 0 _ _ _ (pair_evs "3" "4") 0 content_s (tt, [["3"]; ["4"]])); [reflexivity| | |].
        -- cbn [s_lang content_s sequence_lang l_occ]. pair_occ.
        -- intros e evs' h0 E H; injection E as <- <-. vm_compute in H. injection H as <-. split.
           ++ intros (l & ML & C). destruct ML as [[]|[(s & E & RM & _)|(k & s & LT & E & _)]].
              ** injection E as <-. cbn in RM. lia.
              ** destruct k as [|[|k]]; [lia|lia|destruct k; discriminate E].
           ++ exists content_s. split; [reflexivity|]. left. split; [reflexivity|]. cbn. lia.
        -- apply follows_stop.
    + split; [reflexivity|]. split; [reflexivity|]. split; [reflexivity|].
      intros [|k] s E; cbn in E; try (destruct k; discriminate E); injection E as <-; left; cbn; split; auto; lia.
  - reflexivity.
Qed.
Example C70_runs : driver_run (cdes_deser ex_attrs true tt content_m) ex_blank driver_new content_doc =
  RDone (tt, [(tt, [["1"]; ["2"]]); (tt, [["3"]; ["4"]])]) [].
Proof. vm_compute. reflexivity. Qed.
(** The generator makes such groups only for content that occurs once. *)
Example C70_group_example :
  let m := Member "" None KindGroup 1 (Bounded 1) false false None (seq_deser ex_attrs false tt false false pair_ms) in
  member_ok ex_blank m (Slot (sequence_lang ex_blank tt pair_ss) 1 (Bounded 1) None) /\ m_kind m = KindGroup /\ can_refuse m.
Proof.
  destruct content_ok as (IG & IM & _). split; [|split; [reflexivity|right; right; left; reflexivity]].
  split; [exact IG|]. split; [exact IM|]. split; [cbn; lia|]. split; [reflexivity|]. split; [reflexivity|]. right. exact I.
Qed.

(** ** C71: particles in any order *)

Theorem C71_all_element : forall blank (V D A : Type) from_start (no_attrs : A) allow_any
    (ms : list (member V D)) (ss : list (slot V)) h evs v h',
  Forall2 (member_ok blank) ms ss ->
  element_of from_start
    (fun a h evs v h' => exists p, scattered blank ss (first_place ss) h evs p h' /\
       fst v = a /\ settled_at ss p (snd v)) h evs v h' ->
  reads_element blank (all_deser from_start true no_attrs allow_any ms) h evs v h'.
Proof. intros blank V D A fs na aa ms ss h evs v h' OK. exact (all_element blank fs true na aa ms ss OK h evs v h' eq_refl). Qed.
Print Assumptions C71_all_element.

Theorem C71_all_group : forall blank (V D A : Type) (from_start : dhelper -> bytes -> list attr -> outcome kind (A * dhelper))
    (no_attrs : A) allow_any (ms : list (member V D)) (ss : list (slot V)),
  Forall2 (member_ok blank) ms ss ->
  let d := all_deser from_start false no_attrs allow_any ms in
  implements blank d (de_init d) (all_lang blank no_attrs ss) /\ ignores blank (de_init d).
Proof.
  intros blank V D A fs na aa ms ss OK. split.
  - exact (all_group blank fs false na aa ms ss OK eq_refl).
  - exact (all_ignores blank fs false na aa ms ss OK).
Qed.
Print Assumptions C71_all_group.

(** a and b in any order, c may be missing: [<r><b>2</b> <a>1</a></r>]. *)
Definition all_ms := [ex_m "a" 1 (Bounded 1); ex_m "b" 1 (Bounded 1); ex_m "c" 0 (Bounded 1)].
Definition all_ss := [ex_s "a" 1 (Bounded 1); ex_s "b" 1 (Bounded 1); ex_s "c" 0 (Bounded 1)].
Definition all_doc := [EStart "r" []] ++ (ex_el "b" "2" ++ EText " " :: ex_el "a" "1") ++ [EEnd "r"].
Example C71_example : Forall2 (member_ok ex_blank) all_ms all_ss /\ exists h',
  element_of ex_attrs
    (fun a h evs v h' => exists p, scattered ex_blank all_ss (first_place all_ss) h evs p h' /\
       fst v = a /\ settled_at all_ss p (snd v)) dhelper_default all_doc (tt, [["1"]; ["2"]; []]) h'.
Proof.
  split; [ex_members|]. eexists. left.
  eexists _, _, _, _, _, (ex_el "b" "2" ++ EText " " :: ex_el "a" "1"), _, _.
  split; [reflexivity|]. split; [reflexivity|]. split; [reflexivity|]. split.
  - eexists. split.
    + eapply (scattered_item ex_blank all_ss 0 _ _ _ (ex_el "b" "2") 1 (ex_s "b" 1 (Bounded 1))); [reflexivity|ex_occ|cbn; lia| |].
      { intros e evs' h0 E H. injection E as <- <-. split; [intros (l & [] & _)|].
        intros [|[|[|k]]] t E DI; cbn in E; try (destruct k; discriminate E); try (elim DI; reflexivity); injection E as <-; not_fits. }
      eapply scattered_space; [reflexivity|reflexivity|].
      rewrite <- (app_nil_r (ex_el "a" "1")).
      eapply (scattered_item ex_blank all_ss 1 _ _ _ (ex_el "a" "1") 0 (ex_s "a" 1 (Bounded 1))); [reflexivity|ex_occ|cbn; lia| |].
      { intros e evs' h0 E H. injection E as <- <-. split; [intros (l & [] & _)|].
        intros [|[|[|k]]] t E DI; cbn in E; try (destruct k; discriminate E); try (elim DI; reflexivity); injection E as <-; not_fits. }
      apply scattered_stop.
    + split; [reflexivity|]. split; [reflexivity|]. split; [reflexivity|].
      intros [|[|[|k]]] s E; cbn in E; try (destruct k; discriminate E); injection E as <-; left; cbn; split; auto; lia.
  - reflexivity.
Qed.
Example C71_runs : driver_run (all_deser ex_attrs true tt false all_ms) ex_blank driver_new all_doc =
  RDone (tt, [["1"]; ["2"]; []]) [].
Proof. vm_compute. reflexivity. Qed.

(** ** C74: unexpected input does not make a deserializer panic *)

(** The element a may be anything inside, so an unknown element after it is skipped; then
    the machine of the choice is in a state it cannot leave. *)
Definition open_m (name : bytes) (min : nat) (max : max_occurs) : member bytes bytes :=
  Member name None KindElement min max false true None ex_text.
Theorem C74_no_panic_refuted : ~ forall (ms : list (member bytes bytes)) evs,
  driver_run (enum_deser ex_attrs true false false false ms) ex_blank driver_new evs <> RPanic.
Proof.
  intros H. apply (H [open_m "a" 1 (Bounded 1); ex_m "b" 1 (Bounded 1)]
    ([EStart "p" []] ++ ex_el "a" "1" ++ [EEmpty "z" []; EEnd "p"])). vm_compute. reflexivity.
Qed.
Print Assumptions C74_no_panic_refuted.

(** Proofs about documentation. *)
From Verif Require Import Base FacetModel SerHelperModel SerHelperSpec SerHelperProofs.
From Verif Require Import DeModel DeSpec DeProofs ElementModel ElementSpec ElementProofs AnnoModel AnnoSpec.

Fixpoint empties (t : xtree) : nat :=
  match t with
  | XLeaf _ => 0
  | XEmpty _ _ => 1
  | XElem _ _ kids => list_sum (map empties kids)
  end.

Fixpoint xtree_nested (P : xtree -> Prop) (L : forall e, P (XLeaf e)) (E : forall n a, P (XEmpty n a))
    (K : forall n a kids, Forall P kids -> P (XElem n a kids)) (t : xtree) : P t :=
  match t with
  | XLeaf e => L e
  | XEmpty n a => E n a
  | XElem n a kids => K n a kids
      ((fix go l : Forall P l := match l with [] => Forall_nil P | x :: l' => Forall_cons x (xtree_nested P L E K x) (go l') end) kids)
  end.

Lemma tree_events : forall t, proper t = true -> forall level rest,
  doc_events (S level) (flatten t ++ rest) = flatten t ++ doc_events (S level + empties t) rest.
Proof.
  induction t as [e|n a|n a kids IH] using xtree_nested; intros P level rest.
  - cbn in P. destruct e; try discriminate; cbn [flatten app doc_events doc_event empties];
      rewrite Nat.add_0_r; reflexivity.
  - cbn [flatten app doc_events doc_event empties]. rewrite Nat.add_1_r. reflexivity.
  - cbn [flatten empties]. cbn in P. rewrite <- app_comm_cons, <- app_assoc.
    assert (F : forall level rest, doc_events (S level) (flat_map flatten kids ++ rest) =
      flat_map flatten kids ++ doc_events (S level + list_sum (map empties kids)) rest).
    { clear rest level. induction kids as [|k kids IHk]; intros level rest; cbn [flat_map map list_sum fold_right].
      - rewrite Nat.add_0_r. reflexivity.
      - cbn in P. apply andb_prop in P. destruct P as [P1 P2]. inversion IH as [|? ? I1 I2]; subst.
        rewrite <- !app_assoc, (I1 P1). cbn [plus].
        rewrite (IHk I2 P2). f_equal. f_equal. f_equal. cbn [plus]. fold (list_sum (map empties kids)). lia. }
    cbn [doc_events doc_event]. cbn [app]. change (Nat.ltb 0 (S level)) with true. cbv iota. cbn [app].
    rewrite F. rewrite <- ?app_comm_cons, <- ?app_assoc. f_equal.
Qed.

Lemma forest_events : forall kids, forallb proper kids = true -> forall level rest,
  doc_events (S level) (flat_map flatten kids ++ rest) =
  flat_map flatten kids ++ doc_events (S level + list_sum (map empties kids)) rest.
Proof.
  induction kids as [|k kids IHk]; intros P level rest; cbn [flat_map map list_sum fold_right].
  - rewrite Nat.add_0_r. reflexivity.
  - cbn in P. apply andb_prop in P. destruct P as [P1 P2].
    rewrite <- !app_assoc, (tree_events k P1). cbn [plus].
    rewrite (IHk P2). f_equal. f_equal. f_equal. cbn [plus]. fold (list_sum (map empties kids)). lia.
Qed.

Lemma no_empties : forall t, has_empty t = false <-> empties t = 0.
Proof.
  induction t as [e|n a|n a kids IH] using xtree_nested; cbn [has_empty empties]; try (split; congruence).
  induction kids as [|k kids IHk]; cbn; [split; reflexivity|].
  inversion IH as [|? ? I1 I2]; subst. fold (list_sum (map empties kids)).
  rewrite orb_false_iff, I1, (IHk I2). lia.
Qed.

Lemma no_empties_forest : forall kids, existsb has_empty kids = false <-> list_sum (map empties kids) = 0.
Proof.
  induction kids as [|k kids IH]; cbn; [split; reflexivity|]. fold (list_sum (map empties kids)).
  rewrite orb_false_iff, no_empties, IH. lia.
Qed.

Lemma events_exact : forall t, proper t = true -> root_name t <> None ->
  doc_events 0 (flatten t) =
  content_of t ++ match t with XElem n _ _ => if empty_inside t then [EEnd n] else [] | _ => [] end.
Proof.
  intros [e|n a|n a kids] P R; cbn [root_name] in R; try congruence.
  - reflexivity.
  - cbn [flatten doc_events doc_event content_of empty_inside]. change (Nat.ltb 0 0) with false. cbn [app].
    cbn in P. rewrite (forest_events kids P 0 [EEnd n]). f_equal.
    cbn [plus doc_events doc_event Nat.sub]. rewrite Nat.sub_0_r.
    destruct (existsb has_empty kids) eqn:X.
    + destruct (list_sum (map empties kids)) eqn:Z.
      * apply no_empties_forest in Z. congruence.
      * reflexivity.
    + apply no_empties_forest in X. rewrite X. reflexivity.
Qed.

Lemma docs_exact : forall utf8_ok write_event unindent l ts docs,
  Forall2 (fun e t => stands_for utf8_ok e t /\ empty_inside t = false)
    (flat_map (fun c => match c with AnnDocumentation e => [e] | AnnAppinfo _ => [] end) l) ts ->
  exists N, forall fuel, N < fuel ->
    extract_docs utf8_ok write_event unindent fuel l docs = Some (docs ++ docs_of write_event unindent ts, true).
Proof.
  intros utf8_ok write_event unindent l. induction l as [|[e|e] l IH]; intros ts docs F; cbn [flat_map app] in F.
  - inversion F; subst. exists 0. intros. cbn. rewrite app_nil_r. reflexivity.
  - inversion F as [|? t ? ts' [(P & R & N1 & E1) X] F2]; subst.
    assert (D : doc_events 0 (flatten t) = content_of t).
    { rewrite (events_exact t P R). destruct t; cbn [app]; rewrite ?app_nil_r; auto. rewrite X, app_nil_r. reflexivity. }
    destruct (IH ts' (push_doc unindent docs (flat_map write_event (content_of t))) F2) as [N2 E2].
    exists (N1 + N2). intros fuel L. cbn [extract_docs]. rewrite E1 by lia. rewrite D, E2 by lia.
    unfold docs_of, push_doc. cbn [flat_map].
    destruct (flat_map write_event (content_of t)) eqn:W; cbn [app]; [reflexivity|].
    rewrite <- app_assoc. reflexivity.
  - destruct (IH ts docs F) as [N E]. exists N. intros. cbn [extract_docs]. auto.
Qed.

Lemma childless_tree : forall e n h, has_empty (tree_of n e h) = childless e.
Proof.
  induction e as [n0 a m vs IH] using element_ind'. intros n h. rewrite tree_of_eq. cbn [el_values].
  destruct vs as [|v vs]; [reflexivity|]. cbn [has_empty childless].
  generalize (fst (start_of (Element n0 a m (v :: vs)) h)). intro h1. revert IH. generalize (v :: vs). clear v vs.
  induction l as [|v l IHl]; intro F; [reflexivity|]. inversion F as [|? ? F1 F2]; subst.
  cbn [map existsb]. rewrite (IHl F2). f_equal. destruct v as [x| | |]; cbn [vtree]; try reflexivity. apply F1.
Qed.

Lemma childless_inside_tree : forall e n h, empty_inside (tree_of n e h) = childless_inside e.
Proof.
  intros [n0 a m vs] n h. rewrite tree_of_eq. unfold childless_inside. cbn [el_values].
  destruct vs as [|v vs]; [reflexivity|]. cbn [empty_inside].
  generalize (fst (start_of (Element n0 a m (v :: vs)) h)). intro h1. generalize (v :: vs). clear v vs.
  induction l as [|v l IHl]; [reflexivity|]. cbn [map existsb]. rewrite IHl. f_equal.
  destruct v as [x| | |]; cbn [vtree]; try reflexivity. apply childless_tree.
Qed.

(** Lines. *)
Lemma split_not_nil : forall s cur, split_lines cur s <> [].
Proof. induction s as [|c s IH]; intros cur; cbn; [discriminate|]. destruct (N.eqb c 10); [discriminate|apply IH]. Qed.

Lemma split_join : forall s cur, join_lines (split_lines cur s) = rev cur ++ s.
Proof.
  induction s as [|c s IH]; intros cur; cbn [split_lines].
  - cbn. rewrite app_nil_r. reflexivity.
  - destruct (N.eqb_spec c 10) as [->|NE].
    + pose proof (IH []) as J. cbn [rev app] in J. pose proof (split_not_nil s []) as Z.
      destruct (split_lines [] s) as [|x l]; [congruence|].
      change (join_lines (rev cur :: x :: l)) with (rev cur ++ 10%N :: join_lines (x :: l)). rewrite J. reflexivity.
    + rewrite IH. cbn [rev]. rewrite <- app_assoc. reflexivity.
Qed.

Lemma split_no_break : forall s cur, ~ In 10%N cur -> forall x, In x (split_lines cur s) -> ~ In 10%N x.
Proof.
  induction s as [|c s IH]; intros cur N x I1; cbn [split_lines] in I1.
  - destruct I1 as [<-|[]]. rewrite <- in_rev. exact N.
  - destruct (N.eqb_spec c 10) as [->|NE].
    + destruct I1 as [<-|I1]; [rewrite <- in_rev; exact N|]. eapply IH; [|exact I1]. intros [].
    + eapply IH; [|exact I1]. intros [X|X]; congruence.
Qed.

Lemma split_lines_of : forall s, lines_of s (split_lines [] s).
Proof.
  intro s. split; [apply split_not_nil|]. split; [apply (split_join s [])|].
  apply split_no_break. intros [].
Qed.

Lemma trim_start_spec : forall s, exists w, s = w ++ str_trim_start s /\ (forall c, In c w -> unicode_ws c = true) /\
  forall c y, str_trim_start s = c :: y -> unicode_ws c = false.
Proof.
  induction s as [|c s (w & E & W & F)]; cbn [str_trim_start].
  - exists []. repeat split; [intros ? []|discriminate].
  - destruct (unicode_ws c) eqn:U.
    + exists (c :: w). split; [cbn; congruence|]. split; [|exact F]. intros d [<-|D]; auto.
    + exists []. split; [reflexivity|]. split; [intros ? []|]. intros d y H. congruence.
Qed.

Lemma trim_end_spec : forall s, without_end s (str_trim_end s).
Proof.
  intro s. destruct (trim_start_spec (rev s)) as (w & E & W & F). unfold str_trim_end. split.
  - exists (rev w). split.
    + rewrite <- (rev_involutive s) at 1. rewrite E at 1. rewrite rev_app_distr. reflexivity.
    + intros c I1. apply W. apply in_rev. exact I1.
  - intros y c X. apply (f_equal (@rev N)) in X. rewrite rev_involutive, rev_app_distr in X. cbn in X. eapply F; exact X.
Qed.

Lemma render_docs_lines : forall docs, exists ls out,
  render_docs true docs = Some out /\ Forall2 lines_of docs ls /\ Forall2 without_end (concat ls) out.
Proof.
  intro docs. exists (map (split_lines []) docs). eexists. split; [reflexivity|]. split.
  - induction docs; constructor; auto using split_lines_of.
  - rewrite <- flat_map_concat_map. generalize (flat_map (split_lines []) docs). intro l.
    induction l; constructor; auto using trim_end_spec.
Qed.

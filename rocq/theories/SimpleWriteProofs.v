(** Writing the values of simple types and reading them again. *)
From Verif Require Import SimpleModel SimpleWriteModel SimpleWriteSpec SimpleSpec SimpleTextProofs SimpleProofs FacetProofs.

Section SmetaInd.
  Variable P : smeta -> Prop.
  Hypothesis HB : forall b, P (MBuildIn b).
  Hypothesis HR : forall ty l, P ty -> P (MRef ty l).
  Hypothesis HS : forall base l c, P base -> P (MSimple base l c).
  Hypothesis HE : forall c vs, P (MEnum c vs).
  Hypothesis HU : forall c ts, Forall P ts -> P (MUnion c ts).
  Fixpoint smeta_nested (m : smeta) : P m :=
    match m with
    | MBuildIn b => HB b
    | MRef ty l => HR ty l (smeta_nested ty)
    | MSimple base l c => HS base l c (smeta_nested base)
    | MEnum c vs => HE c vs
    | MUnion c ts => HU c ts ((fix all (l : list smeta) : Forall P l :=
        match l with [] => Forall_nil P | m :: l' => Forall_cons m (smeta_nested m) (all l') end) ts)
    end.
End SmetaInd.

(** ** Texts *)

Definition uword (w : list N) : Prop := w <> [] /\ forallb (fun c => negb (unicode_ws c)) w = true.
Definition tidy (s : list N) : Prop := exists l, s = join_blank l /\ Forall uword l.
Definition tab (c : N) : bool := ((c =? 9) || (c =? 10) || (c =? 13))%N.
Definition no_tab (s : list N) : Prop := Forall (fun c => tab c = false) s.

Lemma tab_unicode c : tab c = true -> unicode_ws c = true.
Proof.
  unfold tab, unicode_ws. intros H. apply orb_true_iff in H as [H|H]; [apply orb_true_iff in H as [H|H]|];
  apply N.eqb_eq in H; subst; reflexivity.
Qed.
Lemma ascii_unicode c : ascii_ws c = true -> unicode_ws c = true.
Proof.
  unfold ascii_ws. intros H. rewrite !orb_true_iff, !N.eqb_eq in H. intuition; subst; reflexivity.
Qed.
Lemma sep_unicode c : item_sep c = true -> unicode_ws c = true.
Proof.
  unfold item_sep. intros H. rewrite !orb_true_iff, !N.eqb_eq in H. intuition; subst; reflexivity.
Qed.
Lemma sep_ascii c : item_sep c = true -> ascii_ws c = true.
Proof.
  unfold item_sep. intros H. rewrite !orb_true_iff, !N.eqb_eq in H. intuition; subst; reflexivity.
Qed.
Lemma tab_sep c : tab c = true -> item_sep c = true.
Proof.
  unfold tab. intros H. rewrite !orb_true_iff, !N.eqb_eq in H. intuition; subst; reflexivity.
Qed.

Lemma word_uword w : word w -> uword w.
Proof.
  intros (H1 & H2). split; [exact H1|]. apply forallb_forall. intros c Hc. rewrite Forall_forall in H2.
  rewrite visible_unicode by (apply H2, Hc). reflexivity.
Qed.
Lemma uword_tidy w : uword w -> tidy w.
Proof. intros H. exists [w]. split; [reflexivity|]. constructor; [exact H|constructor]. Qed.

Lemma in_join c l : In c (join_blank l) -> c = 32%N \/ exists w, In w l /\ In c w.
Proof.
  induction l as [|w l IH]; intros H; [destruct H|]. destruct l as [|w' l].
  - right. exists w. split; [left; reflexivity|exact H].
  - apply in_app_or in H as [H|[H|H]].
    + right. exists w. split; [left; reflexivity|exact H].
    + left. symmetry. exact H.
    + destruct (IH H) as [->|(x & Hx & Hc)]; [left; reflexivity|right]. exists x. split; [right; exact Hx|exact Hc].
Qed.

Lemma join_no_tab l : Forall no_tab l -> no_tab (join_blank l).
Proof.
  intros H. apply Forall_forall. intros c Hc. destruct (in_join _ _ Hc) as [->|(w & Hw & Hc')]; [reflexivity|].
  rewrite Forall_forall in H. specialize (H w Hw). unfold no_tab in H. rewrite Forall_forall in H. apply H, Hc'.
Qed.
Lemma uword_no_tab w : uword w -> no_tab w.
Proof.
  intros (_ & H). apply Forall_forall. intros c Hc. rewrite forallb_forall in H. specialize (H c Hc).
  destruct (tab c) eqn:E; [|reflexivity]. apply tab_unicode in E. rewrite E in H. discriminate.
Qed.
Lemma tidy_no_tab s : tidy s -> no_tab s.
Proof. intros (l & -> & H). apply join_no_tab. revert H. apply Forall_impl. exact uword_no_tab. Qed.

Lemma replace_no_tab s : no_tab (whitespace_replace s).
Proof.
  apply Forall_forall. intros c Hc. apply in_map_iff in Hc as (x & <- & _). fold (tab x).
  destruct (tab x) eqn:E; [reflexivity|exact E].
Qed.
Lemma no_tab_replace s : no_tab s -> whitespace_replace s = s.
Proof.
  intros H. apply map_same. revert H. apply Forall_impl. intros c Hc. fold (tab c). rewrite Hc. reflexivity.
Qed.

Lemma tidy_trim l : Forall uword l -> str_trim (join_blank l) = join_blank l.
Proof.
  intros HF. destruct l as [|w l]; [reflexivity|].
  destruct (join_first (w :: l)) as (c & r & Ec & Hc); [discriminate|exact HF|].
  destruct (join_last (w :: l)) as (c' & r' & Ec' & Hc'); [discriminate|exact HF|].
  unfold str_trim. rewrite Ec. rewrite trim_start_id by exact Hc. rewrite <- Ec, Ec', rev_app_distr. cbn [rev app].
  rewrite trim_start_id by exact Hc'. change (c' :: rev r') with ([c'] ++ rev r'). rewrite rev_app_distr, rev_involutive. reflexivity.
Qed.

Lemma tidy_norm w s : tidy s -> normalized w s = s.
Proof.
  intros H. destruct w; [reflexivity| |].
  - apply no_tab_replace, tidy_no_tab, H.
  - destruct H as (l & -> & H). cbn. rewrite (collapse_words l) by (apply join_words; [reflexivity|exact H]).
    apply tidy_trim, H.
Qed.
Lemma norm_tidy s : tidy (normalized WCollapse s).
Proof.
  destruct (words_total unicode_ws s) as (l & H). cbn. rewrite (collapse_words l s H).
  pose proof (words_not_empty _ _ _ H) as HF. rewrite tidy_trim by exact HF. exists l. auto.
Qed.

(** What writing does to texts. *)
Definition stable (t s : list N) : Prop := (no_tab t -> no_tab s) /\ (tidy t -> tidy s).

Lemma stable_refl t : stable t t.
Proof. split; auto. Qed.
Lemma tidy_stable t s : tidy s -> stable t s.
Proof. intros H. split; [intros _; apply tidy_no_tab, H|auto]. Qed.
Lemma word_stable t s : word s -> stable t s.
Proof. intros H. apply tidy_stable, uword_tidy, word_uword, H. Qed.
Lemma stable_norm w t s : stable (normalized w t) s -> normalized w s = s.
Proof.
  intros (H1 & H2). destruct w; [reflexivity| |].
  - apply no_tab_replace, H1, replace_no_tab.
  - apply tidy_norm, H2, norm_tidy.
Qed.
Lemma norm_stable w t s : stable (normalized w t) s -> stable t s.
Proof.
  intros (H1 & H2). split.
  - intros H. apply H1. destruct w; [exact H|apply replace_no_tab|apply tidy_no_tab, norm_tidy].
  - intros H. apply H2. rewrite tidy_norm by exact H. exact H.
Qed.

(** ** Lists *)

Definition sep_free (w : list N) : Prop := Forall (fun c => item_sep c = false) w.
(** Pieces that [list_items] finds again. *)
Definition inner (w : list N) : Prop :=
  (exists c r, w = c :: r /\ ascii_ws c = false) /\ exists c r, w = r ++ [c] /\ ascii_ws c = false.

Lemma split_free s : Forall sep_free (split_items s).
Proof.
  induction s as [|c s IH]; cbn; [repeat constructor|]. destruct (item_sep c) eqn:E.
  - constructor; [constructor|exact IH].
  - destruct (split_items s) as [|w ws]; [repeat constructor; exact E|]. inversion_clear IH. constructor; [constructor; assumption|assumption].
Qed.

Lemma split_join_one w s : sep_free w -> split_items (w ++ s) = match split_items s with x :: l => (w ++ x) :: l | [] => [w] end.
Proof.
  induction w as [|c w IH]; intros H; cbn.
  - destruct s as [|c s]; [reflexivity|]. cbn. destruct (item_sep c); [reflexivity|]. destruct (split_items s); reflexivity.
  - inversion_clear H as [|x y Hc Hw]. rewrite Hc, (IH Hw). destruct (split_items s); reflexivity.
Qed.

Lemma split_join l : l <> [] -> Forall sep_free l -> split_items (join_blank l) = l.
Proof.
  induction l as [|w l IH]; intros HN H; [elim HN; reflexivity|]. inversion_clear H as [|x y Hw Hl]. destruct l as [|w' l].
  - cbn [join_blank]. rewrite <- (app_nil_r w) at 1. rewrite split_join_one by exact Hw. cbn. rewrite app_nil_r. reflexivity.
  - change (join_blank (w :: w' :: l)) with (w ++ 32%N :: join_blank (w' :: l)). rewrite split_join_one by exact Hw.
    cbn [split_items]. change (item_sep 32) with true. cbv iota. rewrite IH by (discriminate || exact Hl).
    rewrite app_nil_r. reflexivity.
Qed.

(** Joining the pieces is the text with the separators replaced by blanks. *)
Lemma join_split s : join_blank (split_items s) = map (fun c => if item_sep c then 32%N else c) s.
Proof.
  induction s as [|c s IH]; [reflexivity|]. cbn [split_items map]. destruct (item_sep c).
  - assert (HN : split_items s <> []).
    { destruct s as [|d s]; [discriminate|]. cbn. destruct (item_sep d); [discriminate|]. destruct (split_items s); discriminate. }
    destruct (split_items s) as [|w ws]; [elim HN; reflexivity|]. cbn [join_blank app] in *. rewrite <- IH. reflexivity.
  - assert (HN : split_items s <> []).
    { destruct s as [|d s]; [discriminate|]. cbn. destruct (item_sep d); [discriminate|]. destruct (split_items s); discriminate. }
    destruct (split_items s) as [|w ws]; [elim HN; reflexivity|]. rewrite <- IH. destruct ws; reflexivity.
Qed.

Lemma trim_start_first s : match ascii_trim_start s with [] => True | c :: _ => ascii_ws c = false end.
Proof. induction s as [|c s IH]; cbn; [exact I|]. destruct (ascii_ws c) eqn:E; [exact IH|exact E]. Qed.
Lemma trim_start_last c r : ascii_ws c = false -> exists r', ascii_trim_start (r ++ [c]) = r' ++ [c].
Proof.
  intros H. induction r as [|d r IH]; cbn.
  - rewrite H. exists []. reflexivity.
  - destruct (ascii_ws d); [exact IH|]. exists (d :: r). reflexivity.
Qed.
Lemma trim_inner s : ascii_trim s = [] \/ inner (ascii_trim s).
Proof.
  unfold ascii_trim. pose proof (trim_start_first s) as H1. destruct (ascii_trim_start s) as [|c u]; [left; reflexivity|].
  right. cbn [rev]. destruct (trim_start_last c (rev u) H1) as (r' & E). pose proof (trim_start_first (rev u ++ [c])) as H2.
  rewrite E in *. destruct r' as [|d r'].
  - cbn. split; [exists c, []; auto|exists c, []; auto].
  - rewrite rev_app_distr. cbn [rev app]. cbn in H2. split; [exists c; eauto|]. exists d, (c :: rev r'). split; [reflexivity|exact H2].
Qed.
Lemma inner_trim s : inner s -> ascii_trim s = s.
Proof.
  intros ((c & r & E & Hc) & c' & r' & E' & Hc'). unfold ascii_trim. rewrite E, ascii_start_id by exact Hc. rewrite <- E, E', rev_app_distr.
  cbn [rev app]. rewrite ascii_start_id by exact Hc'. change (c' :: rev r') with ([c'] ++ rev r'). rewrite rev_app_distr, rev_involutive. reflexivity.
Qed.

(** [inner] of a joined text depends on its first and last piece. *)
Definition firm (l : list (list N)) : Prop :=
  (exists c r l', l = (c :: r) :: l' /\ ascii_ws c = false) /\ exists c r l', l = l' ++ [r ++ [c]] /\ ascii_ws c = false.

Lemma join_snoc l w : l <> [] -> join_blank (l ++ [w]) = join_blank l ++ 32%N :: w.
Proof.
  induction l as [|x l IH]; intros HN; [elim HN; reflexivity|]. destruct l as [|y l]; [reflexivity|].
  change (join_blank ((x :: y :: l) ++ [w])) with (x ++ 32%N :: join_blank ((y :: l) ++ [w])).
  rewrite IH by discriminate. change (join_blank (x :: y :: l)) with (x ++ 32%N :: join_blank (y :: l)).
  rewrite <- app_assoc. reflexivity.
Qed.
Lemma firm_inner l : firm l -> inner (join_blank l).
Proof.
  intros ((c & r & l1 & E1 & H1) & c' & r' & l2 & E2 & H2). split.
  - rewrite E1. exists c. destruct l1 as [|w l1]; [exists r; auto|]. exists (r ++ 32%N :: join_blank (w :: l1)). auto.
  - rewrite E2. exists c'. destruct l2 as [|w l2]; [exists r'; auto|]. exists (join_blank (w :: l2) ++ 32%N :: r').
    split; [|exact H2]. rewrite join_snoc by discriminate. rewrite <- app_assoc. reflexivity.
Qed.
Lemma inner_firm l : Forall sep_free l -> inner (join_blank l) -> firm l.
Proof.
  intros HF ((c & r & E & Hc) & c' & r' & E' & Hc'). split.
  - destruct l as [|w l]; [discriminate E|]. destruct w as [|d w].
    + destruct l as [|w' l]; [discriminate E|]. injection E as E _. subst c. discriminate Hc.
    + destruct l as [|w' l]; injection E as E _; subst d; exists c, w; eauto.
  - destruct (exists_last (l := l)) as (l' & w & ->); [intros ->; destruct r'; discriminate E'|].
    destruct (list_eq_dec N.eq_dec w []) as [->|HW].
    + destruct l' as [|x l']; [destruct r'; discriminate E'|]. rewrite join_snoc in E' by discriminate.
      apply app_inj_tail in E' as (_ & E'). subst c'. discriminate Hc'.
    + destruct (exists_last HW) as (u & d & ->). exists c', u, l'. split; [|exact Hc'].
      destruct l' as [|x l'].
      * cbn [join_blank app] in E'. apply app_inj_tail in E' as (_ & E'). subst d. reflexivity.
      * rewrite join_snoc in E' by discriminate. change (32%N :: u ++ [d]) with ((32%N :: u) ++ [d]) in E'. rewrite app_assoc in E'.
        apply app_inj_tail in E' as (_ & E'). subst d. reflexivity.
Qed.

Lemma firm_items l : Forall sep_free l -> firm l -> list_items (join_blank l) = l.
Proof.
  intros HF H. unfold list_items. pose proof (firm_inner l H) as HI. rewrite inner_trim by exact HI.
  destruct HI as ((c & r & E & _) & _). rewrite E. rewrite <- E. apply split_join; [|exact HF].
  intros ->. discriminate E.
Qed.

Lemma sep_blank c : ascii_ws c = false -> (if item_sep c then 32%N else c) = c.
Proof. intros H. destruct (item_sep c) eqn:E; [|reflexivity]. apply sep_ascii in E. congruence. Qed.
Lemma items_pieces t : Forall sep_free (list_items t) /\ (list_items t = [] \/ firm (list_items t)).
Proof.
  destruct (trim_inner t) as [ET|HI]; [unfold list_items; rewrite ET; split; [constructor|left; reflexivity]|].
  pose proof HI as ((c & r & E & Hc) & c' & r' & E' & Hc').
  assert (EI : list_items t = split_items (ascii_trim t)) by (unfold list_items; rewrite E; reflexivity).
  rewrite EI. split; [apply split_free|]. right.
  apply inner_firm; [apply split_free|]. rewrite join_split. split.
  - rewrite E. cbn [map]. rewrite sep_blank by exact Hc. eauto.
  - rewrite E', map_app. cbn [map]. rewrite sep_blank by exact Hc'. eauto.
Qed.

Lemma word_ends w : word w -> inner w.
Proof.
  intros (HN & H). split.
  - destruct w as [|c w]; [elim HN; reflexivity|]. inversion_clear H. exists c, w. split; [reflexivity|apply visible_ascii; assumption].
  - destruct (exists_last HN) as (r & c & ->). exists c, r. split; [reflexivity|]. apply Forall_app in H as (_ & H). inversion_clear H.
    apply visible_ascii. assumption.
Qed.
Lemma word_free w : word w -> sep_free w.
Proof. intros (_ & H). revert H. apply Forall_impl. exact visible_sep. Qed.

(** Pieces may be replaced by words. *)
Lemma firm_change l l' : Forall2 (fun w x => x = w \/ word x) l l' -> firm l -> firm l'.
Proof.
  intros HF ((c & r & l1 & E1 & H1) & c' & r' & l2 & E2 & H2). split.
  - subst l. inversion HF as [|w x u u' HX _]; subst. destruct HX as [->|HX]; [eauto|].
    destruct (word_ends _ HX) as ((d & s & -> & Hd) & _). eauto.
  - clear E1 H1 l1 c r. subst l. apply Forall2_app_inv_l in HF as (l3 & l4 & _ & HF & ->). inversion HF as [|w x u u' HX HE]; subst.
    inversion HE; subst. destruct HX as [->|HX]; [eauto|]. destruct (word_ends _ HX) as (_ & d & s & -> & Hd). eauto.
Qed.
Lemma free_change l l' : Forall2 (fun w x => x = w \/ word x) l l' -> Forall sep_free l -> Forall sep_free l'.
Proof.
  induction 1 as [|w x l l' [->|HX] HF IH]; intros H; [constructor| |]; inversion_clear H; constructor; auto using word_free.
Qed.

Lemma tidy_items t : tidy t -> Forall uword (list_items t).
Proof.
  intros (l & -> & H). destruct l as [|w l]; [constructor|].
  assert (HS : Forall sep_free (w :: l)).
  { revert H. apply Forall_impl. intros u (_ & Hu). apply Forall_forall. intros c Hc. rewrite forallb_forall in Hu. specialize (Hu c Hc).
    destruct (item_sep c) eqn:E; [|reflexivity]. apply sep_unicode in E. rewrite E in Hu. discriminate. }
  rewrite firm_items; [exact H|exact HS|]. apply inner_firm; [exact HS|].
  destruct (join_first (w :: l)) as (c & r & Ec & Hc); [discriminate|exact H|].
  destruct (join_last (w :: l)) as (c' & r' & Ec' & Hc'); [discriminate|exact H|].
  split; [exists c, r|exists c', r']; (split; [assumption|]).
  - destruct (ascii_ws c) eqn:E; [|reflexivity]. apply ascii_unicode in E. congruence.
  - destruct (ascii_ws c') eqn:E; [|reflexivity]. apply ascii_unicode in E. congruence.
Qed.

Lemma items_no_tab t : Forall no_tab (list_items t).
Proof.
  destruct (items_pieces t) as (H & _). revert H. apply Forall_impl. intros w. apply Forall_impl. intros c Hc.
  destruct (tab c) eqn:E; [|reflexivity]. apply tab_sep in E. congruence.
Qed.

Lemma list_stable t xs : Forall2 (fun w x => x = w \/ word x) (list_items t) xs -> stable t (join_blank xs).
Proof.
  intros HF. split.
  - intros _. apply join_no_tab. pose proof (items_no_tab t) as HN. revert HN. generalize dependent (list_items t). intros l HF.
    induction HF as [|w x l xs [->|HX] HF IH]; intros HN; [constructor| |]; inversion_clear HN; constructor; auto using uword_no_tab, word_uword.
  - intros HT. exists xs. split; [reflexivity|]. pose proof (tidy_items t HT) as HN. revert HN. generalize dependent (list_items t). intros l HF.
    induction HF as [|w x l xs [->|HX] HF IH]; intros HN; [constructor| |]; inversion_clear HN; constructor; auto using word_uword.
Qed.

Section Writes.
  Context {atom : Type}.
  Variable parse : nat -> list N -> option atom.
  Variable lt le : atom -> atom -> bool.
  Variable size : atom -> nat.
  Variable matches : list N -> list N -> bool.
  Variable print : atom -> list N.
  Variable print_fixed : nat -> atom -> list N.
  Notation read := (read parse lt le size matches).
  Notation write := (write print print_fixed).
  Notation builds := (builds parse lt le size).
  Notation validate_value := (validate_value parse lt le size).
  Notation unchanged := (unchanged parse print).
  Notation one_word := (one_word parse print).
  Notation writes_back := (writes_back parse lt le size matches print print_fixed).
  Notation words_only := (words_only parse lt le size print print_fixed).
  Notation reads_back := (reads_back parse lt le size matches print print_fixed).

  Lemma loop_join (item : value atom -> option (list N)) vs xs : Forall2 (fun v x => item v = Some x) vs xs -> forall data, data <> [] ->
    write_loop item data vs = data ++ concat (map (cons 32%N) xs).
  Proof.
    induction 1 as [|v x vs xs E HF IH]; intros data HD; [cbn; rewrite app_nil_r; reflexivity|].
    cbn [write_loop map concat]. rewrite E. destruct data as [|d data]; [elim HD; reflexivity|].
    rewrite IH by discriminate. rewrite <- !app_assoc. reflexivity.
  Qed.
  Lemma join_concat x xs : join_blank (x :: xs) = x ++ concat (map (cons 32%N) xs).
  Proof.
    revert x. induction xs as [|y xs IH]; intros x; [cbn; rewrite app_nil_r; reflexivity|].
    change (join_blank (x :: y :: xs)) with (x ++ 32%N :: join_blank (y :: xs)). rewrite IH. reflexivity.
  Qed.
  Lemma list_join (item : value atom -> option (list N)) vs xs : Forall2 (fun v x => item v = Some x) vs xs -> firm xs ->
    write_list item vs = Some (join_blank xs).
  Proof.
    intros HF ((c & r & l & -> & _) & _). inversion HF as [|v x vs' xs' E HF']; subst. unfold write_list. f_equal.
    cbn [write_loop]. rewrite E. cbn [app]. rewrite (loop_join _ _ _ HF') by discriminate. rewrite join_concat. reflexivity.
  Qed.

  (** Items for which nothing is written leave no trace. *)
  Lemma loop_texts (item : value atom -> option (list N)) vs : Forall (fun v => item v <> Some []) vs -> forall data,
    write_loop item data vs =
    match data with
    | [] => join_blank (written item vs)
    | _ => data ++ concat (map (cons 32%N) (written item vs))
    end.
  Proof.
    unfold written. induction 1 as [|v vs H _ IH]; intros data.
    - destruct data; cbn; rewrite ?app_nil_r; reflexivity.
    - cbn [write_loop flat_map]. rewrite IH. destruct (item v) as [b|]; [|reflexivity].
      destruct b as [|c b]; [elim H; reflexivity|]. destruct data as [|d data].
      + cbn [app]. rewrite join_concat. reflexivity.
      + cbn [app map concat]. rewrite <- !app_assoc. reflexivity.
  Qed.
  Lemma list_text (item : value atom -> option (list N)) vs : Forall (fun v => item v <> Some []) vs -> vs <> [] ->
    write_list item vs = Some (join_blank (written item vs)).
  Proof. intros H HN. destruct vs; [elim HN; reflexivity|]. unfold write_list. rewrite (loop_texts _ _ H). reflexivity. Qed.

  Lemma read_items_ok item l vs : read_items item l = Ok vs -> Forall2 (fun w v => item w = @Ok rerror (value atom) v) l vs.
  Proof.
    revert vs. induction l as [|w l IH]; intros vs H; cbn in H.
    - injection H as <-. constructor.
    - destruct (item w) as [v|e|] eqn:E; try discriminate. destruct (read_items item l) as [us|e|]; try discriminate.
      injection H as <-. constructor; auto.
  Qed.
  Lemma ok_read_items item l vs : Forall2 (fun w v => item w = @Ok rerror (value atom) v) l vs -> read_items item l = Ok vs.
  Proof. induction 1 as [|w v l vs E HF IH]; [reflexivity|]. cbn. rewrite E, IH. reflexivity. Qed.

  (** The first member that takes a text. *)
  Definition first_of (t : list N) := fix try (i : nat) (l : list smeta) : outcome rerror (value atom) :=
    match l with
    | [] => Err RUnion
    | m :: l' => match read m t with Ok v => Ok (VUnion i v) | Err _ => try (S i) l' | Panic => Panic end
    end.
  Lemma first_ok t l : forall k v, first_of t k l = Ok v <->
    exists i m w, v = VUnion (k + i) w /\ nth_error l i = Some m /\ read m t = Ok w /\
      forall j m0, j < i -> nth_error l j = Some m0 -> forall v0, read m0 t <> Ok v0.
  Proof.
    induction l as [|m l IH]; intros k v; cbn.
    - split; [discriminate|]. intros (i & m & w & _ & H & _). destruct i; discriminate.
    - destruct (read m t) as [w|e|] eqn:E.
      + split.
        * intros H. injection H as <-. exists 0, m, w. rewrite Nat.add_0_r. repeat split; auto. intros j m0 Hj. lia.
        * intros (i & m' & w' & -> & Hi & Hr & Hb). destruct i as [|i].
          -- injection Hi as <-. rewrite Nat.add_0_r. congruence.
          -- elim (Hb 0 m ltac:(lia) eq_refl w E).
      + rewrite IH. split; intros (i & m' & w' & -> & Hi & Hr & Hb).
        * exists (S i), m', w'. split; [f_equal; lia|]. split; [exact Hi|]. split; [exact Hr|]. intros [|j] m0 Hj Hm.
          -- injection Hm as <-. rewrite E. discriminate.
          -- apply (Hb j m0 ltac:(lia) Hm).
        * destruct i as [|i]; [injection Hi as <-; congruence|]. exists i, m', w'. split; [f_equal; lia|]. split; [exact Hi|].
          split; [exact Hr|]. intros j m0 Hj Hm. apply (Hb (S j) m0 ltac:(lia) Hm).
      + elim (read_total parse lt le size matches m t E).
  Qed.

  Definition write_at := fix nth (w : value atom) (i : nat) (l : list smeta) {struct l} : option (list N) :=
    match l with [] => None | m :: l' => match i with 0 => write m w | S i' => nth w i' l' end end.
  Lemma write_union c ts i w : write (MUnion c ts) (VUnion i w) = match nth_error ts i with Some m => write m w | None => None end.
  Proof.
    change (write (MUnion c ts) (VUnion i w)) with
      ((fix nth (i : nat) (l : list smeta) {struct l} : option (list N) :=
          match l with [] => None | m :: l' => match i with 0 => write m w | S i' => nth i' l' end end) i ts).
    revert i. induction ts as [|m ts IH]; intros [|i]; cbn; auto.
  Qed.
  Lemma builds_union c ts v : builds (MUnion c ts) v <-> exists i m w, v = VUnion i w /\ nth_error ts i = Some m /\ builds m w.
  Proof.
    change (builds (MUnion c ts) v) with (exists i w, v = VUnion i w /\
      (fix nth (i : nat) (l : list smeta) {struct l} : Prop :=
         match l with [] => False | m :: l' => match i with 0 => builds m w | S i' => nth i' l' end end) i ts).
    assert (HX : forall w l i, (fix nth (i : nat) (l : list smeta) {struct l} : Prop :=
         match l with [] => False | m :: l' => match i with 0 => builds m w | S i' => nth i' l' end end) i l <->
         exists m, nth_error l i = Some m /\ builds m w).
    { intros w. induction l as [|m l IH]; intros [|i]; cbn [nth_error].
      - split; [intros []|intros (m & H & _); discriminate].
      - split; [intros []|intros (m & H & _); discriminate].
      - split; [intros H; exists m; auto|intros (m' & H & Hb); injection H as ->; exact Hb].
      - apply IH. }
    split.
    - intros (i & w & -> & H). apply HX in H as (m & H & Hb). exists i, m, w. auto.
    - intros (i & m & w & -> & H & Hb). exists i, w. split; [reflexivity|]. apply HX. exists m. auto.
  Qed.

  Lemma all_nth (P : smeta -> Prop) ts : (fix all l := match l with [] => True | m :: l' => P m /\ all l' end) ts ->
    forall i m, nth_error ts i = Some m -> P m.
  Proof.
    induction ts as [|m ts IH]; intros H [|i] m' Hn; try discriminate; destruct H as (H1 & H2).
    - injection Hn as <-. exact H1.
    - apply (IH H2 i m' Hn).
  Qed.

  Lemma read_union_ok c ts t v : read (MUnion c ts) t = Ok v <-> exists s, validation matches c t = Ok s /\ first_of s 0 ts = Ok v.
  Proof.
    change (read (MUnion c ts) t) with
      (match validation matches c t with Ok s => first_of s 0 ts | Err e => Err e | Panic => Panic end).
    destruct (validation matches c t) as [s|e|]; split; try discriminate; eauto; intros (s' & H & H'); try discriminate H.
    injection H as <-. exact H'.
  Qed.
  Lemma read_simple_ok base c t v : read (MSimple base false c) t = Ok v <->
    exists s, validation matches c t = Ok s /\ read base s = Ok v /\ validate_value base c v = Ok tt.
  Proof.
    cbn [SimpleModel.read]. destruct (validation matches c t) as [s|e|].
    - destruct (read base s) as [x|e|] eqn:E.
      + destruct (validate_value base c x) as [[]|e|] eqn:EV; split; try discriminate.
        * intros H. injection H as <-. eauto.
        * intros (s' & Es & Er & Ev). injection Es as <-. congruence.
        * intros (s' & Es & Er & Ev). injection Es as <-. congruence.
        * intros (s' & Es & Er & Ev). injection Es as <-. congruence.
      + split; [discriminate|]. intros (s' & Es & Er & Ev). injection Es as <-. congruence.
      + split; [discriminate|]. intros (s' & Es & Er & Ev). injection Es as <-. congruence.
    - split; [discriminate|]. intros (s' & Es & _). discriminate.
    - split; [discriminate|]. intros (s' & Es & _). discriminate.
  Qed.
  Lemma no_validation c t : has_validation c = false -> validation matches c t = Ok t.
  Proof.
    unfold has_validation, need_string_validation, validation, validate_str, validate_digits. destruct (c_white c); try discriminate.
    destruct (c_patterns c); [|discriminate]. destruct (c_total c); [discriminate|]. destruct (c_fraction c); [discriminate|]. reflexivity.
  Qed.
  Lemma read_simple_list base c t v : has_validation c = false ->
    (read (MSimple base true c) t = Ok v <-> exists vs, v = VList vs /\ read_items (read base) (list_items t) = Ok vs /\ validate_value base c v = Ok tt).
  Proof.
    intros HV. cbn [SimpleModel.read]. rewrite no_validation by exact HV.
    destruct (read_items (read base) (list_items t)) as [vs|e|].
    - destruct (validate_value base c (VList vs)) as [[]|e|] eqn:EV; split; try discriminate.
      + intros H. injection H as <-. eauto.
      + intros (us & -> & E & _). injection E as <-. reflexivity.
      + intros (us & -> & E & Ev). injection E as <-. congruence.
      + intros (us & -> & E & Ev). injection E as <-. congruence.
    - split; [discriminate|]. intros (us & _ & E & _). discriminate.
    - split; [discriminate|]. intros (us & _ & E & _). discriminate.
  Qed.
  Lemma read_list_ok ty t v : read (MRef ty true) t = Ok v <-> exists vs, v = VList vs /\ read_items (read ty) (list_items t) = Ok vs.
  Proof.
    cbn [SimpleModel.read]. destruct (read_items (read ty) (list_items t)) as [vs|e|]; split; try discriminate.
    - intros H. injection H as <-. eauto.
    - intros (us & -> & E). injection E as <-. reflexivity.
    - intros (us & _ & E). discriminate.
    - intros (us & _ & E). discriminate.
  Qed.

  Lemma validation_parts c t s : validation matches c t = Ok s <->
    s = normalized (c_white c) t /\
    (c_patterns c = [] \/ existsb (fun p => matches p s) (c_patterns c) = true) /\
    (forall n, c_total c = Some n -> total_digits s n = Ok tt) /\ (forall n, c_fraction c = Some n -> fraction_digits s n = Ok tt).
  Proof.
    unfold validation. set (u := normalized (c_white c) t). unfold validate_str, validate_digits.
    assert (HU : forall (o : outcome validate_error unit) u, o = Ok u -> o = Ok tt) by (intros o []; auto).
    split.
    - destruct (c_patterns c) as [|p ps] eqn:EP.
      + destruct (c_total c) as [n|]; [destruct (total_digits u n) as [a|e|] eqn:ET; try discriminate|];
        (destruct (c_fraction c) as [k|]; [destruct (fraction_digits u k) as [b|e|] eqn:EF; try discriminate|]);
        intros H; injection H as <-; (split; [reflexivity|]); (split; [left; reflexivity|]); split; intros m Hm; try discriminate; injection Hm as <-; eauto.
      + destruct (existsb _ _) eqn:EX; [|discriminate].
        destruct (c_total c) as [n|]; [destruct (total_digits u n) as [a|e|] eqn:ET; try discriminate|];
        (destruct (c_fraction c) as [k|]; [destruct (fraction_digits u k) as [b|e|] eqn:EF; try discriminate|]);
        intros H; injection H as <-; (split; [reflexivity|]); (split; [right; exact EX|]); split; intros m Hm; try discriminate; injection Hm as <-; eauto.
    - intros (-> & HP & HT & HF).
      assert (EP : match c_patterns c with [] => Ok tt | ps => if existsb (fun p => matches p u) ps then @Ok rerror unit tt else Err RPattern end = Ok tt).
      { destruct (c_patterns c) as [|p ps]; [reflexivity|]. destruct HP as [HP|HP]; [discriminate|]. fold u in HP. rewrite HP. reflexivity. }
      fold u in HT, HF. destruct (c_patterns c) as [|p ps]; [|destruct (existsb _ _); [|discriminate]];
      (destruct (c_total c) as [n|]; [rewrite (HT n eq_refl)|]; (destruct (c_fraction c) as [k|]; [rewrite (HF k eq_refl)|]; reflexivity)).
  Qed.

  (** ** Values that were read *)

  Lemma unchanged_ok m : unchanged m -> forall t v, read m t = Ok v -> write m v = Some t.
  Proof.
    induction m as [b|ty l IH|base l c IH|c vs|c ts IH] using smeta_nested; intros HU t v H.
    - cbn in H. destruct (parse b t) as [a|] eqn:E; [|discriminate]. injection H as <-. cbn. f_equal. apply (HU t a E).
    - destruct HU as (-> & HU). apply (IH HU t v H).
    - destruct HU as (-> & HW & HF & HU). apply read_simple_ok in H as (s & Es & Er & _).
      apply validation_parts in Es as (-> & _). rewrite HW in Er. cbn [SimpleWriteModel.write]. rewrite HF. apply (IH HU t v Er).
    - cbn [SimpleModel.read] in H. destruct (validation matches c t); try discriminate. destruct (in_dec str_eq_dec t vs); [|discriminate].
      injection H as <-. reflexivity.
    - destruct HU as (HW & HU). apply read_union_ok in H as (s & Es & Hf). apply validation_parts in Es as (-> & _). rewrite HW in Hf.
      apply first_ok in Hf as (i & m & w & -> & Hn & Hr & _). cbn [Nat.add]. rewrite write_union, Hn.
      rewrite Forall_forall in IH. apply (IH m (nth_error_In _ _ Hn)); [|exact Hr]. apply (all_nth _ _ HU i m Hn).
  Qed.

  Lemma sep_free_replace t : sep_free t -> whitespace_replace t = t.
  Proof.
    intros H. apply no_tab_replace. revert H. apply Forall_impl. intros c Hc. destruct (tab c) eqn:E; [|reflexivity]. apply tab_sep in E. congruence.
  Qed.

  Lemma one_word_ok m : one_word m -> writes_back m -> forall t v, sep_free t -> read m t = Ok v ->
    exists s, write m v = Some s /\ (s = t \/ word s).
  Proof.
    induction m as [b|ty l IH|base l c IH|c vs|c ts IH] using smeta_nested; intros HO HW t v HS H.
    - cbn in H. destruct (parse b t) as [a|] eqn:E; [|discriminate]. injection H as <-. cbn. exists (print a). split; [reflexivity|].
      destruct HW as [HW|HW]; [left; apply (HW t a E)|right; apply (HW t a E)].
    - destruct HO as (-> & HO). destruct HW as (HW & _). apply (IH HO HW t v HS H).
    - destruct HO as (-> & HO & HC). destruct HW as (HW & HD & HP). apply read_simple_ok in H as (s & Es & Er & _).
      apply validation_parts in Es as (-> & _ & _ & HF). cbn [SimpleWriteModel.write].
      unfold digits_fit in HD. destruct (c_fraction c) as [n|] eqn:EF.
      + destruct HD as [(_ & HD)|(b & -> & HN & HX & _)]; [congruence|]. cbn in Er.
        destruct (parse b _) as [a|] eqn:E; [|discriminate]. injection Er as <-. exists (print_fixed n a). split; [reflexivity|].
        right. apply (HX _ _ E). apply HF. reflexivity.
      + destruct HC as [HC|(b & -> & HN)].
        * assert (EN : normalized (c_white c) t = t) by (destruct (c_white c); [reflexivity|apply sep_free_replace, HS|elim HC; reflexivity]).
          rewrite EN in Er. apply (IH HO HW t v HS Er).
        * cbn in Er. destruct (parse b _) as [a|] eqn:E; [|discriminate]. injection Er as <-. exists (print a). split; [reflexivity|].
          right. apply (HN _ _ E).
    - cbn [SimpleModel.read] in H. destruct (validation matches c t); try discriminate. destruct (in_dec str_eq_dec t vs); [|discriminate].
      injection H as <-. exists t. auto.
    - destruct HO as (HC & HO). destruct HW as (HW & _). apply read_union_ok in H as (s & Es & Hf). apply validation_parts in Es as (-> & _).
      assert (EN : normalized (c_white c) t = t) by (destruct (c_white c); [reflexivity|apply sep_free_replace, HS|elim HC; reflexivity]).
      rewrite EN in Hf. apply first_ok in Hf as (i & m & w & -> & Hn & Hr & _). cbn [Nat.add]. rewrite write_union, Hn.
      rewrite Forall_forall in IH. apply (IH m (nth_error_In _ _ Hn)); [|apply (all_nth _ _ HW i m Hn)|exact HS|exact Hr].
      apply (all_nth _ _ HO i m Hn).
  Qed.

  Lemma items_again ty t vs :
    one_word ty -> writes_back ty -> (forall u v, read ty u = Ok v -> read ty (shown (write ty v)) = Ok v) ->
    read_items (read ty) (list_items t) = Ok vs ->
    read_items (read ty) (list_items (shown (write_list (write ty) vs))) = Ok vs /\ stable t (shown (write_list (write ty) vs)).
  Proof.
    intros HO HW HA H. apply read_items_ok in H. destruct (items_pieces t) as (HS & HE).
    assert (HX : exists xs, Forall2 (fun v x => write ty v = Some x) vs xs /\ Forall2 (fun w x => x = w \/ word x) (list_items t) xs /\
      Forall2 (fun x v => read ty x = Ok v) xs vs).
    { clear HE. induction H as [|w v l vs E HF IH]; [exists []; repeat constructor|]. inversion_clear HS as [|w' l' Hw Hl].
      destruct (IH Hl) as (xs & H1 & H2 & H3). destruct (one_word_ok ty HO HW w v Hw E) as (x & Ex & Hx).
      exists (x :: xs). split; [constructor; assumption|]. split; [constructor; assumption|]. constructor; [|exact H3].
      pose proof (HA w v E) as HB. rewrite Ex in HB. exact HB. }
    destruct HX as (xs & H1 & H2 & H3). destruct HE as [HE|HE].
    - rewrite HE in *. inversion H2; subst. inversion H1; subst. cbn. split; [reflexivity|]. split; [intros _; constructor|intros _; exists []; auto].
    - pose proof (firm_change _ _ H2 HE) as HF'. rewrite (list_join _ _ _ H1 HF'). cbn [shown].
      rewrite firm_items; [|apply (free_change _ _ H2 HS)|exact HF']. split; [apply ok_read_items, H3|apply list_stable, H2].
  Qed.

  Theorem reading_again m : writes_back m -> forall t v, read m t = Ok v ->
    read m (shown (write m v)) = Ok v /\ stable t (shown (write m v)).
  Proof.
    induction m as [b|ty l IH|base l c IH|c vs|c ts IH] using smeta_nested; intros HW t v H.
    - cbn in H. destruct (parse b t) as [a|] eqn:E; [|discriminate]. injection H as <-. cbn. destruct HW as [HW|HW].
      + rewrite (HW t a E), E. split; [reflexivity|apply stable_refl].
      + destruct (HW t a E) as (H1 & H2). rewrite H2. split; [reflexivity|apply word_stable, H1].
    - destruct HW as (HW & HO). destruct l; [|apply (IH HW t v H)].
      apply read_list_ok in H as (vs & -> & H). cbn [SimpleWriteModel.write]. rewrite read_list_ok.
      destruct (items_again ty t vs (HO eq_refl) HW (fun u v E => proj1 (IH HW u v E)) H) as (H1 & H2).
      split; [exists vs; auto|exact H2].
    - destruct HW as (HW & HD & HL). destruct l.
      + destruct HL as (HO & HV). apply read_simple_list in H as (vs & -> & H & HC); [|exact HV].
        assert (EF : c_fraction c = None).
        { revert HV. unfold has_validation, need_string_validation. destruct (c_white c); try discriminate. destruct (c_patterns c), (c_total c), (c_fraction c); congruence. }
        cbn [SimpleWriteModel.write]. rewrite EF. rewrite read_simple_list by exact HV.
        destruct (items_again base t vs HO HW (fun u v E => proj1 (IH HW u v E)) H) as (H1 & H2).
        split; [exists vs; auto|exact H2].
      + apply read_simple_ok in H as (s & Es & Er & Ev). pose proof Es as Es'. apply validation_parts in Es' as (-> & HP & HT & HF).
        cbn [SimpleWriteModel.write]. unfold digits_fit in HD. destruct (c_fraction c) as [n|] eqn:EF.
        * destruct HL as [HL|(_ & HL)]; [|discriminate]. destruct HD as [(_ & HD)|(b & -> & HN & HX & HZ)]; [congruence|].
          cbn in Er. destruct (parse b _) as [a|] eqn:E; [|discriminate]. injection Er as <-. cbn [shown].
          destruct (HX _ _ E (HF n eq_refl)) as (H1 & H2 & H3 & H4). split; [|apply word_stable, H1].
          apply read_simple_ok. exists (print_fixed n a). split.
          { apply validation_parts. split; [symmetry; apply tidy_norm, uword_tidy, word_uword, H1|]. split; [left; exact HL|].
            split; [|intros k Hk; rewrite EF in Hk; injection Hk as <-; exact H3].
            intros k Hk. destruct HZ as [HZ|HZ]; [|congruence]. apply H4; [exact HZ|]. apply HT, Hk. }
          split; [|exact Ev]. cbn. rewrite H2. reflexivity.
        * destruct (IH HW _ _ Er) as (H1 & H2). pose proof (stable_norm _ _ _ H2) as HN. split; [|apply (norm_stable _ _ _ H2)].
          apply read_simple_ok. exists (shown (write base v)). split; [|split; [exact H1|exact Ev]].
          apply validation_parts. split; [symmetry; exact HN|]. split; [|split; [|intros n Hn; congruence]].
          -- destruct HL as [HL|(HL & _)]; [left; exact HL|]. rewrite (unchanged_ok base HL _ _ Er). exact HP.
          -- intros n Hn. destruct HD as [(HD & _)|(b & -> & HB & HX)]; [congruence|].
             cbn in Er. destruct (parse b _) as [a|] eqn:E; [|discriminate]. injection Er as <-. cbn [SimpleWriteModel.write shown].
             apply (HX _ _ n E). apply HT, Hn.
    - cbn [SimpleModel.read] in H. destruct (validation matches c t) eqn:EV; try discriminate. destruct (in_dec str_eq_dec t vs) eqn:EI; [|discriminate].
      injection H as <-. cbn [SimpleWriteModel.write shown SimpleModel.read]. rewrite EV, EI. split; [reflexivity|apply stable_refl].
    - destruct HW as (HW & HA & HT & HF & HP). apply read_union_ok in H as (s & Es & Hf). apply validation_parts in Es as (-> & HQ & _).
      apply first_ok in Hf as (i & m & w & -> & Hn & Hr & Hb). cbn [Nat.add] in *. rewrite write_union, Hn.
      rewrite Forall_forall in IH. destruct (IH m (nth_error_In _ _ Hn) (all_nth _ _ HW i m Hn) _ _ Hr) as (H1 & H2).
      pose proof (stable_norm _ _ _ H2) as HN. split; [|apply (norm_stable _ _ _ H2)].
      apply read_union_ok. exists (shown (write m w)). split.
      + apply validation_parts. split; [symmetry; exact HN|]. split; [|split; intros; congruence].
        destruct HP as [HP|HP]; [left; exact HP|]. rewrite (unchanged_ok m (all_nth _ _ HP i m Hn) _ _ Hr). exact HQ.
      + apply first_ok. exists i, m, w. split; [reflexivity|]. split; [exact Hn|]. split; [exact H1|].
        intros j m0 Hj Hm. apply (HA j i m0 m Hj Hm Hn _ _ Hr). apply (Hb j m0 Hj Hm).
  Qed.

  Lemma unchanged_apart m0 m : unchanged m -> apart parse lt le size matches print print_fixed m0 m.
  Proof. intros HU t v Hr HN v0. rewrite (unchanged_ok m HU t v Hr). apply HN. Qed.

  (** ** Values that are built *)

  Lemma reads_are_built m : forall t v, read m t = Ok v -> builds m v.
  Proof.
    assert (HI : forall ty l vs, (forall t v, read ty t = Ok v -> builds ty v) -> read_items (read ty) l = Ok vs -> Forall (builds ty) vs).
    { intros ty l vs HA H. apply read_items_ok in H. induction H; constructor; eauto. }
    induction m as [b|ty l IH|base l c IH|c vs|c ts IH] using smeta_nested; intros t v H.
    - cbn in H. destruct (parse b t) as [a|] eqn:E; [|discriminate]. injection H as <-. exists a, t. auto.
    - destruct l; [|apply (IH t v H)]. apply read_list_ok in H as (vs & -> & H). exists vs. eauto.
    - cbn [SimpleModel.read] in H. destruct (validation matches c t) as [s|e|]; try discriminate. cbn [SimpleWriteModel.builds].
      destruct l.
      + destruct (read_items (read base) (list_items t)) as [vs|e|] eqn:E; try discriminate.
        destruct (validate_value base c (VList vs)) as [[]|e|] eqn:EV; try discriminate. injection H as <-. split; [|exact EV]. eauto.
      + destruct (read base s) as [x|e|] eqn:E; try discriminate. destruct (validate_value base c x) as [[]|e|] eqn:EV; try discriminate.
        injection H as <-. split; [apply (IH s x E)|exact EV].
    - cbn [SimpleModel.read] in H. destruct (validation matches c t); try discriminate. destruct (in_dec str_eq_dec t vs); [|discriminate].
      injection H as <-. exists t. auto.
    - apply read_union_ok in H as (s & _ & Hf). apply first_ok in Hf as (i & m & w & -> & Hn & Hr & _). apply builds_union.
      exists i, m, w. split; [reflexivity|]. split; [exact Hn|]. rewrite Forall_forall in IH. apply (IH m (nth_error_In _ _ Hn) s w Hr).
  Qed.

  Lemma words_firm xs : xs <> [] -> Forall word xs -> firm xs.
  Proof.
    intros HN H. split.
    - destruct xs as [|x xs]; [elim HN; reflexivity|]. inversion_clear H as [|y l Hx Hl].
      destruct (word_ends _ Hx) as ((c & r & -> & Hc) & _). eauto.
    - destruct (exists_last HN) as (l & x & ->). apply Forall_app in H as (_ & H). inversion_clear H as [|y l' Hx Hl].
      destruct (word_ends _ Hx) as (_ & c & r & -> & Hc). eauto.
  Qed.

  Lemma items_back ty vs : words_only ty -> (forall v, builds ty v -> read ty (shown (write ty v)) = Ok v) ->
    Forall (builds ty) vs -> read_items (read ty) (list_items (shown (write_list (write ty) vs))) = Ok vs.
  Proof.
    intros HO HA H.
    assert (HX : exists xs, Forall2 (fun v x => write ty v = Some x) vs xs /\ Forall word xs /\ Forall2 (fun x v => read ty x = Ok v) xs vs).
    { induction H as [|v vs Hv HF IH]; [exists []; repeat constructor|]. destruct IH as (xs & H1 & H2 & H3). destruct (HO v Hv) as (x & Ex & Hx).
      exists (x :: xs). split; [constructor; assumption|]. split; [constructor; assumption|]. constructor; [|exact H3].
      pose proof (HA v Hv) as HB. rewrite Ex in HB. exact HB. }
    destruct HX as (xs & H1 & H2 & H3). destruct xs as [|x xs].
    - inversion H1; subst. reflexivity.
    - assert (HF : firm (x :: xs)) by (apply words_firm; [discriminate|exact H2]). rewrite (list_join _ _ _ H1 HF). cbn [shown].
      rewrite firm_items; [apply ok_read_items, H3| |exact HF]. revert H2. apply Forall_impl. exact word_free.
  Qed.

  Theorem writing_back m : reads_back m -> forall v, builds m v -> read m (shown (write m v)) = Ok v.
  Proof.
    induction m as [b|ty l IH|base l c IH|c vs|c ts IH] using smeta_nested; intros HW v H.
    - destruct H as (a & s & -> & E). cbn. destruct HW as [HW|HW].
      + rewrite (HW s a E), E. reflexivity.
      + destruct (HW s a E) as (_ & ->). reflexivity.
    - destruct HW as (HW & HO). destruct l; [|apply (IH HW v H)]. destruct H as (vs & -> & H).
      cbn [SimpleWriteModel.write]. apply read_list_ok. exists vs. split; [reflexivity|]. apply items_back; auto.
    - destruct HW as (HW & HT & HF & HP & HC & HO). destruct H as (H & Ev). cbn [SimpleWriteModel.write]. rewrite HF. destruct l.
      + destruct H as (vs & -> & H). pose proof (items_back base vs (HO eq_refl) (IH HW) H) as HI.
        cbn [SimpleModel.read]. set (s := shown (write_list (write base) vs)) in *.
        assert (EV : exists u, validation matches c s = Ok u).
        { exists (normalized (c_white c) s). apply validation_parts. split; [reflexivity|]. split; [left; exact HP|]. split; intros; congruence. }
        destruct EV as (u & ->). rewrite HI, Ev. reflexivity.
      + apply read_simple_ok. exists (shown (write base v)). split; [|split; [apply (IH HW v H)|exact Ev]].
        apply validation_parts. split; [|split; [left; exact HP|split; intros; congruence]].
        destruct HC as [->|HC]; [reflexivity|]. destruct (HC v H) as (w & -> & Hw). symmetry. apply tidy_norm, uword_tidy, word_uword, Hw.
    - destruct HW as (HT & HF & HP). destruct H as (name & -> & Hn). cbn [SimpleWriteModel.write shown SimpleModel.read].
      assert (EV : validation matches c name = Ok (normalized (c_white c) name)).
      { apply validation_parts. split; [reflexivity|]. split; [left; exact HP|]. split; intros; congruence. }
      rewrite EV. destruct (in_dec str_eq_dec name vs) as [_|N]; [reflexivity|elim (N Hn)].
    - destruct HW as (HW & HT & HF & HP & HC & HA). apply builds_union in H as (i & m & w & -> & Hn & H). rewrite write_union, Hn.
      apply read_union_ok. exists (shown (write m w)). split.
      + apply validation_parts. split; [|split; [left; exact HP|split; intros; congruence]].
        destruct HC as [->|HC]; [reflexivity|]. rewrite Forall_forall in HC. destruct (HC m (nth_error_In _ _ Hn) w H) as (x & -> & Hx).
        symmetry. apply tidy_norm, uword_tidy, word_uword, Hx.
      + apply first_ok. exists i, m, w. split; [reflexivity|]. split; [exact Hn|].
        rewrite Forall_forall in IH. split; [apply (IH m (nth_error_In _ _ Hn) (all_nth _ _ HW i m Hn) w H)|].
        intros j m0 Hj Hm. apply (HA j i m0 m w Hj Hm Hn H).
  Qed.
End Writes.

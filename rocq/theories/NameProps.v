(** C44: identifiers; C62: unique names. *)
From Coq Require Import NArith Ascii.
From Verif Require Import NameModel NameSpec NameProofs.

(** * C44: names of items are identifiers of Rust *)

(** Full property: what [format_ident] returns is a valid identifier, for every text.  Not
    true for the empty text, a single symbol, three keywords and some characters outside
    of ASCII; it holds for all others. *)
Theorem C44_valid_partial : forall alphabetic numeric xid_start xid_continue s,
  ascii_facts alphabetic numeric xid_start xid_continue ->
  Forall (plain_char xid_start xid_continue alphabetic numeric) s ->
  s <> [] -> ~ lone_symbol alphabetic numeric s -> ~ In s unknown_keywords ->
  valid_ident xid_start xid_continue (format_ident alphabetic numeric s).
Proof. exact format_valid. Qed.
Print Assumptions C44_valid_partial.

(** The same for every kind of name and both naming schemes, in terms of the text after
    unification and case conversion. *)
Theorem C44_kinds_partial : forall alphabetic numeric xid_start xid_continue pascal snake screaming n k s t,
  ascii_facts alphabetic numeric xid_start xid_continue ->
  t = match k with
      | KModule | KField => snake (unify alphabetic numeric pascal screaming n s)
      | KType | KVariant => unify alphabetic numeric pascal screaming n s
      | KConstant => screaming (unify alphabetic numeric pascal screaming n s)
      end ->
  Forall (plain_char xid_start xid_continue alphabetic numeric) t ->
  t <> [] -> ~ lone_symbol alphabetic numeric t -> ~ In t unknown_keywords ->
  valid_ident xid_start xid_continue (format_name alphabetic numeric pascal snake screaming n k s).
Proof. intros al nu xs xc pa sn sc n k s t A -> P. destruct k; apply format_valid; assumption. Qed.
Print Assumptions C44_kinds_partial.

(** An element or attribute called [async] becomes a field called [async] when case
    conversion leaves its name alone. *)
Theorem C44_keyword_refuted : forall alphabetic numeric xid_start xid_continue pascal snake screaming n,
  ascii_facts alphabetic numeric xid_start xid_continue ->
  snake (unify alphabetic numeric pascal screaming n (t_ "async")) = t_ "async" ->
  format_name alphabetic numeric pascal snake screaming n KField (t_ "async") = t_ "async" /\
  ~ valid_ident xid_start xid_continue (t_ "async").
Proof.
  intros al nu xs xc pa sn sc n A E. split.
  - unfold format_name. rewrite E. unfold format_ident.
    replace (find_keyword (t_ "async") keywords) with (@None text) by (vm_compute; reflexivity).
    replace (t_ "async") with [97; 115; 121; 110; 99]%N by reflexivity. cbv iota beta zeta.
    rewrite (proj1 (proj2 (af_letter _ _ _ _ A 97%N eq_refl))).
    apply (replace_same al nu xs xc); auto.
  - intros (_ & _ & N). apply N. vm_compute. tauto.
Qed.
Print Assumptions C44_keyword_refuted.

(** The empty text stays empty; a single symbol becomes an underscore alone. *)
Theorem C44_symbol_refuted : forall alphabetic numeric xid_start xid_continue c,
  xid_start underscore = false -> alphabetic c = false -> numeric c = false ->
  format_ident alphabetic numeric [] = [] /\
  format_ident alphabetic numeric [c] = [underscore] /\
  ~ valid_ident xid_start xid_continue [] /\ ~ valid_ident xid_start xid_continue [underscore].
Proof.
  intros al nu xs xc c U A B. split; [reflexivity|]. split.
  - unfold format_ident. destruct (find_keyword [c] keywords) eqn:F.
    + apply find_keyword_some in F. exfalso. cbn in F. repeat (destruct F as [F|F]; [discriminate F|]). exact F.
    + rewrite B. cbn. unfold alphanumeric. rewrite A, B. reflexivity.
  - split; [exact (fun x => x)|]. intros ([H|[_ H]] & _); [congruence|]. apply H; reflexivity.
Qed.
Print Assumptions C44_symbol_refuted.

(** A vulgar fraction (U+2150) is numeric and no character of identifiers. *)
Theorem C44_unicode_refuted : forall alphabetic numeric xid_start xid_continue,
  ascii_facts alphabetic numeric xid_start xid_continue ->
  numeric 8528%N = true -> xid_continue 8528%N = false ->
  ~ valid_ident xid_start xid_continue (format_ident alphabetic numeric [97; 8528]%N).
Proof.
  intros al nu xs xc A B C H. unfold format_ident in H.
  replace (find_keyword [97; 8528]%N keywords) with (@None text) in H by (vm_compute; reflexivity).
  destruct (af_letter _ _ _ _ A 97%N eq_refl) as (E1 & E2 & _). rewrite E2 in H.
  cbn in H. unfold alphanumeric in H. rewrite E1, B, orb_true_r in H. cbn in H.
  destruct H as (_ & H & _). inversion H; congruence.
Qed.
Print Assumptions C44_unicode_refuted.

Lemma ascii_is_ascii : ascii_facts ascii_letter ascii_digit ascii_letter ascii_word.
Proof.
  split; [|reflexivity]. intros c H. unfold ascii_word. rewrite H. repeat split; auto.
  unfold ascii_letter, ascii_digit, in_range in *.
  destruct (N.leb_spec 48 c), (N.leb_spec c 57); cbn; auto.
  destruct (N.leb_spec 65 c), (N.leb_spec c 90), (N.leb_spec 97 c), (N.leb_spec c 122); cbn in H; try discriminate; lia.
Qed.

(** With the classes of ASCII: a keyword, a text that starts with a digit, and a name with
    symbols. *)
Example C44_case :
  format_ident ascii_letter ascii_digit (t_ "type") = t_ "type_" /\
  format_ident ascii_letter ascii_digit (t_ "3d-view.x") = t_ "_3d_view_x" /\
  Forall (plain_char ascii_letter ascii_word ascii_letter ascii_digit) (t_ "3d-view.x") /\
  valid_ident ascii_letter ascii_word (t_ "_3d_view_x").
Proof.
  assert (P : Forall (plain_char ascii_letter ascii_word ascii_letter ascii_digit) (t_ "3d-view.x")).
  { repeat constructor; auto; intros [H|H]; vm_compute in H; try discriminate; reflexivity. }
  split; [reflexivity|]. split; [reflexivity|]. split; [exact P|].
  change (t_ "_3d_view_x") with (format_ident ascii_letter ascii_digit (t_ "3d-view.x")).
  apply C44_valid_partial; [exact ascii_is_ascii|exact P|discriminate| |].
  - intros (c & H & _). discriminate H.
  - intros H. cbn in H. repeat (destruct H as [H|H]; [discriminate H|]). exact H.
Qed.

Example C44_case_async : format_name ascii_letter ascii_digit (fun s => s) (fun s => s) (fun s => s) Default KField
  (t_ "async") = t_ "async".
Proof. reflexivity. Qed.

(** * C62: names made unique by a number are different *)

(** Full property: two names finished with a number, one of which was taken for it, are
    different, whatever was done with the builders.  It holds if the text in front of the
    number does not end in a digit. *)
Theorem C62_distinct_partial : forall unify_s l before o after o',
  bs_out (builder_run unify_s l) = before ++ o :: after -> In o' (before ++ after) ->
  fi_fresh o = true -> fi_id o' <> None ->
  ~ ends_in_digit (fi_text o) -> ~ ends_in_digit (fi_text o') -> fi_name o <> fi_name o'.
Proof. exact run_distinct. Qed.
Print Assumptions C62_distinct_partial.

(** The numbers are different in any case. *)
Theorem C62_numbers : forall unify_s l before o after o',
  bs_out (builder_run unify_s l) = before ++ o :: after -> In o' (before ++ after) ->
  fi_fresh o = true -> fi_id o' <> None -> fi_id o <> fi_id o'.
Proof.
  intros u l a o c o' E I F N Q. destruct (fi_id o') eqn:X; [|congruence].
  destruct (run_ok u l) as [_ _ _ K _]. exact (K _ _ _ _ E F Q _ I X).
Qed.
Print Assumptions C62_numbers.

(** A name that was set stays until another one is set, whatever is merged into the builder. *)
Theorem C62_name_kept : forall unify_s l1 k n l2 b b',
  nth_error (bs_builders (builder_run unify_s l1)) k = Some b ->
  (forall n', ~ In (OSetName k n') l2) ->
  nth_error (bs_builders (builder_run unify_s (l1 ++ OSetName k n :: l2))) k = Some b' -> b_name b' = Some n.
Proof. exact run_named. Qed.
Print Assumptions C62_name_kept.
Example C62_name_kept_case :
  option_map b_name (nth_error (bs_builders (builder_run (fun s => s)
    ([ONew; ONew; OSetName 0 "Other"] ++ OSetName 1 "Item" :: [OMerge 1 0; OUnique 1]))) 1) = Some (Some "Item"%string).
Proof. reflexivity. Qed.

(** The name [a1] with number 1 and the name [a] with number 11 are both [a11]. *)
Definition clash : list builder_op :=
  [ONew; OSetName 0 "x"] ++ repeat (OFinish 0) 1 ++ [ONew; OSetName 1 "a1"; OFinish 1] ++
  repeat (OFinish 0) 9 ++ [ONew; OSetName 2 "a"; OFinish 2].
Theorem C62_refuted : exists l before o after o',
  bs_out (builder_run (fun s => s) l) = before ++ o :: after /\ In o' (before ++ after) /\
  fi_fresh o = true /\ fi_fresh o' = true /\ fi_name o = fi_name o'.
Proof.
  exists clash, (Finished (Generated "x0") "x" (Some 0) true :: nil).
  eexists. eexists. exists (Finished (Generated "a11") "a" (Some 11) true).
  split; [vm_compute; reflexivity|]. split; [|repeat split].
  vm_compute. do 10 right. left. reflexivity.
Qed.
Print Assumptions C62_refuted.

(** Two names for the same element. *)
Definition twice : list builder_op :=
  [ONew; OSetName 0 "Item"; OFinish 0; OClone 0; OUnique 1; OFinish 1; OFinish 1; OWithId 1 false; OFinish 1].
Example C62_case : map (fun o => (fi_name o, fi_id o, fi_fresh o)) (bs_out (builder_run (fun s => s) twice)) =
  [(Generated "Item0", Some 0, true); (Generated "Item1", Some 1, false); (Generated "Item1", Some 1, false);
   (Named "Item", None, false)].
Proof. reflexivity. Qed.
Example C62_case_hyp : exists after, bs_out (builder_run (fun s => s) twice) =
  [] ++ Finished (Generated "Item0") "Item" (Some 0) true :: after /\
  In (Finished (Generated "Item1") "Item" (Some 1) false) after /\ ~ ends_in_digit "Item".
Proof.
  eexists. split; [reflexivity|]. split; [left; reflexivity|].
  intros (r & c & E & D). assert (c = "m"%char).
  { do 4 (destruct r as [|? r]; [cbn in E; congruence|]; cbn in E; injection E as _ E || idtac).
    destruct r; cbn in E; congruence. }
  subst. discriminate.
Qed.

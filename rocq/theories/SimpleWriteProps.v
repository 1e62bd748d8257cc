(** C83: the text that is written for a value of a simple type is read as the same value. *)
From Coq Require Import String.
From Verif Require Import SimpleModel SimpleSpec SimpleInst SimpleProofs SimpleUniqueProofs.
From Verif Require Import SimpleWriteModel SimpleWriteSpec SimpleWriteInst SimpleWriteProofs SimpleWriteInstProofs.

(** Reading, writing, reading again. *)
Theorem C83_again_partial (atom : Type) (parse : nat -> list N -> option atom) (lt le : atom -> atom -> bool) (size : atom -> nat)
    (matches : list N -> list N -> bool) (print : atom -> list N) (print_fixed : nat -> atom -> list N) m t v :
  writes_back parse lt le size matches print print_fixed m ->
  read parse lt le size matches m t = Ok v ->
  read parse lt le size matches m (shown (write print print_fixed m v)) = Ok v.
Proof. intros HW H. apply (reading_again _ _ _ _ _ _ _ m HW t v H). Qed.
Print Assumptions C83_again_partial.

(** Writing values that were built, reading them. *)
Theorem C83_back_partial (atom : Type) (parse : nat -> list N -> option atom) (lt le : atom -> atom -> bool) (size : atom -> nat)
    (matches : list N -> list N -> bool) (print : atom -> list N) (print_fixed : nat -> atom -> list N) m v :
  reads_back parse lt le size matches print print_fixed m ->
  builds parse lt le size m v ->
  read parse lt le size matches m (shown (write print print_fixed m v)) = Ok v.
Proof. intros HR HB. apply (writing_back _ _ _ _ _ _ _ m HR v HB). Qed.
Print Assumptions C83_back_partial.

(** A list is written as the texts of its items with a blank between them; items for which
    nothing is written leave no trace. *)
Theorem C83_list_text (atom : Type) (print : atom -> list N) (print_fixed : nat -> atom -> list N) ty l :
  l <> [] -> Forall (fun v => write print print_fixed ty v <> Some []) l ->
  write print print_fixed (MRef ty true) (VList l) = Some (join_blank (written (write print print_fixed ty) l)).
Proof. intros HN H. apply list_text; assumption. Qed.
Print Assumptions C83_list_text.
Example C83_list_text_ex : wwrite (MRef (MRef (MBuildIn 1) true) true) 
  (VList [VList [VAtom (WText (txt "1"))]; VList []; VList [VAtom (WText (txt "2")); VAtom (WText (txt "3"))]]) = Some (txt "1 2 3").
Proof. reflexivity. Qed.

(** Every value that is read could have been built. *)
Theorem C83_read_built (atom : Type) (parse : nat -> list N -> option atom) (lt le : atom -> atom -> bool) (size : atom -> nat)
    (matches : list N -> list N -> bool) m t v :
  read parse lt le size matches m t = Ok v -> builds parse lt le size m v.
Proof. intros H. apply (reads_are_built _ _ _ _ _ m t v H). Qed.
Print Assumptions C83_read_built.

(** The text that is written has the value that the schema gives to the text that was read. *)
Theorem C83_valid_partial (atom : Type) (parse : nat -> list N -> option atom) builtin_white (lt le : atom -> atom -> bool)
    (size chars : atom -> nat) (matches : list N -> list N -> bool) (print : atom -> list N) (print_fixed : nat -> atom -> list N)
    d m fixed t x :
  (forall b s a, clear_text false s -> parse b s = Some a -> size a = chars a) ->
  plain parse builtin_white lt le chars matches d -> interpret d = Ok (m, fixed) ->
  writes_back parse lt le size matches print print_fixed m ->
  clear_text (has_digits d) t -> denotes parse builtin_white lt le chars matches d t x ->
  exists v, read parse lt le size matches m t = Ok v /\
    (clear_text (has_digits d) (shown (write print print_fixed m v)) ->
     denotes parse builtin_white lt le chars matches d (shown (write print print_fixed m v)) x).
Proof.
  intros HS HP HI HW HT HD. destruct (simple_types parse builtin_white lt le size chars matches HS d HP) as (m' & fx & HI' & _ & HC).
  rewrite HI in HI'. injection HI' as <- <-. destruct (proj1 (HC t HT) x HD) as (v & Hr & Hx). exists v. split; [exact Hr|]. intros HT'.
  destruct (reading_again _ _ _ _ _ _ _ m HW t v Hr) as (Hr' & _). destruct (proj2 (HC _ HT') v Hr') as (x' & Hx' & HD').
  rewrite (stands_unique _ _ _ _ _ _ d v x x' Hx Hx'). exact HD'.
Qed.
Print Assumptions C83_valid_partial.

(** ** Types that meet the hypotheses *)

(** Prices with two fraction digits, codes with a pattern, unions of them and lists of prices. *)
Definition price : sdef := SRestriction false (SBuiltin 2 false) [FFractionDigits 2].
Definition code : sdef := SRestriction false (SBuiltin 0 false) [FWhiteSpace WCollapse; FPattern (txt "a.c")].
Definition price_type : smeta := MSimple (MBuildIn 2) false (set_facet (FFractionDigits 2) no_constrains).
Definition code_type : smeta :=
  MSimple (MBuildIn 0) false (set_facet (FPattern (txt "a.c")) (set_facet (FWhiteSpace WCollapse) no_constrains)).

Lemma price_back : wwrites_back price_type.
Proof.
  split; [right; apply wnumeric; discriminate|]. split; [|left; reflexivity]. right. exists 2. split; [reflexivity|].
  split; [apply wnumeric; discriminate|]. cbn. split; [apply wfixed_point|right; reflexivity].
Qed.
Lemma prices_back : wwrites_back (MRef price_type true).
Proof. split; [apply price_back|]. intros _. split; [reflexivity|]. split; [exact I|]. left. discriminate. Qed.
Lemma code_back : wwrites_back code_type.
Proof.
  split; [left; apply wverbatim|]. split; [left; split; reflexivity|]. right. split; [apply wverbatim|reflexivity].
Qed.

(** A code is no price. *)
Lemma code_apart : apart wparse wlt wlt wsize imatches wprint wfixed price_type code_type.
Proof.
  intros t v H _ v0 H0. unfold code_type in H. apply read_simple_ok in H as (s & Hs & Hr & _).
  cbn in Hr. injection Hr as <-. apply validation_parts in Hs as (_ & HP & _). destruct HP as [HP|HP]; [discriminate|].
  change (existsb (fun p => imatches p s) [txt "a.c"] = true) in HP. cbn [existsb] in HP. rewrite orb_false_r in HP.
  change (wread price_type s = Ok v0) in H0. unfold price_type in H0. apply read_simple_ok in H0 as (u & Hu & _).
  apply validation_parts in Hu as (Eu & _ & _ & HF). change (u = s) in Eu. subst u. specialize (HF 2 eq_refl).
  destruct s as [|c s]; [discriminate HP|]. change (((97 =? c)%N && imatches (txt ".c") s)%bool = true) in HP.
  apply andb_true_iff in HP as (HP & _). apply N.eqb_eq in HP. subst c. discriminate HF.
Qed.
Lemma union_back : wwrites_back (MUnion no_constrains [price_type; code_type]).
Proof.
  split; [split; [apply price_back|split; [apply code_back|exact I]]|]. split; [|repeat split; left; reflexivity].
  intros i j m0 m Hij Hi Hj. destruct i as [|[|i]]; [| |destruct i; discriminate].
  - injection Hi as <-. destruct j as [|[|j]]; [lia| |destruct j; discriminate]. injection Hj as <-. apply code_apart.
  - destruct j as [|[|j]]; [lia|lia|destruct j; discriminate].
Qed.

Example C83_again_ex : exists fixed, interpret (SUnion [price; code]) = Ok (MUnion no_constrains [price_type; code_type], fixed) /\
  wwrites_back (MUnion no_constrains [price_type; code_type]) /\
  wread (MUnion no_constrains [price_type; code_type]) (txt "007.5") = Ok (VUnion 0 (VAtom (WDec false (txt "7") (txt "5")))) /\
  wwrite (MUnion no_constrains [price_type; code_type]) (VUnion 0 (VAtom (WDec false (txt "7") (txt "5")))) = Some (txt "7.50") /\
  wread (MUnion no_constrains [price_type; code_type]) (txt "  a  c ") = Ok (VUnion 1 (VAtom (WText (txt "a c")))).
Proof.
  eexists. split; [reflexivity|]. split; [apply union_back|]. repeat split; vm_compute; reflexivity.
Qed.
Example C83_again_list : wwrites_back (MRef price_type true) /\
  wread (MRef price_type true) (txt " 007.5 -3") = Ok (VList [VAtom (WDec false (txt "7") (txt "5")); VAtom (WDec true (txt "3") [])]) /\
  wwrite (MRef price_type true) (VList [VAtom (WDec false (txt "7") (txt "5")); VAtom (WDec true (txt "3") [])]) = Some (txt "7.50 -3.00").
Proof. split; [apply prices_back|]. split; vm_compute; reflexivity. Qed.

Lemma numbers_words : words_only wparse wlt wlt wsize wprint wfixed (MBuildIn 2).
Proof. intros v (a & s & -> & E). exists (wprint a). split; [reflexivity|]. apply (wnumeric 2 ltac:(discriminate) s a E). Qed.
Example C83_back_ex : wreads_back (MRef (MBuildIn 2) true) /\
  wbuilds (MRef (MBuildIn 2) true) (VList [VAtom (WDec false (txt "7") (txt "5")); VAtom (WDec true (txt "3") [])]) /\
  wwrite (MRef (MBuildIn 2) true) (VList [VAtom (WDec false (txt "7") (txt "5")); VAtom (WDec true (txt "3") [])]) = Some (txt "7.5 -3").
Proof.
  split; [split; [right; apply wnumeric; discriminate|intros _; apply numbers_words]|]. split; [|vm_compute; reflexivity].
  eexists. split; [reflexivity|]. constructor; [|constructor; [|constructor]].
  - exists (WDec false (txt "7") (txt "5")), (txt "7.5"). split; [reflexivity|vm_compute; reflexivity].
  - exists (WDec true (txt "3") []), (txt "-3"). split; [reflexivity|vm_compute; reflexivity].
Qed.

Definition wwhite (b : nat) : white := match b with 0 => WPreserve | _ => WCollapse end.
Example C83_valid_ex : exists m fixed x v,
  plain wparse wwhite wlt wlt wsize imatches (SList (SBuiltin 1 false)) /\ interpret (SList (SBuiltin 1 false)) = Ok (m, fixed) /\ wwrites_back m /\
  clear_text false (txt "007 -3") /\ denotes wparse wwhite wlt wlt wsize imatches (SList (SBuiltin 1 false)) (txt "007 -3") x /\
  wread m (txt "007 -3") = Ok v /\ shown (wwrite m v) = txt "7 -3" /\ clear_text false (txt "7 -3").
Proof.
  do 2 eexists. exists (XList [XAtom (WDec false (txt "7") []); XAtom (WDec true (txt "3") [])]). eexists.
  split; [exact I|]. split; [reflexivity|]. split.
  { split; [split; [right; apply wnumeric; discriminate|discriminate]|]. intros _. split; [reflexivity|exact I]. }
  assert (HC : forall u w, word u -> word w -> clear_text false (u ++ 32%N :: w)).
  { intros u w (U1 & U2) (W1 & W2). exists [u; w]. split; [reflexivity|]. repeat constructor; try assumption; discriminate. }
  split; [apply (HC (txt "007") (txt "-3")); split; try discriminate; repeat constructor|].
  assert (HO : forall w, word w -> words_of xml_ws [w] w).
  { intros w (W1 & W2). rewrite <- (app_nil_r w) at 2. apply (wo_word xml_ws [] w [] []); try reflexivity; try assumption; [|constructor; reflexivity].
    apply forallb_forall. intros c Hc. rewrite Forall_forall in W2. rewrite SimpleTextProofs.visible_xml by (apply W2, Hc). reflexivity. }
  split; [|split; [vm_compute; reflexivity|split; [vm_compute; reflexivity|apply (HC (txt "7") (txt "-3")); split; try discriminate; repeat constructor]]].
  exists [txt "007"; txt "-3"]. eexists. split.
  { apply (wo_word xml_ws [] (txt "007") (32%N :: txt "-3") [txt "-3"]); try reflexivity; [discriminate|].
    apply (FacetProofs.words_cons_ws xml_ws [txt "-3"] (txt "-3") 32%N); [reflexivity|]. apply HO. split; [discriminate|repeat constructor]. }
  split; [|reflexivity]. repeat constructor.
  - exists (txt "007"), (WDec false (txt "7") []). split; [|split; [vm_compute; reflexivity|reflexivity]].
    exists [txt "007"]. split; [apply HO; split; [discriminate|repeat constructor]|reflexivity].
  - exists (txt "-3"), (WDec true (txt "3") []). split; [|split; [vm_compute; reflexivity|reflexivity]].
    exists [txt "-3"]. split; [apply HO; split; [discriminate|repeat constructor]|reflexivity].
Qed.

(** ** Where the code is wrong *)

(** Fraction digits are written even if there are none, and are counted when they are read
    again. *)
Theorem C83_total_refuted : exists d m fixed t v s, interpret d = Ok (m, fixed) /\ generate wparse m = Ok tt /\
  wread m t = Ok v /\ wwrite m v = Some s /\ wread m s = Err RDigits.
Proof.
  exists (SRestriction false (SBuiltin 2 false) [FTotalDigits 3; FFractionDigits 2]). do 2 eexists. exists (txt "12.3"). do 2 eexists.
  split; [reflexivity|]. split; [reflexivity|]. split; [vm_compute; reflexivity|]. split; [vm_compute; reflexivity|]. vm_compute. reflexivity.
Qed.
Print Assumptions C83_total_refuted.

(** A pattern that takes the text of a number does not take the printed number. *)
Theorem C83_pattern_refuted : exists d m fixed t v s, interpret d = Ok (m, fixed) /\ generate wparse m = Ok tt /\
  wread m t = Ok v /\ wwrite m v = Some s /\ wread m s = Err RPattern.
Proof.
  exists (SRestriction false (SBuiltin 1 false) [FPattern (txt "0.")]). do 2 eexists. exists (txt "05"). do 2 eexists.
  split; [reflexivity|]. split; [reflexivity|]. split; [vm_compute; reflexivity|]. split; [vm_compute; reflexivity|]. vm_compute. reflexivity.
Qed.
Print Assumptions C83_pattern_refuted.

(** Another member of a union takes the text that is written. *)
Theorem C83_union_refuted : exists d m fixed t v s v', interpret d = Ok (m, fixed) /\ generate wparse m = Ok tt /\
  wread m t = Ok v /\ wwrite m v = Some s /\ wread m s = Ok v' /\ v' <> v.
Proof.
  exists (SUnion [SRestriction false (SBuiltin 0 false) [FPattern (txt ".")]; SBuiltin 1 false]). do 2 eexists. exists (txt "05"). do 3 eexists.
  split; [reflexivity|]. split; [reflexivity|]. split; [vm_compute; reflexivity|]. split; [vm_compute; reflexivity|].
  split; [vm_compute; reflexivity|]. discriminate.
Qed.
Print Assumptions C83_union_refuted.

(** Values that no text has are built: patterns are not checked, *)
Theorem C83_build_pattern_refuted : exists d m fixed v s, interpret d = Ok (m, fixed) /\ generate wparse m = Ok tt /\
  wbuilds m v /\ wwrite m v = Some s /\ wread m s = Err RPattern.
Proof.
  exists (SRestriction false (SBuiltin 0 false) [FPattern (txt "a")]). do 2 eexists. exists (VAtom (WText (txt "b"))). eexists.
  split; [reflexivity|]. split; [reflexivity|]. split; [|split; vm_compute; reflexivity].
  split; [|vm_compute; reflexivity]. exists (WText (txt "b")), (txt "b"). split; reflexivity.
Qed.
Print Assumptions C83_build_pattern_refuted.

(** fraction digits are not checked and get lost, *)
Theorem C83_build_fraction_refuted : exists d m fixed v s v', interpret d = Ok (m, fixed) /\ generate wparse m = Ok tt /\
  wbuilds m v /\ wwrite m v = Some s /\ wread m s = Ok v' /\ v' <> v.
Proof.
  exists price. do 2 eexists. exists (VAtom (WDec false (txt "1") (txt "234"))). do 2 eexists.
  split; [reflexivity|]. split; [reflexivity|]. split; [|split; [vm_compute; reflexivity|split; [vm_compute; reflexivity|discriminate]]].
  split; [|vm_compute; reflexivity]. exists (WDec false (txt "1") (txt "234")), (txt "1.234"). split; [reflexivity|vm_compute; reflexivity].
Qed.
Print Assumptions C83_build_fraction_refuted.

(** white space is not checked and gets lost, *)
Theorem C83_build_white_refuted : exists d m fixed v s v', interpret d = Ok (m, fixed) /\ generate wparse m = Ok tt /\
  wbuilds m v /\ wwrite m v = Some s /\ wread m s = Ok v' /\ v' <> v.
Proof.
  exists (SRestriction false (SBuiltin 0 false) [FWhiteSpace WCollapse]). do 2 eexists. exists (VAtom (WText (txt " a "))). do 2 eexists.
  split; [reflexivity|]. split; [reflexivity|]. split; [|split; [vm_compute; reflexivity|split; [vm_compute; reflexivity|discriminate]]].
  split; [|vm_compute; reflexivity]. exists (WText (txt " a ")), (txt " a "). split; reflexivity.
Qed.
Print Assumptions C83_build_white_refuted.

(** and items of lists that are empty or have blanks get lost or are split. *)
Theorem C83_build_items_refuted : exists d m fixed, interpret d = Ok (m, fixed) /\ generate wparse m = Ok tt /\
  (exists v s v', wbuilds m v /\ wwrite m v = Some s /\ wread m s = Ok v' /\ len wsize v = Some 2 /\ len wsize v' = Some 1) /\
  (exists v s v', wbuilds m v /\ wwrite m v = Some s /\ wread m s = Ok v' /\ len wsize v = Some 1 /\ len wsize v' = Some 2).
Proof.
  exists (SList (SBuiltin 0 false)). do 2 eexists. split; [reflexivity|]. split; [reflexivity|].
  assert (HB : forall l, wbuilds (MRef (MRef (MBuildIn 0) false) true) (VList (map (fun s => VAtom (WText s)) l))).
  { intros l. eexists. split; [reflexivity|]. induction l as [|s l IH]; constructor; [exists (WText s), s; split; reflexivity|exact IH]. }
  split.
  - do 3 eexists. split; [apply (HB [[]; txt "a"])|]. split; [vm_compute; reflexivity|]. split; [vm_compute; reflexivity|]. split; reflexivity.
  - do 3 eexists. split; [apply (HB [txt "a b"])|]. split; [vm_compute; reflexivity|]. split; [vm_compute; reflexivity|]. split; reflexivity.
Qed.
Print Assumptions C83_build_items_refuted.

(** C109: the documentation of the generated code. *)
From Verif Require Import Base FacetModel SerHelperModel SerHelperSpec SerHelperProofs.
From Verif Require Import DeModel DeSpec DeProofs ElementModel ElementSpec ElementProofs AnnoModel AnnoSpec AnnoProofs.
Local Open Scope string_scope.

(** Every documentation element whose names are UTF-8 is written as a well-formed element
    (C05), and there is an element without content in it if and only if one of the values
    inside has no values itself.  So [stands_for] below can be met. *)
Theorem C109_written : forall utf8_ok e n, tag_name utf8_ok None e = Ok n -> kids_ok utf8_ok e = true ->
  exists t, stands_for utf8_ok e t /\ root_name t = Some n /\ empty_inside t = childless_inside e.
Proof.
  intros utf8_ok e n T K.
  exists (tree_of n e helper_default). split; [split; [|split]|].
  - apply tree_proper.
  - rewrite tree_root. discriminate.
  - exists (List.length (flatten (tree_of n e helper_default))). intros fuel HF.
    unfold element_ser_run. apply steps_run; [apply ser_ok; auto using lv_default|exact HF].
  - split; [apply tree_root|apply childless_inside_tree].
Qed.
Print Assumptions C109_written.

(** The documentation of an annotation is the content of its documentation elements, each
    one that has content, in their order; what was there before stays.  [_partial]: no
    element without content is in it. *)
Theorem C109_docs_partial : forall utf8_ok write_event unindent l ts docs,
  Forall2 (fun e t => stands_for utf8_ok e t /\ empty_inside t = false)
    (flat_map (fun c => match c with AnnDocumentation e => [e] | AnnAppinfo _ => [] end) l) ts ->
  exists N, forall fuel, N < fuel ->
    extract_docs utf8_ok write_event unindent fuel l docs = Some ((docs ++ docs_of write_event unindent ts)%list, true).
Proof. exact docs_exact. Qed.
Print Assumptions C109_docs_partial.

(** Refuted: if an element without content, like [<br/>], is anywhere in it, the end tag of
    the documentation element is taken for a part of the documentation. *)
Theorem C109_docs_refuted : forall n a kids, forallb proper kids = true -> existsb has_empty kids = true ->
  doc_events 0 (flatten (XElem n a kids)) = (content_of (XElem n a kids) ++ [EEnd n])%list.
Proof.
  intros n a kids P X. rewrite events_exact; [|exact P|discriminate]. cbn [empty_inside]. rewrite X. reflexivity.
Qed.
Print Assumptions C109_docs_refuted.

(** The documentation that is written for a type, field or variant: all lines of all
    texts in their order, without the white space at their ends; none if it is switched
    off. *)
Theorem C109_lines : forall docs,
  render_docs false docs = None /\
  exists ls out, render_docs true docs = Some out /\ Forall2 lines_of docs ls /\ Forall2 without_end (concat ls) out.
Proof. intro docs. split; [reflexivity|apply render_docs_lines]. Qed.
Print Assumptions C109_lines.

(** The documentation of a global element is kept exactly once by the types that are made
    for it, of which exactly one is the type of the element itself. *)
Theorem C109_element : forall nillable substitution docs,
  flat_map snd (element_docs true nillable substitution docs) = docs /\
  flat_map snd (element_docs false nillable substitution docs) = [] /\
  exists l own, element_docs true nillable substitution docs = (l ++ [(MadeElement, own)])%list /\
    ~ In MadeElement (map fst l).
Proof.
  intros nillable substitution docs.
  split; [destruct nillable, substitution; cbn; rewrite ?app_nil_r; reflexivity|].
  split; [destruct nillable, substitution; reflexivity|].
  exists (removelast (element_docs true nillable substitution docs)).
  destruct nillable, substitution; cbn; (eexists; split; [reflexivity|intuition discriminate]).
Qed.
Print Assumptions C109_element.

(** It is the documentation of the type of the element.  [_partial]: the element is not
    nillable and in no substitution group. *)
Theorem C109_element_partial : forall docs, In (MadeElement, docs) (element_docs true false false docs).
Proof. intro docs. left. reflexivity. Qed.
Print Assumptions C109_element_partial.

(** Refuted: the type of a nillable element or of one in a substitution group has no
    documentation. *)
Theorem C109_element_refuted : forall nillable substitution docs own, (nillable || substitution)%bool = true ->
  In (MadeElement, own) (element_docs true nillable substitution docs) -> own = [].
Proof.
  intros [] [] docs own H I1; cbn in *; try discriminate;
    repeat (destruct I1 as [I1|I1]; [inversion I1; reflexivity|]); destruct I1.
Qed.
Print Assumptions C109_element_refuted.

Example C109_case_element :
  element_docs true true true [[7%N]] = [(MadeNillable, [[7%N]]); (MadeSubstitution, []); (MadeElement, [])].
Proof. reflexivity. Qed.

(** A documentation with a paragraph, and one with a line break. *)
Definition doc_case : element :=
  Element "xs:documentation" [] [] [VText "a"; VElem (Element "p" [] [] [VText "b"]); VText "c"].
Definition doc_break : element :=
  Element "xs:documentation" [] [] [VText "a"; VElem (Element "br" [] [] []); VText "c"].
Definition show_event (e : event) : str :=
  match e with
  | EStart _ _ => [1%N] | EEmpty _ _ => [2%N] | EEnd _ => [3%N; 10%N] | EText _ => [7%N; 32%N] | _ => []
  end.

Example C109_case :
  extract_docs (fun _ => true) show_event (fun s => s) 20
    [AnnDocumentation doc_case; AnnAppinfo doc_break; AnnDocumentation doc_case] [] =
  Some ([[7; 32; 1; 7; 32; 3; 10; 7]%N; [7; 32; 1; 7; 32; 3; 10; 7]%N], true) /\
  render_docs true [[7; 32; 1; 7; 32; 3; 32; 10; 7]%N] = Some [[7; 32; 1; 7; 32; 3]%N; [7%N]].
Proof. vm_compute. auto. Qed.

Example C109_case_hypotheses :
  tag_name (fun _ => true) None doc_case = Ok "xs:documentation" /\ kids_ok (fun _ => true) doc_case = true /\
  childless_inside doc_case = false /\ childless_inside doc_break = true.
Proof. vm_compute. auto. Qed.

Example C109_break :
  extract_docs (fun _ => true) show_event (fun s => s) 20 [AnnDocumentation doc_break] [] =
  Some ([[7; 32; 2; 7; 32; 3]%N], true).
Proof. vm_compute. reflexivity. Qed.

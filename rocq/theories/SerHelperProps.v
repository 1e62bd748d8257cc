(** C01-C04, C20: namespace handling of the serializer. *)
From Verif Require Import SerHelperModel SerHelperSpec SerHelperProofs.
Local Open Scope string_scope.

(** C01.  Whatever happened before ([hist]), opening a scope, performing any
    well-bracketed sequence of calls and closing the scope leaves the helper
    exactly as it was. *)
Theorem C01_scope_restored : forall hist ops, balanced ops ->
  hrun helper_default (hist ++ HBegin :: ops ++ [HEnd]) = hrun helper_default hist.
Proof. exact scope_restores_reach. Qed.
Print Assumptions C01_scope_restored.

Example C01_example :
  balanced [HWrite (Some "a") "urn:a"; HBegin; HWrite None "urn:b"; HEnd; HWrite (Some "c") "urn:c"] /\
  h_ns (hrun helper_default [HBegin; HWrite (Some "x") "urn:x"; HBegin; HWrite (Some "a") "urn:a"]) <>
  h_ns (hrun helper_default [HBegin; HWrite (Some "x") "urn:x"]).
Proof. split; [reflexivity|cbn; congruence]. Qed.

(** C02.  Full statement: after [HWrite p ns] a reader resolves [p] to [ns].
    The code violates it: a prefix bound to another namespace in between is not
    noticed. *)
Theorem C02_declared_refuted : exists hist p ns,
  scope_lookup (Some p) (snd (reach (hist ++ [HWrite (Some p) ns]))) <> Some ns.
Proof.
  exists [HBegin; HWrite (Some "p") "urn:x"; HBegin; HWrite (Some "p") "urn:y"; HBegin], "p", "urn:x".
  vm_compute. discriminate.
Qed.
Print Assumptions C02_declared_refuted.

(** Proved part: it holds whenever no open tag binds the requested prefix to
    another namespace.  Missing: histories with such a shadowing. *)
Theorem C02_declared_partial : forall hist p ns,
  let '(h, s) := reach hist in
  (forall ns', In (xmlns_key (filter_prefix p), ns') (concat s) -> ns' = ns) ->
  scope_lookup (filter_prefix p) (snd (reach (hist ++ [HWrite p ns]))) = Some ns.
Proof. exact write_in_scope. Qed.
Print Assumptions C02_declared_partial.

Example C02_example :
  let '(h, s) := reach [HBegin; HWrite (Some "a") "urn:a"; HBegin; HWrite (Some "b") "urn:a"] in
  (forall ns', In (xmlns_key (filter_prefix (Some "a")), ns') (concat s) -> ns' = "urn:a") /\
  concat s <> [].
Proof.
  vm_compute. split; [|discriminate].
  intros ns' [H|[H|[]]]; [discriminate|congruence].
Qed.

(** C03.  Full statement: the xmlns attributes pushed on one tag have different
    names.  Violated by requests for the same prefix. *)
Theorem C03_no_duplicate_xmlns_refuted : exists hist reqs,
  ~ NoDup (map fst (snd (write_all (hrun helper_default hist) reqs))).
Proof.
  exists [HBegin], [(Some "a", "urn:x"); (Some "b", "urn:x"); (Some "a", "urn:x")].
  vm_compute. intros H. inversion H as [|x l Hn _]; subst. apply Hn. right; left; reflexivity.
Qed.
Print Assumptions C03_no_duplicate_xmlns_refuted.

(** Proved part: requests for pairwise different prefixes. *)
Theorem C03_no_duplicate_xmlns_partial : forall h reqs,
  NoDup (map (fun r => filter_prefix (fst r)) reqs) ->
  NoDup (map fst (snd (write_all h reqs))).
Proof. exact write_all_nodup. Qed.
Print Assumptions C03_no_duplicate_xmlns_partial.

Example C03_example :
  NoDup (map (fun r : option bytes * bytes => filter_prefix (fst r))
    [(Some "a", "urn:x"); (None, "urn:x"); (Some "b", "urn:x")]) /\
  length (snd (write_all helper_default [(Some "a", "urn:x"); (None, "urn:x"); (Some "b", "urn:x")])) = 3.
Proof.
  split; [|reflexivity]. cbn. repeat constructor; cbn; intuition discriminate.
Qed.

(** C04.  Full statement: the text written for a QName with a namespace is read
    back as the same name.  Violated by shadowing. *)
Theorem C04_qname_resolves_refuted : exists hist q ns text,
  let '(h, s) := reach hist in
  q_ns q = Some ns /\ qname_serialize (fun _ => true) h q = Ok text /\
  read_qname s text <> (Some ns, q_local q).
Proof.
  exists [HBegin; HWrite (Some "p") "urn:x"; HBegin; HWrite (Some "p") "urn:y"],
    (with_namespace (qname_from_bytes "q:name") "urn:x"), "urn:x", "p:name".
  vm_compute. repeat split; discriminate.
Qed.
Print Assumptions C04_qname_resolves_refuted.

Theorem C04_qname_resolves_partial : forall utf8_ok hist q ns text,
  let '(h, s) := reach hist in
  functional_scope s ->
  (forall p v, In (xmlns_key (Some p), v) (concat s) -> printable_ascii p /\ no_colon p) ->
  no_colon (q_local q) ->
  q_ns q = Some ns ->
  qname_serialize utf8_ok h q = Ok text ->
  read_qname s text = (Some ns, q_local q).
Proof. exact qname_roundtrip. Qed.
Print Assumptions C04_qname_resolves_partial.

Example C04_example :
  let '(h, s) := reach [HBegin; HWrite (Some "a") "urn:a"; HBegin; HWrite (Some "b") "urn:b"] in
  functional_scope s /\
  (forall p v, In (xmlns_key (Some p), v) (concat s) -> printable_ascii p /\ no_colon p) /\
  qname_serialize (fun _ => true) h (with_namespace (qname_from_bytes "zz:name") "urn:a") = Ok "a:name".
Proof.
  vm_compute. split; [|split; [|reflexivity]].
  - intros k v1 v2 [H|[H|[]]] [G|[G|[]]]; congruence.
  - intros p v [H|[H|[]]]; injection H as <- <-; (split; [intros c [<-|[]]; vm_compute; lia|intros [E|[]]; discriminate]).
Qed.

(** The name returned by [add_qname_namespace] for a start tag resolves to the
    namespace of the QName in the scope that includes the attributes it pushed. *)
Theorem C04_add_qname_partial : forall hist q ns,
  let '(h, s) := reach hist in
  let '(h', a, q') := add_qname_namespace h q in
  functional_scope (add_attrs a s) ->
  (forall p v, In (xmlns_key (Some p), v) (concat s) -> no_colon p) ->
  no_colon (q_local q) ->
  q_index q = colon_pos (q_raw q) ->
  q_ns q = Some ns ->
  read_qname (add_attrs a s) (q_raw q') = (Some ns, q_local q).
Proof. exact add_qname_resolves. Qed.
Print Assumptions C04_add_qname_partial.

Example C04_add_qname_example :
  let '(h, s) := reach [HBegin; HWrite (Some "a") "urn:a"; HBegin] in
  let '(h', a, q') := add_qname_namespace h (with_namespace (qname_from_bytes "b:n") "urn:b") in
  functional_scope (add_attrs a s) /\ a = [("xmlns:b", "urn:b")] /\ q_raw q' = "b:n".
Proof.
  vm_compute. split; [|split; reflexivity].
  intros k v1 v2 [H|[H|[]]] [G|[G|[]]]; congruence.
Qed.

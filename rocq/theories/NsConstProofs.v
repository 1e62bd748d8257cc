From Coq Require Import Lia.
From Verif Require Import NsConstModel NsConstSpec.
Local Open Scope string_scope.

Lemma format_printable s : printable s -> format_utf8_slice s = s.
Proof.
  induction s as [|c s IH]; intros H; [reflexivity|]. destruct H as [R H]. cbn [format_utf8_slice]. rewrite IH by exact H.
  unfold format_byte, is_ascii_control.
  destruct (Nat.ltb_spec (nat_of_ascii c) 32); [lia|]. destruct (Nat.eqb_spec (nat_of_ascii c) 127); [lia|].
  destruct (Nat.ltb_spec (nat_of_ascii c) 128); [reflexivity|lia].
Qed.

Section S.
Variables (screaming : string -> string) (ok : string -> bool).

Lemma prepared_name i : (forall p, ni_prefix i = Some p -> printable p) -> module_name (prepare_module i) = called i.
Proof.
  intros P. unfold module_name, prepare_module, info_name, called. cbn [mo_name mo_prefix].
  destruct (ni_module_name i); [reflexivity|]. destruct (ni_prefix i) as [p|]; [|reflexivity]. cbn.
  now rewrite (format_printable p (P _ eq_refl)).
Qed.
Lemma prepared_prefix i : (forall p, ni_prefix i = Some p -> printable p) -> module_prefix (prepare_module i) = written_as i.
Proof.
  intros P. unfold module_prefix, prepare_module, info_name, written_as. cbn [mo_name mo_prefix].
  destruct (ni_prefix i) as [p|]; cbn; [now rewrite (format_printable p (P _ eq_refl))|].
  now destruct (ni_module_name i).
Qed.

Lemma ns_path i u : (forall p, ni_prefix i = Some p -> printable p) -> ni_namespace i = Some u ->
  make_ns_const screaming ok (prepare_module i) = Some (format_ident ok (ns_name screaming i)).
Proof.
  intros P E. unfold make_ns_const. rewrite (prepared_name i P). cbn [mo_namespace prepare_module mo_id]. rewrite E.
  unfold ns_name. destruct (called i); reflexivity.
Qed.

Definition ns_pair (i : ns_info) : string * string :=
  (ns_name screaming i, match ni_namespace i with Some u => u | None => "" end).

Lemma ns_all l : all_printable l ->
  constants (ns_constant screaming ok) (prepare_modules l) =
  if forallb ok (ns_names screaming l) then Ok (map ns_pair (filter has_namespace l)) else Panic.
Proof.
  unfold ns_names. induction l as [|i l IH]; intros P; [reflexivity|].
  assert (P1 : forall p, ni_prefix i = Some p -> printable p) by (intros p; apply P; now left).
  assert (P2 : all_printable l) by (intros j p I; apply P; now right).
  cbn [prepare_modules map constants filter]. fold (prepare_modules l). rewrite (IH P2).
  unfold ns_constant at 1. cbn [mo_namespace prepare_module]. fold (prepare_module i).
  destruct (ni_namespace i) as [u|] eqn:E.
  - assert (H : has_namespace i = true) by (unfold has_namespace; now rewrite E). rewrite H. cbn [map forallb].
    rewrite (ns_path i u P1 E). unfold format_ident. destruct (ok (ns_name screaming i)); cbn; [|reflexivity].
    destruct (forallb ok _); [|reflexivity]. unfold ns_pair at 2. rewrite E. reflexivity.
  - assert (H : has_namespace i = false) by (unfold has_namespace; now rewrite E). rewrite H. reflexivity.
Qed.

Definition prefix_pairs (l : list ns_info) : list (string * string) :=
  flat_map (fun i => match called i, written_as i with
                     | Some n, Some p => if has_namespace i then [(prefix_name screaming n, p)] else []
                     | _, _ => []
                     end) l.

Lemma prefix_all l : all_printable l ->
  constants (prefix_constant screaming ok) (prepare_modules l) =
  if forallb ok (prefix_names screaming l) then Ok (prefix_pairs l) else Panic.
Proof.
  unfold prefix_names, prefix_pairs. induction l as [|i l IH]; intros P; [reflexivity|].
  assert (P1 : forall p, ni_prefix i = Some p -> printable p) by (intros p; apply P; now left).
  assert (P2 : all_printable l) by (intros j p I; apply P; now right).
  cbn [prepare_modules map constants flat_map]. fold (prepare_modules l). rewrite (IH P2).
  unfold prefix_constant at 1. rewrite (prepared_prefix i P1). unfold make_prefix_const. rewrite (prepared_name i P1).
  cbn [mo_namespace prepare_module]. rewrite forallb_app.
  assert (A : written_as i = None <-> called i = None).
  { unfold written_as, called. destruct (ni_prefix i), (ni_module_name i); split; congruence. }
  destruct (written_as i) as [p|] eqn:W, (called i) as [n|] eqn:C; try (destruct A as [A1 A2]; (discriminate (A1 eq_refl) || discriminate (A2 eq_refl))); [|reflexivity].
  destruct (ni_namespace i) as [u|] eqn:E.
  - assert (H : has_namespace i = true) by (unfold has_namespace; now rewrite E). rewrite H. cbn [with_value format_ident].
    unfold format_ident, prefix_name. cbn [forallb]. destruct (ok (_ ++ _)); cbn; [|reflexivity].
    destruct (forallb ok _); reflexivity.
  - assert (H : has_namespace i = false) by (unfold has_namespace; now rewrite E). rewrite H. reflexivity.
Qed.

Lemma rendered f l n : 0 < n ->
  finish f (render_types n (initialize (prepare_modules l))) (prepare_modules l) = constants f (prepare_modules l).
Proof.
  intros N. destruct l as [|i l]; cbn [prepare_modules map initialize].
  - assert (R : forall k, render_types k Done = Done) by (induction k; cbn; auto). rewrite R. reflexivity.
  - destruct n as [|n]; [lia|]. cbn [render_types render_type].
    assert (R : forall k, render_types k NamespaceResolved = NamespaceResolved) by (induction k; cbn; auto).
    now rewrite R.
Qed.
Lemma ns_rendered l n : all_printable l -> 0 < n ->
  ns_constants screaming ok l n = if forallb ok (ns_names screaming l) then Ok (map ns_pair (filter has_namespace l)) else Panic.
Proof. intros P N. unfold ns_constants. cbn zeta. rewrite rendered by exact N. now apply ns_all. Qed.
Lemma prefix_rendered l n : all_printable l -> 0 < n ->
  prefix_constants screaming ok l n = if forallb ok (prefix_names screaming l) then Ok (prefix_pairs l) else Panic.
Proof. intros P N. unfold prefix_constants. cbn zeta. rewrite rendered by exact N. now apply prefix_all. Qed.

Lemma ns_keys l : map fst (map ns_pair (filter has_namespace l)) = ns_names screaming l.
Proof. unfold ns_names. rewrite map_map. now apply map_ext. Qed.
Lemma prefix_keys l : map fst (prefix_pairs l) = prefix_names screaming l.
Proof.
  unfold prefix_pairs, prefix_names. induction l as [|i l IH]; [reflexivity|]. cbn [flat_map]. rewrite map_app, IH. f_equal.
  assert (A : written_as i = None <-> called i = None).
  { unfold written_as, called. destruct (ni_prefix i), (ni_module_name i); split; congruence. }
  destruct (written_as i) as [p|] eqn:W, (called i) as [n|] eqn:C; try (destruct A as [A1 A2]; (discriminate (A1 eq_refl) || discriminate (A2 eq_refl))); [|reflexivity].
  now destruct (has_namespace i).
Qed.
End S.

Lemma lookup_in l n v : NoDup (map fst l) -> In (n, v) l -> lookup n l = Some v.
Proof.
  induction l as [|[n' v'] l IH]; intros D I; [destruct I|]. cbn in D. inversion D; subst. cbn.
  destruct I as [E|I].
  - injection E as -> ->. now destruct (string_dec n n).
  - destruct (string_dec n n') as [->|_]; [|auto]. exfalso. apply H1. change n' with (fst (n', v)). now apply in_map.
Qed.

Lemma found infos i : NoDup (map ni_id infos) -> In i infos -> find_module (ni_id i) (prepare_modules infos) = Some (prepare_module i).
Proof.
  induction infos as [|j l IH]; intros D I; [destruct I|]. cbn in D. inversion D; subst. cbn.
  destruct I as [->|I].
  - now rewrite Nat.eqb_refl.
  - destruct (Nat.eqb_spec (ni_id i) (ni_id j)) as [E|_]; [|now apply IH]. exfalso. apply H1. rewrite <- E. now apply in_map.
Qed.
Lemma not_found infos ns : ~ In ns (map ni_id infos) -> find_module ns (prepare_modules infos) = None.
Proof.
  induction infos as [|j l IH]; intros N; [reflexivity|]. cbn. destruct (Nat.eqb_spec ns (ni_id j)) as [E|_].
  - exfalso. apply N. now left.
  - apply IH. intros I. apply N. now right.
Qed.

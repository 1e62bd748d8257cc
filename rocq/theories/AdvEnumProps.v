(** C96: enumerations, with and without [with_advanced_enums]. *)
From Coq Require Import ZArith.
From Verif Require Import SerHelperModel SerHelperSpec QNameModel NumberModel NumberSpec NumberProofs AdvEnumModel AdvEnumSpec AdvEnumProofs.
Local Open Scope string_scope.

(** Enumerations of strings are read exactly: a text is the first variant with this value. *)
Theorem C96_strings (F : Type) fparse feqb ffinite advanced constants m scope vs l s i :
  advanced = false \/ simple_base m = None \/ simple_base m = Some TStr ->
  generate F fparse ffinite advanced constants m vs = Ok l ->
  (read F fparse feqb advanced scope m l s = RVariant i <-> first_with (fun v => v_other v = false /\ v_name v = s) vs i).
Proof. intros. eapply read_text; eassumption. Qed.
Print Assumptions C96_strings.

(** Enumerations of floating-point numbers are read by value. *)
Theorem C96_float (F : Type) fparse feqb ffinite constants m scope vs l s i :
  simple_base m = Some TFloat -> generate F fparse ffinite true constants m vs = Ok l ->
  (forall v, In v vs -> v_other v = false /\ exists f, fparse (v_name v) = Some f) ->
  (read F fparse feqb true scope m l s = RVariant i <->
   first_with (fun v => exists f f', fparse s = Some f /\ fparse (v_name v) = Some f' /\ feqb f f' = true) vs i).
Proof. intros. eapply read_float; eassumption. Qed.
Print Assumptions C96_float.

(** Enumerations of qualified names are read by namespace and local name, if the values have a prefix, and the text
    in the document a namespace. *)
Theorem C96_qname_partial (F : Type) fparse feqb ffinite constants m scope vs l s i n0 l0 :
  simple_base m = Some TQName -> generate F fparse ffinite true constants m vs = Ok l ->
  (forall v, In v vs -> v_other v = false /\ In ":"%char (list_ascii_of_string (v_name v)) /\ exists ns l, expanded (v_ns v) (v_name v) ns l) ->
  expanded scope s (Some n0) l0 ->
  (read F fparse feqb true scope m l s = RVariant i <-> first_with (fun v => same_name scope s (v_ns v) (v_name v)) vs i).
Proof. exact (AdvEnumProofs.read_qname F fparse feqb ffinite constants m scope vs l s i n0 l0). Qed.
Print Assumptions C96_qname_partial.

(** Variants are written as texts that are read back as the same variant. *)
Theorem C96_written_strings (F : Type) fparse feqb ffinite fprint utf8_ok advanced constants m scope vs l h i e pe :
  advanced = false \/ simple_base m = None \/ simple_base m = Some TStr ->
  generate F fparse ffinite advanced constants m vs = Ok l -> compiles constants pe l = true -> NoDup (map v_name vs) ->
  nth_error l i = Some e -> v_other (fst e) = false ->
  exists t, write F fprint utf8_ok h e = Some (Ok t) /\ t = v_name (fst e) /\ read F fparse feqb advanced scope m l t = RVariant i.
Proof. intros. eapply written_text; eassumption. Qed.
Print Assumptions C96_written_strings.
Theorem C96_written_float (F : Type) fparse feqb ffinite fprint utf8_ok constants m scope vs l h i e :
  (forall f, ffinite f = true -> feqb f f = true /\ fparse (fprint f) = Some f) ->
  simple_base m = Some TFloat -> generate F fparse ffinite true constants m vs = Ok l ->
  (forall v, In v vs -> v_other v = false /\ exists f, fparse (v_name v) = Some f) ->
  (forall j k v w f g, nth_error vs j = Some v -> nth_error vs k = Some w -> fparse (v_name v) = Some f -> fparse (v_name w) = Some g ->
     feqb f g = true -> j = k) ->
  nth_error l i = Some e ->
  exists t, write F fprint utf8_ok h e = Some (Ok t) /\ read F fparse feqb true scope m l t = RVariant i.
Proof. intros. eapply written_float; eassumption. Qed.
Print Assumptions C96_written_float.
(** For qualified names: if the namespace of the value is declared where it is written. *)
Theorem C96_written_qname_partial (F : Type) fparse feqb ffinite fprint utf8_ok constants m scope vs l h i e n lo :
  simple_base m = Some TQName -> generate F fparse ffinite true constants m vs = Ok l ->
  (forall v, In v vs -> v_other v = false /\ In ":"%char (list_ascii_of_string (v_name v)) /\ exists ns l, expanded (v_ns v) (v_name v) ns l) ->
  (forall j k v w, nth_error vs j = Some v -> nth_error vs k = Some w -> same_name (v_ns v) (v_name v) (v_ns w) (v_name w) -> j = k) ->
  (forall d, In d (h_ns h) -> assoc (match ne_prefix d with Some p => p | None => "" end) scope = Some (ne_ns d) /\
     forall p, ne_prefix d = Some p -> printable_ascii p /\ no_colon p) ->
  nth_error l i = Some e -> expanded (v_ns (fst e)) (v_name (fst e)) (Some n) lo -> no_colon lo -> utf8_ok lo = true ->
  (exists d, In d (h_ns h) /\ ne_ns d = n) ->
  exists t, write F fprint utf8_ok h e = Some (Ok t) /\ expanded scope t (Some n) lo /\ read F fparse feqb true scope m l t = RVariant i.
Proof. intros. eapply written_qname; eassumption. Qed.
Print Assumptions C96_written_qname_partial.

(** The constant of a variant is the value in the schema. *)
Theorem C96_constants (F : Type) fparse ffinite advanced m vs l v t :
  generate F fparse ffinite advanced true m vs = Ok l -> In (v, VLiteral (CBytes t)) l -> str_constant t = Some (v_name v).
Proof. intros. eapply constant_text; eassumption. Qed.
Print Assumptions C96_constants.

(** Code is generated if all values are ASCII and no number is infinite, and it compiles if the base is no simple type of its own. *)
Theorem C96_no_panic_partial (F : Type) fparse ffinite advanced constants m vs :
  (forall v, In v vs -> is_ascii (v_name v) /\ forall f, fparse (v_name v) = Some f -> ffinite f = true) ->
  exists l, generate F fparse ffinite advanced constants m vs = Ok l.
Proof. intros. eapply generate_no_panic; eassumption. Qed.
Print Assumptions C96_no_panic_partial.
Theorem C96_compiles_partial (F : Type) fparse ffinite advanced m vs l partial_eq :
  generate F fparse ffinite advanced true m vs = Ok l -> (forall v, In v vs -> v_other v = false) ->
  (forall b, simple_base m <> Some (TSimple b)) -> compiles true partial_eq l = true.
Proof. intros. eapply generated_compiles; eassumption. Qed.
Print Assumptions C96_compiles_partial.

(** ** A case *)

(** Numbers in tenths; 1000 stands for infinity. *)
Definition tenths (s : string) : option Z :=
  if String.eqb s "1.5" then Some 15%Z else if String.eqb s "1.50" then Some 15%Z else if String.eqb s "2" then Some 20%Z
  else if String.eqb s "INF" then Some 1000%Z else None.
Definition tenths_finite (z : Z) : bool := negb (Z.eqb z 1000).
Definition tenths_print (z : Z) : string := if Z.eqb z 15 then "1.5" else "2".
Definition tns := [("tns", "urn:a")].

Example C96_case_float :
  (exists l, generate Z tenths tenths_finite true true TFloat [Variant "2" [] false; Variant "1.50" [] false] = Ok l /\
     read Z tenths Z.eqb true [] TFloat l "1.5" = RVariant 1 /\ read Z tenths Z.eqb true [] TFloat l "x" = RError /\
     write Z tenths_print (fun _ => true) helper_default (Variant "1.50" [] false, VConstant (CFloat 15%Z)) = Some (Ok "1.5")) /\
  generate Z tenths tenths_finite true true TFloat [Variant "INF" [] false] = Panic.
Proof. split; [eexists; repeat split|reflexivity]. Qed.
Example C96_case_qname : exists l,
  generate Z tenths tenths_finite true true TQName [Variant "tns:A" tns false; Variant "tns:B" tns false] = Ok l /\
  expanded tns "tns:B" (Some "urn:a") "B" /\ expanded [("p", "urn:a")] "p:B" (Some "urn:a") "B" /\
  read Z tenths Z.eqb true [("p", "urn:a")] TQName l "p:B" = RVariant 1 /\ read Z tenths Z.eqb true [("", "urn:a")] TQName l "B" = RVariant 1 /\
  read Z tenths Z.eqb true [("tns", "urn:b")] TQName l "tns:B" = RError.
Proof.
  eexists. split; [reflexivity|]. split; [|split; [|repeat split]].
  - apply (Exp_prefix tns "tns" "B" "urn:a"); [cbn; intuition congruence|]. exists [], []. auto.
  - apply (Exp_prefix _ "p" "B" "urn:a"); [cbn; intuition congruence|]. exists [], []. auto.
Qed.
Example C96_case_string : exists l,
  generate Z tenths tenths_finite true true (TEnum (Some TString)) [Variant "b" [] false; Variant "bb\" [] false; Variant "" [] true] = Ok l /\
  read Z tenths Z.eqb true [] (TEnum (Some TString)) l "bb\" = RVariant 1 /\ read Z tenths Z.eqb true [] (TEnum (Some TString)) l "c" = ROther 2 /\
  byte_string "bb\" = String "b" (String """" (String "b" (String "b" (String "\" (String "\" (String """" "")))))) /\ str_constant "bb\" = Some "bb\".
Proof. eexists. split; [reflexivity|]. repeat split. Qed.

(** ** Where the code is wrong *)

(** The generator panics for values with other characters than ASCII, *)
Theorem C96_ascii_refuted : forall (F : Type) fparse ffinite, exists vs, length vs = 1 /\
  generate F fparse ffinite true true TString vs = Panic /\ exists l, generate F fparse ffinite false false TString vs = Ok l.
Proof.
  intros F fparse ffinite. exists [Variant (String "195" (String "164" "")) [] false]. split; [reflexivity|]. split; [reflexivity|]. eexists. reflexivity.
Qed.
Print Assumptions C96_ascii_refuted.

(** and for infinite numbers. *)
Theorem C96_infinite_refuted : forall (F : Type) fparse ffinite constants s f, fparse s = Some f -> ffinite f = false ->
  generate F fparse ffinite true constants TFloat [Variant s [] false] = Panic.
Proof. intros F fparse ffinite constants s f H1 H2. cbn. rewrite H1, H2. reflexivity. Qed.
Print Assumptions C96_infinite_refuted.

(** Integers are compared as texts. *)
Theorem C96_integer_refuted : forall (F : Type) fparse feqb ffinite, exists name s z l,
  denotes_int "int" name z /\ denotes_int "int" s z /\
  generate F fparse ffinite true true (TInt true 32) [Variant name [] false] = Ok l /\ compiles true true l = true /\
  read F fparse feqb true [] (TInt true 32) l s = RError.
Proof.
  intros F fparse feqb ffinite. exists "1", "01", 1%Z, [(Variant "1" [] false, VLiteral (CBytes "1"))].
  assert (H : forall s, int_from_str (-2147483648) 2147483647 s = Some 1%Z -> denotes_int "int" s 1).
  { intros s E. apply (NumberProofs.signed_types false false 64 "int" s 1); [cbn; auto|]. unfold read_type. cbn -[int_from_str].
    change (int_min true 32) with (-2147483648)%Z. change (int_max true 32) with 2147483647%Z. rewrite E. reflexivity. }
  split; [apply H; reflexivity|]. split; [apply H; reflexivity|]. repeat split.
Qed.
Print Assumptions C96_integer_refuted.

(** So are numbers whose base is a type definition, unless it is resolved beforehand. *)
Theorem C96_typedef_refuted : forall (F : Type) fparse feqb ffinite name s f l, fparse name = Some f -> fparse s = Some f -> name <> s ->
  generate F fparse ffinite true true (TRef TFloat) [Variant name [] false] = Ok l ->
  read F fparse feqb true [] (TRef TFloat) l s = RError.
Proof.
  intros F fparse feqb ffinite name s f l H1 H2 HN HG. cbn in HG. injection HG as <-. unfold read, matches_literal. cbn.
  destruct (String.eqb_spec name s); [contradiction|reflexivity].
Qed.
Print Assumptions C96_typedef_refuted.

(** An enumeration of a simple type with facets does not compile. *)
Theorem C96_simple_refuted : forall (F : Type) fparse ffinite, exists vs l,
  generate F fparse ffinite true true (TSimple (TInt true 32)) vs = Ok l /\ forall constants partial_eq, compiles constants partial_eq l = false.
Proof.
  intros F fparse ffinite. exists [Variant "1" [] false]. eexists. split; [reflexivity|]. reflexivity.
Qed.
Print Assumptions C96_simple_refuted.

(** A value without prefix is not found in the default namespace of the schema, *)
Theorem C96_default_namespace_refuted : forall (F : Type) fparse feqb ffinite, exists v scope s l,
  generate F fparse ffinite true true TQName [v] = Ok l /\ same_name scope s (v_ns v) (v_name v) /\
  read F fparse feqb true scope TQName l s = RError.
Proof.
  intros F fparse feqb ffinite. exists (Variant "A" [("", "urn:a")] false), [("p", "urn:a")], "p:A". eexists. split; [reflexivity|]. split; [|reflexivity].
  exists (Some "urn:a"), "A". split.
  - apply (Exp_prefix _ "p" "A"); [cbn; intuition congruence|]. exists [], []. auto.
  - apply Exp_default; [cbn; intuition congruence|]. exists [], []. auto.
Qed.
Print Assumptions C96_default_namespace_refuted.

(** but in every other. *)
Theorem C96_other_namespace_refuted : forall (F : Type) fparse feqb ffinite, exists v scope s l,
  generate F fparse ffinite true true TQName [v] = Ok l /\ expanded (v_ns v) (v_name v) (Some "urn:a") "A" /\ expanded scope s (Some "urn:b") "A" /\
  read F fparse feqb true scope TQName l s = RVariant 0.
Proof.
  intros F fparse feqb ffinite. exists (Variant "A" [("", "urn:a")] false), [("", "urn:b")], "A". eexists. split; [reflexivity|].
  split; [|split; [|reflexivity]]; (apply Exp_default; [cbn; intuition congruence|]; exists [], []; auto).
Qed.
Print Assumptions C96_other_namespace_refuted.

(** A qualified name whose namespace is not declared where it is written is an error. *)
Theorem C96_undeclared_refuted : forall (F : Type) fparse ffinite fprint utf8_ok, exists v e,
  generate F fparse ffinite true true TQName [v] = Ok [e] /\ expanded (v_ns v) (v_name v) (Some "urn:a") "A" /\
  forall h, (forall d, In d (h_ns h) -> ne_ns d <> "urn:a") -> exists err, write F fprint utf8_ok h e = Some (Err err).
Proof.
  intros F fparse ffinite fprint utf8_ok. exists (Variant "tns:A" tns false). eexists. split; [reflexivity|]. split.
  - apply (Exp_prefix _ "tns" "A"); [cbn; intuition congruence|]. exists [], []. auto.
  - intros h H. exists (UnknownNamespace "urn:a").
    assert (HF : find_ns "urn:a" (h_ns h) = None).
    { induction (h_ns h) as [|d k IH]; [reflexivity|]. cbn [find_ns]. destruct (String.eqb_spec (ne_ns d) "urn:a") as [E|E]; [elim (H d (or_introl eq_refl) E)|].
      apply IH. intros d' HD. apply H. right. exact HD. }
    change (write F fprint utf8_ok h (Variant "tns:A" tns false, VConstant (CQName (QName "tns:A" (Some 3) (Some "urn:a")))) = Some (Err (UnknownNamespace "urn:a"))).
    unfold write. cbn [v_other fst snd write_code]. unfold qname_serialize, get_namespace_prefix. cbn [q_ns]. rewrite HF. reflexivity.
Qed.
Print Assumptions C96_undeclared_refuted.

(** Without [with_advanced_enums], qualified names are compared as texts: the same text is taken in every namespace. *)
Theorem C96_plain_qname_refuted : forall (F : Type) fparse feqb ffinite, exists v scope l,
  generate F fparse ffinite false false TQName [v] = Ok l /\ expanded (v_ns v) (v_name v) (Some "urn:a") "A" /\
  expanded scope "tns:A" (Some "urn:b") "A" /\ read F fparse feqb false scope TQName l "tns:A" = RVariant 0.
Proof.
  intros F fparse feqb ffinite. exists (Variant "tns:A" tns false), [("tns", "urn:b")]. eexists. split; [reflexivity|].
  split; [|split; [|reflexivity]]; (apply (Exp_prefix _ "tns" "A"); [cbn; intuition congruence|]; exists [], []; auto).
Qed.
Print Assumptions C96_plain_qname_refuted.

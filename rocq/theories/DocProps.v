(** C72, C73: reading whole documents. *)
From Verif Require Import Utf8 DocModel GenSpec TextSpec DocSpec DeSpec GenProofs DocTypeProofs GenProps.
Local Open Scope string_scope.
Local Open Scope list_scope.

(** ** C72: every valid document is read, as the value it stands for *)

(** Missing: groups that have to occur but may be without elements and are not plainly
    empty, and groups without particles (see [tame_type]). *)
Theorem C72_documents_partial : forall (T A : Type) blank ff (no_attrs : A) attrs_of
    (parse : nat -> dhelper -> bytes -> outcome kind (T * dhelper)) charref env
    n m ty prolog evs v h h' rest,
  (forall ty, tame_type (T:=T) ff no_attrs (env ty) = true) ->
  n <= m -> spaces blank dhelper_default prolog h ->
  valid blank ff no_attrs attrs_of parse charref env n ty h evs v h' ->
  driver_run (type_deser ff no_attrs attrs_of parse charref utf8_valid env m ty) blank driver_new
    (prolog ++ evs ++ rest) = RDone v rest.
Proof. intros. eapply document_read; eassumption. Qed.
Print Assumptions C72_documents_partial.

(** A closed schema: an order has a customer, one or more pairs of an item and a price, or
    a note, and possibly a date.
    [<order><customer>c</customer><item>i</item><price>1</price><date>d</date></order>]. *)
Definition order_env (ty : nat) : tdef :=
  match ty with
  | 0 => TComplex false 1 (Bounded 1) CSequence
           [PElement 1 (Bounded 1) None "customer" 1;
            PGroup 1 (Bounded 1) CChoice
              [PGroup 1 Unbounded CSequence
                 [PElement 1 (Bounded 1) None "item" 2; PElement 1 (Bounded 1) None "price" 3];
               PElement 1 (Bounded 1) None "note" 2];
            PElement 0 (Bounded 1) None "date" 2]
  | 1 => TSimpleContent
  | _ => TSimple
  end.
Definition attrs_any (ty : nat) : dhelper -> bytes -> list attr -> outcome kind (unit * dhelper) := ex_attrs.
Definition parse_any (ty : nat) (h : dhelper) (s : bytes) : outcome kind (bytes * dhelper) := Ok (s, h).
Definition order_doc : list event :=
  [EStart "order" []] ++
  (ex_el "customer" "c" ++ (ex_el "item" "i" ++ ex_el "price" "1") ++ ex_el "date" "d") ++
  [EEnd "order"].
Definition flat := FlatFlags true true.
Definition nested := FlatFlags false false.
Definition order_value : val bytes unit :=
  VStruct tt [[VSimple tt "c"]; [VEnum 0 [VStruct tt [[VText "i"]; [VText "1"]]]]; [VText "d"]].
Notation read ff env m ty evs :=
  (driver_run (type_deser ff tt attrs_any parse_any (fun _ => None) utf8_valid env m ty) ex_blank driver_new evs).

Example C72_order_tame : forall ty, tame_type (T:=bytes) flat tt (order_env ty) = true.
Proof. intros [|[|ty]]; reflexivity. Qed.

Notation valid_for ff env := (valid ex_blank ff tt attrs_any parse_any (fun _ => None) env).

Ltac ends := match goal with |- ends_with_tag ?evs => exists (removelast evs), (last evs EEof); split; reflexivity end.
Lemma valid_complex ff env n ty attributed min max c ps h evs v h' :
  env ty = TComplex attributed min max c ps ->
  element_of (attrs_any ty)
    (fun a h evs v h' =>
       if nothing_allowed max ps then v = VStruct a [] /\ spaces ex_blank h evs h'
       else exists vals more,
              repeated ex_blank (content_slot ex_blank ff tt (valid_for ff env n) min max c ps) h evs vals more h' /\
              type_value ff attributed min max c a vals v) h evs v h' ->
  valid_for ff env (S n) ty h evs v h'.
Proof. intros E H. cbn [valid]. rewrite E. exact H. Qed.
Ltac text_parts :=
  left; eexists _, _, _, _, [EText _], _, _, _;
  split; [reflexivity|]; split; [reflexivity|]; split; [reflexivity|]; split; [reflexivity|];
  split; [reflexivity|]; split; [apply trimmed_one; reflexivity|reflexivity].
Ltac element_occ :=
  split; [eexists _, _, _; split; [reflexivity|]; split; [reflexivity|]; eexists; split; reflexivity|];
  split; [reflexivity|]; first [eexists; split; [reflexivity|text_parts]|eexists; eexists; split; [reflexivity|text_parts]].
Ltac stays s := let e := fresh "e" in let evs' := fresh "evs'" in let h0 := fresh "h0" in let E := fresh "E" in
  let H := fresh "H" in
  intros e evs' h0 E H; injection E as <- <-; vm_compute in H; injection H as <-; split;
  [intros (l & [] & _)|]; exists s; split; [reflexivity|]; left; split; [reflexivity|cbn; lia].
Ltac moves s := let e := fresh "e" in let evs' := fresh "evs'" in let h0 := fresh "h0" in let E := fresh "E" in
  let H := fresh "H" in
  intros e evs' h0 E H; injection E as <- <-; vm_compute in H; injection H as <-; split;
  [intros (l & [] & _)|]; exists s; split; [reflexivity|]; right; split; [lia|]; split; [left; cbn; lia|];
  split; [cbn; intros; lia|intros k t K; lia].

Definition slots (ff : flat_flags) (env : nat -> tdef) (n : nat) (ps : list particle) : list (slot (val bytes unit)) :=
  map (slot_of ex_blank ff tt (valid_for ff env n)) ps.
Definition particles (t : tdef) : list particle := match t with TComplex _ _ _ _ ps => ps | _ => [] end.
Definition nth_slot (ss : list (slot (val bytes unit))) (i : nat) : slot (val bytes unit) :=
  nth i ss (Slot (Lang no_labels (fun _ _ _ _ _ => False)) 0 Unbounded None).

Example C72_order_valid : exists h', valid_for flat order_env 2 0 dhelper_default order_doc order_value h'.
Proof.
  eexists. eapply valid_complex; [reflexivity|]. left.
  eexists _, _, _, _, _, (ex_el "customer" "c" ++ (ex_el "item" "i" ++ ex_el "price" "1") ++ ex_el "date" "d"), _, _.
  split; [reflexivity|]. split; [reflexivity|]. split; [reflexivity|]. split; [|reflexivity].
  cbn [nothing_allowed]. eexists [VStruct tt _], _. split; [|reflexivity].
  eexists. split; [|split; [reflexivity|]].
  - rewrite <- (app_nil_r (ex_el "customer" "c" ++ _)).
    set (cs := content_slot _ _ _ _ _ _ _ _).
    eapply (follows_item ex_blank [cs] 0 _ _ _ _ 0 cs (VStruct tt _)); [reflexivity| |stays cs|apply follows_stop].
    split; [ends|]. exists [[VSimple tt "c"]; [VEnum 0 [VStruct tt [[VText "i"]; [VText "1"]]]]; [VText "d"]]. split; [reflexivity|].
    split; [eexists; eexists; split; reflexivity|].
    pose (ss := slots flat order_env 1 (particles (order_env 0))).
    change (map _ _) with ss. eexists. split; [|split; [reflexivity|split; [reflexivity|]]].
    + eapply (follows_item ex_blank ss 0 _ _ _ (ex_el "customer" "c") 0 (nth_slot ss 0)); [reflexivity|element_occ|stays (nth_slot ss 0)|].
      eapply (follows_item ex_blank ss 0 _ _ _ (ex_el "item" "i" ++ ex_el "price" "1") 1 (nth_slot ss 1)); [reflexivity| |moves (nth_slot ss 0)|].
      * (* the choice *)
        eexists. split; [reflexivity|].
        split; [ends|]. exists 0, [VStruct tt [[VText "i"]; [VText "1"]]]. split; [reflexivity|].
        split; [eexists; eexists; split; reflexivity|]. split; [ends|].
        eexists. split; [reflexivity|]. split.
        -- eexists. split; [|split; [reflexivity|]].
           ++ rewrite <- (app_nil_r (ex_el "item" "i" ++ _)).
              match goal with |- follows _ [?s] _ _ _ _ _ => pose (gs := s) end.
              eapply (follows_item ex_blank [gs] 0 _ _ _ _ 0 gs); [reflexivity| |stays gs|apply follows_stop].
              eexists. split; [reflexivity|].
              split; [ends|]. exists [[VText "i"]; [VText "1"]]. split; [reflexivity|].
              split; [eexists; eexists; split; reflexivity|].
              match goal with |- context [first_place ?s] => pose (ps := s) end.
              change (map _ _) with ps. eexists. split; [|split; [reflexivity|split; [reflexivity|]]].
              ** eapply (follows_item ex_blank ps 0 _ _ _ (ex_el "item" "i") 0 (nth_slot ps 0)); [reflexivity|element_occ|stays (nth_slot ps 0)|].
                 rewrite <- (app_nil_r (ex_el "price" "1")).
                 eapply (follows_item ex_blank ps 0 _ _ _ (ex_el "price" "1") 1 (nth_slot ps 1)); [reflexivity|element_occ|moves (nth_slot ps 0)|apply follows_stop].
              ** split; [reflexivity|]. split; [reflexivity|].
                 intros [|[|k]] s E; cbn in E; try (destruct k; discriminate E); injection E as <-; left; cbn; split; auto; lia.
           ++ split; [reflexivity|]. split; [reflexivity|].
              intros [|k] s E; cbn in E; try (destruct k; discriminate E); injection E as <-; left; cbn; split; auto; lia.
        -- intros e rest h1 k t E H NK DI. injection E as <- <-. vm_compute in H. injection H as <-.
           destruct k as [|[|k]]; [elim DI; reflexivity| |destruct k; discriminate NK]. injection NK as <-. not_fits.
      * rewrite <- (app_nil_r (ex_el "date" "d")).
        eapply (follows_item ex_blank ss 1 _ _ _ (ex_el "date" "d") 2 (nth_slot ss 2)); [reflexivity|element_occ| |apply follows_stop].
        intros e evs' h0 E H; injection E as <- <-; vm_compute in H; injection H as <-. split.
        -- intros (l & ML & C).
           assert (FL : l = (None, "item") \/ l = (None, "price")).
           { destruct ML as [ML|[(s & ES & _ & FS)|(k & s & LT & ES & _)]].
             - destruct ML as [[]|[(s & ES & RM & _)|(k & s & LT & ES & _)]].
               + injection ES as <-. cbn in RM. lia.
               + destruct k as [|[|k]]; [lia|lia|destruct k; discriminate ES].
             - injection ES as <-. destruct FS as (s & [<-|[<-|[]]] & FS); [left|right]; exact FS.
             - destruct k; [lia|destruct k; discriminate ES]. }
           destruct FL as [-> | ->]; vm_compute in C; discriminate C.
        -- exists (nth_slot ss 1). split; [reflexivity|]. right. split; [lia|]. split; [left; cbn; lia|].
           split; [cbn; intros; lia|intros k t K; lia].
    + split; [reflexivity|]. split; [reflexivity|].
      intros [|[|[|k]]] s E; cbn in E; try (destruct k; discriminate E); injection E as <-; left; cbn; split; auto; lia.
  - split; [reflexivity|]. split; [reflexivity|].
    intros [|k] s E; cbn in E; try (destruct k; discriminate E); injection E as <-; left; cbn; split; auto; lia.
Qed.

Example C72_order_read : read flat order_env 2 0 (EComment "x" :: order_doc) = RDone order_value [].
Proof. vm_compute. reflexivity. Qed.

(** A choice that may be empty: [<r/>] is valid for (a? | b), but it is not read. *)
Definition maybe_env (ty : nat) : tdef :=
  match ty with
  | 0 => TComplex false 1 (Bounded 1) CChoice
           [PElement 0 (Bounded 1) None "a" 1; PElement 1 (Bounded 1) None "b" 1]
  | _ => TSimple
  end.
Theorem C72_documents_refuted : forall ff, ~ forall env n m ty prolog evs v h h' rest,
  n <= m -> spaces ex_blank dhelper_default prolog h ->
  valid_for ff env n ty h evs v h' ->
  read ff env m ty (prolog ++ evs ++ rest) = RDone v rest.
Proof.
  intros ff H.
  assert (V : exists v h', valid_for ff maybe_env 1 0 dhelper_default [EEmpty "r" []] v h').
  { assert (R : forall h, repeated ex_blank (content_slot ex_blank ff tt (valid_for ff maybe_env 0) 1 (Bounded 1) CChoice
       [PElement 0 (Bounded 1) None "a" 1; PElement 1 (Bounded 1) None "b" 1]) h [] [VEnum 0 []] 
       (still_next [content_slot ex_blank ff tt (valid_for ff maybe_env 0) 1 (Bounded 1) CChoice
       [PElement 0 (Bounded 1) None "a" 1; PElement 1 (Bounded 1) None "b" 1]] (0, [[]], no_labels)) h).
    { intros h. eexists. split; [apply follows_stop|]. split; [reflexivity|]. split; [reflexivity|]. split; [reflexivity|].
      intros [|k] s E; [injection E as <-|destruct k; discriminate E]. right. exists (VEnum 0 []). split; reflexivity. }
    eexists. eexists. eapply valid_complex; [reflexivity|]. right. eexists "r", [], _, tt, _.
    split; [reflexivity|]. split; [reflexivity|]. split; [reflexivity|].
    cbn [nothing_allowed]. exists [VEnum 0 []]. eexists. split; [apply R|].
    unfold type_value. instantiate (1 := if ff_enum ff then VEnum 0 [] else VStruct tt [[VEnum 0 []]]).
    destruct ff as [x [|]]; reflexivity. }
  destruct V as (v & h' & V).
  pose proof (H maybe_env 1 1 0 [] [EEmpty "r" []] v _ h' [] ltac:(lia) (spaces_nil _ _) V) as R.
  destruct ff as [[|] [|]]; vm_compute in R; discriminate R.
Qed.
Print Assumptions C72_documents_refuted.

(** ** C73: only valid documents are read *)

(** The end of a child element is not checked: in [<p><a><x>1</x><b>2</b></a></p>] the
    element b inside a is taken for the sibling of a, and reading ends at [</a>]. *)
Definition leak_env (ty : nat) : tdef :=
  match ty with
  | 0 => TComplex false 1 (Bounded 1) CSequence
           [PElement 1 (Bounded 1) None "a" 1; PElement 1 (Bounded 1) None "b" 2]
  | 1 => TComplex false 1 (Bounded 1) CSequence [PElement 1 (Bounded 1) None "x" 2]
  | _ => TSimple
  end.
Theorem C73_whole_element_refuted : forall ff, ~ forall env m ty n attrs body v rest,
  (forall ty, tame_type (T:=bytes) ff tt (env ty) = true) -> balanced_content body ->
  read ff env m ty (EStart n attrs :: body ++ [EEnd n]) = RDone v rest -> rest = [].
Proof.
  intros ff H.
  assert (TT : forall ty, tame_type (T:=bytes) ff tt (leak_env ty) = true).
  { intros [|[|ty]]; destruct ff as [[|] [|]]; reflexivity. }
  assert (B : balanced_content ([EStart "a" []] ++ ex_el "x" "1" ++ ex_el "b" "2" ++ [EEnd "a"])).
  { split; [|split; [reflexivity|cbn; intuition discriminate]].
    intros pre post E. cbn in E.
    repeat (destruct pre as [|? pre]; [reflexivity|cbn [app] in E; injection E as <- E]).
    destruct pre; [reflexivity|discriminate E]. }
  destruct (read ff leak_env 4 0 (EStart "p" [] :: ([EStart "a" []] ++ ex_el "x" "1" ++ ex_el "b" "2" ++ [EEnd "a"]) ++ [EEnd "p"])) as [v rest| | |] eqn:R.
  - pose proof (H leak_env 4 0 "p" [] _ v rest TT B R) as E.
    destruct ff as [[|] [|]]; vm_compute in R; injection R as <- <-; discriminate E.
  - destruct ff as [[|] [|]]; vm_compute in R; discriminate R.
  - destruct ff as [[|] [|]]; vm_compute in R; discriminate R.
  - destruct ff as [[|] [|]]; vm_compute in R; discriminate R.
Qed.
Print Assumptions C73_whole_element_refuted.

(** The smallest number of occurrences is not checked: one b is enough for (a, b{2,3}). *)
Definition few_env (ty : nat) : tdef :=
  match ty with
  | 0 => TComplex false 1 (Bounded 1) CSequence
           [PElement 1 (Bounded 1) None "a" 1; PElement 2 (Bounded 3) None "b" 1]
  | _ => TSimple
  end.
Theorem C73_only_valid_refuted : ~ forall env m ty evs v,
  (forall ty, tame_type (T:=bytes) flat tt (env ty) = true) ->
  read flat env m ty evs = RDone v [] ->
  exists n prolog doc h h', evs = prolog ++ doc /\ spaces ex_blank dhelper_default prolog h /\
    valid_for flat env n ty h doc v h'.
Proof.
  intros H.
  assert (TT : forall ty, tame_type (T:=bytes) flat tt (few_env ty) = true) by (intros [|ty]; reflexivity).
  destruct (H few_env 3 0 ([EStart "p" []] ++ ex_el "a" "1" ++ ex_el "b" "2" ++ [EEnd "p"])
    (VStruct tt [[VText "1"]; [VText "2"]]) TT eq_refl) as (n & prolog & doc & h & h' & E & SP & V).
  clear H. destruct n as [|n]; [elim V|]. cbn [valid few_env] in V.
  pose proof (fun ty h evs v h' => valid_reads ex_blank flat tt attrs_any parse_any (fun _ => None) few_env TT n n ty h evs v h' (le_n n)) as RG.
  assert (F : forall h1 body a h2, (exists vals more,
      repeated ex_blank (content_slot ex_blank flat tt (valid_for flat few_env n) 1 (Bounded 1) CSequence
        [PElement 1 (Bounded 1) None "a" 1; PElement 2 (Bounded 3) None "b" 1]) h1 body vals more h2 /\
      type_value flat false 1 (Bounded 1) CSequence a vals (VStruct tt [[VText "1"]; [VText "2"]])) -> False).
  { intros h1 body a h2 (vals & more & R & TV). unfold type_value in TV. cbn [direct once flat_for is_choice flat ff_struct andb negb] in TV.
    destruct (direct_sequence ex_blank flat tt _ _ RG [PElement 1 (Bounded 1) None "a" 1; PElement 2 (Bounded 3) None "b" 1] eq_refl a h1 body vals more h2 _ ltac:(discriminate) R TV) as (fields & [[i got] mo] & EF & _ & ST).
    injection EF as _ <-. destruct ST as (_ & _ & ST). destruct (ST 1 _ eq_refl) as [[LE EG]|(w & D & _)]; [|discriminate D].
    cbn in LE, EG. rewrite <- EG in LE. cbn in LE. lia. }
  cbn [nothing_allowed] in V.
  destruct V as [(nm & attrs & h0 & a & h1 & body & n' & h2 & _ & _ & _ & C & _)|(nm & attrs & h0 & a & h1 & _ & _ & _ & C)]; exact (F _ _ _ _ C).
Qed.
Print Assumptions C73_only_valid_refuted.

(** Nor is the largest number: three elements are read for (a | b){1,2}. *)
Definition many_env (ty : nat) : tdef :=
  match ty with
  | 0 => TComplex false 1 (Bounded 2) CChoice
           [PElement 1 (Bounded 1) None "a" 1; PElement 1 (Bounded 1) None "b" 1]
  | _ => TSimple
  end.
Theorem C73_maximum_refuted : forall ff, ~ forall env m ty min max ps evs a vals,
  (forall ty, tame_type (T:=bytes) ff tt (env ty) = true) ->
  env ty = TComplex false min (Bounded max) CChoice ps -> 1 < max ->
  read ff env m ty evs = RDone (VStruct a [vals]) [] -> length vals <= max.
Proof.
  intros ff H.
  assert (TT : forall ty, tame_type (T:=bytes) ff tt (many_env ty) = true) by (intros [|ty]; destruct ff as [[|] [|]]; reflexivity).
  specialize (H many_env 3 0 1 2 _ ([EStart "p" []] ++ ex_el "a" "1" ++ ex_el "a" "2" ++ ex_el "a" "3" ++ [EEnd "p"])
    tt [VEnum 0 [VText "1"]; VEnum 0 [VText "2"]; VEnum 0 [VText "3"]] TT eq_refl ltac:(lia)).
  cbn [length] in H. assert (3 <= 2); [|lia]. apply H. destruct ff as [[|] [|]]; vm_compute; reflexivity.
Qed.
Print Assumptions C73_maximum_refuted.

(** ** C74: unexpected input does not make a deserializer panic *)

(** Two panics that need no [xs:any].  A choice inside a choice, flattened, and an element
    of the inner one followed by an element of the outer one: *)
Definition inner_env (ty : nat) : tdef :=
  match ty with
  | 0 => TComplex false 1 (Bounded 1) CChoice
           [PGroup 1 (Bounded 1) CChoice
              [PElement 1 (Bounded 1) None "a" 1; PElement 1 (Bounded 1) None "b" 1];
            PElement 1 (Bounded 1) None "c" 1]
  | _ => TSimple
  end.
Theorem C74_inner_choice_refuted : ~ forall env m ty evs,
  (forall ty, tame_type (T:=bytes) flat tt (env ty) = true) -> length evs <= m ->
  read flat env m ty evs <> RPanic.
Proof.
  intros H. apply (H inner_env 8 0 ([EStart "p" []] ++ ex_el "a" "1" ++ ex_el "c" "2" ++ [EEnd "p"])).
  - intros [|ty]; reflexivity.
  - cbn. lia.
  - vm_compute. reflexivity.
Qed.
Print Assumptions C74_inner_choice_refuted.

(** One element too many for (a?){2,2}: the array of two values is filled up with the
    values of a list of three. *)
Definition array_env (ty : nat) : tdef :=
  match ty with
  | 0 => TComplex false 2 (Bounded 2) CChoice [PElement 0 (Bounded 1) None "a" 1]
  | _ => TSimple
  end.
Theorem C74_array_refuted : forall ff, ~ forall env m ty evs,
  length evs <= m -> read ff env m ty evs <> RPanic.
Proof.
  intros ff H. apply (H array_env 11 0 ([EStart "p" []] ++ ex_el "a" "1" ++ ex_el "a" "2" ++ ex_el "a" "3" ++ [EEnd "p"])).
  - cbn. lia.
  - destruct ff as [[|] [|]]; vm_compute; reflexivity.
Qed.
Print Assumptions C74_array_refuted.

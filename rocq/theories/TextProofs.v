From Verif Require Import Utf8 SerHelperModel SerHelperProofs DeModel DeSpec DeProofs ElementModel TextModel TextSpec.
Local Open Scope string_scope.

Lemma append_nil_r (s : string) : s ++ "" = s.
Proof. induction s as [|c s IH]; cbn; [reflexivity|rewrite IH; reflexivity]. Qed.
Lemma append_assoc (a b c : string) : (a ++ b) ++ c = a ++ b ++ c.
Proof. induction a as [|x a IH]; cbn; [reflexivity|rewrite IH; reflexivity]. Qed.

Section Text.
  Variable charref : bytes -> option bytes.
  Notation un := (un charref).
  Notation unescape := (unescape charref).
  Notation entity := (entity charref).
  Notation chars := (chars charref utf8_valid).

  Lemma un_escape s : un false (escape s) = Some ("", s).
  Proof.
    induction s as [|c s IH]; [reflexivity|]. cbn [escape]. unfold escape_char.
    destruct (Ascii.eqb_spec c "<"); [subst; cbn; rewrite IH; reflexivity|].
    destruct (Ascii.eqb_spec c ">"); [subst; cbn; rewrite IH; reflexivity|].
    destruct (Ascii.eqb_spec c "'"); [subst; cbn; rewrite IH; reflexivity|].
    destruct (Ascii.eqb_spec c "&"); [subst; cbn; rewrite IH; reflexivity|].
    destruct (Ascii.eqb_spec c quot); [subst; cbn; rewrite IH; reflexivity|].
    cbn [append TextModel.un]. destruct (Ascii.eqb_spec c "&"); [contradiction|]. rewrite IH. reflexivity.
  Qed.
  Lemma unescape_escape s : unescape (escape s) = Some s.
  Proof. unfold TextModel.unescape. rewrite un_escape. reflexivity. Qed.

  Lemma tok_escape s : exists t evs, tok false (escape s) = Some (t, evs).
  Proof.
    induction s as [|c s (t & evs & IH)]; [do 2 eexists; reflexivity|]. cbn [escape]. unfold escape_char.
    destruct (Ascii.eqb_spec c "<"); [subst; cbn; rewrite IH; do 2 eexists; reflexivity|].
    destruct (Ascii.eqb_spec c ">"); [subst; cbn; rewrite IH; do 2 eexists; reflexivity|].
    destruct (Ascii.eqb_spec c "'"); [subst; cbn; rewrite IH; do 2 eexists; reflexivity|].
    destruct (Ascii.eqb_spec c "&"); [subst; cbn; rewrite IH; do 2 eexists; reflexivity|].
    destruct (Ascii.eqb_spec c quot); [subst; cbn; rewrite IH; do 2 eexists; reflexivity|].
    cbn [append tok]. destruct (Ascii.eqb_spec c "&"); [contradiction|]. rewrite IH. do 2 eexists; reflexivity.
  Qed.

  Definition payload_ok (e : event) : bool :=
    match e with EText t => utf8_valid t | ERef n => utf8_valid n | _ => true end.
  Definition char_event (e : event) : bool := match e with EText _ | ERef _ => true | _ => false end.

  Fixpoint no_char (c : ascii) (s : string) : bool :=
    match s with EmptyString => true | String d s' => negb (Ascii.eqb d c) && no_char c s' end.

  Lemma un_plain s o : no_char "&" s = true -> un false (s ++ o) = match un false o with Some (_, x) => Some ("", s ++ x) | None => None end.
  Proof.
    induction s as [|c s IH]; cbn [append no_char]; intros H.
    - destruct (un false o) as [[n x]|] eqn:E; [|reflexivity].
      assert (n = ""); [|subst; reflexivity].
      clear -E. destruct o as [|c o]; cbn in E; [congruence|].
      destruct (Ascii.eqb c "&").
      + destruct (un true o) as [[n' x']|]; [|discriminate]. destruct (entity n'); congruence.
      + destruct (un false o) as [[n' x']|]; congruence.
    - apply andb_true_iff in H. destruct H as [H1 H2]. cbn [TextModel.un].
      destruct (Ascii.eqb c "&"); [discriminate|]. rewrite (IH H2).
      destruct (un false o) as [[n x]|]; reflexivity.
  Qed.

  Lemma unescape_plain s : no_char "&" s = true -> unescape s = Some s.
  Proof.
    intros H. unfold TextModel.unescape. rewrite <- (append_nil_r s) at 1. rewrite (un_plain s "" H). cbn.
    rewrite append_nil_r. reflexivity.
  Qed.

  Lemma un_ref n : no_char "&" n = true -> no_char ";" n = true ->
    forall s, un true (n ++ ";" ++ s) = match un false s with Some (_, o) => Some (n, o) | None => None end.
  Proof.
    induction n as [|c n IH]; cbn [no_char append]; intros H1 H2 s.
    - cbn. destruct (un false s) as [[? ?]|]; reflexivity.
    - apply andb_true_iff in H1, H2. destruct H1 as [A1 B1], H2 as [A2 B2]. cbn [TextModel.un].
      destruct (Ascii.eqb c ";"); [discriminate|]. destruct (Ascii.eqb c "&"); [discriminate|].
      pose proof (IH B1 B2 s) as IH'. cbn [append] in IH'. rewrite IH'. destruct (un false s) as [[? ?]|]; reflexivity.
  Qed.

  Lemma unescape_ref n : no_char "&" n = true -> no_char ";" n = true -> unescape ("&" ++ n ++ ";") = entity n.
  Proof.
    intros H1 H2. unfold TextModel.unescape. cbn [append TextModel.un Ascii.eqb Bool.eqb].
    pose proof (un_ref n H1 H2 "") as E. cbn [append] in E. rewrite E. cbn.
    destruct (entity n); [rewrite append_nil_r|]; reflexivity.
  Qed.

  (** Splitting and unescaping agree. *)
  Lemma tok_chars s : forall b p t evs, tok b s = Some (t, evs) ->
    utf8_valid (p ++ s) = true ->
    (utf8_valid (p ++ t) = true /\ no_char "&" t = true /\ (b = true -> no_char ";" t = true) /\
     forallb payload_ok evs = true /\ forallb char_event evs = true /\
     un b s = match chars evs with
              | Some o => if b then Some (t, o) else Some ("", t ++ o)
              | None => None
              end).
  Proof.
    assert (HA : nat_of_ascii "&" < 128) by (vm_compute; lia).
    assert (HS : nat_of_ascii ";" < 128) by (vm_compute; lia).
    induction s as [|c s IH]; intros b p t evs HT HV.
    - destruct b; cbn in HT; [discriminate|]. injection HT as <- <-. repeat split; auto.
    - destruct b; cbn [tok] in HT; cbn [TextModel.un].
      + destruct (Ascii.eqb_spec c ";").
        * subst c. rewrite (utf8_split p ";" s HS) in HV. apply andb_true_iff in HV. destruct HV as [V1 V2].
          destruct (tok false s) as [[t' evs']|] eqn:ET; [|discriminate]. injection HT as <- <-.
          destruct (IH false "" t' evs' ET V2) as (G1 & G2 & _ & G4 & G5 & G6).
          rewrite append_nil_r. split; [exact V1|]. split; [reflexivity|]. split; [reflexivity|].
          cbn [append] in G1. split; [destruct t'; cbn [flush forallb payload_ok]; rewrite ?G1; exact G4|].
          split; [destruct t'; cbn; exact G5|]. rewrite G6.
          assert (EC : chars (flush t' evs') = match chars evs' with Some o => Some (t' ++ o) | None => None end).
          { destruct t' as [|d t']; [cbn; destruct (chars evs'); reflexivity|]. cbn [flush TextSpec.chars].
            rewrite G1, (unescape_plain _ G2). reflexivity. }
          rewrite EC. destruct (chars evs'); reflexivity.
        * destruct (Ascii.eqb_spec c "&"); [discriminate|].
          destruct (tok true s) as [[t' evs']|] eqn:ET; [|discriminate]. injection HT as <- <-.
          assert (EA : p ++ String c s = (p ++ String c "") ++ s) by (rewrite append_assoc; reflexivity).
          rewrite EA in HV. destruct (IH true _ t' evs' ET HV) as (G1 & G2 & G3 & G4 & G5 & G6).
          rewrite append_assoc in G1. split; [exact G1|]. cbn [no_char].
          destruct (Ascii.eqb_spec c "&"); [contradiction|]. destruct (Ascii.eqb_spec c ";"); [contradiction|].
          rewrite G2, (G3 eq_refl), G6. repeat split; auto. destruct (chars evs'); reflexivity.
      + destruct (Ascii.eqb_spec c "&").
        * subst c. rewrite (utf8_split p "&" s HA) in HV. apply andb_true_iff in HV. destruct HV as [V1 V2].
          destruct (tok true s) as [[n evs']|] eqn:ET; [|discriminate]. injection HT as <- <-.
          destruct (IH true "" n evs' ET V2) as (G1 & G2 & G3 & G4 & G5 & G6). cbn [append] in G1.
          rewrite append_nil_r. split; [exact V1|]. split; [reflexivity|]. split; [discriminate|].
          cbn [forallb payload_ok char_event]. rewrite G1, G4, G5, G6. repeat split; auto.
          cbn [TextSpec.chars]. rewrite G1, (unescape_ref n G2 (G3 eq_refl)).
          destruct (chars evs') as [o|]; destruct (entity n); reflexivity.
        * destruct (tok false s) as [[t' evs']|] eqn:ET; [|discriminate]. injection HT as <- <-.
          assert (EA : p ++ String c s = (p ++ String c "") ++ s) by (rewrite append_assoc; reflexivity).
          rewrite EA in HV. destruct (IH false _ t' evs' ET HV) as (G1 & G2 & G3 & G4 & G5 & G6).
          rewrite append_assoc in G1. split; [exact G1|]. cbn [no_char].
          destruct (Ascii.eqb_spec c "&"); [contradiction|]. rewrite G2, G6. repeat split; auto; try discriminate.
          destruct (chars evs'); reflexivity.
  Qed.

  Lemma tokenise_chars s evs : utf8_valid s = true -> tokenise s = Some evs ->
    chars evs = unescape s /\ forallb char_event evs = true.
  Proof.
    intros HV HT. unfold tokenise in HT. destruct (tok false s) as [[t e]|] eqn:ET; [|discriminate]. injection HT as <-.
    destruct (tok_chars s false "" t e ET HV) as (G1 & G2 & _ & G4 & G5 & G6). cbn [append] in G1.
    split; [|destruct t; cbn; exact G5]. unfold TextModel.unescape. rewrite G6.
    destruct t as [|c t]; [cbn [flush]; destruct (chars e); reflexivity|]. cbn [flush TextSpec.chars].
    rewrite G1, (unescape_plain _ G2). destruct (chars e); reflexivity.
  Qed.

  Lemma utf8_escape s : utf8_valid s = true -> utf8_valid (escape s) = true.
  Proof.
    unfold utf8_valid.
    assert (G : forall st, urun st s = true -> urun st (escape s) = true); [|apply G].
    induction s as [|c s IH]; intros st H; [exact H|]. cbn [escape].
    assert (HE : forall r, urun U0 r = true -> forall e, (forall d, In d (list_ascii_of_string e) -> nat_of_ascii d < 128) -> urun U0 (e ++ r) = true).
    { intros r Hr e He. pose proof (utf8_app e r (utf8_ascii e He)) as E. unfold utf8_valid in E. rewrite E. exact Hr. }
    assert (HSP : forall d e, c = d -> nat_of_ascii d < 128 -> (forall x, In x (list_ascii_of_string e) -> nat_of_ascii x < 128) -> urun st (e ++ escape s) = true).
    { intros d e -> Hd He. cbn [urun] in H. rewrite (ustep_ascii st _ Hd) in H. destruct st; try discriminate.
      apply HE; [apply IH, H|exact He]. }
    unfold escape_char.
    repeat (match goal with |- context [Ascii.eqb c ?d] => destruct (Ascii.eqb_spec c d) as [E|_];
      [apply (HSP d); [exact E|vm_compute; lia|]; intros x Hx; repeat (destruct Hx as [<-|Hx]; [vm_compute; lia|]); destruct Hx|] end).
    cbn [append urun] in *. destruct (ustep st (nat_of_ascii c)); [|discriminate]. apply IH, H.
  Qed.

  Lemma reread_written s : utf8_valid s = true ->
    exists evs, tokenise (escape s) = Some evs /\ chars evs = Some s /\ forallb char_event evs = true.
  Proof.
    intros HV. destruct (tok_escape s) as (t & e & ET).
    assert (HT : tokenise (escape s) = Some (flush t e)) by (unfold tokenise; rewrite ET; reflexivity).
    exists (flush t e). split; [exact HT|].
    destruct (tokenise_chars (escape s) _ (utf8_escape s HV) HT) as [E1 E2]. rewrite E1, unescape_escape. auto.
  Qed.

  (** ** Content *)
  Lemma piece_chars e : flat e = true -> piece charref utf8_valid e =
    match e with
    | EText _ | ECData _ | ERef _ => Some (match chars [e] with Some s => Ok s | None => 
        match e with EText t => if utf8_valid t then Err KEscape else Err KEncoding
                   | ERef t => if utf8_valid t then Err KEscape else Err KUtf8
                   | _ => Err KEncoding end end)
    | _ => None
    end.
  Proof.
    destruct e; try reflexivity; intros _; cbn [piece TextSpec.chars].
    - destruct (utf8_valid raw); [|reflexivity]. destruct (unescape raw); [rewrite append_nil_r|]; reflexivity.
    - destruct (utf8_valid raw); [rewrite append_nil_r|]; reflexivity.
    - destruct (utf8_valid raw); [|reflexivity]. destruct (unescape ("&" ++ raw ++ ";")); [rewrite append_nil_r|]; reflexivity.
  Qed.

  Lemma chars_cons e evs : chars (e :: evs) = match chars [e], chars evs with Some a, Some b => Some (a ++ b) | _, _ => None end.
  Proof.
    cbn [TextSpec.chars].
    destruct (match e with
              | EText t => if utf8_valid t then unescape t else None
              | ECData t => if utf8_valid t then Some t else None
              | ERef n => if utf8_valid n then unescape ("&" ++ n ++ ";") else None
              | _ => Some ""
              end) as [a|]; [rewrite append_nil_r|]; reflexivity.
  Qed.

  Lemma pop_idem h : dh_pop (dh_pop h) = dh_pop h.
  Proof. unfold dh_pop. destruct (d_pending h) eqn:E; cbn [d_pending]; [reflexivity|]. rewrite E. reflexivity. Qed.
  Lemma flat_event h e : flat e = true -> dh_event h e = Some (dh_pop h).
  Proof. destruct e; try discriminate; reflexivity. Qed.

  Section Content.
    Context {T : Type} (parse : dhelper -> bytes -> outcome kind (T * dhelper)) (tb : bytes -> option bool).
    Notation cd := (content_deser charref utf8_valid parse).

    (** What the end tag yields. *)
    Definition close_with (h : dhelper) (data : bytes) (rest : list event) : @run_result T bytes :=
      match parse (DHelper (d_level h) (d_res h) (d_cache h) true) (trim_ascii data) with
      | Ok (t, _) => RDone t rest
      | Err k => RErr k
      | Panic => RPanic
      end.

    Lemma content_run body : forall h data m rest, forallb flat body = true ->
      match chars body with
      | Some s => driver_run cd tb (Driver h (Some data) None) (body ++ EEnd m :: rest) =
                  close_with (dh_pop h) (data ++ s) rest
      | None => exists k, driver_run cd tb (Driver h (Some data) None) (body ++ EEnd m :: rest) = RErr k
      end.
    Proof.
      induction body as [|e body IH]; intros h data m rest HF.
      - cbn [TextSpec.chars app driver_run]. unfold driver_step. cbn [v_helper v_skip v_des dh_event handle_skip de_next content_deser].
        unfold content_next. cbn [piece]. unfold content_finish, close_with. rewrite append_nil_r.
        destruct (parse _ _) as [[t h']|k|]; reflexivity.
      - cbn [forallb] in HF. apply andb_true_iff in HF. destruct HF as [F1 F2].
        rewrite chars_cons. cbn [app driver_run]. unfold driver_step. cbn [v_helper v_skip v_des].
        rewrite (flat_event h e F1). cbn [handle_skip de_next content_deser]. unfold content_next.
        rewrite (piece_chars e F1).
        assert (HIG : forall e', (match e' with EComment _ | EPI _ | EDecl _ | EDocType _ => true | _ => false end) = true ->
           @unconsumed tb None false (Some e') = Ok None) by (intros []; cbn; congruence).
        destruct (chars [e]) as [a|] eqn:EC.
        + specialize (IH (dh_pop h)).
          destruct e; try discriminate F1; cbn [o_any o_ev o_art into_event unconsumed];
            try (cbn in EC; injection EC as <-; specialize (IH data m rest F2); rewrite pop_idem in IH;
                 destruct (chars body); exact IH);
            (specialize (IH (data ++ a) m rest F2); rewrite pop_idem, ?append_assoc in IH;
             destruct (chars body) as [b|]; [rewrite append_assoc in IH|]; exact IH).
        + destruct e; try discriminate F1; try (cbn in EC; discriminate EC).
          * destruct (utf8_valid raw); eexists; reflexivity.
          * eexists; reflexivity.
          * destruct (utf8_valid raw); eexists; reflexivity.
    Qed.
  End Content.
End Text.

(** ** Trimming *)

Lemma ascii_in_app c a b : In c (list_ascii_of_string (a ++ b)) <-> In c (list_ascii_of_string a) \/ In c (list_ascii_of_string b).
Proof.
  induction a as [|d a IH]; cbn; [tauto|]. rewrite IH. tauto.
Qed.

Lemma trim_start_spec s : exists a, s = a ++ trim_start s /\
  (forall c, In c (list_ascii_of_string a) -> ascii_ws c = true) /\
  (forall c r, trim_start s = String c r -> ascii_ws c = false).
Proof.
  induction s as [|c s (a & E & H1 & H2)]; cbn [trim_start].
  - exists "". repeat split; [intros ? []|discriminate].
  - destruct (ascii_ws c) eqn:EW.
    + exists (String c a). split; [cbn; congruence|]. split; [|exact H2]. intros d [<-|Hd]; [exact EW|apply H1, Hd].
    + exists "". split; [reflexivity|]. split; [intros ? []|]. intros d r E'. congruence.
Qed.

Lemma trim_end_spec s : exists b, s = trim_end s ++ b /\
  (forall c, In c (list_ascii_of_string b) -> ascii_ws c = true) /\
  (forall c r, trim_end s = r ++ String c "" -> ascii_ws c = false).
Proof.
  induction s as [|c s (b & E & H1 & H2)]; cbn [trim_end].
  - exists "". repeat split; [intros ? []|]. intros c r H. destruct r; discriminate.
  - destruct (trim_end s) as [|d t] eqn:ET.
    + destruct (ascii_ws c) eqn:EW.
      * exists (String c b). cbn in E. split; [cbn; congruence|]. split.
        -- intros x [<-|Hx]; [exact EW|apply H1, Hx].
        -- intros x r H. destruct r; discriminate.
      * exists b. split; [cbn in *; congruence|]. split; [exact H1|]. intros x r H.
        destruct r as [|y r]; cbn in H; [congruence|]. destruct r; discriminate.
    + exists b. split; [rewrite E at 1; reflexivity|]. split; [exact H1|].
      intros x r H. destruct r as [|y r]; cbn in H; [discriminate|]. injection H as <- H. apply (H2 x r). exact H.
Qed.

Lemma trim_end_head s c r : trim_end s = String c r -> exists s', s = String c s'.
Proof.
  destruct s as [|d s]; cbn; [discriminate|]. destruct (trim_end s); [destruct (ascii_ws d); [discriminate|]|];
    intros H; injection H as -> _; eexists; reflexivity.
Qed.

Lemma trim_ascii_spec s : trimmed_of s (trim_ascii s).
Proof.
  unfold trimmed_of, trim_ascii. destruct (trim_start_spec s) as (a & E & H1 & H2).
  destruct (trim_end_spec (trim_start s)) as (b & E' & H3 & H4).
  exists a, b. split; [rewrite <- E'; exact E|]. split.
  - intros c Hc. apply ascii_in_app in Hc. destruct Hc; auto.
  - split; [|exact H4]. intros c r H. apply trim_end_head in H. destruct H as (s' & Es). apply (H2 c s' Es).
Qed.

Lemma trim_start_id s : (forall c r, s = String c r -> ascii_ws c = false) -> trim_start s = s.
Proof. destruct s as [|c s]; intros H; [reflexivity|]. cbn. rewrite (H c s eq_refl). reflexivity. Qed.
Lemma trim_end_id s : (forall c r, s = r ++ String c "" -> ascii_ws c = false) -> trim_end s = s.
Proof.
  induction s as [|c s IH]; intros H; [reflexivity|]. cbn. rewrite IH.
  - destruct s as [|d s]; [|reflexivity]. rewrite (H c "" eq_refl). reflexivity.
  - intros d r E. apply (H d (String c r)). rewrite E. reflexivity.
Qed.
Lemma trim_ascii_id s : trimmed_of s s -> trim_ascii s = s.
Proof.
  intros (a & b & E & _ & H1 & H2). unfold trim_ascii. rewrite (trim_start_id s H1). apply trim_end_id, H2.
Qed.

(** ** C11: the whole element *)
Section ContentElement.
  Variable charref : bytes -> option bytes.
  Context {T : Type} (parse : dhelper -> bytes -> outcome kind (T * dhelper)) (tb : bytes -> option bool).
  Notation cd := (content_deser charref utf8_valid parse).


  Lemma content_element h n a h1 body m rest : forallb flat body = true ->
    dh_event h (EStart n a) = Some h1 ->
    match chars charref utf8_valid body with
    | Some s => driver_run cd tb (Driver h None None) (EStart n a :: body ++ EEnd m :: rest) =
        match parse (at_end h1) (trim_ascii s) with
        | Ok (t, _) => RDone t rest
        | Err k => RErr k
        | Panic => RPanic
        end
    | None => exists k, driver_run cd tb (Driver h None None) (EStart n a :: body ++ EEnd m :: rest) = RErr k
    end.
  Proof.
    intros HF HE.
    assert (E : driver_run cd tb (Driver h None None) (EStart n a :: body ++ EEnd m :: rest) =
      driver_run cd tb (Driver h1 (Some "") None) (body ++ EEnd m :: rest)).
    { cbn [driver_run]. unfold driver_step. cbn [v_helper v_skip v_des]. rewrite HE. reflexivity. }
    rewrite E. exact (content_run charref parse tb body h1 "" m rest HF).
  Qed.

  (** Round trip *)
  Lemma content_round_trip (value : helper -> outcome kind (option bytes) * helper) h h' n data v :
    value h = (Ok (Some data), h') -> utf8_valid data = true -> contains_cdata_end data = false ->
    (forall hd, exists hd', parse hd (trim_ascii data) = Ok (v, hd')) ->
    exists evs evs', (forall fuel, 4 <= fuel -> ser_run cser_next fuel (CBegin (Some n) value) h = SRDone evs h') /\
      reread evs = Some evs' /\
      forall rest, driver_run cd tb driver_new (evs' ++ rest) = RDone v rest.
  Proof.
    intros HV HU HC HP. destruct (reread_written charref data HU) as (body & HT & HCh & HE).
    assert (HFlat : forallb flat body = true).
    { clear - HE. induction body as [|e body IH]; [reflexivity|]. cbn in HE |- *. apply andb_true_iff in HE. destruct HE as [H1 H2].
      rewrite (IH H2), andb_true_r. destruct e; try discriminate; reflexivity. }
    assert (HRun : forall rest, driver_run cd tb driver_new ((EStart n [] :: body ++ [EEnd n]) ++ rest) = RDone v rest).
    { intros rest. cbn [app]. rewrite <- app_assoc. cbn [app].
      pose proof (content_element dhelper_default n [] (DHelper 1 (Resolver 1 []) [(0, None)] false) body n rest HFlat eq_refl) as H.
      rewrite HCh in H. unfold driver_new. rewrite H. destruct (HP (at_end (DHelper 1 (Resolver 1 []) [(0, None)] false))) as (hd' & ->). reflexivity. }
    destruct data as [|c data'] eqn:ED.
    - exists [EStart n []; EEnd n], (EStart n [] :: body ++ [EEnd n])%list. split; [|split; [|exact HRun]].
      + intros fuel HF. do 3 (destruct fuel as [|fuel]; [lia|]). cbn. rewrite HV. reflexivity.
      + cbn in HT. injection HT as <-. reflexivity.
    - rewrite <- ED in *. exists [EStart n []; EText (escape data); EEnd n], (EStart n [] :: body ++ [EEnd n])%list. split; [|split; [|exact HRun]].
      + intros fuel HF. do 4 (destruct fuel as [|fuel]; [lia|]). cbn [ser_run cser_next]. rewrite HV. rewrite HC.
        cbn [cser_next cser_data]. rewrite ED. reflexivity.
      + unfold reread. cbn [reread_from append]. rewrite HT. cbn. reflexivity.
  Qed.

  Lemma content_none_round_trip (value : helper -> outcome kind (option bytes) * helper) h h' n v :
    value h = (Ok None, h') -> (forall hd, exists hd', parse hd "" = Ok (v, hd')) ->
    forall fuel, 2 <= fuel -> ser_run cser_next fuel (CBegin (Some n) value) h = SRDone [EEmpty n []] h' /\
      reread [EEmpty n []] = Some [EEmpty n []] /\
      forall rest, driver_run cd tb driver_new (EEmpty n [] :: rest) = RDone v rest.
  Proof.
    intros HV HP fuel HF. split; [|split; [reflexivity|]].
    - do 2 (destruct fuel as [|fuel]; [lia|]). cbn. rewrite HV. reflexivity.
    - intros rest. cbn. destruct (HP (DHelper 1 (Resolver 1 []) [(0, None)] true)) as (hd' & ->). reflexivity.
  Qed.
End ContentElement.

(** ** C13 *)
Section TextRun.
  Variable charref : bytes -> option bytes.
  Notation chars := (chars charref utf8_valid).
  Notation tn := (text_next charref utf8_valid).

  Notation text_feed := (text_feed charref).

  Lemma text_feed_spec h evs : forall s, forallb flat evs = true ->
    match chars evs with
    | Some t => text_feed s h evs =
        Ok (match s with
            | Some v => Some (v ++ t)
            | None => if has_chars evs then Some t else None
            end)
    | None => exists k, text_feed s h evs = Err k
    end.
  Proof.
    induction evs as [|e evs IH]; intros s HF.
    - cbn. destruct s as [v|]; [rewrite append_nil_r|]; reflexivity.
    - cbn [forallb] in HF. apply andb_true_iff in HF. destruct HF as [F1 F2]. rewrite chars_cons.
      cbn [text_feed]. unfold text_next. rewrite (piece_chars charref e F1).
      destruct (chars [e]) as [a|] eqn:EC.
      + destruct e; try discriminate F1; cbn [o_art].
        1,2,4: (specialize (IH (Some (match s with Some v => v | None => "" end ++ a)) F2);
          destruct (chars evs) as [b|]; [|exact IH]; rewrite IH; cbn [has_chars existsb orb];
          destruct s as [v|]; rewrite ?append_assoc; reflexivity).
        all: (cbn in EC; injection EC as <-; specialize (IH s F2); cbn [append has_chars existsb orb];
              fold (has_chars evs); destruct s as [v|]; destruct (chars evs) as [b|]; exact IH).
      + destruct e; try discriminate F1; try (cbn in EC; discriminate EC).
        * destruct (utf8_valid raw); eexists; reflexivity.
        * eexists; reflexivity.
        * destruct (utf8_valid raw); eexists; reflexivity.
  Qed.

  Lemma text_stop s h e : (match e with EStart _ _ | EEmpty _ _ | EEnd _ => true | _ => false end) = true ->
    tn s h e = Ok (DOut (match s with Some v => AData v | None => ANone end) (DContinue e) false, h).
  Proof. destruct e; try discriminate; reflexivity. Qed.
End TextRun.

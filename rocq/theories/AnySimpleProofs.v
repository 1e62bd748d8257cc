From Coq Require Import ZArith Decimal DecimalString DecimalZ DecimalN DecimalFacts DecimalPos.
From Verif Require Import Utf8 SerHelperModel QNameModel DeModel ElementModel TextModel TextSpec TextProofs
  BinModel BinSpec BinProofs WrapModel AnySimpleModel AnySimpleSpec.
Local Open Scope string_scope.

(** ** Simulation by the content deserializer *)
Section Run.
  Context {Num : Type} (num_parse : bytes -> bytes -> option Num) (charref : bytes -> option bytes).
  Variable tb : bytes -> option bool.
  Notation ad := (any_deser num_parse charref utf8_valid).
  Definition parse_as (ty : option bytes) (h : dhelper) (b : bytes) : outcome kind (asv Num * dhelper) :=
    match string_parse utf8_valid h b with
    | Ok (c, h') => finish_any num_parse h' ty c
    | Err k => Err k
    | Panic => Panic
    end.
  Notation cd ty := (content_deser charref utf8_valid (parse_as ty)).

  Definition lift_res (ty : option bytes) (r : @run_result (asv Num) bytes) : @run_result (asv Num) astate :=
    match r with
    | RDone t rest => RDone t rest
    | RErr k => RErr k
    | RPanic => RPanic
    | RMore v => RMore (Driver (v_helper v) (match v_des v with Some d => Some (ty, d) | None => None end) (v_skip v))
    end.

  Lemma any_run ty evs : forall h d sk,
    driver_run ad tb (Driver h (Some (ty, d)) sk) evs = lift_res ty (driver_run (cd ty) tb (Driver h (Some d) sk) evs).
  Proof.
    induction evs as [|e evs IH]; intros h d sk; [reflexivity|].
    cbn [driver_run]. unfold driver_step. cbn [v_helper v_skip v_des].
    destruct (dh_event h e) as [h1|]; [|reflexivity].
    destruct (handle_skip sk e) as [sk1 [e1|]]; [|apply IH].
    cbn [de_next any_deser content_deser]. unfold any_next, content_next. cbn [fst snd].
    destruct (piece charref utf8_valid e1) as [[s|k|]|]; cbn [handle_content o_art o_ev o_any into_event].
    - cbn [unconsumed]. apply IH.
    - reflexivity.
    - reflexivity.
    - destruct e1; cbn [handle_content o_art o_ev o_any into_event];
        try (destruct (unconsumed tb sk1 false _); [apply IH|reflexivity|reflexivity]).
      unfold content_finish, parse_as. destruct (string_parse utf8_valid h1 (trim_ascii d)) as [[c h2]|k|]; cbn [handle_content o_art o_ev o_any]; try reflexivity.
      destruct (finish_any num_parse h2 ty c) as [[v h3]|k|]; reflexivity.
  Qed.

  Lemma any_element h n a h1 ty body m rest : forallb flat body = true ->
    dh_event h (EStart n a) = Some h1 -> type_scan charref utf8_valid (d_res h1) [] None a = Ok ty ->
    driver_run ad tb (Driver h None None) (EStart n a :: body ++ EEnd m :: rest) =
    match chars charref utf8_valid body with
    | Some s =>
        match parse_as ty (at_end h1) (trim_ascii s) with
        | Ok (t, _) => RDone t rest
        | Err k => RErr k
        | Panic => RPanic
        end
    | None => driver_run ad tb (Driver h None None) (EStart n a :: body ++ EEnd m :: rest)
    end.
  Proof.
    intros HF HE HS.
    destruct (chars charref utf8_valid body) as [s|] eqn:EC; [|reflexivity].
    assert (E : driver_run ad tb (Driver h None None) (EStart n a :: body ++ EEnd m :: rest) =
                driver_run ad tb (Driver h1 (Some (ty, "")) None) (body ++ EEnd m :: rest)).
    { cbn [driver_run]. unfold driver_step. cbn [v_helper v_skip v_des]. rewrite HE.
      cbn [handle_skip de_init any_deser any_init]. rewrite HS. reflexivity. }
    rewrite E, any_run.
    pose proof (content_element charref (parse_as ty) tb h n a h1 body m rest HF HE) as H. rewrite EC in H.
    assert (E2 : driver_run (cd ty) tb (Driver h None None) (EStart n a :: body ++ EEnd m :: rest) =
                 driver_run (cd ty) tb (Driver h1 (Some "") None) (body ++ EEnd m :: rest)).
    { cbn [driver_run]. unfold driver_step. cbn [v_helper v_skip v_des]. rewrite HE. reflexivity. }
    rewrite <- E2, H. destruct (parse_as ty (at_end h1) (trim_ascii s)) as [[t h']|k|]; reflexivity.
  Qed.
End Run.

(** ** Text *)
Lemma graphic_clean s : graphic s -> clean s.
Proof.
  intros H. split.
  - apply utf8_ascii. intros c Hc. specialize (H c Hc). lia.
  - exists "", "". split; [rewrite append_nil_r; reflexivity|]. split; [intros c []|].
    assert (G : forall c, In c (list_ascii_of_string s) -> ascii_ws c = false).
    { intros c Hc. specialize (H c Hc). unfold ascii_ws.
      repeat match goal with |- context [Ascii.eqb c ?d] => destruct (Ascii.eqb_spec c d) as [->|_] end;
        cbn in H; try lia; reflexivity. }
    split; intros c r ->; apply G; [left; reflexivity|]. rewrite ascii_in_app. right. left. reflexivity.
Qed.

Lemma clean_trim s : clean s -> trim_ascii s = s.
Proof. intros [_ H]. apply trim_ascii_id, H. Qed.

Lemma graphic_cons c s : 33 <= nat_of_ascii c <= 126 -> graphic s -> graphic (String c s).
Proof. intros H1 H2 d [<-|Hd]; [exact H1|exact (H2 d Hd)]. Qed.
Lemma graphic_nil : graphic "".
Proof. intros c []. Qed.

Definition graph_b (c : ascii) : bool := Nat.leb 33 (nat_of_ascii c) && Nat.leb (nat_of_ascii c) 126.
Lemma graph_b_spec c : graph_b c = true -> 33 <= nat_of_ascii c <= 126.
Proof. unfold graph_b. intros H. apply andb_true_iff in H as [H1 H2]. apply Nat.leb_le in H1, H2. lia. Qed.

Lemma hex_graphic b : graphic (any_hex_write b).
Proof.
  induction b as [|c b IH]; [apply graphic_nil|]. cbn.
  assert (G : forall x, graph_b (upper_digit x) = true) by (intros [[[[] []] []] []]; reflexivity).
  do 2 (apply graphic_cons; [apply graph_b_spec, G|]). exact IH.
Qed.

Lemma b64_char_graph x : graph_b (b64_char x) = true.
Proof. destruct x as [[[[[[] []] []] []] []] []]; reflexivity. Qed.

Lemma b64_graphic b : graphic (b64_encode b).
Proof.
  induction b using three_step; cbn [b64_encode];
    repeat (apply graphic_cons; [first [apply graph_b_spec, b64_char_graph | cbn; lia]|]); try apply graphic_nil; assumption.
Qed.

Lemma uint_graphic u : graphic (NilEmpty.string_of_uint u).
Proof. induction u; cbn; try apply graphic_nil; (apply graphic_cons; [cbn; lia|assumption]). Qed.
Lemma nz_graphic u : graphic (NilZero.string_of_uint u).
Proof. destruct u; try exact (uint_graphic _). apply graphic_cons; [cbn; lia|apply graphic_nil]. Qed.
Lemma int_graphic z : graphic (print_int z).
Proof.
  unfold print_int, NilZero.string_of_int. destruct (Z.to_int z); [apply nz_graphic|].
  apply graphic_cons; [cbn; lia|apply nz_graphic].
Qed.

Lemma format_graphic s : graphic s -> format_utf8_slice s = s.
Proof.
  induction s as [|c s IH]; intros H; [reflexivity|]. cbn [format_utf8_slice].
  rewrite IH by (intros d Hd; apply H; right; exact Hd).
  specialize (H c (or_introl eq_refl)). unfold format_byte, is_ascii_control.
  destruct (Nat.ltb_spec (nat_of_ascii c) 32); [lia|]. destruct (Nat.eqb_spec (nat_of_ascii c) 127); [lia|]. cbn [orb].
  destruct (Nat.ltb_spec (nat_of_ascii c) 128); [reflexivity|lia].
Qed.

(** ** Integers *)
Lemma parse_digits_print u : u <> Decimal.Nil -> parse_digits (NilZero.string_of_uint u) = Some (Z.of_N (N.of_uint u)).
Proof. intros H. unfold parse_digits. rewrite NilZero.usu by exact H. reflexivity. Qed.

Lemma nz_head u : match NilZero.string_of_uint u with String c _ => Ascii.eqb c "-" = false /\ Ascii.eqb c "+" = false | _ => False end.
Proof. destruct u; cbn; split; reflexivity. Qed.

Lemma print_int_back lo hi z : (lo <= z <= hi)%Z -> parse_int lo hi (print_int z) = Some z.
Proof.
  intros H. unfold print_int.
  assert (HR : (Z.leb lo z && Z.leb z hi)%bool = true) by (apply andb_true_iff; split; apply Z.leb_le; lia).
  assert (HN : forall s, (match s with String c _ => Ascii.eqb c "-" = false /\ Ascii.eqb c "+" = false | _ => False end) ->
     parse_digits s = Some z -> parse_int lo hi s = Some z).
  { intros [|c s'] HS HP; [destruct HS|]. destruct HS as [H1 H2]. unfold parse_int.
    destruct (Ascii.eqb_spec c "-") as [->|N1]; [discriminate|]. destruct (Ascii.eqb_spec c "+") as [->|N2]; [discriminate|].
    assert (E : (match String c s' with
      | String "-" s' => if Z.ltb lo 0 then match parse_digits s' with Some z => Some (Z.opp z) | None => None end else None
      | String "+" s' => parse_digits s'
      | _ => parse_digits (String c s') end) = parse_digits (String c s')).
    { destruct c as [[] [] [] [] [] [] [] []]; try reflexivity; congruence. }
    rewrite E, HP, HR. reflexivity. }
  destruct z as [|p|p]; cbn [Z.to_int NilZero.string_of_int].
  - apply HN; [apply nz_head|]. reflexivity.
  - apply HN; [apply nz_head|]. rewrite parse_digits_print.
    + f_equal. change (Pos.to_uint p) with (N.to_uint (N.pos p)). rewrite DecimalN.Unsigned.of_to. reflexivity.
    + change (Pos.to_uint p) with (N.to_uint (N.pos p)). apply DecimalPos.Unsigned.to_uint_nonnil.
  - unfold parse_int. assert (E : Z.ltb lo 0 = true) by (apply Z.ltb_lt; lia). rewrite E. rewrite parse_digits_print.
    + change (Pos.to_uint p) with (N.to_uint (N.pos p)). rewrite DecimalN.Unsigned.of_to.
      cbn [Z.of_N Z.opp]. rewrite HR. reflexivity.
    + change (Pos.to_uint p) with (N.to_uint (N.pos p)). apply DecimalPos.Unsigned.to_uint_nonnil.
Qed.

(** ** Lists *)
Lemma starts_with_app c s : starts_with c s = true -> exists b, s = c ++ b.
Proof.
  revert s. induction c as [|a c IH]; intros s H; [exists s; reflexivity|].
  destruct s as [|d s]; [discriminate|]. cbn in H. destruct (Ascii.eqb_spec a d) as [->|]; [|discriminate].
  destruct (IH s H) as (b & ->). exists b. reflexivity.
Qed.

Lemma space_len_0 s : (forall c b, s = c ++ b -> ~ In c space_chars) -> space_len s = 0.
Proof.
  intros H. unfold space_len. destruct (find (fun c => starts_with c s) space_chars) as [c|] eqn:E; [|reflexivity].
  apply find_some in E as [H1 H2]. apply starts_with_app in H2 as (b & ->). elim (H c b eq_refl H1).
Qed.

(** A white-space character does not begin in the text and end in the blank. *)
Lemma split_blank c s b r : In c space_chars -> s <> "" -> s ++ String " " r = c ++ b -> exists b', s = c ++ b'.
Proof.
  intros HI HS H. cbn in HI.
  destruct s as [|x1 s]; [congruence|].
  repeat (destruct HI as [<-|HI];
    [cbn in H; injection H as -> H; first
      [ exists s; reflexivity
      | destruct s as [|x2 s]; cbn in H; injection H as ?E H; [discriminate E|]; subst; first
          [ exists s; reflexivity
          | destruct s as [|x3 s]; cbn in H; injection H as ?E H; [discriminate E|]; subst; exists s; reflexivity]]|]).
  destruct HI.
Qed.

Lemma split_solid w : (forall a c b, w = a ++ c ++ b -> ~ In c space_chars) ->
  forall r, split_space 0 (w ++ String " " r) = w :: split_space 0 r.
Proof.
  induction w as [|x w IH]; intros H r; [reflexivity|].
  cbn [append split_space].
  rewrite space_len_0.
  - rewrite IH; [reflexivity|]. intros a c b E. apply (H (String x a) c b). rewrite E. reflexivity.
  - intros c b E HI. change (String x (w ++ String " " r)) with (String x w ++ String " " r) in E.
    apply (split_blank c) in E as (b' & E); [|exact HI|discriminate]. exact (H "" c b' E HI).
Qed.

Lemma split_solid_end w : (forall a c b, w = a ++ c ++ b -> ~ In c space_chars) -> split_space 0 w = [w].
Proof.
  induction w as [|x w IH]; intros H; [reflexivity|].
  cbn [split_space]. rewrite space_len_0.
  - rewrite IH; [reflexivity|]. intros a c b E. apply (H (String x a) c b). rewrite E. reflexivity.
  - intros c b E HI. exact (H "" c b E HI).
Qed.

Lemma vec_back ws : Forall solid ws -> parse_vec (format_vec ws) = ws.
Proof.
  intros H. unfold parse_vec, format_vec.
  assert (NE : forall w, w <> "" -> negb (String.eqb w "") = true) by (intros w Hw; destruct (String.eqb_spec w ""); [congruence|reflexivity]).
  destruct ws as [|w ws]; [reflexivity|]. revert w H.
  induction ws as [|w2 ws IH]; intros w H; inversion_clear H as [|? ? (H1 & H2 & H3) H4].
  - cbn [String.concat]. rewrite split_solid_end by exact H3. cbn. rewrite NE by exact H2. reflexivity.
  - change (String.concat " " (w :: w2 :: ws)) with (w ++ String " " (String.concat " " (w2 :: ws))).
    rewrite split_solid by exact H3. cbn [filter]. rewrite NE by exact H2. rewrite IH by exact H4. reflexivity.
Qed.

Lemma solid_ws w c : solid w -> In c (list_ascii_of_string w) -> ascii_ws c = false.
Proof.
  intros (_ & _ & H) Hc. destruct (ascii_ws c) eqn:E; [|reflexivity]. exfalso.
  assert (HS : exists a b, w = a ++ String c "" ++ b).
  { clear H. induction w as [|d w IH]; [destruct Hc|]. destruct Hc as [->|Hc]; [exists "", w; reflexivity|].
    destruct (IH Hc) as (a & b & ->). exists (String d a), b. reflexivity. }
  destruct HS as (a & b & HS). apply (H a (String c "") b HS). clear - E. unfold ascii_ws in E.
  repeat (apply orb_true_iff in E as [E|E]); apply Ascii.eqb_eq in E; subst; cbn; tauto.
Qed.

Lemma concat_clean ws : Forall solid ws -> clean (format_vec ws).
Proof.
  unfold format_vec. intros H.
  assert (G : utf8_valid (String.concat " " ws) = true /\
              (forall c r, String.concat " " ws = String c r -> ascii_ws c = false) /\
              (forall c r, String.concat " " ws = r ++ String c "" -> ascii_ws c = false)).
  { destruct ws as [|w ws].
    { cbn. split; [reflexivity|]. split; intros c r E; [discriminate|]. destruct r; discriminate. }
    revert w H. induction ws as [|w2 ws IH]; intros w H; inversion_clear H as [|? ? HW HR].
    - cbn [String.concat]. split; [apply HW|]. split; intros c r ->; apply (solid_ws _ c HW); [left; reflexivity|].
      rewrite ascii_in_app. right. left. reflexivity.
    - change (String.concat " " (w :: w2 :: ws)) with (w ++ String " " (String.concat " " (w2 :: ws))).
      destruct (IH w2 HR) as (I1 & I2 & I3). split; [|split].
      + rewrite utf8_split by (cbn; lia). rewrite I1, (proj1 HW). reflexivity.
      + intros c r E. destruct w as [|d w]; [destruct HW as (_ & HW & _); congruence|]. cbn in E. injection E as <- _.
        apply (solid_ws _ d HW). left. reflexivity.
      + intros c r E. destruct (String.concat " " (w2 :: ws)) as [|d t] eqn:ET.
        { inversion_clear HR as [|? ? (_ & HN & _) _]. destruct w2; [congruence|]. destruct ws; discriminate. }
        assert (HL : exists r', String d t = r' ++ String c "").
        { clear - E. revert r E. induction w as [|x w IHw]; intros r E.
          - cbn in E. destruct r as [|y r]; [discriminate|]. cbn in E. injection E as _ E. exists r. exact E.
          - destruct r as [|y r]; [cbn in E; injection E as _ E; destruct w; discriminate|]. cbn in E. injection E as _ E. exact (IHw r E). }
        destruct HL as (r' & HL). exact (I3 c r' HL). }
  destruct G as (G1 & G2 & G3). split; [exact G1|]. exists "", "". rewrite append_nil_r. split; [reflexivity|]. split; [intros c []|]. split; assumption.
Qed.

(** ** Writing *)
Lemma colon_pos_none s : ~ In ":"%char (list_ascii_of_string s) -> colon_pos s = None /\ split_colon s = None.
Proof.
  induction s as [|c s IH]; intros H; [split; reflexivity|]. cbn [colon_pos split_colon].
  destruct (Ascii.eqb_spec c ":") as [->|N]; [elim H; left; reflexivity|].
  destruct IH as [-> ->]; [intros HI; apply H; right; exact HI|]. split; reflexivity.
Qed.

Lemma local_after p x : ~ In ":"%char (list_ascii_of_string p) -> q_local (qname_from_bytes (p ++ String ":" x)) = x.
Proof.
  intros H. unfold q_local, qname_from_bytes. cbn [q_index q_raw].
  assert (G : colon_pos (p ++ String ":" x) = Some (String.length p) /\ str_drop (S (String.length p)) (p ++ String ":" x) = x).
  { induction p as [|c p IH]; [split; reflexivity|]. cbn [append colon_pos String.length].
    destruct (Ascii.eqb_spec c ":") as [->|N]; [elim H; left; reflexivity|].
    destruct IH as [-> IH2]; [intros HI; apply H; right; exact HI|]. split; [reflexivity|exact IH2]. }
  destruct G as [-> G]. exact G.
Qed.

Lemma qname_in_local r raw : q_local (qname_in r raw) = q_local (qname_from_bytes raw).
Proof. reflexivity. Qed.

Lemma unescape_plain charref s : ~ In "&"%char (list_ascii_of_string s) -> unescape charref s = Some s.
Proof.
  intros H. unfold unescape.
  assert (G : exists n, un charref false s = Some (n, s)).
  { induction s as [|c s IH]; [exists ""; reflexivity|]. cbn [un].
    destruct (Ascii.eqb_spec c "&") as [->|N]; [elim H; left; reflexivity|].
    destruct IH as (n & ->); [intros HI; apply H; right; exact HI|]. exists "". reflexivity. }
  destruct G as (n & ->). reflexivity.
Qed.

Lemma write_levels h p ns : h_level (fst (write_xmlns h p ns)) = h_level h.
Proof. unfold write_xmlns. destruct (find_ns _ _) as [e|]; [destruct (opt_eqb _ _)|]; reflexivity. Qed.
Lemma qname_levels h q : h_level (fst (fst (add_qname_namespace h q))) = h_level h.
Proof. unfold add_qname_namespace. destruct (q_ns q); [destruct (find_ns _ _)|]; reflexivity. Qed.

Section Write.
  Context {Num : Type} (num_print : bytes -> Num -> bytes).
  Notation next := (aser_next num_print).

  (** The tag written. *)
  Definition any_tag (v : asv Num) (h : helper) : list attr * helper :=
    match asv_type v with
    | Some q =>
        let '(h1, a1, q1) := add_qname_namespace (begin_ns_scope h) (type_name v q) in
        let '(h2, a2) := write_xmlns h1 (Some "xsi") XSI_NS in
        ((a1 ++ a2 ++ [("xsi:type", q_raw q1)])%list, h2)
    | None => ([], begin_ns_scope h)
    end.

  Lemma any_written v n h fuel : 4 <= fuel ->
    ser_run next fuel (ABegin n v) h =
    SRDone [EStart n (fst (any_tag v h)); EText (escape (asv_text num_print v)); EEnd n] (snd (any_tag v h)).
  Proof.
    intros HF. do 4 (destruct fuel as [|fuel]; [lia|]). cbn [ser_run aser_next]. unfold any_tag.
    destruct (asv_type v) as [q|]; [|reflexivity].
    destruct (add_qname_namespace (begin_ns_scope h) (type_name v q)) as [[h1 a1] q1].
    destruct (write_xmlns h1 (Some "xsi") XSI_NS) as [h2 a2]. reflexivity.
  Qed.

  Lemma any_tag_level v h : h_level (snd (any_tag v h)) = S (h_level h).
  Proof.
    unfold any_tag. destruct (asv_type v) as [q|]; [|reflexivity].
    pose proof (qname_levels (begin_ns_scope h) (type_name v q)) as H.
    destruct (add_qname_namespace (begin_ns_scope h) (type_name v q)) as [[h1 a1] q1]. cbn in H.
    pose proof (write_levels h1 (Some "xsi") XSI_NS) as H2. destruct (write_xmlns h1 (Some "xsi") XSI_NS) as [h2 a2]. cbn in H2 |- *.
    congruence.
  Qed.

  (** The tag for a built-in type is read as that type. *)
  Lemma scan_decls charref (b1 b2 : bool) dh n raw :
    utf8_valid raw = true -> ~ In "&"%char (list_ascii_of_string raw) ->
    (b2 = false -> find_prefix (Some "xsi") (r_bindings (d_res (dh_pop dh))) = Some XSI_NS) ->
    let a := ((if b1 then [("xmlns:xs", XS_NS)] else []) ++ (if b2 then [("xmlns:xsi", XSI_NS)] else []) ++ [("xsi:type", raw)])%list in
    exists h1, dh_event dh (EStart n a) = Some h1 /\ type_scan charref utf8_valid (d_res h1) [] None a = Ok (Some raw) /\
      default_namespace (d_res (at_end h1)) = default_namespace (d_res (dh_pop dh)).
  Proof.
    intros HU HA HX a.
    assert (SC : forall r seen, resolve_local_name r "xsi:type" XSI_NS = Some "type" ->
      existsb (String.eqb "xsi:type") seen = false ->
      type_scan charref utf8_valid r seen None [("xsi:type", raw)] = Ok (Some raw)).
    { intros r seen HR HS. cbn [type_scan]. rewrite HS, HR. cbn [String.eqb Ascii.eqb Bool.eqb]. rewrite HU.
      rewrite unescape_plain by exact HA. reflexivity. }
    assert (KD : forall r, find_prefix (Some "xsi") (r_bindings r) = Some XSI_NS -> resolve_local_name r "xsi:type" XSI_NS = Some "type").
    { intros r E. unfold resolve_local_name, dh_resolve, resolve. cbn [split_colon Ascii.eqb Bool.eqb String.eqb]. rewrite E. reflexivity. }
    assert (SX : forall r seen k v rest, (k = "xmlns:xs" \/ k = "xmlns:xsi") -> existsb (String.eqb k) seen = false ->
      type_scan charref utf8_valid r seen None ((k, v) :: rest) = type_scan charref utf8_valid r (k :: seen) None rest).
    { intros r seen k v rest HK HS. cbn [type_scan]. rewrite HS. destruct HK as [-> | ->]; reflexivity. }
    destruct b1, b2; cbn [app] in a; eexists; (split; [reflexivity|]); cbn [d_res]; (split; [|reflexivity]);
      unfold a; repeat (rewrite SX by (try reflexivity; auto)); (apply SC; [apply KD|reflexivity]); try reflexivity;
      cbn [r_bindings find_prefix opt_eqb b_prefix b_value]; cbn; apply HX; reflexivity.
  Qed.

  Lemma tag_read charref v ty h dh n : asv_type v = Some (qname_from_bytes ("xs:" ++ ty)) ->
    (forall q, type_name v q = match q_ns q with None => with_namespace q XS_NS | Some _ => q end) ->
    ~ In ":"%char (list_ascii_of_string ty) -> ~ In "&"%char (list_ascii_of_string ty) -> graphic ty ->
    fit h dh ->
    exists h1 raw, dh_event dh (EStart n (fst (any_tag v h))) = Some h1 /\
      type_scan charref utf8_valid (d_res h1) [] None (fst (any_tag v h)) = Ok (Some raw) /\
      q_local (qname_from_bytes raw) = ty /\
      default_namespace (d_res (at_end h1)) = default_namespace (d_res (dh_pop dh)).
  Proof.
    intros HT HN HC HA HG [F1 F2].
    assert (GU : forall s, graphic s -> utf8_valid s = true) by (intros s Hs; apply (graphic_clean s Hs)).
    set (raw := match find_ns XS_NS (h_ns h) with
                | Some e => match ne_prefix e with Some p => p ++ ":" ++ ty | None => ty end
                | None => "xs:" ++ ty end).
    assert (HR : q_local (qname_from_bytes raw) = ty /\ utf8_valid raw = true /\ ~ In "&"%char (list_ascii_of_string raw)).
    { unfold raw. destruct (find_ns XS_NS (h_ns h)) as [e|] eqn:EX; [destruct (ne_prefix e) as [p|] eqn:EP|].
      - destruct (F2 e p eq_refl EP) as (P1 & P2 & P3). split; [exact (local_after p ty P2)|].
        split.
        + apply GU. intros c Hc. rewrite ascii_in_app in Hc. destruct Hc as [Hc|[<-|Hc]]; [exact (P1 c Hc)|cbn; lia|exact (HG c Hc)].
        + intros Hc. rewrite ascii_in_app in Hc. destruct Hc as [Hc|[Hc|Hc]]; [exact (P3 Hc)|discriminate|exact (HA Hc)].
      - split; [|split; [apply GU, HG|exact HA]]. unfold q_local, qname_from_bytes. cbn [q_index q_raw].
        rewrite (proj1 (colon_pos_none ty HC)). reflexivity.
      - split; [reflexivity|]. split.
        + apply GU. do 3 (apply graphic_cons; [cbn; lia|]). exact HG.
        + intros [Hc|[Hc|[Hc|Hc]]]; try discriminate. exact (HA Hc). }
    destruct HR as (R1 & R2 & R3).
    assert (HB : exists b1 b2 : bool, fst (any_tag v h) =
       ((if b1 then [("xmlns:xs", XS_NS)] else []) ++ (if b2 then [("xmlns:xsi", XSI_NS)] else []) ++ [("xsi:type", raw)])%list /\
       (b2 = false -> find_prefix (Some "xsi") (r_bindings (d_res (dh_pop dh))) = Some XSI_NS)).
    { unfold any_tag. rewrite HT, HN. cbn [q_ns qname_from_bytes].
      unfold add_qname_namespace. cbn [q_ns with_namespace]. unfold raw. clear raw R1 R2 R3.
      assert (HW : forall hh b1 raw, find_ns XSI_NS (h_ns hh) = find_ns XSI_NS (h_ns h) ->
         exists b2, (let '(h2, a2) := write_xmlns hh (Some "xsi") XSI_NS in
           (((if b1 : bool then [("xmlns:xs", XS_NS)] else []) ++ a2 ++ [("xsi:type", raw)])%list, h2)) =
           (((if b1 then [("xmlns:xs", XS_NS)] else []) ++ (if b2 : bool then [("xmlns:xsi", XSI_NS)] else []) ++ [("xsi:type", raw)])%list,
            fst (write_xmlns hh (Some "xsi") XSI_NS)) /\
           (b2 = false -> find_prefix (Some "xsi") (r_bindings (d_res (dh_pop dh))) = Some XSI_NS)).
      { intros hh b1 raw EH. unfold write_xmlns. cbn [filter_prefix]. rewrite EH.
        destruct (find_ns XSI_NS (h_ns h)) as [e|] eqn:E1; [destruct (opt_eqb (ne_prefix e) (Some "xsi")) eqn:E2|].
        - exists false. split; [reflexivity|]. intros _. apply (F1 e eq_refl).
          destruct (ne_prefix e) as [x|]; [|discriminate]. cbn in E2. apply String.eqb_eq in E2. congruence.
        - exists true. split; [reflexivity|discriminate].
        - exists true. split; [reflexivity|discriminate]. }
      change (h_ns (begin_ns_scope h)) with (h_ns h).
      destruct (find_ns XS_NS (h_ns h)) as [e|] eqn:EX.
      - destruct (HW (begin_ns_scope h) false (match ne_prefix e with Some p => p ++ ":" ++ ty | None => ty end) eq_refl) as (b2 & E & K).
        exists false, b2. split; [|exact K].
        exact (f_equal fst E).
      - destruct (HW (fst (add_namespace_entry (begin_ns_scope h) (Some "xs") XS_NS)) true ("xs:" ++ ty) eq_refl) as (b2 & E & K).
        exists true, b2. split; [|exact K]. exact (f_equal fst E). }
    destruct HB as (b1 & b2 & -> & K).
    destruct (scan_decls charref b1 b2 dh n raw R2 R3 K) as (h1 & H1 & H2 & H3).
    exists h1, raw. split; [exact H1|]. split; [exact H2|]. split; [exact R1|exact H3].
  Qed.
End Write.

Definition plain_type (ty : bytes) : bool :=
  forallb (fun c => graph_b c && negb (Ascii.eqb c ":") && negb (Ascii.eqb c "&"))%bool (list_ascii_of_string ty).
Lemma plain_type_spec ty : plain_type ty = true ->
  ~ In ":"%char (list_ascii_of_string ty) /\ ~ In "&"%char (list_ascii_of_string ty) /\ graphic ty.
Proof.
  unfold plain_type. rewrite forallb_forall. intros H.
  assert (G : forall c, In c (list_ascii_of_string ty) -> graph_b c = true /\ c <> ":"%char /\ c <> "&"%char).
  { intros c Hc. specialize (H c Hc). apply andb_true_iff in H as [H H3]. apply andb_true_iff in H as [H1 H2].
    split; [exact H1|]. split; intros ->; discriminate. }
  split; [|split].
  - intros Hc. apply G in Hc. tauto.
  - intros Hc. apply G in Hc. tauto.
  - intros c Hc. apply graph_b_spec. apply G, Hc.
Qed.

Section RoundTrip.
  Context {Num : Type} (num_parse : bytes -> bytes -> option Num) (num_print : bytes -> Num -> bytes).

  Lemma text_clean v : keeps_text num_parse num_print v -> clean (asv_text num_print v).
  Proof.
    destruct v; cbn; intros H.
    - apply H.
    - apply graphic_clean. destruct b; intros c Hc; apply graph_b_spec;
        repeat (destruct Hc as [<-|Hc]; [reflexivity|]); destruct Hc.
    - apply graphic_clean, int_graphic.
    - apply H.
    - apply graphic_clean, hex_graphic.
    - apply graphic_clean, b64_graphic.
    - destruct H as (H1 & _). rewrite format_graphic by exact H1. apply graphic_clean, H1.
    - apply concat_clean, H.
    - apply H.
  Qed.

  Lemma finish_back v ty h : keeps_text num_parse num_print v -> named_in (d_res h) v -> asv_local v = Some ty ->
    forall raw, q_local (qname_from_bytes raw) = ty ->
    exists h', finish_any num_parse h (Some raw) (asv_text num_print v) = Ok (v, h').
  Proof.
    intros HK HNm HT raw HR. unfold finish_any.
    change (q_local (qname_in (d_res h) raw)) with (q_local (qname_from_bytes raw)). rewrite HR.
    destruct v; cbn in HT; try discriminate; injection HT as <-; cbn [keeps_text] in HK.
    - destruct HK as [HI _]. assert (E : mem ty0 text_types = true).
      { apply existsb_exists. exists ty0. split; [exact HI|apply String.eqb_refl]. }
      rewrite E. exists h. reflexivity.
    - exists h. destruct b; reflexivity.
    - destruct HK as (lo & hi & HI & HZ). cbn [asv_text]. exists h.
      assert (E : forall l : list (bytes * (Z * Z)), l = int_types -> In (ty0, (lo, hi)) l ->
         mem ty0 text_types = false /\ String.eqb ty0 "boolean" = false /\ String.eqb ty0 "hexBinary" = false /\
         String.eqb ty0 "base64Binary" = false /\ String.eqb ty0 "QName" = false /\ mem ty0 num_types = false /\
         mem ty0 list_types = false /\ assoc ty0 int_types = Some (lo, hi)).
      { intros l -> HL. cbn [int_types In] in HL.
        repeat (destruct HL as [HL|HL]; [injection HL as <- <- <-; repeat split; reflexivity|]). destruct HL. }
      destruct (E _ eq_refl HI) as (-> & -> & -> & -> & -> & -> & -> & ->).
      rewrite print_int_back by exact HZ. reflexivity.
    - destruct HK as (HI & _ & HP). cbn [asv_text]. exists h.
      assert (E : mem ty0 text_types = false /\ String.eqb ty0 "boolean" = false /\ String.eqb ty0 "hexBinary" = false /\
         String.eqb ty0 "base64Binary" = false /\ String.eqb ty0 "QName" = false /\ mem ty0 num_types = true).
      { clear - HI. cbn [num_types In] in HI. repeat (destruct HI as [<-|HI]; [repeat split; reflexivity|]). destruct HI. }
      destruct E as (-> & -> & -> & -> & -> & ->). rewrite HP. reflexivity.
    - exists h. cbn [asv_text]. cbn [mem text_types existsb String.eqb Ascii.eqb Bool.eqb orb].
      rewrite (any_hex_read_text _ b (any_hex_write_text b)). reflexivity.
    - exists h. cbn [asv_text]. cbn [mem text_types existsb String.eqb Ascii.eqb Bool.eqb orb].
      rewrite b64_decode_encode. reflexivity.
    - exists h. cbn [asv_text]. cbn [mem text_types existsb String.eqb Ascii.eqb Bool.eqb orb].
      destruct HK as (G1 & G2 & G3). rewrite format_graphic by exact G1.
      destruct (colon_pos_none _ G2) as [E1 E2].
      unfold qname_in, qname_from_helper, dh_resolve, resolve. rewrite E1, E2. cbn [fst negb]. destruct q as [raw0 i0 ns0]; cbn in *. subst. unfold default_namespace.
      destruct (find_prefix None (r_bindings (d_res h))) as [[|c0 s0]|]; reflexivity.
    - destruct HK as (HI & HF). exists h. cbn [asv_text].
      assert (E : mem ty0 text_types = false /\ String.eqb ty0 "boolean" = false /\ String.eqb ty0 "hexBinary" = false /\
         String.eqb ty0 "base64Binary" = false /\ String.eqb ty0 "QName" = false /\ mem ty0 num_types = false /\ mem ty0 list_types = true).
      { clear - HI. cbn [list_types In] in HI. repeat (destruct HI as [<-|HI]; [repeat split; reflexivity|]). destruct HI. }
      destruct E as (-> & -> & -> & -> & -> & -> & ->). rewrite vec_back by exact HF. reflexivity.
  Qed.

  Lemma local_plain v ty : keeps_text num_parse num_print v -> asv_local v = Some ty -> plain_type ty = true.
  Proof.
    assert (G : forallb plain_type (text_types ++ num_types ++ list_types ++ map fst int_types) = true) by reflexivity.
    rewrite forallb_forall in G.
    destruct v; cbn [keeps_text asv_local]; intros HK HT; try discriminate; injection HT as <-; try reflexivity; apply G; rewrite !in_app_iff.
    - tauto.
    - destruct HK as (lo & hi & HI & _). right; right; right. apply in_map_iff. eexists. split; [|exact HI]. reflexivity.
    - tauto.
    - tauto.
  Qed.

  Lemma any_round_trip charref tb v n h dh rest : keeps_text num_parse num_print v -> fit h dh ->
    named_in (d_res (dh_pop dh)) v ->
    exists evs evs' h' v',
      (forall fuel, 4 <= fuel -> ser_run (aser_next num_print) fuel (ABegin n v) h = SRDone evs h') /\
      reread evs = Some evs' /\
      driver_run (any_deser num_parse charref utf8_valid) tb (Driver dh None None) (evs' ++ rest) = RDone v' rest /\
      same_value v v'.
  Proof.
    intros HK HF HNm. pose proof (text_clean v HK) as HC.
    destruct (reread_written charref (asv_text num_print v) (proj1 HC)) as (body & HT & HCh & HE).
    assert (HFlat : forallb flat body = true).
    { clear - HE. induction body as [|e body IH]; [reflexivity|]. cbn in HE |- *. apply andb_true_iff in HE. destruct HE as [H1 H2].
      rewrite (IH H2), andb_true_r. destruct e; try discriminate; reflexivity. }
    exists [EStart n (fst (any_tag v h)); EText (escape (asv_text num_print v)); EEnd n],
      (EStart n (fst (any_tag v h)) :: body ++ [EEnd n])%list, (snd (any_tag v h)).
    assert (HRe : reread [EStart n (fst (any_tag v h)); EText (escape (asv_text num_print v)); EEnd n] =
                  Some (EStart n (fst (any_tag v h)) :: body ++ [EEnd n])%list).
    { unfold reread. cbn [reread_from append]. rewrite HT. reflexivity. }
    assert (HG : forall h1 ty v', dh_event dh (EStart n (fst (any_tag v h))) = Some h1 ->
       type_scan charref utf8_valid (d_res h1) [] None (fst (any_tag v h)) = Ok ty ->
       (exists h', finish_any num_parse (at_end h1) ty (asv_text num_print v) = Ok (v', h')) ->
       driver_run (any_deser num_parse charref utf8_valid) tb (Driver dh None None)
         ((EStart n (fst (any_tag v h)) :: body ++ [EEnd n]) ++ rest) = RDone v' rest).
    { intros h1 ty v' H1 H2 (h' & H3). cbn [app]. rewrite <- app_assoc. cbn [app].
      rewrite (any_element num_parse charref tb dh n _ h1 ty body n rest HFlat H1 H2). rewrite HCh.
      unfold parse_as, string_parse. rewrite clean_trim by exact HC. rewrite (proj1 HC), H3. reflexivity. }
    destruct (asv_local v) as [ty|] eqn:EL.
    - destruct (plain_type_spec ty (local_plain v ty HK EL)) as (P1 & P2 & P3).
      destruct (tag_read charref v ty h dh n) as (h1 & raw & T1 & T2 & T3 & T4); try assumption.
      { destruct v; cbn in EL |- *; try discriminate; injection EL as <-; reflexivity. }
      { destruct v; try reflexivity; discriminate. }
      exists v. split; [intros fuel Hf; exact (any_written num_print v n h fuel Hf)|]. split; [exact HRe|].
      split; [|destruct v; cbn; auto].
      apply (HG h1 (Some raw) v T1 T2). refine (finish_back v ty (at_end h1) HK _ EL raw T3).
      destruct v; try exact Logic.I. cbn [named_in] in HNm |- *. rewrite T4. exact HNm.
    - destruct v; try discriminate. destruct HK as [-> HK].
      assert (HD : exists h1, dh_event dh (EStart n []) = Some h1) by (eexists; reflexivity). destruct HD as (h1 & HD).
      destruct (namespaces (at_end h1)) as [m h2] eqn:EN.
      exists (VUnknown None content m). split; [intros fuel Hf; exact (any_written num_print _ n h fuel Hf)|]. split; [exact HRe|].
      split; [|split; reflexivity].
      apply (HG h1 None); [exact HD|reflexivity|]. exists h2. unfold finish_any. rewrite EN. reflexivity.
  Qed.
End RoundTrip.

(** ** Panics *)
Section Panics.
  Context {Num : Type} (num_parse : bytes -> bytes -> option Num) (charref : bytes -> option bytes) (tb : bytes -> option bool).

  Lemma finish_panic h ty s : finish_any num_parse h ty s = Panic ->
    exists raw, ty = Some raw /\ q_local (qname_from_bytes raw) = "hexBinary" /\ any_hex_read s = Panic.
  Proof.
    unfold finish_any. destruct ty as [raw|].
    2: { destruct (namespaces h). discriminate. }
    intros H. exists raw. split; [reflexivity|].
    change (q_local (qname_in (d_res h) raw)) with (q_local (qname_from_bytes raw)) in H.
    destruct (mem _ text_types); [discriminate|].
    destruct (String.eqb _ "boolean"); [destruct (String.eqb s "true"); [discriminate|destruct (String.eqb s "false"); discriminate]|].
    destruct (String.eqb_spec (q_local (qname_from_bytes raw)) "hexBinary") as [E|E].
    - split; [exact E|]. destruct (any_hex_read s); congruence.
    - exfalso. destruct (String.eqb _ "base64Binary"); [destruct (b64_decode s); discriminate|].
      destruct (String.eqb _ "QName"); [discriminate|].
      destruct (mem _ num_types); [destruct (num_parse _ s); discriminate|].
      destruct (mem _ list_types); [discriminate|].
      destruct (assoc _ int_types) as [[lo hi]|]; [destruct (parse_int lo hi s); discriminate|].
      destruct (namespaces h). discriminate.
  Qed.

  Lemma unconsumed_no_panic sk any e : unconsumed tb sk any e <> Panic.
  Proof.
    unfold unconsumed. destruct e as [e|]; [|discriminate]. destruct e; try discriminate; destruct any; try discriminate.
    destruct (tb raw) as [[]|]; discriminate.
  Qed.

  Lemma piece_no_panic e : piece charref utf8_valid e <> Some Panic.
  Proof.
    destruct e; cbn; try discriminate; destruct (utf8_valid raw); try discriminate; destruct (unescape _ _); discriminate.
  Qed.

  Lemma scan_no_panic r a : forall seen ty, type_scan charref utf8_valid r seen ty a <> Panic.
  Proof.
    induction a as [|[k v] a IH]; intros seen ty; cbn [type_scan]; [discriminate|].
    destruct (existsb _ _); [discriminate|]. destruct (resolve_local_name _ _ _) as [l|]; [|apply IH].
    destruct (String.eqb l "type"); [|apply IH]. destruct ty; [discriminate|].
    destruct (utf8_valid v); [|discriminate]. destruct (unescape charref v); [apply IH|discriminate].
  Qed.

  Notation ad := (any_deser num_parse charref utf8_valid).
  Definition hex_trouble : Prop := exists raw s, q_local (qname_from_bytes raw) = "hexBinary" /\ any_hex_read s = Panic.

  Lemma any_panic evs : forall v, driver_run ad tb v evs = RPanic ->
    exists raw s, q_local (qname_from_bytes raw) = "hexBinary" /\ any_hex_read s = Panic.
  Proof.
    induction evs as [|e evs IH]; intros v; cbn [driver_run]; [discriminate|].
    destruct (driver_step ad tb v e) as [[[t|] v']|k|] eqn:ES; try discriminate; [apply IH|].
    intros _. unfold driver_step in ES.
    destruct (dh_event (v_helper v) e) as [h|]; [|discriminate].
    destruct (handle_skip (v_skip v) e) as [sk [e1|]]; [|discriminate].
    match type of ES with context [match ?x with Ok _ => _ | Err _ => _ | Panic => _ end] => destruct x as [[o h']|k|] eqn:EO end; [|discriminate|].
    - destruct (unconsumed tb sk (o_any o) (into_event (o_ev o))) eqn:EU; [destruct (o_art o); discriminate|discriminate|].
      elim (unconsumed_no_panic _ _ _ EU).
    - assert (HC : forall ty d h e, handle_content num_parse ty (content_next charref utf8_valid (string_parse utf8_valid) d h e) = Panic ->
         exists raw s, q_local (qname_from_bytes raw) = "hexBinary" /\ any_hex_read s = Panic).
      { intros ty d h0 e0 H. unfold content_next in H. pose proof (piece_no_panic e0) as NP.
        destruct (piece charref utf8_valid e0) as [[s|k|]|]; cbn in H; try discriminate; [congruence|].
        destruct e0; try discriminate. unfold content_finish, string_parse in H.
        destruct (utf8_valid (trim_ascii d)); cbn in H; [|discriminate].
        destruct (finish_any num_parse h0 ty (trim_ascii d)) as [[w h2]|k|] eqn:EF; try discriminate.
        apply finish_panic in EF as (raw & _ & H1 & H2). exists raw, (trim_ascii d). split; assumption. }
      destruct (v_des v) as [[ty d]|].
      + exact (HC ty d h e1 EO).
      + cbn [de_init any_deser] in EO. unfold any_init in EO.
        destruct e1; try discriminate; pose proof (scan_no_panic (d_res h) attrs [] None) as NS;
          destruct (type_scan charref utf8_valid (d_res h) [] None attrs) as [ty|k|]; try discriminate; try congruence.
        cbn [content_init] in EO. unfold string_parse in EO. cbn [utf8_valid urun] in EO. cbn in EO.
        destruct (finish_any num_parse h ty "") as [[w h2]|k|] eqn:EF; try discriminate.
        apply finish_panic in EF as (raw & _ & _ & H2). discriminate.
  Qed.

  Lemma hex_panic s : any_hex_read s = Panic -> all_ascii s = false \/ Nat.even (String.length s) = false.
  Proof.
    intros H. destruct (all_ascii s) eqn:E1; [|left; reflexivity]. destruct (Nat.even (String.length s)) eqn:E2; [|right; reflexivity].
    elim (any_hex_no_panic s E1 E2 H).
  Qed.

  Lemma hex_odd_panics s b c : hex_text s b -> nat_of_ascii c < 128 -> any_hex_read (s ++ String c "") = Panic.
  Proof.
    intros H HC. apply hex_raw_text in H. revert b H.
    induction s as [|c1|c1 d s IH] using two_step; intros b H.
    - reflexivity.
    - discriminate.
    - cbn [hex_decode_raw] in H.
      destruct (hex_digit c1) as [x|] eqn:E1; [|discriminate].
      destruct (hex_digit d) as [y|] eqn:E2; [|discriminate].
      destruct (hex_decode_raw s) as [b'|] eqn:E; [|discriminate].
      cbn [append any_hex_read]. rewrite (boundary_head c1 _ ""), (proj2 (hex_digit_plus c1 x E1)).
      assert (B : boundary (s ++ String c "") = true).
      { destruct s as [|c' [|d' s']]; [|discriminate E|].
        - cbn [append boundary]. destruct (Nat.leb_spec 128 (nat_of_ascii c)); [lia|reflexivity].
        - cbn [hex_decode_raw] in E. destruct (hex_digit c') as [x'|] eqn:E3; [|discriminate].
          cbn [append]. rewrite (boundary_head c' _ ""). apply (hex_digit_plus c' x' E3). }
      rewrite B. cbn [andb]. unfold radix16. rewrite (proj1 (hex_digit_plus c1 x E1)), E1, E2.
      rewrite (IH b' eq_refl). reflexivity.
  Qed.
End Panics.

(** ** Dispatch *)
Lemma mem_in x l : mem x l = true <-> In x l.
Proof.
  unfold mem. rewrite existsb_exists. split.
  - intros (y & H & E). apply String.eqb_eq in E. congruence.
  - intros H. exists x. split; [exact H|apply String.eqb_refl].
Qed.

Section Dispatch.
  Context {Num : Type} (num_parse : bytes -> bytes -> option Num).

  Lemma finish_class h raw s v h' : finish_any num_parse h (Some raw) s = Ok (v, h') ->
    let x := q_local (qname_from_bytes raw) in
    match v with
    | VUnknown t c m => ~ built_in x /\ t = Some (qname_in (d_res h) raw) /\ c = s /\ m = fst (namespaces h)
    | v => asv_local v = Some x /\ built_in x
    end.
  Proof.
    unfold finish_any. change (q_local (qname_in (d_res h) raw)) with (q_local (qname_from_bytes raw)).
    set (x := q_local (qname_from_bytes raw)). intros H. cbn zeta. clearbody x.
    assert (BI : built_in x <-> In x text_types \/ In x num_types \/ In x list_types \/ In x (map fst int_types) \/ In x ["boolean"; "hexBinary"; "base64Binary"; "QName"])
      by (unfold built_in; rewrite !in_app_iff; tauto).
    destruct (mem x text_types) eqn:E1.
    { injection H as <- _. apply mem_in in E1. split; [reflexivity|apply BI; tauto]. }
    destruct (String.eqb_spec x "boolean") as [E2|E2].
    { destruct (if String.eqb s "true" then _ else _); [|discriminate]. injection H as <- _. split; [rewrite E2; reflexivity|apply BI; do 4 right; rewrite E2; cbn; tauto]. }
    destruct (String.eqb_spec x "hexBinary") as [E3|E3].
    { destruct (any_hex_read s); try discriminate. injection H as <- _. split; [rewrite E3; reflexivity|apply BI; do 4 right; rewrite E3; cbn; tauto]. }
    destruct (String.eqb_spec x "base64Binary") as [E4|E4].
    { destruct (b64_decode s); try discriminate. injection H as <- _. split; [rewrite E4; reflexivity|apply BI; do 4 right; rewrite E4; cbn; tauto]. }
    destruct (String.eqb_spec x "QName") as [E5|E5].
    { injection H as <- _. split; [rewrite E5; reflexivity|apply BI; do 4 right; rewrite E5; cbn; tauto]. }
    destruct (mem x num_types) eqn:E6.
    { destruct (num_parse x s); try discriminate. injection H as <- _. apply mem_in in E6. split; [reflexivity|apply BI; tauto]. }
    destruct (mem x list_types) eqn:E7.
    { injection H as <- _. apply mem_in in E7. split; [reflexivity|apply BI; tauto]. }
    destruct (assoc x int_types) as [[lo hi]|] eqn:E8.
    { destruct (parse_int lo hi s); try discriminate. injection H as <- _. apply assoc_in in E8.
      split; [reflexivity|]. apply BI. right; right; right; left. apply in_map_iff. eexists. split; [|exact E8]. reflexivity. }
    destruct (namespaces h) as [m h2] eqn:EN. injection H as <- _.
    split; [|split; [reflexivity|split; reflexivity]].
    rewrite BI. intros [HI|[HI|[HI|[HI|HI]]]].
    - apply mem_in in HI. congruence.
    - apply mem_in in HI. congruence.
    - apply mem_in in HI. congruence.
    - clear - HI E8. cbn [map fst int_types In] in HI. repeat (destruct HI as [HI|HI]; [rewrite <- HI in E8; discriminate|]). destruct HI.
    - cbn in HI. repeat (destruct HI as [HI|HI]; [congruence|]). destruct HI.
  Qed.

  Lemma finish_err h ty s k : finish_any num_parse h ty s = Err k -> k = KInvalidData s.
  Proof.
    unfold finish_any. destruct ty as [raw|].
    2: { destruct (namespaces h). discriminate. }
    set (x := q_local (qname_in (d_res h) raw)).
    repeat match goal with
    | |- context [if ?c then _ else _] => destruct c
    | |- context [match ?o with Some _ => _ | None => _ end] => destruct o as [?|]
    | |- context [match any_hex_read s with _ => _ end] => destruct (any_hex_read s)
    end; try discriminate; try congruence;
    repeat match goal with p : (Z * Z)%type |- _ => destruct p end;
    repeat match goal with
    | |- context [match ?o with Some _ => _ | None => _ end] => destruct o as [?|]
    end; try discriminate; try congruence; destruct (namespaces h); discriminate.
  Qed.

  Lemma parse_int_range lo hi s z : parse_int lo hi s = Some z -> (lo <= z <= hi)%Z.
  Proof.
    unfold parse_int. match goal with |- match ?o with Some _ => _ | None => _ end = _ -> _ => destruct o as [y|] end; [|discriminate].
    destruct (Z.leb lo y && Z.leb y hi)%bool eqn:E; [|discriminate]. intros H. injection H as <-.
    apply andb_true_iff in E as [E1 E2]. apply Z.leb_le in E1, E2. lia.
  Qed.
End Dispatch.

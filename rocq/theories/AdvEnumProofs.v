(** Proofs about enumerations whose values are compared as values of their base type. *)
From Coq Require Import ZArith.
From Verif Require Import SerHelperModel SerHelperSpec SerHelperProofs QNameModel QNameProofs NumberModel NumberSpec AdvEnumModel AdvEnumSpec.
Local Open Scope string_scope.

(** ** Literals *)

Lemma lex_escape c nx r : lex_body (escape_byte c nx ++ r) =
  if Nat.ltb (nat_of_ascii c) 128 then option_map (String c) (lex_body r) else None.
Proof.
  destruct c as [[] [] [] [] [] [] [] []]; try reflexivity.
  destruct nx as [|d nx]; [reflexivity|]. unfold escape_byte. cbn [nat_of_ascii].
  destruct (_ && _)%bool; reflexivity.
Qed.

Lemma app_assoc_s (a b c : string) : (a ++ b) ++ c = a ++ b ++ c.
Proof. induction a; cbn; [reflexivity|]. f_equal. assumption. Qed.

Lemma lex_all s : lex_body (escape s ++ String """" "") = Some s /\ is_ascii s \/ lex_body (escape s ++ String """" "") = None /\ ~ is_ascii s.
Proof.
  induction s as [|c s IH]; [left; split; [reflexivity|intros c []]|].
  cbn [escape]. rewrite app_assoc_s, lex_escape. destruct (Nat.ltb_spec (nat_of_ascii c) 128) as [L|L].
  - destruct IH as [[E A]|[E A]]; rewrite E; cbn [option_map]; [left|right]; (split; [reflexivity|]).
    + intros d [<-|H]; [exact L|apply A, H].
    + intros H. apply A. intros d HD. apply H. right. exact HD.
  - right. split; [reflexivity|]. intros H. specialize (H c (or_introl eq_refl)). lia.
Qed.

Lemma str_constant_spec s t : str_constant s = Some t <-> is_ascii s /\ t = s.
Proof.
  unfold str_constant, byte_string. change (trim_start "b" (String "b" (String """" (escape s ++ String """" ""))))
    with (String """" (escape s ++ String """" "")). cbn [lex_str Ascii.eqb Bool.eqb]. cbn.
  destruct (lex_all s) as [[E A]|[E A]]; rewrite E; split.
  - intros H. injection H as <-. auto.
  - intros [_ ->]. reflexivity.
  - discriminate.
  - intros [H _]. contradiction.
Qed.

(** ** Search *)

Lemma first_index_some {A} (p : A -> bool) l i : first_index p l = Some i <-> first_with (fun x => p x = true) l i.
Proof.
  revert i. induction l as [|x l IH]; intros i; cbn [first_index].
  - split; [discriminate|]. intros [(y & E & _) _]. destruct i; discriminate E.
  - destruct (p x) eqn:E.
    + split.
      * intros H. injection H as <-. split; [exists x; auto|]. intros j y L. lia.
      * intros [_ H]. destruct i as [|i]; [reflexivity|]. elim (H 0 x); [lia|reflexivity|exact E].
    + split.
      * intros H. destruct (first_index p l) as [k|]; [|discriminate]. injection H as <-. destruct (IH k) as [IH' _]. destruct (IH' eq_refl) as [A1 A2].
        split; [exact A1|]. intros [|j] y L HJ; [injection HJ as <-; congruence|]. apply (A2 j y); [lia|exact HJ].
      * intros [(y & HY & PY) H]. destruct i as [|i]; [injection HY as <-; congruence|].
        assert (first_index p l = Some i) as ->; [|reflexivity]. apply IH. split; [exists y; auto|]. intros j z L HJ. apply (H (S j) z); [lia|exact HJ].
Qed.
Lemma first_index_none {A} (p : A -> bool) l : first_index p l = None <-> forall x, In x l -> p x = false.
Proof.
  induction l as [|x l IH]; cbn [first_index]; [split; [intros _ y []|reflexivity]|].
  destruct (p x) eqn:E.
  - split; [discriminate|]. intros H. specialize (H x (or_introl eq_refl)). congruence.
  - destruct (first_index p l); cbn [option_map]; split; try discriminate.
    + intros H. destruct IH as [_ IH]. discriminate IH. intros y HY. apply H. right. exact HY.
    + intros _ y [<-|HY]; [exact E|]. apply IH; auto.
    + reflexivity.
Qed.
Lemma last_index_some {A} (p : A -> bool) l i : last_index p l = Some i ->
  (exists x, nth_error l i = Some x /\ p x = true) /\ forall j y, i < j -> nth_error l j = Some y -> p y = false.
Proof.
  assert (HN : forall l', last_index p l' = None -> forall y, In y l' -> p y = false).
  { induction l' as [|x l' IH]; cbn [last_index]; [intros _ y []|]. destruct (last_index p l'); [discriminate|].
    destruct (p x) eqn:E; [discriminate|]. intros _ y [<-|H]; auto. }
  revert i. induction l as [|x l IH]; cbn [last_index]; [discriminate|]. intros i.
  destruct (last_index p l) as [k|] eqn:E.
  - intros H. injection H as <-. destruct (IH k eq_refl) as [A1 A2]. split; [exact A1|]. intros [|j] y L HJ; [lia|]. apply (A2 j y); [lia|exact HJ].
  - destruct (p x) eqn:EP; [|discriminate]. intros H. injection H as <-. split; [exists x; auto|].
    intros [|j] y L HJ; [lia|]. apply (HN l E y). cbn [nth_error] in HJ. apply nth_error_In in HJ. exact HJ.
Qed.

Lemma first_with_ext {A B} (P : A -> Prop) (R : B -> Prop) (l : list A) (k : list B) i :
  Forall2 (fun a b => P a <-> R b) l k -> first_with P l i <-> first_with R k i.
Proof.
  intros H. revert i. induction H as [|a b l k HAB H IH]; intros i.
  - split; intros [(x & E & _) _]; destruct i; discriminate E.
  - assert (HN : forall {C} (T : C -> Prop) c (m : list C) n, first_with T (c :: m) (S n) <-> ~ T c /\ first_with T m n).
    { intros C T c m n. split.
      - intros [(x & E & TX) HF]. split; [apply (HF 0 c); [lia|reflexivity]|]. split; [exists x; auto|].
        intros j y L HJ. apply (HF (S j) y); [lia|exact HJ].
      - intros [NC [(x & E & TX) HF]]. split; [exists x; auto|]. intros [|j] y L HJ; [injection HJ as <-; exact NC|]. apply (HF j y); [lia|exact HJ]. }
    destruct i as [|i].
    + split; intros [(x & E & PX) _]; injection E as <-; (split; [|intros j y L; lia]); [exists b|exists a]; (split; [reflexivity|]); apply HAB, PX.
    + rewrite !HN, IH, HAB. reflexivity.
Qed.
Lemma first_unique {A} (P : A -> Prop) l i j : first_with P l i -> first_with P l j -> i = j.
Proof.
  intros [(x & EX & PX) HX] [(y & EY & PY) HY]. destruct (Nat.lt_trichotomy i j) as [L|[L|L]]; [|exact L|].
  - elim (HY i x L EX PX).
  - elim (HX j y L EY PY).
Qed.

  (** Names. *)
  Lemma colon_len p l : ~ In ":"%char (list_ascii_of_string p) -> colon_pos (p ++ ":" ++ l) = Some (String.length p).
  Proof.
    induction p as [|c p IH]; cbn; intros H; [reflexivity|]. destruct (Ascii.eqb_spec c ":") as [->|N]; [tauto|].
    cbn in IH. rewrite IH by tauto. reflexivity.
  Qed.
  Lemma take_len p r : str_take (String.length p) (p ++ r) = p.
  Proof. induction p; cbn; [destruct r; reflexivity|]. f_equal. assumption. Qed.
  Lemma drop_len p c r : str_drop (S (String.length p)) (p ++ String c r) = r.
  Proof. induction p as [|d p IH]; [destruct r; reflexivity|]. cbn [String.length append]. exact IH. Qed.
  Lemma colon_no s : ~ In ":"%char (list_ascii_of_string s) -> colon_pos s = None.
  Proof.
    induction s as [|c s IH]; cbn; intros H; [reflexivity|]. destruct (Ascii.eqb_spec c ":") as [->|N]; [tauto|].
    rewrite IH by tauto. reflexivity.
  Qed.
  Lemma assoc_split {V} k (v : V) l : (exists a b, l = (a ++ (k, v) :: b)%list /\ ~ In k (map fst a)) -> assoc k l = Some v.
  Proof.
    intros (a & b & -> & H). induction a as [|[k' v'] a IH]; cbn [app assoc]; [rewrite String.eqb_refl; reflexivity|].
    cbn in H. destruct (String.eqb_spec k k') as [->|N]; [tauto|]. apply IH. tauto.
  Qed.
  Lemma assoc_split_back {V} k (v : V) l : assoc k l = Some v -> exists a b, l = (a ++ (k, v) :: b)%list /\ ~ In k (map fst a).
  Proof.
    induction l as [|[k' v'] l IH]; cbn [assoc]; [discriminate|]. destruct (String.eqb_spec k k') as [->|N].
    - intros E. injection E as ->. exists [], l. auto.
    - intros E. destruct (IH E) as (a & b & -> & H). exists ((k', v') :: a)%list, b. split; [reflexivity|]. cbn. intros [X|X]; [congruence|tauto].
  Qed.

  Lemma expanded_read scope s ns l : expanded scope s ns l ->
    resolve scope s = ns /\ forall n, q_local (QName s (colon_pos s) n) = l.
  Proof.
    intros [p l' ns' HP HS|l' ns' HL HS|l' HL HS]; unfold resolve, q_local; cbn [q_index q_raw].
    - rewrite (split_colon_app p l' HP), (colon_len p l' HP). split; [apply assoc_split, HS|]. intros _. apply (drop_len p ":" l').
    - rewrite (split_colon_none l' HL), (colon_no l' HL). split; [apply assoc_split, HS|reflexivity].
    - rewrite (split_colon_none l' HL), (colon_no l' HL). split; [apply assoc_none, HS|reflexivity].
  Qed.
  Lemma expanded_constant scope s ns l : In ":"%char (list_ascii_of_string s) -> expanded scope s ns l ->
    exists n, ns = Some n /\ qname_constant scope s = QName s (colon_pos s) (Some n).
  Proof.
    intros HC H. revert HC. destruct H as [p l' ns' HP HS|l' ns' HL HS|l' HL HS]; intros HC; [|elim (HL HC)|elim (HL HC)].
    exists ns'. split; [reflexivity|]. unfold qname_constant, qname_from_bytes, q_prefix. cbn [q_index q_raw].
    rewrite (colon_len p l' HP), take_len, (assoc_split _ _ _ HS). reflexivity.
  Qed.
  Lemma expanded_unique scope s ns1 l1 ns2 l2 : expanded scope s ns1 l1 -> expanded scope s ns2 l2 -> ns1 = ns2 /\ l1 = l2.
  Proof.
    intros H1 H2. apply expanded_read in H1 as [R1 L1], H2 as [R2 L2]. rewrite <- R1, <- R2, <- (L1 None), <- (L2 None). auto.
  Qed.


Section AdvEnumProofs.
  Variable F : Type.
  Variable fparse : string -> option F.
  Variable feqb : F -> F -> bool.
  Variable ffinite : F -> bool.
  Variable fprint : F -> string.
  Variable utf8_ok : string -> bool.
  Notation generate := (generate F fparse ffinite).
  Notation variant_value := (variant_value F fparse ffinite).
  Notation read := (read F fparse feqb).
  Notation write := (write F fprint utf8_ok).

  Lemma generate_all advanced constants m vs : forall l, generate advanced constants m vs = Ok l ->
    Forall2 (fun v e => fst e = v /\ variant_value advanced m v = Ok (snd e) /\ (constants = true -> render_constant F (snd e) = true)) vs l.
  Proof.
    induction vs as [|v vs IH]; intros l; cbn [AdvEnumModel.generate]; [intros E; injection E as <-; constructor|].
    destruct (variant_value advanced m v) as [x| |] eqn:E; [|discriminate|discriminate].
    destruct (constants && negb (render_constant F x))%bool eqn:EC; [discriminate|].
    destruct (generate advanced constants m vs) as [l'| |]; [|discriminate|discriminate]. intros H. injection H as <-.
    constructor; [|apply IH; reflexivity]. cbn. split; [reflexivity|]. split; [exact E|]. intros ->. cbn in EC. destruct (render_constant F x); [reflexivity|discriminate].
  Qed.

  (** What is generated for the bases. *)
  Lemma value_text m advanced v x : advanced = false \/ simple_base m = None \/ simple_base m = Some TStr -> variant_value advanced m v = Ok x ->
    x = VNone \/ x = VLiteral (CBytes (v_name v)).
  Proof.
    unfold AdvEnumModel.variant_value. intros [->|[-> | ->]].
    - intros H. injection H as <-. auto.
    - destruct advanced; intros H; injection H as <-; auto.
    - destruct advanced; cbn; intros H; injection H as <-; auto.
  Qed.

  Lemma read_text advanced constants m scope vs l s i : advanced = false \/ simple_base m = None \/ simple_base m = Some TStr ->
    generate advanced constants m vs = Ok l ->
    (read advanced scope m l s = RVariant i <-> first_with (fun v => v_other v = false /\ v_name v = s) vs i).
  Proof.
    intros HB HG. apply generate_all in HG.
    assert (HL : Forall2 (fun v e => (v_other v = false /\ v_name v = s) <-> matches_literal F s e = true) vs l).
    { induction HG as [|v e vs l (HE & HV & _) _ IH]; constructor; [|exact IH]. subst v. destruct (value_text _ _ _ _ HB HV) as [E|E];
        unfold matches_literal; rewrite E, Bool.andb_true_iff, Bool.negb_true_iff, String.eqb_eq; reflexivity. }
    assert (HC : forall x, first_index (matches_constant F feqb x) l = None).
    { intros x. apply first_index_none. intros e HE. clear HL. induction HG as [|v e' vs l (HE' & HV & _) _ IH]; [destruct HE|].
      destruct HE as [<-|HE]; [|apply IH, HE]. subst v. unfold matches_constant. destruct (value_text _ _ _ _ HB HV) as [->| ->]; reflexivity. }
    rewrite (first_with_ext _ _ _ _ _ HL), <- first_index_some. unfold AdvEnumModel.read.
    destruct (first_index (matches_literal F s) l) as [k|]; [split; intros E; injection E as <-; reflexivity|].
    assert (HX : match (if advanced then simple_base m else None) with
              | Some b => match read_base F fparse scope b s with Some x => first_index (matches_constant F feqb x) l | None => None end
              | None => None end = None).
    { destruct (if advanced then simple_base m else None) as [b|]; [|reflexivity]. destruct (read_base F fparse scope b s); [apply HC|reflexivity]. }
    rewrite HX. destruct (last_index _ l); split; discriminate.
  Qed.

  (** Values that are constants. *)
  Lemma read_constants b m scope constants vs l s i (P : variant -> Prop) :
    simple_base m = Some b -> generate true constants m vs = Ok l -> (forall v, In v vs -> v_other v = false) ->
    (forall v, In v vs -> exists c, variant_value true m v = Ok (VConstant c) /\
       ((exists x, read_base F fparse scope b s = Some x /\ code_eqb F feqb x c = true) <-> P v)) ->
    (read true scope m l s = RVariant i <-> first_with P vs i).
  Proof.
    intros HB HG HO HP. apply generate_all in HG. unfold AdvEnumModel.read. rewrite HB.
    assert (HN : first_index (matches_literal F s) l = None).
    { apply first_index_none. intros e HE. clear HO. induction HG as [|v e' vs l (HE' & HV & _) _ IH]; [destruct HE|].
      destruct HE as [<-|HE].
      - subst v. destruct (HP (fst e') (or_introl eq_refl)) as (c & HV' & _). rewrite HV in HV'. injection HV' as HV'. unfold matches_literal. rewrite HV'. apply Bool.andb_false_r.
      - apply IH; [|exact HE]. intros v' H. apply HP. right. exact H. }
    assert (HL : last_index (fun e : variant * vvalue F => v_other (fst e)) l = None).
    { clear HN HP. induction HG as [|v e vs l (HE & _) _ IH]; [reflexivity|]. cbn [last_index]. subst v.
      rewrite IH by (intros v H; apply HO; right; exact H). rewrite (HO (fst e)); [reflexivity|left; reflexivity]. }
    rewrite HN, HL.
    assert (HF : Forall2 (fun v e => P v <-> (exists x, read_base F fparse scope b s = Some x /\ matches_constant F feqb x e = true)) vs l).
    { clear HO HN HL. induction HG as [|v e vs l (HE & HV & _) _ IH]; constructor.
      - subst v. destruct (HP (fst e) (or_introl eq_refl)) as (c & HV' & HI). rewrite HV in HV'. injection HV' as HV'. rewrite <- HI. unfold matches_constant. rewrite HV'. reflexivity.
      - apply IH. intros v' H. apply HP. right. exact H. }
    rewrite (first_with_ext _ _ _ _ _ HF).
    destruct (read_base F fparse scope b s) as [x|].
    - assert (HX : Forall2 (fun e e' => (exists x', Some x = Some x' /\ matches_constant F feqb x' e = true) <-> matches_constant F feqb x e' = true) l l).
      { clear. induction l as [|e l IH]; constructor; [|exact IH]. split; [intros (x' & E & H); injection E as <-; exact H|intros H; exists x; auto]. }
      rewrite (first_with_ext _ _ _ _ _ HX), <- first_index_some.
      destruct (first_index (matches_constant F feqb x) l) as [k|]; [split; intros E; [injection E as ->; reflexivity|injection E as ->; reflexivity]|split; discriminate].
    - split; [discriminate|]. intros [(e & _ & x & E & _) _]. discriminate E.
  Qed.

  Lemma read_float constants m scope vs l s i :
    simple_base m = Some TFloat -> generate true constants m vs = Ok l ->
    (forall v, In v vs -> v_other v = false /\ exists f, fparse (v_name v) = Some f) ->
    (read true scope m l s = RVariant i <->
     first_with (fun v => exists f f', fparse s = Some f /\ fparse (v_name v) = Some f' /\ feqb f f' = true) vs i).
  Proof.
    intros HB HG HO. apply (read_constants TFloat m scope constants vs l s i); [exact HB|exact HG|intros v H; apply HO, H|].
    intros v H. destruct (HO v H) as (_ & f & HF).
    assert (HV : variant_value true m v = Ok (VConstant (CFloat f))).
    { apply generate_all in HG. assert (HX : exists e, variant_value true m v = Ok e).
      { clear HO HB HF. induction HG as [|v' e vs l (HE & HV & _) _ IH]; [destruct H|]. destruct H as [->|H]; eauto. }
      destruct HX as (e & HX). rewrite HX. unfold AdvEnumModel.variant_value in HX. rewrite HB in HX. cbn in HX. rewrite HF in HX.
      destruct (ffinite f); [|discriminate]. injection HX as <-. reflexivity. }
    exists (CFloat f). split; [exact HV|]. cbn [read_base]. split.
    - intros (x & E & HE). destruct (fparse s) as [f0|]; [|discriminate]. injection E as <-. exists f0, f. auto.
    - intros (f0 & f' & HS & HF' & HE). rewrite HF in HF'. injection HF' as <-. rewrite HS. exists (CFloat f0). auto.
  Qed.

  Lemma read_qname constants m scope vs l s i n0 l0 :
    simple_base m = Some TQName -> generate true constants m vs = Ok l ->
    (forall v, In v vs -> v_other v = false /\ In ":"%char (list_ascii_of_string (v_name v)) /\ exists ns l, expanded (v_ns v) (v_name v) ns l) ->
    expanded scope s (Some n0) l0 ->
    (read true scope m l s = RVariant i <-> first_with (fun v => same_name scope s (v_ns v) (v_name v)) vs i).
  Proof.
    intros HB HG HO HS. apply (read_constants TQName m scope constants vs l s i); [exact HB|exact HG|intros v H; apply HO, H|].
    intros v H. destruct (HO v H) as (_ & HC & ns & lo & HE). destruct (expanded_constant _ _ _ _ HC HE) as (n & -> & HQ).
    exists (CQName (QName (v_name v) (colon_pos (v_name v)) (Some n))). split.
    - unfold AdvEnumModel.variant_value. rewrite HB. cbn [make]. rewrite HQ. reflexivity.
    - cbn [read_base]. destruct (expanded_read _ _ _ _ HS) as [HR HL0]. destruct (expanded_read _ _ _ _ HE) as [_ HL1].
      assert (HX : code_eqb F feqb (CQName (qname_from_helper (resolve scope) s)) (CQName (QName (v_name v) (colon_pos (v_name v)) (Some n))) =
                   (String.eqb n0 n && String.eqb l0 lo)%bool).
      { cbn [code_eqb]. unfold qname_eq, qname_from_helper. rewrite HR. cbn [q_ns]. rewrite HL0, HL1. reflexivity. }
      split.
      + intros (x & E & HQE). injection E as <-. rewrite HX in HQE. apply andb_prop in HQE as [E1 E2]. apply String.eqb_eq in E1, E2. subst n0 l0.
        exists (Some n), lo. auto.
      + intros (ns' & l' & E1 & E2). destruct (expanded_unique _ _ _ _ _ _ E1 HS) as [-> ->]. destruct (expanded_unique _ _ _ _ _ _ E2 HE) as [E3 ->].
        injection E3 as ->. eexists. split; [reflexivity|]. rewrite HX, !String.eqb_refl. reflexivity.
  Qed.

  (** ** No panic, and code that compiles *)

  Lemma make_ok ns b s k : (forall f, fparse s = Some f -> ffinite f = true) -> make F fparse ffinite ns b s k <> Panic.
  Proof.
    intros HF. induction b as [| |g bits| | | | |b IH| |b IH|]; cbn [make]; try discriminate.
    - destruct (int_from_str _ _ s); discriminate.
    - destruct k; [discriminate|]. destruct (fparse s) as [f|]; [|discriminate]. rewrite (HF f eq_refl). discriminate.
    - destruct k; [discriminate|]. destruct (existsb _ _); [discriminate|]. destruct (existsb _ _); discriminate.
    - destruct k; discriminate.
    - destruct (make F fparse ffinite ns b s k); [discriminate|discriminate|congruence].
    - exact IH.
  Qed.
  Lemma make_bytes ns b s : forall t, make F fparse ffinite ns b s Literal = Ok (CBytes t) -> t = s.
  Proof.
    induction b as [| |g bits| | | | |b IH| |b IH|]; cbn [make]; intros t; try discriminate.
    - intros E. injection E as <-. reflexivity.
    - destruct (int_from_str _ _ s); [intros E; injection E as <-; reflexivity|discriminate].
    - destruct (make F fparse ffinite ns b s Literal); discriminate.
    - apply IH.
  Qed.
  Lemma generate_no_panic advanced constants m vs :
    (forall v, In v vs -> is_ascii (v_name v) /\ forall f, fparse (v_name v) = Some f -> ffinite f = true) ->
    exists l, generate advanced constants m vs = Ok l.
  Proof.
    induction vs as [|v vs IH]; intros H; cbn [AdvEnumModel.generate]; [eexists; reflexivity|].
    destruct (H v (or_introl eq_refl)) as [HA HF]. destruct IH as (l & ->); [intros w HW; apply H; right; exact HW|].
    assert (HV : exists x, variant_value advanced m v = Ok x /\ render_constant F x = true).
    { unfold AdvEnumModel.variant_value. destruct (if advanced then simple_base m else None) as [b|]; [|exists VNone; auto].
      pose proof (make_ok (v_ns v) b (v_name v) Literal HF) as H1. pose proof (make_ok (v_ns v) b (v_name v) Constant HF) as H2.
      pose proof (make_bytes (v_ns v) b (v_name v)) as H3.
      destruct (make F fparse ffinite (v_ns v) b (v_name v) Literal) as [c| |]; [| |congruence].
      - exists (VLiteral c). split; [reflexivity|]. destruct c as [t| | | | | |]; try reflexivity. rewrite (H3 t eq_refl). cbn [render_constant].
        rewrite (proj2 (str_constant_spec (v_name v) (v_name v)) (conj HA eq_refl)). reflexivity.
      - destruct (make F fparse ffinite (v_ns v) b (v_name v) Constant) as [c| |]; [exists (VConstant c)|exists VNone|congruence]; auto. }
    destruct HV as (x & -> & ->). rewrite Bool.andb_false_r. eexists. reflexivity.
  Qed.

  Lemma constant_text advanced m vs l v t : generate advanced true m vs = Ok l -> In (v, VLiteral (CBytes t)) l -> str_constant t = Some (v_name v).
  Proof.
    intros HG HI. apply generate_all in HG. induction HG as [|v' e vs l (HE & HV & HC) _ IH]; [destruct HI|].
    destruct HI as [->|HI]; [|apply IH, HI]. cbn [fst snd render_constant] in HE, HV, HC. subst v'. specialize (HC eq_refl).
    assert (HT : t = v_name v).
    { unfold AdvEnumModel.variant_value in HV. destruct (if advanced then simple_base m else None) as [b|]; [|discriminate].
      pose proof (make_bytes (v_ns v) b (v_name v)) as H3.
      destruct (make F fparse ffinite (v_ns v) b (v_name v) Literal) as [c| |]; [injection HV as ->; auto| |discriminate].
      destruct (make F fparse ffinite (v_ns v) b (v_name v) Constant); discriminate. }
    subst t. destruct (str_constant (v_name v)) as [u|] eqn:E; [|discriminate]. apply str_constant_spec in E as [_ ->]. reflexivity.
  Qed.

  Lemma make_not_wrap ns b s k c : (forall b', b <> TSimple b') -> (forall b', b <> TRef b') -> make F fparse ffinite ns b s k = Ok c ->
    match k with Literal => exists t, c = CBytes t | Constant => forall c', c <> CWrap c' end.
  Proof.
    intros HS HR. destruct b; cbn [make]; try discriminate; try (elim (HS b); reflexivity); try (elim (HR b); reflexivity).
    - destruct k; intros E; injection E as <-; [eauto|discriminate].
    - destruct (int_from_str _ _ s); [|discriminate]. destruct k; intros E; injection E as <-; [eauto|discriminate].
    - destruct k; [discriminate|]. destruct (fparse s) as [f|]; [|discriminate]. destruct (ffinite f); [|discriminate]. intros E; injection E as <-; discriminate.
    - destruct k; [discriminate|]. destruct (existsb _ _); [intros E; injection E as <-; discriminate|]. destruct (existsb _ _); [intros E; injection E as <-; discriminate|discriminate].
    - destruct k; [discriminate|]. intros E; injection E as <-; discriminate.
  Qed.
  Lemma base_not_ref : forall m b, simple_base m = Some b -> forall b', b <> TRef b'.
  Proof.
    fix IH 1. intros m b. destruct m as [| |g bits| | | | |m|[m|]|m|]; cbn [simple_base]; intros E b'; try discriminate E; try (injection E as <-; discriminate).
    exact (IH m b E b').
  Qed.
  Lemma generated_compiles advanced m vs l pe : generate advanced true m vs = Ok l -> (forall v, In v vs -> v_other v = false) ->
    (forall b, simple_base m <> Some (TSimple b)) -> compiles true pe l = true.
  Proof.
    intros HG HO HS. apply generate_all in HG. apply forallb_forall. induction HG as [|v e vs l (HE & HV & _) _ IH]; [intros x []|].
    intros x [<-|HX]; [|apply IH; [intros w HW; apply HO; right; exact HW|exact HX]].
    subst v. rewrite (HO (fst e) (or_introl eq_refl)). unfold AdvEnumModel.variant_value in HV.
    destruct advanced; [|injection HV as <-; reflexivity]. destruct (simple_base m) as [b|] eqn:EB; [|injection HV as <-; reflexivity].
    pose proof (base_not_ref m b EB) as HR. assert (HS' : forall b', b <> TSimple b') by (intros b' ->; exact (HS b' eq_refl)).
    pose proof (make_not_wrap (v_ns (fst e)) b (v_name (fst e)) Literal) as H1. pose proof (make_not_wrap (v_ns (fst e)) b (v_name (fst e)) Constant) as H2.
    destruct (make F fparse ffinite (v_ns (fst e)) b (v_name (fst e)) Literal) as [c| |]; [| |discriminate].
    - injection HV as <-. destruct (H1 c HS' HR eq_refl) as (t & ->). reflexivity.
    - destruct (make F fparse ffinite (v_ns (fst e)) b (v_name (fst e)) Constant) as [c| |]; [|injection HV as <-; reflexivity|discriminate].
      injection HV as <-. specialize (H2 c HS' HR eq_refl). cbn in H2. destruct c; try reflexivity. elim (H2 c eq_refl).
  Qed.

  (** ** Writing *)

  Lemma nth_forall2 {A B} (R : A -> B -> Prop) l k : Forall2 R l k -> forall i b, nth_error k i = Some b -> exists a, nth_error l i = Some a /\ R a b.
  Proof.
    induction 1 as [|a b l k H _ IH]; intros [|i] c E; try discriminate E.
    - injection E as <-. exists a. auto.
    - apply IH, E.
  Qed.

  Lemma written_text advanced constants m scope vs l h i e pe : advanced = false \/ simple_base m = None \/ simple_base m = Some TStr ->
    generate advanced constants m vs = Ok l -> compiles constants pe l = true -> NoDup (map v_name vs) ->
    nth_error l i = Some e -> v_other (fst e) = false ->
    exists t, write h e = Some (Ok t) /\ t = v_name (fst e) /\ read advanced scope m l t = RVariant i.
  Proof.
    intros HB HG HK HD HE HO. exists (v_name (fst e)).
    destruct (nth_forall2 _ _ _ (generate_all _ _ _ _ _ HG) i e HE) as (v & HN & HV1 & HV2 & HV3). subst v.
    split; [|split; [reflexivity|]].
    - unfold AdvEnumModel.write. rewrite HO. destruct (value_text _ _ _ _ HB HV2) as [EX|EX]; rewrite EX; [reflexivity|].
      unfold compiles in HK. rewrite forallb_forall in HK. specialize (HK e (nth_error_In _ _ HE)). rewrite EX in HK. subst constants.
      specialize (HV3 eq_refl). rewrite EX in HV3. cbn [render_constant] in HV3. destruct (str_constant (v_name (fst e))) as [u|] eqn:EU; [|discriminate].
      apply str_constant_spec in EU as [_ ->]. reflexivity.
    - apply (read_text advanced constants m scope vs l _ i HB HG). split; [exists (fst e); auto|].
      intros j y L HJ [_ HY]. apply (NoDup_nth_error (map v_name vs)) with (i := j) (j := i) in HD; [lia| |].
      + rewrite map_length. apply nth_error_Some. congruence.
      + rewrite !nth_error_map, HJ, HN. cbn. congruence.
  Qed.

  Lemma written_float constants m scope vs l h i e :
    (forall f, ffinite f = true -> feqb f f = true /\ fparse (fprint f) = Some f) ->
    simple_base m = Some TFloat -> generate true constants m vs = Ok l ->
    (forall v, In v vs -> v_other v = false /\ exists f, fparse (v_name v) = Some f) ->
    (forall j k v w f g, nth_error vs j = Some v -> nth_error vs k = Some w -> fparse (v_name v) = Some f -> fparse (v_name w) = Some g -> feqb f g = true -> j = k) ->
    nth_error l i = Some e ->
    exists t, write h e = Some (Ok t) /\ read true scope m l t = RVariant i.
  Proof.
    intros HP HB HG HO HD HE.
    destruct (nth_forall2 _ _ _ (generate_all _ _ _ _ _ HG) i e HE) as (v & HN & HV1 & HV2 & _). subst v.
    destruct (HO (fst e) (nth_error_In _ _ HN)) as (HO' & f & HF).
    unfold AdvEnumModel.variant_value in HV2. rewrite HB in HV2. cbn in HV2. rewrite HF in HV2. destruct (ffinite f) eqn:EF; [|discriminate]. injection HV2 as HV2.
    destruct (HP f EF) as [HR HPP].
    exists (fprint f). split; [unfold AdvEnumModel.write; rewrite HO', <- HV2; reflexivity|].
    apply (read_float constants m scope vs l _ i HB HG HO). split.
    - exists (fst e). split; [exact HN|]. exists f, f. auto.
    - intros j y L HJ (f1 & f2 & E1 & E2 & E3). rewrite HPP in E1. injection E1 as <-.
      assert (i = j) by (eapply HD; eassumption). lia.
  Qed.

  Lemma written_qname constants m scope vs l h i e n lo :
    simple_base m = Some TQName -> generate true constants m vs = Ok l ->
    (forall v, In v vs -> v_other v = false /\ In ":"%char (list_ascii_of_string (v_name v)) /\ exists ns l, expanded (v_ns v) (v_name v) ns l) ->
    (forall j k v w, nth_error vs j = Some v -> nth_error vs k = Some w -> same_name (v_ns v) (v_name v) (v_ns w) (v_name w) -> j = k) ->
    (forall d, In d (h_ns h) -> assoc (match ne_prefix d with Some p => p | None => "" end) scope = Some (ne_ns d) /\
       forall p, ne_prefix d = Some p -> printable_ascii p /\ no_colon p) ->
    nth_error l i = Some e -> expanded (v_ns (fst e)) (v_name (fst e)) (Some n) lo -> no_colon lo -> utf8_ok lo = true -> (exists d, In d (h_ns h) /\ ne_ns d = n) ->
    exists t, write h e = Some (Ok t) /\ expanded scope t (Some n) lo /\ read true scope m l t = RVariant i.
  Proof.
    intros HB HG HO HD HH HE HX HC HU HI.
    destruct (nth_forall2 _ _ _ (generate_all _ _ _ _ _ HG) i e HE) as (v & HN & HV1 & HV2 & _). subst v.
    destruct (HO (fst e) (nth_error_In _ _ HN)) as (HO' & HC' & _).
    destruct (expanded_constant _ _ _ _ HC' HX) as (n' & E' & HQ). injection E' as <-.
    unfold AdvEnumModel.variant_value in HV2. rewrite HB in HV2. cbn [make] in HV2. rewrite HQ in HV2. injection HV2 as HV2.
    destruct (expanded_read _ _ _ _ HX) as [_ HL].
    assert (HFN : exists d, find_ns n (h_ns h) = Some d /\ In d (h_ns h) /\ ne_ns d = n).
    { destruct HI as (d & HI & HI'). clear -HI HI'. induction (h_ns h) as [|d' k IH]; [destruct HI|]. cbn [find_ns].
      destruct (String.eqb_spec (ne_ns d') n) as [E|E]; [exists d'; split; [reflexivity|]; split; [left; reflexivity|exact E]|].
      destruct HI as [->|HI]; [contradiction|]. destruct (IH HI) as (d'' & A & B & C). exists d''. split; [exact A|]. split; [right; exact B|exact C]. }
    destruct HFN as (d & HF & HDI & HDN). destruct (HH d HDI) as [HA HPp]. rewrite HDN in HA.
    exists (match ne_prefix d with Some p => p ++ ":" ++ lo | None => lo end).
    assert (HEX : expanded scope (match ne_prefix d with Some p => p ++ ":" ++ lo | None => lo end) (Some n) lo).
    { destruct (ne_prefix d) as [p|]; [apply Exp_prefix; [apply (HPp p eq_refl)|apply assoc_split_back, HA]|apply Exp_default; [exact HC|apply assoc_split_back, HA]]. }
    split; [|split; [exact HEX|]].
    - unfold AdvEnumModel.write. rewrite HO', <- HV2. cbn [write_code]. unfold qname_serialize, get_namespace_prefix. cbn [q_ns]. rewrite HF, HL, HU.
      destruct (ne_prefix d) as [p|]; [|reflexivity]. rewrite (format_printable p) by apply (HPp p eq_refl). reflexivity.
    - apply (read_qname constants m scope vs l _ i n lo HB HG HO HEX). split.
      + exists (fst e). split; [exact HN|]. exists (Some n), lo. auto.
      + intros j y L HJ (ns' & l' & E1 & E2). destruct (expanded_unique _ _ _ _ _ _ E1 HEX) as [-> ->].
        assert (j = i); [|lia]. eapply HD; [exact HJ|exact HN|]. exists (Some n), lo. auto.
  Qed.
End AdvEnumProofs.

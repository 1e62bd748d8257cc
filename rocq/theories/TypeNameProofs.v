From Coq Require Import List String Ascii Arith Bool Lia.
From Verif Require Import BoxModel NsConstModel TypeNameModel TypeNameSpec.
Import ListNotations.
Local Open Scope string_scope.

(** * Characters *)
Ltac byte_cases c :=
  destruct c as [[] [] [] [] [] [] [] []]; vm_compute; try reflexivity; try discriminate; auto.

Lemma upper_alnum : forall c, is_upper c = true -> is_alnum c = true.
Proof. intros c. unfold is_alnum. intros ->. rewrite orb_true_r. reflexivity. Qed.
Lemma lower_alnum : forall c, is_lower c = true -> is_alnum c = true.
Proof. intros c. unfold is_alnum. intros ->. reflexivity. Qed.
Lemma digit_alnum : forall c, is_digit c = true -> is_alnum c = true.
Proof. intros c. unfold is_alnum. intros ->. rewrite !orb_true_r. reflexivity. Qed.
Lemma upper_facts : forall c, is_upper c = true ->
  is_lower c = false /\ is_digit c = false /\ to_upper c = c.
Proof. intros c. byte_cases c. Qed.
Lemma lower_facts : forall c, is_lower c = true ->
  is_upper (to_upper c) = true /\ is_digit (to_upper c) = false /\ is_lower (to_upper c) = false /\
  is_alnum (to_upper c) = true /\ to_lower (to_upper c) = c.
Proof. intros c. byte_cases c. Qed.
Lemma digit_facts : forall c, is_digit c = true -> is_lower c = false /\ is_upper c = false /\ to_upper c = c.
Proof. intros c. byte_cases c. Qed.
Lemma to_upper_alnum : forall c, is_alnum c = true -> is_alnum (to_upper c) = true.
Proof. intros c. byte_cases c. Qed.
Lemma alnum_not_underscore : forall c, is_alnum c = true -> Ascii.eqb c "_" = false.
Proof. intros c. byte_cases c. Qed.
Lemma replace_ident : forall c, ident_char c = true -> replace_other c = c.
Proof. intros c. byte_cases c. Qed.
Lemma replace_alnum : forall c, is_alnum c = true -> replace_other c = c.
Proof. intros c H. unfold replace_other. rewrite H. reflexivity. Qed.

(** * Strings *)
Lemma append_nil : forall s : string, s ++ "" = s.
Proof. induction s as [|c s IH]; cbn; congruence. Qed.
Lemma append_assoc : forall a b c : string, (a ++ b) ++ c = a ++ (b ++ c).
Proof. induction a as [|x a IH]; intros b c; cbn; [reflexivity|]. rewrite IH. reflexivity. Qed.
Lemma append_length : forall a b, String.length (a ++ b) = String.length a + String.length b.
Proof. induction a as [|x a IH]; intros b; cbn; [reflexivity|]. rewrite IH. reflexivity. Qed.
Lemma append_head : forall a b c, a ++ b = a ++ c -> b = c.
Proof. induction a as [|x a IH]; intros b c H; cbn in H; [exact H|]. injection H as H. exact (IH _ _ H). Qed.
Lemma append_split : forall a b c d, a ++ b = c ++ d ->
  (exists x, a = c ++ x /\ d = x ++ b) \/ (exists x, c = a ++ x /\ b = x ++ d).
Proof.
  induction a as [|x a IH]; intros b c d H.
  - right. exists c. split; [reflexivity|exact H].
  - destruct c as [|y c].
    + left. exists (String x a). split; [reflexivity|]. symmetry. exact H.
    + cbn in H. injection H as -> H. destruct (IH _ _ _ H) as [(z & -> & ->)|(z & -> & ->)].
      * left. exists z. split; reflexivity.
      * right. exists z. split; reflexivity.
Qed.
Lemma append_cancel : forall a b c, a ++ c = b ++ c -> a = b.
Proof.
  intros a b c H. destruct (append_split _ _ _ _ H) as [(x & -> & E)|(x & -> & E)].
  - assert (L : String.length c = String.length (x ++ c)) by congruence. rewrite append_length in L.
    destruct x as [|y x]; [apply append_nil|cbn in L; lia].
  - assert (L : String.length c = String.length (x ++ c)) by congruence. rewrite append_length in L.
    destruct x as [|y x]; [symmetry; apply append_nil|cbn in L; lia].
Qed.
Lemma ends_with_iff : forall p s, ends_with p s = true <-> exists r, s = r ++ p.
Proof.
  intros p s. induction s as [|c s IH]; cbn [ends_with].
  - rewrite orb_false_r. rewrite String.eqb_eq. split.
    + intros ->. exists "". reflexivity.
    + intros [r E]. destruct r; [exact E|discriminate E].
  - rewrite orb_true_iff, IH, String.eqb_eq. split.
    + intros [->|[r ->]]; [exists ""|exists (String c r)]; reflexivity.
    + intros [r E]. destruct r as [|d r].
      * left. exact E.
      * right. cbn in E. injection E as -> ->. exists r. reflexivity.
Qed.
Lemma all_chars_app : forall p a b, all_chars p (a ++ b) = all_chars p a && all_chars p b.
Proof. intros p a b. induction a as [|c a IH]; cbn; [reflexivity|]. rewrite IH, andb_assoc. reflexivity. Qed.
Lemma all_chars_imp : forall (p q : ascii -> bool) s, (forall c, p c = true -> q c = true) ->
  all_chars p s = true -> all_chars q s = true.
Proof.
  intros p q s H. induction s as [|c s IH]; cbn; [reflexivity|].
  intros E. apply andb_true_iff in E as [E1 E2]. rewrite (H _ E1), (IH E2). reflexivity.
Qed.
Lemma map_chars_id : forall f s, all_chars (fun c => Ascii.eqb (f c) c) s = true -> map_chars f s = s.
Proof.
  intros f s. induction s as [|c s IH]; cbn; [reflexivity|].
  intros E. apply andb_true_iff in E as [E1 E2]. apply Ascii.eqb_eq in E1. rewrite E1, (IH E2). reflexivity.
Qed.

(** * Names in pascal case are kept *)
Lemma pascal_alnum : forall s p, pascal_words p s = true -> all_chars is_alnum s = true.
Proof.
  induction s as [|c s IH]; intros p H; [reflexivity|]. cbn in *.
  destruct p.
  - apply andb_true_iff in H as [H1 H2]. rewrite (upper_alnum _ H1), (IH _ H2). reflexivity.
  - apply andb_true_iff in H as [H1 H2]. rewrite (lower_alnum _ H1), (IH _ H2). reflexivity.
  - destruct (is_lower c) eqn:L; [rewrite (lower_alnum _ L), (IH _ H); reflexivity|].
    destruct (is_digit c) eqn:D; [rewrite (digit_alnum _ D), (IH _ H); reflexivity|].
    apply andb_true_iff in H as [H1 H2]. rewrite (upper_alnum _ H1), (IH _ H2). reflexivity.
  - destruct (is_digit c) eqn:D; [rewrite (digit_alnum _ D), (IH _ H); reflexivity|].
    apply andb_true_iff in H as [H1 H2]. rewrite (upper_alnum _ H1), (IH _ H2). reflexivity.
Qed.

Lemma trim_kept : forall s, all_chars is_alnum s = true -> trim_right s = s.
Proof.
  induction s as [|c s IH]; intros H; [reflexivity|]. cbn in H. apply andb_true_iff in H as [H1 H2].
  cbn. rewrite (IH H2). destruct s; [rewrite H1|]; reflexivity.
Qed.
Lemma trim_cons : forall c s, is_alnum c = true -> trim_right s = s -> trim_right (String c s) = String c s.
Proof. intros c s H E. cbn. rewrite E. destruct s; [rewrite H|]; reflexivity. Qed.
Lemma trim_cons2 : forall d c s, trim_right (String c s) = String c s ->
  trim_right (String d (String c s)) = String d (String c s).
Proof. intros d c s E. change (trim_right (String d (String c s))) with
  (match trim_right (String c s) with
   | EmptyString => if is_alnum d then String d EmptyString else EmptyString
   | t => String d t end). rewrite E. reflexivity. Qed.
Lemma trim_snake : forall s f p, all_chars is_alnum s = true ->
  trim_right (snake_upper f p s) = snake_upper f p s.
Proof.
  induction s as [|c s IH]; intros f p H; [reflexivity|].
  cbn [all_chars] in H. apply andb_true_iff in H as [H1 H2]. cbn [snake_upper]. rewrite H1. cbn [negb].
  assert (K : trim_right (String (to_upper c) (snake_upper false (is_lower c) s)) =
              String (to_upper c) (snake_upper false (is_lower c) s)).
  { apply trim_cons; [apply to_upper_alnum, H1|apply IH, H2]. }
  destruct (negb f && negb (is_lower c) && (next_lower s || p)); [|exact K].
  apply trim_cons2. exact K.
Qed.

(** The state of the two conversions at each place of a name. *)
Definition state_ok (p : place) (first prev_lower new_word found : bool) : Prop :=
  match p with
  | AtStart => first = true /\ new_word = true /\ found = false
  | AfterCapital => first = false /\ prev_lower = false /\ new_word = false /\ found = true
  | InWord => first = false /\ new_word = false /\ found = true
  | InDigits => first = false /\ new_word = true /\ found = true
  end.

Lemma pascal_digit : forall nw f c s, is_digit c = true ->
  pascal_from nw f false (String c s) = String c (pascal_from true true false s).
Proof.
  intros nw f c s D. cbn [pascal_from]. rewrite (digit_alnum _ D), D. cbn. rewrite andb_false_r. reflexivity.
Qed.
Lemma pascal_upper_new : forall f c s, is_upper c = true ->
  pascal_from true f false (String c s) = String c (pascal_from false true false s).
Proof.
  intros f c s U. cbn [pascal_from]. destruct (upper_facts _ U) as (L & D & E).
  rewrite (upper_alnum _ U), D, E. cbn. rewrite andb_false_r. reflexivity.
Qed.
Lemma pascal_upper_old : forall f c s, is_upper c = true ->
  pascal_from false f false (String c s) = String (to_lower c) (pascal_from false true false s).
Proof.
  intros f c s U. cbn [pascal_from]. destruct (upper_facts _ U) as (L & D & E).
  rewrite (upper_alnum _ U), D, L. cbn. rewrite andb_false_r. reflexivity.
Qed.
Lemma pascal_sep : forall nw s, pascal_from nw true false (String "_" s) = pascal_from true true false s.
Proof. reflexivity. Qed.

Lemma conversions : forall s p first prev_lower new_word found,
  state_ok p first prev_lower new_word found -> pascal_words p s = true ->
  pascal_from new_word found false (snake_upper first prev_lower s) = s.
Proof.
  induction s as [|c s IH]; intros p first prev_lower nw found OK H; [reflexivity|].
  cbn [pascal_words] in H. cbn [snake_upper].
  assert (DIG : forall nw, is_digit c = true -> found = true -> pascal_words InDigits s = true ->
            pascal_from nw found false
              (if negb (is_alnum c)
               then if first then snake_upper true false s else String "_" (snake_upper true false s)
               else if negb first && negb (is_lower c) && (next_lower s || prev_lower)
               then String "_" (String (to_upper c) (snake_upper false (is_lower c) s))
               else String (to_upper c) (snake_upper false (is_lower c) s)) = String c s).
  { clear H OK nw. intros nw D -> H. destruct (digit_facts _ D) as (L & U & E). rewrite (digit_alnum _ D), L, E. cbn [negb].
    assert (K : forall nw, pascal_from nw true false (String c (snake_upper false false s)) = String c s).
    { intros nw'. rewrite (pascal_digit _ _ _ _ D). f_equal. apply (IH InDigits); [repeat split|exact H]. }
    destruct (_ && _); [rewrite pascal_sep|]; apply K. }
  assert (CAP : nw = true \/ (negb first && (next_lower s || prev_lower) = true /\ found = true) ->
            is_upper c = true -> (first = true \/ found = true) -> pascal_words AfterCapital s = true ->
            pascal_from nw found false
              (if negb (is_alnum c)
               then if first then snake_upper true false s else String "_" (snake_upper true false s)
               else if negb first && negb (is_lower c) && (next_lower s || prev_lower)
               then String "_" (String (to_upper c) (snake_upper false (is_lower c) s))
               else String (to_upper c) (snake_upper false (is_lower c) s)) = String c s).
  { clear H OK. intros N U F H. destruct (upper_facts _ U) as (L & D & E). rewrite (upper_alnum _ U), L, E. cbn [negb].
    rewrite andb_true_r.
    assert (K : forall f, pascal_from true f false (String c (snake_upper false false s)) = String c s).
    { intros f. rewrite (pascal_upper_new _ _ _ U). f_equal. apply (IH AfterCapital); [repeat split|exact H]. }
    destruct (negb first && (next_lower s || prev_lower)) eqn:B.
    - destruct F as [->| ->]; [discriminate B|]. rewrite pascal_sep. apply K.
    - destruct N as [->|[N _]]; [apply K|discriminate N]. }
  assert (LOW : is_lower c = true -> nw = false -> pascal_words InWord s = true ->
            pascal_from nw found false
              (if negb (is_alnum c)
               then if first then snake_upper true false s else String "_" (snake_upper true false s)
               else if negb first && negb (is_lower c) && (next_lower s || prev_lower)
               then String "_" (String (to_upper c) (snake_upper false (is_lower c) s))
               else String (to_upper c) (snake_upper false (is_lower c) s)) = String c s).
  { clear H OK. intros L -> H. destruct (lower_facts _ L) as (U & D & L' & A & E). rewrite (lower_alnum _ L), L. cbn [negb].
    rewrite andb_false_r. cbn [andb]. rewrite (pascal_upper_old _ _ _ U), E. f_equal.
    apply (IH InWord); [repeat split|exact H]. }
  destruct p; cbn in OK.
  - destruct OK as (-> & -> & ->). apply andb_true_iff in H as [U H]. apply CAP; auto.
  - destruct OK as (-> & -> & -> & ->). apply andb_true_iff in H as [L H]. apply LOW; auto.
  - destruct OK as (-> & -> & ->).
    destruct (is_lower c) eqn:L; [apply LOW; auto|].
    destruct (is_digit c) eqn:D; [apply DIG; auto|].
    apply andb_true_iff in H as [U H]. apply CAP; auto. right.
    destruct s as [|d s]; [discriminate H|]. cbn [pascal_words] in H. apply andb_true_iff in H as [L' _].
    cbn. rewrite L'. auto.
  - destruct OK as (-> & -> & ->).
    destruct (is_digit c) eqn:D; [apply DIG; auto|].
    apply andb_true_iff in H as [U H]. apply CAP; auto.
Qed.

Lemma unify_kept : forall s, pascal_case s -> unify_string s = s.
Proof.
  intros s H. pose proof (pascal_alnum _ _ H) as A. unfold unify_string.
  rewrite map_chars_id.
  2:{ revert A. apply all_chars_imp. intros c E. rewrite (alnum_not_underscore _ E), (replace_alnum _ E).
      apply Ascii.eqb_refl. }
  destruct s as [|c s]; [discriminate H|]. cbn [all_chars].
  pose proof A as A'. cbn in A'. apply andb_true_iff in A' as [A1 _].
  rewrite (alnum_not_underscore _ A1), A1. cbn [orb negb andb].
  unfold pascal_ascii, screaming_ascii. rewrite (trim_kept _ A), (trim_snake _ _ _ A).
  apply (conversions _ AtStart); [repeat split|exact H].
Qed.

Lemma ident_kept : forall s, rust_name s -> format_ident s = s.
Proof.
  intros s [I K]. unfold format_ident.
  destruct (existsb (String.eqb s) keyword_names) eqn:E.
  { apply existsb_exists in E as (k & Hk & E). apply String.eqb_eq in E. subst k. contradiction. }
  destruct s as [|c s]; [discriminate I|]. cbn [ident_ascii] in I.
  apply andb_true_iff in I as [I1 I2]. apply andb_true_iff in I1 as [I0 I1]. apply negb_true_iff in I1. rewrite I1.
  apply map_chars_id. cbn. rewrite (replace_ident _ I0), Ascii.eqb_refl. cbn.
  revert I2. apply all_chars_imp. intros d Hd. rewrite (replace_ident _ Hd). apply Ascii.eqb_refl.
Qed.

Lemma name_kept : forall n s, good_name n s -> format_type_name n s = s.
Proof.
  intros n s [R P]. unfold format_type_name. destruct n as [|[]]; cbn [unify].
  - rewrite (unify_kept _ P). apply ident_kept, R.
  - rewrite (unify_kept _ P). apply ident_kept, R.
  - rewrite map_chars_id; [apply ident_kept, R|]. destruct R as [I _].
    destruct s as [|c s]; [reflexivity|]. cbn [ident_ascii] in I.
    apply andb_true_iff in I as [I1 I2]. apply andb_true_iff in I1 as [I0 I1].
    cbn. rewrite (replace_ident _ I0), Ascii.eqb_refl. cbn.
    revert I2. apply all_chars_imp. intros d Hd. rewrite (replace_ident _ Hd). apply Ascii.eqb_refl.
Qed.

(** * Names with a postfix *)
Lemma pascal_words_upper : forall p c w, (p = InWord \/ p = InDigits) -> is_upper c = true ->
  pascal_words p (String c w) = pascal_words AtStart (String c w).
Proof.
  intros p c w P U. destruct (upper_facts _ U) as (L & D & _). destruct P as [-> | ->]; cbn; rewrite ?L, D, U; reflexivity.
Qed.
Lemma pascal_app : forall s p w, pascal_words p s = true -> (w = "" \/ pascal_case w) -> pascal_words p (s ++ w) = true.
Proof.
  intros s p w H W. revert p H. induction s as [|c s IH]; intros p H.
  - assert (P : p = InWord \/ p = InDigits) by (destruct p; cbn in H; (discriminate || auto)).
    cbn [append]. destruct W as [->|W]; [exact H|].
    destruct w as [|d w]; [discriminate W|]. rewrite (pascal_words_upper _ _ _ P); [exact W|].
    unfold pascal_case in W. cbn in W. apply andb_true_iff in W as [W _]. exact W.
  - cbn [append pascal_words] in *. destruct p.
    + apply andb_true_iff in H as [H1 H2]. rewrite H1, (IH _ H2). reflexivity.
    + apply andb_true_iff in H as [H1 H2]. rewrite H1, (IH _ H2). reflexivity.
    + destruct (is_lower c); [exact (IH _ H)|]. destruct (is_digit c); [exact (IH _ H)|].
      apply andb_true_iff in H as [H1 H2]. rewrite H1, (IH _ H2). reflexivity.
    + destruct (is_digit c); [exact (IH _ H)|].
      apply andb_true_iff in H as [H1 H2]. rewrite H1, (IH _ H2). reflexivity.
Qed.

Definition postfixes : list string := [""; "Type"; "ElementType"; "NotNil"; "Dyn"].
Definition endings : list string := app postfixes ["List"; "Opt"].
Lemma postfix_in : forall k, In (default_postfix k) postfixes.
Proof. intros []; cbn; auto 6. Qed.

Lemma keyword_postfix : forall w k r, In w endings -> In k keyword_names -> k = r ++ w -> w = "".
Proof.
  assert (H : forallb (fun w => String.eqb w "" || forallb (fun k => negb (ends_with w k)) keyword_names) endings = true)
    by (vm_compute; reflexivity).
  intros w k r Hw Hk E. rewrite forallb_forall in H. specialize (H _ Hw). apply orb_true_iff in H as [H|H].
  - apply String.eqb_eq. exact H.
  - rewrite forallb_forall in H. specialize (H _ Hk). apply negb_true_iff in H.
    assert (T : ends_with w k = true) by (apply ends_with_iff; exists r; exact E). congruence.
Qed.

Lemma good_ending : forall n s w, good_name n s -> In w endings -> good_name n (s ++ w).
Proof.
  intros n s w [[I K] P] W.
  destruct (string_dec w "") as [->|NE]; [rewrite append_nil; split; [split|]; assumption|]. split.
  - split.
    + destruct s as [|c s]; [discriminate I|]. cbn [append ident_ascii] in *.
      apply andb_true_iff in I as [I1 I2]. rewrite I1, all_chars_app, I2. cbn.
      repeat (destruct W as [<-|W]; [reflexivity|]). destruct W.
    + intros Hk. apply NE. exact (keyword_postfix _ _ s W Hk eq_refl).
  - destruct n as [|[]]; trivial;
      (apply pascal_app; [exact P|right]; unfold pascal_case; repeat (destruct W as [<-|W]; [reflexivity || congruence|]); destruct W).
Qed.

Lemma good_postfix : forall n s w, good_name n s -> In w postfixes -> good_name n (s ++ w).
Proof. intros n s w G W. apply good_ending; [exact G|]. apply in_or_app. left. exact W. Qed.

Lemma not_added_postfix : forall s k, ~ ends_in_added_word s -> ends_with (default_postfix k) s = true -> default_postfix k = "".
Proof.
  intros s k N E. apply ends_with_iff in E as [r ->].
  destruct k; cbn in *; trivial; exfalso; apply N.
  - exists "Type", r. cbn. auto.
  - exists "Type", (r ++ "Element"). rewrite append_assoc. cbn. auto.
  - exists "NotNil", r. cbn. auto 6.
  - exists "Dyn", r. cbn. auto 6.
  - exists "Dyn", r. cbn. auto 6.
Qed.

(** The identifier of a type is its name with the postfix of its kind. *)
Lemma ident_is : forall c t,
  (forall k, c_postfix c k = default_postfix k) ->
  good_name (c_naming c) (name_text (t_name t)) -> ~ ends_in_added_word (name_text (t_name t)) ->
  t_display t = None -> own_name c t ->
  type_ident c t = name_text (t_name t) ++ default_postfix (t_kind t).
Proof.
  intros c t CP G N D O. unfold type_ident. rewrite D. unfold make_type_name.
  set (s := name_text (t_name t)) in *.
  assert (KP : format_type_name (c_naming c) (s ++ default_postfix (t_kind t)) = s ++ default_postfix (t_kind t)).
  { apply name_kept, good_postfix; [exact G|apply postfix_in]. }
  assert (R : format_type_name (c_naming c)
            (if ends_with (default_postfix (t_kind t)) (format_type_name (c_naming c) s) then s
             else format_type_name (c_naming c) s ++ default_postfix (t_kind t)) = s ++ default_postfix (t_kind t)).
  { rewrite (name_kept _ _ G). destruct (ends_with _ _) eqn:E; [|exact KP].
    rewrite (not_added_postfix _ _ N E), append_nil. apply name_kept, G. }
  destruct (c_naming c) as [|u] eqn:CN.
  - unfold default_type_name. rewrite CP. fold s. specialize (O CN).
    destruct (t_variant t) as [target min max| | | | |]; try exact R.
    destruct target as [target|target]; [|exact R]. destruct (t_name t) as [x|x]; [exact R|].
    destruct O as [O1 O2]. rewrite O2. destruct (Nat.eqb min 0) eqn:M; [apply Nat.eqb_eq in M; contradiction|exact R].
  - rewrite (name_kept _ _ G), CP. exact KP.
Qed.

(** * Decoding the name of an item *)
Definition tails : list string :=
  app (flat_map (fun p => [p; p ++ "Trait"; p ++ "Content"]) postfixes) ["Value"].

Fixpoint prefix_before (w x : string) : option string :=
  (* the text in front of w in x, if x ends with w *)
  if String.eqb x w then Some ""
  else match x with
       | String c x' => match prefix_before w x' with Some r => Some (String c r) | None => None end
       | EmptyString => None
       end.
Lemma prefix_before_ok : forall w x r, x = r ++ w -> prefix_before w x = Some r.
Proof.
  intros w x r ->. induction r as [|c r IH].
  - cbn. destruct w; cbn; rewrite ?Ascii.eqb_refl, ?String.eqb_refl; reflexivity.
  - cbn [append prefix_before]. rewrite IH.
    destruct (String.eqb (String c (r ++ w)) w) eqn:E; [|reflexivity].
    apply String.eqb_eq in E. assert (L : String.length (String c (r ++ w)) = String.length w) by congruence.
    cbn in L. rewrite append_length in L. lia.
Qed.

Definition added_end (r : string) : bool := existsb (fun w => ends_with w r) added_words.
Lemma added_end_ok : forall n r, added_end r = true -> ends_in_added_word (n ++ r).
Proof.
  intros n r H. apply existsb_exists in H as (w & Hw & E). apply ends_with_iff in E as [x ->].
  exists w, (n ++ x). split; [exact Hw|]. rewrite append_assoc. reflexivity.
Qed.

Lemma tails_split : forall w1 w2 r, In w1 tails -> In w2 tails -> w2 = r ++ w1 -> r = "" \/ added_end r = true.
Proof.
  assert (H : forallb (fun w1 => forallb (fun w2 =>
    match prefix_before w1 w2 with Some r => String.eqb r "" || added_end r | None => true end) tails) tails = true)
    by (vm_compute; reflexivity).
  intros w1 w2 r H1 H2 E. rewrite forallb_forall in H. specialize (H _ H1). cbv beta in H.
  rewrite forallb_forall in H. specialize (H _ H2). cbv beta in H. rewrite (prefix_before_ok _ _ _ E) in H.
  apply orb_true_iff in H as [H|H]; [left; apply String.eqb_eq; exact H|right; exact H].
Qed.

Lemma decode : forall n1 n2 w1 w2, ~ ends_in_added_word n1 -> ~ ends_in_added_word n2 ->
  In w1 tails -> In w2 tails -> n1 ++ w1 = n2 ++ w2 -> n1 = n2 /\ w1 = w2.
Proof.
  intros n1 n2 w1 w2 N1 N2 W1 W2 E.
  destruct (append_split _ _ _ _ E) as [(x & -> & ->)|(x & -> & ->)].
  - destruct (tails_split _ _ _ W1 W2 eq_refl) as [->|A]; [split; [apply append_nil|reflexivity]|].
    destruct N1. apply added_end_ok, A.
  - destruct (tails_split _ _ _ W2 W1 eq_refl) as [->|A]; [split; [symmetry; apply append_nil|reflexivity]|].
    destruct N2. apply added_end_ok, A.
Qed.

Lemma tails_parts : forall p1 p2 e1 e2, In p1 postfixes -> In p2 postfixes ->
  In e1 [""; "Trait"; "Content"] -> In e2 [""; "Trait"; "Content"] -> p1 ++ e1 = p2 ++ e2 -> p1 = p2 /\ e1 = e2.
Proof.
  assert (H : forallb (fun p1 => forallb (fun p2 => forallb (fun e1 => forallb (fun e2 =>
     negb (String.eqb (p1 ++ e1) (p2 ++ e2)) || (String.eqb p1 p2 && String.eqb e1 e2))
     [""; "Trait"; "Content"]) [""; "Trait"; "Content"]) postfixes) postfixes = true) by (vm_compute; reflexivity).
  intros p1 p2 e1 e2 P1 P2 E1 E2 E.
  rewrite forallb_forall in H; specialize (H _ P1); cbv beta in H.
  rewrite forallb_forall in H; specialize (H _ P2); cbv beta in H.
  rewrite forallb_forall in H; specialize (H _ E1); cbv beta in H.
  rewrite forallb_forall in H; specialize (H _ E2); cbv beta in H.
  rewrite E, String.eqb_refl in H. cbn in H. apply andb_true_iff in H as [A B].
  apply String.eqb_eq in A. apply String.eqb_eq in B. split; assumption.
Qed.

(** * The items of a list of types *)
Definition ends (v8 : bool) (v : variant) : list string :=
  match v with
  | VForeign => []
  | VDynamic => [""; "Trait"]
  | VComplex true => [""; "Content"]
  | _ => [""]
  end.
Definition value_end (v8 : bool) (v : variant) : list string :=
  match v with VEnumeration => if v8 then ["Value"] else [] | _ => [] end.

Section Types.
  Variable c : config.
  Variable v8 : bool.
  Hypothesis CP : forall k, c_postfix c k = default_postfix k.
  Lemma names_are : forall t, fine c t -> item_names c v8 t =
    map (fun w => name_text (t_name t) ++ w)
      (app (map (fun e => default_postfix (t_kind t) ++ e) (ends v8 (t_variant t))) (value_end v8 (t_variant t))).
  Proof.
    intros t (G & N & D & O). unfold item_names. rewrite (ident_is _ _ CP G N D O), (name_kept _ _ G).
    destruct (t_variant t) as [? ? ?| |[]| | |]; destruct v8; cbn; rewrite ?append_assoc, ?append_nil; reflexivity.
  Qed.

  Lemma ends_three : forall v e, In e (ends v8 v) -> In e [""; "Trait"; "Content"].
  Proof. intros [? ? ?| |[]| | |] e; cbn; intuition. Qed.
  Lemma ends_tails : forall k v e, In e (ends v8 v) -> In (default_postfix k ++ e) tails.
  Proof.
    intros k v e H. apply ends_three in H. unfold tails. apply in_or_app. left. apply in_flat_map.
    exists (default_postfix k). split; [apply postfix_in|]. cbn in *. destruct H as [<-|[<-|[<-|[]]]]; rewrite ?append_nil; auto.
  Qed.
  Lemma value_tails : forall v e, In e (value_end v8 v) -> e = "Value" /\ In e tails.
  Proof.
    intros v e. destruct v; cbn [value_end In]; try tauto. destruct v8; [|intros []]. intros [<-|[]]. split; [reflexivity|].
    unfold tails. apply in_or_app. right. left. reflexivity.
  Qed.
  Lemma value_not_part : forall k v e, In e (ends v8 v) -> default_postfix k ++ e <> "Value".
  Proof. intros k v e H. apply ends_three in H. destruct H as [<-|[<-|[<-|[]]]]; destruct k; discriminate. Qed.

  (** Two types that share the name of an item. *)
  Lemma shared : forall t1 t2 x, fine c t1 -> fine c t2 -> In x (items c v8 t1) -> In x (items c v8 t2) ->
    module_of c t1 = module_of c t2 /\ name_text (t_name t1) = name_text (t_name t2) /\
    (default_postfix (t_kind t1) = default_postfix (t_kind t2) \/
     (v8 = true /\ is_enum t1 = true /\ is_enum t2 = true)).
  Proof.
    intros t1 t2 x F1 F2 I1 I2. unfold items in *. rewrite (names_are _ F1) in I1. rewrite (names_are _ F2) in I2.
    apply in_map_iff in I1 as (y1 & <- & I1). apply in_map_iff in I2 as (y2 & E & I2).
    injection E as EM EY. split; [congruence|]. subst y2.
    apply in_map_iff in I1 as (w1 & <- & I1). apply in_map_iff in I2 as (w2 & E & I2).
    assert (T1 : In w1 tails).
    { apply in_app_or in I1 as [I1|I1]; [|apply (value_tails _ _ I1)].
      apply in_map_iff in I1 as (e & <- & I1). exact (ends_tails _ _ _ I1). }
    assert (T2 : In w2 tails).
    { apply in_app_or in I2 as [I2|I2]; [|apply (value_tails _ _ I2)].
      apply in_map_iff in I2 as (e & <- & I2). exact (ends_tails _ _ _ I2). }
    destruct F1 as (_ & N1 & _). destruct F2 as (_ & N2 & _).
    destruct (decode _ _ _ _ N2 N1 T2 T1 E) as [EN EW]. split; [congruence|]. subst w2.
    apply in_app_or in I1. apply in_app_or in I2. destruct I1 as [I1|I1], I2 as [I2|I2].
    - apply in_map_iff in I1 as (e1 & <- & I1). apply in_map_iff in I2 as (e2 & E2 & I2).
      destruct (tails_parts _ _ _ _ (postfix_in _) (postfix_in _) (ends_three _ _ I2) (ends_three _ _ I1) E2) as [P _].
      left. congruence.
    - apply in_map_iff in I1 as (e1 & <- & I1). destruct (value_tails _ _ I2) as [V _]. destruct (value_not_part _ _ _ I1 V).
    - apply in_map_iff in I2 as (e2 & <- & I2). destruct (value_tails _ _ I1) as [V _]. destruct (value_not_part _ _ _ I2 V).
    - right. unfold is_enum. destruct (t_variant t1); cbn in I1; try contradiction.
      destruct (t_variant t2); cbn in I2; try contradiction. destruct v8; [auto|destruct I1].
  Qed.

  Lemma own_items : forall t, fine c t -> NoDup (items c v8 t).
  Proof.
    intros t F. unfold items. rewrite (names_are _ F).
    assert (J : forall (l : list string), NoDup l -> NoDup (map (fun n => (module_of c t, n)) (map (fun w => name_text (t_name t) ++ w) l))).
    { intros l H. rewrite map_map. induction H as [|w l Hw _ IH]; cbn; constructor; [|exact IH].
      intros I. apply in_map_iff in I as (w' & E & I). injection E as E. apply append_head in E. subst. contradiction. }
    apply J. destruct (t_variant t) as [? ? ?| |[]| | |]; destruct (t_kind t); destruct v8; cbn;
      repeat constructor; cbn; intuition discriminate.
  Qed.
End Types.

Lemma nodup_flat : forall {A B} (f : A -> list B) l, (forall x, In x l -> NoDup (f x)) ->
  ForallOrdPairs (fun x y => forall z, In z (f x) -> ~ In z (f y)) l -> NoDup (flat_map f l).
Proof.
  intros A B f l H P. induction P as [|x l F P IH]; cbn; [constructor|].
  assert (D : forall z, In z (f x) -> ~ In z (flat_map f l)).
  { intros z Z I. apply in_flat_map in I as (y & Y & I). rewrite Forall_forall in F. exact (F _ Y _ Z I). }
  pose proof (H x (or_introl eq_refl)) as N. specialize (IH (fun y Y => H y (or_intror Y))).
  clear F. revert N D. induction (f x) as [|z r IHr]; intros N D; cbn; [exact IH|].
  inversion N as [|? ? N1 N2]; subst. constructor.
  - intros I. apply in_app_or in I as [I|I]; [contradiction|]. exact (D z (or_introl eq_refl) I).
  - apply IHr; [exact N2|]. intros y Y. apply D. right. exact Y.
Qed.

Lemma distinct : forall c v8 ts,
  (forall k, c_postfix c k = default_postfix k) ->
  (forall t, In t ts -> generated t = true -> fine c t) ->
  NoDup (map (fun t => (module_of c t, default_postfix (t_kind t), name_text (t_name t))) (filter generated ts)) ->
  (v8 = true -> NoDup (map (fun t => (module_of c t, name_text (t_name t))) (filter is_enum ts))) ->
  NoDup (flat_map (items c v8) ts).
Proof.
  intros c v8 ts CP F K V. apply nodup_flat.
  - intros t H. destruct (generated t) eqn:G; [apply own_items; auto|].
    unfold items, item_names. unfold generated in G. destruct (t_variant t); try discriminate G. constructor.
  - revert F K V. induction ts as [|t ts IH]; intros F K V; constructor.
    + apply Forall_forall. intros u U x X1 X2.
      assert (G : forall y, In x (items c v8 y) -> generated y = true).
      { intros y. unfold items, item_names, generated. destruct (t_variant y); cbn; trivial. intros []. }
      pose proof (G _ X1) as G1. pose proof (G _ X2) as G2.
      destruct (shared c v8 CP t u x (F _ (or_introl eq_refl) G1) (F _ (or_intror U) G2) X1 X2) as (M & N & [P|(E & E1 & E2)]).
      * cbn in K. rewrite G1 in K. cbn in K. inversion K as [|? ? K1 K2]; subst. apply K1. apply in_map_iff.
        exists u. split; [congruence|]. apply filter_In. auto.
      * specialize (V E). cbn in V. rewrite E1 in V. cbn in V. inversion V as [|? ? K1 K2]; subst. apply K1. apply in_map_iff.
        exists u. split; [congruence|]. apply filter_In. auto.
    + apply IH.
      * intros u U. apply F. right. exact U.
      * cbn in K. destruct (generated t); [cbn in K; inversion K; assumption|exact K].
      * intros E. specialize (V E). cbn in V. destruct (is_enum t); [cbn in V; inversion V; assumption|exact V].
Qed.

(** * Types of the same kind, with any postfixes *)
Lemma ident_any : forall c t,
  good_name (c_naming c) (name_text (t_name t)) ->
  good_name (c_naming c) (name_text (t_name t) ++ c_postfix c (t_kind t)) ->
  t_display t = None -> own_name c t ->
  type_ident c t = name_text (t_name t) ++ c_postfix c (t_kind t) \/
  (c_naming c = Default /\ type_ident c t = name_text (t_name t) /\
   exists r, name_text (t_name t) = r ++ c_postfix c (t_kind t)).
Proof.
  intros c t G GP D O. unfold type_ident. rewrite D. unfold make_type_name.
  set (s := name_text (t_name t)) in *. set (p := c_postfix c (t_kind t)) in *.
  destruct (c_naming c) as [|u] eqn:CN.
  - specialize (O CN).
    assert (R : format_type_name Default
       (if ends_with p (format_type_name Default s) then s else format_type_name Default s ++ p) = s ++ p \/
       (Default = Default /\ format_type_name Default
         (if ends_with p (format_type_name Default s) then s else format_type_name Default s ++ p) = s /\ exists r, s = r ++ p)).
    { rewrite (name_kept _ _ G). destruct (ends_with p s) eqn:E.
      - right. split; [reflexivity|]. split; [apply name_kept, G|]. apply ends_with_iff. exact E.
      - left. apply name_kept, GP. }
    unfold default_type_name. fold s. destruct (t_variant t) as [target min max| | | | |]; try exact R.
    destruct target as [target|target]; [|exact R]. destruct (t_name t) as [x|x]; [exact R|].
    destruct O as [O1 O2]. rewrite O2. destruct (Nat.eqb min 0) eqn:M; [apply Nat.eqb_eq in M; contradiction|exact R].
  - left. rewrite (name_kept _ _ G). apply name_kept, GP.
Qed.

Lemma same_kind : forall c t1 t2, t_kind t1 = t_kind t2 ->
  (forall t, t = t1 \/ t = t2 -> good_name (c_naming c) (name_text (t_name t)) /\
     good_name (c_naming c) (name_text (t_name t) ++ c_postfix c (t_kind t)) /\ t_display t = None /\ own_name c t) ->
  type_ident c t1 = type_ident c t2 ->
  name_text (t_name t1) = name_text (t_name t2) \/
  (c_naming c = Default /\
   (name_text (t_name t1) = name_text (t_name t2) ++ c_postfix c (t_kind t1) \/
    name_text (t_name t2) = name_text (t_name t1) ++ c_postfix c (t_kind t1))).
Proof.
  intros c t1 t2 K H E.
  destruct (H t1 (or_introl eq_refl)) as (G1 & P1 & D1 & O1). destruct (H t2 (or_intror eq_refl)) as (G2 & P2 & D2 & O2).
  destruct (ident_any _ _ G1 P1 D1 O1) as [E1|(N & E1 & _)], (ident_any _ _ G2 P2 D2 O2) as [E2|(N' & E2 & _)];
    rewrite E1, E2 in E; rewrite <- K in *.
  - left. exact (append_cancel _ _ _ E).
  - right. split; [exact N'|]. right. congruence.
  - right. split; [exact N|]. left. congruence.
  - left. exact E.
Qed.

(** * References and modules *)
Lemma reference_is : forall c t target x min max, c_naming c = Default -> t_display t = None ->
  t_variant t = VReference (Named target) min max -> t_name t = Generated x -> good_name Default target ->
  (above_one max = true -> type_ident c t = target ++ "List") /\
  (above_one max = false -> min = 0 -> type_ident c t = target ++ "Opt").
Proof.
  intros c t target x min max N D V X G. unfold type_ident. rewrite D. unfold make_type_name. rewrite N.
  unfold default_type_name. rewrite V, X, (name_kept _ _ G). split.
  - intros ->. apply name_kept, good_ending; [exact G|cbn; auto 8].
  - intros -> ->. cbn [Nat.eqb]. apply name_kept, good_ending; [exact G|cbn; auto 8].
Qed.

Lemma items_module : forall c v8 t i, In i (items c v8 t) -> fst i = module_of c t.
Proof. intros c v8 t i H. unfold items in H. apply in_map_iff in H as (n & <- & _). reflexivity. Qed.

(** * Keywords *)
Fixpoint no_underscore (s : string) : bool :=
  match s with EmptyString => true | String c s' => negb (Ascii.eqb c "_") && no_underscore s' end.

Lemma keyword_no_underscore : forall k, In k keyword_names -> no_underscore k = true.
Proof. apply forallb_forall. vm_compute. reflexivity. Qed.

Lemma replace_kept : forall c, Ascii.eqb (replace_other c) "_" = false -> replace_other c = c.
Proof. intros c. unfold replace_other. destruct (is_alnum c); [reflexivity|discriminate]. Qed.

Lemma map_kept : forall s, no_underscore (map_chars replace_other s) = true -> map_chars replace_other s = s /\ no_underscore s = true.
Proof.
  induction s as [|c s IH]; cbn; [auto|]. intros H. apply andb_true_iff in H as [H1 H2]. destruct (IH H2) as [E F].
  apply negb_true_iff in H1. rewrite E, F. pose proof (replace_kept _ H1) as R. rewrite R in H1 |- *. rewrite H1. auto.
Qed.

Lemma no_underscore_end : forall s, no_underscore (s ++ "_") = false.
Proof. induction s as [|c s IH]; cbn; [reflexivity|]. rewrite IH. apply andb_false_r. Qed.

Lemma ident_not_keyword : forall s, ~ In (format_ident s) keyword_names.
Proof.
  intros s H. pose proof (keyword_no_underscore _ H) as U. unfold format_ident in *.
  set (t := if existsb (String.eqb s) keyword_names then s ++ "_" else s) in *.
  assert (T : no_underscore t = true -> ~ In t keyword_names).
  { unfold t. destruct (existsb (String.eqb s) keyword_names) eqn:E.
    - rewrite no_underscore_end. discriminate.
    - intros _ K. assert (X : existsb (String.eqb s) keyword_names = true)
        by (apply existsb_exists; exists s; split; [exact K|apply String.eqb_refl]). congruence. }
  destruct (map_kept _ U) as [E F]. rewrite E in H.
  destruct t as [|c t']; [exact (T F H)|]. destruct (is_digit c); [discriminate F|exact (T F H)].
Qed.

From Verif Require Import DeModel TextModel TextSpec TextProofs ListModel ListSpec.
Local Open Scope string_scope.

Lemma collect_parse_all {T} (parse : dhelper -> bytes -> outcome kind (T * dhelper)) ws : forall h,
  collect parse h ws = parse_all parse h ws.
Proof.
  induction ws as [|w ws IH]; intros h; cbn; [reflexivity|].
  destruct (parse h w) as [[t h1]|k|]; [|reflexivity|reflexivity]. rewrite IH.
  destruct (parse_all parse h1 ws) as [[ts h2]|k|]; reflexivity.
Qed.

Lemma sep_space c : list_sep c = true <-> xml_space c.
Proof.
  unfold list_sep, xml_space. split.
  - intros H. repeat (apply orb_prop in H as [H|H]); apply Ascii.eqb_eq in H; auto.
  - intros [->|[->|[->| ->]]]; reflexivity.
Qed.

Lemma not_ws_sep c : ascii_ws c = false -> list_sep c = false.
Proof.
  intros H. unfold ascii_ws in H. unfold list_sep. repeat (apply orb_false_elim in H as [H ?]).
  repeat match goal with E : Ascii.eqb c _ = false |- _ => rewrite E; clear E end. reflexivity.
Qed.

Lemma space_ws c : xml_space c -> ascii_ws c = true.
Proof. intros [->|[->|[->| ->]]]; reflexivity. Qed.

Lemma split_word w s : all_chars (fun c => ascii_ws c = false) w ->
  split_on (w ++ s) = match split_on s with x :: xs => (w ++ x) :: xs | [] => [w ++ s] end.
Proof.
  induction w as [|c w IH]; intros H; cbn [append].
  - destruct s as [|c s]; [reflexivity|]. cbn [split_on]. destruct (list_sep c); [reflexivity|].
    destruct (split_on s); reflexivity.
  - cbn [split_on]. rewrite (not_ws_sep c) by (apply H; left; reflexivity).
    rewrite IH by (intros d Hd; apply H; right; exact Hd). destruct (split_on s); reflexivity.
Qed.

Lemma append_nil_r' s : s ++ "" = s.
Proof. induction s as [|c s IH]; cbn; [reflexivity|rewrite IH; reflexivity]. Qed.

Lemma split_text (gap : string -> Prop) ws t : (forall g, gap g -> char_gap g) -> list_text gap ws t -> split_on t = ws.
Proof.
  intros HG H. induction H as [w [_ Hw]|w g ws t [_ Hw] Hg Ht IH].
  - rewrite <- (append_nil_r' w) at 1. rewrite split_word by exact Hw. cbn [split_on].
    rewrite append_nil_r'. reflexivity.
  - apply HG in Hg as (c & Hc & ->). rewrite split_word by exact Hw. cbn [append split_on].
    rewrite (proj2 (sep_space c) Hc), IH, append_nil_r'. reflexivity.
Qed.

Lemma list_text_first gap ws t : list_text gap ws t -> exists c r, t = String c r /\ ascii_ws c = false.
Proof.
  assert (W : forall w, word w -> exists c r, w = String c r /\ ascii_ws c = false).
  { intros [|c w] [H1 H2]; [elim H1; reflexivity|]. exists c, w. split; [reflexivity|].
    apply H2. left. reflexivity. }
  intros H. destruct H as [w Hw|w g ws t Hw _ _]; destruct (W w Hw) as (c & r & -> & E).
  - exists c, r. auto.
  - exists c, (r ++ g ++ t). auto.
Qed.

Lemma append_assoc' a b c : (a ++ b) ++ c = a ++ b ++ c.
Proof. induction a as [|x a IH]; cbn; [reflexivity|rewrite IH; reflexivity]. Qed.

Lemma list_text_last gap ws t : list_text gap ws t ->
  exists r c, t = r ++ String c "" /\ ascii_ws c = false.
Proof.
  intros H. induction H as [w [H1 H2]|w g ws t _ _ _ (r & c & -> & E)].
  - clear -H1 H2. induction w as [|c w IH]; [elim H1; reflexivity|].
    destruct w as [|d w].
    + exists "", c. split; [reflexivity|]. apply H2. left. reflexivity.
    + destruct IH as (r & e & E & H); [discriminate| |].
      * intros x Hx. apply H2. right. exact Hx.
      * exists (String c r), e. rewrite E. auto.
  - exists (w ++ g ++ r), c. split; [|exact E]. rewrite !append_assoc'. reflexivity.
Qed.

Lemma snoc_inj a b c d : a ++ String c "" = b ++ String d "" -> a = b /\ c = d.
Proof.
  revert b. induction a as [|x a IH]; intros [|y b] H; cbn in H.
  - injection H as ->. auto.
  - injection H as -> H. destruct b; discriminate.
  - injection H as -> H. destruct a; discriminate.
  - injection H as -> H. apply IH in H as [-> ->]. auto.
Qed.

Lemma trim_start_app a s : all_chars (fun c => ascii_ws c = true) a -> trim_start (a ++ s) = trim_start s.
Proof.
  induction a as [|c a IH]; intros H; cbn [append]; [reflexivity|]. cbn [trim_start].
  rewrite (H c) by (left; reflexivity). apply IH. intros d Hd. apply H. right. exact Hd.
Qed.

Lemma trim_end_blank b : all_chars (fun c => ascii_ws c = true) b -> trim_end b = "".
Proof.
  induction b as [|c b IH]; intros H; [reflexivity|]. cbn [trim_end].
  rewrite IH by (intros d Hd; apply H; right; exact Hd). rewrite (H c) by (left; reflexivity). reflexivity.
Qed.

Lemma trim_end_app s b : all_chars (fun c => ascii_ws c = true) b -> trim_end (s ++ b) = trim_end s.
Proof.
  intros H. induction s as [|c s IH]; cbn [append].
  - apply trim_end_blank. exact H.
  - cbn [trim_end]. rewrite IH. reflexivity.
Qed.

Lemma spaces_ws a : all_chars xml_space a -> all_chars (fun c => ascii_ws c = true) a.
Proof. intros H c Hc. apply space_ws, H, Hc. Qed.

Lemma list_text_trim gap ws t a b : list_text gap ws t ->
  all_chars xml_space a -> all_chars xml_space b -> trim_ascii (a ++ t ++ b) = t.
Proof.
  intros H Ha Hb. unfold trim_ascii. rewrite trim_start_app by (apply spaces_ws, Ha).
  rewrite trim_start_id.
  - rewrite trim_end_app by (apply spaces_ws, Hb). apply trim_end_id. intros c r E.
    destruct (list_text_last gap ws t H) as (r' & c' & -> & E'). apply snoc_inj in E as [_ <-]. exact E'.
  - intros c r E. destruct (list_text_first gap ws t H) as (c' & r' & -> & E').
    cbn in E. injection E as <- _. exact E'.
Qed.

Lemma list_read {T} (parse : dhelper -> bytes -> outcome kind (T * dhelper)) h (gap : string -> Prop) ws t a b :
  (forall g, gap g -> char_gap g) -> list_text gap ws t -> all_chars xml_space a -> all_chars xml_space b ->
  deserialize_list parse h (a ++ t ++ b) = parse_all parse h ws.
Proof.
  intros HG H Ha Hb. unfold deserialize_list. rewrite (list_text_trim gap ws t a b H Ha Hb).
  destruct (list_text_first gap ws t H) as (c & r & E & _). rewrite E. rewrite <- E.
  rewrite (split_text gap ws t HG H). apply collect_parse_all.
Qed.

Lemma list_read_blank {T} (parse : dhelper -> bytes -> outcome kind (T * dhelper)) h a :
  all_chars xml_space a -> deserialize_list parse h a = Ok ([], h).
Proof.
  intros H. unfold deserialize_list, trim_ascii. rewrite <- (append_nil_r' a), trim_start_app by (apply spaces_ws, H).
  reflexivity.
Qed.

Lemma write_loop ws : forall data, data <> "" -> (forall w, In w ws -> word w) ->
  list_write_loop data (map Some ws) = fold_left (fun d w => d ++ " " ++ w) ws data.
Proof.
  induction ws as [|w ws IH]; intros data HD HW; cbn; [reflexivity|].
  destruct data as [|c data]; [elim HD; reflexivity|].
  rewrite append_assoc'. apply IH.
  - discriminate.
  - intros x Hx. apply HW. right. exact Hx.
Qed.

Lemma fold_app ws : forall d w, fold_left (fun d w => d ++ " " ++ w) ws (d ++ w) =
                                d ++ fold_left (fun d w => d ++ " " ++ w) ws w.
Proof.
  induction ws as [|x ws IH]; intros d w; cbn; [reflexivity|]. rewrite append_assoc'. apply IH.
Qed.

Lemma list_write_text ws : ws <> [] -> (forall w, In w ws -> word w) ->
  exists t, list_write (map Some ws) = Some t /\ list_text blank_gap ws t.
Proof.
  destruct ws as [|w ws]; intros HN HW; [elim HN; reflexivity|]. clear HN.
  cbn [list_write map]. eexists. split; [reflexivity|]. cbn [list_write_loop append].
  assert (W : word w) by (apply HW; left; reflexivity).
  rewrite write_loop; [|exact (proj1 W)|intros x Hx; apply HW; right; exact Hx].
  revert w HW W. induction ws as [|x ws IH]; intros w HW W; cbn [fold_left].
  - constructor. exact W.
  - assert (X : word x) by (apply HW; right; left; reflexivity).
    rewrite fold_app, fold_app. apply lt_cons; [exact W|reflexivity|].
    apply IH; [|exact X]. intros y [<-|Hy]; apply HW; right; [left; reflexivity|right; exact Hy].
Qed.

(** arrays *)
Section Arr.
  Context {T : Type}.
  Variable parse : dhelper -> bytes -> outcome kind (T * dhelper).

  Lemma arr_loop_full N ws : forall h acc vs h', length acc + length ws <= N ->
    parse_all parse h ws = Ok (vs, h') -> arr_loop parse N h acc ws = Ok ((acc ++ vs)%list, h').
  Proof.
    induction ws as [|w ws IH]; intros h acc vs h' HL HP; cbn in *.
    - injection HP as <- <-. rewrite app_nil_r. reflexivity.
    - destruct (parse h w) as [[t h1]|k|]; [|discriminate|discriminate].
      destruct (parse_all parse h1 ws) as [[ts h2]|k|] eqn:E; [|discriminate|discriminate].
      injection HP as <- <-. replace (Nat.leb N (length acc)) with false by (symmetry; apply Nat.leb_gt; lia).
      rewrite (IH h1 _ ts h2); [rewrite <- app_assoc; reflexivity| |exact E]. rewrite app_length. cbn. lia.
  Qed.

  Lemma parse_all_length ws : forall h vs h', parse_all parse h ws = Ok (vs, h') -> length vs = length ws.
  Proof.
    induction ws as [|w ws IH]; intros h vs h' H; cbn in H.
    - injection H as <- _. reflexivity.
    - destruct (parse h w) as [[t h1]|k|]; [|discriminate|discriminate].
      destruct (parse_all parse h1 ws) as [[ts h2]|k|] eqn:E; [|discriminate|discriminate].
      injection H as <- _. cbn. rewrite (IH h1 ts h2 E). reflexivity.
  Qed.

  Lemma arr_loop_ok N ws : forall h acc vs h', length acc <= N -> arr_loop parse N h acc ws = Ok (vs, h') ->
    length vs <= N /\ exists ts, vs = (acc ++ ts)%list /\ parse_all parse h ws = Ok (ts, h').
  Proof.
    induction ws as [|w ws IH]; intros h acc vs h' HL H; cbn in *.
    - injection H as <- <-. split; [exact HL|]. exists []. rewrite app_nil_r. auto.
    - destruct (parse h w) as [[t h1]|k|]; [| |discriminate].
      + destruct (Nat.leb N (length acc)) eqn:E; [discriminate|]. apply Nat.leb_gt in E.
        destruct (IH h1 (acc ++ [t])%list vs h') as (H1 & ts & -> & H2); [rewrite app_length; cbn; lia|exact H|].
        split; [exact H1|]. exists (t :: ts). rewrite H2, <- app_assoc. auto.
      + destruct (Nat.leb N (length acc)); discriminate.
  Qed.

  Lemma arr_read N h s vs h' :
    deserialize_arr parse N h s = Ok (vs, h') <->
    length (split_on (trim_ascii s)) = N /\ parse_all parse h (split_on (trim_ascii s)) = Ok (vs, h').
  Proof.
    unfold deserialize_arr, unwrap_all. split.
    - destruct (arr_loop parse N h [] (split_on (trim_ascii s))) as [[acc h1]|k|] eqn:E; [|discriminate|discriminate].
      apply arr_loop_ok in E as (H1 & ts & -> & H2); [|cbn; lia]. cbn [app] in *.
      destruct (Nat.ltb (length ts) N) eqn:E1; [discriminate|]. apply Nat.ltb_ge in E1.
      destruct (Nat.eqb (length ts) N) eqn:E2; [|discriminate]. apply Nat.eqb_eq in E2.
      intros H. injection H as <- <-. split; [|exact H2]. rewrite <- E2. symmetry. apply (parse_all_length _ h ts h1 H2).
    - intros [HL HP]. rewrite (arr_loop_full N _ h [] vs h'); [|cbn; lia|exact HP]. cbn [app].
      pose proof (parse_all_length _ h vs h' HP) as E. rewrite HL in E. rewrite E, Nat.eqb_refl.
      replace (Nat.ltb N N) with false by (symmetry; apply Nat.ltb_ge; lia). reflexivity.
  Qed.

  Hypothesis no_panic : forall h b, parse h b <> Panic.

  Lemma arr_loop_no_panic N ws : forall h acc, arr_loop parse N h acc ws <> Panic.
  Proof.
    induction ws as [|w ws IH]; intros h acc; cbn; [discriminate|].
    pose proof (no_panic h w). destruct (parse h w) as [[t h1]|k|]; [| |congruence];
      destruct (Nat.leb N (length acc)); try discriminate. apply IH.
  Qed.

  Lemma arr_no_panic N h s : deserialize_arr parse N h s <> Panic.
  Proof.
    unfold deserialize_arr, unwrap_all.
    destruct (arr_loop parse N h [] (split_on (trim_ascii s))) as [[acc h1]|k|] eqn:E.
    - apply arr_loop_ok in E as (H1 & _); [|cbn; lia].
      destruct (Nat.ltb (length acc) N) eqn:E1; [discriminate|]. apply Nat.ltb_ge in E1.
      replace (length acc) with N by lia. rewrite Nat.eqb_refl. discriminate.
    - discriminate.
    - elim (arr_loop_no_panic N _ h [] E).
  Qed.

  Lemma parse_all_no_panic ws : forall h, parse_all parse h ws <> Panic.
  Proof.
    induction ws as [|w ws IH]; intros h; cbn; [discriminate|].
    pose proof (no_panic h w). destruct (parse h w) as [[t h1]|k|]; [|discriminate|congruence].
    specialize (IH h1). destruct (parse_all parse h1 ws) as [[ts h2]|k|]; congruence.
  Qed.

  Lemma list_no_panic h s : deserialize_list parse h s <> Panic.
  Proof.
    unfold deserialize_list. destruct (trim_ascii s); [discriminate|].
    rewrite collect_parse_all. apply parse_all_no_panic.
  Qed.
End Arr.

(** bounds *)
Section Bounds.
  Context {T : Type}.

  Lemma finish_vec_never_fails min max (v : list T) :
    match max with Some m => min <= m | None => True end -> finish_vec min max v = Ok v.
  Proof.
    intros H. unfold finish_vec. destruct (Nat.ltb (length v) min) eqn:E1; [|reflexivity].
    destruct max as [m|]; [|reflexivity]. destruct (Nat.ltb m (length v)) eqn:E2; [|reflexivity].
    apply Nat.ltb_lt in E1, E2. lia.
  Qed.

  Variable dflt : dhelper -> outcome kind (T * dhelper).

  Lemma push_defaults_ok n : forall h v v' h', push_defaults dflt n h v = Ok (v', h') ->
    exists ds, v' = (v ++ ds)%list /\ length ds = n /\ Forall (fun t => exists h1 h2, dflt h1 = Ok (t, h2)) ds.
  Proof.
    induction n as [|n IH]; intros h v v' h' H; cbn in H.
    - injection H as <- _. exists []. rewrite app_nil_r. auto.
    - destruct (dflt h) as [[t h1]|k|] eqn:E; [|discriminate|discriminate].
      apply IH in H as (ds & -> & HL & HF). exists (t :: ds). rewrite <- app_assoc.
      repeat split; [cbn; lia|]. constructor; [eauto|exact HF].
  Qed.

  Lemma push_defaults_total n : (forall h, exists t h', dflt h = Ok (t, h')) ->
    forall h v, exists v' h', push_defaults dflt n h v = Ok (v', h').
  Proof.
    intros HD. induction n as [|n IH]; intros h v; cbn; [eauto|].
    destruct (HD h) as (t & h1 & ->). apply IH.
  Qed.
End Bounds.

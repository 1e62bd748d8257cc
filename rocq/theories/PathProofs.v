From Verif Require Import PathModel PathSpec FacetProofs.

Lemma push_segments ts segs x : segments ts = Some segs -> segments (push ts x) = Some (segs ++ [x]).
Proof.
  intros H. assert (E : push ts x = ts ++ [TSep; TId x]) by (destruct ts; [discriminate|reflexivity]).
  rewrite E. clear E. revert segs H. 
  induction ts as [ts IH] using (well_founded_induction (Wf_nat.well_founded_ltof _ (@length tok))).
  intros segs. destruct ts as [|[|a] [|[|b] ts]]; cbn; try discriminate.
  - intros [= <-]. reflexivity.
  - destruct (segments ts) as [s|] eqn:E; [|discriminate]. intros [= <-].
    rewrite (IH ts) with (segs := s); [reflexivity| |exact E]. unfold Wf_nat.ltof. cbn. lia.
Qed.

(** Either nothing has been pushed, or the tokens are the segments. *)
Definition pushed (ts : list tok) (segs : list str) : Prop :=
  ts = [] /\ segs = [] \/ segments ts = Some segs.

Lemma push_pushed ts segs x : pushed ts segs -> segments (push ts x) = Some (segs ++ [x]).
Proof. intros [[-> ->]|H]; [reflexivity|apply push_segments, H]. Qed.

Lemma push_all l : forall ts segs, pushed ts segs -> pushed (fold_left push l ts) (segs ++ l).
Proof.
  induction l as [|x l IH]; cbn; intros ts segs H; [rewrite app_nil_r; exact H|].
  replace (segs ++ x :: l) with ((segs ++ [x]) ++ l) by (rewrite <- app_assoc; reflexivity).
  apply IH. right. apply push_pushed, H.
Qed.

Lemma push_supers {A} (l : list A) : forall ts segs, pushed ts segs ->
  pushed (fold_left (fun r _ => push r kw_super) l ts) (segs ++ repeat kw_super (length l)).
Proof.
  induction l as [|x l IH]; cbn; intros ts segs H; [rewrite app_nil_r; exact H|].
  replace (segs ++ kw_super :: repeat kw_super (length l)) with ((segs ++ [kw_super]) ++ repeat kw_super (length l))
    by (rewrite <- app_assoc; reflexivity).
  apply IH. right. apply push_pushed, H.
Qed.

Lemma resolve_names l : forall b cur, ~ In kw_super l -> resolve_from b cur l = Some (cur ++ l).
Proof.
  induction l as [|x l IH]; cbn; intros b cur H; [rewrite app_nil_r; reflexivity|].
  destruct (str_eq_dec x kw_super) as [->|N]; [exfalso; apply H; left; reflexivity|].
  rewrite IH by tauto. rewrite <- app_assoc. reflexivity.
Qed.

Lemma resolve_supers l : forall base rest,
  resolve_from true (base ++ l) (repeat kw_super (length l) ++ rest) = resolve_from true base rest.
Proof.
  induction l as [|x l IH] using rev_ind; intros base rest; cbn; [rewrite app_nil_r; reflexivity|].
  rewrite app_length, Nat.add_comm. cbn [length plus repeat app resolve_from].
  destruct (str_eq_dec kw_super kw_super) as [_|N]; [|congruence].
  rewrite app_assoc, rev_app_distr. cbn [rev app]. rewrite rev_involutive. apply IH.
Qed.

Lemma names_down ident src : forall ts segs, pushed ts segs ->
  segments (relative_loop ident src [] ts) = Some (segs ++ src ++ [ident]).
Proof.
  induction src as [|a src IH]; intros ts segs H.
  - apply (push_pushed _ _ ident) in H. exact H.
  - cbn. replace (segs ++ a :: src ++ [ident]) with ((segs ++ [a]) ++ src ++ [ident]) by (rewrite <- app_assoc; reflexivity).
    apply IH. right. apply push_pushed, H.
Qed.

Lemma names_up ident dst : forall ts segs, pushed ts segs ->
  segments ((fix up (dst : list str) (ret : list tok) : list tok :=
         match dst with [] => push ret ident | _ :: dst' => up dst' (push ret kw_super) end) dst ts)
  = Some (segs ++ repeat kw_super (length dst) ++ [ident]).
Proof.
  induction dst as [|b dst IH]; intros ts segs H; cbn.
  - apply push_pushed, H.
  - replace (segs ++ kw_super :: repeat kw_super (length dst) ++ [ident])
      with ((segs ++ [kw_super]) ++ repeat kw_super (length dst) ++ [ident]) by (rewrite <- app_assoc; reflexivity).
    apply IH. right. apply push_pushed, H.
Qed.

Lemma loop_resolves ident src : forall base dst, ~ In kw_super src -> ident <> kw_super ->
  exists segs, segments (relative_loop ident src dst []) = Some segs /\
    resolve_from true (base ++ dst) segs = Some (base ++ src ++ [ident]).
Proof.
  assert (E0 : pushed [] []) by (left; auto).
  induction src as [|a src IH]; intros base dst N NI.
  - destruct dst as [|b dst].
    + exists [ident]. split; [reflexivity|]. rewrite app_nil_r. apply resolve_names. intros [E|[]]. congruence.
    + exists (repeat kw_super (length (b :: dst)) ++ [ident]). split.
      * cbn [relative_loop]. rewrite (names_up ident dst (push [] kw_super) [kw_super]); [reflexivity|right; reflexivity].
      * rewrite resolve_supers. apply resolve_names. intros [E|[]]. congruence.
  - assert (NS : ~ In kw_super ((a :: src) ++ [ident])).
    { rewrite in_app_iff. intros [E|[E|[]]]; [tauto|congruence]. }
    destruct dst as [|b dst].
    + exists ((a :: src) ++ [ident]). split.
      * apply (names_down ident (a :: src) [] []). exact E0.
      * rewrite app_nil_r. apply resolve_names, NS.
    + cbn [relative_loop]. destruct (str_eq_dec a b) as [->|D].
      * destruct (IH (base ++ [b]) dst) as (segs & S & R); [intros H; apply N; right; exact H|exact NI|].
        exists segs. split; [exact S|]. rewrite <- !app_assoc in R. exact R.
      * exists (repeat kw_super (length (b :: dst)) ++ (a :: src) ++ [ident]). split.
        -- assert (P1 : pushed (push [] kw_super) [kw_super]) by (right; reflexivity).
           apply (push_supers dst) in P1. apply (push_pushed _ _ a) in P1.
           assert (P2 : pushed (push (fold_left (fun r _ => push r kw_super) dst (push [] kw_super)) a)
             (([kw_super] ++ repeat kw_super (length dst)) ++ [a])) by (right; exact P1).
           apply (push_all src) in P2. apply (push_pushed _ _ ident) in P2. rewrite P2.
           cbn [length repeat]. rewrite <- !app_assoc. reflexivity.
        -- rewrite resolve_supers. apply resolve_names, NS.
Qed.

Lemma first_not_sep ts segs : segments ts = Some segs -> read_path ts = Some (false, segs).
Proof. destruct ts as [|[|a] ts]; cbn; try discriminate. intros ->. reflexivity. Qed.

Lemma relative_resolves m ident dst : ~ In kw_super m -> ident <> kw_super ->
  exists segs, read_path (relative_to (Path (Some m) ident false) dst) = Some (false, segs) /\
    resolve_from true dst segs = Some (m ++ [ident]).
Proof.
  intros N NI. destruct (loop_resolves ident m [] dst N NI) as (segs & S & R).
  exists segs. split; [apply first_not_sep, S|exact R].
Qed.

Lemma absolute_segments m ident : segments (TId ident :: flat_map (fun m => [TSep; TId m]) m) = Some (ident :: m).
Proof. revert ident. induction m as [|a m IH]; intros ident; [reflexivity|].
  change (option_map (cons ident) (segments (TId a :: flat_map (fun m => [TSep; TId m]) m)) = Some (ident :: a :: m)).
  rewrite IH. reflexivity.
Qed.

Lemma absolute_shape m ident :
  flat_map (fun m => [TSep; TId m]) m ++ [TSep; TId ident] = flat_map (fun m => [TSep; TId m]) (m ++ [ident]).
Proof. rewrite flat_map_app. reflexivity. Qed.

Lemma absolute_path m ident dst :
  read_path (relative_to (Path (Some m) ident true) dst) = Some (true, m ++ [ident]).
Proof.
  unfold relative_to. cbn. rewrite absolute_shape. destruct (m ++ [ident]) as [|a l] eqn:E; [destruct m; discriminate|].
  cbn [flat_map app read_path]. change (list N) with str. rewrite (absolute_segments l a). reflexivity.
Qed.

(** Tokens of a path. *)
Lemma tokens_segments m ident : segments (flat_map (fun x => [TId x; TSep]) m ++ [TId ident]) = Some (m ++ [ident]).
Proof. induction m as [|a m IH]; cbn; [reflexivity|]. rewrite IH. reflexivity. Qed.

Lemma tokens_read m ident abs :
  read_path (path_tokens (Path (Some m) ident abs)) = Some (abs, m ++ [ident]).
Proof.
  unfold path_tokens. cbn. destruct abs; cbn [app read_path].
  - rewrite tokens_segments. reflexivity.
  - apply first_not_sep, tokens_segments.
Qed.

(** Parsing. *)
Lemma split_run run cur rest : Forall (fun c => c <> 58%N) run ->
  split_colons cur (run ++ colons ++ rest) = (rev cur ++ run) :: split_colons [] rest.
Proof.
  revert cur. induction run as [|c run IH]; intros cur F; cbn [app].
  - cbn. rewrite app_nil_r. reflexivity.
  - inversion F as [|? ? C F']; subst.
    assert (E : split_colons cur (c :: run ++ colons ++ rest) = split_colons (c :: cur) (run ++ colons ++ rest)).
    { cbn. destruct c as [|p]; [reflexivity|]. do 6 (destruct p; try reflexivity). congruence. }
    rewrite E, IH by exact F'. cbn [rev]. rewrite <- app_assoc. reflexivity.
Qed.

Lemma split_end run cur : Forall (fun c => c <> 58%N) run -> split_colons cur run = [rev cur ++ run].
Proof.
  revert cur. induction run as [|c run IH]; intros cur F.
  - cbn. rewrite app_nil_r. reflexivity.
  - inversion F as [|? ? C F']; subst.
    assert (E : split_colons cur (c :: run) = split_colons (c :: cur) run).
    { cbn. destruct c as [|p]; [reflexivity|]. do 6 (destruct p; try reflexivity). congruence. }
    rewrite E, IH by exact F'. cbn [rev]. rewrite <- app_assoc. reflexivity.
Qed.

Lemma blank_no_colon w : blank w -> Forall (fun c => c <> 58%N) w.
Proof.
  unfold blank. rewrite forallb_forall, Forall_forall. intros H c I ->. apply H in I. discriminate I.
Qed.

Lemma trim_blank w : blank w -> str_trim w = [].
Proof.
  intros B. unfold str_trim. rewrite <- (app_nil_r w). rewrite trim_start_blank by exact B. reflexivity.
Qed.

Lemma trim_plain w1 a w2 : blank w1 -> blank w2 -> plain_ident a -> str_trim (w1 ++ a ++ w2) = a.
Proof.
  intros B1 B2 [NE F]. unfold str_trim. rewrite trim_start_blank by exact B1.
  destruct a as [|c a]; [congruence|]. rewrite Forall_forall in F.
  cbn [app]. rewrite trim_start_id by (apply F; left; reflexivity).
  change (c :: a ++ w2) with ((c :: a) ++ w2). rewrite rev_app_distr.
  rewrite trim_start_blank by (unfold blank; rewrite forallb_rev; exact B2).
  destruct (rev (c :: a)) as [|d r] eqn:E; [apply (f_equal (@length _)) in E; rewrite rev_length in E; discriminate|].
  rewrite trim_start_id.
  - rewrite <- E. apply rev_involutive.
  - apply F. apply in_rev. rewrite E. left. reflexivity.
Qed.

Lemma piece_no_colon w1 a w2 : blank w1 -> blank w2 -> plain_ident a -> Forall (fun c => c <> 58%N) (w1 ++ a ++ w2).
Proof.
  intros B1 B2 [_ F]. apply Forall_app. split; [apply blank_no_colon, B1|].
  apply Forall_app. split; [|apply blank_no_colon, B2]. eapply Forall_impl; [|exact F]. cbn. tauto.
Qed.

Definition add_path (ident : option str) (path : list str) : list str :=
  match ident with Some i => path ++ [i] | None => path end.

Section Ok.
  Variable ident_ok : str -> bool.

  Lemma parse_segs segs t : segs_text segs t -> Forall plain_ident segs -> Forall (fun s => ident_ok s = true) segs ->
    forall ident path abs, exists m i, segs = m ++ [i] /\
      parse_parts ident_ok (split_colons [] t) ident path abs = Ok (Some i, add_path ident path ++ m, abs).
  Proof.
    induction 1 as [a w1 w2 B1 B2|a segs w1 w2 t B1 B2 _ IH]; intros P OK ident path abs;
      inversion P as [|? ? Pa P']; subst; inversion OK as [|? ? Oa O']; subst.
    - exists [], a. split; [reflexivity|]. rewrite split_end by (apply piece_no_colon; assumption).
      cbn [rev app parse_parts]. rewrite trim_plain by assumption. destruct a as [|c a]; [destruct Pa; congruence|].
      rewrite Oa, app_nil_r. reflexivity.
    - replace (w1 ++ a ++ w2 ++ colons ++ t) with ((w1 ++ a ++ w2) ++ colons ++ t) by (rewrite <- !app_assoc; reflexivity).
      rewrite split_run by (apply piece_no_colon; assumption). cbn [rev app parse_parts].
      rewrite trim_plain by assumption. destruct a as [|c a]; [destruct Pa; congruence|]. rewrite Oa.
      destruct (IH P' O' (Some (c :: a)) (add_path ident path) abs) as (m & i & E & R).
      exists ((c :: a) :: m), i. split; [rewrite E; reflexivity|].
      cbn [add_path] in R. rewrite <- app_assoc in R. exact R.
  Qed.

  Lemma parse_text abs segs t : path_text abs segs t -> Forall plain_ident segs -> Forall (fun s => ident_ok s = true) segs ->
    exists m i, segs = m ++ [i] /\ path_parse ident_ok t = Ok (Path (Some m) i abs).
  Proof.
    intros T P O. destruct T as [segs t T|segs t w B T].
    - destruct (parse_segs segs t T P O None [] false) as (m & i & E & R). exists m, i. split; [exact E|].
      unfold path_parse. rewrite R. reflexivity.
    - destruct (parse_segs segs t T P O None [] true) as (m & i & E & R). exists m, i. split; [exact E|].
      unfold path_parse. rewrite split_run by (apply blank_no_colon, B). cbn [rev app parse_parts].
      rewrite trim_blank by exact B. rewrite R. reflexivity.
  Qed.
End Ok.

Lemma display_text m i : segs_text (m ++ [i]) (path_display (Path (Some m) i false)).
Proof.
  unfold path_display. cbn. induction m as [|a m IH]; cbn.
  - pose proof (ST_last i [] [] eq_refl eq_refl) as T. cbn [app] in T. rewrite app_nil_r in T. exact T.
  - rewrite <- !app_assoc. exact (ST_more a _ [] [] _ eq_refl eq_refl IH).
Qed.

Lemma snoc_inj {A} (m m' : list A) i i' : m ++ [i] = m' ++ [i'] -> m = m' /\ i = i'.
Proof. apply app_inj_tail. Qed.

(** When a parsed path is absolute. *)
Lemma trim_empty w : str_trim w = [] -> blank w.
Proof.
  unfold str_trim. intros H. apply (f_equal (@rev _)) in H. rewrite rev_involutive in H. cbn in H.
  assert (B : forall l, str_trim_start l = [] -> blank l).
  { clear. induction l as [|c l IH]; cbn; [reflexivity|]. unfold blank. cbn. destruct (unicode_ws c); [exact IH|discriminate]. }
  assert (K : forall l, str_trim_start l = [] \/ exists c r, str_trim_start l = c :: r /\ unicode_ws c = false).
  { clear. induction l as [|c l IH]; cbn; [now left|]. destruct (unicode_ws c) eqn:E; [exact IH|right; eauto]. }
  apply B. destruct (K w) as [E|(c & r & E & U)]; [exact E|]. rewrite E in H. apply B in H.
  unfold blank in H. rewrite forallb_rev in H. cbn in H. rewrite U in H. discriminate.
Qed.

Lemma split_first t : forall cur, (split_colons cur t = [rev cur ++ t]) \/
  exists h r, split_colons cur t = (rev cur ++ h) :: split_colons [] r /\ t = h ++ colons ++ r.
Proof.
  remember (length t) as n eqn:En. assert (Hn : length t <= n) by lia. clear En. revert t Hn.
  induction n as [|n IH]; intros t Hn cur.
  - destruct t; [|cbn in Hn; lia]. left. cbn. now rewrite app_nil_r.
  - destruct t as [|c t]; [left; cbn; now rewrite app_nil_r|]. cbn in Hn.
    destruct (N.eq_dec c 58) as [->|C].
    + destruct t as [|d t].
      * left. reflexivity.
      * destruct (N.eq_dec d 58) as [->|D].
        -- right. exists [], t. split; [|reflexivity]. cbn. now rewrite app_nil_r.
        -- assert (E : split_colons cur (58%N :: d :: t) = split_colons (58%N :: cur) (d :: t)).
           { cbn. destruct d as [|p]; [reflexivity|]. do 6 (destruct p; try reflexivity). congruence. }
           destruct (IH (d :: t) ltac:(cbn in *; lia) (58%N :: cur)) as [H|(h & r & H & Et)]; rewrite E, H; cbn [rev]; rewrite <- app_assoc.
           ++ left. reflexivity.
           ++ right. exists (58%N :: h), r. split; [reflexivity|]. now rewrite Et.
    + assert (E : split_colons cur (c :: t) = split_colons (c :: cur) t).
      { cbn. destruct c as [|p]; [reflexivity|]. do 6 (destruct p; try reflexivity). congruence. }
      destruct (IH t ltac:(lia) (c :: cur)) as [H|(h & r & H & Et)]; rewrite E, H; cbn [rev]; rewrite <- app_assoc.
      * left. reflexivity.
      * right. exists (c :: h), r. split; [reflexivity|]. now rewrite Et.
Qed.

Lemma parse_keeps ok parts : forall i path abs r, parse_parts ok parts (Some i) path abs = Ok r -> snd r = abs.
Proof.
  induction parts as [|part parts IH]; cbn; intros i path abs r H; [injection H as <-; reflexivity|].
  destruct (str_trim part) as [|c p]; [|destruct (ok (c :: p)); [eauto|discriminate]].
  assert (E : match path with [] => abs | _ :: _ => abs end = abs) by (now destruct path). rewrite E in H. eauto.
Qed.
Lemma parse_true ok parts : forall ident path r, parse_parts ok parts ident path true = Ok r -> snd r = true.
Proof.
  induction parts as [|part parts IH]; cbn; intros ident path r H; [injection H as <-; reflexivity|].
  destruct (str_trim part) as [|c p]; [|destruct (ok (c :: p)); [eauto|discriminate]].
  assert (E : match path, ident with [], None => true | _, _ => true end = true) by (destruct path, ident; reflexivity). rewrite E in H. eauto.
Qed.

Lemma parse_leading ok t p : path_parse ok t = Ok p ->
  (ip_absolute p = true <-> exists w r, blank w /\ t = w ++ colons ++ r).
Proof.
  unfold path_parse. intros H.
  destruct (parse_parts ok (split_colons [] t) None [] false) as [[[[i|] path] abs]| |] eqn:E; try discriminate. injection H as <-. cbn [ip_absolute].
  split.
  - intros ->. destruct (split_first t []) as [S|(h & r & S & Et)]; rewrite S in E; cbn [parse_parts rev app] in E.
    + destruct (str_trim t) as [|c q]; [congruence|]. destruct (ok (c :: q)); [|discriminate E]. congruence.
    + destruct (str_trim h) as [|c q] eqn:T; [exists h, r; split; [now apply trim_empty|exact Et]|].
      destruct (ok (c :: q)); [|congruence]. apply parse_keeps in E. cbn in E. congruence.
  - intros (w & r & B & ->). rewrite split_run in E by (apply blank_no_colon, B). cbn [parse_parts rev app] in E. rewrite trim_blank in E by exact B.
    apply parse_true in E. exact E.
Qed.

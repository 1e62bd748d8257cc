From Verif Require Import ScopeModel ScopeSpec DeProofs.
Local Open Scope string_scope.

Lemma ask_holds evs h : HInv (frames evs) (is_pending evs) h -> holds_scope (fst (namespaces h)) (enclosing evs).
Proof.
  intros HI. destruct (hinv_ask _ _ _ HI) as [E _]. rewrite E. split; [apply nsm_spec|apply nsm_nodup].
Qed.

Lemma leads_hinv ops h : leads_to ops h -> HInv (frames (events_of ops)) (is_pending (events_of ops)) h.
Proof. intros [W R]. apply hinv_run; assumption. Qed.

Lemma result_wrapped {T D} evs h (r : dresult T D) :
  HInv (frames evs) (is_pending evs) h -> (forall o h', r = Ok (o, h') -> helper_ok h h') ->
  wrapped (enclosing evs) r (scope_result r).
Proof.
  intros HI HO. destruct r as [[o h']|k|]; cbn; [|reflexivity|exact I].
  pose proof (hinv_ok _ _ _ _ HI (HO _ _ eq_refl)) as HI'.
  unfold map_output. destruct (o_art o) as [|t|d] eqn:E; cbn.
  - auto.
  - pose proof (ask_holds _ _ HI') as HH. destruct (namespaces h') as [m h2]. cbn in *. auto.
  - auto.
Qed.

Lemma value_wrapped {T} evs h (r : outcome kind (T * dhelper)) :
  HInv (frames evs) (is_pending evs) h -> (forall t h', r = Ok (t, h') -> helper_ok h h') ->
  wrapped_value (enclosing evs) r
    (match r with
     | Ok (t, h1) => let (m, h2) := namespaces h1 in Ok (Scoped t m, h2)
     | Err k => Err k
     | Panic => Panic
     end).
Proof.
  intros HI HO. destruct r as [[t h']|k|]; cbn; [|reflexivity|exact I].
  pose proof (hinv_ok _ _ _ _ HI (HO _ _ eq_refl)) as HI'.
  pose proof (ask_holds _ _ HI') as HH. destruct (namespaces h') as [m h2]. cbn in *. auto.
Qed.

Lemma namespaces_twice h : snd (namespaces (snd (namespaces h))) = snd (namespaces h).
Proof.
  unfold namespaces. destruct (d_cache h) as [|[l [m|]] c] eqn:E; cbn; rewrite ?E; cbn; rewrite ?E; reflexivity.
Qed.

Lemma ok_ask h h' : helper_ok h h' -> helper_ok h (snd (namespaces h')).
Proof. intros [->| ->]; [right; reflexivity|right; apply namespaces_twice]. Qed.

Lemma scope_respects {T D} (des : deser T D) : respects des -> respects (scope_des des).
Proof.
  intros (H1 & H2 & H3).
  assert (HM : forall (r : dresult T D) h, (forall o h', r = Ok (o, h') -> helper_ok h h') ->
     forall o h', scope_result r = Ok (o, h') -> helper_ok h h').
  { intros [[o h1]|k|] h HO o' h' E; cbn in E; try discriminate.
    specialize (HO _ _ eq_refl). unfold map_output in E.
    destruct (o_art o); try (injection E as <- <-; exact HO).
    pose proof (ok_ask _ _ HO) as HA. destruct (namespaces h1) as [m h2]. injection E as <- <-. exact HA. }
  repeat split.
  - intros h e o h' E. eapply HM; [|exact E]. intros; eapply H1; eassumption.
  - intros d h e o h' E. eapply HM; [|exact E]. intros; eapply H2; eassumption.
  - intros d h t h' E. cbn in E. unfold scope_finish in E.
    destruct (de_finish des d h) as [[t1 h1]|k|] eqn:F; try discriminate.
    pose proof (ok_ask _ _ (H3 _ _ _ _ F)) as HA. destruct (namespaces h1) as [m h2]. injection E as <- <-. exact HA.
Qed.

Lemma scope_gives_back {T D} (des : deser T D) : gives_back des -> gives_back (scope_des des).
Proof.
  intros (H1 & H2).
  assert (HM : forall (r : dresult T D) e, (forall o h' e', r = Ok (o, h') -> into_event (o_ev o) = Some e' -> e' = e) ->
     forall o h' e', scope_result r = Ok (o, h') -> into_event (o_ev o) = Some e' -> e' = e).
  { intros [[o h1]|k|] e HO o' h' e' E F; cbn in E; try discriminate.
    apply (HO _ _ e' eq_refl). unfold map_output in E.
    destruct (o_art o); try (injection E as <- <-; exact F).
    destruct (namespaces h1) as [m h2]. injection E as <- <-. exact F. }
  split.
  - intros h e o h' e' E. eapply HM; [|exact E]. intros; eapply H1; eassumption.
  - intros d h e o h' e' E. eapply HM; [|exact E]. intros; eapply H2; eassumption.
Qed.

(** ** Elements *)

Lemma open_balanced pre n a content : balanced_content content ->
  open_elements (pre ++ EStart n a :: content) = (open_elements pre ++ [(n, a)])%list.
Proof.
  intros (HW & HO & _).
  assert (HE : extra_ends content = 0) by (apply (HW content []); rewrite app_nil_r; reflexivity).
  rewrite <- (rev_involutive (open_elements (pre ++ _))), <- stk_nil. unfold stk. rewrite fold_left_app.
  cbn [fold_left]. fold (stk pre []). rewrite stk_nil.
  fold (stk content (stk_upd (rev (open_elements pre)) (EStart n a))).
  rewrite stk_spec, HE, HO. cbn. rewrite rev_involutive. reflexivity.
Qed.

Lemma enclosing_snoc evs e : enclosing (evs ++ [e]) =
  (open_elements evs ++ match e with EStart n a | EEmpty n a => [(n, a)] | _ => [] end)%list.
Proof. unfold enclosing. rewrite rev_app_distr. cbn [rev app]. rewrite rev_involutive. reflexivity. Qed.

Lemma enclosing_end pre n a content n' : balanced_content content ->
  enclosing (pre ++ EStart n a :: content ++ [EEnd n']) = (open_elements pre ++ [(n, a)])%list.
Proof.
  intros HB. change (EStart n a :: content ++ [EEnd n'])%list with ((EStart n a :: content) ++ [EEnd n'])%list.
  rewrite app_assoc, enclosing_snoc, open_balanced by exact HB. apply app_nil_r.
Qed.

(** ** The driver *)

Section Run.
  Context {T D : Type} (des : deser T D) (tb : bytes -> option bool).
  Hypothesis HR : respects des.

  Lemma step_scope v e : driver_step (scope_des des) tb v e =
    match dh_event (v_helper v) e with
    | None => Err (KXml "namespace")
    | Some h =>
        match driver_step des tb v e with
        | Ok (Some t, v') =>
            Ok (Some (Scoped t (fst (namespaces (v_helper v')))),
                Driver (snd (namespaces (v_helper v'))) (v_des v') (v_skip v'))
        | Ok (None, v') => Ok (None, v')
        | Err k => Err k
        | Panic => Panic
        end
    end.
  Proof.
    unfold driver_step. destruct (dh_event (v_helper v) e) as [h|]; [|reflexivity].
    destruct (handle_skip (v_skip v) e) as [skip [e'|]]; [|reflexivity].
    set (r := match v_des v with None => de_init des h e' | Some d => de_next des d h e' end).
    replace (match v_des v with None => de_init (scope_des des) h e' | Some d => de_next (scope_des des) d h e' end)
      with (scope_result r) by (unfold r; destruct (v_des v); reflexivity).
    destruct r as [[o h']|k|]; cbn; try reflexivity.
    unfold map_output. destruct (o_art o) as [|t|d] eqn:E; cbn [o_any o_ev o_art].
    - destruct (unconsumed tb skip (o_any o) (into_event (o_ev o))); reflexivity.
    - destruct (namespaces h') as [m h2] eqn:EN. cbn [o_any o_ev o_art].
      destruct (unconsumed tb skip (o_any o) (into_event (o_ev o))); try reflexivity. cbn. rewrite EN. reflexivity.
    - destruct (unconsumed tb skip (o_any o) (into_event (o_ev o))); reflexivity.
  Qed.

  Lemma step_err v e : dh_event (v_helper v) e = None -> driver_step des tb v e = Err (KXml "namespace").
  Proof. unfold driver_step. intros ->. reflexivity. Qed.

  Lemma run_scope evs : forall seen v, well_nested (seen ++ evs) ->
    HInv (frames seen) (is_pending seen) (v_helper v) ->
    match driver_run des tb v evs, driver_run (scope_des des) tb v evs with
    | RDone t rest, RDone s rest' => s_inner s = t /\ rest' = rest /\
        exists read, (evs = read ++ rest)%list /\ holds_scope (s_ns s) (enclosing (seen ++ read))
    | RErr k, RErr k' => k' = k
    | RPanic, RPanic => True
    | RMore w, RMore w' => w' = w
    | _, _ => False
    end.
  Proof.
    induction evs as [|e evs IH]; intros seen v HW HI; cbn [driver_run]; [reflexivity|].
    assert (EA : (seen ++ e :: evs = (seen ++ [e]) ++ evs)%list) by (rewrite <- app_assoc; reflexivity).
    assert (HS : well_nested seen) by (apply well_nested_prefix in HW; exact HW).
    rewrite step_scope. destruct (dh_event (v_helper v) e) as [h|] eqn:E.
    2:{ rewrite (step_err _ _ E). reflexivity. }
    destruct (driver_step des tb v e) as [[[t|] v1]|k|] eqn:F; try reflexivity.
    - repeat split. exists [e]. split; [reflexivity|].
      apply ask_holds. apply (driver_step_hinv des tb HR _ _ _ _ _ HS HI F).
    - rewrite EA in HW. specialize (IH (seen ++ [e])%list v1 HW (driver_step_hinv des tb HR _ _ _ _ _ HS HI F)).
      destruct (driver_run des tb v1 evs), (driver_run (scope_des des) tb v1 evs); try exact IH.
      destruct IH as (H1 & H2 & read & H3 & H4). repeat split; auto.
      exists (e :: read). split; [rewrite H3; reflexivity|]. rewrite <- app_assoc in H4. exact H4.
  Qed.
End Run.

Lemma run_scope_doc {T D} (des : deser T D) tb evs : respects des -> well_nested evs ->
  match driver_run des tb driver_new evs, driver_run (scope_des des) tb driver_new evs with
  | RDone t rest, RDone s rest' => s_inner s = t /\ rest' = rest /\
      exists read, (evs = read ++ rest)%list /\ holds_scope (s_ns s) (enclosing read)
  | RErr k, RErr k' => k' = k
  | RPanic, RPanic => True
  | RMore w, RMore w' => w' = w
  | _, _ => False
  end.
Proof. intros HR HW. apply (run_scope des tb HR evs [] driver_new HW). apply hinv_default. Qed.

(** ** Names *)

Lemma name_kept els ops h m p local attribute : leads_to ops h -> enclosing (events_of ops) = els ->
  holds_scope m els -> p <> "" -> split_colon (p ++ ":" ++ local) = Some (p, local) -> p <> "xml" -> p <> "xmlns" ->
  forall ns, In (p, ns) m <-> dh_resolve (d_res h) (p ++ ":" ++ local) attribute = (RBound ns, local).
Proof.
  intros [HW HR] <- [HH _] Hp HS H1 H2 ns. rewrite (resolve_correct ops h p local attribute HW HR HS H1 H2 ns).
  rewrite HH. destruct p; [congruence|reflexivity].
Qed.

Lemma plain_kept els ops h m name : leads_to ops h -> enclosing (events_of ops) = els ->
  holds_scope m els -> split_colon name = None ->
  forall ns, In ("", ns) m <-> dh_resolve (d_res h) name false = (RBound ns, name).
Proof.
  intros [HW HR] <- [HH _] HS ns. destruct (resolve_plain_correct ops h name HW HR HS) as [HB _]. rewrite HB, HH. reflexivity.
Qed.

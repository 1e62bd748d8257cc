From Verif Require Import SerHelperModel SerHelperSpec SerHelperProofs.
From Verif Require Import DeModel DeSpec DeProofs ElementModel ElementSpec.
Local Open Scope string_scope.

(** ** Induction principles *)

Section ElementInd.
  Variable P : element -> Prop.
  Definition Pv (v : value) : Prop := match v with VElem x => P x | _ => True end.
  Hypothesis H : forall n a m vs, Forall Pv vs -> P (Element n a m vs).
  Fixpoint element_ind' (e : element) : P e :=
    match e with
    | Element n a m vs => H n a m vs
        ((fix go (l : list value) : Forall Pv l :=
            match l with
            | [] => Forall_nil _
            | v :: l' => Forall_cons v (match v return Pv v with VElem x => element_ind' x | _ => I end) (go l')
            end) vs)
    end.
End ElementInd.

Section TreeInd.
  Variable P : xtree -> Prop.
  Hypothesis HL : forall e, P (XLeaf e).
  Hypothesis HE : forall n a, P (XEmpty n a).
  Hypothesis HN : forall n a kids, Forall P kids -> P (XElem n a kids).
  Fixpoint xtree_ind' (t : xtree) : P t :=
    match t with
    | XLeaf e => HL e
    | XEmpty n a => HE n a
    | XElem n a kids => HN n a kids
        ((fix go (l : list xtree) : Forall P l :=
            match l with [] => Forall_nil _ | x :: l' => Forall_cons x (xtree_ind' x) (go l') end) kids)
    end.
End TreeInd.

(** ** Serializer *)

Definition ns_prefix (p : bytes) : option bytes := if String.eqb p "" then None else Some p.

Lemma write_namespaces_run h m :
  fst (write_namespaces h m) = hrun h (map (fun x => HWrite (ns_prefix (fst x)) (snd x)) m).
Proof.
  revert h; induction m as [|[p ns] m IH]; intros h; [reflexivity|].
  cbn [write_namespaces map fst snd hrun hstep]. rewrite <- IH. unfold ns_prefix.
  destruct (write_xmlns h (if String.eqb p "" then None else Some p) ns) as [h1 a1]. cbn [fst].
  destruct (write_namespaces h1 m); reflexivity.
Qed.

Lemma write_namespaces_all h m :
  write_namespaces h m = write_all h (map (fun x => (ns_prefix (fst x), snd x)) m).
Proof.
  revert h; induction m as [|[p ns] m IH]; intros h; [reflexivity|].
  cbn [write_namespaces map fst snd write_all]. unfold ns_prefix at 1.
  destruct (write_xmlns h (if String.eqb p "" then None else Some p) ns) as [h1 a1].
  rewrite IH. reflexivity.
Qed.

Lemma writes_balanced (m : nsmap) : balanced (map (fun x => HWrite (ns_prefix (fst x)) (snd x)) m).
Proof. unfold balanced. induction m as [|x m IH]; cbn; [reflexivity|exact IH]. Qed.

Lemma scope_closed h m : Lv h -> end_ns_scope (fst (write_namespaces (begin_ns_scope h) m)) = h.
Proof.
  intros HL. rewrite write_namespaces_run.
  pose proof (scope_restores h _ HL (writes_balanced m)) as HS. cbn [hrun hstep fst] in HS.
  rewrite hrun_app in HS. exact HS.
Qed.

Lemma scope_lv h m : Lv h -> Lv (fst (write_namespaces (begin_ns_scope h) m)).
Proof.
  intros HL. rewrite write_namespaces_run.
  change (begin_ns_scope h) with (hrun h [HBegin]). rewrite <- hrun_app. apply lv_run, HL.
Qed.

Section Ser.
  Variable utf8_ok : bytes -> bool.

  Inductive steps : eser -> helper -> list event -> eser -> helper -> Prop :=
  | st_refl s h : steps s h [] s h
  | st_step s h e s1 h1 evs s' h' :
      eser_next utf8_ok s h = (Some (Ok e), s1, h1) -> steps s1 h1 evs s' h' -> steps s h (e :: evs) s' h'.

  Lemma steps_app s h a s1 h1 b s2 h2 : steps s h a s1 h1 -> steps s1 h1 b s2 h2 -> steps s h (a ++ b) s2 h2.
  Proof. intros H1 H2; induction H1; cbn; [exact H2|econstructor; eauto]. Qed.

  Lemma steps_lift s h evs s' h' n e vs : steps s h evs s' h' ->
    steps (SSub n e vs s) h evs (SSub n e vs s') h'.
  Proof.
    intros H; induction H as [s h|s h ev s1 h1 evs s' h' E _ IH]; [constructor|].
    econstructor; [|exact IH]. cbn [eser_next]. rewrite E. reflexivity.
  Qed.

  Lemma steps_same s1 s2 h ev evs s' h' :
    eser_next utf8_ok s1 h = eser_next utf8_ok s2 h -> steps s2 h (ev :: evs) s' h' -> steps s1 h (ev :: evs) s' h'.
  Proof. intros E H. inversion H; subst. econstructor; [rewrite E|]; eassumption. Qed.

  Lemma steps_run s h evs h' : steps s h evs SDone h' ->
    forall fuel, length evs < fuel -> ser_run (eser_next utf8_ok) fuel s h = SRDone evs h'.
  Proof.
    intros H; remember SDone as d eqn:Ed.
    induction H as [s h|s h ev s1 h1 evs s' h' E _ IH]; intros fuel HF; (destruct fuel as [|fuel]; [cbn in HF; lia|]); cbn [ser_run].
    - subst s. reflexivity.
    - rewrite E, IH; [reflexivity|exact Ed|cbn in HF; lia].
  Qed.

  Fixpoint names_ok (e : element) : bool :=
    let 'Element n _ _ vs := e in
    utf8_ok n && (fix go l := match l with
                              | [] => true
                              | VElem x :: l' => names_ok x && go l'
                              | _ :: l' => go l'
                              end) vs.
  Definition vnames_ok (v : value) : bool := match v with VElem x => names_ok x | _ => true end.
  Lemma names_ok_eq n a m vs : names_ok (Element n a m vs) = utf8_ok n && forallb vnames_ok vs.
  Proof.
    cbn. f_equal. induction vs as [|v vs IH]; [reflexivity|]. destruct v; cbn; rewrite IH; reflexivity.
  Qed.
  (** Names below the root. *)
  Definition kids_ok (e : element) : bool := forallb vnames_ok (el_values e).

  (** The document tree written for an element. *)
  Definition start_of (e : element) (h : helper) : helper * list attr :=
    let (h1, a1) := write_namespaces (begin_ns_scope h) (el_ns e) in
    (h1, (a1 ++ filter (keep_attr (el_ns e)) (el_attrs e))%list).

  Fixpoint tree_of (n : bytes) (e : element) (h : helper) {struct e} : xtree :=
    let 'Element _ a m vs := e in
    let (h1, at1) := start_of (Element n a m vs) h in
    match vs with
    | [] => XEmpty n at1
    | _ => XElem n at1
        ((fix go l := match l with
                      | [] => []
                      | v :: l' =>
                          match v with
                          | VElem x => tree_of (el_name x) x h1
                          | VComment c => XLeaf (EComment c)
                          | VCData c => XLeaf (ECData c)
                          | VText c => XLeaf (EText c)
                          end :: go l'
                      end) vs)
    end.
  Definition vtree (h : helper) (v : value) : xtree :=
    match v with
    | VElem x => tree_of (el_name x) x h
    | VComment c => XLeaf (EComment c)
    | VCData c => XLeaf (ECData c)
    | VText c => XLeaf (EText c)
    end.
  Lemma tree_of_eq n e h : tree_of n e h =
    match el_values e with
    | [] => XEmpty n (snd (start_of e h))
    | vs => XElem n (snd (start_of e h)) (map (vtree (fst (start_of e h))) vs)
    end.
  Proof.
    destruct e as [n0 a m vs]. cbn [tree_of el_values].
    change (start_of (Element n a m vs) h) with (start_of (Element n0 a m vs) h).
    destruct (start_of (Element n0 a m vs) h) as [h1 at1]. cbn [fst snd].
    destruct vs as [|v vs]; reflexivity.
  Qed.

  Lemma start_of_eq e h : start_of e h =
    (fst (write_namespaces (begin_ns_scope h) (el_ns e)),
     (snd (write_namespaces (begin_ns_scope h) (el_ns e)) ++ filter (keep_attr (el_ns e)) (el_attrs e))%list).
  Proof. unfold start_of. destruct (write_namespaces _ _); reflexivity. Qed.

  Lemma do_start_eq name n e h : tag_name utf8_ok name e = Ok n -> do_start utf8_ok name e h =
    match el_values e with
    | [] => (Some (Ok (EEmpty n (snd (start_of e h)))), SDone, end_ns_scope (fst (start_of e h)))
    | vs => (Some (Ok (EStart n (snd (start_of e h)))), SNext name e vs, fst (start_of e h))
    end.
  Proof.
    intros E. unfold do_start, start_of. rewrite E.
    destruct (write_namespaces (begin_ns_scope h) (el_ns e)) as [h1 a1]. cbn [fst snd].
    destruct (el_values e); reflexivity.
  Qed.

  Definition SerOk (e : element) : Prop := forall name n h, Lv h ->
    tag_name utf8_ok name e = Ok n -> kids_ok e = true ->
    steps (SStart name e) h (flatten (tree_of n e h)) SDone h.

  Lemma values_steps name n e h1 : Lv h1 -> tag_name utf8_ok name e = Ok n ->
    forall vs, Forall (Pv SerOk) vs -> forallb vnames_ok vs = true ->
    steps (SNext name e vs) h1 (flat_map flatten (map (vtree h1) vs) ++ [EEnd n]) SDone (end_ns_scope h1).
  Proof.
    intros HL HN vs; induction vs as [|v vs IH]; intros HF HK.
    - cbn. econstructor; [|constructor]. cbn. unfold do_end. rewrite HN. reflexivity.
    - inversion HF as [|? ? Hv Hvs]; subst. cbn [forallb] in HK. apply andb_true_iff in HK. destruct HK as [Kv Kvs].
      specialize (IH Hvs Kvs).
      destruct v as [x|c|c|c]; cbn [map vtree flat_map flatten app];
        try (econstructor; [reflexivity|exact IH]).
      cbn in Hv, Kv. destruct x as [xn xa xm xv] eqn:Ex. rewrite names_ok_eq in Kv. apply andb_true_iff in Kv. destruct Kv as [Kn Kk].
      assert (HT : tag_name utf8_ok None x = Ok xn) by (rewrite Ex; cbn; rewrite Kn; reflexivity).
      rewrite <- Ex in *. assert (Exn : el_name x = xn) by (rewrite Ex; reflexivity). rewrite Exn.
      assert (HX : steps (SStart None x) h1 (flatten (tree_of xn x h1)) SDone h1).
      { apply Hv; [exact HL|exact HT|]. unfold kids_ok. rewrite Ex. exact Kk. }
      remember (flatten (tree_of xn x h1)) as evx eqn:Eevx.
      destruct evx as [|ev evs].
      { exfalso. rewrite tree_of_eq in Eevx. destruct (el_values x); discriminate Eevx. }
      inversion HX as [|? ? ? s1 h2 ? ? ? Hst Hrest]; subst. rewrite <- app_assoc. cbn [app].
      econstructor.
      + cbn [eser_next do_next]. cbn [eser_next] in Hst. rewrite Hst. reflexivity.
      + eapply steps_app; [apply steps_lift; exact Hrest|].
        destruct (flat_map flatten (map (vtree h1) vs) ++ [EEnd n])%list as [|ev2 evs2] eqn:E2.
        { apply app_eq_nil in E2. destruct E2; discriminate. }
        eapply steps_same; [|exact IH]. reflexivity.
  Qed.

  Lemma ser_ok e : SerOk e.
  Proof.
    induction e as [n0 a m vs IH] using element_ind'. intros name n h HL HT HK.
    set (e := Element n0 a m vs) in *.
    assert (HC : end_ns_scope (fst (start_of e h)) = h) by (rewrite start_of_eq; apply scope_closed, HL).
    assert (HL1 : Lv (fst (start_of e h))) by (rewrite start_of_eq; apply scope_lv, HL).
    rewrite tree_of_eq. pose proof (do_start_eq name n e h HT) as HD.
    change (el_values e) with vs in *. destruct vs as [|v vs0] eqn:Evs.
    - cbn [flatten]. econstructor; [cbn [eser_next]; rewrite HD, HC; reflexivity|constructor].
    - rewrite <- Evs in *. cbn [flatten]. econstructor.
      + cbn [eser_next]. rewrite HD, Evs. reflexivity.
      + pose proof (values_steps name n e _ HL1 HT vs IH) as HV. rewrite HC in HV. apply HV.
        unfold kids_ok in HK. subst vs. exact HK.
  Qed.

  (** Invalid names *)
  Inductive fails : eser -> helper -> list event -> kind -> Prop :=
  | f_here s h k s' h' : eser_next utf8_ok s h = (Some (Err k), s', h') -> fails s h [] k
  | f_step s h e s1 h1 evs k : eser_next utf8_ok s h = (Some (Ok e), s1, h1) -> fails s1 h1 evs k -> fails s h (e :: evs) k.

  Lemma fails_run s h evs k : fails s h evs k ->
    forall fuel, length evs < fuel -> ser_run (eser_next utf8_ok) fuel s h = SRErr evs k.
  Proof.
    intros H; induction H as [s h k s' h' E|s h ev s1 h1 evs k E _ IH]; intros fuel HF;
      (destruct fuel as [|fuel]; [cbn in HF; lia|]); cbn [ser_run]; rewrite E; [reflexivity|].
    rewrite IH; [reflexivity|cbn in HF; lia].
  Qed.
  Lemma fails_app s h a s1 h1 b k : steps s h a s1 h1 -> fails s1 h1 b k -> fails s h (a ++ b) k.
  Proof. intros H1 H2; induction H1; cbn; [exact H2|econstructor; eauto]. Qed.
  Lemma fails_lift s h evs k n e vs : fails s h evs k -> fails (SSub n e vs s) h evs k.
  Proof.
    intros H; induction H as [s h k s' h' E|s h ev s1 h1 evs k E _ IH].
    - eapply f_here. cbn [eser_next]. rewrite E. reflexivity.
    - eapply f_step; [|exact IH]. cbn [eser_next]. rewrite E. reflexivity.
  Qed.
  Lemma fails_same s1 s2 h evs k :
    eser_next utf8_ok s1 h = eser_next utf8_ok s2 h -> fails s2 h evs k -> fails s1 h evs k.
  Proof. intros E H. inversion H; subst; [eapply f_here|eapply f_step]; try rewrite E; eassumption. Qed.

  Definition SerErr (e : element) : Prop := forall name n h, Lv h ->
    tag_name utf8_ok name e = Ok n -> kids_ok e = false ->
    exists evs, fails (SStart name e) h evs KUtf8.

  Lemma values_fail name n e h1 : Lv h1 -> tag_name utf8_ok name e = Ok n ->
    forall vs, Forall (Pv SerErr) vs -> forallb vnames_ok vs = false ->
    exists evs, fails (SNext name e vs) h1 evs KUtf8.
  Proof.
    intros HL HN vs; induction vs as [|v vs IH]; intros HF HK; [discriminate|].
    inversion HF as [|? ? Hv Hvs]; subst. cbn [forallb] in HK.
    destruct v as [x|c|c|c]; cbn [vnames_ok] in HK;
      try (destruct (IH Hvs HK) as [evs HE]; eexists; eapply f_step; [reflexivity|exact HE]).
    cbn in Hv. destruct x as [xn xa xm xv] eqn:Ex. rewrite names_ok_eq in HK. rewrite <- Ex in *.
    destruct (utf8_ok xn) eqn:Kn.
    - assert (HT : tag_name utf8_ok None x = Ok xn) by (rewrite Ex; cbn; rewrite Kn; reflexivity).
      assert (Exv : kids_ok x = forallb vnames_ok xv) by (rewrite Ex; reflexivity).
      cbn [andb] in HK. destruct (forallb vnames_ok xv) eqn:Kk; cbn [andb] in HK.
      + destruct (IH Hvs HK) as [evs HE].
        assert (HX : steps (SStart None x) h1 (flatten (tree_of xn x h1)) SDone h1).
        { apply ser_ok; [exact HL|exact HT|exact Exv]. }
        remember (flatten (tree_of xn x h1)) as evx eqn:Eevx.
        destruct evx as [|ev evs1].
        { exfalso. rewrite tree_of_eq in Eevx. destruct (el_values x); discriminate Eevx. }
        inversion HX as [|? ? ? s1 h2 ? ? ? Hst Hrest]; subst s h e0 evs0 s' h'.
        exists (ev :: evs1 ++ evs). eapply f_step.
        * cbn [eser_next do_next]. cbn [eser_next] in Hst. rewrite Hst. reflexivity.
        * eapply fails_app; [apply steps_lift; exact Hrest|].
          eapply fails_same; [|exact HE]. reflexivity.
      + destruct (Hv None xn h1 HL HT Exv) as [evs HE].
        exists evs. inversion HE as [? ? ? s' h' Hst|? ? ev s1 h2 evs1 ? Hst Hrest]; subst.
        * eapply f_here. cbn [eser_next do_next]. cbn [eser_next] in Hst. rewrite Hst. reflexivity.
        * eapply f_step; [|apply fails_lift; exact Hrest]. cbn [eser_next do_next]. cbn [eser_next] in Hst. rewrite Hst. reflexivity.
    - exists []. eapply f_here. cbn [eser_next do_next].
      assert (HD : do_start utf8_ok None x h1 = (Some (Err KUtf8), SDone, h1)).
      { unfold do_start, tag_name. rewrite Ex. cbn [el_name]. rewrite Kn. reflexivity. }
      rewrite HD. reflexivity.
  Qed.

  Lemma ser_err e : SerErr e.
  Proof.
    induction e as [n0 a m vs IH] using element_ind'. intros name n h HL HT HK.
    set (e := Element n0 a m vs) in *.
    assert (HL1 : Lv (fst (start_of e h))) by (rewrite start_of_eq; apply scope_lv, HL).
    pose proof (do_start_eq name n e h HT) as HD. unfold kids_ok in HK.
    change (el_values e) with vs in *. destruct vs as [|v vs0] eqn:Evs; [discriminate|].
    rewrite <- Evs in *. destruct (values_fail name n e _ HL1 HT vs IH HK) as [evs HE].
    eexists. eapply f_step; [|exact HE]. cbn [eser_next]. rewrite HD, Evs. reflexivity.
  Qed.

  Lemma tree_root n e h : root_name (tree_of n e h) = Some n.
  Proof. rewrite tree_of_eq. destruct (el_values e); reflexivity. Qed.

  Lemma tree_proper e : forall n h, proper (tree_of n e h) = true.
  Proof.
    induction e as [n0 a m vs IH] using element_ind'. intros n h. rewrite tree_of_eq.
    cbn [el_values]. destruct vs as [|v vs]; [reflexivity|]. cbn [proper].
    revert IH. generalize (fst (start_of (Element n0 a m (v :: vs)) h)). generalize (v :: vs).
    intros l h1 HF. induction HF as [|x l Hx _ IHl]; [reflexivity|]. cbn [map forallb]. rewrite IHl, andb_true_r.
    destruct x; cbn; [apply Hx|reflexivity|reflexivity|reflexivity].
  Qed.

  Lemma element_ser_total name e h : Lv h ->
    exists N, forall fuel, N < fuel ->
    match tag_name utf8_ok name e, kids_ok e with
    | Ok n, true => exists t, root_name t = Some n /\ proper t = true /\
        element_ser_run utf8_ok fuel name e h = SRDone (flatten t) h
    | _, _ => exists evs, element_ser_run utf8_ok fuel name e h = SRErr evs KUtf8
    end.
  Proof.
    intros HL. unfold element_ser_run. destruct (tag_name utf8_ok name e) as [n|k|] eqn:HT.
    - destruct (kids_ok e) eqn:HK.
      + exists (length (flatten (tree_of n e h))). intros fuel HF. exists (tree_of n e h).
        split; [apply tree_root|]. split; [apply tree_proper|].
        apply steps_run; [apply ser_ok; assumption|exact HF].
      + destruct (ser_err e name n h HL HT HK) as [evs HE]. exists (length evs). intros fuel HF.
        exists evs. apply fails_run; assumption.
    - exists 0. intros fuel HF. exists []. destruct fuel as [|fuel]; [lia|]. cbn.
      unfold do_start. rewrite HT. unfold tag_name in HT. destruct name; [discriminate|].
      destruct (utf8_ok (el_name e)); [discriminate|]. injection HT as <-. reflexivity.
    - unfold tag_name in HT. destruct name; [discriminate|]. destruct (utf8_ok (el_name e)); discriminate.
  Qed.
End Ser.

(** ** Well-formed start tags *)

Lemma starts_with_app p s : starts_with p s = true -> s = p ++ str_drop (String.length p) s.
Proof.
  revert s; induction p as [|c p IH]; intros s; cbn; [reflexivity|].
  destruct s as [|d s]; [discriminate|]. intros H. apply andb_true_iff in H. destruct H as [H1 H2].
  apply Ascii.eqb_eq in H1. subst d. f_equal. apply IH, H2.
Qed.

Lemma starts_with_refl p s : starts_with p (p ++ s) = true.
Proof. induction p as [|c p IH]; cbn; [reflexivity|]. rewrite Ascii.eqb_refl. exact IH. Qed.

Lemma str_drop_app p s : str_drop (String.length p) (p ++ s) = s.
Proof. induction p as [|c p IH]; cbn; [reflexivity|exact IH]. Qed.

Definition written_key (p : bytes) : bytes := xmlns_key (filter_prefix (Some p)).

Lemma ns_prefix_filter p : ns_prefix p = filter_prefix (Some p).
Proof. destruct p; reflexivity. Qed.

Lemma written_keys h m k v : In (k, v) (snd (write_namespaces h m)) ->
  exists p, k = written_key p /\ In (p, v) m.
Proof.
  revert h; induction m as [|[p ns] m IH]; intros h; [intros []|]. cbn [write_namespaces].
  destruct (write_xmlns h _ ns) as [h1 a1] eqn:E1. destruct (write_namespaces h1 m) as [h2 a2] eqn:E2.
  cbn [snd]. rewrite in_app_iff. intros [HI|HI].
  - exists p. unfold write_xmlns in E1.
    destruct (find_ns ns (h_ns h)); [destruct (opt_eqb _ _)|]; unfold add_namespace_entry in E1;
      injection E1 as <- <-; try (destruct HI; fail).
    + destruct HI as [HI|[]]. injection HI as <- <-. split; [|left; reflexivity].
      unfold written_key. fold (ns_prefix p). rewrite ns_prefix_filter, filter_prefix_idem. reflexivity.
    + destruct HI as [HI|[]]. injection HI as <- <-. split; [|left; reflexivity].
      unfold written_key. fold (ns_prefix p). rewrite ns_prefix_filter, filter_prefix_idem. reflexivity.
  - destruct (IH h1) as (q & Hq & Hin); [rewrite E2; exact HI|]. exists q. split; [exact Hq|right; exact Hin].
Qed.

Lemma filter_prefix_inj p q : filter_prefix (Some p) = filter_prefix (Some q) -> p = q.
Proof. destruct p, q; cbn; congruence. Qed.

Lemma written_nodup h m : NoDup (map fst m) -> NoDup (map fst (snd (write_namespaces h m))).
Proof.
  intros HN. rewrite write_namespaces_all. apply write_all_nodup. rewrite map_map. cbn [fst].
  induction m as [|[p ns] m IH]; cbn; [constructor|]. inversion HN; subst.
  constructor; [|apply IH; assumption]. intros HI. apply in_map_iff in HI. destruct HI as ([q w] & Hq & HI).
  cbn in Hq. rewrite !ns_prefix_filter, !filter_prefix_idem in Hq. apply filter_prefix_inj in Hq. subst q.
  apply H1. apply in_map_iff. exists (p, w); auto.
Qed.

Lemma keep_not_written m a : keep_attr m a = true -> forall p v, In (p, v) m -> fst a <> written_key p.
Proof.
  unfold keep_attr, written_key. intros HK p v HI HE.
  assert (HA : assoc p m <> None) by (rewrite assoc_none; intros HN; apply HN, in_map_iff; exists (p, v); auto).
  destruct p as [|c s]; cbn [filter_prefix xmlns_key] in HE.
  - rewrite HE in HK. cbn in HK. destruct (assoc "" m); [discriminate|congruence].
  - rewrite HE in HK. destruct (String.eqb_spec ("xmlns:" ++ String c s) "xmlns") as [E|_]; [discriminate E|].
    rewrite starts_with_refl in HK. change 6 with (String.length "xmlns:") in HK. rewrite str_drop_app in HK.
    destruct (assoc (String c s) m); [discriminate|congruence].
Qed.

Lemma NoDup_app {A} (a b : list A) : NoDup a -> NoDup b -> (forall x, In x a -> ~ In x b) -> NoDup (a ++ b).
Proof.
  intros Ha Hb HD; induction Ha as [|x a Hx Ha IH]; cbn; [exact Hb|].
  constructor; [|apply IH; intros y Hy; apply HD; right; exact Hy].
  rewrite in_app_iff. intros [H|H]; [tauto|]. apply (HD x); [left; reflexivity|exact H].
Qed.

Lemma NoDup_map_filter {A B} (f : A -> B) (p : A -> bool) l : NoDup (map f l) -> NoDup (map f (filter p l)).
Proof.
  induction l as [|x l IH]; cbn; intros H; [constructor|]. inversion H; subst.
  destruct (p x); cbn; [|apply IH; assumption]. constructor; [|apply IH; assumption].
  intros HI. apply H2. apply in_map_iff in HI. destruct HI as (y & Hy & HI). apply filter_In in HI.
  apply in_map_iff. exists y; tauto.
Qed.

Lemma start_good e h : NoDup (map fst (el_attrs e)) -> NoDup (map fst (el_ns e)) ->
  Forall legal_decl (el_attrs e) ->
  Forall (fun x => legal_decl (written_key (fst x), snd x)) (el_ns e) ->
  good_tag (snd (start_of e h)).
Proof.
  intros Ha Hm La Lm. rewrite start_of_eq. cbn [snd]. split.
  - rewrite map_app. apply NoDup_app.
    + apply written_nodup, Hm.
    + apply NoDup_map_filter, Ha.
    + intros k Hk1 Hk2. apply in_map_iff in Hk1. destruct Hk1 as ([k' v] & E1 & HI1). cbn in E1; subst k'.
      apply written_keys in HI1. destruct HI1 as (p & Ek & Hp).
      apply in_map_iff in Hk2. destruct Hk2 as (a & Ea & HIa). apply filter_In in HIa. destruct HIa as [_ HK].
      apply (keep_not_written _ _ HK p v Hp). congruence.
  - apply Forall_app; split.
    + apply Forall_forall. intros [k v] HI. apply written_keys in HI. destruct HI as (p & -> & Hp).
      rewrite Forall_forall in Lm. apply (Lm (p, v) Hp).
    + apply Forall_forall. intros a HI. apply filter_In in HI. rewrite Forall_forall in La. apply La, HI.
Qed.

Definition vgood (utf8_ok : bytes -> bool) (v : value) : Prop :=
  match v with VElem x => good_element utf8_ok x | _ => True end.

Lemma good_element_eq u n a m vs : good_element u (Element n a m vs) <->
  (u n = true /\ NoDup (map fst a) /\ NoDup (map fst m) /\ Forall legal_decl a /\
   Forall (fun x => legal_decl (written_key (fst x), snd x)) m /\ Forall (vgood u) vs).
Proof.
  cbn [good_element].
  assert (E : (fix go l := match l with
               | [] => True
               | VElem x :: l' => good_element u x /\ go l'
               | _ :: l' => go l'
               end) vs <-> Forall (vgood u) vs).
  { induction vs as [|v vs IH]; [split; constructor|]. split.
    - intros H. destruct v; constructor; cbn; try exact I; try apply IH; try exact H; apply H.
    - intros H. inversion H; subst. destruct v; [split; [assumption|]|..]; apply IH; assumption. }
  rewrite E. reflexivity.
Qed.

Lemma good_names u e : good_element u e -> names_ok u e = true.
Proof.
  induction e as [n a m vs IH] using element_ind'. intros HG. apply good_element_eq in HG.
  destruct HG as (Hn & _ & _ & _ & _ & HV). rewrite names_ok_eq, Hn. cbn.
  induction HV as [|v vs Hv HV IHv]; [reflexivity|]. inversion IH; subst. cbn. rewrite IHv; [|assumption].
  rewrite andb_true_r. destruct v; cbn; auto.
Qed.


Lemma written_tags u e : forall n h, good_element u e -> Forall good_tag (tree_tags (tree_of n e h)).
Proof.
  induction e as [n0 a m vs IH] using element_ind'. intros n h HG. rewrite tree_of_eq.
  pose proof HG as HG0. apply good_element_eq in HG. destruct HG as (_ & Ha & Hm & La & Lm & HV).
  assert (HS : good_tag (snd (start_of (Element n0 a m vs) h))) by (apply start_good; assumption).
  cbn [el_values]. revert HS. generalize (start_of (Element n0 a m vs) h). intros [h1 at1] HS. cbn [fst snd] in *.
  assert (HK : Forall good_tag (flat_map tree_tags (map (vtree h1) vs))).
  { clear HS Ha Hm La Lm HG0. induction vs as [|v vs IHv]; cbn; [constructor|].
    inversion IH; subst. inversion HV; subst. apply Forall_app; split; [|apply IHv; assumption].
    destruct v; cbn; try constructor. apply H1, H3. }
  destruct vs as [|v vs0]; cbn [tree_tags]; constructor; auto.
Qed.

(** ** Deserializer *)

Lemma push_attrs_legal l attrs bs : Forall legal_decl attrs -> exists bs', push_attrs l bs attrs = Some bs'.
Proof.
  intros H; revert bs; induction H as [|[k v] attrs Ha _ IH]; intros bs; [eexists; reflexivity|].
  cbn [push_attrs push_attr]. unfold legal_decl in Ha. cbn [fst snd] in Ha.
  destruct (xmlns_decl k) as [[p|]|]; [|apply IH|apply IH].
  destruct (String.eqb p "xml").
  - subst v. rewrite String.eqb_refl. apply IH.
  - destruct Ha as (H1 & H2 & H3). apply String.eqb_neq in H1, H2, H3. rewrite H1, H2, H3. apply IH.
Qed.

Lemma nodup_keys_true a : NoDup (map fst a) -> nodup_keys a = true.
Proof.
  induction a as [|[k v] a IH]; cbn; intros H; [reflexivity|]. inversion H; subst.
  rewrite IH; [|assumption]. rewrite andb_true_r. apply negb_true_iff.
  destruct (existsb _ a) eqn:E; [|reflexivity]. apply existsb_exists in E. destruct E as (x & Hx & Ex).
  apply String.eqb_eq in Ex. subst k. exfalso. apply H2, in_map_iff. exists x; auto.
Qed.

Lemma nodup_keys_sound a : nodup_keys a = true -> NoDup (map fst a).
Proof.
  induction a as [|[k v] a IH]; cbn; intros H; [constructor|]. apply andb_true_iff in H. destruct H as [H1 H2].
  constructor; [|apply IH, H2]. intros HI. apply in_map_iff in HI. destruct HI as (x & <- & Hx).
  apply negb_true_iff in H1. assert (E : existsb (fun x0 => String.eqb (fst x) (fst x0)) a = true).
  { apply existsb_exists. exists x. split; [exact Hx|apply String.eqb_refl]. }
  congruence.
Qed.

Section EdesInd.
  Variable P : edes -> Prop.
  Hypothesis H0 : forall el, P (EDes el None).
  Hypothesis H1 : forall el s, P s -> P (EDes el (Some s)).
  Fixpoint edes_ind' (d : edes) : P d :=
    match d with
    | EDes el None => H0 el
    | EDes el (Some s) => H1 el s (edes_ind' s)
    end.
End EdesInd.

Definition tags_of (els : list (bytes * list attr)) : list (list attr) := map snd (rev els).
Definition Ready (els : list (bytes * list attr)) (h : dhelper) : Prop := HInv (tags_of els) false (dh_pop h).

Lemma tags_of_snoc els n a : tags_of (els ++ [(n, a)]) = a :: tags_of els.
Proof. unfold tags_of. rewrite rev_app_distr. reflexivity. Qed.

Lemma ready_default : Ready [] dhelper_default.
Proof. exact hinv_default. Qed.

Lemma enter_some S0 h a b : HInv S0 false h -> good_tag a -> exists h1, dh_enter h a b = Some h1.
Proof.
  intros HI [_ HL]. unfold dh_enter, resolver_push.
  destruct (push_attrs_legal (S (r_level (d_res h))) a (r_bindings (d_res h)) HL) as [bs ->].
  eexists; reflexivity.
Qed.

Lemma ready_start els h n a : Ready els h -> good_tag a ->
  exists h1, dh_event h (EStart n a) = Some h1 /\ HInv (tags_of (els ++ [(n, a)])) false h1.
Proof.
  intros HR HG. destruct (enter_some _ _ a false HR HG) as [h1 E]. exists h1.
  split; [exact E|]. rewrite tags_of_snoc. apply (hinv_enter _ _ _ _ _ HR E).
Qed.

Lemma ready_empty els h n a : Ready els h -> good_tag a ->
  exists h1, dh_event h (EEmpty n a) = Some h1 /\ HInv (tags_of (els ++ [(n, a)])) true h1.
Proof.
  intros HR HG. destruct (enter_some _ _ a true HR HG) as [h1 E]. exists h1.
  split; [exact E|]. rewrite tags_of_snoc. apply (hinv_enter _ _ _ _ _ HR E).
Qed.

Lemma ready_of_false els h : HInv (tags_of els) false h -> Ready els h.
Proof. intros HI. unfold Ready. rewrite (hinv_nopop _ _ HI). exact HI. Qed.

Lemma ready_of_true els n a h : HInv (tags_of (els ++ [(n, a)])) true h -> Ready els h.
Proof.
  rewrite tags_of_snoc. intros HI. unfold Ready.
  apply (hinv_pop _ _ HI). discriminate.
Qed.

Lemma ready_end els h n a m : Ready (els ++ [(n, a)]) h ->
  exists h1, dh_event h (EEnd m) = Some h1 /\ HInv (tags_of (els ++ [(n, a)])) true h1.
Proof.
  intros HR. eexists. split; [reflexivity|]. destruct HR as [Hl Hp Hr Hc].
  constructor; cbn [d_level d_pending d_res d_cache]; auto.
Qed.

Lemma ready_leaf els h e : Ready els h -> leaf e = true ->
  exists h1, dh_event h e = Some h1 /\ HInv (tags_of els) false h1.
Proof. intros HR HL. exists (dh_pop h). split; [destruct e; try discriminate; reflexivity|exact HR]. Qed.

Definition wrap (ctx : list element) (s : edes) : edes := fold_right (fun x s => EDes x (Some s)) s ctx.

Lemma wrap_snoc ctx p s : wrap (ctx ++ [p]) s = wrap ctx (EDes p (Some s)).
Proof. unfold wrap. rewrite fold_right_app. reflexivity. Qed.

Lemma next_wrap_des ctx s0 h e s ev h' : (forall x, ev <> DContinue x) ->
  edes_next s0 h e = Ok (DOut (ADes s) ev true, h') ->
  edes_next (wrap ctx s0) h e = Ok (DOut (ADes (wrap ctx s)) ev true, h').
Proof.
  intros HC H. induction ctx as [|x ctx IH]; cbn [wrap fold_right]; [exact H|].
  cbn [edes_next]. fold (wrap ctx s0). rewrite IH. cbn [o_art o_ev handle_art].
  destruct ev; [reflexivity|reflexivity|]. exfalso. apply (HC e0 eq_refl).
Qed.

Lemma next_wrap_data ctx p s0 h e x h' :
  edes_next s0 h e = Ok (DOut (AData x) DNone true, h') ->
  edes_next (wrap (ctx ++ [p]) s0) h e = Ok (DOut (ADes (wrap ctx (EDes (push_value p (VElem x)) None))) DNone true, h').
Proof.
  intros H. rewrite wrap_snoc. apply next_wrap_des; [discriminate|]. cbn [edes_next]. rewrite H. reflexivity.
Qed.

Definition push_opt (el : element) (vo : option value) : element :=
  match vo with Some v => push_value el v | None => el end.

Lemma scope_nsm els : scope_map els (nsm (tags_of els)).
Proof. split; [intros k ns; apply nsm_spec|apply nsm_nodup]. Qed.

Lemma create_ok n a m : good_tag a -> create_element n a m = Ok (Element n a m []).
Proof. intros [H _]. unfold create_element. rewrite (nodup_keys_true _ H). reflexivity. Qed.

Definition push_all (el : element) (vs : list value) : element := fold_left push_value vs el.
Lemma push_all_eq n a m v0 vs : push_all (Element n a m v0) vs = Element n a m (v0 ++ vs).
Proof.
  unfold push_all. revert v0; induction vs as [|v vs IH]; intros v0; cbn; [rewrite app_nil_r; reflexivity|].
  rewrite IH, <- app_assoc. reflexivity.
Qed.

Section Des.
  Variable tb : bytes -> option bool.
  Notation run := (driver_run element_deser tb).

  Definition DesOk (t : xtree) : Prop := forall els ctx el h,
    Ready els h -> proper t = true -> Forall good_tag (tree_tags t) ->
    exists h' vo, Ready els h' /\ denotes els t vo /\ forall rest,
      run (Driver h (Some (wrap ctx (EDes el None))) None) (flatten t ++ rest) =
      run (Driver h' (Some (wrap ctx (EDes (push_opt el vo) None))) None) rest.

  Lemma kids_ok_run kids : Forall DesOk kids -> forall els ctx el h,
    Ready els h -> forallb proper kids = true -> Forall good_tag (flat_map tree_tags kids) ->
    exists h' vs, Ready els h' /\ denotes_all els kids vs /\ forall rest,
      run (Driver h (Some (wrap ctx (EDes el None))) None) (flat_map flatten kids ++ rest) =
      run (Driver h' (Some (wrap ctx (EDes (push_all el vs) None))) None) rest.
  Proof.
    intros HF; induction HF as [|t ts Ht _ IH]; intros els ctx el h HR HP HT.
    - exists h, []. split; [exact HR|]. split; [constructor|]. intros rest; reflexivity.
    - cbn [forallb] in HP. apply andb_true_iff in HP. destruct HP as [P1 P2].
      cbn [flat_map] in HT. apply Forall_app in HT. destruct HT as [T1 T2].
      destruct (Ht els ctx el h HR P1 T1) as (h1 & vo & R1 & D1 & E1).
      destruct (IH els ctx (push_opt el vo) h1 R1 P2 T2) as (h2 & vs & R2 & D2 & E2).
      exists h2, (match vo with Some v => v :: vs | None => vs end). split; [exact R2|]. split.
      + destruct vo; [apply da_some|apply da_none]; assumption.
      + intros rest. cbn [flat_map]. rewrite <- app_assoc, E1, E2. destruct vo; reflexivity.
  Qed.

  Lemma des_ok t : DesOk t.
  Proof.
    induction t as [e|n a|n a kids IH] using xtree_ind'; intros els ctx el h HR HP HT.
    - cbn [proper] in HP. destruct (ready_leaf els h e HR HP) as (h1 & E1 & HI).
      exists h1, (plain_leaf e). split; [apply ready_of_false, HI|]. split; [constructor|]. intros rest.
      cbn [flatten app driver_run]. unfold driver_step. cbn [v_helper v_skip v_des]. rewrite E1. cbn [handle_skip].
      cbn [de_next element_deser].
      destruct e; try discriminate HP; cbn [plain_leaf push_opt];
        (erewrite next_wrap_des; cycle 2; [cbn; reflexivity|reflexivity|discriminate]).
    - cbn [tree_tags] in HT. inversion HT as [|? ? HG _]; subst.
      destruct (ready_empty els h n a HR HG) as (h1 & E1 & HI).
      destruct (hinv_ask _ _ _ HI) as [EN HI2].
      exists (snd (namespaces h1)), (Some (VElem (Element n a (nsm (tags_of (els ++ [(n, a)]))) []))).
      split; [eapply ready_of_true, HI2|]. split; [constructor; apply scope_nsm|]. intros rest.
      cbn [flatten app driver_run]. unfold driver_step. cbn [v_helper v_skip v_des]. rewrite E1. cbn [handle_skip].
      cbn [de_next element_deser].
      erewrite (next_wrap_des ctx (EDes el None) h1 (EEmpty n a) (EDes (push_value el (VElem (Element n a (nsm (tags_of (els ++ [(n, a)]))) []))) None) DNone (snd (namespaces h1)));
        [reflexivity|discriminate|]. cbn [edes_next edes_own edes_init].
      destruct (namespaces h1) as [m h2] eqn:EM. cbn [fst snd] in *. subst m.
      rewrite (create_ok _ _ _ HG). reflexivity.
    - cbn [tree_tags] in HT. inversion HT as [|? ? HG HT']; subst. cbn [proper] in HP.
      destruct (ready_start els h n a HR HG) as (h1 & E1 & HI).
      destruct (hinv_ask _ _ _ HI) as [EN HI2].
      set (m := nsm (tags_of (els ++ [(n, a)]))) in *.
      destruct (kids_ok_run kids IH (els ++ [(n, a)])%list (ctx ++ [el])%list (Element n a m []) (snd (namespaces h1))
                  (ready_of_false _ _ HI2) HP HT') as (h2 & vs & R2 & D2 & E2).
      destruct (ready_end els h2 n a n R2) as (h3 & E3 & HI3).
      exists h3, (Some (VElem (Element n a m vs))). split; [eapply ready_of_true, HI3|].
      split; [constructor; [apply scope_nsm|exact D2]|]. intros rest.
      cbn [flatten app driver_run]. unfold driver_step at 1. cbn [v_helper v_skip v_des]. rewrite E1. cbn [handle_skip].
      cbn [de_next element_deser].
      erewrite (next_wrap_des ctx (EDes el None) h1 (EStart n a) (EDes el (Some (EDes (Element n a m []) None))) DNone (snd (namespaces h1)));
        [|discriminate|].
      2:{ cbn [edes_next edes_own edes_init]. destruct (namespaces h1) as [m' h1'] eqn:EM. cbn [fst snd] in *. subst m'.
          rewrite (create_ok _ _ _ HG). reflexivity. }
      cbn [o_any o_ev o_art into_event unconsumed]. rewrite <- wrap_snoc, <- app_assoc, E2.
      cbn [app driver_run]. unfold driver_step at 1. cbn [v_helper v_skip v_des]. rewrite E3. cbn [handle_skip].
      cbn [de_next element_deser]. rewrite push_all_eq. cbn [app].
      erewrite next_wrap_data; [|cbn; reflexivity]. reflexivity.
  Qed.

  (** From the initial state: leaf events before the root are ignored. *)
  Lemma prolog_run pro els h rest : Ready els h -> forallb leaf pro = true ->
    exists h', Ready els h' /\ run (Driver h None None) (pro ++ rest) = run (Driver h' None None) rest.
  Proof.
    revert h; induction pro as [|e pro IH]; intros h HR HP; [exists h; auto|].
    cbn [forallb] in HP. apply andb_true_iff in HP. destruct HP as [P1 P2].
    destruct (ready_leaf els h e HR P1) as (h1 & E1 & HI).
    destruct (IH h1 (ready_of_false _ _ HI) P2) as (h2 & R2 & E2).
    exists h2. split; [exact R2|]. rewrite <- E2. cbn [app driver_run]. unfold driver_step. cbn [v_helper v_skip v_des].
    rewrite E1. cbn [handle_skip de_init element_deser].
    destruct e; try discriminate P1; reflexivity.
  Qed.

  Lemma root_run t h els n : Ready els h -> root_name t = Some n -> proper t = true -> Forall good_tag (tree_tags t) ->
    exists r, denotes els t (Some (VElem r)) /\ forall rest,
      run (Driver h None None) (flatten t ++ rest) = RDone r rest.
  Proof.
    intros HR HN HP HT. destruct t as [e|n0 a|n0 a kids]; [discriminate|..]; injection HN as ->.
    - cbn [tree_tags] in HT. inversion HT as [|? ? HG _]; subst.
      destruct (ready_empty els h n a HR HG) as (h1 & E1 & HI).
      destruct (hinv_ask _ _ _ HI) as [EN HI2].
      exists (Element n a (nsm (tags_of (els ++ [(n, a)]))) []). split; [constructor; apply scope_nsm|]. intros rest.
      cbn [flatten app driver_run]. unfold driver_step. cbn [v_helper v_skip v_des]. rewrite E1. cbn [handle_skip].
      cbn [de_init element_deser edes_init].
      destruct (namespaces h1) as [m h2] eqn:EM. cbn [fst snd] in *. subst m.
      rewrite (create_ok _ _ _ HG). reflexivity.
    - cbn [tree_tags] in HT. inversion HT as [|? ? HG HT']; subst. cbn [proper] in HP.
      destruct (ready_start els h n a HR HG) as (h1 & E1 & HI).
      destruct (hinv_ask _ _ _ HI) as [EN HI2].
      set (m := nsm (tags_of (els ++ [(n, a)]))) in *.
      assert (HF : Forall DesOk kids) by (apply Forall_forall; intros; apply des_ok).
      destruct (kids_ok_run kids HF (els ++ [(n, a)])%list [] (Element n a m []) (snd (namespaces h1))
                  (ready_of_false _ _ HI2) HP HT') as (h2 & vs & R2 & D2 & E2).
      destruct (ready_end els h2 n a n R2) as (h3 & E3 & HI3).
      exists (Element n a m vs). split; [constructor; [apply scope_nsm|exact D2]|]. intros rest.
      cbn [flatten app driver_run]. unfold driver_step at 1. cbn [v_helper v_skip v_des]. rewrite E1. cbn [handle_skip].
      cbn [de_init element_deser edes_init].
      destruct (namespaces h1) as [m' h1'] eqn:EM. cbn [fst snd] in *. subst m'.
      rewrite (create_ok _ _ _ HG). cbn [o_any o_ev o_art into_event unconsumed].
      cbn [wrap fold_right] in E2. rewrite <- app_assoc, E2.
      cbn [app driver_run]. unfold driver_step at 1. cbn [v_helper v_skip v_des]. rewrite E3. cbn [handle_skip].
      cbn [de_next element_deser]. rewrite push_all_eq. reflexivity.
  Qed.

  Lemma document_read pro t rest n : forallb leaf pro = true ->
    root_name t = Some n -> proper t = true -> Forall good_tag (tree_tags t) ->
    exists r, denotes [] t (Some (VElem r)) /\
      run driver_new (pro ++ flatten t ++ rest) = RDone r rest.
  Proof.
    intros HPro HN HP HT. destruct (prolog_run pro [] dhelper_default (flatten t ++ rest) ready_default HPro) as (h & HR & E).
    destruct (root_run t h [] n HR HN HP HT) as (r & D & Er). exists r. split; [exact D|].
    unfold driver_new. rewrite E. apply Er.
  Qed.

  (** *** The deserializer only asks for namespaces *)
  Lemma init_respects h e o h' : edes_init h e = Ok (o, h') -> helper_ok h h'.
  Proof.
    unfold helper_ok, edes_init. destruct e; try (intros H; injection H as _ <-; left; reflexivity).
    - destruct (namespaces h) as [m h1] eqn:E. destruct (create_element _ _ _); try discriminate.
      intros H; injection H as _ <-. right; reflexivity.
    - destruct (namespaces h) as [m h1] eqn:E. destruct (create_element _ _ _); try discriminate.
      intros H; injection H as _ <-. right; reflexivity.
  Qed.
  Lemma own_respects s h e o h' : edes_own s h e = Ok (o, h') -> helper_ok h h'.
  Proof.
    destruct s as [el sub]. unfold edes_own.
    destruct e; try (intros H; injection H as _ <-; left; reflexivity).
    - destruct (edes_init h (EStart _ _)) as [[o1 h1]|k|] eqn:E; try discriminate. apply init_respects in E.
      destruct (o_ev o1); intros H; injection H as _ <-; exact E.
    - destruct (edes_init h (EEmpty _ _)) as [[o1 h1]|k|] eqn:E; try discriminate. apply init_respects in E.
      destruct (o_ev o1); intros H; injection H as _ <-; exact E.
  Qed.
  Lemma no_continue s h e o h' : edes_next s h e = Ok (o, h') -> forall x, o_ev o <> DContinue x.
  Proof.
    revert h o h'. induction s as [el|el s IH] using edes_ind'; intros h o h'; cbn [edes_next].
    2:{ destruct (edes_next s h e) as [[o1 h1]|k|] eqn:E; try discriminate.
      pose proof (IH h o1 h1 E) as HC. destruct (o_ev o1); try (intros H; injection H as <- _; discriminate).
      exfalso. apply (HC e0 eq_refl). }
    - unfold edes_own. destruct e; try (intros H; injection H as <- _; discriminate).
      + destruct (edes_init h (EStart _ _)) as [[o1 h1]|k|]; try discriminate.
        destruct (o_ev o1); intros H; injection H as <- _; discriminate.
      + destruct (edes_init h (EEmpty _ _)) as [[o1 h1]|k|]; try discriminate.
        destruct (o_ev o1); intros H; injection H as <- _; discriminate.
  Qed.
  Lemma next_respects s : forall h e o h', edes_next s h e = Ok (o, h') -> helper_ok h h'.
  Proof.
    induction s as [el|el s IH] using edes_ind'; intros h e o h'; cbn [edes_next]; [apply own_respects|].
    - destruct (edes_next s h e) as [[o1 h1]|k|] eqn:E; try discriminate.
      pose proof (no_continue _ _ _ _ _ E) as HC. apply IH in E.
      destruct (o_ev o1); try (intros H; injection H as _ <-; exact E).
      exfalso. apply (HC e0 eq_refl).
  Qed.
  Lemma finish_respects s : forall h t h', edes_finish s h = Ok (t, h') -> helper_ok h h'.
  Proof.
    induction s as [el|el s IH] using edes_ind'; intros h t h'; cbn [edes_finish].
    - intros H; injection H as _ <-. left; reflexivity.
    - destruct (edes_finish s h) as [[x h1]|k|] eqn:E; try discriminate. apply IH in E.
      intros H; injection H as _ <-; exact E.
  Qed.
  Lemma element_respects : respects element_deser.
  Proof.
    split; [exact init_respects|]. split; [|exact finish_respects].
    intros d h e o h'. apply next_respects.
  Qed.
End Des.

(** ** Round trip *)

Definition plain (a : attr) : bool := negb (is_xmlns a).

Lemma written_is_xmlns h m : filter plain (snd (write_namespaces h m)) = [].
Proof.
  assert (HI : forall a, In a (snd (write_namespaces h m)) -> plain a = false).
  { intros [k v] HI. apply written_keys in HI. destruct HI as (p & -> & _). unfold plain, is_xmlns. cbn [fst].
    unfold written_key. destruct p; reflexivity. }
  induction (snd (write_namespaces h m)) as [|a l IH]; [reflexivity|]. cbn.
  rewrite (HI a (or_introl eq_refl)). apply IH. intros x Hx. apply HI. right; exact Hx.
Qed.

Lemma kept_plain m l : filter plain (filter (keep_attr m) l) = filter plain l.
Proof.
  induction l as [|a l IH]; [reflexivity|]. cbn. destruct (plain a) eqn:EP.
  - assert (EK : keep_attr m a = true).
    { unfold plain, is_xmlns in EP. apply negb_true_iff, orb_false_iff in EP. destruct EP as [E1 E2].
      unfold keep_attr. rewrite E1, E2. reflexivity. }
    rewrite EK. cbn. rewrite EP, IH. reflexivity.
  - destruct (keep_attr m a); cbn; rewrite ?EP; exact IH.
Qed.

Lemma start_plain e h : filter plain (snd (start_of e h)) = filter plain (el_attrs e).
Proof. rewrite start_of_eq. cbn [snd]. rewrite filter_app, written_is_xmlns, kept_plain. reflexivity. Qed.

Definition rename (n : bytes) (e : element) : element := let 'Element _ a m v := e in Element n a m v.

Lemma denotes_written e : forall n h els vo, denotes els (tree_of n e h) vo ->
  exists r, vo = Some (VElem r) /\ same_element (rename n e) r.
Proof.
  induction e as [n0 a m vs IH] using element_ind'. intros n h els vo. rewrite tree_of_eq. cbn [el_values rename].
  pose proof (start_plain (Element n0 a m vs) h) as HS. cbn [el_attrs] in HS.
  destruct (start_of (Element n0 a m vs) h) as [h1 at1]. cbn [fst snd] in *.
  assert (HK : forall els ws, denotes_all els (map (vtree h1) vs) ws -> same_values vs ws).
  { clear HS. clear n h els vo. induction IH as [|v vs Hv _ IHvs]; intros els ws HD; cbn [map] in HD.
    - inversion HD; constructor.
    - destruct v as [x|c|c|c]; cbn [vtree] in HD.
      + inversion HD as [|? ? v ws' H1 H2|? ? ws' H1 H2]; subst.
        * destruct (Hv _ _ _ _ H1) as (r & E & HSE). injection E as ->. constructor; [|eapply IHvs, H2].
          destruct x; exact HSE.
        * destruct (Hv _ _ _ _ H1) as (r & E & HSE). discriminate.
      + inversion HD as [|? ? v ws' H1 H2|? ? ws' H1 H2]; subst; inversion H1; subst.
        apply sv_leaf; [intros ? ?; discriminate|eapply IHvs, H2].
      + inversion HD as [|? ? v ws' H1 H2|? ? ws' H1 H2]; subst; inversion H1; subst.
        apply sv_leaf; [intros ? ?; discriminate|eapply IHvs, H2].
      + inversion HD as [|? ? v ws' H1 H2|? ? ws' H1 H2]; subst; inversion H1; subst.
        apply sv_leaf; [intros ? ?; discriminate|eapply IHvs, H2]. }
  intros HD. destruct vs as [|v vs].
  - inversion HD; subst. eexists. split; [reflexivity|]. constructor; [|constructor].
    symmetry; exact HS.
  - inversion HD; subst. eexists. split; [reflexivity|]. constructor.
    + symmetry; exact HS.
    + eapply HK. eassumption.
Qed.

Lemma element_round_trip u tb e name n h : Lv h -> good_element u e -> tag_name u name e = Ok n ->
  exists N, forall fuel, N < fuel -> exists evs,
    element_ser_run u fuel name e h = SRDone evs h /\
    forall rest, exists r, driver_run element_deser tb driver_new (evs ++ rest) = RDone r rest /\
      same_element (rename n e) r.
Proof.
  intros HL HG HT. exists (length (flatten (tree_of n e h))). intros fuel HF. exists (flatten (tree_of n e h)).
  split.
  - apply steps_run; [|exact HF]. apply ser_ok; [exact HL|exact HT|].
    pose proof (good_names u e HG) as HN. destruct e. rewrite names_ok_eq in HN.
    apply andb_true_iff in HN. apply HN.
  - intros rest. destruct (document_read tb [] (tree_of n e h) rest n eq_refl (tree_root n e h)
      (tree_proper e n h) (written_tags u e n h HG)) as (r & D & E).
    exists r. split; [exact E|]. destruct (denotes_written _ _ _ _ _ D) as (r' & E' & HS).
    injection E' as ->. exact HS.
Qed.

(** ** End of input *)
Lemma next_eof d h : edes_next d h EEof = Ok (DOut (ADes d) (DBreak EEof) true, h).
Proof. induction d as [el|el s IH] using edes_ind'; [reflexivity|]. cbn [edes_next]. rewrite IH. reflexivity. Qed.

Lemma eof_forever tb n : forall v, exists v', driver_run element_deser tb v (repeat EEof n) = RMore v'.
Proof.
  induction n as [|n IH]; intros [h d s]; [eexists; reflexivity|].
  cbn [repeat driver_run]. unfold driver_step. cbn [v_helper v_skip v_des dh_event].
  assert (E : handle_skip s EEof = (s, Some EEof)) by (destruct s; reflexivity). rewrite E.
  destruct d as [d|]; cbn [de_next de_init element_deser edes_init]; [rewrite next_eof|];
    cbn [o_any o_ev o_art into_event unconsumed]; apply IH.
Qed.

(** ** Round trip with namespaces *)

Section Consistent.
  Variable G : nsmap.
  Hypothesis HG : dictionary G.

  Lemma dict_fun p a b : In (p, a) G -> In (p, b) G -> a = b.
  Proof.
    destruct HG as (H & _). clear HG. induction G as [|[q c] l IH]; [intros []|].
    cbn in H. inversion H as [|? ? HN HND]; subst. intros [E1|H1] [E2|H2].
    - congruence.
    - injection E1 as -> ->. exfalso. apply HN, in_map_iff. exists (p, b); auto.
    - injection E2 as -> ->. exfalso. apply HN, in_map_iff. exists (p, a); auto.
    - apply IH; assumption.
  Qed.
  Lemma dict_inj p q a : In (p, a) G -> In (q, a) G -> p = q.
  Proof.
    destruct HG as (_ & H & _). clear HG. induction G as [|[r c] l IH]; [intros []|].
    cbn in H. inversion H as [|? ? HN HND]; subst. intros [E1|H1] [E2|H2].
    - congruence.
    - injection E1 as -> ->. exfalso. apply HN, in_map_iff. exists (q, a); auto.
    - injection E2 as -> ->. exfalso. apply HN, in_map_iff. exists (p, a); auto.
    - apply IH; assumption.
  Qed.

  Definition has (h : helper) (p ns : bytes) : Prop :=
    exists e, In e (h_ns h) /\ ne_prefix e = filter_prefix (Some p) /\ ne_ns e = ns.
  Definition ginv (h : helper) : Prop :=
    forall e, In e (h_ns h) -> exists p, In (p, ne_ns e) G /\ ne_prefix e = filter_prefix (Some p).

  Lemma find_ns_none ns l e : find_ns ns l = None -> In e l -> ne_ns e <> ns.
  Proof.
    induction l as [|x l IH]; cbn; [intros _ []|]. destruct (String.eqb_spec (ne_ns x) ns); [discriminate|].
    intros H [<-|HI]; [assumption|apply IH; assumption].
  Qed.

  Lemma write_step h p ns h' a : ginv h -> In (p, ns) G ->
    write_xmlns h (ns_prefix p) ns = (h', a) ->
    ginv h' /\ (forall q w, has h' q w <-> has h q w \/ (q = p /\ w = ns)) /\
    (In (written_key p, ns) a \/ has h p ns).
  Proof.
    intros HI Hin HW. unfold write_xmlns in HW. rewrite ns_prefix_filter, filter_prefix_idem in HW.
    assert (HADD : write_xmlns h (ns_prefix p) ns = add_namespace_entry h (filter_prefix (Some p)) ns ->
      (h', a) = add_namespace_entry h (filter_prefix (Some p)) ns ->
      ginv h' /\ (forall q w, has h' q w <-> has h q w \/ (q = p /\ w = ns)) /\
      (In (written_key p, ns) a \/ has h p ns)).
    { intros _ E. unfold add_namespace_entry in E. injection E as -> ->. split; [|split].
      - intros e [<-|He]; [exists p; auto|apply HI, He].
      - intros q w. unfold has. cbn [h_ns]. split.
        + intros (e & [<-|He] & E1 & E2).
          * cbn [ne_prefix ne_ns] in E1, E2. right. split; [apply filter_prefix_inj; symmetry; exact E1|symmetry; exact E2].
          * left. exists e; auto.
        + intros [(e & He & E1 & E2)|[-> ->]].
          * exists e; repeat split; auto. right; exact He.
          * eexists. split; [left; reflexivity|]. split; reflexivity.
      - left. left. reflexivity. }
    destruct (find_ns ns (h_ns h)) as [e|] eqn:EF.
    - apply find_ns_in in EF. destruct EF as [He Ens]. destruct (HI e He) as (q & Hq & Ep).
      rewrite Ens in Hq. assert (q = p) by (eapply dict_inj; eassumption). subst q.
      rewrite Ep, opt_eqb_refl in HW. injection HW as <- <-. split; [exact HI|]. split.
      + intros q w. split; [auto|]. intros [H|[-> ->]]; [exact H|]. exists e; auto.
      + right. exists e; auto.
    - apply HADD; [|symmetry; exact HW]. unfold write_xmlns. rewrite EF, ns_prefix_filter, filter_prefix_idem. reflexivity.
  Qed.

  Lemma write_many m : incl m G -> forall h h' a, ginv h -> write_namespaces h m = (h', a) ->
    ginv h' /\ (forall q w, has h' q w <-> has h q w \/ In (q, w) m) /\
    (forall p ns, In (p, ns) m -> In (written_key p, ns) a \/ has h p ns).
  Proof.
    induction m as [|[p ns] m IH]; intros HM h h' a HI HW.
    - cbn in HW. injection HW as <- <-. split; [exact HI|]. split; [intros q w; cbn; tauto|intros ? ? []].
    - cbn [write_namespaces] in HW. fold (ns_prefix p) in HW.
      destruct (write_xmlns h (ns_prefix p) ns) as [h1 a1] eqn:E1.
      destruct (write_namespaces h1 m) as [h2 a2] eqn:E2. injection HW as <- <-.
      destruct (write_step h p ns h1 a1 HI (HM _ (or_introl eq_refl)) E1) as (I1 & S1 & W1).
      destruct (IH (fun x Hx => HM x (or_intror Hx)) h1 h2 a2 I1 E2) as (I2 & S2 & W2).
      split; [exact I2|]. split.
      + intros q w. rewrite S2, S1. cbn. split.
        * intros [[H|[-> ->]]|H]; auto.
        * intros [H|[E|H]]; auto. injection E as -> ->. auto.
      + intros q w [E|H].
        * injection E as <- <-. destruct W1; [left; apply in_or_app; auto|auto].
        * destruct (W2 q w H) as [H1|H1]; [left; apply in_or_app; auto|].
          apply S1 in H1. destruct H1 as [H1|[-> ->]]; [auto|].
          destruct W1; [left; apply in_or_app; auto|auto].
  Qed.

  Lemma xmlns_decl_key p : xmlns_decl (written_key p) = Some (filter_prefix (Some p)).
  Proof. unfold written_key. destruct p as [|c s]; reflexivity. Qed.

  Lemma in_tag_decls q v a : In (q, v) (tag_decls a) <->
    exists k p, In (k, v) a /\ xmlns_decl k = Some p /\ p <> Some "xml" /\ q = filter_prefix p.
  Proof.
    unfold tag_decls. rewrite <- in_rev, in_flat_map. split.
    - intros ([k w] & Hk & HI). cbn [fst snd] in HI. destruct (xmlns_decl k) as [p|] eqn:E; [|destruct HI].
      destruct (opt_eqb p (Some "xml")) eqn:EX; [destruct HI|]. destruct HI as [HI|[]]. injection HI as <- <-.
      apply opt_eqb_false in EX. exists k, p; auto.
    - intros (k & p & Hk & E & EX & ->). exists (k, v). split; [exact Hk|]. cbn [fst snd]. rewrite E.
      apply opt_eqb_false in EX. rewrite EX. left; reflexivity.
  Qed.

  Lemma lookup_decl_some p l v : lookup_decl p l = Some v -> In (p, v) l.
  Proof.
    induction l as [|[q w] l IH]; cbn; [discriminate|]. destruct (opt_eqb q p) eqn:E.
    - apply opt_eqb_eq in E. intros H; injection H as ->. left; congruence.
    - intros H; right; apply IH, H.
  Qed.
  Lemma lookup_decl_none p l : lookup_decl p l = None -> forall v, ~ In (p, v) l.
  Proof.
    induction l as [|[q w] l IH]; cbn; [intros _ v []|]. destruct (opt_eqb q p) eqn:E; [discriminate|].
    intros H v [H1|H1]; [|apply (IH H v H1)]. injection H1 as -> ->. rewrite opt_eqb_refl in E. discriminate.
  Qed.

  (** What an element's tag declares. *)
  Lemma start_decls n a m vs h q v : 
    (forall x, In x a -> is_xmlns x = true -> exists p ns, In (p, ns) m /\ x = (xmlns_key (filter_prefix (Some p)), ns)) ->
    In (q, v) (tag_decls (snd (start_of (Element n a m vs) h))) ->
    exists p, q = filter_prefix (Some p) /\ In (p, v) m.
  Proof.
    intros HA HI. apply in_tag_decls in HI. destruct HI as (k & p & Hk & ED & EX & ->).
    rewrite start_of_eq in Hk. cbn [snd el_ns el_attrs] in Hk. apply in_app_or in Hk. destruct Hk as [Hk|Hk].
    - apply written_keys in Hk. destruct Hk as (p' & -> & Hp). rewrite xmlns_decl_key in ED. injection ED as <-.
      exists p'. split; [destruct p'; reflexivity|exact Hp].
    - apply filter_In in Hk. destruct Hk as [Hk HK]. exfalso.
      assert (HX : is_xmlns (k, v) = true).
      { unfold is_xmlns. cbn [fst]. unfold xmlns_decl in ED.
        destruct (starts_with "xmlns" k) eqn:ES; [|discriminate]. apply starts_with_app in ES.
        change (str_drop (String.length "xmlns") k) with (str_drop 5 k) in ES.
        destruct (str_drop 5 k) as [|c r]; [rewrite ES; reflexivity|].
        destruct (Ascii.eqb_spec c ":"); [|discriminate]. subst c. rewrite ES.
        rewrite orb_true_iff. right. cbn. reflexivity. }
      destruct (HA _ Hk HX) as (p' & ns & Hp & E). injection E as -> ->.
      apply (keep_not_written _ _ HK p' ns Hp). reflexivity.
  Qed.

  Definition scoped (els : list (bytes * list attr)) (up : nsmap) : Prop :=
    forall p ns, bound (filter_prefix (Some p)) ns els <-> In (p, ns) up.
  Definition written (h : helper) (up : nsmap) : Prop := ginv h /\ forall p ns, has h p ns <-> In (p, ns) up.

  Lemma scope_step els up h n n0 a m vs : incl m G -> incl up m ->
    (forall x, In x a -> is_xmlns x = true -> exists p ns, In (p, ns) m /\ x = (xmlns_key (filter_prefix (Some p)), ns)) ->
    scoped els up -> written h up ->
    let st := start_of (Element n0 a m vs) h in
    scoped (els ++ [(n, snd st)]) m /\ written (fst st) m.
  Proof.
    intros HM HU HA HS [HI HW] st.
    destruct (write_namespaces (begin_ns_scope h) m) as [h1 a1] eqn:EW.
    destruct (write_many m HM (begin_ns_scope h) h1 a1 HI EW) as (I1 & S1 & W1).
    assert (Est : st = (h1, (a1 ++ filter (keep_attr m) a)%list)).
    { unfold st. rewrite start_of_eq. cbn [el_ns el_attrs]. rewrite EW. reflexivity. }
    assert (HD : forall q v, In (q, v) (tag_decls (snd st)) -> exists p, q = filter_prefix (Some p) /\ In (p, v) m)
      by (intros q v; apply start_decls, HA).
    split.
    - intros p ns. unfold bound. rewrite in_scope_app. cbn [in_scope].
      destruct (lookup_decl (filter_prefix (Some p)) (tag_decls (snd st))) as [v|] eqn:EL.
      + apply lookup_decl_some, HD in EL. destruct EL as (p' & Ep & Hin). apply filter_prefix_inj in Ep. subst p'.
        split.
        * intros [E _]. injection E as <-. exact Hin.
        * intros Hns. assert (v = ns) by (eapply dict_fun; apply HM; eassumption). subst v. split; [reflexivity|].
          intros ->. destruct HG as (_ & _ & HE & _). apply HE, in_map_iff. exists (p, ""). split; [reflexivity|apply HM, Hin].
      + rewrite (HS p ns). split; [apply HU|]. intros Hns.
        destruct (W1 p ns Hns) as [H1|H1]; [|apply HW, H1].
        exfalso. apply (lookup_decl_none _ _ EL ns). apply in_tag_decls.
        exists (written_key p), (filter_prefix (Some p)). split; [rewrite Est; apply in_or_app; left; exact H1|].
        split; [apply xmlns_decl_key|]. split; [|symmetry; apply filter_prefix_idem].
        destruct HG as (_ & _ & _ & HX). intros E. apply HX, in_map_iff. exists (p, ns).
        split; [destruct p; [discriminate|injection E as -> ->; reflexivity]|apply HM, Hns].
    - rewrite Est. cbn [fst]. split; [exact I1|]. intros p ns. rewrite S1.
      change (has (begin_ns_scope h) p ns) with (has h p ns). rewrite HW. split; [|auto].
      intros [H|H]; [apply HU, H|exact H].
  Qed.

  Definition vcons (m : nsmap) (v : value) : Prop := match v with VElem x => consistent G m x | _ => True end.
  Lemma consistent_eq up n a m vs : consistent G up (Element n a m vs) <->
    (incl m G /\ incl up m /\
     (forall x, In x a -> is_xmlns x = true -> exists p ns, In (p, ns) m /\ x = (xmlns_key (filter_prefix (Some p)), ns)) /\
     Forall (vcons m) vs).
  Proof.
    cbn [consistent].
    assert (E : (fix go l := match l with
                 | [] => True
                 | VElem x :: l' => consistent G m x /\ go l'
                 | _ :: l' => go l'
                 end) vs <-> Forall (vcons m) vs).
    { induction vs as [|v vs IH]; [split; constructor|]. split.
      - intros H. destruct v; constructor; cbn; try exact I; try apply IH; try exact H; apply H.
      - intros H. inversion H; subst. destruct v; [split; [assumption|]|..]; apply IH; assumption. }
    rewrite E. reflexivity.
  Qed.

  Lemma scoped_eq els m m' : scoped els m -> scope_map els m' -> forall x, In x m <-> In x m'.
  Proof. intros HS [HM _] [p ns]. rewrite <- (HS p ns), (HM p ns). reflexivity. Qed.

  Lemma denotes_written_ns e : forall n h els up vo, consistent G up e -> scoped els up -> written h up ->
    denotes els (tree_of n e h) vo ->
    exists r, vo = Some (VElem r) /\ same_element_ns (rename n e) r.
  Proof.
    induction e as [n0 a m vs IH] using element_ind'. intros n h els up vo HC HS HW. rewrite tree_of_eq. cbn [el_values rename].
    apply consistent_eq in HC. destruct HC as (HM & HU & HA & HV).
    destruct (scope_step els up h n n0 a m vs HM HU HA HS HW) as [HS1 HW1].
    pose proof (start_plain (Element n0 a m vs) h) as HP. cbn [el_attrs] in HP.
    destruct (start_of (Element n0 a m vs) h) as [h1 at1]. cbn [fst snd] in *.
    assert (HK : forall els' ws, scoped els' m -> denotes_all els' (map (vtree h1) vs) ws -> same_values_ns vs ws).
    { clear HS1 HP. induction HV as [|v vs Hv HV' IHvs]; intros els' ws HS' HD; cbn [map] in HD.
      - inversion HD; constructor.
      - inversion IH as [|? ? IHv IHs]; subst. specialize (IHvs IHs els').
        destruct v as [x|c|c|c]; cbn [vtree] in HD.
        + inversion HD as [|? ? v ws' H1 H2|? ? ws' H1 H2]; subst.
          * destruct (IHv _ _ _ _ _ Hv HS' HW1 H1) as (r & E & HSE). injection E as ->. constructor; [|apply IHvs; assumption].
            destruct x; exact HSE.
          * destruct (IHv _ _ _ _ _ Hv HS' HW1 H1) as (r & E & HSE). discriminate.
        + inversion HD as [|? ? v ws' H1 H2|? ? ws' H1 H2]; subst; inversion H1; subst.
          apply svn_leaf; [intros ? ?; discriminate|apply IHvs; assumption].
        + inversion HD as [|? ? v ws' H1 H2|? ? ws' H1 H2]; subst; inversion H1; subst.
          apply svn_leaf; [intros ? ?; discriminate|apply IHvs; assumption].
        + inversion HD as [|? ? v ws' H1 H2|? ? ws' H1 H2]; subst; inversion H1; subst.
          apply svn_leaf; [intros ? ?; discriminate|apply IHvs; assumption]. }
    intros HD. destruct vs as [|v vs].
    - inversion HD; subst. eexists. split; [reflexivity|]. constructor; [symmetry; exact HP| |match goal with H : scope_map _ _ |- _ => apply H end|constructor].
      eapply scoped_eq; eassumption.
    - inversion HD; subst. eexists. split; [reflexivity|]. constructor; [symmetry; exact HP| |match goal with H : scope_map _ _ |- _ => apply H end|].
      + eapply scoped_eq; eassumption.
      + eapply HK; eassumption.
  Qed.

  Lemma element_round_trip_ns u tb e name n : good_element u e -> consistent G [] e -> tag_name u name e = Ok n ->
    exists N, forall fuel, N < fuel -> exists evs,
      element_ser_run u fuel name e helper_default = SRDone evs helper_default /\
      forall rest, exists r, driver_run element_deser tb driver_new (evs ++ rest) = RDone r rest /\
        same_element_ns (rename n e) r.
  Proof.
    intros HGe HC HT. set (h := helper_default).
    exists (length (flatten (tree_of n e h))). intros fuel HF. exists (flatten (tree_of n e h)).
    split.
    - apply steps_run; [|exact HF]. apply ser_ok; [apply lv_default|exact HT|].
      pose proof (good_names u e HGe) as HN. destruct e. rewrite names_ok_eq in HN.
      apply andb_true_iff in HN. apply HN.
    - intros rest. destruct (document_read tb [] (tree_of n e h) rest n eq_refl (tree_root n e h)
        (tree_proper e n h) (written_tags u e n h HGe)) as (r & D & E).
      exists r. split; [exact E|].
      assert (HS0 : scoped [] []) by (intros p ns; split; [intros [H _]; discriminate|intros []]).
      assert (HW0 : written h []).
      { split; [intros ? []|]. intros p ns; split; [intros (? & [] & _)|intros []]. }
      destruct (denotes_written_ns _ _ _ _ _ _ HC HS0 HW0 D) as (r' & E' & HS).
      injection E' as ->. exact HS.
  Qed.
End Consistent.

Lemma tree_tags_in t x a : In (EStart x a) (flatten t) \/ In (EEmpty x a) (flatten t) -> proper t = true -> In a (tree_tags t).
Proof.
  induction t as [e|n b|n b kids IH] using xtree_ind'; cbn [flatten tree_tags proper]; intros HI HP.
  - destruct HI as [[E|[]]|[E|[]]]; subst e; discriminate.
  - destruct HI as [[E|[]]|[E|[]]]; [discriminate|]. injection E as -> ->. left; reflexivity.
  - assert (HK : In (EStart x a) (flat_map flatten kids) \/ In (EEmpty x a) (flat_map flatten kids) -> In a (flat_map tree_tags kids)).
    { clear HI. induction IH as [|k ks Hk _ IHk]; [intros [[]|[]]|]. cbn [forallb] in HP. apply andb_true_iff in HP.
      cbn [flat_map]. intros HI. apply in_or_app. rewrite !in_app_iff in HI.
      destruct HI as [[H|H]|[H|H]]; [left; apply Hk|right; apply IHk|left; apply Hk|right; apply IHk]; tauto. }
    cbn [In] in HI. rewrite !in_app_iff in HI. cbn [In] in HI.
    destruct HI as [[E|[H|[E|[]]]]|[E|[H|[E|[]]]]]; try discriminate.
    + injection E as -> ->. left; reflexivity.
    + right; apply HK; auto.
    + right; apply HK; auto.
Qed.

Lemma element_ser_tags u h name n e : Lv h -> good_element u e -> tag_name u name e = Ok n ->
  exists N, forall fuel, N < fuel -> exists evs,
    element_ser_run u fuel name e h = SRDone evs h /\
    forall x a, In (EStart x a) evs \/ In (EEmpty x a) evs -> good_tag a.
Proof.
  intros HL HG HT. exists (length (flatten (tree_of n e h))). intros fuel HF. exists (flatten (tree_of n e h)).
  split.
  - apply steps_run; [|exact HF]. apply ser_ok; [exact HL|exact HT|].
    pose proof (good_names u e HG) as HN. destruct e. rewrite names_ok_eq in HN.
    apply andb_true_iff in HN. apply HN.
  - intros x a HI. apply tree_tags_in in HI; [|apply tree_proper].
    pose proof (written_tags u e n h HG) as HW. rewrite Forall_forall in HW. apply HW, HI.
Qed.

Lemma eof_forever_doc tb evs v : driver_run element_deser tb driver_new evs = RMore v -> forall n,
  exists v', driver_run element_deser tb driver_new (evs ++ repeat EEof n) = RMore v'.
Proof. intros H n. rewrite driver_run_app, H. apply eof_forever. Qed.

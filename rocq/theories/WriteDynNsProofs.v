(** The round trip with the namespaces collected from the value. *)
From Coq Require Import Lia.
From Verif Require Import Utf8 WriteModel WriteDynModel DocSpec GenSpec TextSpec WriteSpec WriteDynSpec DocProofs DeProofs DocTypeProofs TextProofs SerHelperProofs WriteProofs
  WriteTypedProofs WriteBackProofs WriteNsProofs WriteDynProofs.
Local Open Scope string_scope.
Local Open Scope list_scope.

Definition pair_dec (x y : option bytes * bytes) : {x = y} + {x <> y}.
Proof. repeat decide equality. Defined.
Definition inclb (l l' : list (option bytes * bytes)) : bool := forallb (fun x => if in_dec pair_dec x l' then true else false) l.
Lemma inclb_spec l l' : inclb l l' = true <-> incl l l'.
Proof.
  unfold inclb. rewrite forallb_forall. split; intros H x I; specialize (H x I); destruct (in_dec pair_dec x l'); auto; discriminate.
Qed.

Section Dynamic.
  Context {T A : Type}.
  Notation val := (val T A).
  Variable ff : flat_flags.
  Variable no_attrs : A.
  Variable cfg : wconfig.
  Variable env : nat -> tdef.
  Variable top : nat * bytes.
  Variable known : option bytes -> option bytes.
  Variable write_attrs : nat -> A -> helper -> outcome kind (list attr) * helper.
  Variable to_bytes : nat -> T -> helper -> outcome kind (option bytes) * helper.
  Variable attrs_of : nat -> dhelper -> bytes -> list attr -> outcome kind (A * dhelper).
  Variable parse : nat -> dhelper -> bytes -> outcome kind (T * dhelper).
  Hypothesis attributes : attrs_again env write_attrs attrs_of (type_namespace cfg).
  Hypothesis texts : texts_again to_bytes parse.
  Hypothesis mode : wc_mode cfg = NsDynamic.
  Hypothesis colons : forall ns p, wc_prefix cfg ns = Some p -> split_colon p = None.
  Hypothesis known_fine : forall p ns, known p = Some ns -> prefix_ok p /\ namespace_ok ns.
  Hypothesis known_types : forall ty x, type_namespace cfg ty x -> known (fst x) = Some (snd x).
  Hypothesis placed_types : forall w ty root nm ns, placed env (field_tag cfg) top w ty root nm -> env ty <> TSimple ->
    wc_type_ns cfg ty = Some ns -> wc_type_qualified cfg ty = true /\ (wc_prefix cfg ns = None -> known (prefix_in nm) = Some ns).
  Hypothesis elements : forall ty0 l ty, declared env ty0 l ty -> split_colon (snd l) = None /\
    forall ns, fst l = Some ns -> wc_element_qualified cfg (Some ns) (snd l) = true /\
      match used_prefix cfg ns with
      | Some _ => let t := match env ty with TSimple => ty0 | _ => ty end in
                  wc_type_ns cfg t = Some ns /\ wc_type_qualified cfg t = true
      | None => True
      end.
  Hypothesis attributed : forall ty, attributed_type (env ty) = false -> wc_attr_ns cfg ty = [].
  Notation collect := (collect (T:=T) (A:=A) ff cfg env).

  (** What the root element declares. *)
  Variable all : list (option bytes * bytes).
  Hypothesis known_all : forall x, In x all -> known (fst x) = Some (snd x).
  (** Values of complex types have the namespaces of their type. *)
  Lemma own_collected ty v x : env ty <> TSimple -> type_namespace cfg ty x -> In x (collect ty v).
  Proof.
    intros N Q. apply own_attrs_in in Q. unfold WriteDynModel.collect. rewrite collect_element. destruct (env ty) as [| |att min max c ps] eqn:E; [contradiction|exact Q|].
    destruct (nothing_allowed max ps); [exact Q|]. destruct (direct ff att min max c) eqn:D.
    - rewrite app_assoc. apply in_app_iff. left. destruct (is_choice c) eqn:Ec; [|exact Q].
      assert (Na : attribute_namespaces cfg ty = []).
      { unfold attribute_namespaces. rewrite attributed; [reflexivity|]. rewrite E. cbn [attributed_type]. unfold direct in D. rewrite Ec in D.
        destruct att; [|reflexivity]. rewrite andb_false_r in D. discriminate D. }
      rewrite Na in Q. exact Q.
    - rewrite app_assoc. apply in_app_iff. left. exact Q.
  Qed.

  (** The start tag, if the value can be written where the namespaces of [all] are declared. *)
  Definition fits (root : bool) (ty : nat) (v : val) (h : helper) : bool :=
    inclb (collect ty v) all && (negb (Nat.eqb (h_level h) 0) || (root && inclb all (collect ty v))).
  Definition opening (ty : nat) (root : bool) (name : bytes) (v : val) (h : helper) : outcome kind (list attr) * helper :=
    if fits root ty v h then open_tag cfg collect write_attrs ty root name v h else (Panic, h).

  Definition declared_all (w : option nat) (h : helper) (r : resolver) : Prop :=
    Forall (fun e => ne_level e <= h_level h) (h_ns h) /\
    Forall (fun b => b_level b <= r_level r) (r_bindings r) /\
    in_step h r /\ known_entries known (h_ns h) /\
    match w with
    | None => h_level h = 0
    | Some ty => 1 <= h_level h /\ (forall x, In x all -> bound_to (fst x) (h_ns h) = Some (snd x)) /\
        forall x, type_namespace cfg ty x -> bound_to (fst x) (h_ns h) = Some (snd x)
    end.

  Lemma dynamic_declarations ty root name v : declarations cfg ty root name (collect ty v) =
    map (op_pair name) (own_ops cfg ty ++ if root then root_ops cfg ty ++ fixed_ops (collect ty v) else []).
  Proof. unfold declarations, tag_ops. rewrite mode. reflexivity. Qed.

  Lemma dynamic_tag ns name : split_colon name = None ->
    split_colon (field_tag cfg ns name) =
      match prefix_in (field_tag cfg ns name) with Some p => Some (p, name) | None => None end /\
    (prefix_in (field_tag cfg ns name) = None -> field_tag cfg ns name = name).
  Proof.
    intros C. unfold prefix_in, field_tag.
    destruct (wc_element_qualified cfg ns name && negb (is_default cfg ns)); [|rewrite C; auto].
    destruct ns as [ns|]; [|rewrite C; auto]. destruct (wc_prefix cfg ns) as [p|] eqn:E; [|rewrite C; auto].
    rewrite split_prefixed by exact (colons _ _ E). split; [reflexivity|discriminate].
  Qed.

  Lemma dynamic_names h r ty0 l ty : declared env ty0 l ty -> in_step h r -> known_entries known (h_ns h) ->
    (forall x, type_namespace cfg (match env ty with TSimple => ty0 | _ => ty end) x -> bound_to (fst x) (h_ns h) = Some (snd x)) ->
    names r (field_tag cfg (fst l) (snd l)) l.
  Proof.
    intros Dl Ag Ke Vi. destruct (elements _ _ _ Dl) as [C Q].
    destruct l as [ns name]. cbn [fst snd] in *. destruct (dynamic_tag ns name C) as [Sp Un].
    unfold names. cbn [check_tag fst snd]. destruct ns as [ns|].
    2:{ unfold local_name. rewrite Sp. destruct (prefix_in (field_tag cfg None name)) as [p|] eqn:E; [apply String.eqb_refl|rewrite Un by reflexivity; apply String.eqb_refl]. }
    destruct (Q ns eq_refl) as [El Us]. unfold resolve_local_name, dh_resolve, resolve. cbn [negb]. rewrite Sp. cbn [d_res].
    pose proof (tag_prefix cfg ns name colons C El) as Tp.
    destruct (prefix_in (field_tag cfg (Some ns) name)) as [p|] eqn:E.
    - rewrite <- Tp in Us. destruct Us as [Tn Tq].
      assert (Wp : wc_prefix cfg ns = Some p).
      { unfold used_prefix in Tp. destruct (is_default cfg (Some ns)); [discriminate Tp|]. symmetry. exact Tp. }
      assert (Bp : bound_to (Some p) (h_ns h) = Some ns).
      { apply (Vi (Some p, ns)). exists p. cbn [fst snd]. auto. }
      pose proof (bound_known known _ _ _ Ke Bp) as Kp.
      destruct (known_fine _ _ Kp) as [Po No]. unfold prefix_ok in Po. unfold namespace_ok in No. cbn [In] in Po, No.
      destruct (String.eqb p "xml") eqn:E1; [apply String.eqb_eq in E1; subst; exfalso; tauto|].
      destruct (String.eqb p "xmlns") eqn:E2; [apply String.eqb_eq in E2; subst; exfalso; tauto|].
      rewrite Ag, Bp. destruct ns; [exfalso; tauto|]. rewrite !String.eqb_refl. reflexivity.
    - rewrite Un by reflexivity. apply String.eqb_refl.
  Qed.

  Lemma dynamic_close ty h : close_tag cfg ty h = end_ns_scope h.
  Proof. unfold close_tag, has_scope, tag_ops. rewrite mode. reflexivity. Qed.

  Lemma dynamic_back : tags_back env (field_tag cfg) opening (close_tag cfg) to_bytes attrs_of parse top declared_all.
  Proof.
    split.
    - intros w h r (_ & L & _). exact L.
    - intros w ty root name v h r attrs h1 Sc Pl Ns At Op. pose proof Sc as (Lh & Lr & Ag & Ke & Vi).
      unfold opening in Op. destruct (fits root ty v h) eqn:Fi; [|discriminate Op]. unfold fits in Fi. apply andb_true_iff in Fi as [Fi Fr].
      apply inclb_spec in Fi. unfold open_tag in Op.
      destruct (match tag_ops cfg ty root (collect ty v) with None => (h, []) | Some ops => write_ops name ops (begin_ns_scope h) end) as [h2 a1] eqn:E.
      assert (Kn : forall x, In x (declarations cfg ty root name (collect ty v)) -> known (fst x) = Some (snd x)).
      { intros x I. rewrite dynamic_declarations in I. apply in_map_iff in I as [op [<- I]]. apply in_app_iff in I as [I|I].
        - unfold own_ops in I. destruct (wc_type_ns cfg ty) as [n|] eqn:En; [|contradiction]. destruct (placed_types _ _ _ _ _ Pl Ns En) as [Tq K].
          rewrite Tq in I. cbn [andb] in I. destruct (wc_prefix cfg n); [contradiction|]. destruct I as [<-|[]]. apply K. reflexivity.
        - destruct root; [|contradiction]. apply in_app_iff in I as [I|I].
          + unfold root_ops in I. destruct (wc_type_ns cfg ty) as [n|] eqn:En; [|contradiction]. destruct (placed_types _ _ _ _ _ Pl Ns En) as [Tq _].
            rewrite Tq in I. contradiction.
          + apply in_map_iff in I as [[q n] [<- I]]. exact (known_all _ (Fi _ I)). }
      assert (Q : close_tag cfg ty h2 = h /\ h_level h2 = S (h_level h) /\ Forall (fun e => ne_level e <= h_level h2) (h_ns h2) /\ known_entries known (h_ns h2) /\
        (forall x, In x (declarations cfg ty root name (collect ty v)) -> bound_to (fst x) (h_ns h2) = Some (snd x)) /\
        (forall q n, bound_to q (h_ns h) = Some n -> bound_to q (h_ns h2) = Some n) /\ Forall is_declaration a1 /\
        exists bs, push_attrs (S (r_level r)) (r_bindings r) a1 = Some bs /\ forall q, find_prefix q bs = bound_to q (h_ns h2)).
      { rewrite dynamic_close. rewrite dynamic_declarations in Kn |- *. unfold tag_ops in E. rewrite mode in E.
        set (ops := own_ops cfg ty ++ if root then root_ops cfg ty ++ fixed_ops (collect ty v) else []) in *.
        destruct (write_ops_step known known_fine name ops (begin_ns_scope h) h2 a1 (S (r_level r)) (r_bindings r)) with (4 := E)
            as (L1 & (new & N1 & F1) & K1 & B1 & S1 & D1 & bs1 & P1 & A1).
        { intros x I. apply Kn, I. } { exact Ke. } { exact Ag. }
        cbn [begin_ns_scope h_level h_ns] in *. split; [|split; [exact L1|split]].
        + unfold end_ns_scope. rewrite L1, N1. cbn [pred]. rewrite drop_new by assumption. destruct h; reflexivity.
        + rewrite N1, L1. apply Forall_app. split; [eapply Forall_impl; [|exact F1]; cbn; intros; lia|eapply Forall_impl; [|exact Lh]; cbn; intros; lia].
        + split; [exact K1|]. split; [exact B1|]. split; [exact S1|]. split; [exact D1|]. exists bs1. auto. }
      destruct Q as (Cl & Lv & L2 & K2 & B2 & S2 & D2 & bs & P2 & A2).
      assert (Al : forall x, In x all -> bound_to (fst x) (h_ns h2) = Some (snd x)).
      { intros x I. destruct w as [w|].
        - apply S2. destruct Vi as (_ & Va & _). apply Va, I.
        - rewrite Vi in Fr. cbn [Nat.eqb negb orb] in Fr. apply andb_true_iff in Fr as [-> Fr]. apply inclb_spec in Fr. apply B2.
          rewrite dynamic_declarations. apply in_map_iff. exists (XFixed (fst x) (snd x)). split; [destruct x; reflexivity|].
          apply in_app_iff. right. apply in_app_iff. right. apply in_map_iff. exists x. split; [reflexivity|apply Fr, I]. }
      assert (Vi2 : forall x, type_namespace cfg ty x -> bound_to (fst x) (h_ns h2) = Some (snd x)).
      { intros x Vx. apply Al, Fi. apply own_collected; assumption. }
      assert (Fin : exists a2, attrs = a1 ++ a2 /\ h1 = h2 /\ Forall (fun x => xmlns_decl (fst x) = None) a2 /\
        forall d, in_step h2 (d_res d) -> exists a d', attrs_of ty d name (a1 ++ a2) = Ok (a, d') /\ same_scope d d' /\
          match val_attrs v with Some b => a = b | None => True end).
      { destruct (val_attrs v) as [a|] eqn:Ev.
        - destruct (proj1 attributes ty a h2 At) as (a2 & Wa & Pn & Rb). rewrite Wa in Op. injection Op as <- <-. exists a2.
          split; [reflexivity|]. split; [reflexivity|]. split; [exact Pn|]. intros d Is. destruct (Rb d name a1 Is D2 Vi2) as [d' [E1 E2]]. exists a, d'. auto.
        - injection Op as <- <-. exists []. rewrite app_nil_r. split; [reflexivity|]. split; [reflexivity|]. split; [constructor|]. intros d _.
          destruct (proj2 attributes ty d name a1 At D2) as [a [d' [E1 E2]]]. exists a, d'. auto. }
      destruct Fin as (a2 & -> & -> & Pn & Rb). split; [exact Cl|].
      assert (Pu : push_attrs (S (r_level r)) (r_bindings r) (a1 ++ a2) = Some bs) by (rewrite push_attrs_app, P2; apply push_plain, Pn).
      exists (Resolver (S (r_level r)) bs). unfold resolver_push. rewrite Pu. split; [reflexivity|].
      assert (Sc1 : declared_all (Some ty) h2 (Resolver (S (r_level r)) bs)).
      { split; [exact L2|]. split; [|split; [exact A2|split; [exact K2|split; [lia|split; assumption]]]].
        cbn [r_level r_bindings]. pose proof (push_attrs_binds _ _ _ _ Pu) as ->. apply Forall_app. split.
        + apply Forall_forall. intros b I. apply in_map_iff in I as [d [<- _]]. cbn. lia.
        + eapply Forall_impl; [|exact Lr]. cbn. intros; lia. }
      split; [exact Sc1|]. split.
      + intros d Ed. apply Rb. rewrite Ed. exact A2.
      + intros ty0 l -> Dl En. rewrite En. eapply dynamic_names; [exact Dl|exact A2|exact K2|]. intros x Vx.
        destruct (env ty) eqn:Ety; try (apply Vi2; exact Vx). contradiction.
    - intros w h r Sc. pose proof Sc as (Lh & Lr & Ag & Ke & Vi). exists (Resolver (S (r_level r)) (r_bindings r)). split; [reflexivity|].
      assert (Sc1 : declared_all w h (Resolver (S (r_level r)) (r_bindings r))).
      { split; [exact Lh|]. split; [eapply Forall_impl; [|exact Lr]; cbn; intros; lia|]. split; [exact Ag|]. split; [exact Ke|exact Vi]. }
      split; [exact Sc1|]. intros ty name Es ty0 l -> Dl En. rewrite En. eapply dynamic_names; [exact Dl|exact Ag|exact Ke|]. rewrite Es.
      destruct Vi as (_ & _ & Vi). exact Vi.
    - intros w ty t h r data h1 (Lh & Lr & Ag & Ke & Vi) Tr E. destruct (texts ty t h Tr) as (data' & E' & _ & Back).
      rewrite E' in E. injection E as <- <-. split; [reflexivity|]. apply Back, Ag.
  Qed.
End Dynamic.

Lemma dynamic_again (T A : Type) blank ff (no_attrs : A) attrs_of
    (parse : nat -> dhelper -> bytes -> outcome kind (T * dhelper)) charref (env : nat -> tdef)
    cfg write_attrs to_bytes known n m ty name h0 evs0 v h0' :
  (forall ty, tame_type (T:=T) ff no_attrs (env ty) = true) -> (forall ty, readable_type (env ty)) ->
  wc_mode cfg = NsDynamic ->
  (forall ns p, wc_prefix cfg ns = Some p -> split_colon p = None) ->
  (forall p ns, known p = Some ns -> prefix_ok p /\ namespace_ok ns) ->
  (forall ty x, type_namespace cfg ty x -> known (fst x) = Some (snd x)) ->
  (forall w ty1 root nm ns, placed env (field_tag cfg) (ty, name) w ty1 root nm -> env ty1 <> TSimple ->
     wc_type_ns cfg ty1 = Some ns -> wc_type_qualified cfg ty1 = true /\ (wc_prefix cfg ns = None -> known (prefix_in nm) = Some ns)) ->
  (forall ty0 l ty1, declared env ty0 l ty1 -> split_colon (snd l) = None /\
     forall ns, fst l = Some ns -> wc_element_qualified cfg (Some ns) (snd l) = true /\
       match used_prefix cfg ns with
       | Some _ => let t := match env ty1 with TSimple => ty0 | _ => ty1 end in
                   wc_type_ns cfg t = Some ns /\ wc_type_qualified cfg t = true
       | None => True
       end) ->
  (forall ty, attributed_type (env ty) = false -> wc_attr_ns cfg ty = []) ->
  attrs_again env write_attrs attrs_of (type_namespace cfg) -> texts_again to_bytes parse ->
  valid blank ff no_attrs attrs_of parse charref env n ty h0 evs0 v h0' -> n <= m ->
  exists evs,
    (exists F, forall fuel calls, F <= fuel -> length evs < calls ->
       serialize ff env (field_tag cfg) (open_tag cfg (collect ff cfg env) write_attrs) (close_tag cfg) to_bytes
         fuel calls ty name v helper_default = SRDone evs helper_default) /\
    driver_run (type_deser ff no_attrs attrs_of parse charref utf8_valid env m ty) blank driver_new evs = RDone v [].
Proof.
  intros Tm Rd Mo Co Kf Kt Pt El Atd Ag Tx Va LE.
  pose proof (valid_typed _ _ _ _ _ _ _ _ _ _ Tm _ _ _ _ _ Va) as Ty. set (ok := fun ty v => exists n h evs h', valid blank ff no_attrs attrs_of parse charref env n ty h evs v h') in *.
  set (all := collect ff cfg env ty v).
  assert (Ka : forall x, In x all -> known (fst x) = Some (snd x)).
  { intros x I. apply (collected ff no_attrs cfg env ok Atd n ty v x Ty) in I as (ty' & v' & _ & _ & Q). eapply Kt, Q. }
  pose proof (dynamic_back ff cfg env (ty, name) known write_attrs to_bytes attrs_of parse Ag Tx Mo Co Kf Pt El Atd all Ka) as Bk.
  assert (Ty' : typed ff no_attrs env (fun ty v => ok ty v /\ incl (collect ff cfg env ty v) all) n ty v).
  { apply typed_also; [exact Ty|]. intros ty' v' I x Ix.
    assert (Tv : exists k, typed ff no_attrs env ok k ty' v').
    { clear - I Ty. revert n Ty. induction I as [|ty v ty1 v1 ty2 v2 C _ IH]; intros n Ty; [eauto|].
      destruct n as [|n]; [contradiction|]. eapply IH, typed_child; eassumption. }
    destruct Tv as [k Tv]. apply (collected ff no_attrs cfg env ok Atd k ty' v' x Tv) in Ix as (ty2 & v2 & I2 & Q).
    apply (collected ff no_attrs cfg env ok Atd n ty v x Ty). exists ty2, v2. split; [|exact Q].
    clear - I I2. induction I as [|a b c d e f C _ IH]; [exact I2|]. econstructor; [exact C|apply IH, I2]. }
  assert (Lw : forall nm ops h, h_level (fst (write_ops nm ops h)) = h_level h).
  { intros nm ops. induction ops as [|op ops IH]; intros h; [reflexivity|]. cbn [write_ops].
    assert (Q : forall p x, h_level (fst (write_xmlns h p x)) = h_level h) by (intros p x; unfold write_xmlns; repeat match goal with |- context [if ?b then _ else _] => destruct b | |- context [match ?b with Some _ => _ | None => _ end] => destruct b end; reflexivity).
    assert (Q' : h_level (fst (match op with XTag ns => write_xmlns_for_tag h nm ns | XFixed p ns => write_xmlns h p ns end)) = h_level h).
    { destruct op; [|apply Q]. unfold write_xmlns_for_tag. destruct (split_colon nm) as [[? ?]|]; apply Q. }
    destruct (match op with XTag ns => write_xmlns_for_tag h nm ns | XFixed p ns => write_xmlns h p ns end) as [h1 a1]. cbn [fst] in Q'.
    specialize (IH h1). destruct (write_ops nm ops h1). cbn [fst] in *. congruence. }
  destruct (written_at ff no_attrs env (field_tag cfg) (opening ff cfg env write_attrs all) (close_tag cfg) to_bytes
    (fun ty v => ok ty v /\ incl (collect ff cfg env ty v) all) (fun root ty v h => fits ff cfg env all root ty v h = true)) with (n := n) (ty := ty) (root := true) (name := name) (v := v) (h := helper_default)
    as [evs [h' [W _]]].
  - intros root t u h [_ In'] L. unfold fits. replace (inclb (collect ff cfg env t u) all) with true by (symmetry; apply inclb_spec, In').
    destruct (h_level h); [lia|reflexivity].
  - intros t root nm u h [K _] Gd S. unfold opening. rewrite Gd. unfold open_tag, tag_ops. rewrite Mo.
    pose proof (valid_attrs _ _ _ _ _ _ _ Tm _ _ K S) as Va'.
    match goal with |- context [write_ops nm ?o ?g] => specialize (Lw nm o g); destruct (write_ops nm o g) as [h1 a1] end.
    cbn [fst begin_ns_scope h_level] in Lw. destruct (val_attrs u) as [a|]; [|eauto]. destruct (proj1 Ag t a h1 Va') as [a2 [-> _]]. eauto.
  - intros t h. rewrite dynamic_close by exact Mo. reflexivity.
  - intros t x u h [K _] E. destruct (Tx t x h (valid_text _ _ _ _ _ _ _ Tm _ _ _ K E)) as [data [E1 [O _]]]. eauto.
  - exact Ty'.
  - unfold fits. replace (inclb (collect ff cfg env ty v) all) with true by (symmetry; apply inclb_spec; intros x I; exact I).
    replace (inclb all (collect ff cfg env ty v)) with true by (symmetry; apply inclb_spec; intros x I; exact I). reflexivity.
  - destruct (valid_again blank ff no_attrs attrs_of parse charref env (field_tag cfg) (opening ff cfg env write_attrs all) (close_tag cfg) to_bytes _ _ Bk Rd n None ty true name _ _ _ _ Va)
      with (sh := helper_default) (evs := evs) (sh' := h') (h := dhelper_default) as [-> [g' [Va' _]]].
    + split; reflexivity.
    + exact W.
    + split; [constructor|]. split; [constructor|]. split; [intros p; reflexivity|]. split; [constructor|]. reflexivity.
    + exists evs. split.
      * eapply serialize_written; [eapply tame_sound, Tm|exact Ty|]. eapply written_mono; [|exact W]. intros t root nm u h attrs h1 E. unfold opening in E.
        destruct (fits ff cfg env all root t u h); [exact E|discriminate E].
      * rewrite <- (app_nil_r evs). change (evs ++ []) with ([] ++ evs ++ [])%list.
        eapply document_read; [exact Tm|exact LE|constructor|exact Va'].
Qed.

(** ** The root element of a type whose elements are not qualified *)
Lemma root_declared (T A : Type) cfg (collect : nat -> val T A -> list (option bytes * bytes)) write_attrs ty name v attrs h1 ns :
  wc_mode cfg = NsGlobal \/ wc_mode cfg = NsDynamic ->
  wc_type_ns cfg ty = Some ns -> wc_type_qualified cfg ty = false -> prefix_in name <> Some "" ->
  open_tag cfg collect write_attrs ty true name v helper_default = (Ok attrs, h1) ->
  exists rest, attrs = (xmlns_key (prefix_in name), ns) :: rest.
Proof.
  intros Mo En Eq Np Op. unfold open_tag in Op.
  assert (E : exists ops, tag_ops cfg ty true (collect ty v) = Some (XTag ns :: ops)).
  { unfold tag_ops, own_ops, root_ops. rewrite En, Eq. destruct Mo as [-> | ->]; cbn; eauto. }
  destruct E as [ops E]. rewrite E in Op. cbn [write_ops] in Op.
  assert (W : exists g, write_xmlns_for_tag (begin_ns_scope helper_default) name ns = (g, [(xmlns_key (prefix_in name), ns)])).
  { unfold write_xmlns_for_tag, prefix_in in *. destruct (split_colon name) as [[p l]|]; unfold write_xmlns; cbn [h_ns begin_ns_scope helper_default find_ns].
    - destruct p; [congruence|]. eexists. reflexivity.
    - eexists. reflexivity. }
  destruct W as [g W]. rewrite W in Op. destruct (write_ops name ops g) as [h2 a2]. cbn [app] in Op. destruct (val_attrs v) as [a|].
  - destruct (write_attrs ty a h2) as [[a3| |] h3]; try discriminate Op. injection Op as <- _. eauto.
  - injection Op as <- _. eauto.
Qed.

(** Proofs for C77: the namespaces on start tags. *)
From Coq Require Import Lia.
From Verif Require Import Utf8 WriteModel DocSpec GenSpec TextSpec WriteSpec.
From Verif Require Import DeProofs TextProofs SerHelperProofs WriteProofs WriteBackProofs WriteTypedProofs DocTypeProofs.
Local Open Scope string_scope.
Local Open Scope list_scope.

Lemma opt_eqb_refl p : opt_eqb p p = true.
Proof. destruct p; [apply String.eqb_refl|reflexivity]. Qed.
Lemma opt_eqb_true p q : opt_eqb p q = true -> p = q.
Proof. destruct p, q; cbn; try discriminate; auto. intros E. apply String.eqb_eq in E. congruence. Qed.

Lemma decl_key p : prefix_ok p -> xmlns_decl (xmlns_key p) = Some p.
Proof.
  destruct p as [p|]; [|reflexivity]. intros _. unfold xmlns_decl, xmlns_key. cbn. reflexivity.
Qed.

Lemma push_key lvl bs p ns : prefix_ok p -> namespace_ok ns ->
  push_attr lvl bs (xmlns_key p, ns) = Some (Binding lvl p ns :: bs).
Proof.
  intros P N. unfold push_attr. rewrite (decl_key p P). destruct p as [p|]; [|reflexivity].
  unfold prefix_ok in P. unfold namespace_ok in N. cbn [In] in P, N.
  repeat match goal with |- context [String.eqb ?a ?b] =>
    let E := fresh in destruct (String.eqb a b) eqn:E; [apply String.eqb_eq in E; subst; exfalso; tauto|] end.
  destruct p; [exfalso; tauto|reflexivity].
Qed.
Lemma filter_ok p : prefix_ok p -> filter_prefix p = p.
Proof. destruct p as [[|c s]|]; try reflexivity. cbn. tauto. Qed.

Lemma push_attrs_app lvl a b : forall bs, push_attrs lvl bs (a ++ b) =
  match push_attrs lvl bs a with Some bs1 => push_attrs lvl bs1 b | None => None end.
Proof. induction a as [|x a IH]; intros bs; [reflexivity|]. cbn [app push_attrs]. destruct (push_attr lvl bs x); [apply IH|reflexivity]. Qed.
Lemma push_plain lvl a : Forall (fun x => xmlns_decl (fst x) = None) a -> forall bs, push_attrs lvl bs a = Some bs.
Proof.
  induction 1 as [|[k v] a E _ IH]; intros bs; [reflexivity|]. cbn [push_attrs push_attr]. cbn [fst] in E. rewrite E. apply IH.
Qed.

Section Ops.
  Variable known : option bytes -> option bytes.
  Hypothesis kn : forall p ns, known p = Some ns -> prefix_ok p /\ namespace_ok ns.
  Definition known_entries (l : list ns_entry) : Prop :=
    Forall (fun e => known (ne_prefix e) = Some (ne_ns e)) l.

  Lemma bound_known p l ns : known_entries l -> bound_to p l = Some ns -> known p = Some ns.
  Proof.
    induction l as [|e l IH]; intros K B; [discriminate B|]. inversion K; subst. cbn [bound_to] in B.
    destruct (opt_eqb (ne_prefix e) p) eqn:E; [|auto]. apply opt_eqb_true in E. congruence.
  Qed.
  Lemma found_bound ns l e : known_entries l -> find_ns ns l = Some e -> bound_to (ne_prefix e) l = Some ns.
  Proof.
    intros K F. assert (I : In e l /\ ne_ns e = ns).
    { revert F. clear K. induction l as [|x l IH]; cbn [find_ns]; [discriminate|]. destruct (String.eqb (ne_ns x) ns) eqn:E.
      - intros Q. injection Q as <-. split; [left; reflexivity|apply String.eqb_eq, E].
      - intros Q. destruct (IH Q). split; [right|]; assumption. }
    destruct I as [I En]. clear F.
    assert (Kp : known (ne_prefix e) = Some ns). { unfold known_entries in K. rewrite Forall_forall in K. rewrite <- En. apply K, I. }
    assert (B : exists ns', bound_to (ne_prefix e) l = Some ns').
    { clear K. induction l as [|x l IH]; [contradiction|]. cbn [bound_to]. destruct (opt_eqb (ne_prefix x) (ne_prefix e)) eqn:E; [eauto|].
      destruct I as [->|I]; [rewrite opt_eqb_refl in E; discriminate E|auto]. }
    destruct B as [ns' B]. rewrite B. rewrite (bound_known _ _ _ K B) in Kp. exact Kp.
  Qed.
  Lemma bound_stays p ns q l e : known_entries (e :: l) -> known p = Some ns -> q = p -> bound_to p l = Some ns -> bound_to q (e :: l) = Some ns.
  Proof.
    intros K Kp -> B. cbn [bound_to]. destruct (opt_eqb (ne_prefix e) p) eqn:E; [|exact B].
    apply opt_eqb_true in E. inversion K; subst. congruence.
  Qed.

  (** One declaration. *)
  Lemma write_step h p ns h1 a lvl bs : known p = Some ns -> known_entries (h_ns h) ->
    (forall q, find_prefix q bs = bound_to q (h_ns h)) ->
    write_xmlns h p ns = (h1, a) ->
    h_level h1 = h_level h /\ (exists new, h_ns h1 = new ++ h_ns h /\ Forall (fun e => ne_level e = h_level h) new) /\
    known_entries (h_ns h1) /\ bound_to p (h_ns h1) = Some ns /\
    (forall q n, bound_to q (h_ns h) = Some n -> bound_to q (h_ns h1) = Some n) /\
    Forall is_declaration a /\
    exists bs1, push_attrs lvl bs a = Some bs1 /\ forall q, find_prefix q bs1 = bound_to q (h_ns h1).
  Proof.
    intros Kp Ke Ag W. destruct (kn _ _ Kp) as [Po No]. unfold write_xmlns in W. rewrite filter_ok in W by exact Po.
    assert (Add : (h1, a) = add_namespace_entry h p ns -> h_level h1 = h_level h /\ (exists new, h_ns h1 = new ++ h_ns h /\ Forall (fun e => ne_level e = h_level h) new) /\
      known_entries (h_ns h1) /\ bound_to p (h_ns h1) = Some ns /\
      (forall q n, bound_to q (h_ns h) = Some n -> bound_to q (h_ns h1) = Some n) /\
      Forall is_declaration a /\
      exists bs1, push_attrs lvl bs a = Some bs1 /\ forall q, find_prefix q bs1 = bound_to q (h_ns h1)).
    { intros E. injection E as -> ->. cbn [h_level h_ns]. split; [reflexivity|]. split.
      - exists [NsEntry (h_level h) p ns]. split; [reflexivity|]. repeat constructor.
      - assert (Kn : known_entries (NsEntry (h_level h) p ns :: h_ns h)) by (constructor; [exact Kp|exact Ke]).
        split; [exact Kn|]. split; [cbn [bound_to ne_prefix ne_ns]; rewrite opt_eqb_refl; reflexivity|]. split; [|split].
        + intros q n B. eapply bound_stays; [exact Kn|eapply bound_known; [exact Ke|exact B]|reflexivity|exact B].
        + constructor; [exists p; reflexivity|constructor].
        + exists (Binding lvl p ns :: bs). split.
          * cbn [push_attrs]. rewrite (push_key _ _ _ _ Po No). reflexivity.
          * intros q. cbn [find_prefix bound_to b_prefix b_value ne_prefix ne_ns]. rewrite Ag. reflexivity. }
    destruct (find_ns ns (h_ns h)) as [e|] eqn:Ef; [|apply Add; congruence].
    destruct (opt_eqb (ne_prefix e) p) eqn:Ep; [|apply Add; congruence]. injection W as <- <-.
    apply opt_eqb_true in Ep. split; [reflexivity|]. split; [exists []; split; [reflexivity|constructor]|]. split; [exact Ke|]. split.
    - rewrite <- Ep. eapply found_bound; eassumption.
    - split; [auto|]. split; [constructor|]. exists bs. auto.
  Qed.

  Definition op_pair (name : bytes) (op : xmlns_op) : option bytes * bytes :=
    match op with XTag ns => (prefix_in name, ns) | XFixed p ns => (p, ns) end.

  Lemma write_ops_step name ops : forall h h1 a lvl bs,
    (forall x, In x (map (op_pair name) ops) -> known (fst x) = Some (snd x)) -> known_entries (h_ns h) ->
    (forall q, find_prefix q bs = bound_to q (h_ns h)) ->
    write_ops name ops h = (h1, a) ->
    h_level h1 = h_level h /\ (exists new, h_ns h1 = new ++ h_ns h /\ Forall (fun e => ne_level e = h_level h) new) /\
    known_entries (h_ns h1) /\ (forall x, In x (map (op_pair name) ops) -> bound_to (fst x) (h_ns h1) = Some (snd x)) /\
    (forall q n, bound_to q (h_ns h) = Some n -> bound_to q (h_ns h1) = Some n) /\
    Forall is_declaration a /\
    exists bs1, push_attrs lvl bs a = Some bs1 /\ forall q, find_prefix q bs1 = bound_to q (h_ns h1).
  Proof.
    induction ops as [|op ops IH]; intros h h1 a lvl bs Kn Ke Ag W.
    - injection W as <- <-. split; [reflexivity|]. split; [exists []; split; [reflexivity|constructor]|]. split; [exact Ke|].
      split; [intros x []|]. split; [auto|]. split; [constructor|]. exists bs. auto.
    - cbn [write_ops] in W.
      destruct (match op with XTag ns => write_xmlns_for_tag h name ns | XFixed p ns => write_xmlns h p ns end) as [h2 a2] eqn:E1.
      destruct (write_ops name ops h2) as [h3 a3] eqn:E2. injection W as <- <-.
      assert (E1' : write_xmlns h (fst (op_pair name op)) (snd (op_pair name op)) = (h2, a2)).
      { destruct op as [ns|p ns]; [|exact E1]. cbn [op_pair fst snd]. unfold write_xmlns_for_tag in E1. unfold prefix_in.
        destruct (split_colon name) as [[q l]|]; exact E1. }
      destruct (write_step _ _ _ _ _ lvl bs (Kn _ (or_introl eq_refl)) Ke Ag E1') as (L1 & (n1 & N1 & F1) & K1 & B1 & S1 & D1 & bs1 & P1 & A1).
      destruct (IH _ _ _ lvl bs1 (fun x I => Kn x (or_intror I)) K1 A1 E2) as (L2 & (n2 & N2 & F2) & K2 & B2 & S2 & D2 & bs2 & P2 & A2).
      split; [congruence|]. split.
      { exists (n2 ++ n1). rewrite N2, N1, app_assoc. split; [reflexivity|]. apply Forall_app. split; [|exact F1]. rewrite L1 in F2. exact F2. }
      split; [exact K2|]. split; [intros x [<-|I]; [apply S2, B1|apply B2, I]|]. split; [auto|]. split; [apply Forall_app; auto|].
      exists bs2. split; [|exact A2]. rewrite push_attrs_app, P1. exact P2.
  Qed.
End Ops.

Lemma drop_new lvl new l : Forall (fun e => ne_level e = S lvl) new -> Forall (fun e => ne_level e <= lvl) l ->
  drop_outdated lvl (new ++ l) = l.
Proof.
  intros N L. induction N as [|e new E _ IH]; cbn [app drop_outdated].
  - destruct L as [|e l E L]; [reflexivity|]. cbn [drop_outdated]. destruct (Nat.ltb lvl (ne_level e)) eqn:Q; [|reflexivity].
    apply Nat.ltb_lt in Q. lia.
  - rewrite E. replace (Nat.ltb lvl (S lvl)) with true by (symmetry; apply Nat.ltb_lt; lia). exact IH.
Qed.
Lemma scope_same cfg ty root collected : is_some (tag_ops cfg ty root collected) = has_scope cfg ty.
Proof.
  unfold has_scope, tag_ops. destruct (wc_mode cfg); try reflexivity.
  destruct (own_ops cfg ty) as [|o own]; [|reflexivity].
  destruct (root_ops cfg ty ++ fixed_ops (wc_global cfg ty)); reflexivity.
Qed.

Lemma split_prefixed p name : split_colon p = None -> split_colon (p ++ ":" ++ name)%string = Some (p, name).
Proof.
  induction p as [|c p IH]; intros E; [reflexivity|]. cbn [split_colon append] in *. destruct (Ascii.eqb c ":"); [discriminate E|].
  destruct (split_colon p) as [[? ?]|]; [discriminate E|]. cbn [append] in IH. rewrite IH by reflexivity. reflexivity.
Qed.

Section Scoped.
  Context {T A : Type}.
  Notation val := (val T A).
  Variable cfg : wconfig.
  Variable collect : nat -> val -> list (option bytes * bytes).
  Variable env : nat -> tdef.
  Variable top : nat * bytes.
  Variable known : option bytes -> option bytes.
  Variable visible : nat -> option bytes * bytes -> Prop.
  Hypothesis ws : well_scoped cfg collect env top known visible.
  Variable write_attrs : nat -> A -> helper -> outcome kind (list attr) * helper.
  Variable to_bytes : nat -> T -> helper -> outcome kind (option bytes) * helper.
  Variable attrs_of : nat -> dhelper -> bytes -> list attr -> outcome kind (A * dhelper).
  Variable parse : nat -> dhelper -> bytes -> outcome kind (T * dhelper).
  Hypothesis attributes : attrs_again env write_attrs attrs_of visible.
  Hypothesis texts : texts_again to_bytes parse.

  Definition scoped (w : option nat) (h : helper) (r : resolver) : Prop :=
    Forall (fun e => ne_level e <= h_level h) (h_ns h) /\
    Forall (fun b => b_level b <= r_level r) (r_bindings r) /\
    in_step h r /\ known_entries known (h_ns h) /\
    forall ty x, w = Some ty -> visible ty x -> bound_to (fst x) (h_ns h) = Some (snd x).

  Lemma tag_parts ns name : split_colon name = None ->
    split_colon (field_tag cfg ns name) =
      match prefix_in (field_tag cfg ns name) with Some p => Some (p, name) | None => None end /\
    (prefix_in (field_tag cfg ns name) = None -> field_tag cfg ns name = name).
  Proof.
    intros C. unfold prefix_in, field_tag.
    destruct (wc_element_qualified cfg ns name && negb (is_default cfg ns)); [|rewrite C; auto].
    destruct ns as [ns|]; [|rewrite C; auto]. destruct (wc_prefix cfg ns) as [p|] eqn:E; [|rewrite C; auto].
    rewrite split_prefixed by exact (colon_free _ _ _ _ _ _ ws _ _ E). split; [reflexivity|discriminate].
  Qed.

  Lemma scoped_names w0 h r ty0 l ty : declared env ty0 l ty -> scoped w0 h r ->
    (forall x, visible (match env ty with TSimple => ty0 | _ => ty end) x -> bound_to (fst x) (h_ns h) = Some (snd x)) ->
    names r (field_tag cfg (fst l) (snd l)) l.
  Proof.
    intros Dl (_ & _ & Ag & Ke & _) Vi. destruct (visible_tag _ _ _ _ _ _ ws _ _ _ Dl) as [C Q].
    destruct l as [ns name]. cbn [fst snd] in *. destruct (tag_parts ns name C) as [Sp Un].
    unfold names. cbn [check_tag fst snd]. destruct ns as [ns|].
    2:{ unfold local_name. rewrite Sp. destruct (prefix_in (field_tag cfg None name)) as [p|] eqn:E; [apply String.eqb_refl|rewrite Un by reflexivity; apply String.eqb_refl]. }
    unfold resolve_local_name, dh_resolve, resolve. cbn [negb]. rewrite Sp. cbn [d_res].
    destruct (prefix_in (field_tag cfg (Some ns) name)) as [p|] eqn:E.
    - apply Vi in Q. cbn [fst snd] in Q. pose proof (bound_known known _ _ _ Ke Q) as Kp.
      destruct (known_ok _ _ _ _ _ _ ws _ _ Kp) as [Po No]. unfold prefix_ok in Po. unfold namespace_ok in No. cbn [In] in Po, No.
      destruct (String.eqb p "xml") eqn:E1; [apply String.eqb_eq in E1; subst; exfalso; tauto|].
      destruct (String.eqb p "xmlns") eqn:E2; [apply String.eqb_eq in E2; subst; exfalso; tauto|].
      rewrite Ag, Q. destruct ns; [exfalso; tauto|]. rewrite !String.eqb_refl. reflexivity.
    - rewrite Un by reflexivity. apply String.eqb_refl.
  Qed.

  Lemma scoped_back : tags_back env (field_tag cfg) (open_tag cfg collect write_attrs) (close_tag cfg) to_bytes attrs_of parse top scoped.
  Proof.
    split.
    - intros w h r (_ & L & _). exact L.
    - intros w ty root name v h r attrs h1 Sc Pl Ns At Op. pose proof Sc as (Lh & Lr & Ag & Ke & Vi).
      unfold open_tag in Op.
      destruct (match tag_ops cfg ty root (collect ty v) with None => (h, []) | Some ops => write_ops name ops (begin_ns_scope h) end) as [h2 a1] eqn:E.
      assert (Q : close_tag cfg ty h2 = h /\ Forall (fun e => ne_level e <= h_level h2) (h_ns h2) /\ known_entries known (h_ns h2) /\
        (forall x, In x (declarations cfg ty root name (collect ty v)) -> bound_to (fst x) (h_ns h2) = Some (snd x)) /\
        (forall q n, bound_to q (h_ns h) = Some n -> bound_to q (h_ns h2) = Some n) /\ Forall is_declaration a1 /\
        exists bs, push_attrs (S (r_level r)) (r_bindings r) a1 = Some bs /\ forall q, find_prefix q bs = bound_to q (h_ns h2)).
      { unfold close_tag. rewrite <- (scope_same cfg ty root (collect ty v)).
        pose proof (fun v p ns => known_prefix _ _ _ _ _ _ ws w ty root name v p ns Pl Ns) as Kn. specialize (Kn v). unfold declarations in *.
        destruct (tag_ops cfg ty root (collect ty v)) as [ops|]; cbn [is_some].
        - destruct (write_ops_step known (known_ok _ _ _ _ _ _ ws) name ops (begin_ns_scope h) h2 a1 (S (r_level r)) (r_bindings r)) with (4 := E)
            as (L1 & (new & N1 & F1) & K1 & B1 & S1 & D1 & bs1 & P1 & A1).
          { intros [p ns] I. apply Kn, I. } { exact Ke. } { exact Ag. }
          cbn [begin_ns_scope h_level h_ns] in *. split; [|split].
          + unfold end_ns_scope. rewrite L1, N1. cbn [pred]. rewrite drop_new by assumption. destruct h; reflexivity.
          + rewrite N1, L1. apply Forall_app. split; [eapply Forall_impl; [|exact F1]; cbn; intros; lia|eapply Forall_impl; [|exact Lh]; cbn; intros; lia].
          + split; [exact K1|]. split; [exact B1|]. split; [exact S1|]. split; [exact D1|]. exists bs1. auto.
        - injection E as <- <-. split; [reflexivity|]. split; [exact Lh|]. split; [exact Ke|]. split; [intros x []|]. split; [auto|]. split; [constructor|].
          exists (r_bindings r). auto. }
      destruct Q as (Cl & L2 & K2 & B2 & S2 & D2 & bs & P2 & A2).
      assert (Vi2 : forall x, visible ty x -> bound_to (fst x) (h_ns h2) = Some (snd x)).
      { intros x Vx. destruct (visible_here _ _ _ _ _ _ ws _ _ _ _ v _ Pl Ns Vx) as [I|[ty0 [-> V0]]]; [apply B2, I|apply S2; eapply Vi; [reflexivity|exact V0]]. }
      assert (Fin : exists a2, attrs = a1 ++ a2 /\ h1 = h2 /\ Forall (fun x => xmlns_decl (fst x) = None) a2 /\
        forall d, in_step h2 (d_res d) -> exists a d', attrs_of ty d name (a1 ++ a2) = Ok (a, d') /\ same_scope d d' /\
          match val_attrs v with Some b => a = b | None => True end).
      { destruct (val_attrs v) as [a|] eqn:Ev.
        - destruct (proj1 attributes ty a h2 At) as (a2 & Wa & Pn & Rb). rewrite Wa in Op. injection Op as <- <-. exists a2.
          split; [reflexivity|]. split; [reflexivity|]. split; [exact Pn|]. intros d Is. destruct (Rb d name a1 Is D2 Vi2) as [d' [E1 E2]]. exists a, d'. auto.
        - injection Op as <- <-. exists []. rewrite app_nil_r. split; [reflexivity|]. split; [reflexivity|]. split; [constructor|]. intros d _.
          destruct (proj2 attributes ty d name a1 At D2) as [a [d' [E1 E2]]]. exists a, d'. auto. }
      destruct Fin as (a2 & -> & -> & Pn & Rb). split; [exact Cl|].
      assert (Pu : push_attrs (S (r_level r)) (r_bindings r) (a1 ++ a2) = Some bs) by (rewrite push_attrs_app, P2; apply push_plain, Pn).
      exists (Resolver (S (r_level r)) bs). unfold resolver_push. rewrite Pu. split; [reflexivity|].
      assert (Sc1 : scoped (Some ty) h2 (Resolver (S (r_level r)) bs)).
      { split; [exact L2|]. split; [|split; [exact A2|split; [exact K2|]]].
        - cbn [r_level r_bindings]. pose proof (push_attrs_binds _ _ _ _ Pu) as ->. apply Forall_app. split.
          + apply Forall_forall. intros b I. apply in_map_iff in I as [d [<- _]]. cbn. lia.
          + eapply Forall_impl; [|exact Lr]. cbn. intros; lia.
        - intros t x Et Vx. injection Et as <-. apply Vi2, Vx. }
      split; [exact Sc1|]. split.
      + intros d Ed. apply Rb. rewrite Ed. exact A2.
      + intros ty0 l -> Dl En. rewrite En. eapply scoped_names; [exact Dl|exact Sc1|]. intros x Vx.
        destruct (env ty) eqn:Ety; try (apply Vi2; exact Vx). apply S2. eapply Vi; [reflexivity|exact Vx].
    - intros w h r Sc. pose proof Sc as (Lh & Lr & Ag & Ke & Vi). exists (Resolver (S (r_level r)) (r_bindings r)). split; [reflexivity|].
      assert (Sc1 : scoped w h (Resolver (S (r_level r)) (r_bindings r))).
      { split; [exact Lh|]. split; [eapply Forall_impl; [|exact Lr]; cbn; intros; lia|]. split; [exact Ag|]. split; [exact Ke|exact Vi]. }
      split; [exact Sc1|]. intros ty name Es ty0 l -> Dl En. rewrite En. eapply scoped_names; [exact Dl|exact Sc1|]. rewrite Es.
      intros x Vx. eapply Vi; [reflexivity|exact Vx].
    - intros w ty t h r data h1 (Lh & Lr & Ag & Ke & Vi) Tr E. destruct (texts ty t h Tr) as (data' & E' & _ & Back).
      rewrite E' in E. injection E as <- <-. split; [reflexivity|]. apply Back, Ag.
  Qed.
End Scoped.

(** ** The round trip with the tags of the renderer *)
Section Again.
  Context {T A : Type}.
  Notation val := (val T A).
  Variables (blank : bytes -> option bool) (ff : flat_flags) (no_attrs : A)
    (attrs_of : nat -> dhelper -> bytes -> list attr -> outcome kind (A * dhelper))
    (parse : nat -> dhelper -> bytes -> outcome kind (T * dhelper)) (charref : bytes -> option bytes)
    (env : nat -> tdef) (cfg : wconfig) (collect : nat -> val -> list (option bytes * bytes))
    (write_attrs : nat -> A -> helper -> outcome kind (list attr) * helper)
    (to_bytes : nat -> T -> helper -> outcome kind (option bytes) * helper)
    (known : option bytes -> option bytes) (visible : nat -> option bytes * bytes -> Prop).

  Lemma read_again n m ty name h0 evs0 v h0' :
    (forall ty, tame_type (T:=T) ff no_attrs (env ty) = true) -> (forall ty, readable_type (env ty)) ->
    well_scoped cfg collect env (ty, name) known visible ->
    attrs_again env write_attrs attrs_of visible -> texts_again to_bytes parse ->
    valid blank ff no_attrs attrs_of parse charref env n ty h0 evs0 v h0' -> n <= m ->
    exists evs, (exists F, forall fuel calls, F <= fuel -> length evs < calls ->
      serialize ff env (field_tag cfg) (open_tag cfg collect write_attrs) (close_tag cfg) to_bytes
        fuel calls ty name v helper_default = SRDone evs helper_default) /\
      driver_run (type_deser ff no_attrs attrs_of parse charref utf8_valid env m ty) blank driver_new evs = RDone v [].
  Proof.
    intros Tm Rd Ws Ag Tx Va LE.
    pose proof (scoped_back cfg collect env (ty, name) known visible Ws write_attrs to_bytes attrs_of parse Ag Tx) as Bk.
    destruct (round_trip T A blank ff no_attrs attrs_of parse charref env (field_tag cfg) (open_tag cfg collect write_attrs) (close_tag cfg) to_bytes
      _ n ty name h0 evs0 v h0' helper_default Tm Rd Bk) as [evs [h' [Va' Se]]].
    - intros t root nm u h S At. unfold open_tag. match goal with |- context [let (_, _) := ?q in _] => destruct q as [h1 a1] end.
      destruct (val_attrs u) as [a|]; [|eauto]. destruct (proj1 Ag t a h1 At) as [a2 [-> _]]. eauto.
    - intros t x h Tr. destruct (Tx t x h Tr) as [data [E [O _]]]. eauto.
    - split; [constructor|]. split; [constructor|]. split; [intros p; reflexivity|]. split; [constructor|]. intros t x E. discriminate E.
    - exact Va.
    - exists evs. split; [exact Se|]. rewrite <- (app_nil_r evs). change (evs ++ []) with ([] ++ evs ++ [])%list.
      eapply document_read; [exact Tm|exact LE|constructor|exact Va'].
  Qed.
End Again.

(** ** Configurations *)

(** Without declarations, if no name has a prefix. *)
Lemma plain_scoped {V} cfg (collect : nat -> V -> list (option bytes * bytes)) env top :
  wc_mode cfg = NsNone ->
  (forall ns p, wc_prefix cfg ns = Some p -> split_colon p = None) ->
  (forall ty0 l ty, declared env ty0 l ty -> split_colon (snd l) = None /\ field_tag cfg (fst l) (snd l) = snd l) ->
  well_scoped cfg collect env top (fun _ => None) (fun _ _ => False).
Proof.
  intros M Cf De. split; try discriminate; try contradiction; [| |exact Cf].
  - intros w ty root name v p ns _ _ I. unfold declarations, tag_ops in I. rewrite M in I. contradiction.
  - intros ty0 l ty Dl. destruct (De _ _ _ Dl) as [C E]. split; [exact C|]. destruct l as [[ns|] name]; [|exact I]. cbn [fst snd] in *.
    unfold prefix_in. rewrite E, C. exact I.
Qed.

Lemma tag_prefix cfg ns name : (forall ns p, wc_prefix cfg ns = Some p -> split_colon p = None) ->
  split_colon name = None -> wc_element_qualified cfg (Some ns) name = true ->
  prefix_in (field_tag cfg (Some ns) name) = used_prefix cfg ns.
Proof.
  intros Cf C Q. unfold prefix_in, field_tag, used_prefix. rewrite Q. cbn [andb].
  destruct (is_default cfg (Some ns)); cbn [negb]; [rewrite C; reflexivity|].
  destruct (wc_prefix cfg ns) as [p|] eqn:E; [|rewrite C; reflexivity]. rewrite split_prefixed by eauto. reflexivity.
Qed.

Lemma attr_ops_in cfg l op : forall seen, In op (attr_ops cfg seen l) -> exists ns, In ns l /\ op = XFixed (wc_prefix cfg ns) ns.
Proof.
  induction l as [|ns l IH]; intros seen I; [contradiction|]. cbn [attr_ops] in I. destruct (existsb (String.eqb ns) seen).
  - destruct (IH _ I) as [n [J E]]. exists n. split; [right|]; assumption.
  - destruct I as [<-|I]; [exists ns; split; [left|]; reflexivity|]. destruct (IH _ I) as [n [J E]]. exists n. split; [right|]; assumption.
Qed.

(** With declarations where they are needed, if elements are in the namespace of their
    types, or of the type around for simple types. *)
Lemma local_scoped {V} cfg (collect : nat -> V -> list (option bytes * bytes)) env ty name known :
  wc_mode cfg = NsLocal ->
  (forall ns p, wc_prefix cfg ns = Some p -> split_colon p = None) ->
  (forall p ns, known p = Some ns -> prefix_ok p /\ namespace_ok ns) ->
  (forall ty ns, wc_type_ns cfg ty = Some ns -> known (used_prefix cfg ns) = Some ns) ->
  (forall ty ns, In ns (wc_attr_ns cfg ty) -> known (wc_prefix cfg ns) = Some ns) ->
  (forall ty, wc_type_qualified cfg ty = true) ->
  (forall ty0 l ty, declared env ty0 l ty -> split_colon (snd l) = None /\ wc_element_qualified cfg (fst l) (snd l) = true /\
     exists ns, fst l = Some ns /\ (env ty = TSimple \/ wc_type_ns cfg ty = Some ns) /\
       (env ty = TSimple -> wc_type_ns cfg ty0 = Some ns)) ->
  (forall ns, wc_type_ns cfg ty = Some ns -> prefix_in name = used_prefix cfg ns) ->
  well_scoped cfg collect env (ty, name) known
    (fun ty x => exists ns, wc_type_ns cfg ty = Some ns /\ x = (used_prefix cfg ns, ns)).
Proof.
  intros M Cf Ko Kt Ka Tq De Ro.
  assert (P : forall w ty0 root nm ns, placed env (field_tag cfg) (ty, name) w ty0 root nm -> env ty0 <> TSimple -> wc_type_ns cfg ty0 = Some ns ->
    prefix_in nm = used_prefix cfg ns).
  { intros w ty0 root nm ns Pl Ns E. destruct w as [w|].
    - destruct Pl as [l [Dl ->]]. destruct (De _ _ _ Dl) as (C & Q & n & El & [S|T] & _); [contradiction|].
      rewrite E in T. injection T as <-. rewrite El in *. apply tag_prefix; assumption.
    - destruct Pl as [_ Pl]. injection Pl as -> ->. apply Ro, E. }
  split; [exact Ko| | | |exact Cf].
  - intros w ty0 root nm v p ns Pl Ns I. unfold declarations, tag_ops in I. rewrite M in I.
    assert (Q : forall op, In op (local_ops cfg ty0) ->
      (exists n, op = XTag n /\ wc_type_ns cfg ty0 = Some n) \/ exists n, In n (wc_attr_ns cfg ty0) /\ op = XFixed (wc_prefix cfg n) n).
    { intros op J. unfold local_ops in J. destruct (wc_type_ns cfg ty0) as [n|]; [|right; eapply attr_ops_in, J].
      rewrite Tq, orb_true_r in J. destruct J as [<-|J]; [left; eauto|right; eapply attr_ops_in, J]. }
    destruct (local_ops cfg ty0) as [|o ops]; [contradiction|].
    apply in_map_iff in I as [op [E I]]. destruct (Q op I) as [[n [-> T]]|[n [J ->]]].
    + injection E as <- <-. rewrite (P _ _ _ _ _ Pl Ns T). apply Kt with (1 := T).
    + injection E as <- <-. eapply Ka, J.
  - intros w ty0 root nm v x Pl Ns [ns [E ->]]. left. unfold declarations, tag_ops. rewrite M. unfold local_ops. rewrite E, Tq, orb_true_r.
    cbn [map]. left. rewrite (P _ _ _ _ _ Pl Ns E). reflexivity.
  - intros ty0 l ty1 Dl. destruct (De _ _ _ Dl) as (C & Q & ns & El & T & S). split; [exact C|]. rewrite El in *.
    rewrite tag_prefix by assumption.
    assert (K : known (used_prefix cfg ns) = Some ns). { destruct T as [T|T]; [eapply Kt, S, T|eapply Kt, T]. }
    destruct (used_prefix cfg ns) as [p|] eqn:Eu; [|exact I]. exists ns. rewrite Eu. split; [|reflexivity].
    destruct (env ty1) eqn:Et; [apply S; reflexivity| |]; (destruct T as [T|T]; [discriminate T|exact T]).
Qed.

(** With all declarations on the root element, if they cover the names of all elements. *)
Lemma global_scoped {V} cfg (collect : nat -> V -> list (option bytes * bytes)) env ty name known :
  wc_mode cfg = NsGlobal ->
  (forall ns p, wc_prefix cfg ns = Some p -> split_colon p = None) ->
  (forall p ns, known p = Some ns -> prefix_ok p /\ namespace_ok ns) ->
  (forall ty p ns, In (p, ns) (wc_global cfg ty) -> known p = Some ns) ->
  (forall w ty1 root nm ns, placed env (field_tag cfg) (ty, name) w ty1 root nm -> env ty1 <> TSimple -> wc_type_ns cfg ty1 = Some ns ->
     wc_type_qualified cfg ty1 = true /\ (wc_prefix cfg ns = None -> known (prefix_in nm) = Some ns)) ->
  (forall ty0 l ty1, declared env ty0 l ty1 -> split_colon (snd l) = None /\
     forall ns, fst l = Some ns ->
       wc_element_qualified cfg (Some ns) (snd l) = true /\
       match used_prefix cfg ns with
       | Some p => In (Some p, ns) (wc_global cfg ty)
       | None => True
       end) ->
  well_scoped cfg collect env (ty, name) known (fun _ x => In x (wc_global cfg ty) /\ fst x <> None).
Proof.
  intros M Cf Ko Kg Kt De. split; [exact Ko| | | |exact Cf].
  - intros w ty1 root nm v p ns Pl Ns I. unfold declarations, tag_ops in I. rewrite M in I.
    assert (Q : forall op, In op (own_ops cfg ty1) \/ In op (root_ops cfg ty1 ++ fixed_ops (wc_global cfg ty1)) ->
      known (fst (op_pair nm op)) = Some (snd (op_pair nm op))).
    { intros op [J|J].
      - unfold own_ops in J. destruct (wc_type_ns cfg ty1) as [n|] eqn:E; [|contradiction].
        destruct (Kt _ _ _ _ _ Pl Ns E) as [Tq Kn]. rewrite Tq in J. cbn [andb] in J.
        destruct (wc_prefix cfg n); [contradiction|]. destruct J as [<-|[]]. apply Kn; reflexivity.
      - apply in_app_iff in J as [J|J].
        + unfold root_ops in J. destruct (wc_type_ns cfg ty1) as [n|] eqn:E; [|contradiction].
          destruct (Kt _ _ _ _ _ Pl Ns E) as [Tq _]. rewrite Tq in J. contradiction.
        + apply in_map_iff in J as [[q n] [<- J]]. eapply Kg, J. }
    destruct (own_ops cfg ty1) as [|o own]; [destruct (root_ops cfg ty1 ++ fixed_ops (wc_global cfg ty1)) as [|o' l]; [contradiction|]|];
      apply in_map_iff in I as [op [E I]]; change (op_pair nm op = (p, ns)) in E; specialize (Q op); rewrite E in Q; apply Q;
      destruct root; cbn [app] in I; try contradiction; auto.
    + destruct I as [I|I]; [left; left; exact I|]. apply in_app_iff in I as [I|I]; [left; right; exact I|right; exact I].
    + rewrite app_nil_r in I. left. exact I.
  - intros w ty1 root nm v x Pl _ [I Ne]. destruct w as [w|]; [right; exists w; auto|]. left.
    destruct Pl as [-> Pl]. injection Pl as -> ->. unfold declarations, tag_ops. rewrite M.
    assert (J : In x (map (op_pair name) (root_ops cfg ty ++ fixed_ops (wc_global cfg ty)))).
    { rewrite map_app. apply in_app_iff. right. unfold fixed_ops. rewrite map_map. cbn. rewrite map_ext with (g := fun x => x), map_id; [exact I|intros []; reflexivity]. }

    destruct (own_ops cfg ty) as [|o own]; [destruct (root_ops cfg ty ++ fixed_ops (wc_global cfg ty)) as [|o' l]; [contradiction|exact J]|].
    cbn [app map]. right. rewrite map_app. apply in_app_iff. right. exact J.
  - intros ty0 l ty1 Dl. destruct (De _ _ _ Dl) as [C Q]. split; [exact C|]. destruct (fst l) as [ns|] eqn:El; [|exact I].
    destruct (Q ns eq_refl) as [Eq H]. rewrite tag_prefix by assumption. destruct (used_prefix cfg ns) as [p|]; [|exact I].
    split; [exact H|discriminate].
Qed.

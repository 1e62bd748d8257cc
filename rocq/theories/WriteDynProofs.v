(** Proofs about the namespaces collected from a value. *)
From Coq Require Import Lia.
From Verif Require Import Utf8 WriteModel WriteDynModel DocSpec GenSpec TextSpec WriteSpec WriteDynSpec DocProofs DeProofs WriteProofs
  WriteTypedProofs WriteBackProofs WriteNsProofs.
Local Open Scope string_scope.
Local Open Scope list_scope.

Section Collected.
  Context {T A : Type}.
  Notation val := (val T A).
  Variable ff : flat_flags.
  Variable no_attrs : A.
  Variable cfg : wconfig.
  Variable env : nat -> tdef.
  Notation collect_ns := (collect_namespaces (T:=T) (A:=A) ff cfg env).

  Fixpoint fields_ns (ps : list particle) (fields : list (list val)) : list (option bytes * bytes) :=
    match fields, ps with
    | vals :: fields', p :: ps' => flat_map (collect_ns (ctype_of p)) vals ++ fields_ns ps' fields'
    | _, _ => []
    end.
  Definition content_ns (ps : list particle) (v : val) : list (option bytes * bytes) :=
    match v with
    | VStruct _ fields => fields_ns ps fields
    | VEnum i vals => match nth_error ps i with Some p => flat_map (collect_ns (ctype_of p)) vals | None => [] end
    | _ => []
    end.
  Definition inside_ns (ps : list particle) (v : val) : list (option bytes * bytes) :=
    match v with VStruct _ fields => flat_map (flat_map (content_ns ps)) fields | _ => [] end.

  Lemma collect_content ps v : collect_ns (CContent ps) v = content_ns ps v.
  Proof.
    destruct v as [t|a t|a fields|i vals]; try reflexivity. cbn [collect_namespaces content_ns].
    revert ps. induction fields as [|f fields IH]; intros [|p ps]; cbn [fields_ns]; try reflexivity. f_equal. apply IH.
  Qed.
  Lemma collect_inside ps v : match v with
      | VStruct _ fields => flat_map (flat_map (collect_ns (CContent ps))) fields
      | _ => []
      end = inside_ns ps v.
  Proof.
    destruct v as [t|a t|a fields|i vals]; try reflexivity. cbn [inside_ns]. apply flat_map_ext. intros l. apply flat_map_ext. intros w.
    apply collect_content.
  Qed.
  Lemma collect_group c ps v : collect_ns (CGroup c ps) v = if flat_for ff c then content_ns ps v else inside_ns ps v.
  Proof.
    rewrite <- collect_content, <- collect_inside. destruct v; reflexivity.
  Qed.
  Lemma collect_element ty v : collect_ns (CElement ty) v =
    match env ty with
    | TSimple => []
    | TSimpleContent => own_namespace cfg ty ++ attribute_namespaces cfg ty
    | TComplex attributed min max c ps =>
        if nothing_allowed max ps then own_namespace cfg ty ++ attribute_namespaces cfg ty
        else if direct ff attributed min max c then
          own_namespace cfg ty ++ (if is_choice c then [] else attribute_namespaces cfg ty) ++ content_ns ps v
        else own_namespace cfg ty ++ attribute_namespaces cfg ty ++ inside_ns ps v
    end.
  Proof.
    destruct (env ty) as [| |attributed min max c ps] eqn:E.
    - destruct v; cbn [collect_namespaces]; rewrite E; reflexivity.
    - destruct v; cbn [collect_namespaces]; rewrite E; reflexivity.
    - rewrite <- collect_content, <- collect_inside. destruct v; cbn [collect_namespaces]; rewrite E; reflexivity.
  Qed.

  Lemma fields_in x ps : forall fields, In x (fields_ns ps fields) <->
    exists i p vals w, nth_error ps i = Some p /\ nth_error fields i = Some vals /\ In w vals /\ In x (collect_ns (ctype_of p) w).
  Proof.
    induction ps as [|p ps IH]; intros [|f fields]; cbn [fields_ns]; (split; [intros I|intros (i & q & vals & w & N1 & N2 & I1 & I2)]); try contradiction;
      try (destruct i; discriminate N1); try (destruct i; discriminate N2).
    - apply in_app_iff in I as [I|I].
      + apply in_flat_map in I as [w [I1 I2]]. exists 0, p, f, w. auto.
      + apply IH in I as (i & q & vals & w & N1 & N2 & I1 & I2). exists (S i), q, vals, w. auto.
    - apply in_app_iff. destruct i as [|i]; cbn [nth_error] in *.
      + injection N1 as <-. injection N2 as <-. left. apply in_flat_map. eauto.
      + right. apply IH. exists i, q, vals, w. auto.
  Qed.

  Section Level.
    Variable telement : nat -> val -> Prop.
    Notation group_typed := (group_typed).
    Notation field_typed := (field_typed ff no_attrs telement).
    Notation particle_typed := (particle_typed ff no_attrs telement).
    Notation in_group := (child_of_group ff no_attrs).
    Notation in_particle := (child_of_particle ff no_attrs).

    Lemma content_in x ps w :
      (forall p, In p ps -> forall u, particle_typed p u -> In x (collect_ns (ctype_of p) u) <->
        exists ty v, in_particle p u ty v /\ In x (collect_ns (CElement ty) v)) ->
      forall c, group_typed c (map field_typed ps) w ->
      (In x (content_ns ps w) <-> exists ty v, in_group ps w ty v /\ In x (collect_ns (CElement ty) v)).
    Proof.
      intros H c Ty. destruct w as [t|a t|a fields|i vals]; cbn [WriteSpec.group_typed content_ns] in *; try contradiction.
      - destruct Ty as [_ Ty]. rewrite fields_in.
        assert (Q : forall i p vals u, nth_error ps i = Some p -> nth_error fields i = Some vals -> In u vals -> In p ps /\ particle_typed p u).
        { intros i p vals u N1 N2 I. split; [eapply nth_error_In, N1|]. clear H. revert fields i Ty N1 N2. induction ps as [|q ps' IH]; intros fields i Ty N1 N2.
          - destruct i; discriminate N1.
          - inversion Ty as [|? f ? fs Ff Fr]; subst. destruct i as [|i]; cbn [nth_error] in *.
            + injection N1 as <-. injection N2 as <-. destruct Ff as [_ Ff]. rewrite Forall_forall in Ff. apply Ff, I.
            + eapply IH; eassumption. }
        split.
        + intros (i & p & vals & u & N1 & N2 & I1 & I2). destruct (Q _ _ _ _ N1 N2 I1) as [Ip Tp]. apply (H p Ip u Tp) in I2 as (ty & v & C & I2).
          exists ty, v. split; [|exact I2]. econstructor; eassumption.
        + intros (ty & v & C & I). inversion C as [? ? ? i p vals u ? ? N1 N2 I1 C1|]; subst. destruct (Q _ _ _ _ N1 N2 I1) as [Ip Tp].
          exists i, p, vals, u. split; [exact N1|]. split; [exact N2|]. split; [exact I1|]. apply (H p Ip u Tp). eauto.
      - destruct Ty as [_ [part [N Ty]]]. rewrite nth_error_map in N. destruct (nth_error ps i) as [p|] eqn:Ep; [|discriminate N].
        injection N as <-. destruct Ty as [_ Ty]. rewrite Forall_forall in Ty. pose proof (nth_error_In _ _ Ep) as Ip. rewrite in_flat_map. split.
        + intros (u & I1 & I2). apply (H p Ip u (Ty u I1)) in I2 as (ty & v & C & I2). exists ty, v. split; [|exact I2]. econstructor; eassumption.
        + intros (ty & v & C & I). inversion C as [|? ? p' ? u ? ? N1 I1 C1]; subst. rewrite Ep in N1. injection N1 as <-.
          exists u. split; [exact I1|]. apply (H p Ip u (Ty u I1)). eauto.
    Qed.

    Lemma packed_inj c w w' : packed ff no_attrs c w = packed (T:=T) ff no_attrs c w' -> w = w'.
    Proof. unfold packed. destruct (flat_for ff c); [auto|]. intros E. injection E as E. exact E. Qed.

    Lemma particle_in x p : forall u, particle_typed p u ->
      (In x (collect_ns (ctype_of p) u) <-> exists ty v, in_particle p u ty v /\ In x (collect_ns (CElement ty) v)).
    Proof.
      induction p as [min max ns name ty|min max c ps IH] using particle_ind'; intros u Ty; cbn [ctype_of].
      - split.
        + intros I. exists ty, u. split; [constructor|exact I].
        + intros (ty' & v & C & I). inversion C; subst. exact I.
      - cbn [WriteSpec.particle_typed] in Ty. destruct Ty as [w [-> Ty]]. rewrite collect_group.
        assert (E : (if flat_for ff c then content_ns ps (packed ff no_attrs c w) else inside_ns ps (packed ff no_attrs c w)) = content_ns ps w).
        { unfold packed. destruct (flat_for ff c); [reflexivity|]. cbn [inside_ns flat_map]. rewrite !app_nil_r. reflexivity. }
        rewrite E. rewrite Forall_forall in IH. rewrite (content_in x ps w IH c Ty). split.
        + intros (ty & v & C & I). exists ty, v. split; [constructor; exact C|exact I].
        + intros (ty & v & C & I). inversion C as [|? ? ? ? w' ? ? C1 E1 E2]; subst. apply packed_inj in E2. subst w'. eauto.
    Qed.

    Lemma group_in x ps w c : group_typed c (map field_typed ps) w ->
      (In x (content_ns ps w) <-> exists ty v, in_group ps w ty v /\ In x (collect_ns (CElement ty) v)).
    Proof. intros Ty. eapply content_in; [|exact Ty]. intros p _. apply particle_in. Qed.

    Lemma child_typed ps : (forall w ty u, in_group ps w ty u -> forall c, group_typed c (map field_typed ps) w -> telement ty u).
    Proof.
      assert (P : forall p w ty u, particle_typed p w -> in_particle p w ty u -> telement ty u).
      { induction p as [min max ns name ty0|min max c qs IH] using particle_ind'; intros w ty u Ty C.
        - inversion C; subst. exact Ty.
        - cbn [WriteSpec.particle_typed] in Ty. destruct Ty as [w' [-> Ty]]. inversion C as [|? ? ? ? w'' ? ? C1 E1 E2]; subst. apply packed_inj in E2. subst w''.
          rewrite Forall_forall in IH. destruct w' as [t|a t|a fields|i vals]; cbn [WriteSpec.group_typed] in Ty; try contradiction.
          + destruct Ty as [_ Ty]. inversion C1 as [? ? ? i p vals x ? ? N1 N2 I1 C2|]; subst.
            assert (particle_typed p x).
            { clear IH C C1. revert fields i Ty N1 N2. induction qs as [|q qs IHq]; intros fields i Ty N1 N2; [destruct i; discriminate N1|].
              inversion Ty as [|? f ? fs Ff Fr]; subst. destruct i as [|i]; cbn [nth_error] in *.
              - injection N1 as <-. injection N2 as <-. destruct Ff as [_ Ff]. rewrite Forall_forall in Ff. apply Ff, I1.
              - eapply IHq; eassumption. }
            eapply IH; [eapply nth_error_In, N1|eassumption|eassumption].
          + destruct Ty as [_ [part [N Ty]]]. inversion C1 as [|? ? p ? x ? ? N1 I1 C2]; subst. rewrite nth_error_map, N1 in N. injection N as <-.
            destruct Ty as [_ Ty]. rewrite Forall_forall in Ty. eapply IH; [eapply nth_error_In, N1|apply Ty, I1|exact C2]. }
      intros w ty u C c Ty. eapply (P (PGroup 1 (Bounded 1) c ps) (packed ff no_attrs c w)); [exists w; auto|constructor; exact C].
    Qed.
  End Level.

  Lemma with_prefix_in ns x : In x (with_prefix cfg ns) <-> exists p, wc_prefix cfg ns = Some p /\ x = (Some p, ns).
  Proof.
    unfold with_prefix. destruct (wc_prefix cfg ns) as [p|]; cbn [In].
    - split; [intros [<-|[]]; eauto|intros [q [E ->]]; injection E as <-; auto].
    - split; [contradiction|intros [q [E _]]; discriminate E].
  Qed.
  Lemma own_attrs_in ty x : In x (own_namespace cfg ty ++ attribute_namespaces cfg ty) <-> type_namespace cfg ty x.
  Proof.
    rewrite in_app_iff. unfold own_namespace, attribute_namespaces, type_namespace. rewrite in_flat_map. destruct x as [q ns]. cbn [fst snd]. split.
    - intros [I|[n [J I]]].
      + destruct (wc_type_ns cfg ty) as [n|]; [|contradiction]. destruct (wc_type_qualified cfg ty); [|contradiction].
        apply with_prefix_in in I as [p [E Ex]]. injection Ex as -> ->. exists p. auto.
      + apply with_prefix_in in I as [p [E Ex]]. injection Ex as -> ->. exists p. auto.
    - intros [p [E [-> [[-> ->]|J]]]]; [left|right; exists ns; split; [exact J|]]; apply with_prefix_in; eauto.
  Qed.

  Variable ok : nat -> val -> Prop.
  Hypothesis attributed : forall ty, attributed_type (env ty) = false -> wc_attr_ns cfg ty = [].
  Notation typed := (typed ff no_attrs env ok).

  Lemma collect_split n ty v x : typed (S n) ty v ->
    (In x (collect ff cfg env ty v) <-> (env ty <> TSimple /\ type_namespace cfg ty x) \/
      exists ty' v', child ff no_attrs env ty v ty' v' /\ In x (collect ff cfg env ty' v')).
  Proof.
    intros [_ Ty]. unfold collect, child. rewrite collect_element. destruct (env ty) as [| |att min max c ps] eqn:E.
    - split; [contradiction|]. intros [[N _]|(ty' & v' & [] & _)]; congruence.
    - rewrite own_attrs_in. split; [intros I; left; split; [discriminate|exact I]|intros [[_ I]|(ty' & v' & [] & _)]; exact I].
    - destruct (nothing_allowed max ps) eqn:No.
      + rewrite own_attrs_in. split; [intros I; left; split; [discriminate|exact I]|intros [[_ I]|(ty' & v' & [Q _] & _)]; [exact I|discriminate Q]].
      + destruct (direct ff att min max c) eqn:D.
        * assert (Ea : (if is_choice c then [] else attribute_namespaces cfg ty) = attribute_namespaces cfg ty).
          { destruct (is_choice c) eqn:Ec; [|reflexivity]. unfold attribute_namespaces. rewrite attributed; [reflexivity|]. rewrite E. cbn [attributed_type].
            unfold direct in D. rewrite Ec in D. destruct att; [|reflexivity]. rewrite andb_false_r in D. discriminate D. }
          rewrite Ea, app_assoc, in_app_iff, own_attrs_in, (group_in _ x ps v c Ty). split.
          -- intros [I|(ty' & v' & C & I)]; [left; split; [discriminate|exact I]|right; exists ty', v'; auto].
          -- intros [[_ I]|(ty' & v' & [_ C] & I)]; [auto|right; exists ty', v'; auto].
        * destruct Ty as [a [vals [-> [_ Ty]]]]. rewrite app_assoc, in_app_iff, own_attrs_in. cbn [inside_ns flat_map]. rewrite app_nil_r, in_flat_map.
          rewrite Forall_forall in Ty. split.
          -- intros [I|(w & Iw & I)]; [left; split; [discriminate|exact I]|right].
             apply (group_in _ x ps w c (Ty w Iw)) in I as (ty' & v' & C & I). exists ty', v'. split; [|exact I]. split; [reflexivity|]. exists a, vals, w. auto.
          -- intros [[_ I]|(ty' & v' & [_ (a' & vals' & w & Ev & Iw & C)] & I)]; [auto|right]. injection Ev as <- <-. exists w. split; [exact Iw|].
             apply (group_in _ x ps w c (Ty w Iw)). eauto.
  Qed.

  Lemma typed_child n ty v ty' v' : typed (S n) ty v -> child ff no_attrs env ty v ty' v' -> typed n ty' v'.
  Proof.
    intros [_ Ty] C. unfold child in C. destruct (env ty) as [| |att min max c ps]; try contradiction. destruct C as [No C]. rewrite No in Ty.
    destruct (direct ff att min max c).
    - eapply child_typed; eassumption.
    - destruct C as (a & vals & w & -> & Iw & C). destruct Ty as (a' & vals' & E & _ & Ty). injection E as <- <-. rewrite Forall_forall in Ty.
      eapply child_typed; [exact C|exact (Ty w Iw)].
  Qed.

  Lemma collected n : forall ty v x, typed n ty v ->
    (In x (collect ff cfg env ty v) <->
     exists ty' v', in_element ff no_attrs env ty v ty' v' /\ env ty' <> TSimple /\ type_namespace cfg ty' x).
  Proof.
    induction n as [|n IH]; intros ty v x Ty; [contradiction|]. rewrite (collect_split n ty v x Ty). split.
    - intros [[N I]|(ty1 & v1 & C & I)]; [exists ty, v; split; [constructor|auto]|].
      apply (IH _ _ _ (typed_child _ _ _ _ _ Ty C)) in I as (ty2 & v2 & In' & Q). exists ty2, v2. split; [econstructor; eassumption|exact Q].
    - intros (ty2 & v2 & In' & Q). inversion In' as [|? ? ty1 v1 ? ? C In1]; subst; [left; exact Q|right].
      exists ty1, v1. split; [exact C|]. apply (IH _ _ _ (typed_child _ _ _ _ _ Ty C)). eauto.
  Qed.

  (** ** Values in which every element has a property *)
  Section Retype.
    Variables telement telement' : nat -> val -> Prop.

    Lemma particle_retyped p : forall w, particle_typed ff no_attrs telement p w ->
      (forall ty u, child_of_particle ff no_attrs p w ty u -> telement ty u -> telement' ty u) ->
      particle_typed ff no_attrs telement' p w.
    Proof.
      induction p as [min max ns name ty0|min max c qs IH] using particle_ind'; intros w Ty Im.
      - apply Im; [constructor|exact Ty].
      - cbn [particle_typed] in *. destruct Ty as [w' [-> Ty]]. exists w'. split; [reflexivity|]. rewrite Forall_forall in IH.
        assert (Im' : forall ty u, child_of_group ff no_attrs qs w' ty u -> telement ty u -> telement' ty u) by (intros; apply Im; [constructor|]; assumption).
        clear Im. destruct w' as [t|a t|a fields|i vals]; cbn [group_typed] in *; try contradiction.
        + destruct Ty as [Ec Ty]. split; [exact Ec|].
          assert (Im : forall i q vals w ty u, nth_error qs i = Some q -> nth_error fields i = Some vals -> In w vals ->
            child_of_particle ff no_attrs q w ty u -> telement ty u -> telement' ty u).
          { intros i q vals w ty u N1 N2 I C. apply Im'. econstructor; eassumption. }
          clear Im'. revert fields Ty Im. induction qs as [|q qs IHq]; intros fields Ty Im; inversion Ty as [|? f ? fs Fq Fr]; subst; cbn [map]; constructor.
          * destruct Fq as [Fo Ff]. split; [exact Fo|]. rewrite Forall_forall in *. intros w I. apply (IH q (or_introl eq_refl)); [apply Ff, I|].
            intros ty u C. eapply (Im 0); [reflexivity|reflexivity|exact I|exact C].
          * apply IHq; [intros q' I; apply IH; right; exact I|exact Fr|]. intros i q' vals w ty u N1 N2. apply (Im (S i)); assumption.
        + destruct Ty as [Ec [part [N Ty]]]. split; [exact Ec|]. rewrite nth_error_map in N. destruct (nth_error qs i) as [q|] eqn:Eq; [|discriminate N].
          injection N as <-. destruct Ty as [Fo Ff]. eexists. split; [rewrite nth_error_map, Eq; reflexivity|]. split; [exact Fo|]. rewrite Forall_forall in *. intros w I.
          apply (IH q (nth_error_In _ _ Eq)); [apply Ff, I|]. intros ty u C. apply Im'. econstructor; eassumption.
    Qed.
    Lemma group_retyped c ps w : group_typed c (map (field_typed ff no_attrs telement) ps) w ->
      (forall ty u, child_of_group ff no_attrs ps w ty u -> telement ty u -> telement' ty u) ->
      group_typed c (map (field_typed ff no_attrs telement') ps) w.
    Proof.
      intros Ty Im. destruct (particle_retyped (PGroup 1 (Bounded 1) c ps) (packed ff no_attrs c w)) as [w' [E G]].
      - exists w. auto.
      - intros ty u C. inversion C as [|? ? ? ? w'' ? ? C1 E1 E2]; subst. apply packed_inj in E2. subst w''. apply Im, C1.
      - apply packed_inj in E. subst w'. exact G.
    Qed.
  End Retype.

  Lemma typed_also n (also : nat -> val -> Prop) : forall ty v, typed n ty v ->
    (forall ty' v', in_element ff no_attrs env ty v ty' v' -> also ty' v') ->
    WriteSpec.typed ff no_attrs env (fun ty v => ok ty v /\ also ty v) n ty v.
  Proof.
    induction n as [|n IH]; intros ty v Ty Al; [contradiction|]. pose proof Ty as [K Ty0]. cbn [WriteSpec.typed].
    split; [split; [exact K|apply Al; constructor]|].
    assert (St : forall ty1 v1, child ff no_attrs env ty v ty1 v1 -> typed n ty1 v1 ->
      WriteSpec.typed ff no_attrs env (fun ty v => ok ty v /\ also ty v) n ty1 v1).
    { intros ty1 v1 C T1. apply IH; [exact T1|]. intros ty2 v2 I. apply Al. econstructor; eassumption. }
    unfold child in St. destruct (env ty) as [| |att min max c ps]; try exact Ty0. destruct (nothing_allowed max ps) eqn:No; [exact Ty0|].
    destruct (direct ff att min max c).
    - eapply group_retyped; [exact Ty0|]. intros ty1 v1 C. apply St. auto.
    - destruct Ty0 as (a & vals & -> & Fo & Ff). exists a, vals. split; [reflexivity|]. split; [exact Fo|]. rewrite Forall_forall in *. intros w I.
      eapply group_retyped; [apply Ff, I|]. intros ty1 v1 C. apply St. split; [reflexivity|]. exists a, vals, w. auto.
  Qed.
End Collected.

(** ** What is written does not depend on the rest of [opening] *)
Section Mono.
  Context {T A : Type}.
  Notation val := (val T A).
  Variables (ff : flat_flags) (no_attrs : A) (env : nat -> tdef) (tag : option bytes -> bytes -> bytes)
    (opening opening' : nat -> bool -> bytes -> val -> helper -> outcome kind (list attr) * helper)
    (closing : nat -> helper -> helper) (to_bytes : nat -> T -> helper -> outcome kind (option bytes) * helper).
  Hypothesis less : forall ty root name v h attrs h1, opening ty root name v h = (Ok attrs, h1) -> opening' ty root name v h = (Ok attrs, h1).

  Lemma each_mono {X} (one one' : writes X) xs : (forall x h e h', one x h e h' -> one' x h e h') ->
    forall h e h', each one xs h e h' -> each one' xs h e h'.
  Proof.
    intros M. induction xs as [|x xs IH]; intros h e h' W; [exact W|]. destruct W as (e1 & h1 & e2 & -> & W1 & W2). exists e1, h1, e2. auto.
  Qed.
  Lemma in_turn_mono {X Y} (f g : Y -> writes X) ys : Forall (fun y => forall x h e h', f y x h e h' -> g y x h e h') ys ->
    forall xs h e h', in_turn (map f ys) xs h e h' -> in_turn (map g ys) xs h e h'.
  Proof.
    induction 1 as [|y ys M _ IH]; intros [|x xs] h e h' W; try exact W. destruct W as (e1 & h1 & e2 & -> & W1 & W2). exists e1, h1, e2. auto.
  Qed.
  Lemma group_mono {Y} (f g : Y -> writes (list val)) c ys : Forall (fun y => forall x h e h', f y x h e h' -> g y x h e h') ys ->
    forall v h e h', group_writes c (map f ys) v h e h' -> group_writes c (map g ys) v h e h'.
  Proof.
    intros M v h e h' W. destruct v as [t|a t|a fields|i vals]; cbn [group_writes] in *; try contradiction.
    - destruct W as [Ec W]. split; [exact Ec|]. eapply in_turn_mono; eassumption.
    - destruct W as [Ec [part [N W]]]. split; [exact Ec|]. rewrite nth_error_map in *. destruct (nth_error ys i) as [y|] eqn:Ey; [|discriminate N].
      injection N as <-. exists (g y). split; [reflexivity|]. rewrite Forall_forall in M. apply (M y (nth_error_In _ _ Ey)), W.
  Qed.
  Lemma particle_mono (el el' : nat -> bool -> bytes -> writes val) :
    (forall ty root name v h e h', el ty root name v h e h' -> el' ty root name v h e h') ->
    forall p root v h e h', particle_writes ff no_attrs tag el root p v h e h' -> particle_writes ff no_attrs tag el' root p v h e h'.
  Proof.
    intros M. induction p as [min max ns name ty|min max c ps IH] using particle_ind'; intros root v h e h' W; cbn [particle_writes] in *.
    - apply M, W.
    - destruct W as [w [-> W]]. exists w. split; [reflexivity|]. eapply group_mono; [|exact W]. rewrite Forall_forall in *. intros p I x h0 e0 h0'.
      apply each_mono. intros. apply IH; assumption.
  Qed.

  Lemma written_mono n : forall ty root name v h evs h', written ff no_attrs env tag opening closing to_bytes n ty root name v h evs h' ->
    written ff no_attrs env tag opening' closing to_bytes n ty root name v h evs h'.
  Proof.
    induction n as [|n IH]; intros ty root name v h evs h' W; [exact W|]. cbn [written] in *.
    assert (F : forall r ps, Forall (fun p => forall x h e h',
      field_writes ff no_attrs tag (written ff no_attrs env tag opening closing to_bytes n) r p x h e h' ->
      field_writes ff no_attrs tag (written ff no_attrs env tag opening' closing to_bytes n) r p x h e h') ps).
    { intros r ps. rewrite Forall_forall. intros p _ x h0 e0 h0'. apply each_mono. intros y h1 e1 h1'. apply particle_mono. exact IH. }
    destruct (env ty) as [| |att min max c ps]; [exact W| |].
    - destruct W as (a & t & attrs & h1 & data & h2 & Ev & Op & W). exists a, t, attrs, h1, data, h2. split; [exact Ev|]. split; [apply less, Op|exact W].
    - destruct (nothing_allowed max ps).
      + destruct W as (a & attrs & h1 & Ev & Op & W). exists a, attrs, h1. split; [exact Ev|]. split; [apply less, Op|exact W].
      + destruct W as (attrs & h1 & body & h2 & Op & W & E). exists attrs, h1, body, h2. split; [apply less, Op|]. split; [|exact E].
        destruct (direct ff att min max c).
        * eapply group_mono; [|exact W]. apply F.
        * destruct W as (a & vals & Ev & W). exists a, vals. split; [exact Ev|]. revert W. apply each_mono. intros x h0 e0 h0'. apply group_mono, F.
  Qed.
End Mono.

(** ** Every value has a document, if start tags can be written at their level *)
Section Levels.
  Context {T A : Type}.
  Notation val := (val T A).
  Variables (ff : flat_flags) (no_attrs : A) (env : nat -> tdef) (tag : option bytes -> bytes -> bytes)
    (opening : nat -> bool -> bytes -> val -> helper -> outcome kind (list attr) * helper)
    (closing : nat -> helper -> helper) (to_bytes : nat -> T -> helper -> outcome kind (option bytes) * helper).
  Variable ok : nat -> val -> Prop.
  Variable good : bool -> nat -> val -> helper -> Prop.
  Hypothesis inner : forall root ty v h, ok ty v -> 1 <= h_level h -> good root ty v h.
  Hypothesis opens : forall ty root name v h, ok ty v -> good root ty v h -> env ty <> TSimple ->
    exists attrs h', opening ty root name v h = (Ok attrs, h') /\ h_level h' = S (h_level h).
  Hypothesis closes : forall ty h, h_level (closing ty h) = pred (h_level h).
  Hypothesis texts : forall ty t v h, ok ty v -> val_text v = Some t ->
    exists data, to_bytes ty t h = (Ok data, h) /\ text_ok data = true.
  Notation written := (written ff no_attrs env tag opening closing to_bytes).

  (** The value can be written from a helper at level [k]. *)
  Definition goes_at {X} (k : nat) (one : writes X) (x : X) : Prop :=
    forall h, h_level h = k -> exists evs h', one x h evs h' /\ h_level h' = k.

  Lemma each_at {X} k (one : writes X) xs : (forall x, In x xs -> goes_at k one x) -> goes_at k (each one) xs.
  Proof.
    induction xs as [|x xs IH]; intros H h L; cbn [each].
    - exists [], h; auto.
    - destruct (H x (or_introl eq_refl) h L) as [e1 [h1 [W1 L1]]].
      destruct (IH (fun y I => H y (or_intror I)) h1 L1) as [e2 [h2 [W2 L2]]]. exists (e1 ++ e2), h2. split; [|exact L2]. exists e1, h1, e2. auto.
  Qed.
  Lemma in_turn_at {Y} k (t : Y -> list val -> Prop) (f : Y -> writes (list val)) ys :
    Forall (fun y => forall x, t y x -> goes_at k (f y) x) ys ->
    forall xs, Forall2 (fun (t : list val -> Prop) x => t x) (map t ys) xs -> goes_at k (in_turn (map f ys)) xs.
  Proof.
    induction 1 as [|y ys H _ IH]; intros xs Q h L; inversion Q as [|? x ? xs' Tx Txs]; subst; cbn [map in_turn].
    - exists [], h; auto.
    - destruct (H x Tx h eq_refl) as [e1 [h1 [W1 L1]]]. destruct (IH xs' Txs h1 L1) as [e2 [h2 [W2 L2]]].
      exists (e1 ++ e2), h2. split; [|exact L2]. exists e1, h1, e2. auto.
  Qed.
  Lemma group_at {Y} k c (t : Y -> list val -> Prop) (f : Y -> writes (list val)) ys v :
    Forall (fun y => forall x, t y x -> goes_at k (f y) x) ys ->
    group_typed c (map t ys) v -> goes_at k (group_writes c (map f ys)) v.
  Proof.
    intros P Ty h L. destruct v as [s|a s|a fields|i vals]; cbn [group_typed group_writes] in *; try contradiction.
    - destruct Ty as [Ec Ty]. destruct (in_turn_at k t f ys P _ Ty h L) as [evs [h' [W L']]]. eauto 6.
    - destruct Ty as [Ec [part [N Ty]]]. rewrite nth_error_map in *. destruct (nth_error ys i) as [y|] eqn:Ey; [|discriminate N]. injection N as <-.
      rewrite Forall_forall in P. destruct (P y (nth_error_In _ _ Ey) _ Ty h L) as [evs [h' [W L']]].
      exists evs, h'. split; [|exact L']. split; [exact Ec|]. exists (f y). auto.
  Qed.

  Section PartsAt.
    Variable k : nat.
    Variable telement : nat -> val -> Prop.
    Variable welement : nat -> bool -> bytes -> writes val.
    Hypothesis elements : forall ty root name v, telement ty v -> goes_at k (welement ty root name) v.

    Lemma particle_at p : forall root v, particle_typed ff no_attrs telement p v ->
      goes_at k (particle_writes ff no_attrs tag welement root p) v.
    Proof.
      induction p as [min max ns name ty|min max c ps IH] using particle_ind'; intros root v Ty h L.
      - apply elements; assumption.
      - cbn [particle_typed particle_writes] in *. destruct Ty as [w [-> Ty]].
        destruct (group_at k c (field_typed ff no_attrs telement) (fun p => each (particle_writes ff no_attrs tag welement false p)) ps w) with (2 := Ty) (h := h) as [evs [h' [W L']]]; [|exact L|].
        + rewrite Forall_forall in *. intros p I vals [_ Tv]. apply each_at. intros x Ix. rewrite Forall_forall in Tv. apply (IH p I), Tv, Ix.
        + exists evs, h'. split; [|exact L']. exists w. auto.
    Qed.
    Lemma fields_at root ps : Forall (fun p => forall x, field_typed ff no_attrs telement p x -> goes_at k (field_writes ff no_attrs tag welement root p) x) ps.
    Proof.
      rewrite Forall_forall. intros p _ vals [_ Tv]. apply each_at. intros x I. rewrite Forall_forall in Tv. apply particle_at, Tv, I.
    Qed.
  End PartsAt.

  Lemma written_at n : forall ty root name v h, typed ff no_attrs env ok n ty v -> good root ty v h ->
    exists evs h', written n ty root name v h evs h' /\ h_level h' = h_level h.
  Proof.
    induction n as [|n IH]; intros ty root name v h Ty Gd; [contradiction|].
    cbn [typed WriteSpec.written] in *. destruct Ty as [K Ty].
    assert (In' : forall k ty root name v, 1 <= k -> typed ff no_attrs env ok n ty v -> goes_at k (written n ty root name) v).
    { intros k ty1 root1 name1 v1 Lk T1 h1 <-. apply IH; [exact T1|]. apply inner; [|exact Lk]. destruct n; [contradiction|]. apply T1. }
    destruct (env ty) as [| |attributed min max c ps] eqn:Ety.
    - destruct Ty as [t ->]. destruct (texts ty t _ h K eq_refl) as [data [B O]]. eexists. exists h. split; [|reflexivity]. exists t, data. auto.
    - destruct Ty as [a [t ->]]. destruct (opens ty root name (VSimple a t) h K Gd) as [attrs [h1 [Op L1]]]; [congruence|].
      destruct (texts ty t _ h1 K eq_refl) as [data [B O]]. do 2 eexists. split; [exists a, t, attrs, h1, data, h1; repeat split; eauto|]. rewrite closes, L1. reflexivity.
    - destruct (opens ty root name v h K Gd) as [attrs [h1 [Op L1]]]; [congruence|]. destruct (nothing_allowed max ps).
      + destruct Ty as [a ->]. do 2 eexists. split; [exists a, attrs, h1; repeat split; eauto|]. rewrite closes, L1. reflexivity.
      + assert (Lk : 1 <= h_level h1) by lia. destruct (direct ff attributed min max c).
        * destruct (group_at (h_level h1) c (field_typed ff no_attrs (typed ff no_attrs env ok n)) (field_writes ff no_attrs tag (written n) (is_choice c && root)) ps v) with (2 := Ty) (h := h1) as [body [h2 [W L2]]];
            [apply fields_at; intros; apply In'; assumption|reflexivity|].
          do 2 eexists. split; [exists attrs, h1, body, h2; repeat split; eauto|]. rewrite closes, L2, L1. reflexivity.
        * destruct Ty as [a [vals [-> [_ Ty]]]].
          destruct (each_at (h_level h1) (group_writes c (map (field_writes ff no_attrs tag (written n) false) ps)) vals) with (h := h1) as [body [h2 [W L2]]]; [|reflexivity|].
          { intros x I. rewrite Forall_forall in Ty. specialize (Ty x I). eapply group_at; [|exact Ty]. apply fields_at. intros; apply In'; assumption. }
          do 2 eexists. split; [exists attrs, h1, body, h2; repeat split; eauto|]. rewrite closes, L2, L1. reflexivity.
  Qed.
End Levels.

From Verif Require Import SerHelperModel SerHelperSpec SerHelperProofs DeModel DeSpec DeProofs ElementModel ElementSpec ElementProofs WrapModel WrapSpec.
Local Open Scope string_scope.

(** ** Traces *)
Section Traces.
  Context {S : Type} (next : ser_next S).

  Lemma emits_run s h evs h' : emits next s h evs h' ->
    forall fuel, length evs < fuel -> ser_run next fuel s h = SRDone evs h'.
  Proof.
    induction 1 as [s h s' h' E|s h e s1 h1 evs h' E H IH]; intros fuel HF;
      (destruct fuel as [|fuel]; [cbn in HF; lia|]); cbn [ser_run]; rewrite E; [reflexivity|].
    cbn in HF. rewrite IH by lia. reflexivity.
  Qed.
  Lemma emits_err_run s h evs k : emits_err next s h evs k ->
    forall fuel, length evs < fuel -> ser_run next fuel s h = SRErr evs k.
  Proof.
    induction 1 as [s h s' h' k E|s h e s1 h1 evs k E H IH]; intros fuel HF;
      (destruct fuel as [|fuel]; [cbn in HF; lia|]); cbn [ser_run]; rewrite E; [reflexivity|].
    cbn in HF. rewrite IH by lia. reflexivity.
  Qed.
  Lemma run_emits fuel : forall s h evs h', ser_run next fuel s h = SRDone evs h' -> emits next s h evs h'.
  Proof.
    induction fuel as [|fuel IH]; cbn [ser_run]; intros s h evs h' H; [discriminate|].
    destruct (next s h) as [[[[e|k|]|] s1] h1] eqn:E; try discriminate.
    - destruct (ser_run next fuel s1 h1) as [evs' h2| | |] eqn:E1; try discriminate.
      injection H as <- <-. eapply em_step; [exact E|apply IH, E1].
    - injection H as <- <-. eapply em_end, E.
  Qed.
  Lemma run_emits_err fuel : forall s h evs k, ser_run next fuel s h = SRErr evs k -> emits_err next s h evs k.
  Proof.
    induction fuel as [|fuel IH]; cbn [ser_run]; intros s h evs k H; [discriminate|].
    destruct (next s h) as [[[[e|k'|]|] s1] h1] eqn:E; try discriminate.
    - destruct (ser_run next fuel s1 h1) as [|evs' k2| |] eqn:E1; try discriminate.
      injection H as <- <-. eapply ee_step; [exact E|apply IH, E1].
    - injection H as <- <-. eapply ee_end, E.
  Qed.
  Lemma emits_fun s h evs h' : emits next s h evs h' -> forall evs2 h2, emits next s h evs2 h2 -> evs = evs2 /\ h' = h2.
  Proof.
    induction 1 as [s h s' h' E|s h e s1 h1 evs h' E H IH]; intros evs2 h2 H2; inversion H2; subst.
    - rewrite E in H. injection H as _ <-. auto.
    - rewrite E in H. discriminate.
    - rewrite E in H0. discriminate.
    - rewrite E in H0. injection H0 as <- <- <-. destruct (IH _ _ H1) as [-> ->]. auto.
  Qed.
End Traces.

(** ** IterSerializer *)
Section Iter.
  Context {I S : Type} (mk : I -> outcome kind S) (next : ser_next S).
  Notation inext := (iser_next mk next).
  Notation ipend := (ipending mk next).

  Lemma iw_emits items h evs h' : items_written mk next items h evs h' -> emits inext (IPending items) h evs h'.
  Proof.
    induction 1 as [h|x xs s h e1 h1 e2 h2 HM HE HW IH].
    - eapply em_end. reflexivity.
    - destruct HE as [s h s' h1 E|s h e s1 h0 evs h1 E H].
      + cbn [app]. inversion IH; subst.
        * eapply em_end. cbn [iser_next ipending]. rewrite HM, E. exact H.
        * eapply em_step; [|exact H0]. cbn [iser_next ipending]. rewrite HM, E. exact H.
      + cbn [app]. eapply em_step; [cbn [iser_next ipending]; rewrite HM, E; reflexivity|].
        clear E HM s h. induction H as [s h s' h' E|s h e' s2 h3 evs h' E H IHe].
        * cbn [app]. inversion IH; subst.
          -- eapply em_end. cbn [iser_next]. rewrite E. exact H.
          -- eapply em_step; [|exact H0]. cbn [iser_next]. rewrite E. exact H.
        * cbn [app]. eapply em_step; [cbn [iser_next]; rewrite E; reflexivity|]. apply IHe; assumption.
  Qed.

  Lemma if_emits items h evs k : items_failed mk next items h evs k -> emits_err inext (IPending items) h evs k.
  Proof.
    induction 1 as [x xs h k HM|x xs s h e1 k HM HE|x xs s h e1 h1 e2 k HM HE HW IH].
    - eapply ee_end. cbn. rewrite HM. reflexivity.
    - destruct HE as [s h s' h' k E|s h e s1 h1 evs k E H].
      + eapply ee_end. cbn. rewrite HM, E. reflexivity.
      + eapply ee_step; [cbn; rewrite HM, E; reflexivity|]. clear E HM s h.
        induction H as [s h s' h' k E|s h e' s2 h2 evs k E H IH].
        * eapply ee_end. cbn. rewrite E. reflexivity.
        * eapply ee_step; [cbn; rewrite E; reflexivity|exact IH].
    - destruct HE as [s h s' h1 E|s h e s1 h0 evs h1 E H].
      + cbn [app]. inversion IH; subst.
        * eapply ee_end. cbn [iser_next ipending]. rewrite HM, E. exact H.
        * eapply ee_step; [|exact H0]. cbn [iser_next ipending]. rewrite HM, E. exact H.
      + cbn [app]. eapply ee_step; [cbn [iser_next ipending]; rewrite HM, E; reflexivity|].
        clear E HM s h. induction H as [s h s' h' E|s h e' s2 h3 evs h' E H IHe].
        * cbn [app]. inversion IH; subst.
          -- eapply ee_end. cbn [iser_next]. rewrite E. exact H.
          -- eapply ee_step; [|exact H0]. cbn [iser_next]. rewrite E. exact H.
        * cbn [app]. eapply ee_step; [cbn [iser_next]; rewrite E; reflexivity|]. apply IHe; assumption.
  Qed.

  (** What the rest of a run writes, by state. *)
  Definition rest_written (st : iser I S) (h : helper) (evs : list event) (h' : helper) : Prop :=
    match st with
    | IPending xs => items_written mk next xs h evs h'
    | IEmitting xs s => exists e1 h1 e2, emits next s h e1 h1 /\ items_written mk next xs h1 e2 h' /\ evs = (e1 ++ e2)%list
    | IDone => evs = [] /\ h' = h
    end.
  Definition rest_failed (st : iser I S) (h : helper) (evs : list event) (k : kind) : Prop :=
    match st with
    | IPending xs => items_failed mk next xs h evs k
    | IEmitting xs s => emits_err next s h evs k \/
        exists e1 h1 e2, emits next s h e1 h1 /\ items_failed mk next xs h1 e2 k /\ evs = (e1 ++ e2)%list
    | IDone => False
    end.

  Lemma ipend_cases items : forall h r st h1, ipend items h = (r, st, h1) ->
    match r with
    | None => st = IDone /\ items_written mk next items h [] h1
    | Some (Ok e) => exists ys s', st = IEmitting ys s' /\
        (forall evs h', rest_written st h1 evs h' -> items_written mk next items h (e :: evs) h') /\
        (forall evs k, rest_failed st h1 evs k -> items_failed mk next items h (e :: evs) k)
    | Some (Err k) => items_failed mk next items h [] k
    | Some Panic => True
    end.
  Proof.
    induction items as [|x xs IH]; intros h r st h1 H; cbn in H.
    - injection H as <- <- <-. split; [reflexivity|constructor].
    - destruct (mk x) as [s|k|] eqn:EM.
      + destruct (next s h) as [[[ret|] s'] h'] eqn:EN.
        * injection H as <- <- <-. destruct ret as [e|k|]; [|eapply if_item; [exact EM|eapply ee_end, EN]|exact Logic.I].
          exists xs, s'. split; [reflexivity|]. split.
          -- intros evs h2 (e1 & h3 & e2 & H1 & H2 & ->). change (e :: e1 ++ e2)%list with ((e :: e1) ++ e2)%list.
             eapply iw_cons; [exact EM|eapply em_step; [exact EN|exact H1]|exact H2].
          -- intros evs k [H1|(e1 & h3 & e2 & H1 & H2 & ->)].
             ++ eapply if_item; [exact EM|eapply ee_step; [exact EN|exact H1]].
             ++ change (e :: e1 ++ e2)%list with ((e :: e1) ++ e2)%list.
                eapply if_later; [exact EM|eapply em_step; [exact EN|exact H1]|exact H2].
        * specialize (IH _ _ _ _ H). assert (HE : emits next s h [] h') by (eapply em_end, EN).
          destruct r as [[e|k|]|].
          -- destruct IH as (ys & s2 & -> & HW & HF). exists ys, s2. split; [reflexivity|]. split.
             ++ intros evs h2 HR. change (e :: evs) with ([] ++ e :: evs)%list.
                eapply iw_cons; [exact EM|exact HE|apply HW, HR].
             ++ intros evs k HR. change (e :: evs) with ([] ++ e :: evs)%list.
                eapply if_later; [exact EM|exact HE|apply HF, HR].
          -- change (@nil event) with (@nil event ++ [])%list. eapply if_later; eauto.
          -- exact Logic.I.
          -- destruct IH as [-> IH]. split; [reflexivity|]. change (@nil event) with (@nil event ++ [])%list.
             eapply iw_cons; eauto.
      + injection H as <- <- <-. apply if_new, EM.
      + injection H as <- <- <-. exact Logic.I.
  Qed.

  Lemma emits_rest st h evs h' : emits inext st h evs h' -> rest_written st h evs h'.
  Proof.
    induction 1 as [st h st' h' E|st h e st1 h1 evs h' E H IH].
    - destruct st as [items|items s|]; cbn in E.
      + apply ipend_cases in E. apply E.
      + destruct (next s h) as [[[r|] s'] h2] eqn:EN; [discriminate|]. apply ipend_cases in E.
        exists [], h2, []. split; [eapply em_end, EN|]. split; [apply E|reflexivity].
      + injection E as _ <-. split; reflexivity.
    - destruct st as [items|items s|]; cbn in E.
      + apply ipend_cases in E. destruct E as (ys & s' & -> & HW & _). apply HW, IH.
      + destruct (next s h) as [[[r|] s'] h2] eqn:EN.
        * injection E as -> <- <-. destruct IH as (e1 & h3 & e2 & H1 & H2 & ->).
          exists (e :: e1), h3, e2. split; [eapply em_step; [exact EN|exact H1]|]. split; [exact H2|reflexivity].
        * apply ipend_cases in E. destruct E as (ys & s2 & -> & HW & _).
          exists [], h2, (e :: evs). split; [eapply em_end, EN|]. split; [apply HW, IH|reflexivity].
      + discriminate.
  Qed.

  Lemma emits_err_rest st h evs k : emits_err inext st h evs k -> rest_failed st h evs k.
  Proof.
    induction 1 as [st h st' h' k E|st h e st1 h1 evs k E H IH].
    - destruct st as [items|items s|]; cbn in E.
      + apply ipend_cases in E. exact E.
      + destruct (next s h) as [[[r|] s'] h2] eqn:EN.
        * injection E as -> _ _. left. eapply ee_end, EN.
        * apply ipend_cases in E. right. exists [], h2, []. split; [eapply em_end, EN|]. split; [exact E|reflexivity].
      + discriminate.
    - destruct st as [items|items s|]; cbn in E.
      + apply ipend_cases in E. destruct E as (ys & s' & -> & _ & HF). apply HF, IH.
      + destruct (next s h) as [[[r|] s'] h2] eqn:EN.
        * injection E as -> <- <-. destruct IH as [H1|(e1 & h3 & e2 & H1 & H2 & ->)].
          -- left. eapply ee_step; [exact EN|exact H1].
          -- right. exists (e :: e1), h3, e2. split; [eapply em_step; [exact EN|exact H1]|]. split; [exact H2|reflexivity].
        * apply ipend_cases in E. destruct E as (ys & s2 & -> & _ & HF).
          right. exists [], h2, (e :: evs). split; [eapply em_end, EN|]. split; [apply HF, IH|reflexivity].
      + discriminate.
  Qed.
End Iter.

(** ** XsiTypeSerializer *)
Section Xsi.
  Context {S : Type} (next : ser_next S) (name : bytes) (root : bool).
  Hypothesis Hnext : uses_helper next.
  Notation xnext := (xser_next next).


  (** What the wrapper makes of the inner steps in state [XOpen d]. *)
  Fixpoint xo (d : nat) (l : list (event * list hop)) : list event * list hop :=
    match l with
    | [] => ([], [])
    | (e, o) :: l' =>
        match e with
        | EStart _ _ => let (a, b) := xo (Datatypes.S d) l' in (e :: a, (o ++ b)%list)
        | EEnd _ =>
            if Nat.eqb (pred d) 0 then (EEnd name :: map fst l', (o ++ HEnd :: step_ops l')%list)
            else let (a, b) := xo (pred d) l' in (e :: a, (o ++ b)%list)
        | _ => let (a, b) := xo d l' in (e :: a, (o ++ b)%list)
        end
    end.

  Lemma emits_done x h out h' : emits xnext x h out h' -> x_name x = name -> x_root x = root -> x_state x = XDone ->
    exists l last, produces next (x_inner x) l last /\ out = map fst l /\ h' = hrun h (step_ops l ++ last)%list.
  Proof.
    induction 1 as [x h x' h' E|x h e x1 h1 evs h' E H IH]; intros HN HR HS; destruct x as [s n r st]; cbn in *; subst.
    - destruct (next s h) as [[[[e|k|]|] s'] h2] eqn:EN; try discriminate. injection E as <- <-.
      destruct (Hnext _ _ _ _ _ EN) as (ops & ->). exists [], ops. split; [eapply pr_end, EN|]. split; reflexivity.
    - destruct (next s h) as [[[[e'|k|]|] s'] h2] eqn:EN; cbn in E; try discriminate. injection E as -> <- <-.
      destruct (IH eq_refl eq_refl eq_refl) as (l & last & HP & -> & ->). destruct (Hnext _ _ _ _ _ EN) as (ops & ->).
      exists ((e, ops) :: l), last. split; [eapply pr_step; [exact EN|exact HP]|]. split; [reflexivity|].
      unfold step_ops. cbn [map concat snd]. rewrite <- app_assoc, (hrun_app h ops). reflexivity.
  Qed.

  Lemma emits_open x h out h' : emits xnext x h out h' -> x_name x = name -> x_root x = root ->
    forall d, x_state x = XOpen d ->
    exists l last, produces next (x_inner x) l last /\ out = fst (xo d l) /\ h' = hrun h (snd (xo d l) ++ last)%list.
  Proof.
    induction 1 as [x h x' h' E|x h e x1 h1 evs h' E H IH]; intros HN HR d HS; destruct x as [s n r st]; cbn in *; subst.
    - destruct (next s h) as [[[[e|k|]|] s'] h2] eqn:EN; try discriminate;
        [destruct e; try discriminate; destruct (Nat.eqb (pred d) 0); discriminate|]. injection E as <- <-.
      destruct (Hnext _ _ _ _ _ EN) as (ops & ->). exists [], ops. split; [eapply pr_end, EN|]. split; reflexivity.
    - destruct (next s h) as [[[[e'|k|]|] s'] h2] eqn:EN; cbn in E; try discriminate.
      destruct (Hnext _ _ _ _ _ EN) as (ops & ->).
      assert (Plain : forall d', (Some (@Ok kind event e'), XSer s' name root (XOpen d'), hrun h ops) = (Some (Ok e), x1, h1) ->
        (forall l, xo d ((e', ops) :: l) = (e' :: fst (xo d' l), ops ++ snd (xo d' l))%list) ->
        exists l last, produces next s l last /\ e :: evs = fst (xo d l) /\ h' = hrun h (snd (xo d l) ++ last)%list).
      { clear E. intros d' E' HX. injection E' as <- <- <-.
        destruct (IH eq_refl eq_refl d' eq_refl) as (l & last & HP & -> & ->).
        exists ((e', ops) :: l), last. split; [eapply pr_step; [exact EN|exact HP]|].
        rewrite HX. cbn [fst snd]. split; [reflexivity|]. rewrite <- app_assoc, (hrun_app h ops). reflexivity. }
      destruct e'; try (apply (Plain d E); intros l; cbn [xo]; destruct (xo d l); reflexivity).
      + apply (Plain _ E). intros l; cbn [xo]; destruct (xo (Datatypes.S d) l); reflexivity.
      + destruct (Nat.eqb (pred d) 0) eqn:ED.
        * injection E as <- <- <-. destruct (emits_done _ _ _ _ H eq_refl eq_refl eq_refl) as (l & last & HP & -> & ->).
          eexists (_ :: l), last. split; [eapply pr_step; [exact EN|exact HP]|].
          cbn [xo]. rewrite ED. cbn [fst snd]. split; [reflexivity|].
          rewrite <- app_assoc, (hrun_app h ops). reflexivity.
        * apply (Plain _ E). intros l; cbn [xo]; rewrite ED; destruct (xo (pred d) l); reflexivity.
  Qed.

  Lemma split_map {A B} (f : A -> B) l x y : map f l = (x ++ y)%list ->
    exists l1 l2, l = (l1 ++ l2)%list /\ map f l1 = x /\ map f l2 = y.
  Proof.
    revert l; induction x as [|b x IH]; intros l H; cbn in H.
    - exists [], l. auto.
    - destruct l as [|a l]; [discriminate|]. injection H as H1 H2. destruct (IH l H2) as (l1 & l2 & -> & H3 & H4).
      exists (a :: l1), l2. cbn. rewrite H3, H1. auto.
  Qed.

  Lemma step_ops_app a b : step_ops (a ++ b) = (step_ops a ++ step_ops b)%list.
  Proof. unfold step_ops. rewrite map_app, concat_app. reflexivity. Qed.

  (** Content of the element passes through. *)
  Lemma xo_tree t : proper t = true -> forall d l r, 1 <= d -> map fst l = flatten t ->
    xo d (l ++ r) = (map fst l ++ fst (xo d r), step_ops l ++ snd (xo d r))%list.
  Proof.
    induction t as [e|n a|n a kids IH] using xtree_ind'; intros HP d l r HD HL; cbn [flatten] in HL.
    - destruct l as [|[e' o] [|? ?]]; try discriminate. cbn in HL. injection HL as ->. cbn [app map fst].
      unfold step_ops. cbn [map snd concat]. rewrite app_nil_r. cbn in HP.
      cbn [xo]. destruct e; try discriminate; destruct (xo d r); reflexivity.
    - destruct l as [|[e' o] [|? ?]]; try discriminate. cbn in HL. injection HL as ->. cbn [app map fst].
      unfold step_ops. cbn [map snd concat]. rewrite app_nil_r. cbn [xo]. destruct (xo d r); reflexivity.
    - destruct l as [|[e' o] l]; [discriminate|]. cbn [map fst] in HL. injection HL as -> HL.
      apply split_map in HL. destruct HL as (l1 & l2 & -> & H1 & H2).
      destruct l2 as [|[e2 o2] [|? ?]]; try discriminate. cbn in H2. injection H2 as ->.
      assert (HK : forall (ks : list xtree) (Hk : Forall (fun t => proper t = true -> forall d l r, 1 <= d -> map fst l = flatten t ->
           xo d (l ++ r) = (map fst l ++ fst (xo d r), step_ops l ++ snd (xo d r))%list) ks) d l r,
         forallb proper ks = true -> 1 <= d -> map fst l = flat_map flatten ks ->
         xo d (l ++ r) = (map fst l ++ fst (xo d r), step_ops l ++ snd (xo d r))%list).
      { clear. induction 1 as [|k ks Hk _ IH]; intros d l r HP HD HL.
        - cbn in HL. destruct l; [|discriminate]. cbn. destruct (xo d r); reflexivity.
        - cbn in HL, HP. apply andb_true_iff in HP. destruct HP as [P1 P2].
          apply split_map in HL. destruct HL as (l1 & l2 & -> & H1 & H2).
          rewrite <- app_assoc, (Hk P1 d l1 (l2 ++ r)%list HD H1), (IH d l2 r P2 HD H2). cbn [fst snd].
          rewrite map_app, step_ops_app, !app_assoc. reflexivity. }
      cbn in HP. cbn [app]. rewrite <- app_assoc. cbn [app xo].
      rewrite (HK kids IH (Datatypes.S d) l1 ((EEnd n, o2) :: r) HP ltac:(lia) H1). cbn [xo pred].
      destruct d as [|d]; [lia|]. cbn [pred Nat.eqb]. destruct (xo (Datatypes.S d) r) as [a' b'] eqn:EX. cbn [fst snd].
      unfold step_ops. cbn [map fst snd]. rewrite !map_app, concat_cons, concat_app. cbn [map fst snd concat].
      rewrite app_nil_r, <- !app_assoc. cbn [app]. rewrite <- !app_assoc. reflexivity.
  Qed.

  Lemma first_attrs_nodup seen a : NoDup (map fst a) -> (forall k, In k (map fst a) -> ~ In k seen) -> first_attrs seen a = a.
  Proof.
    revert seen; induction a as [|[k v] a IH]; intros seen HN HS; [reflexivity|]. cbn [first_attrs fst].
    inversion HN as [|? ? N1 N2]; subst.
    destruct (existsb (String.eqb k) seen) eqn:E.
    - apply existsb_exists in E. destruct E as (x & Hx & Ex). apply String.eqb_eq in Ex. subst x.
      exfalso. apply (HS k); [left; reflexivity|exact Hx].
    - f_equal. apply IH; [exact N2|]. intros k' Hk [<-|Hs]; [contradiction|]. apply (HS k'); [right; exact Hk|exact Hs].
  Qed.

  Lemma rewrite_spec n a h n' a' h' : xsi_rewrite name root n a h = (n', a', h') ->
    n' = name /\ (n = name -> a' = a) /\ (n <> name -> NoDup (map fst a) -> retyped n a a') /\
    exists ops, h' = hrun h ops /\ depth 0 ops = Some 0.
  Proof.
    unfold xsi_rewrite. destruct (String.eqb_spec n name) as [E|E].
    - intros H. injection H as <- <- <-. split; [exact E|]. split; [reflexivity|]. split; [contradiction|].
      exists []. split; reflexivity.
    - destruct root.
      + unfold write_xmlns. cbn [filter_prefix].
        destruct (match find_ns XSI_NS (h_ns h) with Some e => if opt_eqb (ne_prefix e) (Some "xsi") then (h, []) else add_namespace_entry h (Some "xsi") XSI_NS
                  | None => add_namespace_entry h (Some "xsi") XSI_NS end) as [h2 d] eqn:EW.
        intros H. injection H as <- <- <-. split; [reflexivity|]. split; [contradiction|]. split.
        * intros _ HN. exists d. split.
          -- unfold add_namespace_entry in EW. destruct (find_ns _ _) as [x|]; [destruct (opt_eqb _ _)|]; injection EW as _ <-; auto.
          -- rewrite first_attrs_nodup; [reflexivity|exact HN|intros k _ []].
        * exists [HWrite (Some "xsi") XSI_NS]. split; [|reflexivity]. cbn [hrun hstep]. unfold write_xmlns. cbn [filter_prefix].
          rewrite EW. reflexivity.
      + intros H. injection H as <- <- <-. split; [reflexivity|]. split; [contradiction|]. split.
        * intros _ HN. exists []. split; [left; reflexivity|]. rewrite first_attrs_nodup; [reflexivity|exact HN|intros k _ []].
        * exists []. split; reflexivity.
  Qed.


  (** The whole run. *)
  Lemma xsi_run s h out h' : emits xnext (XSer s name root XInit) h out h' ->
    exists l last, produces next s l last /\
      match map fst l with
      | [] => out = [] /\ h' = hrun h last
      | EStart n a :: evs =>
          exists a' o1 ow l', l = (EStart n a, o1) :: l' /\ (n = name -> a' = a) /\ (n <> name -> NoDup (map fst a) -> retyped n a a') /\
            depth 0 ow = Some 0 /\
            out = EStart name a' :: fst (xo 1 l') /\ h' = hrun h (o1 ++ HBegin :: ow ++ snd (xo 1 l') ++ last)%list
      | EEmpty n a :: evs =>
          exists a' o1 ow l', l = (EEmpty n a, o1) :: l' /\ (n = name -> a' = a) /\ (n <> name -> NoDup (map fst a) -> retyped n a a') /\
            depth 0 ow = Some 0 /\
            out = EEmpty name a' :: evs /\ h' = hrun h (o1 ++ HBegin :: ow ++ step_ops l' ++ last)%list
      | e :: evs => out = e :: evs
      end.
  Proof.
    intros H. inversion H as [x0 h0 x' h0' E|x0 h0 e x1 h1 evs h0' E HE]; subst; cbn [xser_next] in E.
    - destruct (next s h) as [[[[e|k|]|] s'] h2] eqn:EN; try discriminate.
      + destruct e; try discriminate; destruct (xsi_rewrite _ _ _ _ _) as [[? ?] ?]; discriminate.
      + injection E as <- <-. destruct (Hnext _ _ _ _ _ EN) as (ops & ->). exists [], ops.
        split; [eapply pr_end, EN|]. split; reflexivity.
    - destruct (next s h) as [[[[e'|k|]|] s'] h2] eqn:EN; cbn in E; try discriminate.
      destruct (Hnext _ _ _ _ _ EN) as (ops & ->).
      destruct e' as [n a|n a| | | | | | | | |];
        try (injection E as <- <- <-;
             destruct (emits_done _ _ _ _ HE eq_refl eq_refl eq_refl) as (l & last & HP & -> & ->);
             match goal with |- context [?x :: map fst l] => exists ((x, ops) :: l), last end;
             split; [eapply pr_step; [exact EN|exact HP]|reflexivity]).
      + destruct (xsi_rewrite name root n a (begin_ns_scope (hrun h ops))) as [[n' a'] h3] eqn:ER.
        injection E as <- <- <-. apply rewrite_spec in ER. destruct ER as (-> & R1 & R2 & ow & -> & R3).
        destruct (emits_open _ _ _ _ HE eq_refl eq_refl 1 eq_refl) as (l & last & HP & -> & ->).
        exists ((EStart n a, ops) :: l), last. split; [eapply pr_step; [exact EN|exact HP]|]. cbn [map fst].
        exists a', ops, ow, l. repeat split; auto.
        rewrite (hrun_app h ops). cbn [hrun hstep fst]. rewrite (hrun_app _ ow). reflexivity.
      + destruct (xsi_rewrite name root n a (begin_ns_scope (hrun h ops))) as [[n' a'] h3] eqn:ER.
        injection E as <- <- <-. apply rewrite_spec in ER. destruct ER as (-> & R1 & R2 & ow & -> & R3).
        destruct (emits_done _ _ _ _ HE eq_refl eq_refl eq_refl) as (l & last & HP & -> & ->).
        exists ((EEmpty n a, ops) :: l), last. split; [eapply pr_step; [exact EN|exact HP]|]. cbn [map fst].
        exists a', ops, ow, l. repeat split; auto.
        rewrite (hrun_app h ops). cbn [hrun hstep fst]. rewrite (hrun_app _ ow). reflexivity.
  Qed.

  Lemma xsi_rewrites s h out h' : emits xnext (XSer s name root XInit) h out h' ->
    exists l last, produces next s l last /\
      forall t rest, map fst l = (flatten t ++ rest)%list -> proper t = true -> root_name t <> None ->
        NoDup (map fst (root_attrs t)) ->
        exists t', renamed name t t' /\ out = (flatten t' ++ rest)%list.
  Proof.
    intros H. apply xsi_run in H. destruct H as (l & last & HP & HL). exists l, last. split; [exact HP|].
    intros t rest EL HT HR HN. destruct t as [e|n a|n a kids]; [exfalso; apply HR; reflexivity| |].
    - cbn [flatten app] in EL. rewrite EL in HL. destruct HL as (a' & o1 & ow & l' & _ & R1 & R2 & _ & -> & _).
      exists (XEmpty name a'). split; [|reflexivity]. destruct (String.eqb_spec n name) as [E|E].
      + subst n. rewrite (R1 eq_refl). apply rn_same. reflexivity.
      + apply rn_empty; [exact E|]. apply R2; [exact E|exact HN].
    - cbn [flatten app] in EL. rewrite EL in HL. destruct HL as (a' & o1 & ow & l' & El & R1 & R2 & _ & -> & _).
      subst l. cbn [map fst] in EL. injection EL as EL. rewrite <- app_assoc in EL. cbn [app] in EL.
      apply split_map in EL. destruct EL as (l1 & l2 & -> & H1 & H2).
      assert (EX : fst (xo 1 (l1 ++ l2)) = (flat_map flatten kids ++ [EEnd name] ++ rest)%list).
      { assert (HK : forall ks l, forallb proper ks = true -> map fst l = flat_map flatten ks ->
          fst (xo 1 (l ++ l2)) = (flat_map flatten ks ++ fst (xo 1 l2))%list).
        { induction ks as [|k ks IH]; intros l0 HP0 HL0.
          - destruct l0; [reflexivity|discriminate].
          - cbn in HP0, HL0. apply andb_true_iff in HP0. destruct HP0 as [P1 P2]. apply split_map in HL0.
            destruct HL0 as (m1 & m2 & -> & M1 & M2). rewrite <- app_assoc, (xo_tree k P1 1 m1 (m2 ++ l2)%list ltac:(lia) M1).
            cbn [fst]. rewrite (IH m2 P2 M2), M1. cbn [flat_map]. rewrite app_assoc. reflexivity. }
        rewrite (HK kids l1 HT H1). destruct l2 as [|[e2 o2] l2]; [discriminate|]. cbn in H2. injection H2 as -> H2.
        cbn. rewrite H2. reflexivity. }
      exists (XElem name a' kids). split.
      + destruct (String.eqb_spec n name) as [E|E].
        * subst n. rewrite (R1 eq_refl). apply rn_same. reflexivity.
        * apply rn_elem; [exact E|]. apply R2; [exact E|exact HN].
      + cbn [flatten app]. rewrite EX. rewrite <- app_assoc. reflexivity.
  Qed.

  (** Scopes. *)
  Lemma depth_app a : forall n b, depth n (a ++ b) = match depth n a with Some m => depth m b | None => None end.
  Proof.
    induction a as [|o a IH]; intros n b; [reflexivity|]. cbn. destruct o; try apply IH. destruct n; [reflexivity|apply IH].
  Qed.
  Lemma depth_shift a : forall n m k, depth n a = Some m -> depth (n + k) a = Some (m + k).
  Proof.
    induction a as [|o a IH]; intros n m k H; cbn in *; [congruence|]. destruct o; try (apply IH, H).
    - apply (IH _ _ k H).
    - destruct n as [|n]; [discriminate|]. cbn. apply IH, H.
  Qed.

  Lemma level_run ops : forall n m h, depth n ops = Some m -> n <= h_level h -> h_level (hrun h ops) + n = h_level h + m.
  Proof.
    induction ops as [|o ops IH]; intros n m h HD HN; cbn in *; [injection HD as ->; lia|].
    assert (HW : forall h p ns, h_level (fst (write_xmlns h p ns)) = h_level h).
    { intros h0 p0 ns0. unfold write_xmlns. destruct (find_ns _ _); [destruct (opt_eqb _ _)|]; reflexivity. }
    destruct o as [| |p ns|tag ns|q]; cbn [hstep fst].
    - specialize (IH _ _ (begin_ns_scope h) HD). cbn in IH. lia.
    - destruct n as [|n]; [discriminate|]. specialize (IH _ _ (end_ns_scope h) HD). cbn in IH. lia.
    - specialize (IH _ _ (fst (write_xmlns h p ns)) HD). rewrite HW in IH. auto.
    - unfold write_xmlns_for_tag. destruct (split_colon tag) as [[p l]|].
      + specialize (IH _ _ (fst (write_xmlns h (Some p) ns)) HD). rewrite HW in IH. auto.
      + specialize (IH _ _ (fst (write_xmlns h None ns)) HD). rewrite HW in IH. auto.
    - assert (E : h_level (fst (let '(h', a, _) := add_qname_namespace h q in (h', a))) = h_level h).
      { unfold add_qname_namespace. destruct (q_ns q); [destruct (find_ns _ _)|]; reflexivity. }
      specialize (IH _ _ (fst (let '(h', a, _) := add_qname_namespace h q in (h', a))) HD). rewrite E in IH. auto.
  Qed.

  Lemma xsi_levels s h out h' : emits xnext (XSer s name root XInit) h out h' ->
    exists l last, produces next s l last /\ forall t, map fst l = flatten t -> proper t = true -> depth 0 (step_ops l ++ last)%list = Some 0 ->
        match t with
        | XElem _ _ _ => h_level h' = h_level h
        | XEmpty _ _ => h_level h' = Datatypes.S (h_level h)
        | XLeaf _ => True
        end.
  Proof.
    intros H. apply xsi_run in H. destruct H as (l & last & HP & HL). exists l, last. split; [exact HP|].
    intros t EL HT HD. destruct t as [e|n a|n a kids]; [exact I| |].
    - rewrite EL in HL. cbn [flatten] in HL. destruct HL as (a' & o1 & ow & l' & El & _ & _ & HW & _ & ->).
      subst l. cbn [map fst flatten] in EL. injection EL as EL. destruct l'; [|discriminate].
      unfold step_ops in HD. cbn [map snd concat app] in HD. rewrite app_nil_r, depth_app in HD.
      destruct (depth 0 o1) as [d1|] eqn:D1; [|discriminate].
      assert (HB : depth 0 (o1 ++ HBegin :: ow ++ step_ops [] ++ last) = Some 1).
      { rewrite depth_app, D1. cbn [depth]. pose proof (depth_shift ow 0 0 (Datatypes.S d1) HW) as EW. cbn [Nat.add] in EW. rewrite depth_app, EW.
        cbn [step_ops map concat app]. pose proof (depth_shift _ _ _ 1 HD) as E. rewrite Nat.add_1_r in E. exact E. }
      pose proof (level_run _ _ _ h HB (Nat.le_0_l _)). lia.
    - rewrite EL in HL. cbn [flatten] in HL.
      destruct HL as (a' & o1 & ow & l' & El & _ & _ & HW & _ & ->). subst l. cbn [map fst flatten] in EL. injection EL as EL.
      apply split_map in EL. destruct EL as (l1 & l2 & -> & H1 & H2). destruct l2 as [|[e2 o2] [|? ?]]; try discriminate.
      cbn in H2. injection H2 as ->.
      assert (EX : snd (xo 1 (l1 ++ [(EEnd n, o2)])) = (step_ops l1 ++ o2 ++ [HEnd])%list).
      { assert (HK : forall ks l r, forallb proper ks = true -> map fst l = flat_map flatten ks ->
            snd (xo 1 (l ++ r)) = (step_ops l ++ snd (xo 1 r))%list).
        { induction ks as [|k ks IH]; intros l0 r HP0 HL0.
          - destruct l0; [reflexivity|discriminate].
          - cbn in HP0, HL0. apply andb_true_iff in HP0. destruct HP0 as [P1 P2]. apply split_map in HL0.
            destruct HL0 as (m1 & m2 & -> & M1 & M2). rewrite <- app_assoc, (xo_tree k P1 1 m1 (m2 ++ r)%list ltac:(lia) M1).
            cbn [snd]. rewrite (IH m2 r P2 M2), step_ops_app, app_assoc. reflexivity. }
        rewrite (HK kids l1 _ HT H1). reflexivity. }
      rewrite EX. clear EX.
      assert (ES : step_ops ((EStart n a, o1) :: l1 ++ [(EEnd n, o2)]) = (o1 ++ step_ops l1 ++ o2)%list).
      { unfold step_ops. cbn [map snd concat]. rewrite map_app, concat_app. cbn. rewrite app_nil_r. reflexivity. }
      rewrite ES in HD. rewrite <- !app_assoc, !depth_app in HD.
      destruct (depth 0 o1) as [d1|] eqn:D1; [|discriminate]. rewrite !depth_app in HD.
      destruct (depth d1 (step_ops l1)) as [d2|] eqn:D2; [|discriminate]. rewrite depth_app in HD.
      destruct (depth d2 o2) as [d3|] eqn:D3; [|discriminate].
      assert (HB : depth 0 (o1 ++ HBegin :: ow ++ (step_ops l1 ++ o2 ++ [HEnd]) ++ last) = Some 0).
      { rewrite depth_app, D1. cbn [depth]. rewrite depth_app.
        pose proof (depth_shift ow 0 0 (Datatypes.S d1) HW) as EW. cbn [Nat.add] in EW. rewrite EW. rewrite <- app_assoc, depth_app.
        pose proof (depth_shift _ _ _ 1 D2) as E2. rewrite !Nat.add_1_r in E2. rewrite E2, <- app_assoc, depth_app.
        pose proof (depth_shift _ _ _ 1 D3) as E3. rewrite !Nat.add_1_r in E3. rewrite E3. cbn [app depth]. exact HD. }
      pose proof (level_run _ _ _ h HB (Nat.le_0_l _)). lia.
  Qed.
End Xsi.

(** ** Nillable *)
Section Nillable.
  Context {T D : Type} (des : deser T D) (tb : bytes -> option bool).
  Notation nd := (nillable_deser des).
  Notation start_ok := (start_ok des).
  Notation starts_ok := (starts_ok des tb).
  Notation blank_event := (blank_event tb).

  Lemma no_nil r a : forall seen, NoDup (map fst a) -> (forall x, In x seen -> ~ In x (map fst a)) -> ~ Exists (says_nil r) a ->
    nil_scan r seen a = Ok false.
  Proof.
    induction a as [|x a IH]; intros seen N F X; [reflexivity|]. cbn [nil_scan].
    destruct (existsb (String.eqb (fst x)) seen) eqn:E.
    - apply existsb_exists in E. destruct E as (y & Y & E). apply String.eqb_eq in E. subst y.
      exfalso. apply (F _ Y). left. reflexivity.
    - destruct (nil_attr r x) eqn:A.
      + exfalso. apply X. left. unfold nil_attr, resolve_local_name in A. unfold says_nil.
        destruct (dh_resolve r (fst x) true) as [rr l]. destruct rr as [|y|y]; try discriminate.
        all: try (destruct (String.eqb y XSI_NS) eqn:Y; [|discriminate]; apply String.eqb_eq in Y; subst y).
        all: apply andb_true_iff in A; destruct A as [A1 A2]; apply String.eqb_eq in A1; subst l; auto.
      + inversion N as [|? ? N1 N2]; subst. apply IH; auto.
        intros y [<-|Y]; [exact N1|]. intros I. apply (F _ Y). right. exact I.
  Qed.

  Lemma nillable_step v e : start_ok v e ->
    driver_step nd tb (lift_driver v) e =
    match driver_step des tb v e with
    | Ok (Some t, v') => Ok (Some (Some t), lift_driver v')
    | Ok (None, v') => Ok (None, lift_driver v')
    | Err k => Err k
    | Panic => Panic
    end.
  Proof.
    intros HS. unfold driver_step. destruct v as [h0 d skip]. cbn [lift_driver v_helper v_des v_skip] in *.
    destruct (dh_event h0 e) as [h|] eqn:EH; [|reflexivity].
    destruct (handle_skip skip e) as [sk [e'|]] eqn:ES; [|reflexivity].
    assert (EQ : (match option_map NInner d with
                  | None => de_init nd h e'
                  | Some d0 => de_next nd d0 h e'
                  end) = nwrap_result (match d with None => de_init des h e' | Some d => de_next des d h e' end)).
    { destruct d as [d|]; [reflexivity|]. cbn [option_map de_init nillable_deser].
      unfold WrapSpec.start_ok in HS. cbn [v_des v_helper v_skip] in HS. specialize (HS eq_refl h e' EH). rewrite ES in HS. specialize (HS eq_refl).
      assert (K : forall a, tag_attrs e' = Some a -> nil_scan (d_res h) [] a = Ok false).
      { intros a Ta. rewrite Ta in HS. destruct HS as [HN HX]. apply no_nil; auto. }
      destruct e'; cbn [tag_attrs] in HS, K; cbn [nillable_init]; try (rewrite (K _ eq_refl)); try rewrite HS; reflexivity. }
    rewrite EQ. destruct (match d with None => de_init des h e' | Some d => de_next des d h e' end) as [[o h']|k|]; try reflexivity.
    cbn [nwrap_result nwrap o_any o_ev o_art].
    destruct (unconsumed tb sk (o_any o) (into_event (o_ev o))) as [sk'|k|]; try reflexivity.
    destruct (o_art o); reflexivity.
  Qed.

  Lemma nillable_sim evs : forall v, starts_ok v evs ->
    driver_run nd tb (lift_driver v) evs = lift_result (driver_run des tb v evs).
  Proof.
    induction evs as [|e evs IH]; intros v HS; [reflexivity|]. destruct HS as [H1 H2].
    cbn [driver_run]. rewrite (nillable_step v e H1).
    destruct (driver_step des tb v e) as [[[t|] v']|k|]; try reflexivity. apply IH, H2.
  Qed.

  Lemma nil_scan_true r a seen : forall k v, In (k, v) a -> NoDup (map fst a) -> (forall x, In x (map fst a) -> ~ In x seen) ->
    nil_attr r (k, v) = true -> nil_scan r seen a = Ok true.
  Proof.
    revert seen; induction a as [|[k0 v0] a IH]; intros seen k v HI HN HS HA; [destruct HI|]. cbn [nil_scan fst].
    inversion HN as [|? ? N1 N2]; subst.
    destruct (existsb (String.eqb k0) seen) eqn:E.
    - apply existsb_exists in E. destruct E as (x & Hx & Ex). apply String.eqb_eq in Ex. subst x.
      exfalso. apply (HS k0); [left; reflexivity|exact Hx].
    - destruct (nil_attr r (k0, v0)) eqn:E0; [reflexivity|]. destruct HI as [HI|HI].
      + injection HI as -> ->. congruence.
      + eapply IH; eauto. intros x Hx [<-|Hs]; [contradiction|]. apply (HS x); [right; exact Hx|exact Hs].
  Qed.

  (** A nil tag. *)
  Lemma nil_read dh n a h1 k v rest : dh_event dh (EEmpty n a) = Some h1 -> NoDup (map fst a) -> In (k, v) a ->
    nil_true v = true -> dh_resolve (d_res h1) k true = (RBound XSI_NS, "nil") ->
    driver_run nd tb (Driver dh None None) (EEmpty n a :: rest) = RDone None rest.
  Proof.
    intros HE HN HI HT HR.
    assert (HA : nil_attr (d_res h1) (k, v) = true).
    { unfold nil_attr, resolve_local_name. cbn [fst snd]. rewrite HR, String.eqb_refl. cbn. exact HT. }
    cbn [driver_run]. unfold driver_step. cbn [v_helper v_skip v_des]. rewrite HE. cbn [handle_skip de_init nillable_deser nillable_init].
    rewrite (nil_scan_true (d_res h1) a [] k v HI HN ltac:(intros x _ []) HA). reflexivity.
  Qed.

  Lemma nil_read_start dh n a h1 k v body m rest : dh_event dh (EStart n a) = Some h1 -> NoDup (map fst a) -> In (k, v) a ->
    nil_true v = true -> dh_resolve (d_res h1) k true = (RBound XSI_NS, "nil") -> forallb blank_event body = true ->
    driver_run nd tb (Driver dh None None) (EStart n a :: body ++ EEnd m :: rest) = RDone None rest.
  Proof.
    intros HE HN HI HT HR HB.
    assert (HA : nil_attr (d_res h1) (k, v) = true).
    { unfold nil_attr, resolve_local_name. cbn [fst snd]. rewrite HR, String.eqb_refl. cbn. exact HT. }
    cbn [driver_run]. unfold driver_step at 1. cbn [v_helper v_skip v_des]. rewrite HE. cbn [handle_skip de_init nillable_deser nillable_init].
    rewrite (nil_scan_true (d_res h1) a [] k v HI HN ltac:(intros x _ []) HA). cbn [o_ev o_any o_art into_event unconsumed].
    clear - HB. revert h1; induction body as [|e body IH]; intros h1; [reflexivity|].
    cbn [forallb] in HB. apply andb_true_iff in HB. destruct HB as [B1 B2].
    cbn [app driver_run]. unfold driver_step at 1. cbn [v_helper v_skip v_des].
    destruct e; try discriminate B1; cbn [dh_event handle_skip de_next nillable_deser nillable_next o_ev o_any o_art into_event unconsumed];
      try (apply IH, B2).
    cbn in B1. destruct (tb raw) as [[]|]; try discriminate. apply IH, B2.
  Qed.
End Nillable.

Lemma write_xsi h h' a : write_xmlns h (Some "xsi") XSI_NS = (h', a) -> a = [] \/ a = [("xmlns:xsi", XSI_NS)].
Proof.
  unfold write_xmlns, add_namespace_entry. cbn [filter_prefix].
  destruct (find_ns _ _) as [e|]; [destruct (opt_eqb _ _)|]; intros H; injection H as _ <-; auto.
Qed.

Lemma nil_round_trip {T D} (des : deser T D) tb h h' a dh name rest :
  write_xmlns h (Some "xsi") XSI_NS = (h', a) ->
  (a = [] -> find_prefix (Some "xsi") (r_bindings (d_res (dh_pop dh))) = Some XSI_NS) ->
  driver_run (nillable_deser des) tb (Driver dh None None) (EEmpty name (a ++ [("xsi:nil", "true")]) :: rest) = RDone None rest.
Proof.
  intros HW HA. destruct (write_xsi _ _ _ HW) as [->| ->].
  - eapply (nil_read des tb dh name _ _ "xsi:nil" "true"); [reflexivity| | |reflexivity|].
    + repeat constructor. intros [].
    + left; reflexivity.
    + cbn [d_res resolver_push dh_enter app push_attrs push_attr]. unfold dh_resolve, resolve. cbn [split_colon Ascii.eqb Bool.eqb].
      cbn. cbn in HA. rewrite (HA eq_refl). reflexivity.
  - eapply (nil_read des tb dh name _ _ "xsi:nil" "true"); [reflexivity| | |reflexivity|reflexivity].
    + repeat constructor; [|intros []]. intros [H|[]]; discriminate.
    + right; left; reflexivity.
Qed.

Lemma in_scope_last p els n a : in_scope p (els ++ [(n, a)]) =
  match lookup_decl p (tag_decls a) with Some v => Some v | None => in_scope p els end.
Proof.
  induction els as [|[m b] els IH]; cbn; [destruct (lookup_decl p (tag_decls a)); reflexivity|].
  rewrite IH. destruct (lookup_decl p (tag_decls a)); reflexivity.
Qed.

Lemma nil_declared els h h' a name :
  write_xmlns h (Some "xsi") XSI_NS = (h', a) -> (a = [] -> xsi_bound_at els) ->
  xsi_bound_at (els ++ [(name, (a ++ [("xsi:nil", "true")])%list)]).
Proof.
  intros HW HA. unfold xsi_bound_at, bound. rewrite in_scope_last.
  destruct (write_xsi _ _ _ HW) as [->| ->]; [|split; [reflexivity|discriminate]].
  cbn [app]. specialize (HA eq_refl). exact HA.
Qed.

Lemma lookup_decl_app p a b : lookup_decl p (a ++ b) = match lookup_decl p a with Some v => Some v | None => lookup_decl p b end.
Proof. induction a as [|[q v] a IH]; cbn; [reflexivity|]. destruct (opt_eqb q p); [reflexivity|exact IH]. Qed.

Lemma tag_decls_app a b : tag_decls (a ++ b) = (tag_decls b ++ tag_decls a)%list.
Proof. unfold tag_decls. rewrite flat_map_app, rev_app_distr. reflexivity. Qed.

Lemma xmlns_decl_xsi k : xmlns_decl k = Some (Some "xsi") -> k = "xmlns:xsi".
Proof.
  unfold xmlns_decl. intros H. destruct (starts_with "xmlns" k) eqn:E; [|discriminate].
  do 5 (destruct k as [|? k]; [discriminate|]). cbn [starts_with] in E.
  repeat (apply andb_true_iff in E; let E1 := fresh in destruct E as [E1 E]; apply Ascii.eqb_eq in E1; subst).
  cbn in H. destruct k as [|c k]; [discriminate|]. destruct (Ascii.eqb_spec c ":"); [|discriminate].
  subst c. injection H as ->. reflexivity.
Qed.

(** The declarations of xsi on a rewritten tag are only the pushed one. *)
Lemma xsi_lookup_filter a : lookup_decl (Some "xsi") (tag_decls
  (filter (fun x => negb (String.eqb (fst x) "xsi:type" || String.eqb (fst x) "xmlns:xsi")) a)) = None.
Proof.
  induction a as [|[k v] a IH]; [reflexivity|]. cbn [filter fst].
  destruct (negb (String.eqb k "xsi:type" || String.eqb k "xmlns:xsi")) eqn:E; [|exact IH].
  match goal with |- lookup_decl _ (tag_decls (?x :: ?l)) = _ => change (x :: l) with ([x] ++ l)%list end.
  rewrite tag_decls_app, lookup_decl_app, IH. unfold tag_decls. cbn [flat_map app rev fst snd].
  destruct (xmlns_decl k) as [p|] eqn:EX; [|reflexivity].
  destruct (opt_eqb p (Some "xml")); [reflexivity|]. cbn [app rev lookup_decl].
  destruct (opt_eqb (filter_prefix p) (Some "xsi")) eqn:EO; [|reflexivity].
  apply opt_eqb_eq in EO. exfalso. assert (EP : p = Some "xsi").
  { destruct p as [[|c p]|]; cbn in EO; congruence. }
  rewrite EP in EX. apply xmlns_decl_xsi in EX. rewrite EX in E. rewrite orb_true_r in E. discriminate.
Qed.

(** xsi:type on a root element. *)
Lemma xsi_type_declared els name root n a h n' a' h' : n <> name ->
  xsi_rewrite name root n a h = (n', a', h') ->
  (root = true -> get_namespace_prefix h XSI_NS = Some (Some "xsi") -> xsi_bound_at els) ->
  (root = false -> xsi_bound_at els) ->
  xsi_bound_at (els ++ [(n', a')]).
Proof.
  intros HN HR HA HB. unfold xsi_rewrite in HR. destruct (String.eqb_spec n name) as [E|E]; [contradiction|].
  unfold xsi_bound_at, bound. rewrite in_scope_last.
  destruct root.
  - destruct (write_xmlns h (Some "xsi") XSI_NS) as [h2 d] eqn:EW. injection HR as <- <- <-.
    rewrite tag_decls_app, lookup_decl_app.
    match goal with |- context [tag_decls (?x :: ?l)] => change (x :: l) with ([x] ++ l)%list end.
    rewrite tag_decls_app, lookup_decl_app, xsi_lookup_filter. cbn [lookup_decl tag_decls flat_map rev app xmlns_decl].
    replace (lookup_decl (Some "xsi") (tag_decls [("xsi:type", n)])) with (@None bytes) by reflexivity.
    unfold write_xmlns, get_namespace_prefix in *. cbn [filter_prefix] in EW.
    destruct (find_ns XSI_NS (h_ns h)) as [e|] eqn:EF.
    + destruct (opt_eqb (ne_prefix e) (Some "xsi")) eqn:EO.
      * apply opt_eqb_eq in EO. injection EW as <- <-. cbn. apply HA; [reflexivity|congruence].
      * injection EW as _ <-. split; [reflexivity|discriminate].
    + injection EW as _ <-. split; [reflexivity|discriminate].
  - injection HR as <- <- <-. cbn [app].
    match goal with |- context [tag_decls (?x :: ?l)] => change (x :: l) with ([x] ++ l)%list end.
    rewrite tag_decls_app, lookup_decl_app, xsi_lookup_filter.
    replace (lookup_decl (Some "xsi") (tag_decls [("xsi:type", n)])) with (@None bytes) by reflexivity.
    apply HB. reflexivity.
Qed.

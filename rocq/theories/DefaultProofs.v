(** Defaults are the values that are read from their texts. *)
From Coq Require Import String.
From Verif Require Import SimpleModel SimpleSpec SimpleTextProofs SimpleProofs SimpleWriteProofs DefaultModel DefaultSpec.

Lemma one_of_in l s : is_one_of l s = true -> In s (map chars_of l).
Proof. unfold is_one_of. destruct (in_dec _ _ _); [auto|discriminate]. Qed.

Lemma read_make_bool s x : read_bool s = Some x -> make_bool s = Some x.
Proof.
  unfold read_bool. destruct (is_one_of _ s) eqn:E.
  - intros [= <-]. apply one_of_in in E. cbn [map] in E. repeat (destruct E as [<-|E]; [reflexivity|]). destruct E.
  - clear E. destruct (is_one_of _ s) eqn:E; [|discriminate]. intros [= <-]. apply one_of_in in E. cbn [map] in E.
    repeat (destruct E as [<-|E]; [reflexivity|]). destruct E.
Qed.

Section Proofs.
  Context {atom : Type}.
  Variable class : nat -> builtin_class.
  Variable parse : nat -> list N -> option atom.
  Variable lt le : atom -> atom -> bool.
  Variable size : atom -> nat.
  Variable matches : list N -> list N -> bool.
  Variable finite : atom -> bool.
  Variable truth : bool -> atom.

  Notation read := (read parse lt le size matches).
  Notation make := (make_value class parse finite truth).
  Notation run := (run parse).

  Lemma validation_none c t : c_white c = WPreserve -> c_patterns c = [] -> c_total c = None -> c_fraction c = None ->
    validation matches c t = Ok t.
  Proof. intros HW HP HT HF. unfold validation, validate_str, validate_digits. rewrite HW, HP, HT, HF. reflexivity. Qed.
  Lemma validation_some c t : c_patterns c = [] -> c_total c = None -> c_fraction c = None ->
    exists s, validation matches c t = Ok s.
  Proof. intros HP HT HF. unfold validation, validate_str, validate_digits. rewrite HP, HT, HF. eauto. Qed.

  (** The alternatives of a union. *)
  Fixpoint try_make (t : list N) (i : nat) (l : list smeta) : outcome gerror (dexpr atom) :=
    match l with
    | [] => Err InvalidDefaultValue
    | m :: l' => match make m t with Ok e => Ok (DVariant i e) | Err _ => try_make t (S i) l' | Panic => Panic end
    end.
  Fixpoint try_read (s : list N) (i : nat) (l : list smeta) : outcome rerror (value atom) :=
    match l with
    | [] => Err RUnion
    | m :: l' => match read m s with Ok v => Ok (VUnion i v) | Err _ => try_read s (S i) l' | Panic => Panic end
    end.
  Lemma make_union c ts t : make (MUnion c ts) t = try_make t 0 ts.
  Proof. cbn [make_value]. generalize 0. induction ts as [|m ts IH]; intros i; [reflexivity|]. cbn. destruct (make m t); auto. Qed.
  Lemma read_union c ts t s : validation matches c t = Ok s -> read (MUnion c ts) t = try_read s 0 ts.
  Proof.
    intros E. cbn [SimpleModel.read]. rewrite E. generalize 0. induction ts as [|m ts IH]; intros i; [reflexivity|].
    cbn. destruct (read m s); auto.
  Qed.

  Lemma unrestricted_all ts :
    (fix all l := match l with [] => True | m :: l' => unrestricted class m /\ all l' end) ts -> Forall (unrestricted class) ts.
  Proof. induction ts as [|m ts IH]; intros H; constructor; [apply H|apply IH, H]. Qed.

  (** What is taken as the default of an unrestricted type is read, and vice versa. *)
  Lemma unrestricted_same m t : unrestricted class m ->
    match make m t with
    | Ok e => exists v, run e = Ok v /\ read m t = Ok v
    | Err _ => exists k, read m t = Err k
    | Panic => True
    end.
  Proof.
    induction m as [b|ty l IH|base l c IH|c vs|c ts IH] using smeta_nested; intros HU.
    - cbn. destruct HU as (H1 & H2). destruct (class b); try congruence; destruct (parse b t); cbn; eauto.
      destruct (finite a); cbn; eauto.
    - destruct HU as (-> & HU). apply (IH HU).
    - destruct HU.
    - destruct HU as (HP & HT & HF). cbn. destruct (validation_some c t HP HT HF) as (s & ->).
      destruct (in_dec str_eq_dec t vs); cbn; eauto.
    - destruct HU as (HW & HP & HT & HF & HU). apply unrestricted_all in HU. rewrite make_union.
      rewrite (read_union c ts t t (validation_none c t HW HP HT HF)). clear HW HP HT HF. generalize 0.
      induction HU as [|m ts Hm _ IHts]; intros i; cbn [try_make try_read]; [eauto|].
      inversion IH as [|m' ts' IHm IHl]; subst. specialize (IHm Hm). destruct (make m t) as [e'|k|].
      + destruct IHm as (v & Hr & Hv). cbn [DefaultModel.run]. rewrite Hr, Hv. eauto.
      + destruct IHm as (k' & ->). apply (IHts IHl).
      + exact I.
  Qed.
  Lemma default_is_read m t e : unrestricted class m -> make m t = Ok e -> exists v, run e = Ok v /\ read m t = Ok v.
  Proof. intros HU H. pose proof (unrestricted_same m t HU) as HS. rewrite H in HS. exact HS. Qed.

  Lemma make_no_panic m t : finite_text class parse finite t -> make m t <> Panic.
  Proof.
    intros HF. induction m as [b|ty l IH|base l c IH|c vs|c ts IH] using smeta_nested; cbn.
    - destruct (class b) eqn:E; [destruct (parse b t)| |destruct (make_bool t)|destruct (parse b t)|]; try discriminate.
      destruct (parse b t) eqn:EP; [|discriminate]. rewrite (HF _ _ E EP). discriminate.
    - destruct l; [destruct t; discriminate|exact IH].
    - exact IH.
    - destruct (in_dec str_eq_dec t vs); discriminate.
    - change (make (MUnion c ts) t <> Panic). rewrite make_union. generalize 0.
      induction IH as [|m ts Hm _ IHts]; intros i; cbn [try_make]; [discriminate|].
      destruct (make m t); [discriminate|apply IHts|congruence].
  Qed.

  (** What is read is the default. *)
  Lemma read_is_default m t v : reads_bools class parse truth -> finite_text class parse finite t ->
    clear_text false t \/ keeps_blanks m -> single_values class m -> read m t = Ok v ->
    exists e, make m t = Ok e /\ run e = Ok v.
  Proof.
    intros HB HF. revert v. induction m as [b|ty l IH|base l c IH|c vs|c ts IH] using smeta_nested; intros v HC HS H.
    - cbn in H |- *. destruct (parse b t) as [a|] eqn:EP; [|discriminate]. injection H as <-. destruct (class b) eqn:E; cbn; eauto.
      + rewrite (HF _ _ E EP). eauto.
      + rewrite (HB b E) in EP. destruct (read_bool t) as [x|] eqn:EB; [|discriminate]. injection EP as <-.
        rewrite (read_make_bool _ _ EB). eauto.
      + exists (DFromStr b t). cbn. rewrite EP. auto.
    - destruct HS as (-> & HS). apply (IH v HC HS H).
    - destruct HS as (-> & HS). apply read_simple_ok in H as (s & Es & Er & _). apply validation_parts in Es as (-> & _).
      assert (E : normalized (c_white c) t = t).
      { destruct HC as [HC|(-> & _)]; [apply (clear_normalized _ _ _ HC)|reflexivity]. }
      rewrite E in Er. apply (IH v); [|exact HS|exact Er]. destruct HC as [HC|(_ & HC)]; auto.
    - cbn in H |- *. destruct (validation matches c t); try discriminate. destruct (in_dec str_eq_dec t vs); [|discriminate].
      injection H as <-. eauto.
    - assert (Ev : exists s, validation matches c t = Ok s).
      { cbn [SimpleModel.read] in H. destruct (validation matches c t); [eauto|discriminate|discriminate]. }
      destruct Ev as (s & Es). rewrite (read_union c ts t s Es) in H. apply validation_parts in Es as (-> & _).
      assert (E : normalized (c_white c) t = t).
      { destruct HC as [HC|(-> & _)]; [apply (clear_normalized _ _ _ HC)|reflexivity]. }
      rewrite E in H. rewrite make_union.
      assert (HC' : clear_text false t \/ (fix all l := match l with [] => True | m :: l' => keeps_blanks m /\ all l' end) ts).
      { destruct HC as [HC|(_ & HC)]; auto. }
      cbn [single_values] in HS. clear HC E. revert v H. generalize 0.
      induction IH as [|m ts Hm _ IHts]; intros i v H; [discriminate|]. cbn [try_read] in H. cbn [try_make].
      destruct HS as (HS & HL & HS'). destruct (read m t) as [w|k|] eqn:ER; [| |discriminate].
      + injection H as <-. destruct (Hm w) as (e & -> & Hr); [destruct HC' as [HC'|(HC' & _)]; auto|exact HS|reflexivity|].
        exists (DVariant i e). cbn. rewrite Hr. auto.
      + destruct HL as [->|HL]; [discriminate|]. pose proof (unrestricted_same m t HL) as HX. pose proof (make_no_panic m t HF) as HN.
        destruct (make m t) as [e|k'|]; [destruct HX as (v' & _ & HX); congruence| |congruence].
        apply IHts; [exact HS'|destruct HC' as [HC'|(_ & HC')]; auto|exact H].
  Qed.
End Proofs.

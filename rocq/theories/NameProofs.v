(** Proofs about names. *)
From Coq Require Import Lia NArith Ascii DecimalString.
From Coq Require DecimalN DecimalNat.
From Verif Require Import NameSpec.

Lemma text_eqb_eq a b : text_eqb a b = true <-> a = b.
Proof. unfold text_eqb. destruct (text_dec a b); split; congruence. Qed.

Lemma find_keyword_none s l : find_keyword s l = None -> ~ In s (map fst l).
Proof.
  induction l as [|[k v] l IH]; cbn; [auto|]. destruct (text_eqb k s) eqn:E; [discriminate|].
  intros H [->|I]; [|apply IH; auto]. rewrite (proj2 (text_eqb_eq s s) eq_refl) in E. discriminate.
Qed.
Lemma find_keyword_some s v l : find_keyword s l = Some v -> In (s, v) l.
Proof.
  induction l as [|[k w] l IH]; cbn; [discriminate|]. destruct (text_eqb k s) eqn:E; [|auto].
  apply text_eqb_eq in E as ->. intros [= ->]; auto.
Qed.

(** Facts about the lists, by computation. *)
Definition memb (s : text) (l : list text) : bool := existsb (text_eqb s) l.
Lemma memb_in s l : memb s l = true <-> In s l.
Proof.
  unfold memb. rewrite existsb_exists. split.
  - intros (x & I & E). apply text_eqb_eq in E as ->; auto.
  - intros I. exists s. split; [auto|]. apply text_eqb_eq; auto.
Qed.

Lemma reserved_known : forall s, In s reserved -> In s (map fst keywords) \/ In s unknown_keywords.
Proof.
  assert (H : forallb (fun s => memb s (map fst keywords) || memb s unknown_keywords) reserved = true)
    by (vm_compute; reflexivity).
  rewrite forallb_forall in H. intros s I. specialize (H s I). apply orb_true_iff in H.
  rewrite !memb_in in H. exact H.
Qed.

Definition is_letter_text (s : text) : bool := forallb ascii_letter s && match s with [] => false | _ => true end.
Lemma keyword_shape : forall s v, In (s, v) keywords ->
  v = s ++ [underscore] /\ is_letter_text s = true.
Proof.
  assert (H : forallb (fun p => text_eqb (snd p) (fst p ++ [underscore]) && is_letter_text (fst p)) keywords = true)
    by (vm_compute; reflexivity).
  rewrite forallb_forall in H. intros s v I. specialize (H _ I). apply andb_true_iff in H. cbn in H.
  rewrite text_eqb_eq in H. exact H.
Qed.
Lemma reserved_letters : forall s, In s reserved -> forallb ascii_letter s = true.
Proof.
  assert (H : forallb (fun s => forallb ascii_letter s) reserved = true) by (vm_compute; reflexivity).
  rewrite forallb_forall in H. exact H.
Qed.
Lemma reserved_no_underscore s : In s reserved -> ~ In underscore s.
Proof.
  intros I U. pose proof (reserved_letters s I) as H. rewrite forallb_forall in H.
  specialize (H _ U). vm_compute in H. discriminate.
Qed.

Section Format.
  Variables alphabetic numeric xid_start xid_continue : N -> bool.
  Notation format := (format_ident alphabetic numeric).
  Notation alnum := (alphanumeric alphabetic numeric).

  Notation ascii_facts := (ascii_facts alphabetic numeric xid_start xid_continue).
  Notation lone_symbol := (lone_symbol alphabetic numeric).

  Lemma replace_cont s : ascii_facts -> Forall (fun c => alnum c = true -> xid_continue c = true) s ->
    Forall (fun d => xid_continue d = true) (replace_others alphabetic numeric s).
  Proof.
    intros A. induction 1 as [|c s P H IH]; cbn; constructor; auto.
    destruct (alnum c) eqn:E; auto. apply (af_under _ _ _ _ A).
  Qed.
  Lemma plain_cont s : Forall (plain_char xid_start xid_continue alphabetic numeric) s ->
    Forall (fun c => alnum c = true -> xid_continue c = true) s.
  Proof.
    apply Forall_impl. intros c [_ P] H. apply P. unfold alphanumeric in H. apply orb_true_iff in H. tauto.
  Qed.

  Lemma replace_same s : forallb ascii_letter s = true -> ascii_facts ->
    replace_others alphabetic numeric s = s.
  Proof.
    intros H A. induction s as [|c s IH]; cbn in *; [auto|]. apply andb_true_iff in H. destruct H as [H1 H2].
    destruct (af_letter _ _ _ _ A c H1) as (E & _). unfold alphanumeric. rewrite E. cbn. f_equal. auto.
  Qed.

  Lemma replace_eq s t : replace_others alphabetic numeric s = t -> ~ In underscore t -> s = t.
  Proof.
    revert t; induction s as [|c s IH]; cbn; intros t; [auto|]. intros <- N. cbn in N.
    destruct (alnum c).
    - f_equal. apply IH; tauto.
    - tauto.
  Qed.

  (** [s] is no single character that is to be replaced. *)
  Lemma format_valid s :
    ascii_facts -> Forall (plain_char xid_start xid_continue alphabetic numeric) s ->
    s <> [] -> ~ lone_symbol s -> ~ In s unknown_keywords ->
    valid_ident xid_start xid_continue (format s).
  Proof.
    intros A P NE NL NU. unfold format_ident.
    assert (RU : forall t, In underscore t -> ~ In (replace_others alphabetic numeric t) reserved).
    { intros t U I. apply reserved_no_underscore in I. apply I. unfold replace_others.
      apply in_map_iff. exists underscore. split; [|auto]. destruct (alnum underscore); auto. }
    destruct (find_keyword s keywords) as [v|] eqn:F.
    - apply find_keyword_some in F. destruct (keyword_shape _ _ F) as [-> L].
      unfold is_letter_text in L. apply andb_true_iff in L. destruct L as [L _].
      destruct s as [|c s]; [congruence|]. cbn in L. apply andb_true_iff in L. destruct L as [Lc L].
      destruct (af_letter _ _ _ _ A c Lc) as (E1 & E2 & E3 & E4). cbn [app]. rewrite E2. cbn.
      assert (Ec : (if alnum c then c else underscore) = c) by (unfold alphanumeric; rewrite E1; auto).
      rewrite Ec. split; [auto|]. split.
      + apply replace_cont; auto. apply Forall_app. inversion P; subst. split; [apply plain_cont; auto|].
        constructor; [|constructor]. intros _; apply (af_under _ _ _ _ A).
      + rewrite <- Ec. apply (RU (c :: s ++ [underscore])). right. apply in_app_iff. right; left; auto.
    - apply find_keyword_none in F. destruct s as [|c s]; [congruence|].
      pose proof (plain_cont _ P) as Pc. inversion P as [|? ? [P1 P2] Ps]; subst. destruct (numeric c) eqn:Nc.
      + change (replace_others alphabetic numeric (underscore :: c :: s)) with
          ((if alnum underscore then underscore else underscore) :: replace_others alphabetic numeric (c :: s)).
        assert (Eu : (if alnum underscore then underscore else underscore) = underscore) by (destruct (alnum underscore); auto).
        rewrite Eu. split; [right; split; [auto|discriminate]|]. split; [apply replace_cont; auto|].
        rewrite <- Eu. apply (RU (underscore :: c :: s)). left; auto.
      + change (replace_others alphabetic numeric (c :: s)) with
          ((if alnum c then c else underscore) :: replace_others alphabetic numeric s).
        inversion Pc; subst. destruct (alnum c) eqn:Ac.
        * assert (Al : alphabetic c = true) by (unfold alphanumeric in Ac; rewrite Nc, orb_false_r in Ac; auto).
          split; [left; auto|]. split; [apply replace_cont; auto|].
          assert (Ec : c :: replace_others alphabetic numeric s = replace_others alphabetic numeric (c :: s))
            by (cbn; rewrite Ac; auto).
          intros I. pose proof (reserved_no_underscore _ I) as Nu. rewrite Ec in I, Nu.
          pose proof (replace_eq (c :: s) _ eq_refl Nu) as E. rewrite <- E in I.
          destruct (reserved_known _ I); auto.
        * split; [right; split; [auto|]|].
          -- destruct s; [|discriminate]. exfalso. apply NL. exists c. unfold alphanumeric in Ac. apply orb_false_iff in Ac. tauto.
          -- split; [apply replace_cont; auto|].
             intros I. apply (reserved_no_underscore _ I). left; auto.
  Qed.
End Format.

(** * Unique names *)
Lemma show_id_inj m n : show_id m = show_id n -> m = n.
Proof.
  unfold show_id. intros H.
  assert (E : NilZero.uint_of_string (NilZero.string_of_uint (Nat.to_uint m)) =
              NilZero.uint_of_string (NilZero.string_of_uint (Nat.to_uint n))) by congruence.
  assert (NN : forall k, Nat.to_uint k <> Decimal.Nil).
  { intros k K. pose proof (DecimalNat.Unsigned.of_to k) as X. destruct k; [vm_compute in K; discriminate|].
    rewrite K in X. discriminate. }
  rewrite !NilZero.usu in E by apply NN. injection E as E.
  rewrite <- (DecimalNat.Unsigned.of_to m), <- (DecimalNat.Unsigned.of_to n). congruence.
Qed.

Fixpoint all_digits (s : string) : Prop :=
  match s with EmptyString => True | String c s' => ascii_digit (N_of_ascii c) = true /\ all_digits s' end.
Lemma digits_shown u : all_digits (NilEmpty.string_of_uint u).
Proof. induction u; cbn; auto. Qed.
Lemma show_id_digits n : all_digits (show_id n) /\ show_id n <> EmptyString.
Proof.
  unfold show_id, NilZero.string_of_uint. destruct (Nat.to_uint n) eqn:E; try (split; [apply digits_shown|discriminate]).
  split; [cbn; auto|discriminate].
Qed.

(** The two parts of a name can be told apart if the first does not end in a digit. *)
Lemma app_str_assoc (a b c : string) : ((a ++ b) ++ c = a ++ (b ++ c))%string.
Proof. induction a; cbn; congruence. Qed.
Lemma split_unique a b x y :
  all_digits x -> all_digits y -> ~ ends_in_digit a -> ~ ends_in_digit b ->
  (a ++ x = b ++ y)%string -> a = b /\ x = y.
Proof.
  assert (T : forall r b y, all_digits (b ++ y)%string -> b <> EmptyString -> ends_in_digit (r ++ b)%string).
  { clear. intros r b. revert r. induction b as [|c b IH]; intros r y0 D N; [congruence|]. cbn in D. destruct D as [D1 D2].
    destruct b as [|d b].
    - exists r, c. auto.
    - replace (r ++ String c (String d b))%string with ((r ++ String c "") ++ String d b)%string
        by (rewrite app_str_assoc; reflexivity).
      eapply IH; [exact D2|discriminate]. }
  revert b. induction a as [|c a IH]; intros [|d b] Dx Dy Na Nb E; cbn in E.
  - auto.
  - exfalso. apply Nb. change (String d b) with ("" ++ String d b)%string. apply (T _ _ y); [|discriminate].
    change (all_digits (String d (b ++ y)%string)). rewrite <- E. auto.
  - exfalso. apply Na. change (String c a) with ("" ++ String c a)%string. apply (T _ _ x); [|discriminate].
    change (all_digits (String c (a ++ x)%string)). rewrite E. auto.
  - injection E as -> E.
    assert (S : forall e s, ends_in_digit s -> ends_in_digit (String e s)).
    { intros e s (r & k & -> & D). exists (String e r), k. auto. }
    destruct (IH b Dx Dy) as [-> ->]; auto.
Qed.

Section Histories.
  Variable unify_s : string -> string.

  (** Every number in use is below the counter; a fresh one was never used before. *)
  Record ids_ok (s : bstate) : Prop := {
    io_builders : forall b i, In b (bs_builders s) -> b_my_id b = Some i -> i < bs_counter s;
    io_out : forall o i, In o (bs_out s) -> fi_id o = Some i -> i < bs_counter s;
    io_held : forall o i, In o (bs_out s) -> fi_fresh o = true -> fi_id o = Some i ->
      forall b, In b (bs_builders s) -> b_my_id b <> Some i;
    io_fresh : forall a o c i, bs_out s = a ++ o :: c -> fi_fresh o = true -> fi_id o = Some i ->
      forall o', In o' (a ++ c) -> fi_id o' <> Some i;
    io_name : forall o, In o (bs_out s) ->
      fi_name o = match fi_id o with Some i => Generated (fi_text o ++ show_id i) | None => fi_name o end }.

  Lemma update_in {A} (f : A -> A) k l x : In x (update k f l) -> In x l \/ exists y, In y l /\ x = f y.
  Proof.
    revert k; induction l as [|a l IH]; intros [|k]; cbn; auto.
    - intros [<-|I]; eauto.
    - intros [<-|I]; auto. destruct (IH _ I) as [J|(y & J & E)]; eauto.
  Qed.

  (** A step that gives no builder a new number. *)
  Lemma ids_same bs bs' c out :
    (forall b', In b' bs' -> b_my_id b' = None \/ exists b, In b bs /\ b_my_id b' = b_my_id b) ->
    ids_ok (BState bs c out) -> ids_ok (BState bs' c out).
  Proof.
    intros H [B O Hh F N]. split; auto; cbn in *.
    - intros b i I E. destruct (H _ I) as [X|(b0 & I0 & X)]; [congruence|]. eapply B; [exact I0|congruence].
    - intros o i I Fr E b Ib. destruct (H _ Ib) as [X|(b0 & I0 & X)]; [congruence|]. rewrite X. eapply Hh; eauto.
  Qed.

  Lemma finish_name b c : fst (builder_finish unify_s b c) =
    match (if b_with_id b then Some (match b_my_id b with Some i => i | None => c end) else None) with
    | Some i => Generated (base_text unify_s b ++ show_id i)
    | None => fst (builder_finish unify_s b c)
    end.
  Proof.
    destruct b as [my w g n e]. unfold base_text, builder_finish, set_with_id; cbn.
    destruct w; [|reflexivity]. destruct e, n; cbn; repeat destruct (String.eqb _ _); cbn; destruct my, g; reflexivity.
  Qed.

  Lemma step_ok s o : ids_ok s -> ids_ok (builder_step unify_s s o).
  Proof.
    destruct s as [bs c out]. intros I. destruct o; cbn.
    - revert I. apply ids_same. intros b'. rewrite in_app_iff. cbn. intros [J|[<-|[]]]; eauto.
    - destruct (nth_error bs k) as [b|] eqn:E; [|auto]. apply nth_error_In in E. revert I. apply ids_same.
      intros b'. rewrite in_app_iff. cbn. intros [J|[<-|[]]]; eauto.
    - revert I. apply ids_same. intros b' J. apply update_in in J. destruct J as [J|(y & J & ->)]; eauto.
    - revert I. apply ids_same. intros b' J. apply update_in in J. destruct J as [J|(y & J & ->)]; eauto.
    - revert I. apply ids_same. intros b' J. apply update_in in J. destruct J as [J|(y & J & ->)]; eauto.
    - revert I. apply ids_same. intros b' J. apply update_in in J. destruct J as [J|(y & J & ->)]; eauto.
    - destruct (nth_error bs j) as [b|] eqn:E; [|auto]. apply nth_error_In in E. revert I. apply ids_same.
      intros b' J. apply update_in in J. destruct J as [J|(y & J & ->)]; [eauto|].
      unfold builder_merge. destruct (b_name b); [|eauto]. cbn. destruct (b_my_id y) eqn:Y; cbn; eauto.
    - destruct (nth_error bs k) as [b|] eqn:E; [|auto]. apply nth_error_In in E.
      unfold generate_unique_id. destruct (b_my_id b) eqn:M.
      + revert I. apply ids_same. intros b' J. apply update_in in J. destruct J as [J|(y & J & ->)]; eauto.
      + destruct I as [B O Hh F N]. cbn in *. split; auto; cbn.
        * intros b' i J X. apply update_in in J. destruct J as [J|(y & J & ->)].
          -- specialize (B _ _ J X). lia.
          -- cbn in X. injection X as <-. lia.
        * intros o i J X. specialize (O _ _ J X). lia.
        * intros o i J Fr X b' J'. apply update_in in J'. destruct J' as [J'|(y & J' & ->)]; [eauto|].
          cbn. specialize (O _ _ J X). intros [= ->]. lia.
    - destruct (nth_error bs k) as [b|] eqn:E; [|auto]. apply nth_error_In in E.
      destruct I as [B O Hh F N]. cbn in *.
      set (c' := snd (builder_finish unify_s b c)). set (o := finished_of unify_s b c).
      assert (C : c' = (if fi_fresh o then S c else c)).
      { unfold c', o, finished_of, builder_finish; cbn. destruct b as [my w g n e]; cbn.
        destruct w; cbn; destruct my; cbn; repeat destruct (String.eqb _ _); reflexivity. }
      assert (Oi : forall i, fi_id o = Some i -> (fi_fresh o = true -> i = c) /\ (fi_fresh o = false -> b_my_id b = Some i)).
      { intros i. unfold o, finished_of; cbn. destruct (b_with_id b); [|discriminate]. cbn.
        destruct (b_my_id b); intros [= <-]; split; auto; discriminate. }
      assert (Cle : c <= c') by (rewrite C; destruct (fi_fresh o); lia).
      split; cbn.
      + intros b' i J X. specialize (B _ _ J X). lia.
      + intros o' i J X. apply in_app_iff in J. destruct J as [J|[<-|[]]]; [specialize (O _ _ J X); lia|].
        destruct (Oi _ X) as [X1 X2]. destruct (fi_fresh o) eqn:Fr.
        * rewrite (X1 eq_refl). rewrite C. lia.
        * specialize (B _ _ E (X2 eq_refl)). lia.
      + intros o' i J Fr X b' J'. apply in_app_iff in J. destruct J as [J|[<-|[]]]; [eauto|].
        destruct (Oi _ X) as [X1 _]. rewrite (X1 Fr). intros Y. specialize (B _ _ J' Y). lia.
      + intros a o1 d i Eq Fr X o' J. destruct d as [|e d _] using rev_ind.
        * apply app_inj_tail in Eq. destruct Eq as [<- <-]. rewrite app_nil_r in J.
          destruct (Oi _ X) as [X1 _]. rewrite (X1 Fr). intros Y. specialize (O _ _ J Y). lia.
        * change (o1 :: d ++ [e]) with ((o1 :: d) ++ [e]) in Eq. rewrite app_assoc in Eq.
          apply app_inj_tail in Eq. destruct Eq as [Eq <-].
          rewrite app_assoc in J. apply in_app_iff in J. destruct J as [J|[<-|[]]]; [eapply F; eauto|].
          assert (I1 : In o1 out) by (rewrite Eq; apply in_app_iff; right; left; auto).
          intros Y. destruct (Oi _ Y) as [Y1 Y2]. destruct (fi_fresh o) eqn:Fo.
          -- specialize (O _ _ I1 X). rewrite (Y1 eq_refl) in O. lia.
          -- apply (Hh _ _ I1 Fr X _ E). auto.
      + intros o' J. apply in_app_iff in J. destruct J as [J|[<-|[]]]; [auto|].
        unfold o, finished_of; cbn [fi_name fi_id fi_text]. apply finish_name.
  Qed.

  Lemma nth_update {A} (f : A -> A) k j l : nth_error (update k f l) j =
    if Nat.eqb k j then option_map f (nth_error l j) else nth_error l j.
  Proof.
    revert k j; induction l as [|a l IH]; intros [|k] [|j]; cbn; try reflexivity.
    - destruct (Nat.eqb k j); reflexivity.
    - apply IH.
  Qed.

  Lemma named_step k n o s : (forall n', o <> OSetName k n') ->
    option_map b_name (nth_error (bs_builders s) k) = Some (Some n) ->
    option_map b_name (nth_error (bs_builders (builder_step unify_s s o)) k) = Some (Some n).
  Proof.
    destruct s as [bs c out]. cbn [bs_builders]. intros NS E.
    assert (UP : forall j f, (j = k -> forall b, b_name b = Some n -> b_name (f b) = Some n) ->
      option_map b_name (nth_error (update j f bs) k) = Some (Some n)).
    { intros j f F. rewrite nth_update. destruct (Nat.eqb j k) eqn:J; [|exact E]. apply Nat.eqb_eq in J.
      destruct (nth_error bs k) as [b|]; [|discriminate E]. cbn in *. injection E as E. rewrite (F J b E). reflexivity. }
    assert (AP : forall b, option_map b_name (nth_error (bs ++ [b]) k) = Some (Some n)).
    { intros b. rewrite nth_error_app1; [exact E|]. apply nth_error_Some. destruct (nth_error bs k); [discriminate|discriminate E]. }
    destruct o; cbn [builder_step].
    - apply AP.
    - destruct (nth_error bs k0); [apply AP|exact E].
    - cbn. apply UP. intros -> b _. elim (NS s). reflexivity.
    - cbn. apply UP. auto.
    - cbn. apply UP. auto.
    - cbn. apply UP. auto.
    - destruct (nth_error bs j); [|exact E]. cbn. apply UP. intros _ a H. unfold builder_merge.
      destruct (b_name b); [|exact H]. cbn. rewrite H. reflexivity.
    - destruct (nth_error bs k0) eqn:K; [|exact E]. unfold generate_unique_id. destruct (b_my_id b); cbn; apply UP.
      + intros -> b0 _. rewrite K in E. cbn in E. congruence.
      + intros -> b0 _. rewrite K in E. cbn in *. congruence.
    - destruct (nth_error bs k0); exact E.
  Qed.

  Lemma run_named l1 k n l2 b b' : nth_error (bs_builders (builder_run unify_s l1)) k = Some b ->
    (forall n', ~ In (OSetName k n') l2) ->
    nth_error (bs_builders (builder_run unify_s (l1 ++ OSetName k n :: l2))) k = Some b' -> b_name b' = Some n.
  Proof.
    intros E NS E'. unfold builder_run in *. rewrite fold_left_app in E'. cbn [fold_left] in E'.
    set (s := fold_left (builder_step unify_s) l1 (BState [] 0 [])) in *.
    assert (H : option_map b_name (nth_error (bs_builders (builder_step unify_s s (OSetName k n))) k) = Some (Some n)).
    { destruct s as [bs c out]. cbn in *. rewrite nth_update, Nat.eqb_refl, E. reflexivity. }
    revert H E'. generalize (builder_step unify_s s (OSetName k n)). clear - NS. intros s.
    revert s. induction l2 as [|o l2 IH]; intros s H E'; cbn in *.
    - rewrite E' in H. cbn in H. congruence.
    - apply (IH (fun n' I => NS n' (or_intror I)) (builder_step unify_s s o)); [|exact E'].
      apply named_step; [|exact H]. intros n' ->. exact (NS n' (or_introl eq_refl)).
  Qed.

  Lemma run_ok l : ids_ok (builder_run unify_s l).
  Proof.
    unfold builder_run. assert (H : ids_ok (BState [] 0 [])).
    { split; cbn; try tauto. intros a o c i E. destruct a; discriminate. }
    revert H. generalize (BState [] 0 []). induction l as [|o l IH]; cbn; auto. intros s H. apply IH, step_ok, H.
  Qed.

  Lemma run_distinct l a o c o' :
    bs_out (builder_run unify_s l) = a ++ o :: c -> In o' (a ++ c) ->
    fi_fresh o = true -> fi_id o' <> None ->
    ~ ends_in_digit (fi_text o) -> ~ ends_in_digit (fi_text o') -> fi_name o <> fi_name o'.
  Proof.
    intros E I Fr N D D'. destruct (run_ok l) as [B O Hh F Nm].
    assert (Io : In o (bs_out (builder_run unify_s l))) by (rewrite E; apply in_app_iff; right; left; auto).
    assert (Io' : In o' (bs_out (builder_run unify_s l))).
    { rewrite E. apply in_app_iff in I. apply in_app_iff. cbn. tauto. }
    pose proof (Nm _ Io) as N1. pose proof (Nm _ Io') as N2.
    destruct (fi_id o') as [i'|] eqn:X'; [|congruence].
    destruct (fi_id o) as [i|] eqn:X.
    - rewrite N1, N2. intros [= Q]. apply split_unique in Q; auto; try apply show_id_digits.
      destruct Q as [_ Q]. apply show_id_inj in Q. subst. eapply F; eauto.
    - exfalso. assert (G : forall x, In x (bs_out (builder_run unify_s l)) -> fi_fresh x = true -> fi_id x <> None).
      { clear. unfold builder_run.
        assert (H : forall x, In x (bs_out (BState [] 0 [])) -> fi_fresh x = true -> fi_id x <> None) by (cbn; tauto).
        revert H. generalize (BState [] 0 []). induction l as [|o l IH]; cbn; auto. intros s H. apply IH.
        destruct s as [bs k out]. destruct o; cbn in *; auto.
        + destruct (nth_error bs k0); auto.
        + destruct (nth_error bs j); auto.
        + destruct (nth_error bs k0); auto. destruct (generate_unique_id b k); auto.
        + destruct (nth_error bs k0) as [b|]; auto. cbn. intros x J Y. apply in_app_iff in J.
          destruct J as [J|[<-|[]]]; [auto|]. unfold finished_of in *. cbn in *. destruct (b_with_id b); [discriminate|].
          discriminate. }
      exact (G _ Io Fr X).
  Qed.
End Histories.

From Verif Require Import MetaModel MetaSpec MetaProofs DupModel DupSpec.

(** ** Ends of definition chains *)

Definition ends (ts : types) (i b : tident) : Prop := leads ts i b /\ lookup b ts <> None /\ terminal ts b.

Lemma ends_resolved ts i b : ends ts i b -> exists ty, lookup b ts = Some ty /\ get_resolved ts i = Some (b, ty).
Proof.
  intros (L & P & T). destruct (lookup b ts) as [ty|] eqn:E; [|congruence]. exists ty. split; [reflexivity|].
  apply resolved_complete; assumption.
Qed.

Lemma resolved_ends ts i b ty : no_loops ts -> get_resolved ts i = Some (b, ty) -> ends ts i b.
Proof.
  intros NL H. pose proof (resolved_terminal _ _ _ _ NL H) as T. apply resolved_spec in H. destruct H as (L & P & _).
  split; [exact L|]. split; [congruence|exact T].
Qed.

Lemma ends_det ts i b c : ends ts i b -> ends ts i c -> b = c.
Proof. intros B C. apply ends_resolved in B, C. destruct B as (? & _ & B), C as (? & _ & C). congruence. Qed.

Lemma present_ends ts i : no_loops ts -> lookup i ts <> None -> exists b, ends ts i b.
Proof.
  intros NL P. destruct (get_resolved ts i) as [[b ty]|] eqn:E.
  - exists b. eapply resolved_ends; eassumption.
  - apply resolved_none in E. contradiction.
Qed.

Lemma ends_no_loops ts : (forall i, lookup i ts <> None -> exists b, ends ts i b) -> no_loops ts.
Proof.
  intros H a b S L. destruct (H a) as (e & LE & P & T).
  - destruct S as (ty & E & _). congruence.
  - exact (no_return_t ts a e LE T P b S L).
Qed.

Lemma ros_ends ts i b : ends ts i b -> resolved_or_self ts i = b.
Proof.
  intros H. apply ends_resolved in H. destruct H as (ty & _ & H). unfold resolved_or_self, get_resolved_ident.
  rewrite H. reflexivity.
Qed.
Lemma ros_missing ts i : lookup i ts = None -> resolved_or_self ts i = i.
Proof.
  intros H. apply resolved_none in H. unfold resolved_or_self, get_resolved_ident. rewrite H. reflexivity.
Qed.

(** ** Renaming *)

Lemma rename_comp f g v : rename g (rename f v) = rename (fun i => g (f i)) v.
Proof.
  assert (B : forall b, rename_base g (rename_base f b) = rename_base (fun i => g (f i)) b) by (intros []; reflexivity).
  assert (O : forall o, option_map g (option_map f o) = option_map (fun i => g (f i)) o) by (intros []; reflexivity).
  assert (G : forall x, rename_group g (rename_group f x) = rename_group (fun i => g (f i)) x).
  { intros [m l]. unfold rename_group. cbn. rewrite map_map. f_equal. apply map_ext. intros [? [] ? ? ? ? ? ?]; reflexivity. }
  destruct v as [x|x|x|x|x|x|x|x|x|x|x]; cbn [rename]; try reflexivity; try (rewrite G; reflexivity).
  - cbn. rewrite B, map_map. reflexivity.
  - cbn. rewrite B, map_map. do 2 f_equal. apply map_ext. intros [? ? o ? ? ?]. unfold rename_evariant. cbn. rewrite O. reflexivity.
  - cbn. rewrite O, map_map. do 2 f_equal.
  - cbn. rewrite B, O, map_map. do 2 f_equal. apply map_ext. intros [? [] ? ? ? ? ? ?]; reflexivity.
Qed.

Lemma rename_ext f g v : (forall i, f i = g i) -> rename f v = rename g v.
Proof.
  intros H.
  assert (B : forall b, rename_base f b = rename_base g b) by (intros []; cbn; rewrite ?H; reflexivity).
  assert (O : forall o, option_map f o = option_map g o) by (intros []; cbn; rewrite ?H; reflexivity).
  assert (E : forall l, map (rename_element f) l = map (rename_element g) l).
  { intros l. apply map_ext. intros [? [] ? ? ? ? ? ?]; unfold rename_element; cbn; rewrite ?H; reflexivity. }
  destruct v as [x|x|x|x|x|x|x|x|x|x|x]; cbn; try reflexivity; unfold rename_group; rewrite ?B, ?O, ?E, ?H; try reflexivity.
  - do 2 f_equal. apply map_ext. intros [? ?]. unfold rename_utype. cbn. rewrite H. reflexivity.
  - do 2 f_equal. apply map_ext. intros [? ? o ? ? ?]. unfold rename_evariant. cbn. rewrite O. reflexivity.
  - do 2 f_equal. apply map_ext. intros [? [? ? ?]]. unfold rename_entry. cbn. rewrite !H. reflexivity.
  - do 2 f_equal. apply map_ext. intros [? [] ? ? ? ? ? ?]; unfold rename_attr; cbn; rewrite ?H; reflexivity.
Qed.

Lemma same_coarser ts ts' g a b : (forall i, resolved_or_self ts' i = g (resolved_or_self ts i)) ->
  type_eq ts a b = true -> type_eq ts' a b = true.
Proof.
  intros H E. apply type_eq_spec in E. apply type_eq_spec. destruct E as [[D E] C]. split; [split; [exact D|]|exact C].
  assert (X : forall v, rename (resolved_or_self ts') v = rename g (rename (resolved_or_self ts) v)).
  { intros v. rewrite rename_comp. apply rename_ext, H. }
  rewrite !X, E. reflexivity.
Qed.

(** Equal types are references to the same type, if they are references. *)
Lemma type_eq_ref ts a b c : type_eq ts a b = true -> plain_ref (m_variant a) = Some c ->
  exists d, plain_ref (m_variant b) = Some d /\ resolved_or_self ts c = resolved_or_self ts d.
Proof.
  intros E P. apply type_eq_spec in E. destruct E as [[_ E] _]. apply plain_ref_iff in P. rewrite P in E. cbn in E.
  destruct (m_variant b) as [| | |[t n mi ma]| | | | | | |]; try discriminate E. cbn in E. injection E as E1 <- <- <-.
  exists t. split; [apply plain_ref_iff; reflexivity|exact E1].
Qed.

Lemma type_eq_sym ts a b : type_eq ts a b = true -> type_eq ts b a = true.
Proof.
  intros H. apply type_eq_spec in H. apply type_eq_spec. destruct H as [[D E] C].
  split; [split; congruence|]. apply (same_comparable ts a b); [split; assumption|exact C].
Qed.
Lemma type_eq_trans ts a b c : type_eq ts a b = true -> type_eq ts b c = true -> type_eq ts a c = true.
Proof. rewrite !type_eq_spec. intros [[D E] C] [[D' E'] _]. split; [split; congruence|exact C]. Qed.

(** ** The scan *)

Record scan_inv (ts prefix : types) (seen : list (mtype * tident)) (idents : list (tident * tident)) : Prop := {
  si_seen : forall tf r, In (tf, r) seen ->
    exists f, In (f, tf) prefix /\ lookup f idents = None /\ get_resolved_ident ts f = Some r;
  si_idents : forall i r, lookup i idents = Some r -> exists ti tf,
    In (i, ti) prefix /\ In (tf, r) seen /\ type_eq ts ti tf = true /\ refers_to (m_variant ti) r = false;
  si_rest : forall i ti, In (i, ti) prefix -> lookup i idents = None ->
    (exists r, In (ti, r) seen /\ get_resolved_ident ts i = Some r) \/ exists x, m_variant ti = VReference x;
  si_apart : ForallOrdPairs (fun a b => type_eq ts (fst b) (fst a) = false) seen
}.

Lemma lookup_snoc {V} (l : list (tident * V)) k v i :
  lookup i (l ++ [(k, v)]) = match lookup i l with Some w => Some w | None => if tident_eq_dec i k then Some v else None end.
Proof.
  induction l as [|[j w] l IH]; cbn; [reflexivity|]. destruct (tident_eq_dec i j); [reflexivity|exact IH].
Qed.

Lemma FOP_snoc {A} (R : A -> A -> Prop) l x : ForallOrdPairs R l -> Forall (fun a => R a x) l -> ForallOrdPairs R (l ++ [x]).
Proof.
  induction 1 as [|a l F H IH]; intros G; cbn; [repeat constructor|]. inversion G; subst.
  constructor; [apply Forall_app; auto|auto].
Qed.

Lemma scan_spec ts : NoDup (map fst ts) -> forall items prefix seen idents,
  ts = prefix ++ items -> scan_inv ts prefix seen idents ->
  exists seen', scan_inv ts ts seen' (dup_scan ts items seen idents).
Proof.
  intros ND items. induction items as [|[i ti] items IH]; intros prefix seen idents E I.
  - rewrite app_nil_r in E. subst prefix. exists seen. exact I.
  - assert (E' : ts = (prefix ++ [(i, ti)]) ++ items) by (rewrite <- app_assoc; exact E).
    assert (Fresh : ~ In i (map fst prefix)).
    { intros H. rewrite E in ND. rewrite map_app in ND. cbn in ND. apply NoDup_remove_2 in ND.
      apply ND, in_app_iff. left. exact H. }
    assert (Li : lookup i idents = None).
    { destruct (lookup i idents) as [r|] eqn:X; [|reflexivity]. destruct I as [_ I2 _ _].
      destruct (I2 _ _ X) as (ti' & _ & H & _). exfalso. apply Fresh. apply (in_map fst) in H. exact H. }
    assert (Pr : exists r, get_resolved_ident ts i = Some r).
    { unfold get_resolved_ident. destruct (get_resolved ts i) as [p|] eqn:X; [eexists; reflexivity|].
      apply resolved_none in X. apply lookup_none in X. exfalso. apply X. rewrite E, map_app, in_app_iff. right. left. reflexivity. }
    destruct I as [I1 I2 I3 I4]. cbn.
    destruct (find (fun e => type_eq ts ti (fst e)) seen) as [[tf r]|] eqn:F.
    + apply find_some in F. cbn in F. destruct F as [F1 F2].
      destruct (refers_to (m_variant ti) r) eqn:R.
      * apply (IH (prefix ++ [(i, ti)])); [exact E'|]. split.
        -- intros tf' r' H. destruct (I1 _ _ H) as (f & A & B). exists f. rewrite in_app_iff. auto.
        -- intros i' r' H. destruct (I2 _ _ H) as (ti' & tf' & A & B). exists ti', tf'. rewrite in_app_iff. auto.
        -- intros i' ti' H N. apply in_app_iff in H. destruct H as [H|[H|[]]]; [apply I3; assumption|].
           injection H as <- <-. right. unfold refers_to in R. destruct (m_variant ti); try discriminate. eauto.
        -- exact I4.
      * apply (IH (prefix ++ [(i, ti)])); [exact E'|]. split.
        -- intros tf' r' H. destruct (I1 _ _ H) as (f & A & B & C). exists f. rewrite in_app_iff. split; [auto|].
           split; [|exact C]. rewrite lookup_snoc, B. destruct (tident_eq_dec f i) as [->|]; [|reflexivity].
           exfalso. apply Fresh. apply (in_map fst) in A. exact A.
        -- intros i' r' H. rewrite lookup_snoc in H. destruct (lookup i' idents) as [w|] eqn:X.
           ++ injection H as <-. destruct (I2 _ _ X) as (ti' & tf' & A & B). exists ti', tf'. rewrite in_app_iff. auto.
           ++ destruct (tident_eq_dec i' i) as [->|]; [|discriminate]. injection H as <-.
              exists ti, tf. rewrite in_app_iff. cbn. auto.
        -- intros i' ti' H N. rewrite lookup_snoc in N. destruct (lookup i' idents) eqn:X; [discriminate|].
           destruct (tident_eq_dec i' i) as [->|D]; [discriminate|].
           apply in_app_iff in H. destruct H as [H|[H|[]]]; [apply I3; assumption|congruence].
        -- exact I4.
    + destruct Pr as (r & Pr). rewrite Pr. apply (IH (prefix ++ [(i, ti)])); [exact E'|]. split.
      * intros tf' r' H. apply in_app_iff in H. destruct H as [H|[H|[]]].
        -- destruct (I1 _ _ H) as (f & A & B). exists f. rewrite in_app_iff. auto.
        -- injection H as <- <-. exists i. rewrite in_app_iff. cbn. auto.
      * intros i' r' H. destruct (I2 _ _ H) as (ti' & tf' & A & B & C). exists ti', tf'. rewrite !in_app_iff. auto.
      * intros i' ti' H N. apply in_app_iff in H. destruct H as [H|[H|[]]].
        -- destruct (I3 _ _ H N) as [(r' & A & B)|X]; [left; exists r'; rewrite in_app_iff; auto|auto].
        -- injection H as <- <-. left. exists r. rewrite in_app_iff. cbn. auto.
      * apply FOP_snoc; [exact I4|]. apply Forall_forall. intros x Hx. cbn. exact (find_none _ _ F x Hx).
Qed.

Lemma scan_empty ts : scan_inv ts [] [] [].
Proof. split; cbn; try tauto; try discriminate. constructor. Qed.

Lemma scan_all ts : NoDup (map fst ts) -> exists seen, scan_inv ts ts seen (dup_scan ts ts [] []).
Proof. intros ND. exact (scan_spec ts ND ts [] [] [] eq_refl (scan_empty ts)). Qed.

(** ** One round *)

Section Round.
  Variable ts : types.
  Hypothesis ND : NoDup (map fst ts).
  Hypothesis NL : no_loops ts.
  Variable seen : list (mtype * tident).
  Variable idents : list (tident * tident).
  Hypothesis INV : scan_inv ts ts seen idents.
  Let ts' := dup_replace idents ts.

  Lemma replace_lookup i : lookup i ts' =
    option_map (fun ty => match lookup i idents with Some r => set_variant ty (VReference (ref_new r)) | None => ty end) (lookup i ts).
  Proof.
    unfold ts', dup_replace. rewrite (lookup_map (fun k ty => match lookup k idents with
      Some r => set_variant ty (VReference (ref_new r)) | None => ty end)). reflexivity.
  Qed.

  Lemma replace_present i : lookup i ts' = None <-> lookup i ts = None.
  Proof. rewrite replace_lookup. destruct (lookup i ts); cbn; split; congruence. Qed.

  Lemma replace_keys : map fst ts' = map fst ts.
  Proof. unfold ts', dup_replace. rewrite map_map. apply map_ext. reflexivity. Qed.

  Lemma replace_same i : lookup i idents = None -> lookup i ts' = lookup i ts.
  Proof. intros H. rewrite replace_lookup, H. destruct (lookup i ts); reflexivity. Qed.

  (** A replaced type: its representative. *)
  Lemma replaced i r : lookup i idents = Some r -> exists ti f tf,
    lookup i ts = Some ti /\ lookup f ts = Some tf /\ lookup f idents = None /\ ends ts f r /\
    type_eq ts ti tf = true /\ refers_to (m_variant ti) r = false /\ plain_step ts' i r.
  Proof.
    intros H. destruct (si_idents _ _ _ _ INV _ _ H) as (ti & tf & A & B & C & D).
    destruct (si_seen _ _ _ _ INV _ _ B) as (f & F1 & F2 & F3).
    apply (lookup_unique _ _ _ ND) in A. apply (lookup_unique _ _ _ ND) in F1.
    unfold get_resolved_ident in F3. destruct (get_resolved ts f) as [[b ty]|] eqn:E; [|discriminate].
    cbn in F3. injection F3 as ->.
    exists ti, f, tf. split; [exact A|]. split; [exact F1|]. split; [exact F2|].
    split; [eapply resolved_ends; eassumption|]. split; [exact C|]. split; [exact D|].
    exists (set_variant ti (VReference (ref_new r))). split; [rewrite replace_lookup, A, H; reflexivity|reflexivity].
  Qed.

  Lemma same_step i b : lookup i idents = None -> plain_step ts' i b <-> plain_step ts i b.
  Proof. intros H. unfold plain_step. rewrite (replace_same _ H). tauto. Qed.

  Lemma same_terminal b : lookup b idents = None -> terminal ts b -> terminal ts' b.
  Proof. intros H T c S. apply replace_present. apply T. apply same_step; assumption. Qed.

  (** The representative of a replaced final type is final and not replaced. *)
  Lemma replaced_terminal b r : terminal ts b -> lookup b idents = Some r ->
    lookup r idents = None /\ terminal ts r /\ lookup r ts <> None /\
    exists tb tr, lookup b ts = Some tb /\ lookup r ts = Some tr /\ type_eq ts tb tr = true.
  Proof.
    intros T H. destruct (replaced _ _ H) as (tb & f & tf & Lb & Lf & Nf & E & Q & _ & _).
    assert (Tf : terminal ts f).
    { intros c S. destruct (lookup c ts) eqn:Lc; [exfalso|reflexivity].
      apply step_iff in S. destruct S as (tf' & Lf' & P). rewrite Lf in Lf'. injection Lf' as <-.
      apply type_eq_sym in Q. destruct (type_eq_ref _ _ _ _ Q P) as (d & Pd & R).
      destruct (present_ends ts c NL) as (e & Ee); [congruence|]. rewrite (ros_ends _ _ _ Ee) in R.
      assert (Nd : lookup d ts = None) by (apply T, step_iff; eauto).
      rewrite (ros_missing _ _ Nd) in R. subst d. destruct Ee as (_ & Pe & _). contradiction. }
    assert (X : r = f).
    { apply (ends_det ts f); [exact E|]. split; [constructor|]. split; [congruence|exact Tf]. }
    subst r. split; [exact Nf|]. split; [exact Tf|]. split; [congruence|]. exists tb, tf. auto.
  Qed.

  Definition canon (b : tident) : tident := match lookup b idents with Some r => r | None => b end.

  Lemma terminal_ends b : terminal ts b -> lookup b ts <> None -> ends ts' b (canon b).
  Proof.
    intros T P. unfold canon. destruct (lookup b idents) as [r|] eqn:H.
    - destruct (replaced_terminal b r T H) as (N & Tr & Pr & _). destruct (replaced _ _ H) as (? & ? & ? & _ & _ & _ & _ & _ & _ & S).
      split; [econstructor; [exact S|constructor]|]. split; [rewrite replace_present; exact Pr|apply same_terminal; assumption].
    - split; [constructor|]. split; [rewrite replace_present; exact P|apply same_terminal; assumption].
  Qed.

  (** The representative of a replaced alias is what the alias stands for. *)
  Lemma replaced_alias i y b r : plain_step ts i y -> ends ts y b -> lookup i idents = Some r -> r = b.
  Proof.
    intros S E H. destruct (replaced _ _ H) as (ti & f & tf & Li & Lf & _ & Ef & Q & _ & _).
    apply step_iff in S. destruct S as (ti' & Li' & P). rewrite Li in Li'. injection Li' as <-.
    destruct (type_eq_ref _ _ _ _ Q P) as (d & Pd & R). rewrite (ros_ends _ _ _ E) in R.
    assert (Ed : ends ts d b).
    { destruct (lookup d ts) as [td|] eqn:Ld.
      - destruct (present_ends ts d NL) as (e & Ee); [congruence|]. rewrite (ros_ends _ _ _ Ee) in R. subst e. exact Ee.
      - rewrite (ros_missing _ _ Ld) in R. subst d. destruct E as (_ & P' & _). contradiction. }
    apply (ends_det ts f); [exact Ef|]. destruct Ed as (Ld & Pb & Tb).
    split; [econstructor; [apply step_iff; eauto|exact Ld]|]. auto.
  Qed.

  Lemma round_ends i b : ends ts i b -> ends ts' i (canon b).
  Proof.
    intros (L & P & T). induction L as [b|i y b S L IH]; [apply terminal_ends; assumption|].
    specialize (IH P T). destruct (lookup i idents) as [r|] eqn:H.
    - assert (Ey : ends ts y b) by (repeat split; assumption).
      pose proof (replaced_alias _ _ _ _ S Ey H) as ->.
      destruct (replaced _ _ H) as (? & ? & ? & _ & _ & _ & _ & _ & _ & S').
      destruct (terminal_ends b T P) as (A & B & C). split; [econstructor; [exact S'|exact A]|]. auto.
    - destruct IH as (A & B & C). split; [econstructor; [apply same_step; eassumption|exact A]|]. auto.
  Qed.

  Lemma canon_fixed b : terminal ts b -> lookup b ts <> None -> lookup (canon b) idents = None.
  Proof.
    intros T P. unfold canon. destruct (lookup b idents) as [r|] eqn:H; [|exact H].
    apply (replaced_terminal b r T H).
  Qed.

  Lemma round_no_loops : no_loops ts'.
  Proof.
    apply ends_no_loops. intros i P. rewrite replace_present in P.
    destruct (present_ends ts i NL P) as (b & E). exists (canon b). apply round_ends, E.
  Qed.

  Lemma round_ros i : resolved_or_self ts' i = canon (resolved_or_self ts i).
  Proof.
    destruct (lookup i ts) eqn:L.
    - destruct (present_ends ts i NL) as (b & E); [congruence|]. rewrite (ros_ends _ _ _ E).
      apply ros_ends, round_ends, E.
    - rewrite (ros_missing ts) by exact L. rewrite (ros_missing ts') by (apply replace_present, L).
      unfold canon. destruct (lookup i idents) as [r|] eqn:H; [|reflexivity].
      destruct (replaced _ _ H) as (ti & _ & _ & Li & _). congruence.
  Qed.

  Lemma round_eq a b : type_eq ts a b = true -> type_eq ts' a b = true.
  Proof. apply same_coarser with (g := canon). apply round_ros. Qed.

  Lemma round_resolved i b ty : get_resolved ts i = Some (b, ty) ->
    exists b' ty', get_resolved ts' i = Some (b', ty') /\ get_resolved ts b' = Some (b', ty') /\
      (b' = b /\ ty' = ty \/ type_eq ts ty ty' = true).
  Proof.
    intros H. pose proof (resolved_ends _ _ _ _ NL H) as E. pose proof (round_ends _ _ E) as E'.
    destruct E as (L & P & T). apply ends_resolved in E'. destruct E' as (ty' & L' & R').
    exists (canon b), ty'. split; [exact R'|].
    rewrite (replace_same _ (canon_fixed b T P)) in L'.
    assert (Lb : lookup b ts = Some ty) by (apply resolved_spec in H; apply H).
    unfold canon in *. destruct (lookup b idents) as [r|] eqn:Q.
    - destruct (replaced_terminal b r T Q) as (_ & Tr & Pr & tb & tr & Lb' & Lr & X).
      split; [apply resolved_complete; [constructor|exact L'|exact Tr]|]. right. congruence.
    - split; [apply resolved_complete; [constructor|exact L'|exact T]|]. left. split; [reflexivity|congruence].
  Qed.

  (** ** The measure *)

  Definition finalb (t : types) (b : tident) : bool :=
    match lookup b t with
    | Some ty => match plain_ref (m_variant ty) with Some c => negb (is_some (lookup c t)) | None => true end
    | None => true
    end.
  Lemma finalb_iff t b : finalb t b = true <-> terminal t b.
  Proof.
    unfold finalb, terminal. split.
    - intros H c S. apply step_iff in S. destruct S as (ty & L & P). rewrite L, P in H. destruct (lookup c t); [discriminate|reflexivity].
    - intros H. destruct (lookup b t) as [ty|] eqn:L; [|reflexivity].
      destruct (plain_ref (m_variant ty)) as [c|] eqn:P; [|reflexivity]. rewrite H; [reflexivity|].
      apply step_iff. eauto.
  Qed.
  Definition crooked (t : types) (i : tident) : bool :=
    negb (finalb t i) &&
    match lookup i t with
    | Some ty => match plain_ref (m_variant ty) with
                 | Some c => negb (is_left (tident_eq_dec c (resolved_or_self t i)))
                 | None => false
                 end
    | None => false
    end.

  Lemma final_mono b : finalb ts' b = true -> finalb ts b = true.
  Proof.
    intros H. apply finalb_iff in H. apply finalb_iff. destruct (lookup b idents) as [r|] eqn:Q.
    - destruct (replaced _ _ Q) as (_ & f & _ & _ & _ & _ & (_ & P & _) & _ & _ & S).
      specialize (H _ S). rewrite replace_present in H. contradiction.
    - intros c S. apply replace_present. apply H. apply same_step; assumption.
  Qed.

  Lemma filter_length_le {A} (f g : A -> bool) l : (forall y, In y l -> f y = true -> g y = true) ->
    length (filter f l) <= length (filter g l).
  Proof.
    intros H. induction l as [|z l IH]; cbn; [lia|].
    assert (IH' : length (filter f l) <= length (filter g l)) by (apply IH; intros; apply H; [right|]; assumption).
    destruct (f z) eqn:E; [rewrite (H z) by (auto; left; reflexivity); cbn; lia|]. destruct (g z); cbn; lia.
  Qed.

  Lemma present_key i ty : lookup i ts = Some ty -> In i (map fst ts).
  Proof. intros H. apply lookup_in in H. apply (in_map fst) in H. exact H. Qed.

  Lemma round_measure : idents <> [] ->
    let keys := map fst ts in
    length (filter (finalb ts') keys) < length (filter (finalb ts) keys) \/
    (length (filter (finalb ts') keys) <= length (filter (finalb ts) keys) /\
     length (filter (crooked ts') keys) < length (filter (crooked ts) keys)).
  Proof.
    intros NE keys.
    destruct (existsb (fun p => finalb ts (fst p)) idents) eqn:X.
    - left. apply existsb_exists in X. destruct X as ([i r0] & I & F). cbn in F.
      assert (H : exists r, lookup i idents = Some r) by (apply lookup_some; apply (in_map fst) in I; exact I).
      destruct H as (r & H). destruct (replaced _ _ H) as (ti & f & tf & Li & _ & _ & (_ & P & _) & _ & _ & S).
      apply filter_length_lt with (x := i); [intros y _; apply final_mono|eapply present_key; eassumption| |exact F].
      destruct (finalb ts' i) eqn:Z; [|reflexivity]. apply finalb_iff in Z. specialize (Z _ S).
      rewrite replace_present in Z. contradiction.
    - right. split; [apply filter_length_le; intros y _; apply final_mono|].
      assert (NF : forall i r, lookup i idents = Some r -> finalb ts i = false).
      { intros i r H. apply lookup_in in H. destruct (finalb ts i) eqn:Z; [|reflexivity].
        assert (existsb (fun p => finalb ts (fst p)) idents = true) by (apply existsb_exists; exists (i, r); auto). congruence. }
      assert (CI : forall b, finalb ts b = true -> canon b = b).
      { intros b F. unfold canon. destruct (lookup b idents) as [r|] eqn:H; [|reflexivity]. rewrite (NF _ _ H) in F. discriminate. }
      assert (RS : forall i, lookup i ts <> None -> resolved_or_self ts' i = resolved_or_self ts i).
      { intros i P. rewrite round_ros. destruct (present_ends ts i NL P) as (b & E). rewrite (ros_ends _ _ _ E).
        apply CI. apply finalb_iff. apply E. }
      assert (C' : forall i r, lookup i idents = Some r -> crooked ts i = true /\ crooked ts' i = false).
      { intros i r H. destruct (replaced _ _ H) as (ti & f & tf & Li & Lf & _ & Ef & Q & NR & S).
        pose proof (NF _ _ H) as F. unfold crooked. rewrite F, Li. cbn.
        assert (ST : exists y, plain_step ts i y /\ lookup y ts <> None).
        { unfold finalb in F. rewrite Li in F. destruct (plain_ref (m_variant ti)) as [y|] eqn:P; [|discriminate].
          exists y. split; [apply step_iff; eauto|]. destruct (lookup y ts); [congruence|discriminate]. }
        destruct ST as (y & Sy & Py). destruct (present_ends ts y NL Py) as (b & Eb).
        pose proof (replaced_alias _ _ _ _ Sy Eb H) as ->.
        assert (Ei : ends ts i b) by (destruct Eb as (A & B & C); split; [econstructor; eassumption|auto]).
        split.
        - rewrite (ros_ends _ _ _ Ei). destruct Sy as (ti' & Li' & V). rewrite Li in Li'. injection Li' as <-.
          rewrite V in *. cbn in *. destruct (tident_eq_dec y b) as [->|]; [discriminate NR|reflexivity].
        - apply andb_false_iff. right. destruct S as (t' & L' & V'). rewrite L', V'. cbn.
          rewrite RS by congruence. rewrite (ros_ends _ _ _ Ei). destruct (tident_eq_dec b b); [reflexivity|congruence]. }
      assert (KE : exists i r, lookup i idents = Some r).
      { destruct idents as [|[i r] l]; [congruence|]. exists i, r. cbn. destruct (tident_eq_dec i i); [reflexivity|congruence]. }
      destruct KE as (i & r & H). destruct (C' _ _ H) as (K1 & K2).
      destruct (replaced _ _ H) as (ti & _ & _ & Li & _).
      apply filter_length_lt with (x := i); [|eapply present_key; eassumption|exact K2|exact K1].
      intros j _ J. destruct (lookup j idents) as [r'|] eqn:H'; [destruct (C' _ _ H') as (K & K'); congruence|].
      unfold crooked in *. apply andb_true_iff in J. destruct J as [J1 J2]. rewrite (replace_same _ H') in J2.
      destruct (lookup j ts) as [tj|] eqn:Lj; [|discriminate]. destruct (plain_ref (m_variant tj)) as [c|] eqn:P; [|discriminate].
      rewrite RS in J2 by congruence. rewrite J2. apply andb_true_iff. split; [|reflexivity].
      apply negb_true_iff. apply negb_true_iff in J1. destruct (finalb ts j) eqn:Z; [|reflexivity].
      apply finalb_iff in Z. apply (same_terminal _ H') in Z. apply finalb_iff in Z. congruence.
  Qed.
End Round.

(** ** The loop *)

Definition measure (ts : types) : nat :=
  length (filter (finalb ts) (map fst ts)) * S (length ts) + length (filter (crooked ts) (map fst ts)).

Lemma measure_bound ts : measure ts < S (length ts) * S (length ts).
Proof.
  unfold measure. pose proof (filter_len (finalb ts) (map fst ts)) as A. pose proof (filter_len (crooked ts) (map fst ts)) as B.
  rewrite map_length in A, B. nia.
Qed.

Lemma stands_refl ts : stands_for ts ts.
Proof.
  split; [reflexivity|]. intros i b ty H. exists b, ty. split; [exact H|]. split; [|left; reflexivity].
  apply resolved_spec in H. apply H.
Qed.

Lemma stands_round ts0 ts seen idents : NoDup (map fst ts) -> no_loops ts -> scan_inv ts ts seen idents ->
  stands_for ts0 ts -> stands_for ts0 (dup_replace idents ts).
Proof.
  intros ND NL INV [K S]. split; [rewrite (replace_keys ts idents); exact K|].
  intros i b ty H. destruct (S _ _ _ H) as (b1 & ty1 & R1 & L1 & C1).
  destruct (round_resolved ts ND NL seen idents INV _ _ _ R1) as (b2 & ty2 & R2 & R2' & C2).
  exists b2, ty2. split; [exact R2|].
  assert (Lb : lookup b ts0 = Some ty) by (apply resolved_spec in H; apply H).
  assert (L2 : lookup b2 ts0 = Some ty2).
  { assert (P : lookup b2 ts0 <> None).
    { assert (In b2 (map fst ts)). { apply resolved_spec in R2'. destruct R2' as (_ & L & _). apply lookup_in in L. apply (in_map fst) in L. exact L. }
      rewrite K in H0. apply lookup_some in H0. destruct H0 as (v & ->). discriminate. }
    destruct (get_resolved ts0 b2) as [[b3 ty3]|] eqn:E; [|apply resolved_none in E; contradiction].
    destruct (S _ _ _ E) as (b4 & ty4 & R4 & L4 & _). rewrite R2' in R4. injection R4 as <- <-. exact L4. }
  split; [exact L2|].
  destruct C2 as [[-> ->]|C2].
  - destruct C1 as [->|C1]; [left; reflexivity|right]. apply (round_eq ts ND NL seen idents INV), C1.
  - right. destruct C1 as [->|C1].
    + assert (ty1 = ty) by congruence. subst ty1. apply (round_eq ts ND NL seen idents INV), C2.
    + eapply type_eq_trans; apply (round_eq ts ND NL seen idents INV); eassumption.
Qed.

Lemma scan_no_dups ts : NoDup (map fst ts) -> no_loops ts -> dup_scan ts ts [] [] = [] -> no_duplicates ts.
Proof.
  intros ND NL E i j ti tj Li Lj D Q. destruct (scan_all ts ND) as (seen & INV). rewrite E in INV.
  assert (IsRef : forall a b, type_eq ts a b = true -> (exists x, m_variant b = VReference x) -> exists x, m_variant a = VReference x).
  { intros a b X (x & Hb). apply type_eq_spec in X. destruct X as [[_ X] _]. rewrite Hb in X. cbn in X.
    destruct (m_variant a); try discriminate X. eauto. }
  destruct (si_rest _ _ _ _ INV i ti (lookup_in _ _ _ Li) eq_refl) as [(ri & Si & Ri)|H]; [|exact H].
  destruct (si_rest _ _ _ _ INV j tj (lookup_in _ _ _ Lj) eq_refl) as [(rj & Sj & Rj)|H]; [|exact (IsRef _ _ Q H)].
  destruct (ForallOrdPairs_In (si_apart _ _ _ _ INV) _ _ Si Sj) as [X|[X|X]].
  - injection X as Et Er. subst tj rj. destruct (m_variant ti) as [| | |x| | | | | | |] eqn:V; eauto; exfalso; apply D.
    all: assert (F : forall k, lookup k ts = Some ti -> get_resolved_ident ts k = Some ri -> k = ri)
      by (intros k Lk Rk; unfold get_resolved_ident in Rk;
          rewrite (resolved_complete ts k k ti) in Rk;
          [cbn in Rk; congruence|constructor|exact Lk|intros c (t & Lt & Vt); rewrite Lk in Lt; injection Lt as <-; congruence]).
    all: rewrite (F i Li Ri), (F j Lj Rj); reflexivity.
  - cbn in X. rewrite (type_eq_sym _ _ _ Q) in X. discriminate.
  - cbn in X. rewrite Q in X. discriminate.
Qed.

Lemma loop_spec fuel : forall ts0 ts, measure ts < fuel -> NoDup (map fst ts) -> no_loops ts -> stands_for ts0 ts ->
  exists ts', remove_duplicates fuel ts = Some ts' /\ stands_for ts0 ts' /\ no_loops ts' /\ no_duplicates ts'.
Proof.
  induction fuel as [|fuel IH]; intros ts0 ts M ND NL S; [lia|]. cbn.
  destruct (scan_all ts ND) as (seen & INV). pose proof (scan_no_dups ts ND NL) as NDup.
  destruct (dup_scan ts ts [] []) as [|p l] eqn:E; [exists ts; auto|].
  apply IH.
  - pose proof (round_measure ts ND NL seen (p :: l) INV) as RM. cbv zeta in RM.
    assert (NE : p :: l <> []) by discriminate. specialize (RM NE). unfold measure in *.
    rewrite (replace_keys ts (p :: l)). unfold dup_replace at 2. rewrite map_length.
    pose proof (filter_len (crooked (dup_replace (p :: l) ts)) (map fst ts)) as B. rewrite map_length in B.
    destruct RM as [A|[A1 A2]]; nia.
  - rewrite (replace_keys ts (p :: l)). exact ND.
  - exact (round_no_loops ts ND NL seen (p :: l) INV).
  - exact (stands_round ts0 ts seen (p :: l) ND NL INV S).
Qed.

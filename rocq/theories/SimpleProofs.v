(** Reading the values of simple types. *)
From Verif Require Import SimpleModel SimpleSpec SimpleTextProofs FacetProofs.

Section SdefInd.
  Variable P : sdef -> Prop.
  Hypothesis HB : forall b l, P (SBuiltin b l).
  Hypothesis HR : forall i base fs, P base -> P (SRestriction i base fs).
  Hypothesis HL : forall item, P item -> P (SList item).
  Hypothesis HU : forall ms, Forall P ms -> P (SUnion ms).
  Fixpoint sdef_nested (d : sdef) : P d :=
    match d with
    | SBuiltin b l => HB b l
    | SRestriction i base fs => HR i base fs (sdef_nested base)
    | SList item => HL item (sdef_nested item)
    | SUnion ms => HU ms ((fix all (l : list sdef) : Forall P l :=
        match l with [] => Forall_nil P | d :: l' => Forall_cons d (sdef_nested d) (all l') end) ms)
    end.
End SdefInd.

(** ** The interpreter *)

Definition foldset (fs : list facet) (c : constrains) : constrains := fold_left (fun c f => set_facet f c) fs c.
Definition initial (l : bool) : constrains :=
  if l then Constrains Unbounded Unbounded None None [] (Some 0) None WPreserve else no_constrains.
Fixpoint insert_names (fs : list facet) (vs : list str) : list str :=
  match fs with
  | [] => vs
  | FEnumeration e :: fs' => insert_names fs' (insert_variant (str_trim e) vs)
  | _ :: fs' => insert_names fs' vs
  end.

Lemma in_insert v e vs : In v (insert_variant e vs) <-> In v vs \/ v = e.
Proof.
  unfold insert_variant. destruct (in_dec str_eq_dec e vs) as [H|H].
  - split; [auto|]. intros [G|E]; [exact G|subst v; exact H].
  - rewrite in_app_iff. cbn. split; intros [G|G]; auto. destruct G as [->|[]]. right. reflexivity.
Qed.
Lemma in_names fs : forall vs v, In v (insert_names fs vs) <-> In v vs \/ exists e, In (FEnumeration e) fs /\ v = str_trim e.
Proof.
  induction fs as [|f fs IH]; intros vs v; cbn [insert_names].
  - split; [auto|]. intros [H|(e & [] & _)]. exact H.
  - assert (HX : In v vs \/ (exists e, In (FEnumeration e) fs /\ v = str_trim e) ->
       In v vs \/ exists e, In (FEnumeration e) (f :: fs) /\ v = str_trim e).
    { intros [H|(e & H & E)]; [auto|]. right. exists e. split; [right; exact H|exact E]. }
    destruct f; try (rewrite IH; split; [exact HX|]; intros [H|(e & [H|H] & E)]; [auto|discriminate H|right; exists e; auto]).
    rewrite IH, in_insert. split.
    + intros [[H|H]|(e & H & E)].
      * auto.
      * right. exists v0. split; [left; reflexivity|exact H].
      * right. exists e. split; [right; exact H|exact E].
    + intros [H|(e & [H|H] & E)]; [auto| |right; exists e; auto]. injection H as ->. auto.
Qed.

Lemma run_enum fs : forall c vs fx,
  apply_facets fs (MEnum c vs, fx) = Ok (MEnum (foldset fs c) (insert_names fs vs), fx).
Proof.
  induction fs as [|f fs IH]; intros c vs fx; [reflexivity|]. cbn [apply_facets].
  destruct f; cbn [apply_facet apply_simple_type_facet apply_enumeration]; rewrite IH; try reflexivity.
  destruct c. reflexivity.
Qed.

Lemma run_simple fs : forall ty l c fx, exists fx',
  apply_facets fs (MSimple ty l c, fx) =
  Ok (if existsb is_enumeration fs then MEnum (foldset fs c) (insert_names fs []) else MSimple ty l (foldset fs c), fx').
Proof.
  induction fs as [|f fs IH]; intros ty l c fx; [exists fx; reflexivity|]. cbn [apply_facets].
  destruct f; cbn [apply_facet apply_simple_type_facet apply_enumeration existsb is_enumeration orb];
    try (match goal with |- context [apply_facets fs (MSimple ty l (set_facet ?f c), ?b)] =>
      destruct (IH ty l (set_facet f c) b) as (fx' & E); exists fx'; rewrite E; reflexivity end).
  rewrite run_enum. exists true. destruct c. reflexivity.
Qed.

Lemma run_ref fs ty l fx : (fx = true -> existsb is_enumeration fs = false) -> exists m' fx',
  apply_facets fs (MRef ty l, fx) = Ok (m', fx') /\
  if existsb is_enumeration fs
  then exists c, (c = no_constrains \/ c = initial l) /\ m' = MEnum (foldset fs c) (insert_names fs [])
  else m' = MSimple ty l (foldset fs (initial l)) \/ m' = MRef ty l /\ fs = [].
Proof.
  intros H. destruct fs as [|f fs].
  - exists (MRef ty l), fx. split; [reflexivity|]. right. auto.
  - destruct f; cbn [apply_facets apply_facet apply_simple_type_facet apply_enumeration existsb is_enumeration orb] in *;
      try (match goal with |- context [set_facet ?f _] => pose (g := f) | |- context [foldset (?f :: fs) _] => pose (g := f) end;
           match goal with |- context [apply_facets fs (MSimple ty l _, ?b)] =>
             destruct (run_simple fs ty l (set_facet g (initial l)) b) as (fx' & E) end;
           exists (if existsb is_enumeration fs then MEnum (foldset fs (set_facet g (initial l))) (insert_names fs [])
                   else MSimple ty l (foldset fs (set_facet g (initial l)))), fx'; split; [exact E|];
           destruct (existsb is_enumeration fs); [exists (initial l); split; [right; reflexivity|reflexivity]|left; reflexivity]).
    destruct fx; [discriminate (H eq_refl)|]. rewrite run_enum.
    eexists. exists true. split; [reflexivity|]. exists no_constrains. split; [left; reflexivity|]. reflexivity.
Qed.

Lemma run_union_enum fs c ms : (forall f, In f fs -> is_enumeration f = true) -> existsb is_enumeration fs = true ->
  apply_facets fs (MUnion c ms, false) = Ok (MEnum (foldset fs no_constrains) (insert_names fs []), true).
Proof.
  intros H HE. destruct fs as [|f fs]; [discriminate|]. pose proof (H f (or_introl eq_refl)) as Hf.
  destruct f; try discriminate. cbn [apply_facets apply_facet apply_enumeration]. rewrite run_enum. reflexivity.
Qed.
Lemma run_union fs : forall c ms fx, existsb is_enumeration fs = false ->
  apply_facets fs (MUnion c ms, fx) = Ok (MUnion (foldset fs c) ms, fx).
Proof.
  induction fs as [|f fs IH]; intros c ms fx H; [reflexivity|]. cbn [existsb] in H. apply orb_false_iff in H as [Hf H].
  destruct f; try discriminate Hf; cbn [apply_facets apply_facet apply_simple_type_facet]; rewrite IH by exact H; reflexivity.
Qed.

Lemma fold_patterns fs : forall c, c_patterns (foldset fs c) =
  c_patterns c ++ flat_map (fun f => match f with FPattern p => [p] | _ => [] end) fs.
Proof.
  induction fs as [|f fs IH]; intros c; [cbn; rewrite app_nil_r; reflexivity|].
  unfold foldset in *. cbn [fold_left flat_map]. rewrite IH. destruct c, f; cbn; try reflexivity. rewrite <- app_assoc. reflexivity.
Qed.
Lemma in_patterns p fs : In p (flat_map (fun f => match f with FPattern p => [p] | _ => [] end) fs) <-> In (FPattern p) fs.
Proof.
  rewrite in_flat_map. split.
  - intros (f & H & G). destruct f; try destruct G. subst; exact H. destruct H0.
  - intros H. exists (FPattern p). split; [exact H|left; reflexivity].
Qed.

Lemma fold_white fs : forall c o w0, match o with Some w => w | None => w0 end = c_white c ->
  match fold_left (fun o f => match f with FWhiteSpace w => Some w | _ => o end) fs o with Some w => w | None => w0 end = c_white (foldset fs c).
Proof.
  induction fs as [|f fs IH]; intros c o w0 H; [exact H|]. unfold foldset in *. cbn [fold_left]. apply IH.
  destruct f, c; cbn in *; try exact H. reflexivity.
Qed.
Lemma fold_white_facet fs c : c_white (foldset fs c) = match white_facet fs with Some w => w | None => c_white c end.
Proof. unfold white_facet. symmetry. apply fold_white. reflexivity. Qed.

Section Read.
  Context {atom : Type}.
  Variable parse : nat -> str -> option atom.
  Variable builtin_white : nat -> white.
  Variable lt le : atom -> atom -> bool.
  Variable size chars : atom -> nat.
  Variable matches : str -> str -> bool.
  Hypothesis Hsize : forall b s a, clear_text false s -> parse b s = Some a -> size a = chars a.

  Notation value := (value atom).
  Notation xvalue := (xvalue atom).
  Notation denotes := (denotes parse builtin_white lt le chars matches).
  Notation holds := (holds lt le chars).
  Notation facets_hold := (facets_hold lt le chars matches).
  Notation slot_holds := (slot_holds parse builtin_white lt le chars matches).
  Notation plain := (plain parse builtin_white lt le chars matches).
  Notation plain_step := (plain_step parse builtin_white lt le chars matches).
  Notation stands := (stands parse builtin_white lt le chars matches).
  Notation read := (read parse lt le size matches).
  Notation generate := (generate parse).
  Notation make_bound := (make_bound parse).
  Notation compare_with := (compare_with parse).
  Notation validate_value := (validate_value parse lt le size).
  Notation validation := (validation matches).

  (** ** Slots *)

  Definition code_slot (k : slot) (base : smeta) (c : constrains) (t : str) (v : value) : Prop :=
    match k with
    | SlStart =>
        match c_start c with
        | Unbounded => True
        | Included l => compare_with base l v lt = false
        | Excluded l => compare_with base l v le = false
        end
    | SlEnd =>
        match c_end c with
        | Unbounded => True
        | Included l => compare_with base l v (fun a y => lt y a) = false
        | Excluded l => compare_with base l v (fun a y => le y a) = false
        end
    | SlTotal => match c_total c with None => True | Some n => total_digits t n = Ok tt end
    | SlFraction => match c_fraction c with None => True | Some n => fraction_digits t n = Ok tt end
    | SlMin => match c_min c, len size v with Some k, Some n => Nat.ltb n k = false | _, _ => True end
    | SlMax => match c_max c, len size v with Some k, Some n => Nat.ltb k n = false | _, _ => True end
    end.
  Definition code_patterns (c : constrains) (t : str) : Prop :=
    c_patterns c = [] \/ existsb (fun p => matches p t) (c_patterns c) = true.

  Lemma validation_ok dg c t s v base : clear_text dg t ->
    (validation c t = Ok s <-> s = t /\ code_patterns c t /\ code_slot SlTotal base c t v /\ code_slot SlFraction base c t v).
  Proof.
    intros HC. unfold SimpleModel.validation. rewrite (clear_normalized _ dg t HC).
    unfold validate_str, validate_digits, code_patterns, code_slot.
    destruct (c_patterns c) as [|p ps] eqn:EP; [|destruct (existsb (fun p => matches p t) (p :: ps)) eqn:EE].
    3: { split; [discriminate|]. intros (_ & [E|E] & _); discriminate. }
    all: destruct (c_total c) as [n|]; [destruct (total_digits t n) as [[]| |] eqn:ET|];
      try (split; [discriminate|intros (_ & _ & E & _); discriminate]);
      (destruct (c_fraction c) as [n'|]; [destruct (fraction_digits t n') as [[]| |] eqn:EF|];
       try (split; [discriminate|intros (_ & _ & _ & E); discriminate]));
      (split; [intros E; injection E as <-; repeat split; auto|intros (-> & _); reflexivity]).
  Qed.

  Lemma value_ok base c v t : validate_value base c v = Ok tt <->
    code_slot SlStart base c t v /\ code_slot SlEnd base c t v /\ code_slot SlMin base c t v /\ code_slot SlMax base c t v.
  Proof.
    unfold SimpleModel.validate_value, validate_range, validate_length, code_slot, check.
    destruct (c_start c) as [|l|l]; [|destruct (compare_with base l v lt)|destruct (compare_with base l v le)];
      try (split; [discriminate|intros (E & _); discriminate]);
    (destruct (c_end c) as [|l'|l']; [|destruct (compare_with base l' v (fun a y => lt y a))|destruct (compare_with base l' v (fun a y => le y a))];
      try (split; [discriminate|intros (_ & E & _); discriminate]));
    (destruct (len size v) as [n|];
      [|destruct (c_min c), (c_max c); repeat split; auto]);
    (destruct (c_min c) as [k|]; [destruct (Nat.ltb n k); [split; [discriminate|intros (_ & _ & E & _); discriminate]|]|]);
    (destruct (c_max c) as [k'|]; [destruct (Nat.ltb k' n); [split; [discriminate|intros (_ & _ & _ & E); discriminate]|]|]);
    repeat split; auto.
  Qed.
  Lemma validate_tt base c v u : validate_value base c v = Ok u -> validate_value base c v = Ok tt.
  Proof. destruct u. auto. Qed.

  Lemma set_other k f base c t v : part k f = None -> code_slot k base (set_facet f c) t v = code_slot k base c t v.
  Proof. destruct k, f, c; cbn; intros H; try discriminate H; reflexivity. Qed.

  Definition fits (D : str -> xvalue -> Prop) (base : smeta) (t : str) (v : value) (x : xvalue) (f : facet) : Prop :=
    (forall l, is_bound f = Some l -> exists a y, v = VAtom a /\ x = XAtom a /\ make_bound base l = Some y /\
       (forall z, D l (XAtom z) <-> z = y) /\ le y a = negb (lt a y) /\ le a y = negb (lt y a)) /\
    (is_digits f = true -> canonical t) /\ f <> FTotalDigits 0.

  Lemma set_part k f g (D : str -> xvalue -> Prop) base c t v x : len size v = xlength chars x -> fits D base t v x f -> part k f = Some g ->
    (code_slot k base (set_facet f c) t v <-> holds D g t x).
  Proof.
    intros HL (HB & HD & HZ) HP.
    assert (Bnd : forall l, is_bound f = Some l -> exists a y, v = VAtom a /\ x = XAtom a /\
      (forall h, compare_with base l v h = h a y) /\
      (forall (h : atom -> atom -> bool), (forall b, x = XAtom b -> exists z, D l (XAtom z) /\ h z b = true) <-> h y a = true) /\
      le y a = negb (lt a y) /\ le a y = negb (lt y a)).
    { intros l Hl. destruct (HB l Hl) as (a & y & -> & -> & HM & HZ' & HO). exists a, y. split; [reflexivity|]. split; [reflexivity|].
      split; [intros h; cbn; rewrite HM; reflexivity|]. split; [|exact HO].
      intros h. split.
      - intros G. destruct (G a eq_refl) as (z & Dz & E). apply HZ' in Dz. subst z. exact E.
      - intros E b Eb. injection Eb as <-. exists y. split; [apply HZ'; reflexivity|exact E]. }
    destruct k, f; cbn in HP; try discriminate HP; injection HP as <-; destruct c; cbn.
    - destruct (Bnd _ eq_refl) as (a & y & _ & _ & HC & HH & H1 & H2). rewrite HC.
      rewrite (HH le), H1. destruct (lt a y); intuition discriminate.
    - destruct (Bnd _ eq_refl) as (a & y & _ & _ & HC & HH & H1 & H2). rewrite HC.
      rewrite (HH lt), H2. destruct (lt y a); intuition discriminate.
    - destruct (Bnd _ eq_refl) as (a & y & _ & _ & HC & HH & H1 & H2). rewrite HC.
      rewrite (HH (fun z b => le b z)), H2. destruct (lt y a); intuition discriminate.
    - destruct (Bnd _ eq_refl) as (a & y & _ & _ & HC & HH & H1 & H2). rewrite HC.
      rewrite (HH (fun z b => lt b z)), H1. destruct (lt a y); intuition discriminate.
    - apply total_exact; [apply HD; reflexivity|]. intros ->. apply HZ. reflexivity.
    - apply fraction_exact, HD. reflexivity.
    - rewrite HL. destruct (xlength chars x) as [m|].
      + rewrite Nat.ltb_ge. split; [intros G k E; injection E as <-; exact G|intros G; apply G; reflexivity].
      + split; [intros _ k E; discriminate E|trivial].
    - rewrite HL. destruct (xlength chars x) as [m|].
      + rewrite Nat.ltb_ge. split; [intros G k E; injection E as <-; exact G|intros G; apply G; reflexivity].
      + split; [intros _ k E; discriminate E|trivial].
    - rewrite HL. destruct (xlength chars x) as [m|].
      + rewrite Nat.ltb_ge. split; [intros G k E; injection E as <-; exact G|intros G; apply G; reflexivity].
      + split; [intros _ k E; discriminate E|trivial].
    - rewrite HL. destruct (xlength chars x) as [m|].
      + rewrite Nat.ltb_ge. split; [intros G k E; injection E as <-; exact G|intros G; apply G; reflexivity].
      + split; [intros _ k E; discriminate E|trivial].
  Qed.

  Lemma fold_other k fs base t v : forall c, (forall f, In f fs -> part k f = None) ->
    code_slot k base (foldset fs c) t v = code_slot k base c t v.
  Proof.
    induction fs as [|f fs IH]; intros c H; [reflexivity|]. unfold foldset in *. cbn [fold_left].
    rewrite IH by (intros; apply H; right; assumption). apply set_other, H. left. reflexivity.
  Qed.

  Lemma set_dec k fs : (exists f, In f fs /\ part k f <> None) \/ (forall f, In f fs -> part k f = None).
  Proof.
    induction fs as [|f fs [(f' & H & N)|IH]].
    - right. intros f [].
    - left. exists f'. split; [right; exact H|exact N].
    - destruct (part k f) as [g|] eqn:E.
      + left. exists f. split; [left; reflexivity|congruence].
      + right. intros f' [<-|H]; [exact E|apply IH, H].
  Qed.

  Lemma fold_slot k fs (D : str -> xvalue -> Prop) base t v x c :
    len size v = xlength chars x -> (forall f, In f fs -> part k f <> None -> fits D base t v x f) ->
    (forall i j f g, nth_error fs i = Some f -> nth_error fs j = Some g -> part k f <> None -> part k g <> None -> i = j) ->
    (exists f, In f fs /\ part k f <> None) ->
    (code_slot k base (foldset fs c) t v <-> forall f g, In f fs -> part k f = Some g -> holds D g t x).
  Proof.
    intros HL HF HU (f & Hf & Hp). destruct (in_split _ _ Hf) as (l1 & l2 & ->).
    assert (N : forall f', In f' l1 \/ In f' l2 -> part k f' = None).
    { intros f' H. destruct (part k f') as [g'|] eqn:E; [exfalso|reflexivity].
      assert (HX : exists j, nth_error (l1 ++ f :: l2) j = Some f' /\ j <> length l1).
      { destruct H as [H|H]; apply In_nth_error in H as (j & Hj).
        - exists j. assert (j < length l1) by (apply nth_error_Some; congruence).
          rewrite nth_error_app1 by lia. split; [exact Hj|lia].
        - exists (S (length l1 + j)). rewrite nth_error_app2 by lia.
          replace (S (length l1 + j) - length l1) with (S j) by lia. split; [exact Hj|lia]. }
      destruct HX as (j & Hj & NE). apply NE.
      apply (HU j (length l1) f' f Hj); [rewrite nth_error_app2, Nat.sub_diag by lia; reflexivity|congruence|exact Hp]. }
    unfold foldset. rewrite fold_left_app. cbn [fold_left].
    change (fold_left (fun c f => set_facet f c) l2 ?c0) with (foldset l2 c0).
    rewrite fold_other by (intros f' H; apply N; right; exact H).
    destruct (part k f) as [g|] eqn:E; [|elim Hp; reflexivity].
    rewrite (set_part k f g D base _ t v x HL (HF f Hf ltac:(congruence)) E). split.
    - intros G f' g' H E'. apply in_app_or in H as [H|[->|H]].
      + rewrite N in E' by (left; exact H). discriminate.
      + congruence.
      + rewrite N in E' by (right; exact H). discriminate.
    - intros G. apply (G f g); [exact Hf|exact E].
  Qed.

  Lemma holds_parts D f t x : holds D f t x <-> forall k g, part k f = Some g -> holds D g t x.
  Proof.
    split.
    - intros H k g E. destruct k, f; cbn in E; try discriminate E; injection E as <-; try exact H;
      cbn in *; intros q Eq; specialize (H q Eq); lia.
    - intros H. destruct f; try exact I.
      + cbn. intros k Ek. pose proof (H SlMin _ eq_refl k Ek) as H1. pose proof (H SlMax _ eq_refl k Ek) as H2. cbn in *. lia.
      + apply (H SlMin _ eq_refl).
      + apply (H SlMax _ eq_refl).
      + apply (H SlStart _ eq_refl).
      + apply (H SlStart _ eq_refl).
      + apply (H SlEnd _ eq_refl).
      + apply (H SlEnd _ eq_refl).
      + apply (H SlTotal _ eq_refl).
      + apply (H SlFraction _ eq_refl).
  Qed.

  (** ** Derivations *)

  Fixpoint root (d : sdef) : sdef := match d with SRestriction _ base _ => root base | _ => d end.
  Fixpoint pats_hold (d : sdef) (t : str) : Prop :=
    match d with
    | SRestriction _ base fs => pats_hold base t /\ ((exists p, In (FPattern p) fs) -> exists p, In (FPattern p) fs /\ matches p t = true)
    | _ => True
    end.

  Lemma digits_base i base fs : has_digits base = true -> has_digits (SRestriction i base fs) = true.
  Proof. cbn. intros ->. apply orb_true_r. Qed.
  Lemma digits_root d : has_digits (root d) = true -> has_digits d = true.
  Proof. induction d; cbn [root]; auto. intros H. apply digits_base, IHd, H. Qed.
  Lemma kind_root d : kind (root d) = kind d.
  Proof. induction d; cbn [root kind]; auto. Qed.

  Lemma denotes_step i base fs t x dg : clear_text dg t ->
    (denotes (SRestriction i base fs) t x <-> denotes base t x /\ facets_hold (denotes base) fs t x).
  Proof.
    intros HC. cbn [SimpleSpec.denotes]. split.
    - intros (s & HN & H). apply (clear_normalizes _ dg t s HC) in HN. subst s. exact H.
    - intros H. exists t. split; [apply (clear_normalizes _ dg t t HC); reflexivity|exact H].
  Qed.

  Lemma no_enumeration fs : existsb is_enumeration fs = false -> ~ exists e, In (FEnumeration e) fs.
  Proof.
    intros H (e & He). assert (E : existsb is_enumeration fs = true) by (apply existsb_exists; exists (FEnumeration e); auto).
    congruence.
  Qed.
  Lemma no_pattern fs : existsb is_pattern fs = false -> ~ exists p, In (FPattern p) fs.
  Proof.
    intros H (e & He). assert (E : existsb is_pattern fs = true) by (apply existsb_exists; exists (FPattern e); auto).
    congruence.
  Qed.

  Lemma denotes_root d t x : enumerated d = false -> clear_text (has_digits d) t ->
    (denotes d t x <-> denotes (root d) t x /\ pats_hold d t /\ forall k, slot_holds k d t x).
  Proof.
    induction d as [b l|i base fs IH|item _|ms _] using sdef_nested; intros HE HC;
      try (split; [intros H; repeat split; exact H|intros (H & _); exact H]).
    cbn [enumerated] in HE. apply orb_false_iff in HE as [HE HB].
    rewrite (denotes_step i base fs t x _ HC). cbn [root pats_hold SimpleSpec.slot_holds].
    rewrite (IH HB) by (apply (clear_mono (has_digits (SRestriction i base fs))); [apply digits_base|exact HC]).
    unfold SimpleSpec.facets_hold. split.
    - intros ((H1 & H2 & H3) & H4 & H5 & _). split; [exact H1|]. split; [split; [exact H2|exact H5]|].
      intros k. split; [apply H3|]. intros f g Hf Hg. apply (proj1 (holds_parts _ f t x) (H4 f Hf) k g Hg).
    - intros (H1 & (H2 & H3) & H4). split; [split; [exact H1|split; [exact H2|intros k; apply (H4 k)]]|].
      split; [|split; [exact H3|]].
      + intros f Hf. apply holds_parts. intros k g Hg. apply (proj2 (H4 k) f g Hf Hg).
      + intros G. elim (no_enumeration fs HE G).
  Qed.

  Definition rel (kd : skind) (t : str) (v : value) (x : xvalue) : Prop :=
    match kd with
    | KAtom b => exists a, v = VAtom a /\ x = XAtom a /\ parse b t = Some a
    | KList => exists vs xs, v = VList vs /\ x = XList xs /\ length vs = length xs
    | KUnion => exists i w y, v = VUnion i w /\ x = XUnion i y
    end.

  Definition inv (d : sdef) (base : smeta) (c : constrains) : Prop :=
    (patterned d = false -> c_patterns c = []) /\
    forall t v x, clear_text (has_digits d) t -> rel (kind d) t v x ->
      (forall k, code_slot k base c t v <-> slot_holds k d t x) /\ (code_patterns c t <-> pats_hold d t).

  Lemma rel_len kd t v x dg : clear_text dg t -> rel kd t v x -> len size v = xlength chars x.
  Proof.
    intros HC. destruct kd; cbn.
    - intros (a & -> & -> & E). cbn. f_equal. apply (Hsize b t a); [|exact E]. revert HC. apply clear_mono. discriminate.
    - intros (vs & xs & -> & -> & E). cbn. congruence.
    - intros (i & w & y & -> & ->). reflexivity.
  Qed.

  (** The texts of values of atomic types. *)
  Lemma atom_text b t x : clear_text false t -> (denotes (SBuiltin b false) t x <-> exists a, x = XAtom a /\ parse b t = Some a).
  Proof.
    intros HC. cbn. split.
    - intros (s & a & HN & HP & ->). apply (clear_normalizes _ false t s HC) in HN. subst s. exists a. auto.
    - intros (a & -> & HP). exists t, a. split; [apply (clear_normalizes _ false t t HC); reflexivity|]. auto.
  Qed.
  Lemma atom_root d b : kind d = KAtom b -> root d = SBuiltin b false.
  Proof.
    induction d as [b' l|i base fs IH|item _|ms _] using sdef_nested; cbn; try discriminate.
    - destruct l; [discriminate|]. intros E. injection E as ->. reflexivity.
    - exact IH.
  Qed.
  Lemma denotes_below d t x : clear_text (has_digits d) t -> denotes d t x -> denotes (root d) t x.
  Proof.
    induction d as [b l|i base fs IH|item _|ms _] using sdef_nested; try (intros _ H; exact H).
    intros HC H. apply (denotes_step _ _ _ _ _ _ HC) in H as [H _]. apply IH; [|exact H].
    revert HC. apply clear_mono, digits_base.
  Qed.
  Lemma denotes_pats d t x : clear_text (has_digits d) t -> denotes d t x -> pats_hold d t /\ forall k, slot_holds k d t x.
  Proof.
    induction d as [b l|i base fs IH|item _|ms _] using sdef_nested; try (intros _ _; split; [exact I|intros k; exact I]).
    intros HC H. apply (denotes_step _ _ _ _ _ _ HC) in H as [H (H1 & H2 & _)]. cbn [pats_hold SimpleSpec.slot_holds].
    destruct IH as [I1 I2]; [revert HC; apply clear_mono, digits_base|exact H|].
    split; [split; [exact I1|exact H2]|]. intros k. split; [apply I2|]. intros f g Hf Hg.
    apply (proj1 (holds_parts _ f t x) (H1 f Hf) k g Hg).
  Qed.

  Definition facets_fit (base : sdef) (kd : skind) (bm : smeta) (dg : bool) (fs : list facet) : Prop :=
    forall t v x f k, clear_text dg t -> rel kd t v x -> In f fs -> part k f <> None -> fits (denotes base) bm t v x f.

  Lemma step_fits i base fs bm : plain_step i base fs -> (forall b, kind base = KAtom b -> bm = MBuildIn b) ->
    facets_fit base (kind base) bm (has_digits (SRestriction i base fs)) fs.
  Proof.
    intros (_ & HK & _) HB t v x f k HC HR Hf Hp. 
    assert (HD : is_digits f = true -> has_digits (SRestriction i base fs) = true).
    { intros D. cbn. assert (E : existsb is_digits fs = true) by (apply existsb_exists; exists f; auto). rewrite E. reflexivity. }
    assert (HCan : is_digits f = true -> canonical t).
    { intros D. apply clear_canonical. rewrite (HD D) in HC. exact HC. }
    destruct (kind base) as [b| |] eqn:EK.
    - destruct HK as [HK HZ]. split; [|split; [exact HCan|intros ->; apply HZ, Hf]].
      intros l Hl. destruct (HK f l Hf Hl) as (HCm & HCl & y & Hy).
      destruct HR as (a & -> & -> & Ha).
      assert (HCl' : clear_text (has_digits base) l) by (revert HCl; apply clear_mono, digits_base).
      assert (HP : forall z, denotes base l (XAtom z) -> parse b l = Some z).
      { intros z Hz. apply denotes_below in Hz; [|exact HCl']. rewrite (atom_root base b EK) in Hz.
        apply atom_text in Hz as (a' & E & P'); [injection E as <-; exact P'|]. revert HCl. apply clear_mono. discriminate. }
      pose proof (HP y Hy) as Py. exists a, y. split; [reflexivity|]. split; [reflexivity|].
      rewrite (HB b eq_refl). split; [exact Py|]. split.
      + intros z. split; [intros Hz; apply HP in Hz; congruence|]. intros ->. exact Hy.
      + split; [apply (HCm l t); assumption|apply (HCm t l); assumption].
    - destruct (HK f Hf) as [H|H]; destruct f; try discriminate H; destruct k; try (elim Hp; reflexivity);
        (split; [intros l Hl; discriminate Hl|split; [intros D; discriminate D|discriminate]]).
    - destruct HK as [H|H]; specialize (H f Hf); destruct f; try discriminate H; destruct k; elim Hp; reflexivity.
  Qed.

  Lemma inv_step i base fs bm c : plain_step i base fs -> (forall b, kind base = KAtom b -> bm = MBuildIn b) ->
    inv base bm c -> inv (SRestriction i base fs) bm (foldset fs c).
  Proof.
    intros HP HB [HI1 HI2]. pose proof (step_fits i base fs bm HP HB) as HF. destruct HP as (HP1 & HK & HU & HA & _ & _ & _).
    split.
    - cbn [patterned]. intros H. apply orb_false_iff in H as [H1 H2]. rewrite fold_patterns, (HI1 H2). cbn.
      destruct (flat_map _ fs) as [|p ps] eqn:E; [reflexivity|]. exfalso. apply (no_pattern fs H1). exists p.
      apply in_patterns. rewrite E. left. reflexivity.
    - intros t v x HC HR. cbn [kind] in HR.
      assert (HC' : clear_text (has_digits base) t) by (revert HC; apply clear_mono, digits_base).
      destruct (HI2 t v x HC' HR) as [HS HPt]. split.
      + intros k. cbn [SimpleSpec.slot_holds]. destruct (set_dec k fs) as [HE|HN].
        * rewrite (fold_slot k fs (denotes base) bm t v x c).
          -- split; [|intros [_ H]; exact H]. intros H. split; [|exact H]. apply (HA k HE t x H).
          -- apply (rel_len _ _ _ _ _ HC HR).
          -- intros f Hf Hp. apply (HF t v x f k HC HR Hf Hp).
          -- intros a b f g Hi Hj Hf Hg. apply (HU a b f g k Hi Hj Hf Hg).
          -- exact HE.
        * rewrite fold_other by exact HN. rewrite HS. split; [|intros [H _]; exact H].
          intros H. split; [exact H|]. intros f g Hf Hg. rewrite (HN f Hf) in Hg. discriminate.
      + cbn [pats_hold]. rewrite <- HPt. unfold code_patterns. rewrite fold_patterns.
        destruct (existsb is_pattern fs) eqn:EP.
        * apply existsb_exists in EP as (f & Hf & Ef). destruct f; try discriminate Ef.
          assert (HX : exists p, In (FPattern p) fs) by (exists p; exact Hf).
          rewrite (HI1 (HP1 HX)). cbn [app]. split.
          -- intros [E|E]; [exfalso; assert (In p []) by (rewrite <- E; apply in_patterns, Hf); contradiction|].
             apply existsb_exists in E as (q & Hq & Eq). split; [left; reflexivity|]. intros _. exists q. split; [apply in_patterns, Hq|exact Eq].
          -- intros (_ & H). destruct (H HX) as (q & Hq & Eq). right. apply existsb_exists. exists q. split; [apply in_patterns, Hq|exact Eq].
        * assert (EN : flat_map (fun f => match f with FPattern p => [p] | _ => [] end) fs = []).
          { destruct (flat_map _ fs) as [|p ps] eqn:E; [reflexivity|]. exfalso. apply (no_pattern fs EP). exists p.
            apply in_patterns. rewrite E. left. reflexivity. }
          rewrite EN, app_nil_r. split; [|intros (H & _); exact H].
          intros H. split; [exact H|]. intros HX. elim (no_pattern fs EP HX).
  Qed.

  (** ** Reading the roots of derivations *)

  Definition good (d : sdef) (m : smeta) : Prop := forall t, clear_text (has_digits d) t ->
    (forall x, denotes d t x -> exists v, read m t = Ok v /\ stands d v x) /\
    (forall v, read m t = Ok v -> exists x, stands d v x /\ denotes d t x).

  Lemma good_atom b : good (SBuiltin b false) (MRef (MBuildIn b) false).
  Proof.
    intros t HC. split.
    - intros x H. apply (atom_text b t x HC) in H as (a & -> & HP). exists (VAtom a). cbn. rewrite HP. split; [reflexivity|].
      exists a. auto.
    - intros v H. cbn in H. destruct (parse b t) as [a|] eqn:E; [|discriminate]. injection H as <-.
      exists (XAtom a). split; [exists a; auto|]. apply (atom_text b t _ HC). exists a. auto.
  Qed.

  Lemma items_ok item (R : str -> xvalue -> Prop) (S : value -> xvalue -> Prop) l :
    Forall (fun t => (forall x, R t x -> exists v, item t = Ok v /\ S v x) /\ (forall v, item t = Ok v -> exists x, S v x /\ R t x)) l ->
    (forall xs, Forall2 R l xs -> exists vs, read_items item l = Ok vs /\ Forall2 S vs xs) /\
    (forall vs, read_items item l = Ok vs -> exists xs, Forall2 S vs xs /\ Forall2 R l xs).
  Proof.
    induction 1 as [|t l [H1 H2] _ [IH1 IH2]].
    - split.
      + intros xs H. inversion H. exists []. split; [reflexivity|constructor].
      + intros vs H. injection H as <-. exists []. split; constructor.
    - split.
      + intros xs H. inversion H as [|? x ? xs' Hx Hxs]; subst. destruct (H1 x Hx) as (v & Ev & Sv).
        destruct (IH1 xs' Hxs) as (vs & Evs & Svs). exists (v :: vs). cbn. rewrite Ev, Evs. split; [reflexivity|constructor; assumption].
      + intros vs H. cbn in H. destruct (item t) as [v| |] eqn:Ev; try discriminate.
        destruct (read_items item l) as [vs'| |] eqn:Evs; try discriminate. injection H as <-.
        destruct (H2 v eq_refl) as (x & Sx & Rx). destruct (IH2 vs' eq_refl) as (xs & Sxs & Rxs).
        exists (x :: xs). split; constructor; assumption.
  Qed.

  Lemma good_list_of (R : str -> xvalue -> Prop) (S : value -> xvalue -> Prop) mi dg t :
    (forall w, clear_word dg w -> (forall x, R w x -> exists v, read mi w = Ok v /\ S v x) /\ (forall v, read mi w = Ok v -> exists x, S v x /\ R w x)) ->
    clear_text dg t ->
    (forall l xs, words_of xml_ws l t -> Forall2 R l xs -> exists vs, read (MRef mi true) t = Ok (VList vs) /\ Forall2 S vs xs) /\
    (forall v, read (MRef mi true) t = Ok v -> exists vs l xs, v = VList vs /\ Forall2 S vs xs /\ words_of xml_ws l t /\ Forall2 R l xs).
  Proof.
    intros HI (l0 & -> & HF). pose proof (clear_ok _ _ HF) as HW.
    pose proof (ok_of_words xml_ws l0 eq_refl visible_xml HW) as HL.
    assert (HA : Forall (fun t => (forall x, R t x -> exists v, read mi t = Ok v /\ S v x) /\ (forall v, read mi t = Ok v -> exists x, S v x /\ R t x)) l0).
    { revert HF. apply Forall_impl. exact HI. }
    destruct (items_ok (read mi) R S l0 HA) as [H1 H2].
    cbn [SimpleModel.read]. rewrite (clear_items l0 HW). split.
    - intros l xs Hl HR. rewrite (words_unique _ _ _ _ Hl HL) in HR. destruct (H1 xs HR) as (vs & E & HS).
      exists vs. rewrite E. auto.
    - intros v H. destruct (read_items (read mi) l0) as [vs| |] eqn:E; try discriminate. injection H as <-.
      destruct (H2 vs eq_refl) as (xs & HS & HR). exists vs, l0, xs. auto.
  Qed.

  Lemma good_list item mi : good item mi -> good (SList item) (MRef mi true).
  Proof.
    intros HG t HC. destruct (good_list_of (denotes item) (stands item) mi (has_digits item) t) as [H1 H2].
    - intros w Hw. apply HG, word_text, Hw.
    - exact HC.
    - split.
      + intros x (l & xs & Hl & HF & ->). destruct (H1 l xs Hl HF) as (vs & E & HS). exists (VList vs). split; [exact E|].
        exists vs, xs. auto.
      + intros v Hv. destruct (H2 v Hv) as (vs & l & xs & -> & HS & HW & HR). exists (XList xs).
        split; [exists vs, xs; auto|]. exists l, xs. auto.
  Qed.

  Lemma good_builtin_list b : good (SBuiltin b true) (MRef (MBuildIn b) true).
  Proof.
    intros t HC. destruct (good_list_of (fun w x => exists a, parse b w = Some a /\ x = XAtom a) (fun v x => exists a, v = VAtom a /\ x = XAtom a)
      (MBuildIn b) false t) as [H1 H2].
    - intros w Hw. split.
      + intros x (a & HP & ->). exists (VAtom a). cbn. rewrite HP. split; [reflexivity|]. exists a. auto.
      + intros v Hv. cbn in Hv. destruct (parse b w) as [a|] eqn:E; [|discriminate]. injection Hv as <-.
        exists (XAtom a). split; exists a; auto.
    - exact HC.
    - split.
      + intros x (l & vs & Hl & HF & ->).
        assert (HF' : Forall2 (fun w x => exists a, parse b w = Some a /\ x = XAtom a) l (map XAtom vs)).
        { clear Hl. induction HF as [|w a l vs E _ IH]; cbn; constructor; [exists a; auto|exact IH]. }
        destruct (H1 _ _ Hl HF') as (ws & E & HS). exists (VList ws). split; [exact E|]. exists vs. split; [|reflexivity]. f_equal.
        clear -HS. remember (map XAtom vs) as xs eqn:Ex. revert vs Ex.
        induction HS as [|v x ws xs (a & -> & ->) _ IH]; intros [|y vs] Ex; try discriminate; [reflexivity|].
        injection Ex as <- ->. cbn. f_equal. apply IH. reflexivity.
      + intros v Hv. destruct (H2 v Hv) as (ws & l & xs & -> & HS & Hl & HR).
        assert (HX : exists vs, ws = map VAtom vs /\ xs = map XAtom vs /\ Forall2 (fun w a => parse b w = Some a) l vs).
        { clear -HS HR. revert l HR. induction HS as [|v x ws xs (a & -> & ->) _ IH]; intros l HR; inversion HR as [|w x' l' xs' Hw Hl]; subst.
          - exists []. repeat split. constructor.
          - destruct Hw as (a' & HP & E). injection E as <-. destruct (IH _ Hl) as (vs & -> & -> & HF).
            exists (a :: vs). repeat split. constructor; assumption. }
        destruct HX as (vs & -> & -> & HF). exists (XList (map XAtom vs)). split; [exists vs; auto|]. exists l, vs. auto.
  Qed.

  Lemma check_total s n : total_digits s n <> Panic /\ fraction_digits s n <> Panic.
  Proof. split; [unfold total_digits|unfold fraction_digits]; repeat match goal with |- context [match ?x with _ => _ end] => destruct x end; discriminate. Qed.
  Lemma validation_total c t : validation c t <> Panic.
  Proof.
    unfold SimpleModel.validation, validate_str, validate_digits.
    set (s := normalized (c_white c) t).
    assert (H : match c_total c with Some n => total_digits s n | None => Ok tt end <> Panic) by (destruct (c_total c); [apply check_total|discriminate]).
    assert (G : match c_fraction c with Some n => fraction_digits s n | None => Ok tt end <> Panic) by (destruct (c_fraction c); [apply check_total|discriminate]).
    destruct (match c_total c with Some n => total_digits s n | None => Ok tt end); [| |elim H; reflexivity];
    (destruct (match c_fraction c with Some n => fraction_digits s n | None => Ok tt end); [| |elim G; reflexivity]);
    (destruct (c_patterns c); [|destruct (existsb _ _)]); discriminate.
  Qed.
  Lemma value_total base c x : validate_value base c x <> Panic.
  Proof.
    unfold SimpleModel.validate_value, validate_range, validate_length, check.
    repeat match goal with
    | |- context [match ?x with _ => _ end] =>
        lazymatch x with context [match _ with _ => _ end] => fail | _ => destruct x end
    end; discriminate.
  Qed.
  Lemma items_total item l : (forall t, item t <> @Panic rerror value) -> read_items item l <> Panic.
  Proof.
    intros H. induction l as [|t l IH]; cbn; [discriminate|].
    destruct (item t) eqn:E; [|discriminate|elim (H t E)]. destruct (read_items item l); [discriminate|discriminate|elim IH; reflexivity].
  Qed.

  Fixpoint read_total (m : smeta) (t : str) {struct m} : read m t <> Panic.
  Proof.
    destruct m as [b|ty l|base l c|c vs|c ms]; cbn [SimpleModel.read].
    - destruct (parse b t); discriminate.
    - destruct l; [|apply read_total].
      pose proof (items_total (read ty) (list_items t) (read_total ty)) as H.
      destruct (read_items (read ty) (list_items t)); [discriminate|discriminate|elim H; reflexivity].
    - pose proof (validation_total c t) as HV. destruct (validation c t) as [s| |]; [|discriminate|elim HV; reflexivity].
      assert (H : (if l then match read_items (read base) (list_items t) with Ok vs => Ok (VList vs) | Err e => Err e | Panic => Panic end
               else read base s) <> Panic).
      { destruct l; [|apply read_total]. pose proof (items_total (read base) (list_items t) (read_total base)) as H.
        destruct (read_items (read base) (list_items t)); [discriminate|discriminate|elim H; reflexivity]. }
      destruct (if l then _ else _) as [x| |]; [|discriminate|elim H; reflexivity].
      pose proof (value_total base c x) as HX. destruct (validate_value base c x); [discriminate|discriminate|elim HX; reflexivity].
    - pose proof (validation_total c t) as HV. destruct (validation c t) as [s| |]; [|discriminate|elim HV; reflexivity].
      destruct (in_dec _ _ _); discriminate.
    - pose proof (validation_total c t) as HV. destruct (validation c t) as [s| |]; [|discriminate|elim HV; reflexivity].
      generalize 0. induction ms as [|m ms IH]; intros i; [discriminate|].
      pose proof (read_total m s) as Hm. destruct (read m s); [discriminate|first [apply IH|discriminate]|elim Hm; reflexivity].
  Qed.

  Lemma good_union ms mm : Forall2 good ms mm -> good (SUnion ms) (MUnion no_constrains mm).
  Proof.
    intros HF t HC.
    assert (HV : validation no_constrains t = Ok t) by (unfold SimpleModel.validation; reflexivity).
    cbn [SimpleModel.read SimpleSpec.denotes SimpleSpec.stands]. rewrite HV. clear HV.
    assert (HA : Forall (fun d => clear_text (has_digits d) t) ms).
    { clear HF. cbn [has_digits] in HC. induction ms as [|d ms IH]; constructor.
      - revert HC. apply clear_mono. intros ->. reflexivity.
      - apply IH. revert HC. apply clear_mono. intros ->. apply orb_true_r. }
    clear HC. generalize 0. induction HF as [|d m ms mm Hg HF IH]; intros i.
    - split; [intros x []|discriminate].
    - inversion_clear HA as [|? ? Hd HA']. destruct (Hg t Hd) as [G1 G2]. destruct (IH HA' (S i)) as [I1 I2]. clear IH. split.
      + intros x [(y & Hy & ->)|[HN Hx]].
        * destruct (G1 y Hy) as (v & E & HS). rewrite E. exists (VUnion i v). split; [reflexivity|]. left. exists v, y. auto.
        * destruct (read m t) as [v| |] eqn:E; [|destruct (I1 x Hx) as (v & Ev & HS); exists v; split; [exact Ev|right; exact HS]|elim (read_total m t E)].
          destruct (G2 v eq_refl) as (y & _ & Hy). elim (HN y Hy).
      + intros v Hv. destruct (read m t) as [w| |] eqn:E; [| |discriminate].
        * injection Hv as <-. destruct (G2 w eq_refl) as (y & HS & Hy). exists (XUnion i y). split; left; [exists w, y; auto|exists y; auto].
        * destruct (I2 v Hv) as (x & HS & Hx). exists x. split; right; [exact HS|]. split; [|exact Hx].
          intros y Hy. destruct (G1 y Hy) as (w & Ew & _). discriminate.
  Qed.

  (** ** Reading restrictions that are not enumerations *)

  Definition shape (kd : skind) (m0 m : smeta) (c : constrains) : Prop :=
    match kd with
    | KAtom b => m0 = MRef (MBuildIn b) false /\ (m = MSimple (MBuildIn b) false c \/ m = m0 /\ c = initial false)
    | KList => exists ty, m0 = MRef ty true /\ (m = MSimple ty true c \/ m = m0 /\ c = initial true)
    | KUnion => exists ms, m0 = MUnion no_constrains ms /\ m = MUnion c ms
    end.
  Definition tgt (m : smeta) : smeta := match m with MRef ty _ => ty | _ => MBuildIn 0 end.
  Definition gen_ok (kd : skind) (c : constrains) : Prop :=
    match kd with
    | KAtom b => bound_ok parse (MBuildIn b) (c_start c) = true /\ bound_ok parse (MBuildIn b) (c_end c) = true
    | KList => has_validation c = false /\ c_start c = Unbounded /\ c_end c = Unbounded
    | KUnion => c_total c = None /\ c_fraction c = None
    end.

  Lemma initial_value l base v : validate_value base (initial l) v = Ok tt.
  Proof. unfold SimpleModel.validate_value, validate_length. destruct l; cbn; destruct (len size v); reflexivity. Qed.
  Lemma initial_text l t : validation (initial l) t = Ok t.
  Proof. destruct l; reflexivity. Qed.
  Lemma read_initial ty l t : read (MSimple ty l (initial l)) t = read (MRef ty l) t.
  Proof.
    cbn [SimpleModel.read]. rewrite initial_text. destruct l.
    - destruct (read_items (read ty) (list_items t)); [|reflexivity|reflexivity]. rewrite initial_value. reflexivity.
    - destruct (read ty t); [|reflexivity|reflexivity]. rewrite initial_value. reflexivity.
  Qed.

  Lemma read_simple ty l c t v dg : clear_text dg t ->
    (read (MSimple ty l c) t = Ok v <-> read (MRef ty l) t = Ok v /\ code_patterns c t /\ forall k, code_slot k ty c t v).
  Proof.
    intros HC.
    assert (E : read (MSimple ty l c) t = match validation c t with
      | Ok s => match read (MRef ty l) t with Ok x => match validate_value ty c x with Ok _ => Ok x | Err e => Err e | Panic => Panic end | r => r end
      | Err e => Err e | Panic => Panic end).
    { cbn [SimpleModel.read]. destruct (validation c t) as [s| |] eqn:EV; [|reflexivity|reflexivity].
      apply (validation_ok dg c t s v ty HC) in EV as [-> _]. destruct l; reflexivity. }
    rewrite E. clear E. split.
    - intros H. destruct (validation c t) as [s| |] eqn:EV; try discriminate.
      destruct (read (MRef ty l) t) as [x| |]; try discriminate.
      destruct (validate_value ty c x) as [[]| |] eqn:EX; try discriminate. injection H as ->.
      apply (validation_ok dg c t s v ty HC) in EV as (_ & HP & HT & HFr).
      apply (value_ok ty c v t) in EX as (HS & HE & HMi & HMa).
      split; [reflexivity|]. split; [exact HP|]. intros []; assumption.
    - intros (HR & HP & HK).
      assert (EV : validation c t = Ok t) by (apply (validation_ok dg c t t v ty HC); repeat split; [exact HP|apply (HK SlTotal)|apply (HK SlFraction)]).
      assert (EX : validate_value ty c v = Ok tt) by (apply (value_ok ty c v t); repeat split; [apply (HK SlStart)|apply (HK SlEnd)|apply (HK SlMin)|apply (HK SlMax)]).
      rewrite EV, HR, EX. reflexivity.
  Qed.

  Lemma read_union ms c t v dg : clear_text dg t -> c_total c = None -> c_fraction c = None ->
    (read (MUnion c ms) t = Ok v <-> read (MUnion no_constrains ms) t = Ok v /\ code_patterns c t) /\
    (read (MUnion no_constrains ms) t = Ok v -> exists i w, v = VUnion i w).
  Proof.
    intros HC HT HFr.
    assert (E : read (MUnion c ms) t = match validation c t with Ok _ => read (MUnion no_constrains ms) t | Err e => Err e | Panic => Panic end).
    { cbn [SimpleModel.read]. destruct (validation c t) as [s| |] eqn:EV; [|reflexivity|reflexivity].
      apply (validation_ok dg c t s v (MBuildIn 0) HC) in EV as [-> _]. reflexivity. }
    split.
    - rewrite E. split.
      + intros H. destruct (validation c t) as [s| |] eqn:EV; try discriminate. split; [exact H|].
        apply (validation_ok dg c t s v (MBuildIn 0) HC) in EV as (_ & HP & _). exact HP.
      + intros [H HP]. assert (EV : validation c t = Ok t).
        { apply (validation_ok dg c t t v (MBuildIn 0) HC). unfold code_slot. rewrite HT, HFr. auto. }
        rewrite EV. exact H.
    - clear E. cbn [SimpleModel.read]. change (validation no_constrains t) with (@Ok rerror _ t). cbn match. generalize 0.
      induction ms as [|m ms IH]; intros i H; [discriminate|].
      destruct (read m t) as [w| |]; [injection H as <-; exists i, w; reflexivity|exact (IH _ H)|discriminate].
  Qed.

  Lemma read_shape kd m0 m c t v dg : clear_text dg t -> shape kd m0 m c -> gen_ok kd c ->
    (read m t = Ok v <-> read m0 t = Ok v /\ code_patterns c t /\ forall k, code_slot k (tgt m0) c t v).
  Proof.
    intros HC HS HG. destruct kd as [b| |].
    - destruct HS as [-> [->|[-> ->]]]; [apply (read_simple _ _ _ _ _ dg HC)|].
      rewrite <- (read_initial (MBuildIn b) false t) at 1. apply (read_simple _ _ _ _ _ dg HC).
    - destruct HS as (ty & -> & [->|[-> ->]]); [apply (read_simple _ _ _ _ _ dg HC)|].
      rewrite <- (read_initial ty true t) at 1. apply (read_simple _ _ _ _ _ dg HC).
    - destruct HS as (ms & -> & ->). destruct HG as [HT HFr]. destruct (read_union ms c t v dg HC HT HFr) as [HU HV].
      rewrite HU. split; [|intros (H & HP & _); auto]. intros [H HP]. split; [exact H|]. split; [exact HP|].
      destruct (HV H) as (i & w & ->). intros []; cbn; rewrite ?HT, ?HFr; try exact I;
        try (destruct (c_start c); trivial); try (destruct (c_end c); trivial); destruct (c_min c), (c_max c); trivial.
  Qed.

  Lemma union_stands ms v x : stands (SUnion ms) v x -> exists i w y, v = VUnion i w /\ x = XUnion i y.
  Proof.
    cbn [SimpleSpec.stands]. generalize 0. induction ms as [|d ms IH]; intros i H; [destruct H|].
    destruct H as [(w & y & -> & -> & _)|H]; [exists i, w, y; auto|apply (IH _ H)].
  Qed.
  Lemma union_denotes ms t x : denotes (SUnion ms) t x -> exists i y, x = XUnion i y.
  Proof.
    cbn [SimpleSpec.denotes]. generalize 0. induction ms as [|d ms IH]; intros i H; [destruct H|].
    destruct H as [(y & _ & ->)|[_ H]]; [exists i, y; auto|apply (IH _ H)].
  Qed.
  Lemma f2_length {A B} (R : A -> B -> Prop) l l' : Forall2 R l l' -> length l = length l'.
  Proof. induction 1; cbn; congruence. Qed.

  Lemma rel_root d m0 m c t v x : shape (kind d) m0 m c -> read m0 t = Ok v -> stands (root d) v x -> rel (kind d) t v x.
  Proof.
    intros HS HR HX. destruct (kind d) as [b| |] eqn:EK.
    - destruct HS as [-> _]. cbn in HR. rewrite (atom_root d b EK) in HX. destruct HX as (a & -> & ->).
      exists a. split; [reflexivity|]. split; [reflexivity|]. destruct (parse b t); [injection HR as ->; reflexivity|discriminate].
    - rewrite <- kind_root in EK. destruct (root d) as [b []| | |] eqn:ER; try discriminate EK.
      + destruct HX as (l & -> & ->). exists (map VAtom l), (map XAtom l). rewrite !map_length. auto.
      + exfalso. revert ER. clear. induction d; cbn; try discriminate. exact IHd.
      + destruct HX as (vs & xs & -> & -> & HF). exists vs, xs. repeat split. apply f2_length in HF. exact HF.
    - rewrite <- kind_root in EK. destruct (root d) as [b []| | |] eqn:ER; try discriminate EK.
      + exfalso. revert ER. clear. induction d; cbn; try discriminate. exact IHd.
      + apply union_stands in HX. exact HX.
  Qed.
  Lemma rel_exists d t x : clear_text (has_digits d) t -> denotes d t x -> exists v, rel (kind d) t v x.
  Proof.
    intros HC H. apply (denotes_below d t x HC) in H. destruct (kind d) as [b| |] eqn:EK.
    - rewrite (atom_root d b EK) in H. apply atom_text in H as (a & -> & HP); [|revert HC; apply clear_mono; discriminate].
      exists (VAtom a), a. auto.
    - rewrite <- kind_root in EK.
      assert (HX : exists xs, x = XList xs).
      { destruct (root d) as [b []| | |] eqn:ER; try discriminate EK.
        - destruct H as (l & vs & _ & _ & ->). exists (map XAtom vs). reflexivity.
        - exfalso. revert ER. clear. induction d; cbn; try discriminate. exact IHd.
        - destruct H as (l & xs & _ & _ & ->). exists xs. reflexivity. }
      destruct HX as (xs & ->). exists (VList (map (fun _ => VEnum []) xs)). cbn. eexists. exists xs. split; [reflexivity|].
      split; [reflexivity|]. apply map_length.
    - rewrite <- kind_root in EK. destruct (root d) as [b []| | |] eqn:ER; try discriminate EK.
      + exfalso. revert ER. clear. induction d; cbn; try discriminate. exact IHd.
      + apply union_denotes in H as (i & y & ->). exists (VUnion i (VEnum [])), i, (VEnum []), y. auto.
  Qed.

  Lemma stands_root d v x : (forall e, v <> VEnum e) -> (stands d v x <-> stands (root d) v x).
  Proof.
    intros H. induction d as [b l|i base fs IH|item _|ms _] using sdef_nested; try reflexivity.
    cbn [SimpleSpec.stands root]. rewrite <- IH. destruct v; try reflexivity. elim (H name). reflexivity.
  Qed.
  Lemma rel_not_enum kd t v x : rel kd t v x -> forall e, v <> VEnum e.
  Proof.
    destruct kd; cbn.
    - intros (a & -> & _) e. discriminate.
    - intros (vs & xs & -> & _) e. discriminate.
    - intros (i & w & y & -> & _) e. discriminate.
  Qed.

  Lemma good_rest d m0 m c : enumerated d = false -> shape (kind d) m0 m c -> gen_ok (kind d) c -> good (root d) m0 ->
    inv d (tgt m0) c -> good d m.
  Proof.
    intros HE HS HG HR [_ HI] t HC.
    destruct (HR t) as [R1 R2]; [revert HC; apply clear_mono, digits_root|]. split.
    - intros x H. apply (denotes_root d t x HE HC) in H as (H0 & HP & HK).
      destruct (R1 x H0) as (v & Ev & Sv). pose proof (rel_root d m0 m c t v x HS Ev Sv) as HRel.
      destruct (HI t v x HC HRel) as [I1 I2]. exists v. split.
      + apply (read_shape (kind d) m0 m c t v _ HC HS HG). split; [exact Ev|]. split; [apply I2, HP|]. intros k. apply I1, HK.
      + apply stands_root; [apply (rel_not_enum _ _ _ _ HRel)|exact Sv].
    - intros v H. apply (read_shape (kind d) m0 m c t v _ HC HS HG) in H as (Ev & HP & HK).
      destruct (R2 v Ev) as (x & Sv & H0). pose proof (rel_root d m0 m c t v x HS Ev Sv) as HRel.
      destruct (HI t v x HC HRel) as [I1 I2]. exists x. split.
      + apply stands_root; [apply (rel_not_enum _ _ _ _ HRel)|exact Sv].
      + apply (denotes_root d t x HE HC). split; [exact H0|]. split; [apply I2, HP|]. intros k. apply I1, HK.
  Qed.

  Lemma gen_step i base fs c : plain_step i base fs -> existsb is_enumeration fs = false -> gen_ok (kind base) c -> gen_ok (kind base) (foldset fs c).
  Proof.
    intros (_ & HK & _) HE HG. destruct (kind base) as [b| |] eqn:EK.
    - destruct HK as [HK _].
      assert (HB : forall f l, In f fs -> is_bound f = Some l -> parse b l <> None).
      { intros f l Hf Hl. destruct (HK f l Hf Hl) as (_ & HCl & y & Hy).
        apply denotes_below in Hy; [|revert HCl; apply clear_mono, digits_base]. rewrite (atom_root base b EK) in Hy.
        apply atom_text in Hy as (a & _ & P'); [congruence|]. revert HCl. apply clear_mono. discriminate. }
      clear HK HE. revert c HG. induction fs as [|f fs IH]; intros c HG; [exact HG|]. unfold foldset in *. cbn [fold_left].
      apply IH; [intros f' l Hf; apply HB; right; exact Hf|]. destruct HG as [H1 H2].
      assert (HX : forall l, is_bound f = Some l -> match parse b l with Some _ => true | None => false end = true).
      { intros l Hl. pose proof (HB f l (or_introl eq_refl) Hl). destruct (parse b l); congruence. }
      destruct c, f; cbn in *; split; try assumption; apply HX; reflexivity.
    - revert c HG. induction fs as [|f fs IH]; intros c HG; [exact HG|]. unfold foldset in *. cbn [fold_left].
      apply IH; [intros f' Hf; apply HK; right; exact Hf| |].
      + cbn in HE. apply orb_false_iff in HE. apply HE.
      + destruct (HK f (or_introl eq_refl)) as [H|H]; destruct f; try discriminate H; destruct c; exact HG.
    - destruct HK as [HK|HK].
      + destruct fs as [|f fs]; [exact HG|]. pose proof (HK f (or_introl eq_refl)) as Hf. cbn in HE. rewrite Hf in HE. discriminate.
      + revert c HG. clear HE. induction fs as [|f fs IH]; intros c HG; [exact HG|]. unfold foldset in *. cbn [fold_left].
        apply IH; [intros f' Hf; apply HK; right; exact Hf|].
        pose proof (HK f (or_introl eq_refl)) as H. destruct f; try discriminate H. destruct c; exact HG.
  Qed.

  Lemma generate_shape kd m0 m c : shape kd m0 m c -> gen_ok kd c -> generate m0 = Ok tt -> generate m = Ok tt.
  Proof.
    intros HS HG H0. destruct kd as [b| |].
    - destruct HS as [-> [->|[-> _]]]; [|exact H0]. destruct HG as [H1 H2]. cbn in *. rewrite H1, H2. reflexivity.
    - destruct HS as (ty & -> & [->|[-> _]]); [|exact H0]. destruct HG as (H1 & H2 & H3). cbn in *. rewrite H0, H1, H2, H3. reflexivity.
    - destruct HS as (ms & -> & ->). exact H0.
  Qed.

  (** ** Enumerations *)

  Definition weak (d : sdef) (c : constrains) : Prop :=
    (patterned d = false -> c_patterns c = []) /\
    forall t x base v, clear_text (has_digits d) t -> denotes d t x ->
      code_patterns c t /\ code_slot SlTotal base c t v /\ code_slot SlFraction base c t v.

  Lemma weak_of_inv d bm c : inv d bm c -> weak d c.
  Proof.
    intros [H1 H2]. split; [exact H1|]. intros t x base v HC H.
    destruct (rel_exists d t x HC H) as (v0 & HR). destruct (H2 t v0 x HC HR) as [HS HP].
    destruct (denotes_pats d t x HC H) as [G1 G2].
    split; [apply HP, G1|]. split; [apply (proj2 (HS SlTotal)), G2|apply (proj2 (HS SlFraction)), G2].
  Qed.
  Lemma weak_none d : weak d no_constrains.
  Proof. split; [reflexivity|]. intros t x base v _ _. split; [left; reflexivity|]. split; exact I. Qed.

  Lemma weak_step i base fs c : plain_step i base fs -> weak base c -> weak (SRestriction i base fs) (foldset fs c).
  Proof.
    intros HP [W1 W2]. pose (bm := match kind base with KAtom b => MBuildIn b | _ => MBuildIn 0 end).
    assert (HB : forall b, kind base = KAtom b -> bm = MBuildIn b) by (intros b E; unfold bm; rewrite E; reflexivity).
    pose proof (step_fits i base fs bm HP HB) as HF. destruct HP as (HP1 & HK & HU & HA & _ & _ & _).
    assert (HN : existsb is_pattern fs = false -> flat_map (fun f => match f with FPattern p => [p] | _ => [] end) fs = []).
    { intros H1. destruct (flat_map _ fs) as [|p ps] eqn:E; [reflexivity|]. exfalso. apply (no_pattern fs H1). exists p.
      apply in_patterns. rewrite E. left. reflexivity. }
    split.
    - cbn [patterned]. intros H. apply orb_false_iff in H as [H1 H2]. rewrite fold_patterns, (W1 H2), (HN H1). reflexivity.
    - intros t x b0 v HC H. pose proof (proj1 (denotes_step i base fs t x _ HC) H) as (Hb & H3 & H4 & _).
      assert (HC' : clear_text (has_digits base) t) by (revert HC; apply clear_mono, digits_base).
      destruct (rel_exists base t x HC' Hb) as (v0 & HR).
      assert (HT : forall k, (code_slot k bm c t v0) -> code_slot k bm (foldset fs c) t v0).
      { intros k Hk. destruct (set_dec k fs) as [HE|HO].
        - apply (fold_slot k fs (denotes base) bm t v0 x c).
          + apply (rel_len _ _ _ _ _ HC HR).
          + intros f Hf Hp. apply (HF t v0 x f k HC HR Hf Hp).
          + intros a b f g Hi Hj Hf Hg. apply (HU a b f g k Hi Hj Hf Hg).
          + exact HE.
          + intros f g Hf Hg. apply (proj1 (holds_parts _ f t x) (H3 f Hf) k g Hg).
        - rewrite fold_other by exact HO. exact Hk. }
      destruct (W2 t x bm v0 HC' Hb) as (V1 & V2 & V3).
      split; [|split; [exact (HT SlTotal V2)|exact (HT SlFraction V3)]].
      unfold code_patterns. rewrite fold_patterns. destruct (existsb is_pattern fs) eqn:EP.
      + apply existsb_exists in EP as (f & Hf & Ef). destruct f; try discriminate Ef.
        assert (HX : exists p, In (FPattern p) fs) by (exists p; exact Hf).
        destruct (H4 HX) as (q & Hq & Eq). right. apply existsb_exists. exists q. split; [|exact Eq].
        apply in_or_app. right. apply in_patterns, Hq.
      + rewrite (HN eq_refl), app_nil_r. exact V1.
  Qed.

  Lemma good_enum i base fs c : plain_step i base fs -> existsb is_enumeration fs = true -> weak (SRestriction i base fs) c ->
    good (SRestriction i base fs) (MEnum c (insert_names fs [])).
  Proof.
    intros (_ & _ & _ & _ & _ & _ & HV) HE [_ HW] t HC.
    assert (HN : forall e, In e (insert_names fs []) <-> In (FEnumeration e) fs).
    { intros e. rewrite in_names. split.
      - intros [[]|(e0 & H & ->)]. destruct (HV e0 H) as ((l & -> & Hl) & _). rewrite (clear_trim l) by apply (clear_ok _ _ Hl). exact H.
      - intros H. right. exists e. split; [exact H|]. destruct (HV e H) as ((l & -> & Hl) & _). rewrite (clear_trim l) by apply (clear_ok _ _ Hl). reflexivity. }
    split.
    - intros x H. pose proof (proj1 (denotes_step i base fs t x _ HC) H) as (Hb & _ & _ & H5).
      assert (HX : exists e, In (FEnumeration e) fs).
      { apply existsb_exists in HE as (f & Hf & Ef). destruct f; try discriminate Ef. exists v. exact Hf. }
      destruct (H5 HX) as (e & He & De). destruct (HV e He) as (_ & _ & HU). pose proof (HU t x HC Hb De) as E. subst e.
      exists (VEnum t). cbn [SimpleModel.read]. destruct (HW t x (MBuildIn 0) (VEnum []) HC H) as (V1 & V2 & V3).
      assert (EV : validation c t = Ok t) by (apply (validation_ok _ c t t (VEnum []) (MBuildIn 0) HC); auto).
      rewrite EV. destruct (in_dec str_eq_dec t (insert_names fs [])) as [_|HN']; [|elim HN'; apply HN, He].
      split; [reflexivity|]. split; assumption.
    - intros v H. cbn [SimpleModel.read] in H. destruct (validation c t); try discriminate.
      destruct (in_dec str_eq_dec t (insert_names fs [])) as [Hin|_]; [|discriminate]. injection H as <-. apply HN in Hin.
      destruct (HV t Hin) as (_ & (x & Hx) & _). exists x. split; [|exact Hx].
      split; [exact Hin|]. apply (denotes_step i base fs t x _ HC) in Hx as [Hx _]. exact Hx.
  Qed.

  (** ** All types *)

  Definition claim (d : sdef) : Prop := exists m fx,
    interpret d = Ok (m, fx) /\ generate m = Ok tt /\ good d m /\
    ((enumerated d = true /\ exists c vs, m = MEnum c vs /\ weak d c) \/
     (enumerated d = false /\ exists m0 c, shape (kind d) m0 m c /\ good (root d) m0 /\ generate m0 = Ok tt /\
        inv d (tgt m0) c /\ gen_ok (kind d) c /\ c_white c = match stated_white d with Some w => w | None => WPreserve end)).

  Lemma inv_root d bm c : root d = d -> c_patterns c = [] ->
    (forall k t v, code_slot k bm c t v) -> inv d bm c.
  Proof.
    intros HR HP HK. split; [intros _; exact HP|]. intros t v x _ _.
    assert (HS : (forall k, slot_holds k d t x) /\ pats_hold d t).
    { destruct d; try (split; [intros k; exact I|exact I]). exfalso. revert HR. cbn. clear.
      intros HR. assert (HX : forall d, match root d with SRestriction _ _ _ => False | _ => True end) by (induction d0; cbn; auto).
      pose proof (HX d) as H. rewrite HR in H. exact H. }
    destruct HS as [S1 S2]. split; [intros k; split; intros _; [apply S1|apply HK]|]. split; intros _; [exact S2|left; exact HP].
  Qed.
  Lemma initial_slots l bm k t v : code_slot k bm (initial l) t v.
  Proof. destruct l, k; cbn; try exact I; destruct (len size v); exact I || reflexivity. Qed.

  Lemma claim_root d m fx : root d = d -> interpret d = Ok (m, fx) -> generate m = Ok tt -> good d m ->
    (exists c, shape (kind d) m m c /\ gen_ok (kind d) c /\ (c = initial true \/ c = no_constrains)) -> claim d.
  Proof.
    intros HR HI HG HGd (c & HS & HK & Hc). exists m, fx. split; [exact HI|]. split; [exact HG|]. split; [exact HGd|]. right.
    split.
    - destruct d; try reflexivity. exfalso. revert HR. cbn. clear.
      intros HR. assert (HX : forall d, match root d with SRestriction _ _ _ => False | _ => True end) by (induction d0; cbn; auto).
      pose proof (HX d) as H. rewrite HR in H. exact H.
    - exists m, c. split; [exact HS|]. rewrite HR. split; [exact HGd|]. split; [exact HG|]. split; [|split; [exact HK|]].
      2: { destruct d; try (destruct Hc as [->| ->]; reflexivity). exfalso. revert HR. cbn. clear.
        intros HR. assert (HX : forall d, match root d with SRestriction _ _ _ => False | _ => True end) by (induction d0; cbn; auto).
        pose proof (HX d) as H. rewrite HR in H. exact H. }
      apply inv_root; [exact HR|destruct Hc as [->| ->]; reflexivity|].
      intros k t v. destruct Hc as [->| ->]; [apply (initial_slots true)|apply (initial_slots false)].
  Qed.

  Lemma union_interpret ms : Forall claim ms -> exists mm,
    (fix all (l : list sdef) : outcome ierror (list smeta) :=
           match l with
           | [] => Ok []
           | d :: l' =>
               match interpret d with
               | Ok (m, _) => match all l' with Ok ms => Ok (m :: ms) | Err e => Err e | Panic => Panic end
               | Err e => Err e
               | Panic => Panic
               end
           end) ms = Ok mm /\ Forall2 good ms mm /\ generate (MUnion no_constrains mm) = Ok tt.
  Proof.
    induction 1 as [|d ms (m & fx & E & G & HG & _) _ (mm & IH & IG & IE)].
    - exists []. repeat split. constructor.
    - exists (m :: mm). rewrite E, IH. split; [reflexivity|]. split; [constructor; assumption|]. cbn in *. rewrite G. exact IE.
  Qed.

  Lemma step_rest i base fs m0 c m' fx : plain_step i base fs -> enumerated base = false -> existsb is_enumeration fs = false ->
    good (root base) m0 -> generate m0 = Ok tt -> inv base (tgt m0) c -> gen_ok (kind base) c ->
    c_white c = match stated_white base with Some w => w | None => WPreserve end ->
    (exists m, shape (kind base) m0 m c) ->
    interpret (SRestriction i base fs) = Ok (m', fx) -> shape (kind base) m0 m' (foldset fs c) -> claim (SRestriction i base fs).
  Proof.
    intros HP HE HF HG HG0 HI HGo HWh (m & HS0) HX HS.
    assert (HE' : enumerated (SRestriction i base fs) = false) by (cbn; rewrite HF, HE; reflexivity).
    assert (HI' : inv (SRestriction i base fs) (tgt m0) (foldset fs c)).
    { apply inv_step; [exact HP| |exact HI]. intros b Eb. rewrite Eb in HS. destruct HS as [-> _]. reflexivity. }
    assert (HGo' : gen_ok (kind base) (foldset fs c)) by (apply (gen_step i); assumption).
    exists m', fx. split; [exact HX|]. split; [apply (generate_shape _ m0 m' _ HS HGo' HG0)|]. split.
    - apply (good_rest (SRestriction i base fs) m0 m' (foldset fs c)); assumption.
    - right. split; [exact HE'|]. exists m0, (foldset fs c). split; [exact HS|]. split; [exact HG|]. split; [exact HG0|]. split; [exact HI'|]. split; [exact HGo'|].
      rewrite fold_white_facet, HWh. cbn [stated_white]. destruct (white_facet fs); reflexivity.
  Qed.

  Lemma step_enum i base fs c fx : plain_step i base fs -> existsb is_enumeration fs = true -> weak base c ->
    interpret (SRestriction i base fs) = Ok (MEnum (foldset fs c) (insert_names fs []), fx) -> claim (SRestriction i base fs).
  Proof.
    intros HP HE HW HX. pose proof (weak_step i base fs c HP HW) as HW'. eexists. exists fx. split; [exact HX|].
    split; [reflexivity|]. split; [apply good_enum; assumption|]. left. split; [cbn; rewrite HE; reflexivity|].
    eexists. eexists. split; [reflexivity|exact HW'].
  Qed.

  Theorem simple_claim d : plain d -> claim d.
  Proof.
    induction d as [b l|i base fs IH|item IH|ms IH] using sdef_nested; intros HP.
    - apply (claim_root (SBuiltin b l) (MRef (MBuildIn b) l) false eq_refl eq_refl eq_refl).
      + destruct l; [apply good_builtin_list|apply good_atom].
      + exists (initial l). destruct l; cbn.
        * split; [exists (MBuildIn b); auto|]. auto.
        * split; auto.
    - destruct HP as [HB HP]. destruct (IH HB) as (m & fx & EI & EG & HG & HX). clear IH.
      pose proof HP as (_ & HK & _ & _ & HEE & HEI & _).
      destruct HX as [(EB & c & vs & -> & HW)|(EB & m0 & c & HS & HR & HG0 & HI & HGo & HWh)].
      + pose proof (HEE EB) as HE. destruct i; [rewrite (HEI eq_refl) in HE; discriminate|].
        apply (step_enum false base fs c false HP HE HW). cbn [interpret]. rewrite EI. cbn [copy_base]. apply run_enum.
      + assert (HW : forall c0, c0 = no_constrains \/ c0 = c -> weak base c0).
        { intros c0 [->| ->]; [apply weak_none|apply (weak_of_inv _ _ _ HI)]. }
        assert (ES : interpret (SRestriction i base fs) = apply_facets fs (m, if i then fx else false)).
        { cbn [interpret]. rewrite EI. destruct i; [reflexivity|]. f_equal. f_equal.
          destruct (kind base) as [b| |]; cbn in HS.
          - destruct HS as [-> [->|[-> _]]]; reflexivity.
          - destruct HS as (ty & -> & [->|[-> _]]); reflexivity.
          - destruct HS as (ms & -> & ->). reflexivity. }
        assert (EF : (if i then fx else false) = true -> existsb is_enumeration fs = false) by (destruct i; [intros _; apply HEI; reflexivity|discriminate]).
        assert (HRS : forall ty l, m0 = MRef ty l -> (m = MSimple ty l c \/ m = m0 /\ c = initial l) ->
           (existsb is_enumeration fs = false -> forall m', m' = MSimple ty l (foldset fs c) \/ m' = m0 /\ foldset fs c = initial l -> shape (kind base) m0 m' (foldset fs c)) ->
           claim (SRestriction i base fs)).
        { intros ty l E0 Em HSh. destruct (existsb is_enumeration fs) eqn:HE.
          - destruct Em as [->|[-> ->]].
            + destruct (run_simple fs ty l c (if i then fx else false)) as (fx' & ER). rewrite HE in ER.
              apply (step_enum i base fs c fx' HP HE); [apply HW; right; reflexivity|]. rewrite ES. exact ER.
            + subst m0. destruct (run_ref fs ty l (if i then fx else false)) as (m' & fx' & ER & HX).
              { intros E. discriminate (EF E). }
              rewrite HE in HX. destruct HX as (c0 & Hc0 & ->).
              apply (step_enum i base fs c0 fx' HP HE); [apply HW; exact Hc0|]. rewrite ES. exact ER.
          - destruct Em as [->|[-> ->]].
            + destruct (run_simple fs ty l c (if i then fx else false)) as (fx' & ER). rewrite HE in ER.
              eapply (step_rest i base fs m0 c _ fx'); try eassumption; [exists (MSimple ty l c); exact HS|rewrite ES; exact ER|].
              apply HSh; [reflexivity|]. left. reflexivity.
            + subst m0. destruct (run_ref fs ty l (if i then fx else false)) as (m' & fx' & ER & HX).
              { intros E. exact HE. }
              rewrite HE in HX.
              eapply (step_rest i base fs (MRef ty l) (initial l) m' fx'); try eassumption; [exists (MRef ty l); exact HS|rewrite ES; exact ER|].
              apply HSh; [reflexivity|]. destruct HX as [->|[-> ->]]; [left; reflexivity|right; split; reflexivity]. }
        destruct (kind base) as [b| |] eqn:EK; cbn in HS.
        * destruct HS as [-> HS]. apply (HRS (MBuildIn b) false eq_refl HS). intros _ m' Hm'. split; [reflexivity|exact Hm'].
        * destruct HS as (ty & -> & HS). apply (HRS ty true eq_refl HS). intros _ m' Hm'. exists ty. split; [reflexivity|exact Hm'].
        * destruct HS as (ms & -> & ->). clear HRS. destruct (existsb is_enumeration fs) eqn:HE.
          -- assert (Efx : (if i then fx else false) = false) by (destruct (if i then fx else false); [discriminate (EF eq_refl)|reflexivity]).
             destruct HK as [HK|HK].
             ++ apply (step_enum i base fs no_constrains true HP HE); [apply weak_none|]. rewrite ES, Efx. apply run_union_enum; assumption.
             ++ apply existsb_exists in HE as (f & Hf & Ef). specialize (HK f Hf). destruct f; discriminate.
          -- eapply (step_rest i base fs (MUnion no_constrains ms) c (MUnion (foldset fs c) ms) (if i then fx else false)); try eassumption.
             ++ rewrite EK. exact HGo.
             ++ rewrite EK. exists (MUnion c ms), ms. auto.
             ++ rewrite ES. apply run_union, HE.
             ++ rewrite EK. exists ms. auto.
    - destruct (IH HP) as (m & fx & EI & EG & HG & _).
      apply (claim_root (SList item) (MRef m true) true eq_refl); [cbn; rewrite EI; reflexivity|exact EG|apply good_list, HG|].
      exists (initial true). split; [exists m; auto|]. cbn. auto.
    - assert (HA : Forall claim ms).
      { cbn in HP. induction IH as [|d ms Hd _ IH']; constructor; [apply Hd, HP|apply IH', HP]. }
      destruct (union_interpret ms HA) as (mm & E & HF & HG).
      apply (claim_root (SUnion ms) (MUnion no_constrains mm) true eq_refl); [cbn [interpret]; rewrite E; reflexivity|exact HG|apply good_union, HF|].
      exists no_constrains. split; [exists mm; auto|]. cbn. auto.
  Qed.

  Theorem simple_types d : plain d -> exists m fixed,
    interpret d = Ok (m, fixed) /\ generate m = Ok tt /\ forall t, clear_text (has_digits d) t ->
      (forall x, denotes d t x -> exists v, read m t = Ok v /\ stands d v x) /\
      (forall v, read m t = Ok v -> exists x, stands d v x /\ denotes d t x).
  Proof. intros H. destruct (simple_claim d H) as (m & fx & E & G & HG & _). exists m, fx. split; [exact E|]. split; [exact G|exact HG]. Qed.

  Lemma words_other ws ws' l s : (forall c, ws c = true -> ws' c = true) ->
    Forall (fun w => forallb (fun c => negb (ws' c)) w = true) l -> words_of ws l s -> words_of ws' l s.
  Proof.
    intros HW HF H. assert (HB : forall a, forallb ws a = true -> forallb ws' a = true).
    { intros a. rewrite !forallb_forall. auto. }
    induction H as [s Hs|a w s l Ha Hw0 Hw Hs H IH]; [constructor; apply HB, Hs|].
    inversion_clear HF as [|? ? F1 F2]. constructor; [apply HB, Ha|exact Hw0|exact F1| |apply IH, F2].
    destruct s; [exact I|apply HW, Hs].
  Qed.

  Theorem simple_collapsed d l t m fixed : plain d -> enumerated d = false -> (exists b, kind d = KAtom b) -> stated_white d = Some WCollapse ->
    interpret d = Ok (m, fixed) -> Forall (clear_word (has_digits d)) l -> words_of xml_ws l t ->
    read m t = read m (join_blank l) /\ forall x, denotes d t x <-> denotes d (join_blank l) x.
  Proof.
    intros HP HE (b & HK) HW HI HF HL. pose proof (clear_ok _ _ HF) as HO. split.
    - destruct (simple_claim d HP) as (m' & fx & EI & _ & _ & HX). rewrite EI in HI. injection HI as -> ->.
      destruct HX as [(E & _)|(_ & m0 & c & HS & _ & _ & _ & _ & HWc)]; [congruence|]. rewrite HW in HWc.
      rewrite HK in HS. destruct HS as [-> [->|[_ ->]]]; [|discriminate HWc].
      assert (HN : normalized WCollapse t = normalized WCollapse (join_blank l)).
      { unfold normalized. rewrite (clear_collapse l HO). rewrite (collapse_words l t); [reflexivity|].
        apply (words_other xml_ws unicode_ws l t); [| |exact HL].
        - intros c'. unfold xml_ws, unicode_ws.
          repeat match goal with |- context [(?a =? ?b)%N] => destruct (N.eqb_spec a b); [subst; intros _; reflexivity|] end. discriminate.
        - pose proof (ok_words unicode_ws l visible_unicode HO) as G. revert G. apply Forall_impl. intros w [_ G]. exact G. }
      cbn [SimpleModel.read]. unfold SimpleModel.validation. rewrite HWc, HN. reflexivity.
    - intros x. destruct d as [b' []|i base fs|item|ms]; try discriminate HW.
      cbn [SimpleSpec.denotes]. 
      assert (HWS : white_space builtin_white (SRestriction i base fs) = WCollapse).
      { revert HW. clear. generalize (SRestriction i base fs). intros d. induction d as [b []|i' base' fs' IH|item _|ms _] using sdef_nested; cbn; try discriminate.
        destruct (white_facet fs'); [congruence|exact IH]. }
      rewrite HWS.
      assert (HQ : forall s, normalizes WCollapse t s <-> normalizes WCollapse (join_blank l) s).
      { intros s. cbn. pose proof (ok_of_words xml_ws l eq_refl visible_xml HO) as HJ. split; intros (l' & Hl' & ->).
        - rewrite (words_unique _ _ _ _ Hl' HL). exists l. auto.
        - rewrite (words_unique _ _ _ _ Hl' HJ). exists l. auto. }
      split; intros (s & HN & G); exists s; (split; [apply HQ, HN|exact G]).
  Qed.
End Read.

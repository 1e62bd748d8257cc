(* Proofs about the generated accessors. *)
From Coq Require Import List Bool Arith String Ascii Lia.
From Verif Require Import Base HelperModel HelperSpec.
Import ListNotations.
Local Open Scope string_scope.

Section Values.
  Variable V : Type.

  Lemma find_map_some v : forall (c : list (nat * V)) x,
    find_map v c = Some x <->
    exists before after, c = (before ++ (v, x) :: after)%list /\ forall w y, In (w, y) before -> w <> v.
  Proof.
    induction c as [|[w y] c IH]; intro x; cbn.
    - split; [discriminate|]. intros (b & a & E & _). destruct b; discriminate.
    - destruct (Nat.eqb w v) eqn:Z.
      + apply Nat.eqb_eq in Z. subst w. split.
        * intros [= <-]. exists [], c. split; [reflexivity|intros ? ? []].
        * intros (b & a & E & N). destruct b as [|[w' y'] b]; cbn in E; injection E.
          -- now intros _ ->.
          -- intros _ _ <-. exfalso. apply (N v y'); [left; congruence|reflexivity].
      + rewrite IH. apply Nat.eqb_neq in Z. split.
        * intros (b & a & -> & N). exists ((w, y) :: b), a. split; [reflexivity|].
          intros w' y' [[= <- <-]|H]; [exact Z|exact (N _ _ H)].
        * intros (b & a & E & N). destruct b as [|[w' y'] b]; cbn in E; injection E.
          -- intros _ _ ->. congruence.
          -- intros -> _ _. exists b, a. split; [reflexivity|]. intros w2 y2 H. apply (N w2 y2). now right.
  Qed.

  Lemma find_map_none v : forall (c : list (nat * V)),
    find_map v c = None <-> forall w y, In (w, y) c -> w <> v.
  Proof.
    induction c as [|[w y] c IH]; cbn.
    - split; [intros _ ? ? []|reflexivity].
    - destruct (Nat.eqb w v) eqn:Z.
      + apply Nat.eqb_eq in Z. subst w. split; [discriminate|]. intro H. exfalso. exact (H v y (or_introl eq_refl) eq_refl).
      + apply Nat.eqb_neq in Z. rewrite IH. split.
        * intros H w' y' [[= <- <-]|K]; [exact Z|exact (H _ _ K)].
        * intros H w' y' K. exact (H w' y' (or_intror K)).
  Qed.

  Lemma find_map_mut_some v (f : V -> V) : forall c c',
    find_map_mut v f c = Some c' <->
    exists before x after, c = (before ++ (v, x) :: after)%list
      /\ c' = (before ++ (v, f x) :: after)%list /\ forall w y, In (w, y) before -> w <> v.
  Proof.
    induction c as [|[w y] c IH]; intro c'; cbn.
    - split; [discriminate|]. intros (b & x & a & E & _). destruct b; discriminate.
    - destruct (Nat.eqb w v) eqn:Z.
      + apply Nat.eqb_eq in Z. subst w. split.
        * intros [= <-]. exists [], y, c. repeat split; intros ? ? [].
        * intros (b & x & a & E & -> & N). destruct b as [|[w' y'] b]; cbn in E; injection E.
          -- now intros -> ->.
          -- intros _ _ <-. exfalso. apply (N v y'); [left; congruence|reflexivity].
      + apply Nat.eqb_neq in Z. split.
        * destruct (find_map_mut v f c) as [c0|] eqn:F; [|discriminate]. intros [= <-].
          destruct (proj1 (IH c0) eq_refl) as (b & x & a & -> & -> & N).
          exists ((w, y) :: b), x, a. repeat split.
          intros w' y' [[= <- <-]|H]; [exact Z|exact (N _ _ H)].
        * intros (b & x & a & E & -> & N). destruct b as [|[w' y'] b]; cbn in E; injection E.
          -- intros _ _ ->. congruence.
          -- intros -> -> ->. cbn. rewrite (proj2 (IH (b ++ (v, f x) :: a)%list)); [reflexivity|].
             exists b, x, a. repeat split. intros w2 y2 H. apply (N w2 y2). now right.
  Qed.

  Lemma find_map_mut_none v (f : V -> V) : forall c,
    find_map_mut v f c = None <-> forall w y, In (w, y) c -> w <> v.
  Proof.
    induction c as [|[w y] c IH]; cbn.
    - split; [intros _ ? ? []|reflexivity].
    - destruct (Nat.eqb w v) eqn:Z.
      + apply Nat.eqb_eq in Z. subst w. split; [discriminate|]. intro H. exfalso. exact (H v y (or_introl eq_refl) eq_refl).
      + apply Nat.eqb_neq in Z. split.
        * destruct (find_map_mut v f c) eqn:F; [discriminate|]. intros _ w' y' [[= <- <-]|K]; [exact Z|].
          exact (proj1 IH eq_refl _ _ K).
        * intro H. rewrite (proj2 IH); [reflexivity|]. intros w' y' K. exact (H w' y' (or_intror K)).
  Qed.
End Values.

(* A method is found by its name if the names are distinct. *)
Lemma the_method_in ms m : NoDup (map m_name ms) -> In m ms -> the_method ms (m_name m) = Some m.
Proof.
  intros N H. unfold the_method.
  enough (E : filter (fun x => String.eqb (m_name x) (m_name m)) ms = [m]) by now rewrite E.
  induction ms as [|x ms IH]; [destruct H|]. cbn in N |- *. inversion N as [|? ? NI N']; subst.
  assert (F : forall l, ~ In (m_name m) (map m_name l) ->
              filter (fun x => String.eqb (m_name x) (m_name m)) l = []).
  { clear. induction l as [|y l IH]; cbn; [reflexivity|]. intro H.
    destruct (String.eqb_spec (m_name y) (m_name m)); [exfalso; auto|]. apply IH. auto. }
  destruct H as [<-|H].
  - rewrite String.eqb_refl. now rewrite F.
  - destruct (String.eqb_spec (m_name x) (m_name m)) as [E|_]; [|auto].
    exfalso. apply NI. rewrite E. now apply in_map.
Qed.

Lemma helper_methods_singles es : helper_methods es = flat_map element_methods (singles es).
Proof.
  induction es as [|e es IH]; cbn; [reflexivity|]. unfold helper_methods in *. cbn.
  unfold singles in *. unfold element_methods at 1. destruct (is_single (e_occurs e)) eqn:Z; cbn.
  - unfold element_methods at 2. rewrite Z. cbn. now rewrite IH.
  - exact IH.
Qed.

Lemma methods_of es e : In e es -> e_occurs e = OSingle ->
  In (Method (e_field e) (e_variant e) false) (helper_methods es)
  /\ In (Method (mut_name (e_field e)) (e_variant e) true) (helper_methods es).
Proof.
  intros H O. unfold helper_methods. split; apply in_flat_map; exists e; split; auto;
    unfold element_methods; rewrite O; cbn; auto.
Qed.

(* Names. *)
Lemma append_assoc (a b c : string) : (a ++ b) ++ c = a ++ (b ++ c).
Proof. induction a as [|x a IH]; cbn; [reflexivity|now rewrite IH]. Qed.

Lemma append_inv_tail (c : string) : forall a b : string, a ++ c = b ++ c -> a = b.
Proof.
  assert (L : forall a b : string, String.length (a ++ b) = String.length a + String.length b).
  { induction a as [|x a IH]; intro b; cbn; [reflexivity|now rewrite IH]. }
  induction a as [|x a IH]; intros [|y b] E; cbn in E.
  - reflexivity.
  - exfalso. apply (f_equal String.length) in E. cbn in E. rewrite L in E. lia.
  - exfalso. apply (f_equal String.length) in E. cbn in E. rewrite L in E. lia.
  - injection E as -> E. f_equal. auto.
Qed.

Lemma mut_base s : mut_name s = base_name s ++ "_mut".
Proof. unfold mut_name, base_name. destruct (strip_underscore s); reflexivity. Qed.

Lemma strip_prefix : forall s b, strip_underscore s = Some b -> s = b ++ "_".
Proof.
  induction s as [|c s IH]; cbn; intros b; [discriminate|].
  destruct s as [|d s].
  - destruct (Ascii.eqb_spec c "_"%char) as [->|]; [|discriminate]. now intros [= <-].
  - destruct (strip_underscore (String d s)) as [b'|]; [|discriminate].
    intros [= <-]. cbn. rewrite (IH b' eq_refl). reflexivity.
Qed.

(* A name that starts with "default" but is not the name itself cannot come
   from a stripped one: the base name starts the field. *)
Lemma base_prefix s : exists t, s = base_name s ++ t.
Proof.
  unfold base_name. destruct (strip_underscore s) as [b|] eqn:E.
  - exists "_". now apply strip_prefix.
  - exists "". clear E. induction s as [|c s IH]; cbn; [reflexivity|]. now rewrite <- IH.
Qed.

Lemma prefix_split : forall (p x y a : string), String.length p <= String.length x ->
  x ++ y = p ++ a -> exists t, x = p ++ t.
Proof.
  induction p as [|c p IH]; intros x y a L E.
  - exists x. reflexivity.
  - destruct x as [|d x]; cbn in L; [lia|]. cbn in E. injection E as -> E.
    destruct (IH x y a ltac:(lia) E) as [t ->]. exists t. reflexivity.
Qed.

(* base ++ "_mut" = "default_" ++ a only if the base starts with "default" *)
Lemma mut_default b a : b ++ "_mut" = "default_" ++ a -> exists t, b = "default" ++ t.
Proof.
  intro E. destruct (le_lt_dec 7 (String.length b)) as [L|L].
  - apply (prefix_split "default" b "_mut" ("_" ++ a)); [exact L|exact E].
  - exfalso.
    do 7 (destruct b as [|? b]; [cbn in E; discriminate E|cbn in E; injection E as ? E; subst]).
    cbn in L. lia.
Qed.

Lemma nodup_methods : forall es,
  NoDup (map (fun e => base_name (e_field e)) es) ->
  (forall e, In e es -> is_single (e_occurs e) = true) ->
  (forall e, In e es -> ~ ends_with "_mut" (e_field e)) ->
  NoDup (map m_name (flat_map element_methods es)).
Proof.
  induction es as [|e es IH]; intros N S M; cbn; [constructor|].
  cbn in N. inversion N as [|? ? NI N']; subst.
  assert (IN : forall n, In n (map m_name (flat_map element_methods es)) ->
            exists e', In e' es /\ (n = e_field e' \/ n = mut_name (e_field e'))).
  { intros n H. apply in_map_iff in H. destruct H as (m & <- & H). apply in_flat_map in H.
    destruct H as (e' & E' & H). exists e'. split; [exact E'|].
    unfold element_methods in H. destruct (is_single (e_occurs e')); [|destruct H].
    destruct H as [<-|[<-|[]]]; cbn; auto. }
  unfold element_methods at 1. rewrite (S e (or_introl eq_refl)). cbn.
  constructor; [|constructor].
  - intros [H|H].
    + apply (M e (or_introl eq_refl)). rewrite mut_base in H. exists (base_name (e_field e)). now rewrite H.
    + destruct (IN _ H) as (e' & E' & [Z|Z]).
      * apply NI. rewrite Z. now apply (in_map (fun e => base_name (e_field e))).
      * apply (M e (or_introl eq_refl)). exists (base_name (e_field e')). rewrite Z. apply mut_base.
  - intro H. destruct (IN _ H) as (e' & E' & [Z|Z]).
    + apply (M e' (or_intror E')). exists (base_name (e_field e)). rewrite <- Z. apply mut_base.
    + apply NI. rewrite !mut_base in Z. apply append_inv_tail in Z. rewrite Z.
      now apply (in_map (fun e => base_name (e_field e))).
  - apply IH; [exact N'|intros x X; exact (S x (or_intror X))|intros x X; exact (M x (or_intror X))].
Qed.

Lemma append_inv_head (p : string) : forall a b : string, p ++ a = p ++ b -> a = b.
Proof. induction p as [|c p IH]; cbn; intros a b E; [exact E|]. injection E as E. auto. Qed.

Lemma nodup_app {A} (l1 l2 : list A) :
  NoDup l1 -> NoDup l2 -> (forall x, In x l1 -> ~ In x l2) -> NoDup (l1 ++ l2).
Proof.
  induction 1 as [|x l1 NI N IH]; intros N2 D; cbn; [exact N2|].
  constructor.
  - intro H. apply in_app_or in H. destruct H as [H|H]; [auto|]. exact (D x (or_introl eq_refl) H).
  - apply IH; [exact N2|]. intros y Y. apply D. now right.
Qed.

Lemma defined_distinct t es : t_content t = Some ODynamicList -> t_enum t = Some es ->
  harmless t es -> NoDup (defined_names t).
Proof.
  intros C E (H1 & H2 & H3 & H4). unfold defined_names, render_helpers. rewrite C, E.
  apply nodup_app.
  - unfold default_names. revert H4. generalize (t_defaults t). clear.
    induction 1 as [|a l NI N IH]; cbn; constructor; [|exact IH].
    intro H. apply in_map_iff in H. destruct H as (b & Z & B). injection Z as Z. apply NI. now subst.
  - rewrite helper_methods_singles. apply nodup_methods; auto.
    intros e H. apply filter_In in H. apply H.
  - intros n D H. unfold default_names in D. apply in_map_iff in D. destruct D as (a & <- & A).
    assert (NE : t_defaults t <> []) by (intro Z; rewrite Z in A; destruct A).
    rewrite helper_methods_singles in H. apply in_map_iff in H. destruct H as (m & Z & H).
    apply in_flat_map in H. destruct H as (e & X & H).
    unfold element_methods in H. destruct (is_single (e_occurs e)); [|destruct H].
    destruct H as [<-|[<-|[]]]; cbn [m_name] in Z.
    + apply (H3 e X NE). exists ("_" ++ a). rewrite Z. reflexivity.
    + apply (H3 e X NE). rewrite mut_base in Z. apply mut_default in Z. destruct Z as [u Z].
      destruct (base_prefix (e_field e)) as [v Y]. rewrite Z in Y. exists (u ++ v).
      rewrite Y at 1. apply append_assoc.
Qed.

Lemma helpers_distinct t es ms : render_helpers t = Some ms -> t_enum t = Some es ->
  NoDup (defined_names t) -> ms = helper_methods es /\ NoDup (map m_name ms).
Proof.
  unfold render_helpers, defined_names. intros R E N.
  assert (Z : ms = helper_methods es).
  { unfold render_helpers in R. rewrite E in R. destruct (t_content t) as [[]|]; congruence. }
  split; [exact Z|]. unfold render_helpers in N. rewrite R in N.
  revert N. generalize (default_names t) as d. induction d as [|x d IH]; cbn; intro N; [exact N|].
  inversion N; subst. auto.
Qed.

Lemma helpers_lists : forall t,
  ((exists ms, render_helpers t = Some ms)
   <-> (t_content t = Some ODynamicList /\ exists es, t_enum t = Some es))
  /\ forall ms es m, render_helpers t = Some ms -> t_enum t = Some es -> In m ms ->
       exists e, In e es /\ e_occurs e = OSingle /\ m_variant m = e_variant e.
Proof.
  intro t. unfold render_helpers. split.
  - split.
    + intros [ms H]. destruct (t_content t) as [[]|]; try discriminate.
      destruct (t_enum t) as [es|]; [|discriminate]. eauto.
    + intros [-> [es ->]]. eauto.
  - intros ms es m H E I. rewrite E in H.
    assert (M : ms = helper_methods es) by (destruct (t_content t) as [[]|]; congruence).
    subst ms. unfold helper_methods in I. apply in_flat_map in I. destruct I as [e [I1 I2]].
    exists e. split; [exact I1|]. unfold element_methods in I2.
    destruct (e_occurs e); cbn in I2; try contradiction.
    split; [reflexivity|]. destruct I2 as [<-|[<-|[]]]; reflexivity.
Qed.

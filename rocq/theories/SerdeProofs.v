(* Proofs about the types rendered for serde. *)
From Coq Require Import List String Ascii Arith Bool Lia FinFun.
From Verif Require Import BoxModel SerdeModel SerdeSpec.
Import ListNotations.
Local Open Scope string_scope.

(* --- runs --- *)

Lemma runs_other : forall key k l, (forall x, In x l -> key x <> k) ->
  filter (fun e : string * list item => String.eqb (fst e) k) (runs key l) = [].
Proof.
  intros key k l. induction l as [|x r IH]; intros H; cbn; auto.
  assert (Hx : key x <> k) by (apply H; left; reflexivity).
  assert (Hr := IH (fun y Hy => H y (or_intror Hy))).
  apply String.eqb_neq in Hx.
  destruct (runs key r) as [|[k' xs] rest]; cbn in *.
  - rewrite Hx. reflexivity.
  - destruct (String.eqb k' (key x)) eqn:E; cbn.
    + apply String.eqb_eq in E. subst k'. rewrite Hx in *. exact Hr.
    + rewrite Hx. exact Hr.
Qed.

Lemma runs_skip : forall key k a l, (forall x, In x a -> key x <> k) ->
  filter (fun e : string * list item => String.eqb (fst e) k) (runs key (a ++ l)) =
  filter (fun e => String.eqb (fst e) k) (runs key l).
Proof.
  intros key k a l. induction a as [|x r IH]; intros H; cbn; auto.
  assert (Hx : key x <> k) by (apply H; left; reflexivity).
  assert (Hr := IH (fun y Hy => H y (or_intror Hy))).
  apply String.eqb_neq in Hx. rewrite <- Hr.
  destruct (runs key (r ++ l)) as [|[k' xs] rest]; cbn in *.
  - rewrite Hx. reflexivity.
  - destruct (String.eqb k' (key x)) eqn:E; cbn.
    + apply String.eqb_eq in E. subst k'. rewrite Hx. reflexivity.
    + rewrite Hx. reflexivity.
Qed.

Lemma runs_here : forall key k b c, (forall x, In x b -> key x = k) ->
  (forall x, In x c -> key x <> k) -> b <> [] ->
  exists rest, runs key (b ++ c) = (k, map INode b) :: rest /\
    filter (fun e : string * list item => String.eqb (fst e) k) rest = [].
Proof.
  intros key k b c Hb Hc. induction b as [|x r IH]; intros Hne; [congruence|].
  assert (Hx : key x = k) by (apply Hb; left; reflexivity).
  destruct r as [|y r].
  - cbn. assert (Ho := runs_other key k c Hc).
    destruct (runs key c) as [|[k' xs] rest] eqn:E; cbn in *.
    + rewrite Hx. exists []. auto.
    + rewrite Hx. destruct (String.eqb k' k) eqn:E2.
      * discriminate.
      * exists ((k', xs) :: rest). cbn. rewrite E2. auto.
  - destruct IH as [rest [IH Hf]]; [intros z Hz; apply Hb; right; exact Hz | discriminate |].
    change ((x :: y :: r) ++ c)%list with (x :: ((y :: r) ++ c))%list.
    cbn [runs]. rewrite IH. rewrite Hx, String.eqb_refl. exists rest. auto.
Qed.

Lemma runs_together : forall key k a b c, (forall x, In x a -> key x <> k) ->
  (forall x, In x b -> key x = k) -> (forall x, In x c -> key x <> k) ->
  filter (fun e : string * list item => String.eqb (fst e) k) (runs key (a ++ b ++ c)) =
  match b with [] => [] | _ => [(k, map INode b)] end.
Proof.
  intros key k a b c Ha Hb Hc. rewrite (runs_skip key k a (b ++ c) Ha).
  destruct b as [|x r].
  - apply (runs_other key k c Hc).
  - destruct (runs_here key k (x :: r) c Hb Hc) as [rest [E F]]; [discriminate|].
    rewrite E. cbn [filter fst]. rewrite String.eqb_refl, F. reflexivity.
Qed.

Lemma runs_all : forall key k l,
  concat (map snd (filter (fun e : string * list item => String.eqb (fst e) k) (runs key l))) =
  map INode (filter (fun x => String.eqb (key x) k) l).
Proof.
  intros key k l. induction l as [|x r IH]; cbn; auto.
  destruct (runs key r) as [|[k' xs] rest] eqn:E; cbn in *.
  - destruct (String.eqb (key x) k); cbn; [rewrite <- IH|exact IH]; reflexivity.
  - destruct (String.eqb k' (key x)) eqn:E1; cbn.
    + apply String.eqb_eq in E1. subst k'.
      destruct (String.eqb (key x) k); cbn in *; [rewrite <- IH; reflexivity|exact IH].
    + destruct (String.eqb (key x) k) eqn:E2; cbn in *; [rewrite <- IH; reflexivity|exact IH].
Qed.

(* --- keys --- *)

Lemma attr_key_inj : forall a b, attr_key a = attr_key b -> a = b.
Proof. unfold attr_key. intros a b H. cbn in H. injection H. auto. Qed.

Lemma plain_not_attr : forall s a, plain_name s -> s <> attr_key a.
Proof. intros [|c s] a P E; cbn in *; [discriminate|]. injection E as E1 _. destruct P as [P _]. congruence. Qed.

Lemma plain_not_dollar : forall s r, plain_name s -> s <> String "$"%char r.
Proof. intros [|c s] r P E; [discriminate|]. injection E as E1 _. destruct P as [_ P]. congruence. Qed.

Lemma existsb_eqb : forall k l, existsb (String.eqb k) l = true <-> In k l.
Proof.
  intros k l. rewrite existsb_exists. split.
  - intros [x [Hx E]]. apply String.eqb_eq in E. subst. exact Hx.
  - intros H. exists k. split; [exact H|apply String.eqb_refl].
Qed.

Lemma existsb_eqb_false : forall k l, existsb (String.eqb k) l = false <-> ~ In k l.
Proof.
  intros k l. rewrite <- existsb_eqb. destruct (existsb (String.eqb k) l); split; congruence.
Qed.

Lemma attrs_filter_key : forall k (atts : list attribute),
  filter (fun e : string * list item => String.eqb (fst e) k)
    (map (fun a => (attr_key (at_local a), [IAttr (at_value a)])) atts) =
  map (fun a => (attr_key (at_local a), [IAttr (at_value a)]))
    (filter (fun a => String.eqb (attr_key (at_local a)) k) atts).
Proof.
  intros k atts. induction atts as [|a r IH]; [reflexivity|]. cbn [filter map fst].
  destruct (String.eqb (attr_key (at_local a)) k); cbn [map]; rewrite IH; reflexivity.
Qed.

Lemma filter_none : forall {A} (f : A -> bool) l, (forall x, In x l -> f x = false) -> filter f l = [].
Proof.
  intros A f l. induction l as [|x r IH]; cbn; auto. intros H.
  rewrite (H x (or_introl eq_refl)). apply IH. intros y Hy. apply H. right. exact Hy.
Qed.

Lemma filter_all : forall {A} (f : A -> bool) l, (forall x, In x l -> f x = true) -> filter f l = l.
Proof.
  intros A f l. induction l as [|x r IH]; cbn; auto. intros H.
  rewrite (H x (or_introl eq_refl)). f_equal. apply IH. intros y Hy. apply H. right. exact Hy.
Qed.

Lemma filter_unique : forall {A} (f : A -> bool) l x, NoDup l -> In x l -> f x = true ->
  (forall y, In y l -> f y = true -> y = x) -> filter f l = [x].
Proof.
  intros A f l x N. induction N as [|y r Hy N IH]; intros Hx Fx U; [destruct Hx|]. cbn.
  destruct Hx as [Hx|Hx].
  - subst y. rewrite Fx. f_equal. apply filter_none. intros z Hz.
    destruct (f z) eqn:E; auto. exfalso. apply Hy. rewrite <- (U z (or_intror Hz) E). exact Hz.
  - destruct (f y) eqn:E.
    + exfalso. apply Hy. rewrite (U y (or_introl eq_refl) E). exact Hx.
    + apply IH; auto. intros z Hz. apply U. right. exact Hz.
Qed.

Lemma NoDup_map_inv' : forall {A B} (f : A -> B) l x y, NoDup (map f l) -> In x l -> In y l -> f x = f y -> x = y.
Proof.
  intros A B f l x y N. induction l as [|z r IH]; cbn in *; [tauto|].
  inversion_clear N as [|? ? Hz Nr]. intros [Hx|Hx] [Hy|Hy] E; subst; auto.
  - exfalso. apply Hz. rewrite E. apply in_map. exact Hy.
  - exfalso. apply Hz. rewrite <- E. apply in_map. exact Hx.
Qed.

Section Proofs.
  Variable T V : Type.
  Variable read_text : T -> string -> option V.
  Variable read_node : T -> node -> option V.
  Variable read_empty : T -> option (option V).
  Variable read_repeated : T -> node -> option V.
  Variable trait_default : T -> option V.

  Notation conv := (SerdeModel.conv T V read_text read_node read_empty read_repeated trait_default).
  Notation trait := (SerdeModel.trait T V trait_default).
  Notation fields_of := (read_fields T V (val V) conv VNamed trait).

  (* The value of one field, when its key has not been seen. *)
  Definition value_of (es : list (string * list item)) (f : field T V) : option (fval (val V)) :=
    match filter (fun e => String.eqb (fst e) (f_key T V f)) es with
    | [] => missing T V (val V) VNamed trait f
    | [e] => convert T V (val V) conv f (snd e)
    | _ => None
    end.

  Lemma read_fields_spec : forall es fields seen,
    NoDup (map (f_key T V) fields) -> (forall f, In f fields -> ~ In (f_key T V f) seen) ->
    fields_of seen fields es = all_some (value_of es) fields.
  Proof.
    intros es fields. induction fields as [|f r IH]; intros seen N D; cbn; auto.
    cbn in N. inversion_clear N as [|? ? Nf Nr].
    assert (Hs := D f (or_introl eq_refl)). apply existsb_eqb_false in Hs. rewrite Hs.
    rewrite (IH (f_key T V f :: seen)); auto.
    intros g Hg [E|Hi].
    - apply Nf. rewrite E. apply in_map. exact Hg.
    - apply (D g (or_intror Hg) Hi).
  Qed.

  Lemma all_some_forall2 : forall {A B} (f : A -> option B) l ys,
    all_some f l = Some ys <-> Forall2 (fun x y => f x = Some y) l ys.
  Proof.
    intros A B f l. induction l as [|x r IH]; intros ys; cbn; split.
    - intros H. injection H as <-. constructor.
    - intros H. inversion H. reflexivity.
    - destruct (f x) as [y|] eqn:E; [|discriminate].
      destruct (all_some f r) as [zs|] eqn:E2; [|discriminate].
      intros H. injection H as <-. constructor; auto. apply IH. reflexivity.
    - intros H. inversion H as [|? y ? zs Hy Hr]; subst. rewrite Hy. apply IH in Hr. rewrite Hr. reflexivity.
  Qed.

  Lemma all_some_app : forall {A B} (f : A -> option B) l1 l2 y1 y2,
    all_some f l1 = Some y1 -> all_some f l2 = Some y2 -> all_some f (l1 ++ l2) = Some (y1 ++ y2)%list.
  Proof.
    intros A B f l1 l2 y1 y2 H1 H2. apply all_some_forall2. apply all_some_forall2 in H1, H2.
    apply Forall2_app; assumption.
  Qed.

  Lemma all_some_app_inv : forall {A B} (f : A -> option B) l1 l2 ys,
    all_some f (l1 ++ l2) = Some ys ->
    exists y1 y2, ys = (y1 ++ y2)%list /\ all_some f l1 = Some y1 /\ all_some f l2 = Some y2.
  Proof.
    intros A B f l1 l2 ys H. apply all_some_forall2 in H. apply Forall2_app_inv_l in H.
    destruct H as [y1 [y2 [H1 [H2 E]]]]. exists y1, y2. split; [exact E|].
    split; apply all_some_forall2; assumption.
  Qed.

  Lemma filter_map_forall2 : forall {A B C} (f : A -> option B) (R : B -> C -> Prop) l ys,
    Forall2 R (filter_map f l) ys <->
    Forall2 (fun x y => exists b, f x = Some b /\ R b y) (filter (fun x => match f x with Some _ => true | None => false end) l) ys.
  Proof.
    intros A B C f R l. induction l as [|x r IH]; intros ys; cbn.
    - split; intros H; inversion H; constructor.
    - destruct (f x) as [b|] eqn:E; [|apply IH]. split; intros H; inversion H as [|? y ? zs Hy Hr]; subst.
      + constructor; [exists b; auto|apply IH; exact Hr].
      + destruct Hy as [b' [E' Hy]]. rewrite E in E'. injection E' as <-. constructor; [exact Hy|apply IH; exact Hr].
  Qed.

  (* --- attributes --- *)

  Definition attr_field (d : attr_decl T V) : field T V :=
    match render_attr T V d with Some f => f | None => Field T V "" (DNo V) OSingle (TNamed T (a_type T V d)) end.

  Lemma render_attrs : forall attrs, filter_map (render_attr T V) attrs = map attr_field (allowed T V attrs).
  Proof.
    intros attrs. induction attrs as [|d r IH]; [reflexivity|].
    cbn [filter_map]. unfold allowed. cbn [filter]. fold (allowed T V r). rewrite IH.
    assert (Ef : forall f, render_attr T V d = Some f -> attr_field d = f) by (intros f E; unfold attr_field; rewrite E; reflexivity).
    assert (En : render_attr T V d = None <-> a_use T V d = Prohibited)
      by (unfold render_attr; destruct (a_use T V d); split; congruence).
    destruct (render_attr T V d) as [f|] eqn:E.
    - rewrite <- (Ef f eq_refl). destruct (a_use T V d); try reflexivity. pose proof (proj2 En eq_refl). discriminate.
    - rewrite (proj1 En eq_refl). reflexivity.
  Qed.

  Lemma attr_field_key : forall attrs d, In d (allowed T V attrs) -> f_key T V (attr_field d) = attr_key (a_local T V d).
  Proof.
    intros attrs d H. apply filter_In in H. destruct H as [_ H]. unfold attr_field, render_attr.
    destruct (a_use T V d); try discriminate; reflexivity.
  Qed.

  Lemma attr_keys : forall attrs,
    map (f_key T V) (filter_map (render_attr T V) attrs) = map (fun d => attr_key (a_local T V d)) (allowed T V attrs).
  Proof.
    intros attrs. rewrite render_attrs, map_map. apply map_ext_in. intros d H. eapply attr_field_key; exact H.
  Qed.

  (* The entries of the attributes do not meet those of the nodes. *)
  Definition node_keys_plain (keys : list string) (nodes : list node) : Prop :=
    forall n a, In n nodes -> node_key keys n <> attr_key a.

  Lemma attr_entries : forall keys atts nodes d, node_keys_plain keys nodes ->
    filter (fun e => String.eqb (fst e) (attr_key (a_local T V d))) (entries keys atts nodes) =
    map (fun a => (attr_key (at_local a), [IAttr (at_value a)]))
      (filter (fun a => String.eqb (at_local a) (a_local T V d)) atts).
  Proof.
    intros keys atts nodes d P. unfold entries. rewrite filter_app, attrs_filter_key.
    rewrite (runs_other (node_key keys) (attr_key (a_local T V d)) nodes) by (intros x Hx; apply P; exact Hx).
    rewrite app_nil_r. reflexivity.
  Qed.

  Lemma attr_reads : forall attrs atts keys nodes d fv,
    attrs_distinct T V attrs atts -> In d (allowed T V attrs) -> node_keys_plain keys nodes ->
    attr_value T V read_text atts d fv ->
    value_of (entries keys atts nodes) (attr_field d) = Some fv.
  Proof.
    intros attrs atts keys nodes d fv [N U] Hd P A.
    unfold value_of. rewrite (attr_field_key attrs d Hd). rewrite (attr_entries keys atts nodes d P).
    assert (Hp : forall a, In a atts -> is_attr T V d a ->
              filter (fun a0 => String.eqb (at_local a0) (a_local T V d)) atts = [a]).
    { intros a Ha [I1 I2]. apply filter_unique; auto.
      - apply (NoDup_map_inv _ _ N).
      - apply String.eqb_eq. exact I2.
      - intros y Hy E. apply String.eqb_eq in E.
        apply (NoDup_map_inv' _ _ _ _ N Hy Ha). cbn.
        rewrite <- (U y d Hy Hd (eq_sym E)), I1, E, I2. reflexivity. }
    assert (Hn : (forall a, In a atts -> ~ is_attr T V d a) ->
              filter (fun a0 => String.eqb (at_local a0) (a_local T V d)) atts = []).
    { intros H. apply filter_none. intros a Ha. apply String.eqb_neq. intros E.
      apply (H a Ha). split; [|exact E]. symmetry. apply (U a d Ha Hd). symmetry. exact E. }
    apply filter_In in Hd. destruct Hd as [_ Hd].
    inversion A; subst.
    - rewrite (Hp _ H H0). cbn [map snd]. unfold attr_field, render_attr.
      destruct (a_use T V d); try discriminate.
      + cbn. rewrite H1. reflexivity.
      + destruct (a_default T V d) as [v'|] eqn:E.
        * cbn. rewrite H1. reflexivity.
        * destruct H2; congruence.
    - rewrite (Hp _ H H0). cbn [map snd]. unfold attr_field, render_attr. rewrite H3, H4. cbn.
      destruct (String.eqb (at_value a) "") eqn:E; [apply String.eqb_eq in E; congruence|].
      rewrite H1. reflexivity.
    - rewrite (Hn H). cbn [map]. unfold attr_field, render_attr. rewrite H0.
      destruct (a_use T V d); try discriminate; reflexivity.
    - rewrite (Hn H). cbn [map]. unfold attr_field, render_attr. rewrite H0, H1. reflexivity.
  Qed.

  Lemma Forall2_in : forall {A B} (R R' : A -> B -> Prop) l ys,
    (forall x y, In x l -> R x y -> R' x y) -> Forall2 R l ys -> Forall2 R' l ys.
  Proof.
    intros A B R R' l ys H F. induction F as [|x y l ys Hxy F IH]; constructor.
    - apply H; [left; reflexivity|exact Hxy].
    - apply IH. intros z w Hz. apply H. right. exact Hz.
  Qed.

  Lemma Forall2_map_l : forall {A B C} (g : A -> B) (R : B -> C -> Prop) l ys,
    Forall2 R (map g l) ys <-> Forall2 (fun x y => R (g x) y) l ys.
  Proof.
    intros A B C g R l. induction l as [|x r IH]; intros ys; cbn; split; intros H; inversion H; subst; constructor; auto;
      apply IH; assumption.
  Qed.

  Lemma attrs_read : forall attrs atts keys nodes avs,
    attrs_distinct T V attrs atts -> node_keys_plain keys nodes ->
    Forall2 (attr_value T V read_text atts) (allowed T V attrs) avs ->
    all_some (value_of (entries keys atts nodes)) (filter_map (render_attr T V) attrs) = Some avs.
  Proof.
    intros attrs atts keys nodes avs D P F. rewrite render_attrs. apply all_some_forall2.
    apply Forall2_map_l. revert F. apply Forall2_in. intros d fv Hd Hv.
    apply (attr_reads attrs atts keys nodes d fv D Hd P Hv).
  Qed.

  (* --- elements --- *)

  Definition elem_field (d : elem_decl T) : field T V :=
    match render_elem T V d with Some f => f | None => Field T V "" (DNo V) OSingle (TNamed T (e_type T d)) end.

  Lemma from_occurs_none : forall min max, (match max with Bounded m => min <= m | Unbounded => True end) ->
    (from_occurs min max = ONone <-> max = Bounded 0).
  Proof.
    intros [|[|min]] [|[|[|m]]] B; cbn; split; intros H; try discriminate; try reflexivity; try lia.
    all: destruct (Nat.eqb min m); discriminate.
  Qed.

  Lemma elem_occurs_none : forall d, bounds_ok T d -> (elem_occurs T d = ONone <-> e_max T d = Bounded 0).
  Proof.
    intros d B. unfold elem_occurs. rewrite <- (from_occurs_none (e_min T d) (e_max T d) B).
    destruct (from_occurs (e_min T d) (e_max T d)); try tauto. destruct (e_emptiable T d); split; discriminate.
  Qed.

  Lemma render_elems_spec : forall elems, (forall d, In d elems -> bounds_ok T d) ->
    render_elems T V elems = map elem_field (occurring T elems).
  Proof.
    intros elems. induction elems as [|d r IH]; intros B; [reflexivity|].
    unfold render_elems in *. cbn [filter_map occurring filter].
    assert (Hd := elem_occurs_none d (B d (or_introl eq_refl))).
    fold (occurring T r). rewrite (IH (fun x Hx => B x (or_intror Hx))).
    destruct (render_elem T V d) as [f|] eqn:E.
    - assert (Ho : elem_occurs T d <> ONone) by (intros E2; unfold render_elem in E; rewrite E2 in E; discriminate).
      assert (Ef : elem_field d = f) by (unfold elem_field; rewrite E; reflexivity). rewrite <- Ef.
      destruct (e_max T d) as [|[|m]] eqn:Em; [|tauto|]; reflexivity.
    - assert (Ho : elem_occurs T d = ONone) by (unfold render_elem in E; destruct (elem_occurs T d); congruence).
      apply Hd in Ho. rewrite Ho. reflexivity.
  Qed.

  Lemma elem_field_key : forall d, bounds_ok T d -> e_max T d <> Bounded 0 -> f_key T V (elem_field d) = e_local T d.
  Proof.
    intros d B H. assert (Hn := elem_occurs_none d B). unfold elem_field, render_elem.
    destruct (elem_occurs T d); try reflexivity. tauto.
  Qed.

  Lemma occurring_in : forall elems d, In d (occurring T elems) <-> In d elems /\ e_max T d <> Bounded 0.
  Proof.
    intros elems d. unfold occurring. rewrite filter_In.
    destruct (e_max T d) as [|[|m]]; split; intros [H1 H2]; split; auto; congruence.
  Qed.

  (* Keys of nodes for a struct without a field "$value". *)
  Lemma node_key_element : forall keys ns l a c, ~ In "$value" keys -> node_key keys (Element ns l a c) = l.
  Proof.
    intros keys ns l a c H. unfold node_key. apply existsb_eqb_false in H. rewrite H.
    destruct (existsb (String.eqb l) keys); reflexivity.
  Qed.
  Lemma node_key_text : forall keys s, ~ In "$value" keys -> node_key keys (Text s) = "$text".
  Proof. intros keys s H. unfold node_key. apply existsb_eqb_false in H. rewrite H. reflexivity. Qed.

  Definition plain_node (n : node) : Prop := match n with Element _ l _ _ => plain_name l | Text _ => True end.

  Lemma keys_plain : forall keys nodes, ~ In "$value" keys -> Forall plain_node nodes -> node_keys_plain keys nodes.
  Proof.
    intros keys nodes H F n a Hn E. rewrite Forall_forall in F. specialize (F n Hn).
    destruct n as [ns l at' c|s].
    - rewrite node_key_element in E by exact H. apply (plain_not_attr l a F E).
    - rewrite node_key_text in E by exact H. discriminate.
  Qed.

  (* The nodes of an element follow each other. *)
  Definition together (d : elem_decl T) (nodes b : list node) : Prop :=
    exists a c, nodes = (a ++ b ++ c)%list /\ Forall (named (e_ns T d) (e_local T d)) b /\
      forall x, In x (a ++ c) -> has_local (e_local T d) x = false.

  Lemma named_is : forall ns l n, named ns l n <-> is_named ns l n = true.
  Proof.
    intros ns l [ns' l' a c|s]; cbn; [|split; [tauto|discriminate]].
    rewrite andb_true_iff, !String.eqb_eq. reflexivity.
  Qed.

  Lemma together_filter : forall d nodes b, together d nodes b ->
    filter (is_named (e_ns T d) (e_local T d)) nodes = b.
  Proof.
    intros d nodes b [a [c [E [F H]]]]. subst nodes. rewrite !filter_app.
    assert (Hf : forall x, has_local (e_local T d) x = false -> is_named (e_ns T d) (e_local T d) x = false).
    { intros [ns l at' c'|s] Hx; cbn in *; auto. rewrite Hx. apply andb_false_r. }
    rewrite (filter_none _ a), (filter_none _ c), (filter_all _ b), app_nil_r; auto.
    - intros x Hx. apply named_is. rewrite Forall_forall in F. apply F. exact Hx.
    - intros x Hx. apply Hf, H, in_or_app. right. exact Hx.
    - intros x Hx. apply Hf, H, in_or_app. left. exact Hx.
  Qed.

  Lemma elem_entries : forall keys atts nodes d b, ~ In "$value" keys -> plain_name (e_local T d) ->
    together d nodes b ->
    filter (fun e => String.eqb (fst e) (e_local T d)) (entries keys atts nodes) =
    match b with [] => [] | _ => [(e_local T d, map INode b)] end.
  Proof.
    intros keys atts nodes d b K P [a [c [E [F H]]]]. subst nodes. unfold entries.
    rewrite filter_app, attrs_filter_key.
    rewrite (filter_none (fun a0 : attribute => String.eqb (attr_key (at_local a0)) (e_local T d))).
    2:{ intros x _. apply String.eqb_neq. intros E. apply (plain_not_attr _ (at_local x) P). symmetry. exact E. }
    cbn [map app]. apply runs_together.
    - intros x Hx. assert (Hl := H x (in_or_app _ _ _ (or_introl Hx))). destruct x as [ns l a' c'|s].
      + rewrite node_key_element by exact K. apply String.eqb_neq. exact Hl.
      + rewrite node_key_text by exact K. intros E. apply (plain_not_dollar _ "text" P). symmetry. exact E.
    - intros x Hx. rewrite Forall_forall in F. specialize (F x Hx). destruct x as [ns l a' c'|s]; [|destruct F].
      rewrite node_key_element by exact K. apply F.
    - intros x Hx. assert (Hl := H x (in_or_app _ _ _ (or_intror Hx))). destruct x as [ns l a' c'|s].
      + rewrite node_key_element by exact K. apply String.eqb_neq. exact Hl.
      + rewrite node_key_text by exact K. intros E. apply (plain_not_dollar _ "text" P). symmetry. exact E.
  Qed.

  Lemma conv_node : forall opt t ns l a c v, read_node t (Element ns l a c) = Some v ->
    conv opt (TNamed T t) (INode (Element ns l a c)) = Some (Some (VNamed v)).
  Proof. intros opt t ns l a c v H. cbn. rewrite H. reflexivity. Qed.

  Lemma conv_list : forall t b vs, Forall (fun n => exists ns l, named ns l n) b ->
    Forall2 (fun n v => read_node t n = Some v) b vs ->
    all_some (fun x => match conv false (TNamed T t) x with Some o => o | None => None end) (map INode b) =
    Some (map VNamed vs).
  Proof.
    intros t b vs Fn F. induction F as [|n v b vs Hv F IH]; [reflexivity|].
    inversion_clear Fn as [|? ? [ns [l Hn]] Fr]. destruct n as [ns' l' a c|s]; [|destruct Hn].
    cbn [map all_some]. rewrite (conv_node false t ns' l' a c v Hv), (IH Fr). reflexivity.
  Qed.

  Lemma elem_reads : forall keys atts nodes d b fv, ~ In "$value" keys -> plain_name (e_local T d) ->
    together d nodes b -> in_bounds (e_min T d) (e_max T d) (List.length b) -> e_max T d <> Bounded 0 ->
    elem_value T V read_node nodes d fv ->
    value_of (entries keys atts nodes) (elem_field d) = Some fv.
  Proof.
    intros keys atts nodes d b fv K P G B Z E.
    assert (Bo : bounds_ok T d).
    { unfold bounds_ok. destruct B as [B1 B2]. destruct (e_max T d); [exact Logic.I|lia]. }
    unfold value_of. rewrite (elem_field_key d Bo Z), (elem_entries keys atts nodes d b K P G).
    assert (Fb := together_filter d nodes b G).
    assert (Fn : Forall (fun n => exists ns l, named ns l n) b).
    { destruct G as [a [c [_ [F _]]]]. revert F. apply Forall_impl. intros n Hn. eauto. }
    inversion E; subst fv.
    - rewrite Fb in H. rewrite H in *. inversion_clear Fn as [|? ? [ns [l Hn]] _].
      destruct n as [ns' l' a c|s]; [|destruct Hn].
      unfold elem_field, render_elem, elem_occurs. rewrite H1, H2, H3. cbn. rewrite H0. reflexivity.
    - rewrite Fb in H. rewrite H in *. inversion_clear Fn as [|? ? [ns [l Hn]] _].
      destruct n as [ns' l' a c|s]; [|destruct Hn].
      assert (Ho : elem_occurs T d = OOptional).
      { unfold elem_occurs. rewrite H1. destruct B as [B1 _]. cbn in B1.
        destruct (e_min T d) as [|[|m]]; [reflexivity| |lia]. cbn. destruct H2 as [H2|H2]; [discriminate|].
        rewrite H2. reflexivity. }
      unfold elem_field, render_elem. rewrite Ho. cbn. rewrite H0. reflexivity.
    - rewrite Fb in H. rewrite H in *. unfold elem_field, render_elem, elem_occurs. rewrite H0, H1. reflexivity.
    - rewrite Fb in H.
      assert (Ho : (elem_occurs T d = ODynamic) \/ (elem_occurs T d = OStatic (List.length b) /\ b <> [])).
      { unfold elem_occurs. destruct B as [B1 B2]. destruct (e_max T d) as [|m] eqn:Em.
        - destruct (e_min T d) as [|[|k]]; left; reflexivity.
        - destruct m as [|[|m]]; try congruence. destruct (e_min T d) as [|[|k]] eqn:Ek; cbn; auto.
          destruct (Nat.eqb k m) eqn:Q'; [|auto]. right. apply Nat.eqb_eq in Q'. subst k.
          assert (List.length b = S (S m)) by lia. rewrite H1. split; [reflexivity|].
          intros Hb. rewrite Hb in H1. discriminate. }
      assert (Hc := conv_list (e_type T d) b vs Fn H).
      destruct Ho as [Ho|[Ho Hb]].
      + unfold elem_field, render_elem. rewrite Ho. destruct b as [|n b].
        * inversion H; subst. reflexivity.
        * cbn [snd]. unfold convert. cbn [f_occurs f_type]. rewrite Hc. reflexivity.
      + unfold elem_field, render_elem. rewrite Ho. destruct b as [|n b]; [congruence|].
        cbn [snd]. unfold convert. cbn [f_occurs f_type]. rewrite map_length, Nat.eqb_refl, Hc. reflexivity.
  Qed.

  (* --- groups --- *)

  Lemma seq_named : forall elems nodes, seq_valid T elems nodes ->
    forall n, In n nodes -> exists d, In d (occurring T elems) /\ named (e_ns T d) (e_local T d) n.
  Proof.
    intros elems nodes S'. induction S' as [|d ds xs rest F B S' IH]; intros n Hn; [destruct Hn|].
    apply in_app_or in Hn. destruct Hn as [Hn|Hn].
    - exists d. rewrite Forall_forall in F. split; [|apply F; exact Hn]. apply occurring_in. split; [left; reflexivity|].
      intros E. rewrite E in B. destruct B as [_ B]. destruct xs; [destruct Hn|cbn in B; lia].
    - destruct (IH n Hn) as [d' [H1 H2]]. exists d'. split; [|exact H2].
      apply occurring_in in H1. apply occurring_in. split; [right|]; apply H1.
  Qed.

  Lemma named_local : forall ns l n, named ns l n -> has_local l n = true.
  Proof. intros ns l [ns' l' a c|s] H; [|destruct H]. apply String.eqb_eq. apply H. Qed.

  Lemma has_local_eq : forall ns l l' n, named ns l n -> has_local l' n = true -> l = l'.
  Proof. intros ns l l' [ns2 l2 a c|s] H E; [|destruct H]. cbn in E. apply String.eqb_eq in E. destruct H. congruence. Qed.

  Lemma seq_together : forall elems nodes, seq_valid T elems nodes -> NoDup (map (e_local T) (occurring T elems)) ->
    forall d, In d (occurring T elems) ->
    exists b, together d nodes b /\ in_bounds (e_min T d) (e_max T d) (List.length b).
  Proof.
    intros elems nodes S'. induction S' as [|d ds xs rest F B S' IH]; intros N e He; [destruct He|].
    assert (Hz : xs <> [] -> In d (occurring T (d :: ds))).
    { intros Hx. apply occurring_in. split; [left; reflexivity|]. intros E. rewrite E in B. destruct B as [_ B].
      destruct xs; [congruence|cbn in B; lia]. }
    assert (Hocc : occurring T (d :: ds) = (if match e_max T d with Bounded 0 => false | _ => true end then d :: occurring T ds else occurring T ds)) by reflexivity.
    destruct (match e_max T d with Bounded 0 => false | _ => true end) eqn:Ed.
    - rewrite Hocc in *. cbn in N. inversion_clear N as [|? ? Nd Nr]. destruct He as [He|He].
      + subst e. exists xs. split; [|exact B]. exists [], rest. split; [reflexivity|]. split; [exact F|].
        intros x Hx. destruct (has_local (e_local T d) x) eqn:E; auto. exfalso.
        destruct (seq_named ds rest S' x Hx) as [d' [H1 H2]].
        apply Nd. rewrite <- (has_local_eq _ _ _ _ H2 E). apply in_map. exact H1.
      + destruct (IH Nr e He) as [b [[a [c [E1 [E2 E3]]]] Hb]]. exists b. split; [|exact Hb].
        exists (xs ++ a)%list, c. split; [rewrite E1, app_assoc; reflexivity|]. split; [exact E2|].
        intros x Hx. rewrite <- app_assoc in Hx. apply in_app_or in Hx. destruct Hx as [Hx|Hx]; [|apply E3; exact Hx].
        destruct (has_local (e_local T e) x) eqn:E; auto. exfalso. rewrite Forall_forall in F.
        apply Nd. rewrite (has_local_eq _ _ _ _ (F x Hx) E). apply in_map. exact He.
    - rewrite Hocc in *. assert (xs = []).
      { destruct xs as [|x xs]; [reflexivity|]. assert (In d (occurring T ds)) as Hd by (apply Hz; discriminate).
        apply occurring_in in Hd. destruct Hd as [_ Hd]. destruct (e_max T d) as [|[|m]]; congruence. }
      subst xs. cbn [app]. apply IH; assumption.
  Qed.

  Lemma all_together : forall elems nodes, all_valid T elems nodes -> NoDup (map (e_local T) (occurring T elems)) ->
    forall d, In d (occurring T elems) ->
    exists b, together d nodes b /\ in_bounds (e_min T d) (e_max T d) (List.length b).
  Proof.
    intros elems nodes [N1 [A1 A2]] N d Hd.
    assert (Hn : forall n, In n nodes -> exists d', In d' (occurring T elems) /\ named (e_ns T d') (e_local T d') n).
    { intros n Hn. destruct (A1 n Hn) as [d' [H1 H2]]. exists d'. split; [|exact H2]. apply occurring_in.
      split; [exact H1|]. intros E. destruct (A2 d' H1) as [_ H3]. rewrite E in H3.
      assert (Hf : In n (filter (is_named (e_ns T d') (e_local T d')) nodes)) by (apply filter_In; split; [exact Hn|apply named_is; exact H2]).
      destruct (filter (is_named (e_ns T d') (e_local T d')) nodes); [destruct Hf|cbn in H3; lia]. }
    assert (Hl : forall n, In n nodes -> has_local (e_local T d) n = true -> named (e_ns T d) (e_local T d) n).
    { intros n H E. destruct (Hn n H) as [d' [H1 H2]].
      rewrite <- (NoDup_map_inv' _ _ _ _ N H1 Hd (has_local_eq _ _ _ _ H2 E)). exact H2. }
    assert (G : exists b, together d nodes b).
    { destruct (filter (is_named (e_ns T d) (e_local T d)) nodes) as [|n r] eqn:Ef.
      - exists []. exists nodes, []. split; [rewrite app_nil_r; reflexivity|]. split; [constructor|].
        intros x Hx. rewrite app_nil_r in Hx. destruct (has_local (e_local T d) x) eqn:E; auto. exfalso.
        assert (Hf : In x []) by (rewrite <- Ef; apply filter_In; split; [exact Hx|apply named_is, Hl; assumption]).
        destruct Hf.
      - assert (Hi : In n (filter (is_named (e_ns T d) (e_local T d)) nodes)) by (rewrite Ef; left; reflexivity).
        apply filter_In in Hi. destruct Hi as [Hi Hi2]. apply named_is in Hi2.
        destruct (in_split n nodes Hi) as [a [c E]]. exists [n]. exists a, c. split; [exact E|].
        split; [repeat constructor; exact Hi2|].
        intros x Hx. destruct (has_local (e_local T d) x) eqn:El; auto. exfalso.
        assert (Hx' : In x nodes) by (rewrite E; apply in_app_or in Hx; apply in_or_app; cbn; tauto).
        assert (Hx2 := Hl x Hx' El).
        assert (Es : node_name n = node_name x).
        { destruct n, x; try destruct Hi2; try destruct Hx2. cbn. congruence. }
        rewrite E, map_app in N1. cbn in N1. apply NoDup_remove_2 in N1. apply N1. rewrite <- map_app, Es.
        apply in_map. exact Hx. }
    destruct G as [b G]. exists b. split; [exact G|].
    rewrite <- (together_filter d nodes b G). apply A2. apply occurring_in in Hd. apply Hd.
  Qed.

  Lemma NoDup_app' : forall {A} (l1 l2 : list A), NoDup l1 -> NoDup l2 -> (forall x, In x l1 -> ~ In x l2) -> NoDup (l1 ++ l2).
  Proof.
    intros A l1 l2 N1 N2 D. induction N1 as [|x r Hx N1 IH]; cbn; auto. constructor.
    - intros H. apply in_app_or in H. destruct H as [H|H]; [tauto|]. apply (D x (or_introl eq_refl) H).
    - apply IH. intros y Hy. apply D. right. exact Hy.
  Qed.

  Lemma attr_keys_nodup : forall attrs, NoDup (map (a_local T V) (allowed T V attrs)) ->
    NoDup (map (fun d => attr_key (a_local T V d)) (allowed T V attrs)).
  Proof.
    intros attrs N. rewrite <- (map_map (a_local T V) attr_key).
    apply FinFun.Injective_map_NoDup; [|exact N]. intros x y. apply attr_key_inj.
  Qed.

  Definition group_keys (attrs : list (attr_decl T V)) (elems : list (elem_decl T)) : list string :=
    (map (fun d => attr_key (a_local T V d)) (allowed T V attrs) ++ map (e_local T) (occurring T elems))%list.

  Lemma group_keys_eq : forall attrs elems, (forall d, In d elems -> bounds_ok T d) ->
    map (f_key T V) (filter_map (render_attr T V) attrs ++ render_elems T V elems) = group_keys attrs elems.
  Proof.
    intros attrs elems B. rewrite map_app, attr_keys, (render_elems_spec elems B), map_map. unfold group_keys.
    f_equal. apply map_ext_in. intros d Hd. apply occurring_in in Hd. apply elem_field_key; [apply B|]; apply Hd.
  Qed.

  Lemma group_keys_nodup : forall attrs elems, NoDup (map (a_local T V) (allowed T V attrs)) ->
    NoDup (map (e_local T) (occurring T elems)) -> (forall d, In d elems -> plain_name (e_local T d)) ->
    NoDup (group_keys attrs elems).
  Proof.
    intros attrs elems N1 N2 P. apply NoDup_app'; [apply attr_keys_nodup; exact N1|exact N2|].
    intros x H1 H2. apply in_map_iff in H1, H2. destruct H1 as [d [E1 _]], H2 as [e [E2 He]].
    apply occurring_in in He. apply (plain_not_attr (e_local T e) (a_local T V d)); [apply P, He|congruence].
  Qed.

  Lemma group_keys_value : forall attrs elems, (forall d, In d elems -> plain_name (e_local T d)) ->
    ~ In "$value" (group_keys attrs elems).
  Proof.
    intros attrs elems P H. apply in_app_or in H. destruct H as [H|H]; apply in_map_iff in H; destruct H as [d [E Hd]].
    - discriminate.
    - apply occurring_in in Hd. apply (plain_not_dollar (e_local T d) "value"); [apply P, Hd|exact E].
  Qed.

  Lemma group_read : forall attrs elems ns l atts nodes avs evs,
    NoDup (map (a_local T V) (allowed T V attrs)) ->
    NoDup (map (e_local T) (occurring T elems)) ->
    (forall d, In d elems -> plain_name (e_local T d)) ->
    attrs_distinct T V attrs atts ->
    seq_valid T elems nodes \/ all_valid T elems nodes ->
    Forall2 (attr_value T V read_text atts) (allowed T V attrs) avs ->
    Forall2 (elem_value T V read_node nodes) (occurring T elems) evs ->
    read T V read_text read_node read_empty read_repeated trait_default true attrs
      (BGroup 1 (Bounded 1) elems) (Element ns l atts nodes) = Some (avs ++ evs)%list.
  Proof.
    intros attrs elems ns l atts nodes avs evs N1 N2 P D G FA FE.
    assert (Ht : forall d, In d (occurring T elems) ->
              exists b, together d nodes b /\ in_bounds (e_min T d) (e_max T d) (List.length b)).
    { destruct G as [G|G]; [apply seq_together|apply all_together]; assumption. }
    assert (Hn : forall n, In n nodes -> exists d, In d elems /\ named (e_ns T d) (e_local T d) n).
    { intros n Hn. destruct G as [G|G].
      - destruct (seq_named elems nodes G n Hn) as [d [H1 H2]]. exists d. split; [|exact H2]. apply occurring_in in H1. apply H1.
      - destruct G as [_ [G _]]. apply G. exact Hn. }
    assert (Bo : forall d, In d elems -> bounds_ok T d).
    { intros d Hd. unfold bounds_ok. destruct (e_max T d) as [|m] eqn:Em; [exact Logic.I|].
      assert (In d elems -> exists k, in_bounds (e_min T d) (e_max T d) k) as Hk.
      { clear -G. destruct G as [G|G].
        - induction G as [|d' ds xs rest F B G IH]; intros H; [destruct H|]. destruct H as [H|H]; [subst; eauto|auto].
        - intros H. destruct G as [_ [_ G]]. eauto. }
      destruct (Hk Hd) as [k [K1 K2]]. rewrite Em in K2. lia. }
    assert (Pn : Forall plain_node nodes).
    { apply Forall_forall. intros n H. destruct (Hn n H) as [d [Hd Hnd]]. destruct n as [ns' l' a c|s]; [|exact Logic.I].
      destruct Hnd as [_ Hnd]. subst l'. apply P. exact Hd. }
    unfold read, read_struct, render_struct, render_body. cbn [from_occurs].
    rewrite (group_keys_eq attrs elems Bo).
    assert (K := group_keys_value attrs elems P).
    rewrite read_fields_spec.
    - apply all_some_app.
      + apply attrs_read; auto. apply keys_plain; assumption.
      + rewrite (render_elems_spec elems Bo). apply all_some_forall2. apply Forall2_map_l. revert FE.
        apply Forall2_in. intros d fv Hd Hv. destruct (Ht d Hd) as [b [Hb1 Hb2]]. apply occurring_in in Hd.
        apply (elem_reads _ atts nodes d b fv K); auto; try apply P; apply Hd.
    - rewrite (group_keys_eq attrs elems Bo). apply group_keys_nodup; assumption.
    - intros f _ H. exact H.
  Qed.

  (* --- simple content --- *)

  Lemma text_read : forall attrs t b ns l atts s avs v,
    NoDup (map (a_local T V) (allowed T V attrs)) ->
    attrs_distinct T V attrs atts ->
    Forall2 (attr_value T V read_text atts) (allowed T V attrs) avs ->
    read_text t s = Some v ->
    forall flatten,
    read T V read_text read_node read_empty read_repeated trait_default flatten attrs
      (BSimple t b) (Element ns l atts [Text s]) = Some (avs ++ [FOne (VNamed v)])%list.
  Proof.
    intros attrs t b ns l atts s avs v N D FA R flatten.
    unfold read, read_struct, render_struct, render_body, render_content. cbn [from_occurs].
    rewrite map_app, attr_keys. cbn [map f_key].
    set (keys := (map _ _ ++ _)%list).
    assert (K : ~ In "$value" keys).
    { intros H. apply in_app_or in H. destruct H as [H|[H|[]]]; [|discriminate].
      apply in_map_iff in H. destruct H as [d [E _]]. discriminate. }
    rewrite read_fields_spec.
    - apply all_some_app.
      + apply attrs_read; auto. apply keys_plain; auto. repeat constructor.
      + cbn [all_some]. unfold value_of at 1. cbn [f_key]. unfold entries.
        rewrite filter_app, attrs_filter_key.
        rewrite (filter_none (fun a0 : attribute => String.eqb (attr_key (at_local a0)) "$text")) by reflexivity.
        cbn [map app runs]. rewrite (node_key_text keys s K). cbn. rewrite R. reflexivity.
    - rewrite map_app, attr_keys. cbn [map f_key]. apply NoDup_app'; [apply attr_keys_nodup; exact N|repeat constructor; intros []|].
      intros x H1 [H2|[]]. subst x. apply in_map_iff in H1. destruct H1 as [d [E _]]. discriminate.
    - intros f _ H. exact H.
  Qed.

  Lemma empty_text_read : forall attrs t ns l atts avs v,
    NoDup (map (a_local T V) (allowed T V attrs)) ->
    attrs_distinct T V attrs atts ->
    Forall2 (attr_value T V read_text atts) (allowed T V attrs) avs ->
    trait_default t = Some v ->
    forall flatten,
    read T V read_text read_node read_empty read_repeated trait_default flatten attrs
      (BSimple t true) (Element ns l atts []) = Some (avs ++ [FOne (VNamed v)])%list.
  Proof.
    intros attrs t ns l atts avs v N D FA R flatten.
    unfold read, read_struct, render_struct, render_body, render_content. cbn [from_occurs].
    rewrite map_app, attr_keys. cbn [map f_key].
    set (keys := (map _ _ ++ _)%list).
    rewrite read_fields_spec.
    - apply all_some_app.
      + apply attrs_read; auto. intros n a [].
      + cbn [all_some]. unfold value_of at 1. cbn [f_key]. unfold entries.
        rewrite filter_app, attrs_filter_key.
        rewrite (filter_none (fun a0 : attribute => String.eqb (attr_key (at_local a0)) "$text")) by reflexivity.
        cbn. rewrite R. reflexivity.
    - rewrite map_app, attr_keys. cbn [map f_key]. apply NoDup_app'; [apply attr_keys_nodup; exact N|repeat constructor; intros []|].
      intros x H1 [H2|[]]. subst x. apply in_map_iff in H1. destruct H1 as [d [E _]]. discriminate.
    - intros f _ H. exact H.
  Qed.

  (* --- choices --- *)

  Lemma find_variant_spec : forall elems d, NoDup (map (e_local T) (occurring T elems)) ->
    (forall e, In e elems -> bounds_ok T e) -> In d (occurring T elems) ->
    find_variant T elems (e_local T d) = Some d.
  Proof.
    intros elems d. induction elems as [|e r IH]; intros N B H; [destruct H|].
    assert (He := elem_occurs_none e (B e (or_introl eq_refl))).
    assert (Hr := fun N H => IH N (fun x Hx => B x (or_intror Hx)) H).
    assert (Hocc : occurring T (e :: r) = (if match e_max T e with Bounded 0 => false | _ => true end then e :: occurring T r else occurring T r)) by reflexivity.
    cbn [find_variant].
    destruct (match e_max T e with Bounded 0 => false | _ => true end) eqn:Ed; rewrite Hocc in *.
    - assert (Ho : elem_occurs T e <> ONone) by (intros Q'; apply He in Q'; rewrite Q' in Ed; discriminate).
      cbn in N. inversion_clear N as [|? ? Ne Nr].
      destruct H as [H|H].
      + subst e. rewrite String.eqb_refl. destruct (elem_occurs T d); congruence.
      + destruct (String.eqb (e_local T e) (e_local T d)) eqn:E.
        * exfalso. apply String.eqb_eq in E. apply Ne. rewrite E. apply in_map. exact H.
        * rewrite (Hr Nr H). destruct (elem_occurs T e); congruence.
    - assert (Ho : elem_occurs T e = ONone) by (apply He; destruct (e_max T e) as [|[|m]]; congruence).
      rewrite Ho. apply Hr; assumption.
  Qed.

  Lemma choice_runs : forall keys nodes, In "$value" keys ->
    (forall n, In n nodes -> exists ns l a c, n = Element ns l a c /\ ~ In l keys) ->
    runs (node_key keys) nodes = match nodes with [] => [] | _ => [("$value", map INode nodes)] end.
  Proof.
    intros keys nodes K H. induction nodes as [|n r IH]; [reflexivity|].
    assert (Hk : node_key keys n = "$value").
    { destruct (H n (or_introl eq_refl)) as [ns [l [a [c [E Hl]]]]]. subst n. unfold node_key.
      apply existsb_eqb_false in Hl. apply existsb_eqb in K. rewrite Hl, K. reflexivity. }
    cbn [runs]. rewrite (IH (fun x Hx => H x (or_intror Hx))), Hk.
    destruct r; [reflexivity|]. rewrite String.eqb_refl. reflexivity.
  Qed.

  Lemma chosen_conv : forall elems opt n w, NoDup (map (e_local T) (occurring T elems)) ->
    (forall e, In e elems -> bounds_ok T e /\ e_max T e = Bounded 1) ->
    chosen T V read_node elems n w -> conv opt (TEnum T elems) (INode n) = Some (Some w).
  Proof.
    intros elems opt n w N B [d [v [Hd [Hn [R E]]]]]. destruct n as [ns l a c|s]; [|destruct Hn].
    destruct Hn as [_ Hl]. subst l w.
    assert (Ho : In d (occurring T elems)).
    { apply occurring_in. split; [exact Hd|]. destruct (B d Hd) as [_ Hm]. rewrite Hm. discriminate. }
    unfold SerdeModel.conv. rewrite (find_variant_spec elems d N (fun e He => proj1 (B e He)) Ho).
    destruct (B d Hd) as [B1 B2]. unfold bounds_ok in B1. rewrite B2 in B1.
    assert (Hs : elem_occurs T d = OSingle \/ elem_occurs T d = OOptional).
    { unfold elem_occurs. rewrite B2. destruct (e_min T d) as [|[|k]]; [right; reflexivity| |lia]. cbn.
      destruct (e_emptiable T d); auto. }
    destruct Hs as [Hs|Hs]; rewrite Hs, R; reflexivity.
  Qed.

  Lemma chosen_list : forall elems nodes ws, NoDup (map (e_local T) (occurring T elems)) ->
    (forall e, In e elems -> bounds_ok T e /\ e_max T e = Bounded 1) ->
    Forall2 (chosen T V read_node elems) nodes ws ->
    all_some (fun x => match conv false (TEnum T elems) x with Some o => o | None => None end) (map INode nodes) = Some ws.
  Proof.
    intros elems nodes ws N B F. induction F as [|n w nodes ws Hw F IH]; [reflexivity|].
    cbn [map all_some]. rewrite (chosen_conv elems false n w N B Hw), IH. reflexivity.
  Qed.

  Lemma render_content_some : forall simple st min max t, from_occurs min max <> ONone ->
    render_content T V simple st min max t =
    Some (Field T V (if simple then "$text" else "$value")
            (if (simple && st) || Nat.eqb min 0 then DTrait V else DNo V) (from_occurs min max) t).
  Proof. intros simple st min max t H. unfold render_content. destruct (from_occurs min max); congruence. Qed.

  Lemma choice_read : forall attrs elems min max flatten ns l atts nodes avs ws fv,
    NoDup (map (a_local T V) (allowed T V attrs)) ->
    NoDup (map (e_local T) elems) -> elems <> [] ->
    (forall d, In d elems -> plain_name (e_local T d) /\ bounds_ok T d /\ e_max T d = Bounded 1) ->
    attrs_distinct T V attrs atts ->
    in_bounds min max (List.length nodes) -> max <> Bounded 0 ->
    Forall2 (attr_value T V read_text atts) (allowed T V attrs) avs ->
    Forall2 (chosen T V read_node elems) nodes ws ->
    choice_value V min max ws fv ->
    read T V read_text read_node read_empty read_repeated trait_default flatten attrs
      (BChoice min max elems) (Element ns l atts nodes) = Some (avs ++ [fv])%list.
  Proof.
    intros attrs elems min max flatten ns l atts nodes avs ws fv N1 N2 Ne P D B Z FA FC CV.
    assert (Bo : forall d, In d elems -> bounds_ok T d) by (intros d Hd; apply P, Hd).
    assert (Oc : occurring T elems = elems).
    { apply filter_all. intros d Hd. destruct (P d Hd) as [_ [_ E]]. rewrite E. reflexivity. }
    assert (Bm : match max with Bounded m => min <= m | Unbounded => True end).
    { destruct B as [B1 B2]. destruct max; [exact Logic.I|lia]. }
    assert (No := from_occurs_none min max Bm).
    unfold read, read_struct, render_struct, render_body.
    rewrite (render_elems_spec elems Bo), Oc.
    destruct elems as [|e0 elems']; [congruence|]. set (elems := e0 :: elems') in *.
    change (map elem_field elems) with (elem_field e0 :: map elem_field elems').
    cbv iota beta. rewrite render_content_some by tauto. cbn [andb orb].
    assert (Er : exists o, from_occurs min max = o) by (eexists; reflexivity).
    destruct Er as [o Eo]. rewrite Eo.
    rewrite map_app, attr_keys. cbn [map f_key].
    set (keys := (map _ _ ++ _)%list).
    assert (K : In "$value" keys) by (apply in_or_app; right; left; reflexivity).
    assert (Hk : forall n, In n nodes -> exists ns l a c, n = Element ns l a c /\ ~ In l keys).
    { assert (Hf : Forall (fun n => exists w, chosen T V read_node elems n w) nodes).
      { clear -FC. induction FC; constructor; eauto. }
      rewrite Forall_forall in Hf. intros n Hn. destruct (Hf n Hn) as [w [d [v [Hd [Hnd _]]]]].
      destruct n as [ns' l' a c|s]; [|destruct Hnd]. exists ns', l', a, c. split; [reflexivity|].
      destruct Hnd as [_ Hl]. subst l'. destruct (P d Hd) as [Pd _]. intros H. apply in_app_or in H.
      destruct H as [H|[H|[]]].
      - apply in_map_iff in H. destruct H as [x [E _]]. apply (plain_not_attr _ (a_local T V x) Pd). symmetry. exact E.
      - apply (plain_not_dollar _ "value" Pd). symmetry. exact H. }
    rewrite read_fields_spec.
    - apply all_some_app.
      + apply attrs_read; auto. intros n a Hn E. destruct (Hk n Hn) as [ns' [l' [a' [c [En Hl]]]]]. subst n.
        unfold node_key in E. apply existsb_eqb_false in Hl. assert (K' := K). apply existsb_eqb in K'. rewrite Hl, K' in E. discriminate.
      + cbn [all_some]. unfold value_of at 1. cbn [f_key]. unfold entries.
        rewrite filter_app, attrs_filter_key.
        rewrite (filter_none (fun a0 : attribute => String.eqb (attr_key (at_local a0)) "$value")) by reflexivity.
        cbn [map app]. rewrite (choice_runs keys nodes K Hk).
        assert (HL := chosen_list elems nodes ws).
        rewrite Oc in HL. specialize (HL N2 (fun e He => proj2 (P e He)) FC).
        assert (HC := fun opt n w => chosen_conv elems opt n w). rewrite Oc in HC.
        inversion CV; subst fv.
        * subst ws min max. cbn in Eo. subst o. inversion FC as [|n w' nn ws' Hw Fr]; subst. inversion Fr; subst.
          cbn [filter fst]. rewrite String.eqb_refl. cbn [map snd]. unfold convert. cbn [f_occurs f_type].
          rewrite (HC false n w N2 (fun e He => proj2 (P e He)) Hw). reflexivity.
        * subst min max. cbn in Eo. subst o. destruct B as [_ B].
          inversion FC as [|n w' nn ws' Hw Fr]; subst; [reflexivity|].
          destruct nn; [|cbn in B; lia]. inversion Fr; subst.
          cbn [filter fst]. rewrite String.eqb_refl. cbn [map snd]. unfold convert. cbn [f_occurs f_type].
          rewrite (HC true n w' N2 (fun e He => proj2 (P e He)) Hw). reflexivity.
        * assert (Hd : o = ODynamic \/ (o = OStatic (List.length nodes) /\ nodes <> [])).
          { destruct B as [B1 B2]. destruct max as [|m]; [left; rewrite <- Eo; destruct min as [|[|k]]; reflexivity|].
            destruct m as [|[|m]]; try congruence. rewrite <- Eo. destruct min as [|[|k]]; cbn; auto.
            destruct (Nat.eqb k m) eqn:Q'; [|auto]. right. apply Nat.eqb_eq in Q'. subst k.
            assert (List.length nodes = S (S m)) by lia. rewrite H0. split; [reflexivity|].
            intros Hb. rewrite Hb in H0. discriminate. }
          destruct Hd as [Hd|[Hd Hn]]; subst o.
          -- destruct nodes as [|n r].
             ++ inversion FC; subst. assert (min = 0) by (destruct B; cbn in *; lia). subst min. rewrite Hd. reflexivity.
             ++ rewrite Hd. cbn [filter fst]. rewrite String.eqb_refl. cbn [snd]. unfold convert. cbn [f_occurs f_type]. rewrite HL. reflexivity.
          -- destruct nodes as [|n r]; [congruence|]. rewrite Hd.
             cbn [filter fst]. rewrite String.eqb_refl. cbn [snd]. unfold convert. cbn [f_occurs f_type].
             rewrite map_length, Nat.eqb_refl, HL. reflexivity.
    - rewrite map_app, attr_keys. cbn [map f_key]. apply NoDup_app'; [apply attr_keys_nodup; exact N1|repeat constructor; intros []|].
      intros x H1 [H2|[]]. subst x. apply in_map_iff in H1. destruct H1 as [d [E _]]. discriminate.
    - intros f _ H. exact H.
  Qed.

  (* --- what a successful read tells --- *)

  Lemma local_entries : forall keys atts nodes d, ~ In "$value" keys -> plain_name (e_local T d) ->
    concat (map snd (filter (fun e => String.eqb (fst e) (e_local T d)) (entries keys atts nodes))) =
    map INode (filter (has_local (e_local T d)) nodes).
  Proof.
    intros keys atts nodes d K P. unfold entries. rewrite filter_app, attrs_filter_key.
    rewrite (filter_none (fun a0 : attribute => String.eqb (attr_key (at_local a0)) (e_local T d))).
    2:{ intros x _. apply String.eqb_neq. intros E. apply (plain_not_attr _ (at_local x) P). symmetry. exact E. }
    cbn [map app]. rewrite runs_all. f_equal. apply filter_ext. intros [ns l a c|s].
    - rewrite node_key_element by exact K. reflexivity.
    - rewrite node_key_text by exact K. apply String.eqb_neq. intros E.
      apply (plain_not_dollar _ "text" P). symmetry. exact E.
  Qed.

  Lemma conv_node_back : forall opt t n o, (exists ns l a c, n = Element ns l a c) ->
    conv opt (TNamed T t) (INode n) = Some o -> exists v, o = Some (VNamed v) /\ read_node t n = Some v.
  Proof.
    intros opt t n o [ns [l [a [c E]]]] H. subst n. cbn in H.
    destruct (read_node t (Element ns l a c)) as [v|]; [|discriminate]. injection H as <-. eauto.
  Qed.

  Lemma conv_list_back : forall t b ws, (forall n, In n b -> exists ns l a c, n = Element ns l a c) ->
    all_some (fun x => match conv false (TNamed T t) x with Some o => o | None => None end) (map INode b) = Some ws ->
    exists vs, ws = map VNamed vs /\ Forall2 (fun n v => read_node t n = Some v) b vs.
  Proof.
    intros t b. induction b as [|n b IH]; intros ws E H.
    - injection H as <-. exists []. split; [reflexivity|constructor].
    - cbn [map all_some] in H. destruct (conv false (TNamed T t) (INode n)) as [o|] eqn:Ec; [|discriminate].
      destruct (conv_node_back false t n o (E n (or_introl eq_refl)) Ec) as [v [Ev Er]]. subst o.
      destruct (all_some _ (map INode b)) as [ws'|] eqn:Ea; [|discriminate]. injection H as <-.
      destruct (IH ws' (fun x Hx => E x (or_intror Hx)) eq_refl) as [vs [E1 E2]].
      exists (v :: vs). subst ws'. split; [reflexivity|constructor; assumption].
  Qed.

  Lemma elem_field_back : forall keys atts nodes d fv, ~ In "$value" keys -> plain_name (e_local T d) ->
    bounds_ok T d -> e_max T d <> Bounded 0 ->
    value_of (entries keys atts nodes) (elem_field d) = Some fv ->
    elem_back T V read_node nodes d fv.
  Proof.
    intros keys atts nodes d fv K P B Z H. unfold value_of in H. rewrite (elem_field_key d B Z) in H.
    assert (L := local_entries keys atts nodes d K P).
    assert (Hd : elem_occurs T d = ODynamic -> e_max T d <> Bounded (e_min T d)).
    { unfold elem_occurs. intros Ho E. rewrite E in Ho, Z. destruct (e_min T d) as [|[|k]]; cbn in Ho.
      - congruence.
      - destruct (e_emptiable T d); discriminate.
      - rewrite Nat.eqb_refl in Ho. discriminate. }
    assert (Ho : elem_occurs T d = OOptional -> e_min T d = 0 \/ e_emptiable T d = true).
    { unfold elem_occurs. intros Ho. destruct (e_min T d) as [|[|k]]; auto.
      - destruct (e_max T d) as [|[|[|m]]]; cbn in Ho; try discriminate. destruct (e_emptiable T d); [right; reflexivity|discriminate].
      - exfalso. destruct (e_max T d) as [|[|[|m]]]; cbn in Ho; try discriminate. destruct (Nat.eqb k m); discriminate. }
    assert (Hno : elem_occurs T d <> ONone) by (rewrite (elem_occurs_none d B); exact Z).
    assert (Hst : forall n, elem_occurs T d = OStatic n -> e_min T d = n).
    { unfold elem_occurs. intros n Hn. destruct (e_min T d) as [|[|k]]; destruct (e_max T d) as [|[|[|m]]]; cbn in Hn; try discriminate;
        try (destruct (e_emptiable T d); discriminate).
      destruct (Nat.eqb k m); [|discriminate]. congruence. }
    assert (He : forall n, In n (filter (has_local (e_local T d)) nodes) -> exists ns l a c, n = Element ns l a c).
    { intros n Hn. apply filter_In in Hn. destruct n as [ns l a c|s]; [eauto 6|]. destruct Hn as [_ Hn]. discriminate. }
    destruct (filter (fun e => String.eqb (fst e) (e_local T d)) (entries keys atts nodes)) as [|e [|e2 es]] eqn:Ef; [| |discriminate].
    - cbn in L. symmetry in L. apply map_eq_nil in L.
      unfold elem_field, render_elem in H. exists []. rewrite L. split; [constructor|].
      destruct (elem_occurs T d) eqn:Eo; [congruence| | | |]; cbn in H; try discriminate.
      + injection H as <-. right. right. right. auto.
      + injection H as <-. left. split; [reflexivity|]. intros E. destruct (Hd eq_refl E).
    - cbn in L. rewrite app_nil_r in L. rewrite L in H.
      unfold elem_field, render_elem in H.
      assert (Hsing : forall opt (x : item), (forall o, conv opt (TNamed T (e_type T d)) x = Some o ->
                 map INode (filter (has_local (e_local T d)) nodes) = [x] ->
                 exists n v, filter (has_local (e_local T d)) nodes = [n] /\ o = Some (VNamed v) /\ read_node (e_type T d) n = Some v)).
      { intros opt x o Hc Hm. destruct (filter (has_local (e_local T d)) nodes) as [|n [|n2 r]]; try discriminate.
        injection Hm as <-. destruct (conv_node_back opt _ n o (He n (or_introl eq_refl)) Hc) as [v [E1 E2]]. eauto. }
      destruct (elem_occurs T d) eqn:Eo; [congruence| | | |]; cbn [f_occurs f_type snd convert] in H; unfold convert in H; cbn [f_occurs f_type] in H; try discriminate.
      + destruct (map INode (filter (has_local (e_local T d)) nodes)) as [|x [|y r]] eqn:Em; try discriminate.
        destruct (conv false (TNamed T (e_type T d)) x) as [o|] eqn:Ec; [|discriminate].
        destruct (Hsing false x o Ec eq_refl) as [n [v [E1 [E2 E3]]]]. subst o. injection H as <-.
        exists [v]. rewrite E1. split; [repeat constructor; exact E3|]. right. left. eauto.
      + destruct (map INode (filter (has_local (e_local T d)) nodes)) as [|x [|y r]] eqn:Em; try discriminate.
        destruct (conv true (TNamed T (e_type T d)) x) as [o|] eqn:Ec; [|discriminate].
        destruct (Hsing true x o Ec eq_refl) as [n [v [E1 [E2 E3]]]]. subst o. injection H as <-.
        exists [v]. rewrite E1. split; [repeat constructor; exact E3|]. right. right. left. eauto.
      + destruct (all_some _ _) as [ws|] eqn:Ea; [|discriminate]. injection H as <-.
        destruct (conv_list_back _ _ _ He Ea) as [vs [E1 E2]]. subst ws. exists vs. split; [exact E2|].
        left. split; [reflexivity|]. intros E. destruct (Hd eq_refl E).
      + rewrite map_length in H. destruct (Nat.eqb (List.length (filter (has_local (e_local T d)) nodes)) n) eqn:En; [|discriminate].
        apply Nat.eqb_eq in En.
        destruct (all_some _ _) as [ws|] eqn:Ea; [|discriminate]. injection H as <-.
        destruct (conv_list_back _ _ _ He Ea) as [vs [E1 E2]]. subst ws. exists vs. split; [exact E2|].
        left. split; [reflexivity|]. intros _. rewrite (Hst n eq_refl), <- En. clear -E2. induction E2; cbn; congruence.
  Qed.

  Lemma group_back : forall attrs elems ns l atts nodes vs,
    NoDup (map (a_local T V) (allowed T V attrs)) ->
    NoDup (map (e_local T) (occurring T elems)) ->
    (forall d, In d elems -> plain_name (e_local T d) /\ bounds_ok T d) ->
    read T V read_text read_node read_empty read_repeated trait_default true attrs
      (BGroup 1 (Bounded 1) elems) (Element ns l atts nodes) = Some vs ->
    exists avs evs, vs = (avs ++ evs)%list /\ List.length avs = List.length (allowed T V attrs) /\
      Forall2 (elem_back T V read_node nodes) (occurring T elems) evs.
  Proof.
    intros attrs elems ns l atts nodes vs N1 N2 P H.
    assert (Bo : forall d, In d elems -> bounds_ok T d) by (intros d Hd; apply P, Hd).
    assert (Pl : forall d, In d elems -> plain_name (e_local T d)) by (intros d Hd; apply P, Hd).
    unfold read, read_struct, render_struct, render_body in H. cbn [from_occurs] in H.
    rewrite (group_keys_eq attrs elems Bo) in H.
    assert (K := group_keys_value attrs elems Pl).
    rewrite read_fields_spec in H.
    - apply all_some_app_inv in H. destruct H as [avs [evs [E [HA HE]]]]. exists avs, evs. split; [exact E|]. split.
      + rewrite render_attrs in HA. apply all_some_forall2 in HA. apply Forall2_map_l in HA. clear -HA. induction HA; cbn; congruence.
      + rewrite (render_elems_spec elems Bo) in HE. apply all_some_forall2 in HE. apply Forall2_map_l in HE. revert HE.
        apply Forall2_in. intros d fv Hd Hv. apply occurring_in in Hd.
        apply (elem_field_back _ atts nodes d fv K); auto; try apply Pl; try apply Bo; apply Hd.
    - rewrite (group_keys_eq attrs elems Bo). apply group_keys_nodup; assumption.
    - intros f _ H'. exact H'.
  Qed.
End Proofs.

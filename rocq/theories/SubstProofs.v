(** Proofs about substitution groups and derived types. *)
From Verif Require Import Base.
From Verif Require Import SubstModel SubstSpec.

Lemma set_same i v ts : set i v ts i = Some v.
Proof. unfold set. destruct (ident_dec i i); congruence. Qed.
Lemma set_other i v ts j : j <> i -> set i v ts j = ts j.
Proof. unfold set. destruct (ident_dec j i); congruence. Qed.

Definition look (W : list (nat * nat)) (n : nat) : option nat := option_map snd (find (fun p => Nat.eqb (fst p) n) W).
Lemma find_app {A} (p : A -> bool) a b : find p (a ++ b) = match find p a with Some x => Some x | None => find p b end.
Proof. induction a as [|x a IH]; cbn; [reflexivity|]. destruct (p x); [reflexivity|exact IH]. Qed.
Lemma look_app W V n : look (W ++ V) n = match look W n with Some d => Some d | None => look V n end.
Proof. unfold look. rewrite find_app. destruct find; reflexivity. Qed.
Lemma look_in W n d : look W n = Some d -> In (n, d) W.
Proof.
  unfold look. destruct find as [[m e]|] eqn:FD; [|discriminate]. cbn. intros [= ->].
  apply find_some in FD as [I E]. apply Nat.eqb_eq in E. cbn in E. subst. exact I.
Qed.
Lemma in_look W n d : In (n, d) W -> exists d', look W n = Some d'.
Proof.
  unfold look. intros I. destruct find as [[m e]|] eqn:FD; [cbn; eauto|].
  pose proof (find_none _ _ FD _ I) as E. cbn in E. rewrite Nat.eqb_refl in E. discriminate.
Qed.

(** The entry for something that is registered with the names [W]. *)
Definition mem1 {A} (cur : A) (W : list (nat * nat)) (n : nat) : list (A * bool) :=
  match look W n with Some d => [(cur, Nat.eqb d 0)] | None => [] end.
Lemma mem1_more {A} (cur : A) W n h d : n <> h -> mem1 cur (W ++ [(h, d)]) n = mem1 cur W n.
Proof. intros N. unfold mem1. rewrite look_app. destruct (look W n); [reflexivity|]. unfold look. cbn. destruct (Nat.eqb_spec h n); [congruence|reflexivity]. Qed.

Section Run.
  Variables (nodes : list node) (dynamic : nat -> bool) (f F : nat).
  Hypothesis OR : ordered nodes.
  Hypothesis FL : length nodes < f.
  Hypothesis FF : 2 * f + 1 <= F.

  (** * Names *)
  Lemma element_once a b : In (NElement a) nodes -> In (NElement b) nodes -> e_name a = e_name b -> a = b.
  Proof.
    intros A B E. apply in_split in A as (pre & post & N).
    assert (I : NElement b = NElement a \/ In (NElement b) (pre ++ post)).
    { rewrite N in B. apply in_app_iff in B as [B|[B|B]]; [right; apply in_app_iff; auto|left; auto|right; apply in_app_iff; auto]. }
    destruct I as [[= ->]|I]; [reflexivity|]. exfalso.
    exact (or_once_element _ OR pre (NElement a) post (e_name a) N eq_refl (NElement b) I (eq_sym E)).
  Qed.
  Lemma type_once x y n : In x nodes -> In y nodes -> is_type n x -> is_type n y -> x = y.
  Proof.
    intros A B X Y. apply in_split in A as (pre & post & N).
    assert (I : y = x \/ In y (pre ++ post)).
    { rewrite N in B. apply in_app_iff in B as [B|[B|B]]; [right; apply in_app_iff; auto|left; auto|right; apply in_app_iff; auto]. }
    destruct I as [->|I]; [reflexivity|]. exfalso. exact (or_once_type _ OR pre x post n N X y I Y).
  Qed.
  Lemma find_element_in e : In (NElement e) nodes -> find_element nodes (e_name e) = Some e.
  Proof.
    intros I. unfold find_element. destruct find as [x|] eqn:FD.
    - apply find_some in FD as [I' E]. destruct x as [e'|c|s]; try discriminate E. apply Nat.eqb_eq in E.
      f_equal. apply element_once; assumption.
    - pose proof (find_none _ _ FD _ I) as E. cbn in E. rewrite Nat.eqb_refl in E. discriminate.
  Qed.
  Definition find_type (n : nat) : option node := find (fun x => match x with NType c => Nat.eqb (c_name c) n | NSimple m => Nat.eqb m n | _ => false end) nodes.
  Lemma find_type_in x n : In x nodes -> is_type n x -> find_type n = Some x.
  Proof.
    intros I T. unfold find_type. destruct find as [y|] eqn:FD.
    - apply find_some in FD as [I' E]. f_equal. apply (type_once y x n I' I); [|exact T].
      destruct y; try discriminate E; apply Nat.eqb_eq in E; exact E.
    - pose proof (find_none _ _ FD _ I) as E. destruct x; cbn in T, E; try contradiction; apply Nat.eqb_neq in E; congruence.
  Qed.

  (** * What the loops visit *)
  Fixpoint wl (fuel : nat) (heads : list nat) (depth : nat) : list (nat * nat) :=
    match fuel with
    | 0 => []
    | S n => flat_map (fun h => (h, depth) :: match find_element nodes h with Some e => wl n (e_heads e) (S depth) | None => [] end) heads
    end.
  Fixpoint ch (fuel : nat) (b depth : nat) : list (nat * nat) :=
    match fuel with
    | 0 => []
    | S n => (b, depth) :: match find_type b with
                           | Some (NType c) => match c_base c with Some b' => ch n b' (S depth) | None => [] end
                           | _ => []
                           end
    end.
  Definition bases (o : option nat) (fuel depth : nat) : list (nat * nat) := match o with Some b => ch fuel b depth | None => [] end.
  Definition based (x : node) : option (ident * option nat) :=
    match x with
    | NType c => Some ((KType, c_name c), c_base c)
    | NElement e => match e_type e with TComplex b => Some ((KElementType, e_name e), b) | _ => None end
    | NSimple _ => None
    end.
  Definition mm_one (x : node) (n : nat) : list (nat * bool) :=
    match x with NElement e => mem1 (e_name e) (wl F (e_heads e) 0) n | _ => [] end.
  Definition dm_one (x : node) (n : nat) : list (ident * bool) :=
    match based x with Some (i, b) => mem1 i (bases b f 0) n | None => [] end.
  Definition mm (done : list node) (n : nat) : list (nat * bool) := flat_map (fun x => mm_one x n) done.
  Definition dm (done : list node) (n : nat) : list (ident * bool) := flat_map (fun x => dm_one x n) done.
  Lemma mm_snoc done x n : mm (done ++ [x]) n = mm done n ++ mm_one x n.
  Proof. unfold mm. rewrite flat_map_app. cbn. rewrite app_nil_r. reflexivity. Qed.
  Lemma dm_snoc done x n : dm (done ++ [x]) n = dm done n ++ dm_one x n.
  Proof. unfold dm. rewrite flat_map_app. cbn. rewrite app_nil_r. reflexivity. Qed.

  (** * The shape of what was made *)
  Definition base0 (e : element) : ident * bool := if e_nillable e then ((KNillable, e_name e), true) else (type_of e, false).
  Definition has_heads (e : element) : bool := match e_heads e with [] => false | _ => true end.
  Definition base1 (e : element) : ident * bool := if has_heads e then ((KSubst, e_name e), false) else base0 e.
  Definition conc (e : element) : ident := if snd (base1 e) then (KSubst, e_name e) else fst (base1 e).
  Definition listed {A} (l : list A) : bool := match l with [] => false | _ => true end.
  Definition ent (p : nat * bool) : ident * derived := ((KElement, fst p), child (KElement, fst p) (snd p)).
  Record shape (ts : types) (M : nat -> list (nat * bool)) (e : element) : Prop := {
    sh_inline : ts (KElementType, e_name e) =
      match e_type e with TNamed _ => None | TComplex b => Some (VComplex (option_map (pair KType) b)) | TSimple => Some VOther end;
    sh_nil : ts (KNillable, e_name e) = if e_nillable e then Some (VRef (type_of e) false) else None;
    sh_subst : ts (KSubst, e_name e) =
      if (has_heads e || (negb (e_abstract e) && snd (base1 e) && listed (M (e_name e))))%bool then Some (VRef (fst (base0 e)) (snd (base0 e))) else None;
    sh_el : ts (KElement, e_name e) = Some
      (if e_abstract e then VDyn (Some (fst (base1 e))) true (map ent (M (e_name e)))
       else if listed (M (e_name e)) then VDyn (Some (conc e)) false (((KElement, e_name e), Derived (conc e) Concrete) :: map ent (M (e_name e)))
       else VRef (fst (base1 e)) (snd (base1 e))) }.
  Definition isdyn (c : ctype) : bool := (c_abstract c || dynamic (c_name c))%bool.
  Definition dent (p : ident * bool) : ident * derived := (fst p, child (variant_of nodes dynamic (fst p)) (snd p)).
  Definition own (c : ctype) : list (ident * derived) :=
    if c_abstract c then [] else [((KType, c_name c), Derived (KVariant, c_name c) Concrete)].
  Definition tshape (ts : types) (D : nat -> list (ident * bool)) (x : node) : Prop :=
    match x with
    | NType c =>
        ts (KVariant, c_name c) = (if isdyn c then Some (VComplex (option_map (pair KType) (c_base c))) else None) /\
        ts (KType, c_name c) = Some (if isdyn c then VDyn (Some (KVariant, c_name c)) (c_abstract c) (own c ++ map dent (D (c_name c)))
                                    else VComplex (option_map (pair KType) (c_base c)))
    | NSimple n => ts (KVariant, n) = None /\ ts (KType, n) = Some VOther
    | NElement _ => True
    end.

  (** * Registering with the heads *)
  Lemma prepare_ok done M0 cur W ts h d eh :
    (forall e, In (NElement e) done -> In (NElement e) nodes) ->
    (forall e, In (NElement e) done -> shape ts (fun n => M0 n ++ mem1 cur W n) e) ->
    In (NElement eh) done -> e_name eh = h -> cur <> h -> (forall n m b, In (m, b) (M0 n) -> m <> cur) ->
    exists ts', prepare cur h d ts = Ok ts' /\
      (forall e, In (NElement e) done -> shape ts' (fun n => M0 n ++ mem1 cur (W ++ [(h, d)]) n) e) /\
      (forall i, i <> (KElement, h) -> i <> (KSubst, h) -> ts' i = ts i).
  Proof.
    intros SUB SH IH EH NC MC. subst h. set (h := e_name eh) in *.
    assert (OTH : forall ts' e, In (NElement e) done -> e <> eh -> (forall i, i <> (KElement, h) -> i <> (KSubst, h) -> ts' i = ts i) ->
                  shape ts' (fun n => M0 n ++ mem1 cur (W ++ [(h, d)]) n) e).
    { intros ts' e I N FX. assert (NN : e_name e <> h) by (intros X; apply N; apply element_once; auto).
      destruct (SH e I) as [A B C D].
      constructor; rewrite FX by congruence; rewrite ?mem1_more by exact NN; assumption. }
    assert (NEW : forall D0 : list (nat * bool), D0 = M0 h ++ mem1 cur W h ->
       forall pre, ~ In (KElement, cur) (map fst pre) ->
       or_insert (KElement, cur) (child (KElement, cur) (Nat.eqb d 0)) (pre ++ map ent D0) = pre ++ map ent (M0 h ++ mem1 cur (W ++ [(h, d)]) h)).
    { intros D0 -> pre NP. unfold or_insert, mem1. rewrite look_app. destruct (look W h) as [d0|] eqn:L.
      - destruct in_dec as [I|N]; [reflexivity|]. exfalso. apply N. rewrite map_app, in_app_iff. right. rewrite !map_app, in_app_iff. right. cbn. auto.
      - unfold look at 1. cbn [find fst option_map snd]. rewrite Nat.eqb_refl. cbn [option_map snd]. rewrite app_nil_r.
        destruct in_dec as [I|N].
        + exfalso. rewrite map_app, in_app_iff in I. destruct I as [I|I]; [exact (NP I)|]. rewrite map_map in I. apply in_map_iff in I as ([m b] & E & I).
          cbn in E. injection E as ->. exact (MC h cur b I eq_refl).
        + rewrite map_app, app_assoc. reflexivity. }
    destruct (SH eh IH) as [A B C D]. fold h in A, B, C, D. unfold prepare. rewrite D.
    assert (LST' : listed (M0 h ++ mem1 cur (W ++ [(h, d)]) h) = true).
    { unfold mem1. rewrite look_app. destruct (M0 h); [|reflexivity]. cbn. destruct (look W h); [reflexivity|].
      unfold look. cbn. rewrite Nat.eqb_refl. reflexivity. }
    assert (SELF : ~ In (KElement, cur) (map fst [((KElement, h), Derived (conc eh) Concrete)])).
    { cbn. intros [E|[]]. congruence. }
    destruct (e_abstract eh) eqn:AB.
    - eexists. split; [reflexivity|]. split.
      + intros e I. destruct (ident_dec (KElement, e_name e) (KElement, h)) as [E|N].
        * assert (e = eh) as -> by (injection E as E; apply element_once; auto).
          constructor; fold h; rewrite ?AB.
          -- rewrite !set_other by discriminate. exact A.
          -- rewrite !set_other by discriminate. exact B.
          -- rewrite !set_other by discriminate. rewrite C. reflexivity.
          -- rewrite set_same. do 2 f_equal. exact (NEW _ eq_refl [] (fun x => x)).
        * apply OTH; [exact I|intros ->; exact (N eq_refl)|]. intros i X _. apply set_other. exact X.
      + intros i X _. apply set_other. exact X.
    - destruct (listed (M0 h ++ mem1 cur W h)) eqn:LL.
      + eexists. split; [reflexivity|]. split.
        * intros e I. destruct (ident_dec (KElement, e_name e) (KElement, h)) as [E|N].
          -- assert (e = eh) as -> by (injection E as E; apply element_once; auto).
             constructor; fold h; rewrite ?AB.
             ++ rewrite !set_other by discriminate. exact A.
             ++ rewrite !set_other by discriminate. exact B.
             ++ rewrite !set_other by discriminate. rewrite C, LST'. reflexivity.
             ++ rewrite set_same, LST'. do 2 f_equal. exact (NEW _ eq_refl _ SELF).
          -- apply OTH; [exact I|intros ->; exact (N eq_refl)|]. intros i X _. apply set_other. exact X.
        * intros i X _. apply set_other. exact X.
      + assert (E0 : M0 h ++ mem1 cur W h = []) by (destruct (M0 h ++ mem1 cur W h); [reflexivity|discriminate LL]).
        assert (INS : or_insert (KElement, cur) (child (KElement, cur) (Nat.eqb d 0)) [((KElement, h), Derived (conc eh) Concrete)] =
                      ((KElement, h), Derived (conc eh) Concrete) :: map ent (M0 h ++ mem1 cur (W ++ [(h, d)]) h)).
        { pose proof (NEW _ eq_refl _ SELF) as X. rewrite E0 in X. exact X. }
        change (if snd (base1 eh) then (KSubst, h) else fst (base1 eh)) with (conc eh).
        destruct (snd (base1 eh)) eqn:NI.
        * assert (HH : has_heads eh = false) by (unfold base1 in NI; destruct (has_heads eh); [discriminate NI|reflexivity]).
          rewrite HH, ?AB, ?NI, ?LL in C. cbn in C.
          unfold add_type. rewrite set_other by discriminate. rewrite C. eexists. split; [reflexivity|]. split.
          -- intros e I. destruct (ident_dec (KElement, e_name e) (KElement, h)) as [E|N].
             ++ assert (e = eh) as -> by (injection E as E; apply element_once; auto).
                constructor; fold h; rewrite ?AB.
                ** rewrite !set_other by discriminate. exact A.
                ** rewrite !set_other by discriminate. exact B.
                ** rewrite set_same, HH, NI, LST'. cbn. unfold base1 in *. rewrite HH in *. rewrite NI. reflexivity.
                ** rewrite set_other by discriminate. rewrite set_same, LST'. do 2 f_equal. exact INS.
             ++ apply OTH; [exact I|intros ->; exact (N eq_refl)|]. intros i X Y. rewrite !set_other by assumption. reflexivity.
          -- intros i X Y. rewrite !set_other by assumption. reflexivity.
        * eexists. split; [reflexivity|]. split.
          -- intros e I. destruct (ident_dec (KElement, e_name e) (KElement, h)) as [E|N].
             ++ assert (e = eh) as -> by (injection E as E; apply element_once; auto).
                constructor; fold h; rewrite ?AB.
                ** rewrite !set_other by discriminate. exact A.
                ** rewrite !set_other by discriminate. exact B.
                ** rewrite set_other by discriminate. rewrite C, ?NI. cbn. reflexivity.
                ** rewrite set_same, LST'. do 2 f_equal. exact INS.
             ++ apply OTH; [exact I|intros ->; exact (N eq_refl)|]. intros i X _. apply set_other. exact X.
          -- intros i X _. apply set_other. exact X.
  Qed.

  Lemma in_prefix {A} (x : A) pre : In x pre -> exists p1 p2, pre = p1 ++ x :: p2.
  Proof. apply in_split. Qed.

  Lemma walk_ok done post0 cur M0 : nodes = done ++ post0 ->
    (forall n m b, In (m, b) (M0 n) -> m <> cur) -> (forall e, In (NElement e) done -> e_name e <> cur) ->
    forall fuel pre post heads depth W ts,
    done = pre ++ post -> length pre < fuel -> (forall h, In h heads -> exists x, In x pre /\ is_element h x) ->
    (forall e, In (NElement e) done -> shape ts (fun n => M0 n ++ mem1 cur W n) e) ->
    exists ts', walk (find_element nodes) fuel cur heads depth ts = Ok ts' /\
      (forall e, In (NElement e) done -> shape ts' (fun n => M0 n ++ mem1 cur (W ++ wl fuel heads depth) n) e) /\
      (forall i, ts' i = ts i \/ (fst i = KElement \/ fst i = KSubst) /\ exists e, In (NElement e) done /\ snd i = e_name e).
  Proof.
    intros N MC NC. assert (SUB : forall e, In (NElement e) done -> In (NElement e) nodes) by (intros e I; rewrite N; apply in_app_iff; auto).
    induction fuel as [|fuel IH]; intros pre post heads depth W ts P L HH SH; [lia|].
    cbn [walk wl]. revert W ts SH. induction heads as [|h heads IHh]; intros W ts SH.
    - exists ts. split; [reflexivity|]. cbn. rewrite app_nil_r. auto.
    - destruct (HH h (or_introl eq_refl)) as (x & X & HX). destruct x as [eh|c|s]; try contradiction. cbn in HX.
      assert (ID : In (NElement eh) done) by (rewrite P; apply in_app_iff; auto).
      destruct (prepare_ok done M0 cur W ts h depth eh SUB SH ID HX) as (ts1 & E1 & S1 & F1).
      { rewrite <- HX. intros Q. exact (NC eh ID (eq_sym Q)). }
      { exact MC. }
      rewrite E1. cbn [flat_map]. rewrite <- HX, (find_element_in eh (SUB eh ID)).
      destruct (in_prefix _ _ X) as (p1 & p2 & Q).
      destruct (IH p1 (NElement eh :: p2 ++ post) (e_heads eh) (S depth) (W ++ [(h, depth)]) ts1) as (ts2 & E2 & S2 & F2).
      { rewrite P, Q, <- app_assoc. reflexivity. }
      { rewrite Q, app_length in L. cbn in L. lia. }
      { intros h' I'. apply (or_element _ OR p1 eh (p2 ++ post ++ post0) h'); [|exact I']. rewrite N, P, Q, <- !app_assoc. reflexivity. }
      { exact S1. }
      rewrite E2. destruct (IHh (fun h' I' => HH h' (or_intror I')) ((W ++ [(h, depth)]) ++ wl fuel (e_heads eh) (S depth)) ts2 S2) as (ts3 & E3 & S3 & F3).
      exists ts3. split; [exact E3|]. split.
      + intros e I. specialize (S3 e I). rewrite <- !app_assoc in S3. rewrite HX. exact S3.
      + intros i. destruct (F3 i) as [F3'|F3']; [|right; exact F3']. rewrite F3'. destruct (F2 i) as [F2'|F2']; [|right; exact F2']. rewrite F2'.
        destruct (ident_dec i (KElement, h)) as [->|A]; [right; split; [left; reflexivity|]; exists eh; auto|].
        destruct (ident_dec i (KSubst, h)) as [->|B]; [right; split; [right; reflexivity|]; exists eh; auto|].
        left. apply F1; assumption.
  Qed.

  (** * Registering with the bases *)
  Lemma sub_nodes done post x : nodes = done ++ post -> In x done -> In x nodes.
  Proof. intros -> I. apply in_app_iff. auto. Qed.
  Lemma tshape_more done post0 i (D0 : nat -> list (ident * bool)) W b d ts x y : nodes = done ++ post0 ->
    In x done -> is_type b x -> (match x with NType c => isdyn c = false | _ => True end) ->
    In y done -> tshape ts (fun n => D0 n ++ mem1 i W n) y -> tshape ts (fun n => D0 n ++ mem1 i (W ++ [(b, d)]) n) y.
  Proof.
    intros N X TX C Y T. destruct y as [e|c|s]; cbn in *; auto. destruct T as [A B]. split; [exact A|].
    destruct (Nat.eq_dec (c_name c) b) as [E|E].
    - assert (x = NType c) as -> by (apply (type_once x (NType c) b); auto; eapply sub_nodes; eauto).
      rewrite C in *. exact B.
    - rewrite mem1_more by exact E. exact B.
  Qed.
  Lemma register_ok done post0 i D0 : nodes = done ++ post0 ->
    (forall n j b, In (j, b) (D0 n) -> j <> i) -> (forall x n, In x done -> is_type n x -> i <> (KType, n)) ->
    forall g pre post b depth W ts fuel,
    done = pre ++ post -> length pre <= g -> 2 * g + 1 <= fuel -> (exists x, In x pre /\ is_type b x) ->
    (forall x, In x done -> tshape ts (fun n => D0 n ++ mem1 i W n) x) ->
    exists ts', register fuel i (variant_of nodes dynamic i) (Some (KType, b)) (Nat.eqb depth 0) ts = Ok ts' /\
      (forall x, In x done -> tshape ts' (fun n => D0 n ++ mem1 i (W ++ ch g b depth) n) x) /\
      (forall j, ts' j = ts j \/ fst j = KType /\ exists x, In x done /\ is_type (snd j) x).
  Proof.
    intros N DC NC. induction g as [|g IH]; intros pre post b depth W ts fuel P L FU (x & X & TX) SH.
    { destruct pre; [destruct X|cbn in L; lia]. }
    destruct fuel as [|fuel]; [lia|]. cbn [register ch].
    assert (XD : In x done) by (rewrite P; apply in_app_iff; auto).
    rewrite (find_type_in x b (sub_nodes _ _ _ N XD) TX).
    destruct (in_prefix _ _ X) as (p1 & p2 & Q).
    destruct x as [e|c|s]; [contradiction| |].
    2:{ cbn in TX. subst s. destruct (SH _ XD) as [_ E]. cbn in E. rewrite E. exists ts. split; [reflexivity|]. split; [|auto].
        intros y Y. apply (tshape_more done post0 i D0 W b depth ts (NSimple b) y N XD eq_refl Logic.I Y (SH _ Y)). }
    cbn in TX. subst b. destruct (SH _ XD) as [EV ET]. rewrite ET.
    assert (REC : forall W' ts1 fuel1 b', 2 * g + 1 <= fuel1 -> (forall x, In x done -> tshape ts1 (fun n => D0 n ++ mem1 i W' n) x) -> c_base c = Some b' ->
      exists ts', register fuel1 i (variant_of nodes dynamic i) (Some (KType, b')) false ts1 = Ok ts' /\
        (forall x, In x done -> tshape ts' (fun n => D0 n ++ mem1 i (W' ++ ch g b' (S depth)) n) x) /\
        (forall j, ts' j = ts1 j \/ fst j = KType /\ exists x, In x done /\ is_type (snd j) x)).
    { intros W' ts1 fuel1 b' LE S1 CB. apply (IH p1 (NType c :: p2 ++ post) b' (S depth) W' ts1 fuel1).
      - rewrite P, Q, <- app_assoc. reflexivity.
      - rewrite Q, app_length in L. cbn in L. lia.
      - exact LE.
      - apply (or_type _ OR p1 c (p2 ++ post ++ post0)); [|exact CB]. rewrite N, P, Q, <- !app_assoc. reflexivity.
      - exact S1. }
    destruct (isdyn c) eqn:DY.
    - set (ts1 := set (KType, c_name c) _ ts).
      assert (S1 : forall y, In y done -> tshape ts1 (fun n => D0 n ++ mem1 i (W ++ [(c_name c, depth)]) n) y).
      { intros y Y. destruct y as [e|c'|s]; cbn; auto.
        - destruct (Nat.eq_dec (c_name c') (c_name c)) as [E|E].
          + assert (NType c' = NType c) as [= ->] by (apply (type_once _ _ (c_name c)); cbn; auto; eapply sub_nodes; eauto).
            subst ts1. rewrite set_same. rewrite EV, DY. split; [reflexivity|]. do 2 f_equal.
            unfold or_insert, mem1. rewrite look_app. destruct (look W (c_name c)) as [d0|] eqn:LK.
            * destruct in_dec as [I|I]; [reflexivity|]. exfalso. apply I. rewrite !map_app, !in_app_iff. right. right. cbn. auto.
            * unfold look. cbn [find fst option_map snd]. rewrite Nat.eqb_refl. cbn [option_map snd]. rewrite app_nil_r.
              destruct in_dec as [I|I].
              -- exfalso. rewrite map_app, in_app_iff in I. destruct I as [I|I].
                 ++ unfold own in I. destruct (c_abstract c); cbn in I; [exact I|]. destruct I as [I|[]]. exact (NC _ _ XD eq_refl (eq_sym I)).
                 ++ rewrite map_map in I. apply in_map_iff in I as ([j b0] & J & I). cbn in J. subst j. exact (DC _ _ _ I eq_refl).
              -- rewrite map_app, app_assoc. reflexivity.
          + subst ts1. rewrite !set_other by congruence. rewrite mem1_more by exact E. exact (SH _ Y).
        - subst ts1. assert (E : s <> c_name c).
          { intros ->. assert (NSimple (c_name c) = NType c) by (apply (type_once _ _ (c_name c)); cbn; auto; eapply sub_nodes; eauto). discriminate. }
          rewrite !set_other by congruence. exact (SH _ Y). }
      assert (FR : forall j, ts1 j = ts j \/ fst j = KType /\ exists x, In x done /\ is_type (snd j) x).
      { intros j. destruct (ident_dec j (KType, c_name c)) as [->|J]; [right; split; [reflexivity|]; exists (NType c); cbn; auto|].
        left. apply set_other. exact J. }
      destruct fuel as [|fuel]; [lia|]. cbn [register].
      assert (EV1 : ts1 (KVariant, c_name c) = Some (VComplex (option_map (pair KType) (c_base c)))).
      { subst ts1. rewrite set_other by discriminate. rewrite EV, ?DY. reflexivity. }
      rewrite EV1. destruct (c_base c) as [b'|] eqn:CB; cbn [option_map].
      + destruct (REC (W ++ [(c_name c, depth)]) ts1 fuel b') as (ts2 & E2 & S2 & F2); [lia|exact S1|reflexivity|].
        exists ts2. split; [exact E2|]. split.
        * intros y Y. specialize (S2 y Y). rewrite <- app_assoc in S2. exact S2.
        * intros j. destruct (F2 j) as [->|K]; [apply FR|right; exact K].
      + destruct fuel as [|fuel]; [lia|]. cbn [register]. exists ts1. auto.
    - assert (S1 : forall y, In y done -> tshape ts (fun n => D0 n ++ mem1 i (W ++ [(c_name c, depth)]) n) y).
      { intros y Y. eapply (tshape_more done post0 i D0 W (c_name c) depth ts (NType c) y); cbn; auto. }
      destruct (c_base c) as [b'|] eqn:CB; cbn [option_map].
      + destruct (REC (W ++ [(c_name c, depth)]) ts fuel b') as (ts2 & E2 & S2 & F2); [lia|exact S1|reflexivity|].
        exists ts2. split; [exact E2|]. split; [|exact F2].
        intros y Y. specialize (S2 y Y). rewrite <- app_assoc in S2. exact S2.
      + destruct fuel as [|fuel]; [lia|]. cbn [register]. exists ts. auto.
  Qed.

  Lemma wl_in : forall fuel pre post heads depth h d, nodes = pre ++ post ->
    (forall h, In h heads -> exists x, In x pre /\ is_element h x) -> In (h, d) (wl fuel heads depth) -> exists x, In x pre /\ is_element h x.
  Proof.
    induction fuel as [|fuel IH]; intros pre post heads depth h d N HH I; [destruct I|]. cbn in I.
    apply in_flat_map in I as (h0 & I0 & I). destruct I as [[= -> ->]|I]; [auto|].
    destruct (HH h0 I0) as (x & X & E). destruct x as [e|c|s]; try contradiction. cbn in E. subst h0.
    rewrite (find_element_in e) in I by (rewrite N; apply in_app_iff; auto).
    destruct (in_prefix _ _ X) as (p1 & p2 & Q).
    destruct (IH p1 (NElement e :: p2 ++ post) (e_heads e) (S depth) h d) as (y & Y & EY); [rewrite N, Q, <- app_assoc; reflexivity| |exact I|].
    - intros h' I'. apply (or_element _ OR p1 e (p2 ++ post) h'); [|exact I']. rewrite N, Q, <- app_assoc. reflexivity.
    - exists y. split; [|exact EY]. rewrite Q. apply in_app_iff. auto.
  Qed.
  Lemma ch_in : forall fuel pre post b depth n d, nodes = pre ++ post ->
    (exists x, In x pre /\ is_type b x) -> In (n, d) (ch fuel b depth) -> exists x, In x pre /\ is_type n x.
  Proof.
    induction fuel as [|fuel IH]; intros pre post b depth n d N (x & X & E) I; [destruct I|]. cbn in I.
    destruct I as [[= -> ->]|I]; [eauto|].
    rewrite (find_type_in x b) in I by (auto; rewrite N; apply in_app_iff; auto).
    destruct x as [e|c|s]; try contradiction. destruct (c_base c) as [b'|] eqn:CB; [|contradiction].
    destruct (in_prefix _ _ X) as (p1 & p2 & Q).
    destruct (IH p1 (NType c :: p2 ++ post) b' (S depth) n d) as (y & Y & EY); [rewrite N, Q, <- app_assoc; reflexivity| |exact I|].
    - apply (or_type _ OR p1 c (p2 ++ post)); [|exact CB]. rewrite N, Q, <- app_assoc. reflexivity.
    - exists y. split; [|exact EY]. rewrite Q. apply in_app_iff. auto.
  Qed.
  Lemma mem1_none {A} (i : A) W n : (forall d, ~ In (n, d) W) -> mem1 i W n = [].
  Proof. intros H. unfold mem1. destruct (look W n) as [d|] eqn:L; [|reflexivity]. destruct (H d (look_in _ _ _ L)). Qed.
  Lemma mm_in done n m b : In (m, b) (mm done n) -> exists e, In (NElement e) done /\ m = e_name e.
  Proof.
    unfold mm. rewrite in_flat_map. intros (x & X & I). destruct x as [e|c|s]; try contradiction. cbn in I. unfold mem1 in I.
    destruct look; [|contradiction]. destruct I as [[= <- <-]|[]]. eauto.
  Qed.
  Lemma dm_in done n j b : In (j, b) (dm done n) -> exists x o, In x done /\ based x = Some (j, o).
  Proof.
    unfold dm. rewrite in_flat_map. intros (x & X & I). unfold dm_one in I. destruct (based x) as [[i o]|] eqn:B; [|contradiction].
    unfold mem1 in I. destruct look; [|contradiction]. destruct I as [[= <- <-]|[]]. eauto.
  Qed.
  Lemma mm_one_pre pre e post n : nodes = pre ++ NElement e :: post -> (forall x, In x pre -> ~ is_element n x) -> mm_one (NElement e) n = [].
  Proof.
    intros N H. cbn. apply mem1_none. intros d I. destruct (wl_in F pre (NElement e :: post) (e_heads e) 0 n d N) as (x & X & E); [|exact I|exact (H x X E)].
    intros h Ih. exact (or_element _ OR pre e post h N Ih).
  Qed.
  Lemma dm_one_pre pre x post n : nodes = pre ++ x :: post -> (forall y, In y pre -> ~ is_type n y) -> dm_one x n = [].
  Proof.
    intros N H. unfold dm_one. destruct (based x) as [[i [b|]]|] eqn:B; [|reflexivity..]. cbn [bases]. apply mem1_none. intros d I.
    destruct (ch_in f pre (x :: post) b 0 n d N) as (y & Y & E); [|exact I|exact (H y Y E)].
    destruct x as [e|c|s]; cbn in B; [| |discriminate].
    - destruct (e_type e) eqn:T; try discriminate. injection B as <- ->. exact (or_inline _ OR pre e post b N T).
    - injection B as <- CB. exact (or_type _ OR pre c post b N CB).
  Qed.
  Lemma mm_pre done n : forall post, nodes = done ++ post -> (forall x, In x done -> ~ is_element n x) -> mm done n = [].
  Proof.
    induction done as [|x done IH] using rev_ind; intros post N H; [reflexivity|]. rewrite mm_snoc, (IH (x :: post)).
    - destruct x as [e|c|s]; [|reflexivity..]. apply (mm_one_pre done e post); [rewrite N, <- app_assoc; reflexivity|].
      intros y Y. apply H, in_app_iff. auto.
    - rewrite N, <- app_assoc. reflexivity.
    - intros y Y. apply H, in_app_iff. auto.
  Qed.
  Lemma dm_pre done n : forall post, nodes = done ++ post -> (forall x, In x done -> ~ is_type n x) -> dm done n = [].
  Proof.
    induction done as [|x done IH] using rev_ind; intros post N H; [reflexivity|]. rewrite dm_snoc, (IH (x :: post)).
    - apply (dm_one_pre done x post); [rewrite N, <- app_assoc; reflexivity|]. intros y Y. apply H, in_app_iff. auto.
    - rewrite N, <- app_assoc. reflexivity.
    - intros y Y. apply H, in_app_iff. auto.
  Qed.

  (** * One node after the other *)
  Definition tkind (k : ikind) : bool := match k with KType | KVariant => true | _ => false end.
  Record inv (ts : types) (done : list node) : Prop := {
    iv_e : forall e, In (NElement e) done -> shape ts (mm done) e;
    iv_t : forall x, In x done -> tshape ts (dm done) x;
    iv_ne : forall k n, tkind k = false -> (forall x, In x done -> ~ is_element n x) -> ts (k, n) = None;
    iv_nt : forall k n, tkind k = true -> (forall x, In x done -> ~ is_type n x) -> ts (k, n) = None }.
  Lemma shape_ext ts ts' M M' e : (forall k, tkind k = false -> ts' (k, e_name e) = ts (k, e_name e)) -> M' (e_name e) = M (e_name e) ->
    shape ts M e -> shape ts' M' e.
  Proof. intros T E [A B C D]. constructor; rewrite T by reflexivity; rewrite ?E; assumption. Qed.
  Lemma tshape_ext ts ts' D D' x : (forall k n, tkind k = true -> is_type n x -> ts' (k, n) = ts (k, n)) -> (forall n, is_type n x -> D' n = D n) ->
    tshape ts D x -> tshape ts' D' x.
  Proof.
    intros T E. destruct x as [e|c|s]; cbn; auto.
    - rewrite (T KVariant), (T KType) by (cbn; reflexivity). rewrite (E _ eq_refl). auto.
    - rewrite (T KVariant), (T KType) by (cbn; reflexivity). auto.
  Qed.

  (** The registration of a type with all its bases. *)
  Lemma register_all done x post i o ts : nodes = done ++ x :: post -> based x = Some (i, o) ->
    (forall y, In y done -> tshape ts (dm done) y) ->
    exists ts', register F i (variant_of nodes dynamic i) (option_map (pair KType) o) true ts = Ok ts' /\
      (forall y, In y done -> tshape ts' (dm (done ++ [x])) y) /\
      (forall j, ts' j = ts j \/ fst j = KType /\ exists y, In y done /\ is_type (snd j) y).
  Proof.
    intros N B SH. assert (DM : forall n, dm (done ++ [x]) n = dm done n ++ mem1 i (bases o f 0) n) by (intros n; rewrite dm_snoc; unfold dm_one; rewrite B; reflexivity).
    destruct o as [b|]; cbn [option_map bases] in *.
    - assert (L : length done < length nodes) by (rewrite N, app_length; cbn; lia).
      destruct (register_ok done (x :: post) i (dm done) N) with (g := f) (pre := done) (post := @Datatypes.nil node) (b := b) (depth := 0) (W := @Datatypes.nil (nat * nat)) (ts := ts) (fuel := F) as (ts' & E & S' & FR).
      + intros n j b0 I ->. apply dm_in in I as (y & o & Y & BY).
        apply in_split in Y as (p1 & p2 & Q).
        destruct x as [e|c|s], y as [e'|c'|s']; cbn in B, BY; try (destruct (e_type e); discriminate); try (destruct (e_type e'); discriminate); try discriminate.
        * destruct (e_type e); try discriminate B. destruct (e_type e'); try discriminate BY. injection B as <- _. injection BY as E _.
          refine (or_once_element _ OR done (NElement e) post (e_name e) N eq_refl (NElement e') _ E). rewrite Q, !in_app_iff. cbn. auto.
        * destruct (e_type e); try discriminate B. injection B as <- _. discriminate BY.
        * destruct (e_type e'); try discriminate BY. injection B as <- _. discriminate BY.
        * injection B as <- _. injection BY as E _.
          refine (or_once_type _ OR done (NType c) post (c_name c) N eq_refl (NType c') _ E). rewrite Q, !in_app_iff. cbn. auto.
      + intros y n Y T ->. destruct x as [e|c|s]; cbn in B; [destruct (e_type e); discriminate| |discriminate]. injection B as <- _.
        refine (or_once_type _ OR done (NType c) post (c_name c) N eq_refl y _ T). rewrite in_app_iff. auto.
      + rewrite app_nil_r. reflexivity.
      + lia.
      + exact FF.
      + destruct x as [e|c|s]; cbn in B; [| |discriminate].
        * destruct (e_type e) eqn:T; try discriminate. injection B as <- ->. exact (or_inline _ OR done e post b N T).
        * injection B as <- CB. exact (or_type _ OR done c post b N CB).
      + intros y Y. eapply tshape_ext; [| |exact (SH y Y)]; [reflexivity|]. intros n _. cbn. apply app_nil_r.
      + exists ts'. split; [exact E|]. split; [|exact FR]. intros y Y. eapply tshape_ext; [| |exact (S' y Y)]; [reflexivity|]. intros n _. rewrite DM. reflexivity.
    - exists ts. split; [destruct F; [lia|reflexivity]|]. split; [|auto]. intros y Y. eapply tshape_ext; [| |exact (SH y Y)]; [reflexivity|].
      intros n _. rewrite DM. cbn. apply app_nil_r.
  Qed.
  Lemma variant_of_inline n : variant_of nodes dynamic (KElementType, n) = (KElementType, n).
  Proof.
    unfold variant_of. replace (existsb _ nodes) with false; [reflexivity|]. symmetry. apply not_true_is_false. intros H.
    apply existsb_exists in H as (x & X & E). destruct x as [e|c|s]; discriminate E.
  Qed.
  Lemma variant_of_type c : In (NType c) nodes -> variant_of nodes dynamic (KType, c_name c) = if isdyn c then (KVariant, c_name c) else (KType, c_name c).
  Proof.
    intros I. unfold variant_of. cbn [snd]. destruct (existsb _ nodes) eqn:E.
    - apply existsb_exists in E as (x & X & E). destruct x as [e|c'|s]; try discriminate. destruct ident_dec as [E'|]; [|discriminate].
      assert (NType c' = NType c) as [= ->] by (apply (type_once _ _ (c_name c)); cbn; auto; congruence). unfold isdyn. rewrite E. reflexivity.
    - destruct (isdyn c) eqn:D; [|reflexivity]. exfalso. rewrite <- not_true_iff_false in E. apply E. apply existsb_exists. exists (NType c). split; [exact I|].
      destruct ident_dec; [exact D|congruence].
  Qed.

  Lemma add_fresh i v ts : ts i = None -> add_type i v ts = Ok (set i v ts).
  Proof. intros E. unfold add_type. rewrite E. reflexivity. Qed.
  Lemma not_before_e done e post : nodes = done ++ NElement e :: post -> forall x, In x done -> ~ is_element (e_name e) x.
  Proof. intros N x X. apply (or_once_element _ OR done (NElement e) post (e_name e) N eq_refl). apply in_app_iff. auto. Qed.
  Lemma not_before_t done y n post : nodes = done ++ y :: post -> is_type n y -> forall x, In x done -> ~ is_type n x.
  Proof. intros N T x X. apply (or_once_type _ OR done y post n N T). apply in_app_iff. auto. Qed.

  Definition inline_variant (e : element) : option variant :=
    match e_type e with TNamed _ => None | TComplex b => Some (VComplex (option_map (pair KType) b)) | TSimple => Some VOther end.
  Lemma element_type_ok done e post ts : nodes = done ++ NElement e :: post -> inv ts done ->
    exists ts1, element_type dynamic F e ts = Ok (type_of e, ts1) /\
      (forall y, In y done -> tshape ts1 (dm (done ++ [NElement e])) y) /\
      ts1 (KElementType, e_name e) = inline_variant e /\
      (forall k n, tkind k = false -> (k, n) <> (KElementType, e_name e) -> ts1 (k, n) = ts (k, n)) /\
      (forall k n, tkind k = true -> (forall x, In x done -> ~ is_type n x) -> ts1 (k, n) = None).
  Proof.
    intros N [VE VT NE NT]. unfold element_type, type_of, inline_variant.
    assert (FR : ts (KElementType, e_name e) = None) by (apply NE; [reflexivity|]; eapply not_before_e; eauto).
    assert (SAME : based (NElement e) = None -> forall n, dm (done ++ [NElement e]) n = dm done n).
    { intros B n. rewrite dm_snoc. unfold dm_one. rewrite B. apply app_nil_r. }
    cbn [based] in SAME. destruct (e_type e) as [t|b|] eqn:T.
    - exists ts. split; [reflexivity|]. split; [|auto]. intros y Y. eapply tshape_ext; [| |exact (VT y Y)]; [reflexivity|]. intros; auto.
    - destruct (register_all done (NElement e) post (KElementType, e_name e) b ts N) as (ts1 & E1 & S1 & F1); [cbn; rewrite T; reflexivity|exact VT|].
      unfold create_type. rewrite FR. unfold apply_complex_type. cbn [orb is_dynamic fst]. rewrite variant_of_inline in E1. rewrite E1.
      rewrite add_fresh. 2:{ destruct (F1 (KElementType, e_name e)) as [->|[X _]]; [exact FR|discriminate X]. }
      eexists. split; [reflexivity|]. split; [|split; [|split]].
      + intros y Y. eapply tshape_ext; [| |exact (S1 y Y)]; [|reflexivity]. intros k n K _. apply set_other. intros [= -> ->]. discriminate K.
      + apply set_same.
      + intros k n K X. rewrite set_other by exact X. destruct (F1 (k, n)) as [->|[Y _]]; [reflexivity|]. cbn in Y. subst k. discriminate K.
      + intros k n K X. rewrite set_other by (intros [= -> ->]; discriminate K). destruct (F1 (k, n)) as [->|[_ (y & Y & TY)]]; [apply NT; assumption|].
        destruct (X y Y TY).
    - unfold create_type. rewrite FR, add_fresh by exact FR. eexists. split; [reflexivity|]. split; [|split; [|split]].
      + intros y Y. eapply tshape_ext; [| |exact (VT y Y)]; [|intros; auto]. intros k n K _. apply set_other. intros [= -> ->]. discriminate K.
      + apply set_same.
      + intros k n K X. apply set_other. exact X.
      + intros k n K X. rewrite set_other by (intros [= -> ->]; discriminate K). apply NT; assumption.
  Qed.

  Lemma element_step done e post ts : nodes = done ++ NElement e :: post -> inv ts done ->
    exists ts', process_node dynamic (find_element nodes) F (NElement e) ts = Ok ts' /\ inv ts' (done ++ [NElement e]).
  Proof.
    intros N IV. pose proof (not_before_e _ _ _ N) as NB.
    assert (NM : forall e', In (NElement e') done -> e_name e' <> e_name e) by (intros e' I X; exact (NB _ I X)).
    assert (SUB : forall e', In (NElement e') done -> In (NElement e') nodes) by (intros e' I; eapply sub_nodes; eauto).
    assert (FE : forall k, tkind k = false -> ts (k, e_name e) = None) by (intros k K; apply (iv_ne _ _ IV); assumption).
    destruct (element_type_ok done e post ts N IV) as (ts1 & E1 & T1 & I1 & R1 & Z1).
    assert (SH1 : forall e', In (NElement e') done -> shape ts1 (mm done) e').
    { intros e' I. eapply shape_ext; [| |exact (iv_e _ _ IV e' I)]; [|reflexivity]. intros k K. apply R1; [exact K|]. intros [= _ X]. exact (NM _ I X). }
    cbn [process_node]. unfold create_type. rewrite FE by reflexivity. unfold apply_element. rewrite E1.
    set (n := e_name e) in *.
    (* nillable *)
    assert (STEP2 : exists ts2, (if e_nillable e then
                 match add_type (KNillable, n) (VRef (type_of e) false) ts1 with
                 | Ok ts => Ok ((KNillable, n), true, ts) | Err e => Err e | Panic => Panic end
               else Ok (type_of e, false, ts1)) = Ok (fst (base0 e), snd (base0 e), ts2) /\
               ts2 (KNillable, n) = (if e_nillable e then Some (VRef (type_of e) false) else None) /\
               (forall i, i <> (KNillable, n) -> ts2 i = ts1 i)).
    { unfold base0. destruct (e_nillable e).
      - rewrite add_fresh by (rewrite R1 by (discriminate || reflexivity); apply FE; reflexivity). eexists. split; [reflexivity|]. split; [apply set_same|].
        intros i X. apply set_other. exact X.
      - exists ts1. split; [reflexivity|]. split; [|reflexivity]. rewrite R1 by (discriminate || reflexivity). apply FE. reflexivity. }
    cbv beta iota. destruct STEP2 as (ts2 & E2 & N2 & R2). rewrite E2. clear E2. cbv beta iota.
    assert (SH2 : forall e', In (NElement e') done -> shape ts2 (mm done) e').
    { intros e' I. eapply shape_ext; [| |exact (SH1 e' I)]; [|reflexivity]. intros k K. apply R2. intros [= _ X]. exact (NM _ I X). }
    (* the heads *)
    assert (STEP3 : exists ts3, match e_heads e with
                   | [] => Ok (fst (base0 e), snd (base0 e), ts2)
                   | heads => match add_type (KSubst, n) (VRef (fst (base0 e)) (snd (base0 e))) ts2 with
                       | Ok ts => match walk (find_element nodes) F n heads 0 ts with
                           | Ok ts => Ok ((KSubst, n), false, ts) | Err e => Err e | Panic => Panic end
                       | Err e => Err e | Panic => Panic end
                   end = Ok (fst (base1 e), snd (base1 e), ts3) /\
               (forall e', In (NElement e') done -> shape ts3 (mm (done ++ [NElement e])) e') /\
               ts3 (KSubst, n) = (if has_heads e then Some (VRef (fst (base0 e)) (snd (base0 e))) else None) /\
               (forall i, i <> (KSubst, n) -> ts3 i = ts2 i \/ (fst i = KElement \/ fst i = KSubst) /\ exists e', In (NElement e') done /\ snd i = e_name e')).
    { assert (S2 : ts2 (KSubst, n) = None) by (rewrite R2 by discriminate; rewrite R1 by (discriminate || reflexivity); apply FE; reflexivity).
      assert (MS : forall k, mm (done ++ [NElement e]) k = mm done k ++ mem1 n (wl F (e_heads e) 0) k) by (intros k; rewrite mm_snoc; reflexivity).
      unfold base1, has_heads. destruct (e_heads e) as [|h hs] eqn:H.
      - exists ts2. split; [reflexivity|]. split; [|auto]. intros e' I. eapply shape_ext; [| |exact (SH2 e' I)]; [reflexivity|]. rewrite MS.
        destruct F; cbn; apply app_nil_r.
      - rewrite add_fresh by exact S2.
        assert (L : length done < length nodes) by (rewrite N, app_length; cbn; lia).
        destruct (walk_ok done (NElement e :: post) n (mm done) N) with (fuel := F) (pre := done) (post := @Datatypes.nil node) (heads := h :: hs) (depth := 0) (W := @Datatypes.nil (nat * nat))
          (ts := set (KSubst, n) (VRef (fst (base0 e)) (snd (base0 e))) ts2) as (ts3 & E3 & S3 & F3).
        + intros k m b I ->. apply mm_in in I as (e' & I & X). exact (NM _ I (eq_sym X)).
        + exact NM.
        + rewrite app_nil_r. reflexivity.
        + lia.
        + intros h' I. apply (or_element _ OR done e post h' N). rewrite H. exact I.
        + intros e' I. eapply shape_ext; [| |exact (SH2 e' I)]; [|apply app_nil_r]. intros k K. apply set_other. intros [= _ X]. exact (NM _ I X).
        + rewrite E3. exists ts3. split; [reflexivity|]. split; [|split].
          * intros e' I. eapply shape_ext; [| |exact (S3 e' I)]; [reflexivity|]. rewrite MS. reflexivity.
          * destruct (F3 (KSubst, n)) as [->|[_ (e' & I & X)]]; [apply set_same|]. destruct (NM _ I (eq_sym X)).
          * intros i X. destruct (F3 i) as [->|Y]; [left; apply set_other; exact X|right; exact Y]. }
    destruct STEP3 as (ts3 & E3 & SH3 & S3 & R3).
    unfold ident in E3 |- *. rewrite E3. clear E3. cbv beta iota.
    assert (OUT : forall k m, m = n \/ (forall x, In x done -> ~ is_element m x) -> (k, m) <> (KSubst, n) -> (k, m) <> (KNillable, n) -> ts3 (k, m) = ts1 (k, m)).
    { intros k m M X Y. destruct (R3 (k, m) X) as [->|[_ (e' & I & Z)]]; [apply R2; exact Y|]. exfalso. cbn in Z. destruct M as [->|M].
      - exact (NM _ I (eq_sym Z)).
      - exact (M _ I (eq_sym Z)). }
    assert (OUTT : forall k m, tkind k = true -> ts3 (k, m) = ts1 (k, m)).
    { intros k m K. destruct (R3 (k, m)) as [->|[[X|X] _]]; [intros [= -> _]; discriminate K| |cbn in X; subst k; discriminate K|cbn in X; subst k; discriminate K].
      apply R2. intros [= -> _]. discriminate K. }
    rewrite add_fresh. 2:{ rewrite OUT by (auto || discriminate). rewrite R1 by (discriminate || reflexivity). apply FE. reflexivity. }
    eexists. split; [reflexivity|].
    assert (MN : mm (done ++ [NElement e]) n = []).
    { rewrite mm_snoc, (mm_pre done n (NElement e :: post) N NB). apply (mm_one_pre done e post n N NB). }
    constructor.
    - intros e' I. apply in_app_iff in I as [I|[[= <-]|[]]].
      + eapply shape_ext; [| |exact (SH3 e' I)]; [|reflexivity]. intros k K. apply set_other. intros [= _ X]. exact (NM _ I X).
      + constructor; fold n; rewrite ?MN.
        * rewrite set_other by discriminate. rewrite OUT by (auto || discriminate). exact I1.
        * rewrite set_other by discriminate. destruct (R3 (KNillable, n)) as [->|[[X|X] _]]; try discriminate. exact N2.
        * rewrite set_other by discriminate. rewrite S3. cbn [listed]. rewrite andb_false_r, orb_false_r. reflexivity.
        * rewrite set_same. reflexivity.
    - intros y I. apply in_app_iff in I as [I|[<-|[]]]; [|exact Logic.I]. eapply tshape_ext; [| |exact (T1 y I)]; [|reflexivity].
      intros k m K _. rewrite set_other by (intros [= -> _]; discriminate K). apply OUTT. exact K.
    - intros k m K X. assert (MNE : m <> n) by (intros ->; apply (X (NElement e)); [apply in_app_iff; cbn; auto|reflexivity]).
      assert (XD : forall x, In x done -> ~ is_element m x) by (intros x I; apply X, in_app_iff; auto).
      rewrite set_other by congruence. rewrite OUT by (auto || congruence). rewrite R1 by (exact K || congruence). apply (iv_ne _ _ IV); assumption.
    - intros k m K X. rewrite set_other by (intros [= -> _]; discriminate K). rewrite OUTT by exact K. apply Z1; [exact K|]. intros x I. apply X, in_app_iff. auto.
  Qed.

  Lemma type_step done c post ts : nodes = done ++ NType c :: post -> inv ts done ->
    exists ts', process_node dynamic (find_element nodes) F (NType c) ts = Ok ts' /\ inv ts' (done ++ [NType c]).
  Proof.
    intros N [VE VT NE NT]. pose proof (not_before_t _ _ _ _ N (eq_refl : is_type (c_name c) (NType c))) as NB.
    assert (IN : In (NType c) nodes) by (rewrite N; apply in_app_iff; cbn; auto).
    set (n := c_name c) in *.
    assert (FR : forall k, tkind k = true -> ts (k, n) = None) by (intros k K; apply NT; assumption).
    assert (DN : dm (done ++ [NType c]) n = []).
    { rewrite dm_snoc, (dm_pre done n (NType c :: post) N NB). apply (dm_one_pre done (NType c) post n N NB). }
    assert (KEY : exists v ts1, apply_complex_type dynamic F (KType, n) (c_base c) (c_abstract c) ts = Ok (v, ts1) /\
       v = (if isdyn c then VDyn (Some (KVariant, n)) (c_abstract c) (own c) else VComplex (option_map (pair KType) (c_base c))) /\
       (forall y, In y done -> tshape ts1 (dm (done ++ [NType c])) y) /\
       ts1 (KVariant, n) = (if isdyn c then Some (VComplex (option_map (pair KType) (c_base c))) else None) /\
       (forall j, j <> (KVariant, n) -> ts1 j = ts j \/ fst j = KType /\ exists y, In y done /\ is_type (snd j) y)).
    { unfold apply_complex_type, is_dynamic. cbn [fst snd]. pose proof (variant_of_type c IN) as VO. fold n in VO.
      change (c_abstract c || dynamic n)%bool with (isdyn c) in *. destruct (isdyn c) eqn:D.
      - rewrite add_fresh by (apply FR; reflexivity).
        destruct (register_all done (NType c) post (KType, n) (c_base c) (set (KVariant, n) (VComplex (option_map (pair KType) (c_base c))) ts) N eq_refl) as (ts1 & E1 & S1 & F1).
        { intros y Y. eapply tshape_ext; [| |exact (VT y Y)]; [|reflexivity]. intros k m K T. apply set_other. intros [= -> ->]. exact (NB y Y T). }
        rewrite VO in E1. rewrite E1. eexists _, ts1. split; [reflexivity|]. split; [reflexivity|]. split; [exact S1|]. split.
        + destruct (F1 (KVariant, n)) as [->|[X _]]; [apply set_same|discriminate X].
        + intros j J. destruct (F1 j) as [->|X]; [left; apply set_other; exact J|right; exact X].
      - destruct (register_all done (NType c) post (KType, n) (c_base c) ts N eq_refl VT) as (ts1 & E1 & S1 & F1).
        rewrite VO in E1. rewrite E1. eexists _, ts1. split; [reflexivity|]. split; [reflexivity|]. split; [exact S1|]. split.
        + destruct (F1 (KVariant, n)) as [->|[X _]]; [apply FR; reflexivity|discriminate X].
        + intros j _. apply F1. }
    destruct KEY as (v & ts1 & E1 & V & T1 & N1 & R1).
    cbn [process_node]. unfold create_type. fold n. rewrite FR by reflexivity. rewrite E1.
    assert (FR1 : ts1 (KType, n) = None).
    { destruct (R1 (KType, n)) as [->|[_ (y & Y & T)]]; [discriminate|apply FR; reflexivity|]. destruct (NB y Y T). }
    rewrite add_fresh by exact FR1. eexists. split; [reflexivity|].
    assert (MM : forall k, mm (done ++ [NType c]) k = mm done k) by (intros k; rewrite mm_snoc; apply app_nil_r).
    constructor.
    - intros e I. apply in_app_iff in I as [I|[X|[]]]; [|discriminate X]. eapply shape_ext; [| |exact (VE e I)]; [|apply MM].
      intros k K. rewrite set_other by (intros [= -> _]; discriminate K). destruct (R1 (k, e_name e)) as [->|[X _]]; [intros [= -> _]; discriminate K|reflexivity|].
      cbn in X. subst k. discriminate K.
    - intros y I. apply in_app_iff in I as [I|[<-|[]]].
      + eapply tshape_ext; [| |exact (T1 y I)]; [|reflexivity]. intros k m K T. apply set_other. intros [= _ ->]. exact (NB y I T).
      + cbn [tshape]. fold n. rewrite set_same, set_other by discriminate. rewrite DN, app_nil_r. split; [exact N1|]. rewrite V. reflexivity.
    - intros k m K X. rewrite set_other by (intros [= -> _]; discriminate K). destruct (R1 (k, m)) as [->|[Y _]]; [intros [= -> _]; discriminate K| |cbn in Y; subst k; discriminate K].
      apply NE; [exact K|]. intros x I. apply X, in_app_iff. auto.
    - intros k m K X. assert (MNE : m <> n) by (intros ->; apply (X (NType c)); [apply in_app_iff; cbn; auto|reflexivity]).
      rewrite set_other by congruence. destruct (R1 (k, m)) as [->|[_ (y & Y & T)]]; [congruence| |].
      + apply NT; [exact K|]. intros x I. apply X, in_app_iff. auto.
      + destruct (X y (proj2 (in_app_iff _ _ _) (or_introl Y)) T).
  Qed.
  Lemma simple_step done s post ts : nodes = done ++ NSimple s :: post -> inv ts done ->
    exists ts', process_node dynamic (find_element nodes) F (NSimple s) ts = Ok ts' /\ inv ts' (done ++ [NSimple s]).
  Proof.
    intros N [VE VT NE NT]. pose proof (not_before_t _ _ _ _ N (eq_refl : is_type s (NSimple s))) as NB.
    assert (FR : forall k, tkind k = true -> ts (k, s) = None) by (intros k K; apply NT; assumption).
    cbn [process_node]. unfold create_type. rewrite FR, add_fresh by (try apply FR; reflexivity). eexists. split; [reflexivity|]. constructor.
    - intros e I. apply in_app_iff in I as [I|[X|[]]]; [|discriminate X]. eapply shape_ext; [| |exact (VE e I)]; [|rewrite mm_snoc; apply app_nil_r].
      intros k K. apply set_other. intros [= -> _]; discriminate K.
    - intros y I. apply in_app_iff in I as [I|[<-|[]]].
      + eapply tshape_ext; [| |exact (VT y I)]; [|intros; rewrite dm_snoc; apply app_nil_r]. intros k m K T. apply set_other. intros [= _ ->]. exact (NB y I T).
      + cbn [tshape]. rewrite set_same, set_other by discriminate. split; [apply FR; reflexivity|reflexivity].
    - intros k m K X. rewrite set_other by (intros [= -> _]; discriminate K). apply NE; [exact K|]. intros x I. apply X, in_app_iff. auto.
    - intros k m K X. assert (MNE : m <> s) by (intros ->; apply (X (NSimple s)); [apply in_app_iff; cbn; auto|reflexivity]).
      rewrite set_other by congruence. apply NT; [exact K|]. intros x I. apply X, in_app_iff. auto.
  Qed.
  Lemma generated_from : forall todo done ts, nodes = done ++ todo -> inv ts done ->
    exists ts', generate_types dynamic (find_element nodes) F todo ts = Ok ts' /\ inv ts' nodes.
  Proof.
    induction todo as [|x todo IH]; intros done ts N IV; cbn [generate_types].
    - exists ts. split; [reflexivity|]. rewrite app_nil_r in N. rewrite N. exact IV.
    - assert (ST : exists ts', process_node dynamic (find_element nodes) F x ts = Ok ts' /\ inv ts' (done ++ [x])).
      { destruct x; [eapply element_step|eapply type_step|eapply simple_step]; eauto. }
      destruct ST as (ts' & -> & IV'). apply (IH (done ++ [x]) ts'); [rewrite N, <- app_assoc; reflexivity|exact IV'].
  Qed.
  Lemma generated : exists ts, generate_types dynamic (find_element nodes) F nodes (fun _ => None) = Ok ts /\ inv ts nodes.
  Proof. apply (generated_from nodes []); [reflexivity|]. constructor; cbn; try contradiction; auto. Qed.

  (** * What the loops visit, in terms of the declarations *)
  Lemma wl_member m : forall fuel heads depth h d, (forall h, In h heads -> member nodes m h) ->
    In (h, d) (wl fuel heads depth) -> member nodes m h.
  Proof.
    induction fuel as [|fuel IH]; intros heads depth h d H I; [destruct I|]. cbn in I.
    apply in_flat_map in I as (h0 & I0 & I). destruct I as [[= -> ->]|I]; [auto|].
    destruct (find_element nodes h0) as [e|] eqn:FE; [|destruct I].
    refine (IH _ _ _ _ _ I). intros h' I'. apply (member_trans nodes m h0 h'); [auto|].
    unfold find_element in FE. destruct find as [x|] eqn:FD; [|discriminate]. apply find_some in FD as [X E]. destruct x as [e'|c|s]; try discriminate.
    injection FE as ->. apply Nat.eqb_eq in E. subst h0. apply member_direct; assumption.
  Qed.
  Lemma wl_closed eh k : In (NElement eh) nodes -> In k (e_heads eh) -> forall fuel pre post heads depth d,
    nodes = pre ++ post -> length pre < fuel -> (forall h, In h heads -> exists x, In x pre /\ is_element h x) ->
    In (e_name eh, d) (wl fuel heads depth) -> exists d', In (k, d') (wl fuel heads depth).
  Proof.
    intros EH K. induction fuel as [|fuel IH]; intros pre post heads depth d N L HH I; [lia|]. cbn in I. cbn [wl].
    apply in_flat_map in I as (h0 & I0 & I). destruct (HH h0 I0) as (x & X & E). destruct x as [e|c|s]; try contradiction. cbn in E. subst h0.
    assert (IE : In (NElement e) nodes) by (rewrite N; apply in_app_iff; auto).
    rewrite (find_element_in e IE) in I. destruct (in_prefix _ _ X) as (p1 & p2 & Q).
    assert (NQ : nodes = p1 ++ NElement e :: p2 ++ post) by (rewrite N, Q, <- app_assoc; reflexivity).
    assert (L1 : length p1 < fuel) by (rewrite Q, app_length in L; cbn in L; lia).
    destruct I as [I|I].
    - injection I as EN ED. assert (e = eh) as -> by (apply element_once; auto).
      exists (S depth). apply in_flat_map. exists (e_name eh). split; [exact I0|]. right. rewrite (find_element_in eh EH).
      destruct fuel as [|fuel]; [lia|]. cbn. apply in_flat_map. exists k. split; [exact K|left; reflexivity].
    - destruct (IH p1 (NElement e :: p2 ++ post) (e_heads e) (S depth) d NQ L1) as (d' & I'); [|exact I|].
      + intros h' I'. exact (or_element _ OR p1 e (p2 ++ post) h' NQ I').
      + exists d'. apply in_flat_map. exists (e_name e). split; [exact I0|]. right. rewrite (find_element_in e IE). exact I'.
  Qed.
  Definition reach (e : element) (h : nat) : Prop := exists d, In (h, d) (wl F (e_heads e) 0).
  Lemma reach_member e h : In (NElement e) nodes -> (reach e h <-> member nodes (e_name e) h).
  Proof.
    intros IE. split.
    - intros (d & I). eapply wl_member; [|exact I]. intros h' I'. apply member_direct; assumption.
    - assert (KEY : forall m h, member nodes m h -> (exists e, In (NElement e) nodes /\ e_name e = m /\ reach e h) /\
                     (forall e0, In (NElement e0) nodes -> reach e0 m -> reach e0 h)).
      { clear e h IE. intros m h M. induction M as [e h IE IH|m k h M1 [(e & IE & NE & R1) C1] M2 [_ C2]].
        - split.
          + exists e. split; [exact IE|]. split; [reflexivity|]. exists 0. destruct F as [|fuel]; [lia|]. cbn. apply in_flat_map. exists h. split; [exact IH|left; reflexivity].
          + intros e0 I0 (d & R). apply in_split in I0 as (p1 & p2 & Q).
            apply (wl_closed e h IE IH F p1 (NElement e0 :: p2) (e_heads e0) 0 d Q); [|intros h' I'; exact (or_element _ OR p1 e0 p2 h' Q I')|exact R].
            rewrite Q, app_length in FL. lia.
        - split.
          + exists e. split; [exact IE|]. split; [exact NE|]. apply C2; assumption.
          + intros e0 I0 R0. apply C2; [exact I0|]. apply C1; assumption. }
      intros M. destruct (KEY _ _ M) as [(e' & IE' & NE & R) _]. rewrite (element_once e e') by auto. exact R.
  Qed.
  Lemma wl_depth : forall fuel heads depth h d, In (h, d) (wl fuel heads depth) -> d = depth /\ In h heads \/ S depth <= d.
  Proof.
    induction fuel as [|fuel IH]; intros heads depth h d I; [destruct I|]. cbn in I.
    apply in_flat_map in I as (h0 & I0 & I). destruct I as [[= -> ->]|I]; [auto|]. right.
    destruct (find_element nodes h0); [|destruct I]. apply IH in I. lia.
  Qed.
  Lemma no_self e : In (NElement e) nodes -> ~ reach e (e_name e).
  Proof.
    intros IE (d & I). apply in_split in IE as (pre & post & Q).
    destruct (wl_in F pre (NElement e :: post) (e_heads e) 0 (e_name e) d Q) as (x & X & E); [|exact I|].
    - intros h' I'. exact (or_element _ OR pre e post h' Q I').
    - exact (not_before_e pre e post Q x X E).
  Qed.

  Lemma ch_derives i : forall fuel b depth n d, derives nodes i b -> In (n, d) (ch fuel b depth) -> derives nodes i n.
  Proof.
    induction fuel as [|fuel IH]; intros b depth n d H I; [destruct I|]. cbn in I. destruct I as [[= -> ->]|I]; [exact H|].
    destruct (find_type b) as [[e|c|s]|] eqn:FT; try destruct I. destruct (c_base c) as [b'|] eqn:CB; [|destruct I].
    refine (IH _ _ _ _ _ I). apply (derives_trans nodes i b b'); [exact H|]. apply derives_direct.
    unfold find_type in FT. apply find_some in FT as [X E]. apply Nat.eqb_eq in E. subst b. apply base_named; assumption.
  Qed.
  Lemma ch_closed c b : In (NType c) nodes -> c_base c = Some b -> forall g pre post b0 depth d,
    nodes = pre ++ post -> length pre <= g -> (exists x, In x pre /\ is_type b0 x) ->
    In (c_name c, d) (ch g b0 depth) -> exists d', In (b, d') (ch g b0 depth).
  Proof.
    intros IC CB. induction g as [|g IH]; intros pre post b0 depth d N L (x & X & TX) I; [destruct I|]. cbn in I. cbn [ch].
    assert (IX : In x nodes) by (rewrite N; apply in_app_iff; auto).
    rewrite (find_type_in x b0 IX TX) in *. destruct (in_prefix _ _ X) as (p1 & p2 & Q).
    assert (NQ : nodes = p1 ++ x :: p2 ++ post) by (rewrite N, Q, <- app_assoc; reflexivity).
    assert (L1 : length p1 <= g) by (rewrite Q, app_length in L; cbn in L; lia).
    destruct I as [I|I].
    - injection I as EN ED. assert (x = NType c) as -> by (apply (type_once _ _ b0); auto; cbn; auto). rewrite CB.
      exists (S depth). right. destruct g as [|g]; [|left; reflexivity].
      destruct (or_type _ OR p1 c (p2 ++ post) b NQ CB) as (y & Y & _). destruct p1; [destruct Y|cbn in L1; lia].
    - destruct x as [e|c'|s]; try destruct I. destruct (c_base c') as [b'|] eqn:CB'; [|destruct I].
      destruct (IH p1 (NType c' :: p2 ++ post) b' (S depth) d NQ L1) as (d' & I'); [exact (or_type _ OR p1 c' _ b' NQ CB')|exact I|].
      exists d'. right. exact I'.
  Qed.
  Definition above (o : option nat) (n : nat) : Prop := exists d, In (n, d) (bases o f 0).
  Lemma based_base x i b : In x nodes -> based x = Some (i, Some b) -> base_of nodes i b.
  Proof.
    intros X B. destruct x as [e|c|s]; cbn in B; [| |discriminate].
    - destruct (e_type e) eqn:T; try discriminate. injection B as <- ->. apply base_inline; assumption.
    - injection B as <- CB. apply base_named; assumption.
  Qed.
  Lemma base_based i b : base_of nodes i b -> exists x, In x nodes /\ based x = Some (i, Some b).
  Proof.
    intros [c b' I E|e b' I E].
    - exists (NType c). split; [exact I|]. cbn. rewrite E. reflexivity.
    - exists (NElement e). split; [exact I|]. cbn. rewrite E. reflexivity.
  Qed.
  Lemma based_once x y i o o' : In x nodes -> In y nodes -> based x = Some (i, o) -> based y = Some (i, o') -> x = y.
  Proof.
    intros X Y A B. destruct x as [e|c|s], y as [e'|c'|s']; cbn in A, B; try discriminate;
      try (destruct (e_type e); try discriminate A; injection A as <- _); try (destruct (e_type e'); try discriminate B; injection B as E _);
      try discriminate.
    - f_equal. apply element_once; auto.
    - injection A as <- _. discriminate.
    - injection A as <- _. injection B as E _. apply (type_once _ _ (c_name c)); cbn; auto.
  Qed.
  Lemma before_base x pre post i b : nodes = pre ++ x :: post -> based x = Some (i, Some b) -> exists y, In y pre /\ is_type b y.
  Proof.
    intros N B. destruct x as [e|c|s]; cbn in B; [| |discriminate].
    - destruct (e_type e) eqn:T; try discriminate. injection B as <- ->. exact (or_inline _ OR pre e post b N T).
    - injection B as <- CB. exact (or_type _ OR pre c post b N CB).
  Qed.
  Lemma above_derives x i o n : In x nodes -> based x = Some (i, o) -> (above o n <-> derives nodes i n).
  Proof.
    intros X B. split.
    - intros (d & I). destruct o as [b|]; [|destruct I]. eapply ch_derives; [|exact I]. apply derives_direct. eapply based_base; eauto.
    - assert (KEY : forall i n, derives nodes i n -> (exists x o, In x nodes /\ based x = Some (i, o) /\ above o n) /\
                     (forall x j o k, i = (KType, k) -> In x nodes -> based x = Some (j, o) -> above o k -> above o n)).
      { clear x i o n X B. intros i n D. induction D as [i b D|i k b D1 [(x & o & X & B & A1) C1] D2 [_ C2]].
        - split.
          + destruct (base_based _ _ D) as (x & X & B). exists x, (Some b). split; [exact X|]. split; [exact B|]. exists 0.
            destruct f as [|g]; [lia|]. left. reflexivity.
          + intros x j o k -> X B (d & I). destruct o as [b0|]; [|destruct I]. cbn [bases] in I. apply in_split in X as (p1 & p2 & Q).
            inversion D as [c b' IC CB E|]; subst.
            apply (ch_closed c b IC CB f p1 (x :: p2) b0 0 d Q); [|exact (before_base x p1 p2 j b0 Q B)|exact I].
            rewrite Q, app_length in FL. lia.
        - split.
          + exists x, o. split; [exact X|]. split; [exact B|]. exact (C2 x i o k eq_refl X B A1).
          + intros y j o' k' E Y BY AY. exact (C2 y j o' k eq_refl Y BY (C1 y j o' k' E Y BY AY)). }
      intros D. destruct (KEY _ _ D) as [(y & o' & Y & BY & A) _].
      rewrite (based_once x y i o o') in B by assumption. rewrite B in BY. injection BY as <-. exact A.
  Qed.
  Lemma ch_depth : forall g b depth n d, In (n, d) (ch g b depth) -> d = depth /\ n = b \/ S depth <= d.
  Proof.
    induction g as [|g IH]; intros b depth n d I; [destruct I|]. cbn in I. destruct I as [[= -> ->]|I]; [auto|]. right.
    destruct (find_type b) as [[e|c|s]|]; try destruct I. destruct (c_base c); [|destruct I]. apply IH in I. lia.
  Qed.

  (** The entries. *)
  Lemma in_mm n m b : In (m, b) (mm nodes n) <-> exists e, In (NElement e) nodes /\ m = e_name e /\ exists d, look (wl F (e_heads e) 0) n = Some d /\ b = Nat.eqb d 0.
  Proof.
    unfold mm. rewrite in_flat_map. split.
    - intros (x & X & I). destruct x as [e|c|s]; try contradiction. cbn in I. unfold mem1 in I.
      destruct (look _ n) as [d|] eqn:L; [|contradiction]. destruct I as [[= <- <-]|[]]. exists e. repeat split; auto. exists d. auto.
    - intros (e & I & -> & d & L & ->). exists (NElement e). split; [exact I|]. cbn. unfold mem1. rewrite L. left. reflexivity.
  Qed.
  Lemma in_dm n j b : In (j, b) (dm nodes n) <-> exists x o, In x nodes /\ based x = Some (j, o) /\ exists d, look (bases o f 0) n = Some d /\ b = Nat.eqb d 0.
  Proof.
    unfold dm. rewrite in_flat_map. split.
    - intros (x & X & I). unfold dm_one in I. destruct (based x) as [[i o]|] eqn:B; [|contradiction]. unfold mem1 in I.
      destruct (look _ n) as [d|] eqn:L; [|contradiction]. destruct I as [[= <- <-]|[]]. exists x, o. repeat split; auto. exists d. auto.
    - intros (x & o & I & B & d & L & ->). exists x. split; [exact I|]. unfold dm_one. rewrite B. unfold mem1. rewrite L. left. reflexivity.
  Qed.
  Lemma NoDup_snoc {A} (l : list A) x : NoDup l -> ~ In x l -> NoDup (l ++ [x]).
  Proof.
    induction l as [|y l IH]; cbn; intros H N; [constructor; [auto|constructor]|]. inversion H as [|? ? H1 H2]; subst.
    constructor; [|apply IH; auto]. rewrite in_app_iff. cbn. intuition.
  Qed.
  Lemma mm_nodup n : forall done post, nodes = done ++ post -> NoDup (map fst (mm done n)).
  Proof.
    induction done as [|x done IH] using rev_ind; intros post N; [constructor|]. rewrite <- app_assoc in N. cbn in N. rewrite mm_snoc, map_app.
    specialize (IH _ N). destruct x as [e|c|s]; cbn; try (rewrite app_nil_r; exact IH). unfold mem1. destruct look; cbn; [|rewrite app_nil_r; exact IH].
    apply NoDup_snoc; [exact IH|]. intros I. apply in_map_iff in I as ([m b] & E & I). cbn in E. subst m. apply mm_in in I as (e' & I & E).
    exact (not_before_e done e post N (NElement e') I (eq_sym E)).
  Qed.
  Lemma dm_nodup n : forall done post, nodes = done ++ post -> NoDup (map fst (dm done n)).
  Proof.
    induction done as [|x done IH] using rev_ind; intros post N; [constructor|]. rewrite <- app_assoc in N. cbn in N. rewrite dm_snoc, map_app.
    specialize (IH _ N). unfold dm_one. destruct (based x) as [[i o]|] eqn:B; cbn; [|rewrite app_nil_r; exact IH]. unfold mem1. destruct look; cbn; [|rewrite app_nil_r; exact IH].
    apply NoDup_snoc; [exact IH|]. intros I. apply in_map_iff in I as ([m b] & E & I). cbn in E. subst m. apply dm_in in I as (y & o' & Y & BY).
    assert (x = y) as <-.
    { apply (based_once x y i o o'); auto; rewrite N; apply in_app_iff; cbn; auto. }
    destruct x as [e|c|s]; cbn in B; [| |discriminate].
    - exact (not_before_e done e post N (NElement e) Y eq_refl).
    - exact (not_before_t done (NType c) (c_name c) post N eq_refl (NType c) Y eq_refl).
  Qed.
End Run.

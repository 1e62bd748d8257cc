From Coq Require Import List Arith Bool Relations Lia.
From Verif Require Import PrinterModel PrinterSpec.
Import ListNotations.

(** * The state comes back as it was *)
Fixpoint collect {A} (f : A -> option (list out)) (l : list A) : option (list out) :=
  match l with
  | [] => Some []
  | x :: l' =>
    match f x, collect f l' with
    | Some a, Some b => Some (a ++ b)
    | _, _ => None
    end
  end.

Fixpoint print_pure (fuel : nat) (ts : types) (visit : list ident) (level : nat) (i : ident) (t : ptype)
    : option (list out) :=
  match fuel with
  | 0 => None
  | S fuel' =>
    if existsb (Nat.eqb i) visit then Some [OLoop i]
    else
      match collect (fun p =>
              match p with
              | PField f => Some [put level f]
              | PType d j =>
                match
                  match get j ts with
                  | Some u => print_pure fuel' ts (i :: visit) (level + d) j u
                  | None => Some [OMissing j]
                  end
                with
                | Some o => Some (OLabel (level + d) :: o)
                | None => None
                end
              end) (parts t) with
      | Some o => Some (OTitle i :: o)
      | None => None
      end
  end.

Lemma write_collect {A} (f : state -> A -> option (state * list out)) (g : A -> option (list out)) s l :
  (forall x, f s x = option_map (pair s) (g x)) -> write_all f s l = option_map (pair s) (collect g l).
Proof.
  intros H. induction l as [|x l IH]; [reflexivity|]. cbn. rewrite H. destruct (g x) as [a|]; [|reflexivity]. cbn.
  rewrite IH. destruct (collect g l); reflexivity.
Qed.

Lemma remove_new i l : ~ In i l -> remove Nat.eq_dec i (i :: l) = l.
Proof. intros H. rewrite remove_cons. apply notin_remove. exact H. Qed.

Lemma impl_pure ts : forall fuel s i t,
  print_type_impl fuel ts s i t = option_map (pair s) (print_pure fuel ts (s_visit s) (s_level s) i t).
Proof.
  induction fuel as [|fuel IH]; intros s i t; [reflexivity|]. cbn [print_type_impl print_pure].
  destruct (existsb (Nat.eqb i) (s_visit s)) eqn:E; [reflexivity|].
  match goal with |- context [write_all ?f ?s0 _] => set (w := f); set (s' := s0) end.
  match goal with |- context [collect ?f _] => set (g := f) end.
  rewrite (write_collect w g s' (parts t)).
  - destruct (collect g (parts t)) as [o|]; [|reflexivity]. cbn [option_map]. unfold s'; cbn [s_visit s_level].
    rewrite remove_new; [destruct s; reflexivity|].
    intros H. assert (existsb (Nat.eqb i) (s_visit s) = true); [|congruence].
    apply existsb_exists. exists i. split; [exact H|apply Nat.eqb_refl].
  - intros [f|d j]; unfold w, g, s'; cbn [s_visit s_level option_map]; [reflexivity|].
    destruct (get j ts) as [u|].
    + rewrite IH. cbn [s_visit s_level]. destruct (print_pure fuel ts (i :: s_visit s) (s_level s + d) j u) as [o|]; [|reflexivity].
      cbn [option_map s_visit s_level]. rewrite Nat.add_sub. reflexivity.
    + cbn [option_map]. rewrite Nat.add_sub. reflexivity.
Qed.

Lemma type_pure fuel ts i : print_type fuel ts i = match get i ts with Some t => print_pure fuel ts [] 0 i t | None => Some [] end.
Proof.
  unfold print_type. destruct (get i ts) as [t|]; [|reflexivity]. rewrite impl_pure. cbn [start s_visit s_level].
  destruct (print_pure fuel ts [] 0 i t); reflexivity.
Qed.

Lemma all_pure fuel ts : print_all fuel ts = collect (fun x => print_pure fuel ts [] 0 (fst x) (snd x)) ts.
Proof.
  unfold print_all. rewrite (write_collect _ (fun x => print_pure fuel ts [] 0 (fst x) (snd x))).
  - destruct (collect _ ts); reflexivity.
  - intros x. apply impl_pure.
Qed.

Lemma collect_some {A} (f : A -> option (list out)) l :
  (forall x, In x l -> f x <> None) -> exists o, collect f l = Some o.
Proof.
  induction l as [|x l IH]; intros H; [exists []; reflexivity|]. cbn.
  destruct (f x) as [a|] eqn:E; [|exfalso; apply (H x); [left; reflexivity|exact E]].
  destruct IH as [o ->]; [intros y Hy; apply H; right; exact Hy|]. eauto.
Qed.

Lemma collect_in {A} (f : A -> option (list out)) l o : collect f l = Some o ->
  forall y, In y o <-> exists x a, In x l /\ f x = Some a /\ In y a.
Proof.
  revert o; induction l as [|x l IH]; intros o H y; cbn in H.
  - injection H as <-. split; [intros []|intros (? & ? & [] & _)].
  - destruct (f x) as [a|] eqn:E; [|discriminate]. destruct (collect f l) as [b|]; [|discriminate].
    injection H as <-. rewrite in_app_iff, (IH b eq_refl). split.
    + intros [H|(z & c & H1 & H2 & H3)]; [exists x, a; cbn; auto|exists z, c; cbn; auto].
    + intros (z & c & [<-|H1] & H2 & H3); [left; congruence|right; eauto].
Qed.

Lemma collect_all {A} (f : A -> option (list out)) l o : collect f l = Some o -> forall x, In x l -> exists a, f x = Some a.
Proof.
  revert o; induction l as [|x l IH]; intros o H y Hy; [destruct Hy|]. cbn in H.
  destruct (f x) as [a|] eqn:E; [|discriminate]. destruct (collect f l) as [b|]; [|discriminate].
  destruct Hy as [<-|Hy]; [eauto|eapply IH; eauto].
Qed.

Lemma visited i visit : existsb (Nat.eqb i) visit = true <-> In i visit.
Proof.
  rewrite existsb_exists. split; [intros (x & H & E); apply Nat.eqb_eq in E; subst; exact H|].
  intros H. exists i. split; [exact H|apply Nat.eqb_refl].
Qed.
Lemma not_visited i visit : existsb (Nat.eqb i) visit = false <-> ~ In i visit.
Proof. rewrite <- visited. destruct (existsb (Nat.eqb i) visit); split; congruence. Qed.

Lemma get_in i ts t : get i ts = Some t -> In i (map fst ts).
Proof.
  induction ts as [|[j u] ts IH]; cbn; [discriminate|]. destruct (Nat.eqb i j) eqn:E; [apply Nat.eqb_eq in E; auto|auto].
Qed.

Lemma inside_part ts i j : inside ts i j <-> exists t d, get i ts = Some t /\ In (PType d j) (parts t).
Proof.
  assert (NF : forall fs d, ~ In (PType d j) (map PField fs)).
  { intros fs d H. apply in_map_iff in H as (x & E & _). discriminate. }
  unfold inside. split.
  - destruct (get i ts) as [[fs|gs es|fs [k|]]|]; try contradiction.
    + intros (fs & H). eexists _, 2. split; [reflexivity|]. cbn. apply in_or_app. right. apply in_flat_map. exists (EGroup fs j).
      split; [exact H|]. cbn. apply in_or_app. right. left. reflexivity.
    + intros ->. eexists _, 1. split; [reflexivity|]. cbn. apply in_or_app. right. left. reflexivity.
  - intros (t & d & -> & H). destruct t as [fs|gs es|fs [k|]]; cbn in H.
    + destruct (NF _ _ H).
    + apply in_app_or in H as [H|H]; [destruct (NF _ _ H)|]. apply in_flat_map in H as (e & He & H). destruct e as [fs|fs k]; cbn in H; [destruct (NF _ _ H)|].
      apply in_app_or in H as [H|[H|[]]]; [destruct (NF _ _ H)|]. injection H as _ ->. eauto.
    + apply in_app_or in H as [H|[H|[]]]; [destruct (NF _ _ H)|]. injection H as _ ->. reflexivity.
    + rewrite app_nil_r in H. destruct (NF _ _ H).
Qed.

(** * The end is reached *)
Lemma impl_ends ts : forall fuel visit level i t, NoDup visit -> incl visit (map fst ts) -> In i (map fst ts) ->
  length ts < fuel + length visit -> print_pure fuel ts visit level i t <> None.
Proof.
  induction fuel as [|fuel IH]; intros visit level i t ND IN Hi L.
  - exfalso. pose proof (NoDup_incl_length ND IN) as H. rewrite map_length in H. lia.
  - cbn. destruct (existsb (Nat.eqb i) visit) eqn:E; [discriminate|]. apply not_visited in E.
    match goal with |- context [collect ?f _] => set (g := f) end.
    destruct (collect_some g (parts t)) as [o ->]; [|discriminate].
    intros [f|d j] _; cbn; [discriminate|]. destruct (get j ts) as [u|] eqn:G; [|discriminate].
    pose proof (IH (i :: visit) (level + d) j u) as H.
    destruct (print_pure fuel ts (i :: visit) (level + d) j u); [discriminate|]. exfalso. apply H; auto.
    + constructor; assumption.
    + intros x [<-|Hx]; [exact Hi|apply IN, Hx].
    + apply get_in in G. exact G.
    + cbn. lia.
Qed.

Lemma type_ends ts i : print_type (S (length ts)) ts i <> None.
Proof.
  rewrite type_pure. destruct (get i ts) as [t|] eqn:G; [|discriminate].
  apply impl_ends; [constructor|intros x []|apply get_in in G; exact G|lia].
Qed.

Lemma all_ends ts : print_all (S (length ts)) ts <> None.
Proof.
  rewrite all_pure. destruct (collect_some (fun x => print_pure (S (length ts)) ts [] 0 (fst x) (snd x)) ts) as [o ->];
    [|discriminate].
  intros x Hx. apply impl_ends; [constructor|intros y []|apply in_map, Hx|lia].
Qed.

(** More calls change nothing. *)
Lemma collect_ext {A} (f g : A -> option (list out)) l o : (forall x a, In x l -> f x = Some a -> g x = Some a) ->
  collect f l = Some o -> collect g l = Some o.
Proof.
  revert o; induction l as [|x l IH]; intros o H E; cbn in *; [exact E|].
  destruct (f x) as [a|] eqn:F; [|discriminate]. destruct (collect f l) as [b|]; [|discriminate].
  rewrite (H x a (or_introl eq_refl) F), (IH b); auto.
Qed.

Lemma impl_more ts : forall fuel visit level i t o, print_pure fuel ts visit level i t = Some o ->
  forall more, fuel <= more -> print_pure more ts visit level i t = Some o.
Proof.
  induction fuel as [|fuel IH]; intros visit level i t o H more L; [discriminate|].
  destruct more as [|more]; [lia|]. cbn in *. destruct (existsb (Nat.eqb i) visit); [exact H|].
  match type of H with context [collect ?f _] => set (g := f) in H end.
  match goal with |- context [collect ?f _] => set (g' := f) end.
  destruct (collect g (parts t)) as [a|] eqn:E; [|discriminate].
  rewrite (collect_ext g g' (parts t) a); [exact H| |exact E].
  intros [f|d j] b _; cbn; [auto|]. destruct (get j ts) as [u|]; [|auto].
  destruct (print_pure fuel ts (i :: visit) (level + d) j u) as [c|] eqn:F; [|discriminate].
  rewrite (IH _ _ _ _ _ F more) by lia. auto.
Qed.

(** * Loops *)
Lemma loop_sound ts : forall fuel visit level i t o, get i ts = Some t ->
  print_pure fuel ts visit level i t = Some o ->
  (forall v, In v visit -> clos_trans _ (inside ts) v i) ->
  forall j, In (OLoop j) o -> recursive ts j.
Proof.
  induction fuel as [|fuel IH]; intros visit level i t o G H V j Hj; [discriminate|]. cbn in H.
  destruct (existsb (Nat.eqb i) visit) eqn:E.
  - apply visited in E. injection H as <-. destruct Hj as [Hj|[]]. injection Hj as <-. exact (V i E).
  - match type of H with context [collect ?f _] => set (g := f) in H end.
    destruct (collect g (parts t)) as [a|] eqn:C; [|discriminate]. injection H as <-.
    destruct Hj as [Hj|Hj]; [discriminate|]. apply (collect_in _ _ _ C) in Hj as (p & b & Hp & Hb & Hj).
    destruct p as [f|d k]; cbn in Hb; [injection Hb as <-; destruct Hj as [Hj|[]]; discriminate|].
    destruct (get k ts) as [u|] eqn:K.
    + destruct (print_pure fuel ts (i :: visit) (level + d) k u) as [c|] eqn:F; [|discriminate].
      injection Hb as <-. destruct Hj as [Hj|Hj]; [discriminate|].
      assert (ED : inside ts i k) by (apply inside_part; eauto).
      apply (IH _ _ _ _ _ K F) with (j := j); [|exact Hj].
      intros v [<-|Hv]; [apply t_step; exact ED|]. eapply t_trans; [apply V, Hv|apply t_step; exact ED].
    + injection Hb as <-. destruct Hj as [Hj|[Hj|[]]]; discriminate.
Qed.

Definition reaches_loop (ts : types) (i : ident) : Prop := exists j, below ts i j /\ recursive ts j.

Lemma reaches_step ts i : reaches_loop ts i -> exists k, inside ts i k /\ reaches_loop ts k.
Proof.
  intros (j & B & R). apply clos_rt_rt1n in B. destruct B as [|k j E B].
  - pose proof R as R'. apply clos_trans_t1n in R'. inversion R' as [x E|x z E B]; subst.
    + exists i. split; [exact E|]. exists i. split; [apply rt_refl|exact R].
    + exists x. split; [exact E|]. exists i. split; [|exact R].
      clear - B. apply clos_t1n_trans in B. induction B; [apply rt_step; assumption|eapply rt_trans; eassumption].
  - exists k. split; [exact E|]. exists j. split; [apply clos_rt1n_rt; exact B|exact R].
Qed.

Lemma recursive_in ts i : reaches_loop ts i -> exists t, get i ts = Some t.
Proof. intros H. destruct (reaches_step _ _ H) as (k & E & _). apply inside_part in E as (t & d & G & _). eauto. Qed.

Lemma loop_complete ts : forall fuel visit level i t o, get i ts = Some t ->
  print_pure fuel ts visit level i t = Some o -> reaches_loop ts i -> exists j, In (OLoop j) o.
Proof.
  induction fuel as [|fuel IH]; intros visit level i t o G H R; [discriminate|]. cbn in H.
  destruct (existsb (Nat.eqb i) visit) eqn:E.
  - injection H as <-. exists i. left. reflexivity.
  - match type of H with context [collect ?f _] => set (g := f) in H end.
    destruct (collect g (parts t)) as [a|] eqn:C; [|discriminate]. injection H as <-.
    destruct (reaches_step _ _ R) as (k & ED & RK). destruct (recursive_in _ _ RK) as [u K].
    apply inside_part in ED as (t' & d & G' & Hp). assert (t' = t) by congruence. subst t'.
    destruct (collect_all _ _ _ C _ Hp) as [b Hb]. pose proof Hb as Hb'. cbn in Hb. rewrite K in Hb.
    destruct (print_pure fuel ts (i :: visit) (level + d) k u) as [c|] eqn:F; [|discriminate]. injection Hb as <-.
    destruct (IH _ _ _ _ _ K F RK) as [j Hj]. exists j. right. apply (collect_in _ _ _ C).
    eexists _, _. split; [exact Hp|]. split; [exact Hb'|right; exact Hj].
Qed.

(** * Everything below is printed *)

(** Paths without repetition. *)
Inductive path (ts : types) : list ident -> ident -> ident -> Prop :=
| path_nil : forall i, path ts [] i i
| path_cons : forall i k j l, inside ts i k -> path ts l k j -> path ts (i :: l) i j.

Lemma path_of ts i j : below ts i j -> exists l, path ts l i j.
Proof.
  intros H. apply clos_rt_rt1n in H. induction H as [|i k j E B [l IH]]; [exists []; constructor|].
  exists (i :: l). econstructor; eassumption.
Qed.

Lemma path_inv ts y l i j : path ts (y :: l) i j -> y = i /\ exists k, inside ts i k /\ path ts l k j.
Proof. intros P. inversion P; subst. eauto. Qed.
Lemma path_inv_nil ts i j : path ts [] i j -> i = j.
Proof. intros P. inversion P. reflexivity. Qed.

Lemma path_cut ts l : forall i j x, path ts l i j -> In x l -> exists l', path ts l' x j /\ length l' <= length l /\ incl l' l.
Proof.
  induction l as [|y l IH]; intros i j x P H; [destruct H|]. destruct (path_inv _ _ _ _ _ P) as (-> & k & ED & PK).
  destruct H as [<-|H].
  - exists (i :: l). split; [exact P|]. split; [lia|intros z; auto].
  - destruct (IH _ _ _ PK H) as (l' & P' & L & IN). exists l'. split; [exact P'|]. split; [cbn; lia|].
    intros z Hz. right. apply IN, Hz.
Qed.

Lemma path_simple ts n : forall l i j, length l <= n -> path ts l i j -> exists l', path ts l' i j /\ NoDup l' /\ incl l' l.
Proof.
  induction n as [|n IH]; intros l i j L P.
  - destruct l; [|cbn in L; lia]. exists []. split; [exact P|]. split; [constructor|intros z []].
  - destruct l as [|y l]; [exists []; split; [exact P|]; split; [constructor|intros z []]|].
    destruct (path_inv _ _ _ _ _ P) as (-> & k & ED & PK). cbn in L.
    destruct (in_dec Nat.eq_dec i l) as [Hi|Hi].
    + destruct (path_cut _ _ _ _ _ PK Hi) as (l' & P' & L' & I').
      destruct (IH l' i j) as (l'' & P'' & N & IN); [lia|exact P'|]. exists l''. split; [exact P''|]. split; [exact N|].
      intros z Hz. right. apply I', IN, Hz.
    + destruct (IH l k j) as (l' & P' & N & IN); [lia|exact PK|].
      exists (i :: l'). split; [econstructor; eassumption|]. split; [constructor; [intros H1; apply Hi, IN, H1|exact N]|].
      intros z [<-|Hz]; [left; reflexivity|right; apply IN, Hz].
Qed.

Lemma path_end ts l : forall i j, path ts l i j -> In j l -> exists l', path ts l' i j /\ ~ In j l'.
Proof.
  induction l as [|y l IH]; intros i j P H; [destruct H|]. destruct (path_inv _ _ _ _ _ P) as (-> & k & ED & PK).
  destruct (Nat.eq_dec i j) as [<-|NE].
  - exists []. split; [constructor|intros []].
  - destruct H as [H|H]; [congruence|]. destruct (IH _ _ PK H) as (l' & P' & N).
    exists (i :: l'). split; [econstructor; eassumption|]. intros [E|E]; auto.
Qed.

(** What is written for a type itself. *)
Definition body_written (ts : types) (j : ident) (o : list out) : Prop :=
  In (OTitle j) o /\ forall m, inside ts j m -> get m ts = None -> In (OMissing m) o.

Lemma written_below ts : forall fuel l visit level i t o j, get i ts = Some t ->
  print_pure fuel ts visit level i t = Some o -> path ts l i j -> NoDup (l ++ [j]) ->
  (forall x, In x (l ++ [j]) -> ~ In x visit) -> get j ts <> None -> body_written ts j o.
Proof.
  induction fuel as [|fuel IH]; intros l visit level i t o j G H P ND AV GJ; [discriminate|]. cbn in H.
  assert (NV : ~ In i visit).
  { apply AV. inversion P; subst; [left; reflexivity|left; reflexivity]. }
  apply not_visited in NV. rewrite NV in H. apply not_visited in NV.
  match type of H with context [collect ?f _] => set (g := f) in H end.
  destruct (collect g (parts t)) as [a|] eqn:C; [|discriminate]. injection H as <-.
  inversion P as [|i' k j' l' ED PK]; subst.
  - split; [left; reflexivity|]. intros m ED GM. apply inside_part in ED as (t' & d & G' & Hp).
    assert (t' = t) by congruence. subst t'. right. apply (collect_in _ _ _ C).
    exists (PType d m), [OLabel (level + d); OMissing m]. split; [exact Hp|]. split; [cbn; rewrite GM; reflexivity|]. right. left. reflexivity.
  - assert (K : exists u, get k ts = Some u).
    { inversion PK; subst.
      - destruct (get j ts) as [u|]; [eauto|congruence].
      - apply inside_part in H as (u & ? & ? & _). eauto. }
    destruct K as [u K]. apply inside_part in ED as (t' & d & G' & Hp). assert (t' = t) by congruence. subst t'.
    destruct (collect_all _ _ _ C _ Hp) as [b Hb]. pose proof Hb as Hb'. cbn in Hb. rewrite K in Hb.
    destruct (print_pure fuel ts (i :: visit) (level + d) k u) as [c|] eqn:F; [|discriminate]. injection Hb as <-.
    cbn in ND. inversion ND as [|x y NI ND' E]; subst.
    assert (BW : body_written ts j c).
    { eapply IH; [exact K|exact F|exact PK|exact ND'| |exact GJ].
      intros x Hx [<-|HV]; [exact (NI Hx)|]. exact (AV x (or_intror Hx) HV). }
    assert (UP : forall y, In y c -> In y (OTitle i :: a)).
    { intros y Hy. right. apply (collect_in _ _ _ C). eexists _, _. split; [exact Hp|]. split; [exact Hb'|right; exact Hy]. }
    destruct BW as [B1 B2]. split; [apply UP, B1|]. intros m Hm GM. apply UP, B2; assumption.
Qed.

Lemma below_written ts fuel i j t o : get i ts = Some t -> print_pure fuel ts [] 0 i t = Some o ->
  below ts i j -> get j ts <> None -> body_written ts j o.
Proof.
  intros G H B GJ. destruct (path_of _ _ _ B) as [l P]. destruct (path_simple ts (length l) l i j (le_n _) P) as (l1 & P1 & N1 & _).
  assert (E : exists l2, path ts l2 i j /\ NoDup (l2 ++ [j])).
  { destruct (in_dec Nat.eq_dec j l1) as [Hj|Hj].
    - destruct (path_end _ _ _ _ P1 Hj) as (l2 & P2 & N2).
      destruct (path_simple ts (length l2) l2 i j (le_n _) P2) as (l3 & P3 & N3 & I3).
      exists l3. split; [exact P3|]. apply NoDup_rev in N3. rewrite <- (rev_involutive (l3 ++ [j])). apply NoDup_rev.
      rewrite rev_app_distr. cbn. constructor; [|exact N3]. intros Hx. apply in_rev in Hx. apply N2, I3, Hx.
    - exists l1. split; [exact P1|]. apply NoDup_rev in N1. rewrite <- (rev_involutive (l1 ++ [j])). apply NoDup_rev.
      rewrite rev_app_distr. cbn. constructor; [|exact N1]. intros Hx. apply in_rev in Hx. apply Hj, Hx. }
  destruct E as (l2 & P2 & N2). eapply written_below; [exact G|exact H|exact P2|exact N2|intros x _ []|exact GJ].
Qed.

(** ... and nothing else. *)
Lemma title_below ts : forall fuel visit level i t o j, get i ts = Some t ->
  print_pure fuel ts visit level i t = Some o -> In (OTitle j) o -> below ts i j.
Proof.
  induction fuel as [|fuel IH]; intros visit level i t o j G H Hj; [discriminate|]. cbn in H.
  destruct (existsb (Nat.eqb i) visit) eqn:E.
  - injection H as <-. destruct Hj as [Hj|[]]. discriminate.
  - match type of H with context [collect ?f _] => set (g := f) in H end.
    destruct (collect g (parts t)) as [a|] eqn:C; [|discriminate]. injection H as <-.
    destruct Hj as [Hj|Hj]; [injection Hj as <-; apply rt_refl|]. apply (collect_in _ _ _ C) in Hj as (p & b & Hp & Hb & Hj).
    destruct p as [f|d k]; cbn in Hb; [injection Hb as <-; destruct Hj as [Hj|[]]; discriminate|].
    destruct (get k ts) as [u|] eqn:K.
    + destruct (print_pure fuel ts (i :: visit) (level + d) k u) as [c|] eqn:F; [|discriminate].
      injection Hb as <-. destruct Hj as [Hj|Hj]; [discriminate|].
      eapply rt_trans; [apply rt_step, inside_part; eauto|]. eapply IH; eassumption.
    + injection Hb as <-. destruct Hj as [Hj|[Hj|[]]]; discriminate.
Qed.

(** * The size of the output *)
Lemma titles_app a b : titles (a ++ b) = titles a + titles b.
Proof. unfold titles. rewrite filter_app, app_length. reflexivity. Qed.

Lemma get_seq k n : forall a, get k (map (fun i => (i, TGroup [] [EGroup [] (S i); EGroup [] (S i)])) (seq a n) ++ [(a + n, TSimple [])]) =
  if Nat.leb a k && Nat.ltb k (a + n) then Some (TGroup [] [EGroup [] (S k); EGroup [] (S k)])
  else if Nat.eqb k (a + n) then Some (TSimple []) else None.
Proof.
  induction n as [|n IH]; intros a.
  - cbn [seq map app get]. rewrite Nat.add_0_r. destruct (Nat.leb a k && Nat.ltb k a) eqn:E; [|reflexivity].
    apply andb_true_iff in E as [E1 E2]. apply Nat.leb_le in E1. apply Nat.ltb_lt in E2. lia.
  - cbn [seq map app get]. destruct (Nat.eqb k a) eqn:E.
    + apply Nat.eqb_eq in E. subst k. rewrite Nat.leb_refl. replace (Nat.ltb a (a + S n)) with true; [reflexivity|].
      symmetry. apply Nat.ltb_lt. lia.
    + replace (a + S n) with (S a + n) by lia. rewrite (IH (S a)). apply Nat.eqb_neq in E.
      replace (Nat.leb (S a) k) with (Nat.leb a k); [reflexivity|].
      destruct (Nat.leb a k) eqn:F, (Nat.leb (S a) k) eqn:F'; try reflexivity;
        rewrite ?Nat.leb_le, ?Nat.leb_gt in *; lia.
Qed.

Lemma twice_titles n : forall m (k : ident) (visit : list ident) level fuel t, k + m = n -> get k (twice n) = Some t ->
  (forall v, In v visit -> v < k) -> m < fuel ->
  exists o, print_pure fuel (twice n) visit level k t = Some o /\ titles o + 1 = 2 ^ S m.
Proof.
  induction m as [|m IH]; intros k visit level fuel t E G V L; (destruct fuel as [|fuel]; [lia|]); cbn [print_pure];
    (assert (NV : existsb (Nat.eqb k) visit = false) by (apply not_visited; intros H; apply V in H; lia)); rewrite NV.
  - unfold twice in G. rewrite (get_seq k n 0 : get k (map _ (seq 0 n) ++ [(n, _)]) = _) in G. cbn [Nat.add Nat.leb andb] in G.
    replace (Nat.ltb k n) with false in G by (symmetry; apply Nat.ltb_ge; lia).
    replace (Nat.eqb k n) with true in G by (symmetry; apply Nat.eqb_eq; lia). injection G as <-.
    cbn. eexists. split; reflexivity.
  - unfold twice in G. rewrite (get_seq k n 0 : get k (map _ (seq 0 n) ++ [(n, _)]) = _) in G. cbn [Nat.add Nat.leb andb] in G.
    replace (Nat.ltb k n) with true in G by (symmetry; apply Nat.ltb_lt; lia). injection G as <-.
    assert (GK : exists u, get (S k) (twice n) = Some u).
    { unfold twice. rewrite (get_seq (S k) n 0 : get (S k) (map _ (seq 0 n) ++ [(n, _)]) = _). cbn [Nat.add Nat.leb andb].
      destruct (Nat.ltb (S k) n) eqn:F'; [eauto|]. apply Nat.ltb_ge in F'.
      replace (Nat.eqb (S k) n) with true by (symmetry; apply Nat.eqb_eq; lia). eauto. }
    destruct GK as [u GK]. cbn [parts flat_map element_parts map app collect]. rewrite GK.
    destruct (IH (S k) (k :: visit) (level + 2) fuel u) as (o & -> & T); [lia|exact GK| |lia|].
    + intros v [<-|Hv]; [lia|apply V in Hv; lia].
    + eexists. split; [reflexivity|]. cbn [app]. rewrite app_nil_r.
      change (titles (OTitle k :: OLabel (level + 2) :: o ++ OLabel (level + 2) :: o)) with (S (titles (o ++ OLabel (level + 2) :: o))).
      rewrite titles_app. change (titles (OLabel (level + 2) :: o)) with (titles o). rewrite (Nat.pow_succ_r' 2 (S m)). lia.
Qed.

(** * The theorems *)
Lemma ends ts : (forall i, exists o, forall fuel, length ts < fuel -> print_type fuel ts i = Some o) /\
  (exists o, forall fuel, length ts < fuel -> print_all fuel ts = Some o).
Proof.
  split.
  - intros i. pose proof (type_ends ts i) as H. rewrite type_pure in H. destruct (get i ts) as [t|] eqn:G.
    + destruct (print_pure (S (length ts)) ts [] 0 i t) as [o|] eqn:E; [|congruence]. exists o. intros fuel L.
      rewrite type_pure, G. eapply impl_more; [exact E|lia].
    + exists []. intros fuel _. rewrite type_pure, G. reflexivity.
  - pose proof (all_ends ts) as H. rewrite all_pure in H.
    destruct (collect (fun x => print_pure (S (length ts)) ts [] 0 (fst x) (snd x)) ts) as [o|] eqn:E; [|congruence].
    exists o. intros fuel L. rewrite all_pure. eapply collect_ext; [|exact E]. intros x a _ Hx. eapply impl_more; [exact Hx|lia].
Qed.

Lemma collect_fields (f : ident * ptype -> option (list out)) l o : collect f l = Some o ->
  exists os, Forall2 (fun x p => f x = Some p) l os /\ o = concat os.
Proof.
  revert o; induction l as [|x l IH]; intros o H; cbn in H.
  - injection H as <-. exists []. split; [constructor|reflexivity].
  - destruct (f x) as [a|] eqn:E; [|discriminate]. destruct (collect f l) as [b|]; [|discriminate]. injection H as <-.
    destruct (IH b eq_refl) as (os & F & ->). exists (a :: os). split; [constructor; assumption|reflexivity].
Qed.

Lemma get_nodup ts : NoDup (map fst ts) -> forall i t, In (i, t) ts -> get i ts = Some t.
Proof.
  induction ts as [|[j u] ts IH]; intros ND i t H; [destruct H|]. cbn in ND. inversion ND as [|x l NI ND' E]; subst.
  cbn. destruct H as [H|H].
  - injection H as <- <-. rewrite Nat.eqb_refl. reflexivity.
  - destruct (Nat.eqb i j) eqn:F; [|apply IH; assumption]. apply Nat.eqb_eq in F. subst j. exfalso. apply NI.
    apply (in_map fst) in H. exact H.
Qed.

Lemma one_by_one ts fuel o : NoDup (map fst ts) -> print_all fuel ts = Some o ->
  exists os, Forall2 (fun i p => print_type fuel ts i = Some p) (map fst ts) os /\ o = concat os.
Proof.
  intros ND H. rewrite all_pure in H. apply collect_fields in H as (os & F & ->). exists os. split; [|reflexivity].
  assert (IN : forall x, In x ts -> get (fst x) ts = Some (snd x)) by (intros [i t] Hx; apply get_nodup; assumption).
  assert (G : forall l q, Forall2 (fun x p => print_pure fuel ts [] 0 (fst x) (snd x) = Some p) l q -> incl l ts ->
    Forall2 (fun i p => print_type fuel ts i = Some p) (map fst l) q).
  { intros l q F'. induction F' as [|x p l q E F' IH]; intros IL; [constructor|]. cbn. constructor.
    - rewrite type_pure, (IN x) by (apply IL; left; reflexivity). exact E.
    - apply IH. intros y Hy. apply IL. right. exact Hy. }
  apply G; [exact F|intros y Hy; exact Hy].
Qed.

Lemma loops ts fuel i o : print_type fuel ts i = Some o ->
  (forall j, In (OLoop j) o -> below ts i j /\ recursive ts j) /\
  ((exists j, below ts i j /\ recursive ts j) -> exists j, In (OLoop j) o).
Proof.
  intros H. rewrite type_pure in H. destruct (get i ts) as [t|] eqn:G.
  - split.
    + intros j Hj. split; [|eapply loop_sound; [exact G|exact H|intros v []|exact Hj]].
      clear - G H Hj. revert H Hj. generalize (@nil ident) 0. revert i t G o.
      induction fuel as [|fuel IH]; intros i t G o visit level H Hj; [discriminate|]. cbn in H.
      destruct (existsb (Nat.eqb i) visit) eqn:E.
      * injection H as <-. destruct Hj as [Hj|[]]. injection Hj as <-. apply rt_refl.
      * match type of H with context [collect ?f _] => set (g := f) in H end.
        destruct (collect g (parts t)) as [a|] eqn:C; [|discriminate]. injection H as <-.
        destruct Hj as [Hj|Hj]; [discriminate|]. apply (collect_in _ _ _ C) in Hj as (p & b & Hp & Hb & Hj).
        destruct p as [f|d k]; cbn in Hb; [injection Hb as <-; destruct Hj as [Hj|[]]; discriminate|].
        destruct (get k ts) as [u|] eqn:K.
        -- destruct (print_pure fuel ts (i :: visit) (level + d) k u) as [c|] eqn:F; [|discriminate].
           injection Hb as <-. destruct Hj as [Hj|Hj]; [discriminate|].
           eapply rt_trans; [apply rt_step, inside_part; eauto|]. eapply IH; eassumption.
        -- injection Hb as <-. destruct Hj as [Hj|[Hj|[]]]; discriminate.
    + intros R. eapply loop_complete; [exact G|exact H|exact R].
  - injection H as <-. split; [intros j []|]. intros R. destruct (recursive_in ts i R) as [t E]. congruence.
Qed.

Lemma missing_below ts : forall fuel visit level i t o j, get i ts = Some t ->
  print_pure fuel ts visit level i t = Some o -> In (OMissing j) o ->
  get j ts = None /\ exists k, below ts i k /\ inside ts k j.
Proof.
  induction fuel as [|fuel IH]; intros visit level i t o j G H Hj; [discriminate|]. cbn in H.
  destruct (existsb (Nat.eqb i) visit) eqn:E.
  - injection H as <-. destruct Hj as [Hj|[]]. discriminate.
  - match type of H with context [collect ?f _] => set (g := f) in H end.
    destruct (collect g (parts t)) as [a|] eqn:C; [|discriminate]. injection H as <-.
    destruct Hj as [Hj|Hj]; [discriminate|]. apply (collect_in _ _ _ C) in Hj as (p & b & Hp & Hb & Hj).
    destruct p as [f|d k]; cbn in Hb; [injection Hb as <-; destruct Hj as [Hj|[]]; discriminate|].
    destruct (get k ts) as [u|] eqn:K.
    + destruct (print_pure fuel ts (i :: visit) (level + d) k u) as [c|] eqn:F; [|discriminate].
      injection Hb as <-. destruct Hj as [Hj|Hj]; [discriminate|].
      destruct (IH _ _ _ _ _ _ K F Hj) as (N & m & B & D). split; [exact N|]. exists m. split; [|exact D].
      eapply rt_trans; [apply rt_step, inside_part; eauto|exact B].
    + injection Hb as <-. destruct Hj as [Hj|[Hj|[]]]; [discriminate|]. injection Hj as <-. split; [exact K|].
      exists i. split; [apply rt_refl|apply inside_part; eauto].
Qed.

Lemma everything ts fuel i o : get i ts <> None -> print_type fuel ts i = Some o ->
  (forall j, In (OTitle j) o <-> below ts i j /\ get j ts <> None) /\
  (forall j, In (OMissing j) o <-> below ts i j /\ get j ts = None).
Proof.
  intros GI H. rewrite type_pure in H. destruct (get i ts) as [t|] eqn:G; [|congruence]. clear GI. split; intros j; split.
  - intros Hj. pose proof (title_below _ _ _ _ _ _ _ _ G H Hj) as B. split; [exact B|].
    revert H Hj. clear - G. revert i t G o. generalize (@nil ident) 0. induction fuel as [|fuel IH]; intros visit level i t G o H Hj; [discriminate|].
    cbn in H. destruct (existsb (Nat.eqb i) visit) eqn:E.
    + injection H as <-. destruct Hj as [Hj|[]]. discriminate.
    + match type of H with context [collect ?f _] => set (g := f) in H end.
      destruct (collect g (parts t)) as [a|] eqn:C; [|discriminate]. injection H as <-.
      destruct Hj as [Hj|Hj]; [injection Hj as <-; congruence|]. apply (collect_in _ _ _ C) in Hj as (p & b & Hp & Hb & Hj).
      destruct p as [f|d k]; cbn in Hb; [injection Hb as <-; destruct Hj as [Hj|[]]; discriminate|].
      destruct (get k ts) as [u|] eqn:K.
      * destruct (print_pure fuel ts (i :: visit) (level + d) k u) as [c|] eqn:F; [|discriminate].
        injection Hb as <-. destruct Hj as [Hj|Hj]; [discriminate|]. eapply IH; eassumption.
      * injection Hb as <-. destruct Hj as [Hj|[Hj|[]]]; discriminate.
  - intros [B N]. apply (below_written _ _ _ _ _ _ G H B N).
  - intros Hj. destruct (missing_below _ _ _ _ _ _ _ _ G H Hj) as (N & k & B & D). split; [|exact N].
    eapply rt_trans; [exact B|apply rt_step; exact D].
  - intros [B N]. apply clos_rt_rtn1 in B. destruct B as [|k j D B]; [congruence|]. apply clos_rtn1_rt in B.
    assert (GK : get k ts <> None). { apply inside_part in D as (u & d & E & _). congruence. }
    apply (below_written _ _ _ _ _ _ G H B GK); assumption.
Qed.

Lemma twice_length n : length (twice n) = S n.
Proof. unfold twice. rewrite app_length, map_length, seq_length. cbn. lia. Qed.

Lemma exponential n : exists o, print_type (S (length (twice n))) (twice n) 0 = Some o /\ 2 ^ n <= titles o.
Proof.
  assert (G : exists t, get 0 (twice n) = Some t).
  { unfold twice. destruct n; cbn; eauto. }
  destruct G as [t G]. destruct (twice_titles n n 0 [] 0 (S (length (twice n))) t) as (o & E & T); auto.
  - intros v [].
  - rewrite twice_length. lia.
  - exists o. rewrite type_pure, G. split; [exact E|]. rewrite Nat.pow_succ_r' in T.
    assert (2 ^ n <> 0) by (apply Nat.pow_nonzero; lia). lia.
Qed.

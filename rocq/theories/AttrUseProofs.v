(** Proofs about the attributes of complex types. *)
From Verif Require Import Base.
From Verif Require Import AttrUseModel AttrUseSpec.
From Coq Require Import Lia.

(** * The list as a map *)
Definition ident (m : meta) : nat * string := (m_ns m, m_name m).
Fixpoint idents (l : list attribute_meta) : list (nat * string) :=
  match l with [] => [] | MType m :: l' => ident m :: idents l' | MAny :: l' => idents l' end.
Fixpoint get (i : nat * string) (l : list attribute_meta) : option meta :=
  match l with
  | [] => None
  | a :: l' => match a with MType m => if has_ident i a then Some m else get i l' | MAny => get i l' end
  end.

Lemma has_ident_spec i m : has_ident i (MType m) = true <-> ident m = i.
Proof.
  unfold has_ident, ident. destruct i as [a b]. cbn. rewrite andb_true_iff, Nat.eqb_eq, String.eqb_eq.
  split; [intros [-> ->]; reflexivity|intros [= -> ->]; auto].
Qed.
Lemma get_ident i l m : get i l = Some m -> ident m = i.
Proof.
  induction l as [|[m'|] l IH]; cbn [get]; [discriminate| |exact IH].
  destruct (has_ident i (MType m')) eqn:E; [|exact IH]. intros [= ->]. apply has_ident_spec, E.
Qed.
Lemma get_in i l m : get i l = Some m -> In (MType m) l.
Proof.
  induction l as [|[m'|] l IH]; cbn [get]; [discriminate| |right; auto].
  destruct (has_ident i (MType m')); [intros [= ->]; left; reflexivity|right; auto].
Qed.
Lemma idents_in m l : In (MType m) l -> In (ident m) (idents l).
Proof. induction l as [|[m'|] l IH]; cbn; [tauto| |]; intros [E|I]; auto; try discriminate. injection E as ->. auto. Qed.
Lemma in_get m l : NoDup (idents l) -> In (MType m) l -> get (ident m) l = Some m.
Proof.
  induction l as [|[m'|] l IH]; cbn [idents get]; [intros _ []| |intros N [E|I]; [discriminate|auto]].
  intros N I. inversion N as [|? ? NI N']; subst. destruct (has_ident (ident m) (MType m')) eqn:E.
  - apply has_ident_spec in E. destruct I as [[= ->]|I]; [reflexivity|]. exfalso. apply NI. rewrite E. apply idents_in, I.
  - destruct I as [[= ->]|I]; [|auto]. rewrite (proj2 (has_ident_spec _ _) eq_refl) in E. discriminate.
Qed.
Lemma get_none i l : get i l = None <-> ~ In i (idents l).
Proof.
  induction l as [|[m'|] l IH]; cbn [idents get]; [cbn; tauto| |exact IH].
  destruct (has_ident i (MType m')) eqn:E.
  - apply has_ident_spec in E. split; [discriminate|]. intros H. exfalso. apply H. left. exact E.
  - rewrite IH. cbn. assert (ident m' <> i); [|tauto]. intros X. apply has_ident_spec in X. congruence.
Qed.

Lemma id_dec (a b : nat * string) : {a = b} + {a <> b}.
Proof. decide equality; [apply string_dec|apply Nat.eq_dec]. Qed.

Lemma find_update_get i f new l j : ident new = i -> (forall m, ident (f m) = ident m) ->
  get j (find_update i f new l) =
  if id_dec j i then Some (f (match get i l with Some m => m | None => new end)) else get j l.
Proof.
  intros N F. induction l as [|[m|] l IH].
  - cbn [find_update get]. destruct (has_ident j (MType (f new))) eqn:E.
    + apply has_ident_spec in E. rewrite F, N in E. destruct (id_dec j i); [reflexivity|congruence].
    + destruct (id_dec j i) as [->|]; [|reflexivity]. exfalso.
      assert (X : has_ident i (MType (f new)) = true) by (apply has_ident_spec; rewrite F; exact N). congruence.
  - cbn [find_update get]. destruct (has_ident i (MType m)) eqn:E; cbn [get].
    + apply has_ident_spec in E. destruct (has_ident j (MType (f m))) eqn:E'.
      * apply has_ident_spec in E'. rewrite F, E in E'. destruct (id_dec j i); [reflexivity|congruence].
      * destruct (id_dec j i) as [->|NE].
        -- assert (X : has_ident i (MType (f m)) = true) by (apply has_ident_spec; rewrite F; exact E). congruence.
        -- destruct (has_ident j (MType m)) eqn:E''; [|reflexivity]. apply has_ident_spec in E''. congruence.
    + rewrite IH. destruct (has_ident j (MType m)) eqn:E'; [|reflexivity].
      apply has_ident_spec in E'. destruct (id_dec j i) as [->|]; [|reflexivity].
      apply has_ident_spec in E'. congruence.
  - cbn [find_update get]. exact IH.
Qed.
Lemma find_update_idents i f new l : ident new = i -> (forall m, ident (f m) = ident m) -> NoDup (idents l) ->
  NoDup (idents (find_update i f new l)) /\ forall j, In j (idents (find_update i f new l)) <-> j = i \/ In j (idents l).
Proof.
  intros N F. induction l as [|[m|] l IH]; intros ND.
  - cbn. rewrite F, N. split; [repeat constructor; auto|]. intros j. intuition.
  - cbn [idents] in ND. inversion ND as [|? ? NI ND']; subst. destruct (IH ND') as [A B]. cbn [find_update].
    destruct (has_ident (ident new) (MType m)) eqn:E; cbn [idents].
    + apply has_ident_spec in E. rewrite F. split; [constructor; assumption|]. intros j. cbn. rewrite E. intuition.
    + split; [constructor; [|exact A]|].
      * rewrite B. intros [X|X]; [|contradiction]. apply has_ident_spec in X. congruence.
      * intros j. cbn. rewrite B. intuition.
  - cbn in *. auto.
Qed.
Lemma find_update_any i f new l : any_attribute (find_update i f new l) = any_attribute l.
Proof.
  induction l as [|[m|] l IH]; [reflexivity| |]; cbn [find_update].
  - destruct (has_ident i (MType m)); [reflexivity|]. cbn. exact IH.
  - reflexivity.
Qed.

(** * The content of a type *)
Section Content.
  Variables (groups : nat -> option agroup) (types : nat -> option ctype).
  Variables rank_t rank_g : nat -> nat.
  Hypothesis WF : well_founded groups types rank_t rank_g.

  Definition step (h : home) (l : list attribute_meta) (x : option adecl) : list attribute_meta :=
    match x with Some d => apply_attribute_ref h d l | None => apply_any_attribute l end.

  Inductive in_flat : list acontent -> adecl -> Prop :=
  | flat_here l d : In (CAttr d) l -> in_flat l d
  | flat_group l g gr d : In (CGroup g) l -> groups g = Some gr -> in_flat (g_content gr) d -> in_flat l d.

  Lemma in_flat_cons a l d : in_flat (a :: l) d <->
    match a with CAttr d' => d = d' | CAny => False | CGroup g => exists gr, groups g = Some gr /\ in_flat (g_content gr) d end \/ in_flat l d.
  Proof.
    split.
    - intros H. inversion H as [? ? I|? g gr ? I G F]; subst.
      + destruct I as [->|I]; [left; reflexivity|right; constructor; exact I].
      + destruct I as [->|I]; [left; eauto|right; econstructor; eassumption].
    - intros [H|H].
      + destruct a as [d'|g|]; [subst; constructor; left; reflexivity| |destruct H].
        destruct H as (gr & G & F). apply flat_group with g gr; [left; reflexivity|exact G|exact F].
      + inversion H as [? ? I|? g gr ? I G F]; subst; [constructor; right; exact I|apply flat_group with g gr; [right; exact I|exact G|exact F]].
  Qed.
  Lemma any_cons a l : any_content groups (a :: l) <->
    match a with CAttr _ => False | CAny => True | CGroup g => exists gr, groups g = Some gr /\ any_content groups (g_content gr) end \/ any_content groups l.
  Proof.
    split.
    - intros H. inversion H as [? I|? g gr I G F]; subst.
      + destruct I as [->|I]; [left; exact Logic.I|right; constructor; exact I].
      + destruct I as [->|I]; [left; eauto|right; econstructor; eassumption].
    - intros [H|H].
      + destruct a as [d'|g|]; [destruct H| |constructor; left; reflexivity].
        destruct H as (gr & G & F). apply any_group with g gr; [left; reflexivity|exact G|exact F].
      + inversion H as [? I|? g gr I G F]; subst; [constructor; right; exact I|apply any_group with g gr; [right; exact I|exact G|exact F]].
  Qed.

  Lemma content_flat h : forall n c, (forall g, In (CGroup g) c -> groups g <> None /\ rank_g g < n) ->
    exists ds, (forall fuel, n < fuel -> forall l, apply_content groups fuel h c l = Some (fold_left (step h) ds l)) /\
      (forall d, In (Some d) ds <-> in_flat c d) /\ (In None ds <-> any_content groups c).
  Proof.
    induction n as [n IH] using lt_wf_ind. intros c. induction c as [|a c IHc]; intros H.
    - exists []. split; [|split].
      + intros [|fuel] L l; [lia|reflexivity].
      + intros d. split; [intros []|]. intros X. inversion X as [? ? I|? ? ? ? I]; destruct I.
      + split; [intros []|]. intros X. inversion X as [? I|? ? ? I]; destruct I.
    - destruct IHc as (ds & A & B & C); [intros g G; apply H; right; exact G|].
      destruct a as [d|g|].
      + exists (Some d :: ds). split; [|split].
        * intros [|fuel] L l; [lia|]. specialize (A (S fuel) L (apply_attribute_ref h d l)). exact A.
        * intros d'. rewrite in_flat_cons. cbn. rewrite B. intuition congruence.
        * rewrite any_cons. cbn. rewrite C. intuition congruence.
      + destruct (H g) as [G R]; [left; reflexivity|]. destruct (groups g) as [gr|] eqn:E; [|congruence].
        destruct (IH (rank_g g) R (g_content gr)) as (es & A' & B' & C').
        { intros g' I. exact (wf_group _ _ _ _ WF g gr g' E I). }
        exists (es ++ ds). split; [|split].
        * intros [|fuel] L l; [lia|]. specialize (A (S fuel) L). cbn [apply_content] in *. rewrite E.
          rewrite (A' fuel) by lia. rewrite fold_left_app. apply A.
        * intros d. rewrite in_flat_cons, in_app_iff, B, B'. split; intros [X|X]; auto.
          -- left. eauto.
          -- destruct X as (gr' & X & Y). left. congruence.
        * rewrite any_cons, in_app_iff, C, C'. split; intros [X|X]; auto.
          -- left. eauto.
          -- destruct X as (gr' & X & Y). left. congruence.
      + exists (None :: ds). split; [|split].
        * intros [|fuel] L l; [lia|]. specialize (A (S fuel) L (apply_any_attribute l)). exact A.
        * intros d'. rewrite in_flat_cons. cbn. rewrite B. intuition congruence.
        * rewrite any_cons. cbn. rewrite C. intuition congruence.
  Qed.

  Lemma in_content_flat h c x : in_content groups h c x -> in_flat c (snd x).
  Proof. induction 1 as [h l d I|h l g gr x I G F IH]; [constructor; exact I|econstructor; eassumption]. Qed.
  Lemma in_flat_content c d : in_flat c d -> forall h, exists h', in_content groups h c (h', d).
  Proof.
    induction 1 as [l d I|l g gr d I G F IH]; intros h; [exists h; constructor; exact I|].
    destruct (IH (g_home gr)) as (h' & X). exists h'. econstructor; eassumption.
  Qed.

  (** The entry after a declaration. *)
  Definition fresh (h : home) (d : adecl) : meta :=
    let i := ident_of (h_ns h) d in
    Meta (fst i) (snd i) (d_type d) UOptional (match d_form d with Some f => f | None => h_form h end) None.
  Definition entry (h : home) (d : adecl) (o : option meta) : meta := update d (match o with Some m => m | None => fresh h d end).
  Lemma fresh_ident h d : ident (fresh h d) = ident_of (h_ns h) d.
  Proof. unfold fresh, ident. cbn. destruct (ident_of (h_ns h) d); reflexivity. Qed.
  Lemma entry_twice h d o : entry h d (Some (entry h d o)) = entry h d o.
  Proof. unfold entry, update. cbn. destruct (d_default d); reflexivity. Qed.

  Lemma attribute_get h d l j : get j (apply_attribute_ref h d l) =
    if id_dec j (ident_of (h_ns h) d) then Some (entry h d (get (ident_of (h_ns h) d) l)) else get j l.
  Proof.
    unfold apply_attribute_ref. rewrite find_update_get; [reflexivity| |reflexivity].
    unfold ident. cbn. destruct (ident_of (h_ns h) d); reflexivity.
  Qed.
  Lemma attribute_nodup h d l : NoDup (idents l) -> NoDup (idents (apply_attribute_ref h d l)).
  Proof.
    intros N. unfold apply_attribute_ref. apply find_update_idents; [|reflexivity|exact N].
    unfold ident. cbn. destruct (ident_of (h_ns h) d); reflexivity.
  Qed.
  Lemma any_get l j : get j (apply_any_attribute l) = get j l.
  Proof.
    unfold apply_any_attribute. destruct existsb; [reflexivity|].
    induction l as [|[m|] l IH]; cbn [app get]; [reflexivity| |exact IH]. destruct has_ident; [reflexivity|exact IH].
  Qed.
  Lemma any_idents l : idents (apply_any_attribute l) = idents l.
  Proof.
    unfold apply_any_attribute. destruct existsb; [reflexivity|].
    induction l as [|[m|] l IH]; cbn [app idents]; [reflexivity| |exact IH]. rewrite IH. reflexivity.
  Qed.
  Lemma any_any l : any_attribute (apply_any_attribute l) = true.
  Proof.
    unfold apply_any_attribute. destruct (existsb _ l) eqn:E; [exact E|].
    unfold any_attribute. rewrite existsb_app. cbn. apply orb_true_r.
  Qed.

  Lemma steps h : forall ds l, NoDup (idents l) ->
    (forall d d', In (Some d) ds -> In (Some d') ds -> ident_of (h_ns h) d = ident_of (h_ns h) d' -> d = d') ->
    let l' := fold_left (step h) ds l in
    NoDup (idents l') /\
    (forall j, (forall d, In (Some d) ds -> ident_of (h_ns h) d <> j) -> get j l' = get j l) /\
    (forall d, In (Some d) ds -> get (ident_of (h_ns h) d) l' = Some (entry h d (get (ident_of (h_ns h) d) l))) /\
    (any_attribute l' = true <-> any_attribute l = true \/ In None ds).
  Proof.
    induction ds as [|x ds IH]; intros l N U; cbn zeta; cbn [fold_left].
    - cbn. intuition.
    - assert (U' : forall d d', In (Some d) ds -> In (Some d') ds -> ident_of (h_ns h) d = ident_of (h_ns h) d' -> d = d').
      { intros d d' I I'. apply U; right; assumption. }
      destruct x as [d|]; cbn [step].
      + destruct (IH (apply_attribute_ref h d l) (attribute_nodup h d l N) U') as (A & B & C & D). cbn zeta in *.
        split; [exact A|]. split; [|split].
        * intros j J. rewrite B by (intros d' I; apply J; right; exact I). rewrite attribute_get.
          destruct (id_dec j (ident_of (h_ns h) d)) as [->|]; [|reflexivity]. exfalso. apply (J d); [left; reflexivity|reflexivity].
        * intros d' I'.
          destruct (in_dec (fun a b : option adecl => ltac:(repeat decide equality)) (Some d') ds) as [I|NI].
          -- rewrite (C d' I), attribute_get. destruct (id_dec (ident_of (h_ns h) d') (ident_of (h_ns h) d)) as [E|NE]; [|reflexivity].
             assert (d' = d) as -> by (apply U; [exact I'|left; reflexivity|exact E]). rewrite entry_twice. reflexivity.
          -- destruct I' as [[= ->]|I']; [|contradiction]. rewrite B.
             ++ rewrite attribute_get. destruct (id_dec _ _) as [_|]; [reflexivity|congruence].
             ++ intros d2 I2 E. apply NI. rewrite (U d' d2); [exact I2|left; reflexivity|right; exact I2|symmetry; exact E].
        * rewrite D. unfold apply_attribute_ref. rewrite find_update_any. cbn. intuition congruence.
      + destruct (IH (apply_any_attribute l)) as (A & B & C & D); [rewrite any_idents; exact N|exact U'|]. cbn zeta in *.
        split; [exact A|]. split; [|split].
        * intros j J. rewrite B by (intros d' I; apply J; right; exact I). apply any_get.
        * intros d' [E|I]; [discriminate|]. rewrite (C d' I), any_get. reflexivity.
        * rewrite D, any_any. cbn. intuition.
  Qed.

  (** * The attributes of a type *)
  Definition form (x : home * adecl) : bool := match d_form (snd x) with Some f => f | None => h_form (fst x) end.
  Definition key (x : home * adecl) : nat * string := ident_of (h_ns (fst x)) (snd x).

  Record inv (t : nat) (l : list attribute_meta) : Prop := {
    iv_nodup : NoDup (idents l);
    iv_origin : forall m, In (MType m) l -> exists x, declared groups types t x /\ allowed x /\
      ident m = key x /\ m_type m = d_type (snd x) /\ m_default m = d_default (snd x) /\ m_form m = form x;
    iv_all : forall x, declared groups types t x -> get (key x) l <> None;
    iv_fields : forall u, In u (fields l) <-> has_use groups types t u;
    iv_any : any_attribute l = true <-> has_any groups types t }.

  Lemma in_fields u l : In u (fields l) <-> exists m, In (MType m) l /\ m_use m <> UProhibited /\
    u = Field (if m_form m then Some (m_ns m) else None, m_name m) (m_type m) (match m_use m with URequired => true | _ => false end) (m_default m).
  Proof.
    unfold fields. rewrite in_flat_map. split.
    - intros ([m|] & I & F); [|destruct F]. exists m. split; [exact I|]. cbn in F.
      destruct (m_use m) eqn:E; cbn in F; try contradiction; destruct F as [<-|[]]; (split; [discriminate|reflexivity]).
    - intros (m & I & N & ->). exists (MType m). split; [exact I|]. cbn. destruct (m_use m); cbn; auto.
  Qed.

  (** The attributes that a type inherits. *)
  Definition inherits (ty : ctype) (b : option nat) : Prop :=
    match t_base ty with BNone | BSimple => b = None | BExtension b' | BRestriction b' => b = Some b' end.

  Lemma declared_step t ty x : types t = Some ty ->
    (declared groups types t x <-> in_content groups (t_home ty) (t_content ty) x \/
       exists b, (t_base ty = BExtension b \/ t_base ty = BRestriction b) /\ declared groups types b x).
  Proof.
    intros T. split.
    - intros (a & ta & A & TA & I). inversion A as [|? ty' b ? T' B A']; subst.
      + left. congruence.
      + right. rewrite T in T'. injection T' as <-. exists b. split; [exact B|]. exists a, ta. auto.
    - intros [I|(b & B & a & ta & A & TA & I)].
      + exists t, ty. split; [constructor|auto].
      + exists a, ta. split; [|auto]. econstructor; eassumption.
  Qed.

  Lemma name_of t x m : in_one_schema groups types t -> declared groups types t x ->
    ident m = key x -> m_form m = form x -> (if m_form m then Some (m_ns m) else None, m_name m) = expanded x.
  Proof.
    intros H (a & ty & A & T & I) K F. destruct (H a ty x A T I) as [_ R]. unfold expanded, key, ident_of, ident in *.
    rewrite F. unfold form in *. destruct (d_name (snd x)) as [n|ns n]; injection K as -> ->; [reflexivity|].
    rewrite R. reflexivity.
  Qed.

  Lemma type_step t ty b l0 ds :
    types t = Some ty -> valid groups types t -> in_one_schema groups types t -> names_clear groups types t ->
    declared_alike groups types t -> wildcards_kept groups types t ->
    inherits ty b -> match b with Some b => inv b l0 | None => l0 = [] end ->
    (forall d, In (Some d) ds <-> in_flat (t_content ty) d) -> (In None ds <-> any_content groups (t_content ty)) ->
    inv t (fold_left (step (t_home ty)) ds l0).
  Proof.
    intros T V OS NC DA WK IB I0 DS DN. set (h := t_home ty).
    assert (ST : forall x, declared groups types t x <-> in_content groups h (t_content ty) x \/
       exists b, (t_base ty = BExtension b \/ t_base ty = BRestriction b) /\ declared groups types b x) by (intros x; apply declared_step; exact T).
    assert (OWN : forall d, In (Some d) ds <-> in_content groups h (t_content ty) (h, d)).
    { intros d. rewrite DS. split; [|intros I; exact (in_content_flat _ _ _ I)].
      intros F. destruct (in_flat_content _ _ F h) as (h' & I). destruct (OS t ty (h', d)) as [E _]; [constructor|exact T|exact I|].
      cbn in E. subst h'. exact I. }
    assert (HOME : forall x, in_content groups h (t_content ty) x -> x = (h, snd x)).
    { intros x I. destruct (OS t ty x) as [E _]; [constructor|exact T|exact I|]. unfold h. rewrite <- E. apply surjective_pairing. }
    destruct (V t ty) as [V1 V2]; [constructor|exact T|]. fold h in V1, V2.
    assert (N0 : NoDup (idents l0)) by (destruct b as [b|]; [apply I0|subst; constructor]).
    destruct (steps h ds l0 N0) as (A & B & C & D).
    { intros d d' X Y E. apply OWN in X, Y. assert (Z : (h, d) = (h, d')); [|congruence].
      apply V1; [exact X|exact Y|]. apply (NC (h, d) (h, d')); [apply ST; auto|apply ST; auto|exact E]. }
    cbn zeta in *. set (l' := fold_left (step h) ds l0) in *.
    (* what the base gives *)
    assert (BASE : forall m0, In (MType m0) l0 -> exists b', (t_base ty = BExtension b' \/ t_base ty = BRestriction b') /\ inv b' l0 /\
               exists y, declared groups types b' y /\ allowed y /\ ident m0 = key y /\ m_type m0 = d_type (snd y) /\ m_default m0 = d_default (snd y) /\ m_form m0 = form y).
    { intros m0 M. unfold inherits in IB. destruct (t_base ty) as [| |b'|b']; subst b; try (subst l0; destruct M); exists b'; split; auto; split; auto; apply I0; exact M. }
    assert (DB : forall b' y, (t_base ty = BExtension b' \/ t_base ty = BRestriction b') -> declared groups types b' y -> declared groups types t y).
    { intros b' y E Y. apply ST. right. eauto. }
    (* the entry of an own declaration *)
    assert (ENT : forall d, In (Some d) ds -> allowed (h, d) ->
              let m := entry h d (get (ident_of (h_ns h) d) l0) in
              ident m = key (h, d) /\ m_type m = d_type d /\ m_default m = d_default d /\ m_form m = form (h, d) /\ m_use m = d_use d).
    { intros d I AL. cbn zeta. destruct (get (ident_of (h_ns h) d) l0) as [m0|] eqn:G.
      - pose proof (get_ident _ _ _ G) as K. destruct (BASE m0 (get_in _ _ _ G)) as (b' & E & _ & y & Y & AY & KY & TY & DY & FY).
        assert (EX : expanded (h, d) = expanded y).
        { apply (NC (h, d) y); [apply ST; left; apply OWN, I|exact (DB b' y E Y)|]. change (key (h, d) = key y). rewrite <- KY, K. reflexivity. }
        destruct (proj1 DA (h, d) y) as [TT DD]; [apply ST; left; apply OWN, I|exact (DB b' y E Y)|exact EX|exact AL|exact AY|].
        cbn [snd] in TT, DD. unfold entry, update. cbn. split; [exact K|]. split; [congruence|]. split; [|split; [|reflexivity]].
        + destruct (d_default d) eqn:E2; congruence.
        + rewrite FY. assert (NM : (if form y then Some (m_ns m0) else None, m_name m0) = expanded y).
          { rewrite <- FY. exact (name_of t y m0 OS (DB b' y E Y) KY FY). }
          assert (NX : (if form (h, d) then Some (m_ns m0) else None, m_name m0) = expanded (h, d)).
          { pose (m1 := Meta (m_ns m0) (m_name m0) 0 UOptional (form (h, d)) None).
            apply (name_of t (h, d) m1 OS); [apply ST; left; apply OWN, I|exact K|reflexivity]. }
          rewrite EX, <- NM in NX. injection NX as NX. destruct (form y), (form (h, d)); congruence.
      - unfold entry, update, fresh, key, ident, form. cbn. destruct (ident_of (h_ns h) d) as [a c]. cbn.
        repeat split. destruct (d_default d); reflexivity. }
    assert (NOD : forall j, (exists d, In (Some d) ds /\ ident_of (h_ns h) d = j) \/ (forall d, In (Some d) ds -> ident_of (h_ns h) d <> j)).
    { intros j. clear - ds h. induction ds as [|[d|] ds' IH].
      - right. intros d [].
      - destruct (id_dec (ident_of (h_ns h) d) j) as [E|NE]; [left; exists d; cbn; auto|].
        destruct IH as [(d' & I & E)|IH]; [left; exists d'; cbn; auto|]. right. intros d' [[= <-]|I]; auto.
      - destruct IH as [(d' & I & E)|IH]; [left; exists d'; cbn; auto|]. right. intros d' [E|I]; [discriminate|auto]. }
    assert (FLD : forall d, In (Some d) ds -> allowed (h, d) -> In (use_of (h, d)) (fields l')).
    { intros d I AL. apply in_fields. pose proof (C d I) as G. destruct (ENT d I AL) as (K & T1 & D1 & F1 & U1). cbn zeta in *.
      eexists. split; [exact (get_in _ _ _ G)|]. rewrite U1. split; [exact AL|].
      rewrite (name_of t (h, d) _ OS); [|apply ST; left; apply OWN, I|exact K|exact F1]. unfold use_of. cbn [snd]. congruence. }
    (* an inherited entry that is not declared *)
    assert (KEEP : forall m0, In (MType m0) l0 -> (forall d, In (Some d) ds -> ident_of (h_ns h) d <> ident m0) -> In (MType m0) l').
    { intros m0 M N. apply (get_in (ident m0)). rewrite (B _ N). apply in_get; assumption. }
    assert (INH : forall b' u, (t_base ty = BExtension b' \/ t_base ty = BRestriction b') -> has_use groups types b' u ->
              (forall x, in_content groups h (t_content ty) x -> expanded x <> f_name u) -> In u (fields l')).
    { intros b' u E HU NX.
      assert (IV : inv b' l0).
      { unfold inherits in IB. destruct E as [E|E]; rewrite E in IB; subst b; exact I0. }
      apply (iv_fields _ _ IV) in HU. apply in_fields in HU as (m0 & M & U & ->). apply in_fields. exists m0. split; [|auto].
      apply KEEP; [exact M|]. intros d I K.
      destruct (iv_origin _ _ IV m0 M) as (y & Y & _ & KY & _ & _ & FY).
      apply (NX (h, d)); [apply OWN, I|]. cbn [f_name]. rewrite (name_of t y m0 OS (DB b' y E Y) KY FY).
      apply (NC (h, d) y); [apply ST; left; apply OWN, I|exact (DB b' y E Y)|]. change (ident_of (h_ns h) d = key y). congruence. }
    constructor.
    - exact A.
    - intros m M. pose proof (in_get m l' A M) as G. destruct (NOD (ident m)) as [(d & I & E)|N].
      + pose proof (C d I) as G'. rewrite E in G'. rewrite G in G'. injection G' as Em.
        destruct (d_use d) eqn:U.
        1,2: assert (AL : allowed (h, d)) by (unfold allowed; cbn; congruence);
             destruct (ENT d I AL) as (K & T1 & D1 & F1 & _); cbn zeta in *; rewrite E, <- Em in *;
             exists (h, d); split; [apply ST; left; apply OWN, I|]; auto.
        destruct (proj2 DA t ty (h, d)) as (DD & b' & y & EB & Y & AY & EX); [constructor|exact T|apply OWN, I|unfold allowed; cbn; rewrite U; auto|].
        assert (IV : inv b' l0).
        { unfold inherits in IB. destruct EB as [EB|EB]; rewrite EB in IB; subst b; exact I0. }
        assert (KY : key y = ident_of (h_ns h) d).
        { symmetry. apply (NC (h, d) y); [apply ST; left; apply OWN, I|exact (DB b' y EB Y)|symmetry; exact EX]. }
        pose proof (iv_all _ _ IV y Y) as G0. rewrite KY, E in G0. destruct (get (ident m) l0) as [m0|] eqn:G1; [|congruence].
        destruct (iv_origin _ _ IV m0 (get_in _ _ _ G1)) as (z & Z & AZ & KZ & TZ & DZ & FZ).
        exists z. split; [exact (DB b' z EB Z)|]. split; [exact AZ|]. cbn in DD. unfold entry, update in Em. cbn in Em. rewrite DD in Em. subst m. cbn.
        split; [exact KZ|]. auto.
      + rewrite (B _ N) in G. destruct (BASE m (get_in _ _ _ G)) as (b' & E & _ & y & Y & R). exists y. split; [exact (DB b' y E Y)|exact R].
    - intros x X. apply ST in X as [X|(b' & E & X)].
      + pose proof X as X'. rewrite (HOME x X) in X' |- *. clear X. rename X' into X. change (key (h, snd x)) with (ident_of (h_ns h) (snd x)). rewrite (C (snd x)); [discriminate|].
        apply OWN. exact X.
      + destruct (NOD (key x)) as [(d & I & K)|N]; [rewrite <- K, (C d I); discriminate|].
        rewrite (B _ N). unfold inherits in IB. destruct E as [E|E]; rewrite E in IB; subst b; exact (iv_all _ _ I0 x X).
    - intros u. split.
      + intros HU. apply in_fields in HU as (m & M & U & ->). pose proof (in_get m l' A M) as G.
        destruct (NOD (ident m)) as [(d & I & E)|N].
        * pose proof (C d I) as G'. rewrite E, G in G'. injection G' as Em.
          assert (UD : m_use m = d_use d) by (rewrite Em; reflexivity).
          assert (AL : allowed (h, d)) by (unfold allowed; cbn; rewrite <- UD; exact U).
          destruct (ENT d I AL) as (K & T1 & D1 & F1 & _). cbn zeta in *. rewrite E, <- Em in *.
          assert (Z : has_use groups types t (use_of (h, d))) by (apply has_own with ty; [exact T|apply OWN, I|exact AL]).
          rewrite (name_of t (h, d) m OS); [|apply ST; left; apply OWN, I|exact K|exact F1].
          unfold use_of in Z. cbn [snd] in Z. rewrite T1, D1, UD. exact Z.
        * rewrite (B _ N) in G. pose proof (get_in _ _ _ G) as M0. destruct (BASE m M0) as (b' & E & IV & y & Y & AY & KY & _ & _ & FY).
          assert (Z : has_use groups types b' (Field (if m_form m then Some (m_ns m) else None, m_name m) (m_type m) (match m_use m with URequired => true | _ => false end) (m_default m))).
          { apply (iv_fields _ _ IV), in_fields. eauto. }
          destruct E as [E|E]; [exact (has_extended _ _ t ty b' _ T E Z)|].
          apply (has_restricted _ _ t ty b' _ T E Z). intros x X EX. cbn [f_name] in EX.
          rewrite (name_of t y m OS (DB b' y (or_intror E) Y) KY FY) in EX. pose proof X as X'. rewrite (HOME x X) in X', EX. clear X. rename X' into X.
          apply (N (snd x)); [apply OWN; exact X|]. rewrite KY.
          apply (NC (h, snd x) y); [apply ST; left; exact X|exact (DB b' y (or_intror E) Y)|exact EX].
      + intros HU. inversion HU as [? ty' x T' I AL|? ty' b' ? T' E H|? ty' b' ? T' E H NX]; subst; rewrite T in T'; injection T' as <-.
        * fold h in I. pose proof I as I'. rewrite (HOME x I) in I', AL |- *. clear I. rename I' into I. apply FLD; [apply OWN; exact I|exact AL].
        * apply (INH b' u (or_introl E) H). intros x X. exact (V2 b' x u E X H).
        * exact (INH b' u (or_intror E) H NX).
    - rewrite D, DN. split.
      + intros [Z|Z]; [|exact (any_own _ _ t ty T Z)]. unfold inherits in IB. destruct (t_base ty) as [| |b'|b'] eqn:E; subst b; try (subst l0; discriminate Z).
        * apply (iv_any _ _ I0) in Z. exact (any_extended _ _ t ty b' T E Z).
        * apply (iv_any _ _ I0) in Z. apply (any_own _ _ t ty T). apply (WK t ty b'); [constructor|exact T|exact E|exact Z].
      + intros Z. inversion Z as [? ty' T' Y|? ty' b' T' E Y]; subst; rewrite T in T'; injection T' as <-; [auto|].
        left. unfold inherits in IB. rewrite E in IB. subst b. apply (iv_any _ _ I0). exact Y.
  Qed.

  Lemma attributes_spec : forall n t, rank_t t < n -> types t <> None ->
    valid groups types t -> in_one_schema groups types t -> names_clear groups types t ->
    declared_alike groups types t -> wildcards_kept groups types t ->
    exists bound l, (forall fuel, bound <= fuel -> attributes_of groups types fuel t = Some l) /\ inv t l.
  Proof.
    induction n as [|n IH]; intros t L TN V OS NC DA WK; [lia|]. destruct (types t) as [ty|] eqn:T; [clear TN|congruence].
    set (r := S (list_max (map rank_g (flat_map (fun c => match c with CGroup g => [g] | _ => [] end) (t_content ty))))).
    destruct (content_flat (t_home ty) r (t_content ty)) as (ds & A & B & C).
    { intros g G. split; [exact (wf_type _ _ _ _ WF t ty g T G)|]. unfold r. apply le_n_S.
      assert (X : Forall (fun k => k <= list_max (map rank_g (flat_map (fun c => match c with CGroup g => [g] | _ => [] end) (t_content ty))))
                  (map rank_g (flat_map (fun c => match c with CGroup g => [g] | _ => [] end) (t_content ty)))) by (apply list_max_le; reflexivity).
      rewrite Forall_forall in X. apply X. apply in_map. apply in_flat_map. exists (CGroup g). cbn. auto. }
    assert (Bb : forall b, t_base ty = BExtension b \/ t_base ty = BRestriction b ->
       exists bound l, (forall fuel, bound <= fuel -> attributes_of groups types fuel b = Some l) /\ inv b l).
    { intros b E. destruct (wf_base _ _ _ _ WF t ty b T E) as [N R].
      assert (AN : forall a, ancestor types b a -> ancestor types t a) by (intros a Z; econstructor; eassumption).
      assert (DE : forall x, declared groups types b x -> declared groups types t x) by (intros x (a & ta & Z & Y); exists a, ta; split; [apply AN, Z|exact Y]).
      apply IH; [lia|exact N| | | | |].
      - intros a ta Z. apply V, AN, Z.
      - intros a ta x Z. apply OS, AN, Z.
      - intros x y X Y. apply NC; auto.
      - destruct DA as [D1 D2]. split; [intros x y X Y; apply D1; auto|]. intros a ta x Z. apply D2, AN, Z.
      - intros a ta b' Z. apply WK, AN, Z. }
    assert (STEP := fun b l0 IB I0 => type_step t ty b l0 ds T V OS NC DA WK IB I0 B C). unfold inherits in STEP.
    destruct (t_base ty) as [| |b|b] eqn:E.
    1,2: exists (S (S r)); eexists; split;
      [intros [|fuel] LF; [lia|]; cbn [attributes_of]; rewrite T, E; apply A; lia|exact (STEP None [] eq_refl eq_refl)].
    1,2: destruct (Bb b) as (bound & l0 & H0 & I0); [auto|]; exists (S (S (r + bound))); eexists; split;
      [intros [|fuel] LF; [lia|]; cbn [attributes_of]; rewrite T, E, (H0 fuel) by lia; apply A; lia|exact (STEP (Some b) l0 eq_refl I0)].
  Qed.

  Definition name_in (m : meta) : option nat * string := (if m_form m then Some (m_ns m) else None, m_name m).
  Lemma names_once l : NoDup (idents l) ->
    (forall m m', In (MType m) l -> In (MType m') l -> name_in m = name_in m' -> ident m = ident m') ->
    NoDup (map f_name (fields l)).
  Proof.
    induction l as [|[m|] l IH]; intros N H.
    - constructor.
    - cbn [idents] in N. apply NoDup_cons_iff in N as [NI N].
      assert (R : NoDup (map f_name (fields l))) by (apply IH; [exact N|intros a b A B; apply H; right; assumption]).
      cbn [fields flat_map new_field]. fold (fields l).
      destruct (m_use m) eqn:U; cbn [app map]; try exact R; (constructor; [|exact R]); cbn [f_name];
        intros I; apply in_map_iff in I as (u & E & I); apply in_fields in I as (m' & M & _ & ->); cbn [f_name] in E;
        apply NI; replace (ident m) with (ident m') by (apply H; [right; exact M|left; reflexivity|exact E]);
        clear - M; induction l as [|[a|] l IH]; cbn in *; (destruct M as [E|M] || contradiction); try discriminate E; try (injection E as ->); auto.
    - apply IH; [exact N|]. intros a b A B. apply H; right; assumption.
  Qed.

  Lemma fuel_unique t : forall f g l l', attributes_of groups types f t = Some l ->
    (forall k, g <= k -> attributes_of groups types k t = Some l') -> l = l'.
  Proof.
    assert (CM : forall f f' h c a r, f <= f' -> apply_content groups f h c a = Some r -> apply_content groups f' h c a = Some r).
    { induction f as [|f IH]; intros f' h c; [discriminate|]. destruct f' as [|f']; [lia|]. induction c as [|[d|g|] c IHc]; intros a r L; cbn [apply_content].
      - auto.
      - exact (IHc _ r L).
      - destruct (groups g) as [gr|]; [|discriminate]. destruct (apply_content groups f h (g_content gr) a) as [a'|] eqn:E; [|discriminate].
        rewrite (IH f' h _ a a') by (lia || exact E). exact (IHc a' r L).
      - exact (IHc _ r L). }
    assert (AM : forall f f' t r, f <= f' -> attributes_of groups types f t = Some r -> attributes_of groups types f' t = Some r).
    { induction f as [|f IH]; intros f' t' r L; [discriminate|]. destruct f' as [|f']; [lia|]. cbn [attributes_of].
      destruct (types t') as [ty|]; [|discriminate]. destruct (t_base ty) as [| |b|b]; try (apply CM; lia);
        (destruct (attributes_of groups types f b) as [a|] eqn:E; [|discriminate]; rewrite (IH f' b a) by (lia || exact E); apply CM; lia). }
    intros f g l l' A B. specialize (B (f + g) ltac:(lia)). rewrite (AM f (f + g) t l) in B by (lia || exact A). congruence.
  Qed.

  Lemma fields_once t fuel l : types t <> None ->
    valid groups types t -> in_one_schema groups types t -> names_clear groups types t ->
    declared_alike groups types t -> wildcards_kept groups types t ->
    attributes_of groups types fuel t = Some l -> NoDup (map f_name (fields l)).
  Proof.
    intros TN V OS NC DA WK E. destruct (attributes_spec (S (rank_t t)) t) as (b & l' & A & I); try assumption; [lia|].
    rewrite (fuel_unique t _ _ _ _ E A). apply names_once; [exact (iv_nodup _ _ I)|]. intros m m' M M' Q.
    destruct (iv_origin _ _ I m M) as (x & X & _ & K & _ & _ & F). destruct (iv_origin _ _ I m' M') as (y & Y & _ & K' & _ & _ & F').
    rewrite K, K'. apply (NC x y X Y). rewrite <- (name_of t x m OS X K F), <- (name_of t y m' OS Y K' F'). exact Q.
  Qed.

  (** What a content declares, as a list. *)
  Fixpoint listed (fuel : nat) (h : home) (c : list acontent) : list (home * adecl) :=
    match fuel with
    | 0 => []
    | S n => flat_map (fun a => match a with
                                | CAttr d => [(h, d)]
                                | CGroup g => match groups g with Some gr => listed n (g_home gr) (g_content gr) | None => [] end
                                | CAny => []
                                end) c
    end.
  Lemma in_listed h c x : in_content groups h c x -> forall fuel, (forall g, In (CGroup g) c -> rank_g g < fuel) -> In x (listed (S fuel) h c).
  Proof.
    induction 1 as [h l d I|h l g gr x I G F IH]; intros fuel L; cbn [listed]; apply in_flat_map.
    - exists (CAttr d). split; [exact I|left; reflexivity].
    - exists (CGroup g). split; [exact I|]. rewrite G. pose proof (L g I) as R. destruct fuel as [|fuel]; [lia|].
      apply IH. intros g' I'. destruct (wf_group _ _ _ _ WF g gr g' G I') as [_ Z]. lia.
  Qed.

  Fixpoint ancestors (fuel t : nat) : list nat :=
    match fuel with
    | 0 => []
    | S n => t :: match types t with
                  | Some ty => match t_base ty with BExtension b | BRestriction b => ancestors n b | _ => [] end
                  | None => []
                  end
    end.
  Lemma in_ancestors t a : ancestor types t a -> forall fuel, rank_t t < fuel -> In a (ancestors fuel t).
  Proof.
    induction 1 as [t|t ty b a T B A IH]; intros [|fuel] L; try lia; cbn [ancestors]; [left; reflexivity|].
    right. rewrite T. destruct (wf_base _ _ _ _ WF t ty b T B) as [_ R]. destruct B as [B|B]; rewrite B; apply IH; lia.
  Qed.
  Definition all_declared (k t : nat) : list (home * adecl) :=
    flat_map (fun a => match types a with Some ty => listed (S k) (t_home ty) (t_content ty) | None => [] end) (ancestors (S (rank_t t)) t).
  Lemma in_all_declared k t x : (forall g, rank_g g < k) -> declared groups types t x -> In x (all_declared k t).
  Proof.
    intros L (a & ty & A & T & I). apply in_flat_map. exists a. split; [apply in_ancestors; [exact A|lia]|]. rewrite T.
    apply in_listed; [exact I|auto].
  Qed.
  Lemma has_use_declared t u : has_use groups types t u -> exists x, declared groups types t x /\ u = use_of x /\ allowed x.
  Proof.
    induction 1 as [t ty x T I AL|t ty b u T B _ (x & (a & ta & A & R) & E)|t ty b u T B _ (x & (a & ta & A & R) & E) _].
    - exists x. split; [|auto]. exists t, ty. split; [constructor|auto].
    - exists x. split; [|exact E]. exists a, ta. split; [econstructor; eauto|exact R].
    - exists x. split; [|exact E]. exists a, ta. split; [econstructor; eauto|exact R].
  Qed.
End Content.

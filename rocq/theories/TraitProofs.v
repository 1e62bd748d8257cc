From Coq Require Import Lia.
From Verif Require Import TraitModel TraitSpec.

Lemma contains_iff i l : contains i l = true <-> In i l.
Proof.
  unfold contains. rewrite existsb_exists. split.
  - intros (j & I & E). destruct (tident_eq_dec i j); [now subst|discriminate].
  - intros I. exists i. split; [exact I|]. now destruct (tident_eq_dec i i).
Qed.
Lemma entry_iff i l b : In b (entry i l) <-> In (i, b) l.
Proof.
  unfold entry. rewrite nodup_In, in_map_iff. split.
  - intros ([d b'] & <- & F). apply filter_In in F. destruct F as [F E]. cbn in *. destruct (tident_eq_dec d i); [now subst|discriminate].
  - intros I. exists (i, b). split; [reflexivity|]. apply filter_In. split; [exact I|]. cbn. now destruct (tident_eq_dec i i).
Qed.
Lemma entry_nodup i l : NoDup (entry i l).
Proof. apply NoDup_nodup. Qed.
Lemma nodup_snoc {A} (l : list A) x : NoDup l -> ~ In x l -> NoDup (l ++ [x]).
Proof.
  induction l as [|a l IH]; cbn; intros D N; [repeat constructor; auto|]. inversion D; subst. constructor.
  - rewrite in_app_iff. cbn. intuition.
  - apply IH; [assumption|]. intuition.
Qed.

Section P.
Variables (ts : types) (flags : box_flags) (mentions : tident -> list tident) (fixed : list tident).
Let fx := nodup tident_eq_dec fixed.

Lemma impl_iff d b : In (d, b) (impl_entries ts b) <-> exists m, derives ts b m /\ dt_type m = d.
Proof.
  unfold impl_entries, derived_of, get_variant, derives. rewrite in_map_iff. split.
  - intros (m & E & I). injection E as <-. exists m. split; [|reflexivity].
    destruct (lookup b ts) as [ty|]; [|destruct I]. cbn in I. destruct (m_variant ty) eqn:V; try destruct I.
    apply in_map_iff in I. destruct I as ([k m'] & <- & I). exists ty, x, k. auto.
  - intros (m & (ty & x & k & L & V & I) & <-). exists m. split; [reflexivity|]. rewrite L. cbn. rewrite V.
    apply in_map_iff. now exists (k, m).
Qed.
Lemma impl_base d b c : In (d, b) (impl_entries ts c) -> b = c.
Proof. unfold impl_entries. rewrite in_map_iff. intros (m & E & _). now injection E. Qed.
Lemma is_dynamic_iff i : is_dynamic_type ts i = true <-> dynamic ts i.
Proof.
  unfold is_dynamic_type, get_variant, dynamic. split.
  - destruct (lookup i ts) as [ty|]; [|discriminate]. cbn. destruct (m_variant ty) eqn:V; try discriminate. eauto.
  - intros (ty & x & L & V). rewrite L. cbn. now rewrite V.
Qed.
Lemma derive_iff d b : In (d, b) (derive_entries ts b) <->
  exists m, derives ts b m /\ dt_type m = d /\ dynamic ts d /\ ti_type b = ti_type d /\ dt_rel m = RelDirect.
Proof.
  unfold derive_entries. rewrite in_flat_map. split.
  - intros (m & I & J).
    assert (D : derives ts b m).
    { assert (X : In (dt_type m, b) (impl_entries ts b)) by (unfold impl_entries; now apply in_map with (f := fun m => (dt_type m, b))).
      clear J. unfold derived_of, get_variant, derives in *. destruct (lookup b ts) as [ty|]; [|destruct I]. cbn in I. destruct (m_variant ty) eqn:V; try destruct I.
      apply in_map_iff in I. destruct I as ([k m'] & <- & I). exists ty, x, k. auto. }
    destruct (is_dynamic_type ts (dt_type m)) eqn:E1; [|destruct J]. destruct (same_kind b (dt_type m)) eqn:E2; [|destruct J].
    destruct (is_direct_child m) eqn:E3; [|destruct J]. destruct J as [J|[]]. injection J as <-. exists m.
    split; [exact D|]. split; [reflexivity|]. split; [now apply is_dynamic_iff|]. split.
    + unfold same_kind in E2. now destruct (ident_type_eq_dec _ _).
    + unfold is_direct_child in E3. now destruct (dt_rel m).
  - intros (m & (ty & x & k & L & V & I) & <- & D & K & R). exists m. split.
    + unfold derived_of, get_variant. rewrite L. cbn. rewrite V. apply in_map_iff. now exists (k, m).
    + apply is_dynamic_iff in D. rewrite D. unfold same_kind, is_direct_child. rewrite R, K.
      destruct (ident_type_eq_dec _ _); [|congruence]. now left.
Qed.
Lemma derive_base d b c : In (d, b) (derive_entries ts c) -> b = c.
Proof.
  unfold derive_entries. rewrite in_flat_map. intros (m & _ & I). destruct (_ && _ && _); [|destruct I].
  destruct I as [I|[]]. now injection I.
Qed.

(** [reg]: the types that entered the cache and the queue, in order. *)
Definition inv (g : tgen) (reg : list tident) : Prop :=
  tg_cache g = fx ++ reg /\ tg_impl g = flat_map (impl_entries ts) reg /\ tg_derive g = flat_map (derive_entries ts) reg /\
  NoDup (fx ++ reg) /\ (forall i, In i reg -> lookup i ts <> None).

Lemma request_ok g reg i g' : inv g reg -> request ts g i = Ok g' ->
  exists new, inv g' (reg ++ new) /\ tg_pending g' = tg_pending g ++ new /\ tg_done g' = tg_done g /\ In i (tg_cache g').
Proof.
  intros (C & M & D & N & K) E. unfold request in E. destruct (contains i (tg_cache g)) eqn:F.
  - injection E as <-. exists []. rewrite !app_nil_r. split; [now repeat split|]. split; [reflexivity|]. split; [reflexivity|]. now apply contains_iff.
  - destruct (lookup i ts) eqn:L; [|discriminate]. injection E as <-. exists [i]. cbn. split.
    + split; [cbn; now rewrite C, app_assoc|]. split; [cbn; now rewrite flat_map_app, M; cbn; rewrite app_nil_r|].
      split; [cbn; now rewrite flat_map_app, D; cbn; rewrite app_nil_r|]. split.
      * rewrite app_assoc. apply nodup_snoc; [exact N|]. intros I. rewrite <- C in I. apply contains_iff in I. congruence.
      * intros j I. apply in_app_iff in I. destruct I as [I|[<-|[]]]; [now apply K|congruence].
    + split; [reflexivity|]. split; [reflexivity|]. apply in_app_iff. right. now left.
Qed.
Lemma requests_ok l : forall g reg g', inv g reg -> requests ts g l = Ok g' ->
  exists new, inv g' (reg ++ new) /\ tg_pending g' = tg_pending g ++ new /\ tg_done g' = tg_done g /\ forall i, In i l -> In i (tg_cache g').
Proof.
  induction l as [|i l IH]; intros g reg g' V E; cbn in E.
  - injection E as <-. exists []. rewrite !app_nil_r. split; [exact V|]. split; [reflexivity|]. split; [reflexivity|]. intros ? [].
  - destruct (request ts g i) as [g1| |] eqn:E1; try discriminate.
    destruct (request_ok g reg i g1 V E1) as (n1 & V1 & P1 & D1 & I1).
    destruct (IH g1 (reg ++ n1) g' V1 E) as (n2 & V2 & P2 & D2 & I2). exists (n1 ++ n2). rewrite app_assoc. split; [exact V2|].
    split; [now rewrite P2, P1, app_assoc|]. split; [congruence|]. intros j [<-|J]; [|auto].
    destruct V1 as (C1 & _), V2 as (C2 & _). rewrite C2. rewrite C1 in I1. rewrite <- app_assoc, app_assoc. apply in_app_iff. 
    apply in_app_iff in I1. destruct I1 as [I1|I1]; [left; apply in_app_iff; auto|].
    apply in_app_iff in I1. destruct I1; [left; apply in_app_iff; auto|right; apply in_app_iff; auto].
Qed.

Definition type_of (i : tident) : variant := match get_variant ts i with Some v => v | None => VBuildIn BString end.
Definition asks (i : tident) : list tident := asked ts flags (type_of i) ++ mentions i.

(** What is known of a generated type: it looked up its traits when [seen] was
    registered. *)
Definition done_ok (first reg cache : list tident) (e : tident * (list tident * list tident)) : Prop :=
  let '(i, (bases, supers)) := e in
  (exists seen rest, reg = seen ++ rest /\ In i seen /\ incl first seen /\
    bases = (if has_impls (type_of i) then entry i (flat_map (impl_entries ts) seen) else [])) /\
  (exists seen rest, reg = seen ++ rest /\ In i seen /\ incl first seen /\
    supers = (if is_dynamic_type ts i then entry i (flat_map (derive_entries ts) seen) else [])) /\
  forall j, In j (asks i) -> In j cache.

Definition good (first : list tident) (g : tgen) : Prop :=
  exists reg, inv g reg /\ reg = map fst (tg_done g) ++ tg_pending g /\ incl first reg /\
    forall e, In e (tg_done g) -> done_ok first reg (tg_cache g) e.

Lemma done_mono first reg new c c' e : incl c c' -> done_ok first reg c e -> done_ok first (reg ++ new) c' e.
Proof.
  intros S. destruct e as [i [bs ss]]. intros ((s1 & r1 & E1 & I1 & F1 & B1) & (s2 & r2 & E2 & I2 & F2 & B2) & A).
  split; [|split].
  - exists s1, (r1 ++ new). rewrite app_assoc. now rewrite E1 at 1.
  - exists s2, (r2 ++ new). rewrite app_assoc. now rewrite E2 at 1.
  - intros j J. apply S. auto.
Qed.

Lemma one_good first g i rest g' : good first g -> tg_pending g = i :: rest ->
  generate_one ts flags mentions (TGen (tg_cache g) rest (tg_impl g) (tg_derive g) (tg_done g)) i = Ok g' ->
  good first g' /\ length (tg_done g') = S (length (tg_done g)).
Proof.
  intros (reg & V & R & F & D) P E. unfold generate_one in E. fold (type_of i) in E.
  set (g0 := TGen (tg_cache g) rest (tg_impl g) (tg_derive g) (tg_done g)) in *.
  assert (V0 : inv g0 reg) by exact V.
  destruct (requests ts g0 _) as [g1| |] eqn:E1; try discriminate.
  destruct (requests_ok _ _ _ _ V0 E1) as (n1 & V1 & P1 & D1 & A1). cbv zeta in E.
  set (bases := if has_impls (type_of i) then entry i (tg_impl g1) else []) in *.
  destruct (requests ts g1 bases) as [g2| |] eqn:E2; try discriminate.
  destruct (requests_ok _ _ _ _ V1 E2) as (n2 & V2 & P2 & D2 & A2).
  set (supers := if is_dynamic_type ts i then entry i (tg_derive g2) else []) in *.
  destruct (requests ts g2 supers) as [g3| |] eqn:E3; try discriminate.
  destruct (requests_ok _ _ _ _ V2 E3) as (n3 & V3 & P3 & D3 & A3).
  destruct (requests ts g3 _) as [g4| |] eqn:E4; try discriminate.
  destruct (requests_ok _ _ _ _ V3 E4) as (n4 & V4 & P4 & D4 & A4). injection E as <-.
  assert (I : In i reg) by (rewrite R, P; apply in_app_iff; right; now left).
  assert (DD : tg_done g4 = tg_done g) by (rewrite D4, D3, D2, D1; reflexivity).
  split; [|cbn; rewrite DD, app_length; cbn; lia].
  exists (((reg ++ n1) ++ n2) ++ n3 ++ n4). rewrite app_assoc.
  split; [exact V4|]. split.
  { cbn. rewrite DD, P4, P3, P2, P1. cbn. rewrite map_app. cbn. rewrite R at 1. rewrite P. rewrite <- !app_assoc. reflexivity. }
  split. { intros x X. repeat (apply in_app_iff; left). now apply F. }
  assert (C4 : tg_cache g4 = fx ++ (((reg ++ n1) ++ n2) ++ n3) ++ n4) by (destruct V4 as (C4 & _); exact C4).
  cbn. intros e J. apply in_app_iff in J. destruct J as [J|[<-|[]]].
  - rewrite DD in J. rewrite <- !app_assoc. rewrite app_assoc. rewrite <- (app_assoc reg n1). apply (done_mono first reg _ (tg_cache g)).
    + rewrite C4. destruct V as (C & _). rewrite C. intros x X. apply in_app_iff in X. apply in_app_iff. destruct X as [X|X]; [auto|].
      right. repeat (apply in_app_iff; left). exact X.
    + now apply D.
  - split; [|split].
    + exists (reg ++ n1), (n2 ++ n3 ++ n4). split; [now rewrite <- !app_assoc|]. split; [apply in_app_iff; auto|].
      split; [intros x X; apply in_app_iff; left; auto|]. unfold bases. destruct V1 as (_ & M1 & _). now rewrite M1.
    + exists ((reg ++ n1) ++ n2), (n3 ++ n4). split; [now rewrite <- !app_assoc|]. split; [repeat (apply in_app_iff; left); auto|].
      split; [intros x X; repeat (apply in_app_iff; left); auto|]. unfold supers. destruct V2 as (_ & _ & M2 & _). now rewrite M2.
    + intros j J. unfold asks in J.
      assert (C1 : incl (tg_cache g1) (tg_cache g4)).
      { destruct V1 as (C1 & _). rewrite C1, C4. intros x X. apply in_app_iff in X. apply in_app_iff. destruct X as [X|X]; [auto|].
        right. do 3 (apply in_app_iff; left). exact X. }
      apply in_app_iff in J. destruct J as [J|J].
      * destruct (asks_first (type_of i)); [apply C1, A1; exact J|]. apply A4. apply in_app_iff. now left.
      * apply A4. apply in_app_iff. now right.
Qed.

Lemma pending_good first fuel : forall g g', good first g -> trait_pending ts flags mentions fuel g = Ok g' ->
  good first g' /\ tg_pending g' = [].
Proof.
  induction fuel as [|fuel IH]; intros g g' G E; cbn in E; destruct (tg_pending g) as [|i rest] eqn:P; try discriminate.
  - injection E as <-. auto.
  - injection E as <-. auto.
  - destruct (generate_one _ _ _ _ i) as [g1| |] eqn:E1; try discriminate.
    destruct (one_good first g i rest g1 G P E1) as [G1 _]. eauto.
Qed.

Lemma requests_good first l g g' : good first g -> requests ts g l = Ok g' -> good first g' /\ (forall i, In i l -> In i (tg_cache g')).
Proof.
  intros (reg & V & R & F & D) E. destruct (requests_ok _ _ _ _ V E) as (n & V' & P & D' & A). split; [|exact A].
  exists (reg ++ n). split; [exact V'|]. split; [rewrite D', P, R, app_assoc; reflexivity|].
  split; [intros x X; apply in_app_iff; auto|]. rewrite D'. intros e I. apply (done_mono first reg n (tg_cache g)); [|now apply D].
  destruct V as (C & _), V' as (C' & _). rewrite C, C'. intros x X. apply in_app_iff in X. apply in_app_iff.
  destruct X; [auto|]. right. apply in_app_iff. auto.
Qed.

Lemma calls_good first l : forall g g', good first g -> tg_pending g = [] -> trait_calls ts flags mentions g l = Ok g' ->
  good first g' /\ tg_pending g' = [].
Proof.
  induction l as [|b l IH]; intros g g' G P E; cbn in E; [injection E as <-; auto|].
  destruct (trait_call ts flags mentions g b) as [g1| |] eqn:E1; try discriminate. unfold trait_call in E1.
  destruct (requests ts g b) as [g0| |] eqn:E0; try discriminate.
  destruct (requests_good first b g g0 G E0) as [G0 _].
  destruct (pending_good first _ _ _ G0 E1) as [G1 P1]. eauto.
Qed.

Lemma new_good : good [] (trait_new fixed).
Proof.
  exists []. unfold trait_new. split; [|split; [reflexivity|split; [intros ? []|intros ? []]]].
  unfold inv. cbn. rewrite app_nil_r. repeat split; auto. apply NoDup_nodup.
Qed.

(** After the requests of the first call, all that is registered may count as seen. *)
Lemma first_good b g : requests ts (trait_new fixed) b = Ok g ->
  good (filter (fun i => negb (contains i fixed)) b) g.
Proof.
  intros E. destruct new_good as (reg & V & R & _ & _). cbn in R. subst reg.
  destruct (requests_ok _ _ _ _ V E) as (n & V' & P & D & A). cbn in P, D, V'. exists n. split; [exact V'|].
  split; [now rewrite D, P|]. split; [|rewrite D; intros ? []].
  intros x X. apply filter_In in X. destruct X as [X NX]. specialize (A x X). destruct V' as (C & _). rewrite C in A.
  apply in_app_iff in A. destruct A as [A|A]; [|exact A]. exfalso. unfold fx in A. apply nodup_In in A. apply contains_iff in A.
  rewrite A in NX. discriminate.
Qed.

Lemma run_good first calls g : trait_generate ts flags mentions fixed (first :: calls) = Ok g ->
  good (filter (fun i => negb (contains i fixed)) first) g /\ tg_pending g = [].
Proof.
  intros E. unfold trait_generate in E. cbn in E. unfold trait_call in E.
  destruct (requests ts (trait_new fixed) first) as [g0| |] eqn:E0; try discriminate.
  pose proof (first_good first g0 E0) as G0.
  destruct (trait_pending ts flags mentions (S (length ts)) g0) as [g1| |] eqn:E1; try discriminate.
  destruct (pending_good _ _ _ _ G0 E1) as [G1 P1]. eapply calls_good; eassumption.
Qed.
Lemma good_weaken first g : good first g -> good [] g.
Proof.
  intros (reg & V & R & F & D). exists reg. split; [exact V|]. split; [exact R|]. split; [intros ? []|].
  intros [i [bs ss]] I. destruct (D _ I) as ((s1 & r1 & E1 & I1 & F1 & B1) & (s2 & r2 & E2 & I2 & F2 & B2) & A).
  split; [|split; [|exact A]]; [exists s1, r1|exists s2, r2]; repeat split; auto; intros ? [].
Qed.
Lemma run_good_any calls g : trait_generate ts flags mentions fixed calls = Ok g -> good [] g /\ tg_pending g = [].
Proof.
  destruct calls as [|b calls]; intros E.
  - cbn in E. injection E as <-. split; [exact new_good|reflexivity].
  - destruct (run_good b calls g E) as [G P]. split; [eapply good_weaken; exact G|exact P].
Qed.

Lemma own_impls i : own ts i <-> has_impls (type_of i) = true.
Proof.
  unfold own, type_of, get_variant, has_impls. split.
  - intros (ty & L & V). rewrite L. cbn. destruct (m_variant ty); (reflexivity || destruct V).
  - destruct (lookup i ts) as [ty|]; cbn; [|discriminate]. intros H. exists ty. split; [reflexivity|]. destruct (m_variant ty); (exact Logic.I || discriminate).
Qed.
Lemma dynamic_own i : dynamic ts i -> own ts i.
Proof. intros (ty & x & L & V). exists ty. split; [exact L|]. now rewrite V. Qed.

(** A derived type is asked for by its base. *)
Lemma derived_asked b m : derives ts b m -> In (dt_type m) (asks b).
Proof.
  intros (ty & x & k & L & V & I). unfold asks, asked, type_of, get_variant. rewrite L. cbn. rewrite V. cbn.
  apply in_app_iff. left. rewrite map_map. apply in_map_iff. exists (k, m). auto.
Qed.

Lemma finished_done first g i : good first g -> tg_pending g = [] -> In i (tg_cache g) -> ~ In i fixed ->
  exists bs ss, In (i, (bs, ss)) (tg_done g).
Proof.
  intros (reg & (C & _) & R & _) P I N. rewrite C in I. apply in_app_iff in I. destruct I as [I|I].
  - destruct N. unfold fx in I. now apply nodup_In in I.
  - rewrite R, P, app_nil_r in I. apply in_map_iff in I. destruct I as ([j [bs ss]] & <- & I). eauto.
Qed.

Lemma impl_flat d b seen : In (d, b) (flat_map (impl_entries ts) seen) <-> In b seen /\ exists m, derives ts b m /\ dt_type m = d.
Proof.
  rewrite in_flat_map. split.
  - intros (c & I & J). assert (b = c) by (eapply impl_base; exact J). subst c. split; [exact I|]. now apply impl_iff.
  - intros (I & M). exists b. split; [exact I|]. now apply impl_iff.
Qed.
Lemma derive_flat d b seen : In (d, b) (flat_map (derive_entries ts) seen) <->
  In b seen /\ exists m, derives ts b m /\ dt_type m = d /\ dynamic ts d /\ ti_type b = ti_type d /\ dt_rel m = RelDirect.
Proof.
  rewrite in_flat_map. split.
  - intros (c & I & J). assert (b = c) by (eapply derive_base; exact J). subst c. split; [exact I|]. now apply derive_iff.
  - intros (I & M). exists b. split; [exact I|]. now apply derive_iff.
Qed.

(** Generated types are those of the queue. *)
Lemma done_unique first g i x y : good first g -> In (i, x) (tg_done g) -> In (i, y) (tg_done g) -> x = y.
Proof.
  intros (reg & (_ & _ & _ & N & _) & R & _) I J.
  assert (U : NoDup (map fst (tg_done g))).
  { rewrite R in N. clear -N. induction fx as [|a l IH]; cbn in N; [|inversion N; auto].
    induction (map fst (tg_done g)) as [|a l IH]; [constructor|]. cbn in N. inversion N; subst. constructor; [|auto].
    intros X. apply H1. apply in_app_iff. auto. }
  clear -U I J. induction (tg_done g) as [|[j z] l IH]; [destruct I|]. cbn in U. inversion U; subst.
  destruct I as [I|I], J as [J|J].
  - congruence.
  - injection I as -> ->. destruct H1. change i with (fst (i, y)). now apply in_map.
  - injection J as -> ->. destruct H1. change i with (fst (i, x)). now apply in_map.
  - auto.
Qed.

Lemma nodup_split_in (l : list tident) b d x y z s r : NoDup l -> l = x ++ b :: y ++ d :: z -> l = s ++ r -> In d s -> In b s.
Proof.
  intros N E F I. subst l. revert s F I N. induction x as [|a x IH]; intros s F I N; destruct s as [|c s]; try (now destruct I); cbn in F; injection F as <- F.
  - now left.
  - cbn in N. inversion N; subst. right. destruct I as [<-|I]; [|eapply IH; eassumption].
    destruct H1. apply in_app_iff. right. right. apply in_app_iff. right. now left.
Qed.
Lemma before_in g reg b d seen rest : inv g reg -> before g b d -> ~ In b fixed -> reg = seen ++ rest -> In d seen -> In b seen.
Proof.
  intros (C & _ & _ & N & _) (x & y & z & E) NB R I. subst reg.
  assert (J : In b (fx ++ seen)).
  { eapply (nodup_split_in (tg_cache g) b d x y z (fx ++ seen) rest); [now rewrite C|exact E|now rewrite C, app_assoc|].
    apply in_app_iff. now right. }
  apply in_app_iff in J. destruct J as [J|J]; [|exact J]. destruct NB. unfold fx in J. now apply nodup_In in J.
Qed.

(** The end: there is fuel enough. *)
Lemma requests_no_panic l : forall g, requests ts g l <> Panic.
Proof.
  induction l as [|i l IH]; intros g E; cbn in E; [discriminate|]. destruct (request ts g i) as [g1| |] eqn:E1; try discriminate; [now apply IH in E|].
  unfold request in E1. destruct (contains _ _); [discriminate|]. destruct (lookup i ts); discriminate.
Qed.
Lemma one_no_panic g i : generate_one ts flags mentions g i <> Panic.
Proof.
  unfold generate_one. cbv zeta. intros E.
  destruct (requests ts g _) as [g1| |] eqn:E1; try discriminate; [|now apply requests_no_panic in E1].
  destruct (requests ts g1 _) as [g2| |] eqn:E2; try discriminate; [|now apply requests_no_panic in E2].
  destruct (requests ts g2 _) as [g3| |] eqn:E3; try discriminate; [|now apply requests_no_panic in E3].
  destruct (requests ts g3 _) as [g4| |] eqn:E4; try discriminate. now apply requests_no_panic in E4.
Qed.
Lemma lookup_in (i : tident) : lookup i ts <> None -> In i (map fst ts).
Proof.
  induction ts as [|[j v] l IH]; cbn; [congruence|]. destruct (tident_eq_dec i j); [now left|auto].
Qed.
Lemma good_bound first g : good first g -> length (tg_done g) + length (tg_pending g) <= length ts.
Proof.
  intros (reg & (_ & _ & _ & N & K) & R & _).
  assert (length reg <= length (map fst ts)).
  { apply NoDup_incl_length; [|intros i I; now apply lookup_in, K].
    clear -N. induction fx as [|a l IH]; cbn in N; [exact N|]. inversion N; auto. }
  rewrite map_length in H. rewrite R, app_length, map_length in H. lia.
Qed.
Lemma pending_no_panic first fuel : forall g, good first g -> length ts < fuel + length (tg_done g) -> trait_pending ts flags mentions fuel g <> Panic.
Proof.
  induction fuel as [|fuel IH]; intros g G B E; cbn in E; destruct (tg_pending g) as [|i rest] eqn:P; try discriminate.
  - pose proof (good_bound first g G). lia.
  - destruct (generate_one _ _ _ _ i) as [g1| |] eqn:E1; try discriminate; [|now apply one_no_panic in E1].
    destruct (one_good first g i rest g1 G P E1) as [G1 L]. apply (IH g1); auto. lia.
Qed.
Lemma calls_no_panic l : forall g, good [] g -> tg_pending g = [] -> trait_calls ts flags mentions g l <> Panic.
Proof.
  induction l as [|b l IH]; intros g G P E; cbn in E; [discriminate|]. unfold trait_call in E.
  destruct (requests ts g b) as [g0| |] eqn:E0; try discriminate; [|now apply requests_no_panic in E0].
  destruct (requests_good [] b g g0 G E0) as [G0 _].
  destruct (trait_pending ts flags mentions (S (length ts)) g0) as [g1| |] eqn:E1; try discriminate.
  - destruct (pending_good [] _ _ _ G0 E1) as [G1 P1]. now apply (IH g1).
  - eapply pending_no_panic; [exact G0| |exact E1]. lia.
Qed.
End P.

(** Proofs for C107. *)
From Verif Require Import ModModel ModSpec PathSpec PathProofs ExprModel ExprSpec.
From Coq Require Import Lia.

(** * Renaming crates *)

Lemma strip_self p s : strip_text p (p ++ s) = Some s.
Proof. induction p as [|a p IH]; cbn; [reflexivity|]. destruct (N.eq_dec a a); [exact IH|congruence]. Qed.

Lemma strip_crate k : forall a r, Forall (fun x => x <> 58%N) k -> Forall (fun x => x <> 58%N) a -> a <> k ->
  strip_text (k ++ colons) (a ++ colons ++ r) = None.
Proof.
  induction k as [|x k IH]; intros a r K A N.
  - destruct a as [|y a]; [congruence|]. inversion A; subst. cbn -[N.eq_dec]. destruct (N.eq_dec 58 y) as [<-|]; [congruence|reflexivity].
  - inversion K; subst. destruct a as [|y a].
    + cbn -[N.eq_dec]. destruct (N.eq_dec x 58); [congruence|reflexivity].
    + inversion A; subst. cbn -[N.eq_dec]. destruct (N.eq_dec x y) as [<-|]; [|reflexivity]. apply IH; try assumption. congruence.
Qed.

Lemma strip_colon a r k : Forall (fun x => x <> 58%N) a -> a <> [] -> strip_text (colons ++ k) (a ++ r) = None.
Proof. intros A N. destruct a as [|y a]; [congruence|]. inversion A; subst. cbn -[N.eq_dec]. destruct (N.eq_dec 58 y) as [<-|]; [congruence|reflexivity]. Qed.

Lemma strip_colons k r : strip_text (colons ++ k) (colons ++ r) = strip_text k r.
Proof. reflexivity. Qed.

Lemma strip_name a k r : Forall (fun x => x <> 58%N) k -> k <> [] -> strip_text (k ++ a) (colons ++ r) = None.
Proof. intros A N. destruct k as [|y k]; [congruence|]. inversion A; subst. cbn -[N.eq_dec]. destruct (N.eq_dec y 58); [congruence|reflexivity]. Qed.

Lemma crates_plain : Forall (fun x => x <> 58%N) crate_types /\ Forall (fun x => x <> 58%N) crate_alloc.
Proof. split; vm_compute; repeat constructor; discriminate. Qed.

Definition ren (c : xconfig) (a : str) : str :=
  if str_eq_dec a crate_types then x_types c else if str_eq_dec a crate_alloc then x_alloc c else a.

Lemma plain_colon a : plain_ident a -> Forall (fun x => x <> 58%N) a /\ a <> [].
Proof. intros [N F]. split; [|exact N]. eapply Forall_impl; [|exact F]. cbn. tauto. Qed.

Lemma patch_relative c a r : plain_ident a -> patch_using c (a ++ colons ++ r) = ren c a ++ colons ++ r.
Proof.
  intros P. destruct (plain_colon _ P) as [A N]. destruct crates_plain as [T L]. unfold patch_using, ren.
  destruct (str_eq_dec a crate_types) as [->|NT].
  - rewrite app_assoc, strip_self. reflexivity.
  - rewrite (strip_crate _ _ _ T A NT). rewrite (strip_colon _ _ _ A N).
    destruct (str_eq_dec a crate_alloc) as [->|NL].
    + rewrite app_assoc, strip_self. reflexivity.
    + rewrite (strip_crate _ _ _ L A NL). rewrite (strip_colon _ _ _ A N). reflexivity.
Qed.

Lemma patch_absolute c a r : plain_ident a -> patch_using c (colons ++ a ++ colons ++ r) = colons ++ ren c a ++ colons ++ r.
Proof.
  intros P. destruct (plain_colon _ P) as [A N]. destruct crates_plain as [T L]. unfold patch_using, ren.
  rewrite (strip_name colons crate_types) by (exact T || discriminate).
  rewrite strip_colons.
  destruct (str_eq_dec a crate_types) as [->|NT].
  - rewrite app_assoc, strip_self. reflexivity.
  - rewrite (strip_crate _ _ _ T A NT).
    rewrite (strip_name colons crate_alloc) by (exact L || discriminate). rewrite strip_colons.
    destruct (str_eq_dec a crate_alloc) as [->|NL].
    + rewrite app_assoc, strip_self. reflexivity.
    + rewrite (strip_crate _ _ _ L A NL). reflexivity.
Qed.

Lemma display_cons a l n : path_display (Path (Some (a :: l)) n false) = a ++ colons ++ path_display (Path (Some l) n false).
Proof. unfold path_display. cbn. now rewrite <- !app_assoc. Qed.

Lemma patch_text c abs a l n u : plain_ident a -> plain_text abs (a :: l) n u ->
  plain_text abs (ren c a :: l) n (patch_using c u).
Proof.
  unfold plain_text. intros P ->. rewrite !display_cons. destruct abs; [apply patch_absolute, P|apply patch_relative, P].
Qed.

Lemma parse_plain ident_ok abs m n u : plain_text abs m n u -> ident_list ident_ok (m ++ [n]) ->
  path_parse ident_ok u = Ok (Path (Some m) n abs).
Proof.
  intros T [P O].
  assert (PT : path_text abs (m ++ [n]) u).
  { unfold plain_text in T. subst u. destruct abs.
    - exact (PT_abs _ _ [] eq_refl (display_text m n)).
    - apply PT_rel, display_text. }
  destruct (parse_text ident_ok abs _ u PT P O) as (m' & i' & E & R). apply PathProofs.snoc_inj in E. destruct E as [-> ->]. exact R.
Qed.

(** * Names *)

Lemma last_is_snoc a p : last_is a p = true <-> exists q, p = q ++ [a].
Proof.
  unfold last_is. split.
  - destruct (rev p) as [|x r] eqn:E; [discriminate|]. destruct (str_eq_dec a x) as [<-|]; [|discriminate].
    intros _. exists (rev r). rewrite <- (rev_involutive p), E. reflexivity.
  - intros (q & ->). rewrite rev_unit. destruct (str_eq_dec a a); congruence.
Qed.

Lemma nodup_one {A} (dec : forall x y : A, {x = y} + {x <> y}) p l :
  (forall x, In x l -> x = p) -> In p l -> nodup dec l = [p].
Proof.
  induction l as [|x l IH]; intros H I; [destruct I|]. cbn.
  pose proof (H x (or_introl eq_refl)) as ->.
  destruct (in_dec dec p l) as [J|J]; [apply IH; [intros; apply H; now right|exact J]|].
  destruct l as [|y l]; [reflexivity|]. exfalso. apply J. left. apply H. right. now left.
Qed.

Lemma filter_none {A} (f : A -> bool) l : (forall x, In x l -> f x = false) -> filter f l = [].
Proof. induction l as [|x l IH]; intros H; [reflexivity|]. cbn. rewrite (H x (or_introl eq_refl)). apply IH. intros; apply H; now right. Qed.

Section Names.
  Variables (ident_ok : str -> bool) (c : xconfig) (imports defs : list (list str)) (dst : list str) (ops : list mod_op).
  Hypothesis IO : imports_of ident_ok dst ops imports.
  Hypothesis UN : unambiguous imports defs dst.
  Hypothesis CR : ident_list ident_ok [x_types c; x_alloc c].

  Definition good (p : ident_path) (i : item) : Prop :=
    exists abs segs, read_path (relative_to p dst) = Some (abs, segs) /\ find_item imports defs dst abs segs = Some i.

  Lemma ren_ok a : plain_ident a -> ident_ok a = true -> plain_ident (ren c a) /\ ident_ok (ren c a) = true.
  Proof.
    intros P O. destruct CR as [CP CO]. inversion CP as [|? ? P1 CP']; subst. inversion CP' as [|? ? P2 _]; subst.
    inversion CO as [|? ? O1 CO']; subst. inversion CO' as [|? ? O2 _]; subst.
    unfold ren. destruct (str_eq_dec a crate_types); [now split|]. destruct (str_eq_dec a crate_alloc); now split.
  Qed.

  Lemma imported_good abs a l n u :
    plain_text abs (a :: l) n u -> ident_list ident_ok (a :: l ++ [n]) -> n <> kw_super ->
    registered dst ops (patch_using c u) false -> good (path_from_ident n) (ICrate (renamed c (a :: l ++ [n]))).
  Proof.
    intros T [P O] N R. exists false, [n]. split; [reflexivity|]. cbn [find_item].
    destruct (str_eq_dec n kw_super) as [|_]; [contradiction|].
    inversion P as [|? ? Pa Pl]; subst. inversion O as [|? ? Oa Ol]; subst.
    destruct (ren_ok a Pa Oa) as [Pa' Oa'].
    pose proof (patch_text c abs a l n u Pa T) as T'.
    assert (I : In ((ren c a :: l) ++ [n]) imports).
    { apply IO. split; [cbn; rewrite app_length; cbn; lia|]. exists (patch_using c u). split; [exact R|].
      exists (ren c a :: l), n, abs. split; [|reflexivity]. apply parse_plain; [exact T'|]. split; constructor; assumption. }
    destruct (UN _ _ I) as [U1 U2]. unfold find_name.
    rewrite (nodup_one path_eq_dec ((ren c a :: l) ++ [n])).
    - destruct (in_dec path_eq_dec (dst ++ [n]) defs) as [J|_]; [contradiction|]. reflexivity.
    - intros x Hx. apply filter_In in Hx. destruct Hx as [Hx L]. apply last_is_snoc in L. destruct L as (q & ->).
      now rewrite (U1 q Hx).
    - apply filter_In. split; [exact I|]. apply last_is_snoc. eauto.
  Qed.

  Lemma absolute_good m i : good (Path (Some m) i true) (ICrate (m ++ [i])).
  Proof. exists true, (m ++ [i]). split; [apply absolute_path|reflexivity]. Qed.

  Lemma local_good m i : ~ In kw_super m -> i <> kw_super -> In (m ++ [i]) defs ->
    good (Path (Some m) i false) (ILocal (m ++ [i])).
  Proof.
    intros N NI D. destruct (relative_resolves m i dst N NI) as (segs & R & F). exists false, segs. split; [exact R|].
    assert (FP : find_path defs dst segs = Some (ILocal (m ++ [i]))).
    { unfold find_path. rewrite F. destruct (in_dec path_eq_dec (m ++ [i]) defs); [reflexivity|contradiction]. }
    cbn [find_item]. destruct segs as [|a [|b segs]]; [exact FP| |exact FP].
    destruct (str_eq_dec a kw_super) as [|NA]; [exact FP|]. cbn [resolve_from] in F.
    destruct (str_eq_dec a kw_super); [contradiction|]. injection F as F. rewrite <- F in D |- *.
    unfold find_name. rewrite filter_none.
    - cbn [nodup]. destruct (in_dec path_eq_dec (dst ++ [a]) defs); [reflexivity|contradiction].
    - intros x Hx. destruct (last_is a x) eqn:L; [|reflexivity]. apply last_is_snoc in L. destruct L as (q & ->).
      destruct (UN _ _ Hx) as [_ ND]. contradiction.
  Qed.

  Lemma prelude_good n : n <> kw_super -> ~ In (dst ++ [n]) defs -> (forall q, ~ In (q ++ [n]) imports) ->
    good (path_from_ident n) (IPrelude n).
  Proof.
    intros N D I. exists false, [n]. split; [reflexivity|]. cbn [find_item].
    destruct (str_eq_dec n kw_super) as [|_]; [contradiction|]. unfold find_name. rewrite filter_none.
    - cbn [nodup]. destruct (in_dec path_eq_dec (dst ++ [n]) defs); [contradiction|reflexivity].
    - intros x Hx. destruct (last_is n x) eqn:L; [|reflexivity]. apply last_is_snoc in L. destruct L as (q & ->).
      destruct (I q Hx).
  Qed.

  Definition listed (d : path_data) : Prop := forall u, In u (pd_usings d) -> registered dst ops (patch_using c u) false.

  Lemma listed_op d : In (fst (resolve_type c dst d)) ops -> listed d.
  Proof. intros I u U. exists (map (patch_using c) (pd_usings d)). split; [exact I|]. apply in_map, U. Qed.

  Lemma ref_good p r d : ref_path ident_ok c r = Ok d -> proper_ref ident_ok c imports defs dst p r ->
    listed d -> good (pd_path d) (ref_item c p r) /\ pd_generics d = [].
  Proof.
    intros E P L. destruct r as [n m i|n [u|]|m i]; cbn [ref_path] in E.
    - injection E as <-. split; [|reflexivity]. cbn [proper_ref ref_item] in *. cbn [pd_path pd_from_path].
      destruct (x_build_in_absolute c).
      + apply absolute_good.
      + destruct (P eq_refl) as (A & B & C). apply prelude_good; assumption.
    - destruct P as (a & l & abs & -> & T & N & I & AB). cbn [ref_item]. destruct (x_absolute c) eqn:XA.
      + destruct (AB eq_refl) as [-> RN]. rewrite (parse_plain ident_ok true (a :: l) n u T) in E by exact I.
        injection E as <-. split; [|reflexivity]. rewrite RN. cbn [pd_path pd_from_path].
        exact (absolute_good (a :: l) n).
      + injection E as <-. split; [|reflexivity]. cbn [pd_path pd_from_path pd_with_using].
        apply (imported_good abs a l n u T I N). apply L. left. reflexivity.
    - injection E as <-. split; [|reflexivity]. cbn [proper_ref ref_item] in *. destruct P as [P1 P2].
      exact (local_good [] n (fun f => f) P1 P2).
    - injection E as <-. split; [|reflexivity]. cbn [proper_ref ref_item] in *. destruct P as (P1 & P2 & P3).
      exact (local_good m i P1 P2 P3).
  Qed.

  (** * Types *)

  Lemma take_map ts r : (forall t r', r <> XP t :: r') -> take_path (map XP ts ++ r) = (ts, r).
  Proof.
    intros H. induction ts as [|t ts IH]; cbn [map app take_path].
    - destruct r as [|[] r]; try reflexivity. exfalso. eapply H. reflexivity.
    - rewrite IH. reflexivity.
  Qed.

  (** What may follow a type. *)
  Definition stops (r : list xtok) : Prop := match r with XP _ :: _ | XLt :: _ => False | _ => True end.
  Definition complete (ts : list xtok) (e : texpr) : Prop :=
    exists fuel, forall r, stops r -> read_type fuel (ts ++ r) = Some (e, r).
  Definition means (ts : list xtok) (t : rtype) : Prop := exists e, complete ts e /\ denote imports defs dst e = Some t.
  Definition written (d : path_data) (t : rtype) : Prop := means (pd_resolve d dst) t.

  Lemma complete_reads ts e : complete ts e -> reads_type ts e.
  Proof. intros (fuel & R). exists fuel. specialize (R [] I). now rewrite app_nil_r in R. Qed.

  Lemma means_reads ts t : means ts t -> exists e, reads_type ts e /\ denote imports defs dst e = Some t.
  Proof. intros (e & R & D). exists e. split; [now apply complete_reads|exact D]. Qed.

  Lemma read_some ts a segs : read_path ts = Some (a, segs) -> exists t ts', ts = t :: ts'.
  Proof. destruct ts; [discriminate|eauto]. Qed.

  (** Reading a type that begins with a path. *)
  Lemma read_path_type fuel ts a segs r : read_path ts = Some (a, segs) -> (forall t r', r <> XP t :: r') ->
    read_type (S fuel) (map XP ts ++ r) =
    match r with
    | XLt :: r => match read_args fuel r with Some (args, r) => Some (TE a segs args, r) | None => None end
    | _ => Some (TE a segs [], r)
    end.
  Proof.
    intros R H. destruct (read_some _ _ _ R) as (t & ts' & E). cbn [read_type]. pose proof (take_map ts r H) as T.
    rewrite E in *. cbn [map app] in *. rewrite T, R. reflexivity.
  Qed.

  Lemma stops_path r : stops r -> forall t r', r <> XP t :: r'.
  Proof. intros H t r' ->. exact H. Qed.

  Lemma written_plain p us i : good p i -> written (PData p us []) (RType i []).
  Proof.
    intros (abs & segs & R & F). exists (TE abs segs []). split.
    - exists 1. intros r H. unfold pd_resolve. cbn [pd_path pd_generics]. rewrite app_nil_r.
      rewrite (read_path_type 0 _ _ _ _ R (stops_path r H)). destruct r as [|[] r]; try reflexivity; destruct H.
    - cbn [denote]. rewrite F. reflexivity.
  Qed.

  Lemma written_one p us g i j : good p i -> good g j -> written (PData p us [g]) (RType i [RType j []]).
  Proof.
    intros (abs & segs & R & F) (abs' & segs' & R' & F'). exists (TE abs segs [TE abs' segs' []]). split.
    - exists 3. intros r H. unfold pd_resolve. cbn [pd_path pd_generics pd_arguments app]. rewrite app_nil_r.
      rewrite <- app_assoc. cbn [app]. rewrite <- app_assoc. cbn [app].
      rewrite (read_path_type 2 _ _ _ _ R) by discriminate. cbn [read_args].
      rewrite (read_path_type 0 _ _ _ _ R') by discriminate. reflexivity.
    - cbn [denote]. rewrite F, F'. reflexivity.
  Qed.

  Lemma proper_absolute w : proper ident_ok c w -> x_absolute c = true -> good w (configured c w).
  Proof.
    intros (a & l & E & AB & I & N & RN) XA. destruct w as [q i b]. cbn [ip_path ip_absolute ip_ident] in E, AB, I, N, RN. subst q b.
    unfold configured. cbn [ip_path ip_ident]. change ((a :: l) ++ [i]) with (a :: l ++ [i]). rewrite (RN XA). exact (absolute_good (a :: l) i).
  Qed.

  Lemma proper_included w : proper ident_ok c w -> registered dst ops (patch_using c (path_display w)) false ->
    good (path_from_ident (ip_ident w)) (configured c w).
  Proof.
    intros (a & l & E & AB & I & N & RN) R. destruct w as [q i b]. cbn [ip_path ip_absolute ip_ident] in E, AB, I, N, RN. subst q b.
    exact (imported_good false a l i _ eq_refl I N R).
  Qed.

  Lemma nillable_written p us i on : proper ident_ok c (x_nillable_type c) -> good p i ->
    listed (path_data_nillable c on (PData p us [])) ->
    written (path_data_nillable c on (PData p us [])) (around c on (x_nillable_type c) (RType i [])).
  Proof.
    intros P G L. unfold path_data_nillable in *. destruct on; cbn [negb around] in *; [|now apply written_plain].
    destruct (x_absolute c) eqn:XA.
    - apply written_one; [now apply proper_absolute|exact G].
    - apply written_one; [|exact G]. apply proper_included; [exact P|]. apply L. cbn. apply in_or_app. right. now left.
  Qed.

  Lemma mixed_written p us i on : proper ident_ok c (x_mixed_type c) -> good p i ->
    listed (path_data_mixed c on (PData p us [])) ->
    written (path_data_mixed c on (PData p us [])) (around c on (x_mixed_type c) (RType i [])).
  Proof.
    intros P G L. unfold path_data_mixed in *. destruct on; cbn [negb around] in *; [|now apply written_plain].
    destruct (x_absolute c) eqn:XA.
    - apply written_one; [now apply proper_absolute|exact G].
    - apply written_one; [|exact G]. apply proper_included; [exact P|]. apply L. cbn. apply in_or_app. right. now left.
  Qed.

  Lemma mixed_keeps d on : incl (pd_usings d) (pd_usings (path_data_mixed c on d)).
  Proof.
    unfold path_data_mixed. destruct on; [|apply incl_refl]. cbn. destruct (x_absolute c); cbn; [apply incl_refl|].
    apply incl_appl, incl_refl.
  Qed.
  Lemma nillable_keeps d on : incl (pd_usings d) (pd_usings (path_data_nillable c on d)).
  Proof.
    unfold path_data_nillable. destruct on; [|apply incl_refl]. cbn. destruct (x_absolute c); cbn; [apply incl_refl|].
    apply incl_appl, incl_refl.
  Qed.

  Lemma element_written p r d mixed nillable group e :
    proper ident_ok c (x_mixed_type c) -> proper ident_ok c (x_nillable_type c) ->
    ref_path ident_ok c r = Ok d -> proper_ref ident_ok c imports defs dst p r ->
    element_type c mixed nillable (EvType d group) = Some e -> listed e ->
    (mixed && negb group)%bool = false \/ (nillable && x_nillable c)%bool = false ->
    written e (around c (nillable && x_nillable c) (x_nillable_type c)
                 (around c (mixed && negb group) (x_mixed_type c) (RType (ref_item c p r) []))).
  Proof.
    intros PM PN E PR EE L W. cbn [element_type] in EE. injection EE as <-.
    assert (LD : listed d) by (intros u U; apply L, nillable_keeps, mixed_keeps, U).
    destruct (ref_good p r d E PR LD) as [G GN]. destruct d as [q us gs]. cbn in G, GN. subst gs.
    destruct W as [W | W]; rewrite W in *.
    - exact (nillable_written q us _ _ PN G L).
    - exact (mixed_written q us _ _ PM G L).
  Qed.

  Lemma reference_written p r d nillable :
    proper ident_ok c (x_nillable_type c) ->
    ref_path ident_ok c r = Ok d -> proper_ref ident_ok c imports defs dst p r -> listed (reference_type c nillable d) ->
    written (reference_type c nillable d) (around c (nillable && x_nillable c) (x_nillable_type c) (RType (ref_item c p r) [])).
  Proof.
    intros PN E PR L. unfold reference_type in *.
    assert (LD : listed d) by (intros u U; apply L, nillable_keeps, U).
    destruct (ref_good p r d E PR LD) as [G GN]. destruct d as [q us gs]. cbn in G, GN. subst gs. now apply nillable_written.
  Qed.

  Lemma text_written : proper ident_ok c (x_text_type c) -> listed (path_data_text c) ->
    written (path_data_text c) (RType (configured c (x_text_type c)) []).
  Proof.
    intros P L. unfold path_data_text in *. destruct (x_absolute c) eqn:XA.
    - apply written_plain. now apply proper_absolute.
    - apply written_plain, proper_included; [exact P|]. apply L. now left.
  Qed.

  Lemma any_written mixed nillable e : proper ident_ok c (x_any_type c) -> proper ident_ok c (x_mixed_type c) ->
    element_type c mixed nillable EvAny = Some e -> listed e ->
    written e (around c mixed (x_mixed_type c) (RType (configured c (x_any_type c)) [])).
  Proof.
    intros PA PM E L. cbn [element_type] in E. destruct (x_any c); [|discriminate]. injection E as <-.
    assert (GA : good (path_from_ident (ip_ident (x_any_type c))) (configured c (x_any_type c))).
    { apply proper_included; [exact PA|]. apply L. cbn. apply in_or_app. right. now left. }
    destruct PA as (a & l & EP & _). unfold pd_into_included in *. cbn [pd_path pd_from_path] in *. rewrite EP in *.
    cbn [pd_with_using pd_from_path pd_path pd_usings pd_generics app] in *.
    set (d := path_data_mixed c mixed (PData (path_from_ident (ip_ident (x_any_type c))) [path_display (x_any_type c)] [])) in *.
    assert (W : written d (around c mixed (x_mixed_type c) (RType (configured c (x_any_type c)) []))).
    { apply mixed_written; [exact PM|exact GA|]. intros u U. apply L. cbn. apply in_or_app. now left. }
    exact W.
  Qed.

  Lemma any_attributes_written e : proper ident_ok c (x_any_attributes_type c) -> any_attributes_type c = Some e -> listed e ->
    written e (RType (configured c (x_any_attributes_type c)) []).
  Proof.
    intros PA E L. unfold any_attributes_type in E. destruct (x_any c); [|discriminate]. injection E as <-.
    apply written_plain, proper_included; [exact PA|]. apply L. now left.
  Qed.

  (** * Types of the standard library *)

  Hypothesis SI : std_idents ident_ok.
  Hypothesis SV : x_build_in_absolute c = false -> std_visible imports defs dst.

  Lemma generic_means p i ts t : (exists abs segs, read_path (path_tokens p) = Some (abs, segs) /\ find_item imports defs dst abs segs = Some i) ->
    means ts t -> means (generic_of p ts) (RType i [t]).
  Proof.
    intros (abs & segs & R & F) (e & (fuel & C) & D). exists (TE abs segs [e]). split.
    - exists (S (S fuel)). intros r H. unfold generic_of. cbn [app]. rewrite <- app_assoc. cbn [app]. rewrite <- app_assoc. cbn [app].
      rewrite (read_path_type (S fuel) _ _ _ _ R) by discriminate. cbn [read_args]. rewrite (C (XGt :: r)) by exact Logic.I. reflexivity.
    - cbn [denote]. rewrite F, D. reflexivity.
  Qed.

  Lemma array_means ts t n : means ts t -> means ([XOpen] ++ ts ++ [XSemi; XNum n; XClose]) (RArray t n).
  Proof.
    intros (e & (fuel & C) & D). exists (TArray e n). split.
    - exists (S fuel). intros r H. cbn [app]. rewrite <- app_assoc. cbn [app read_type]. rewrite C by exact Logic.I. reflexivity.
    - cbn [denote]. rewrite D. reflexivity.
  Qed.

  Lemma std_means text a b n ts t : plain_text true [a; b] n text -> plain_ident a -> plain_ident b -> plain_ident n ->
    Forall (fun s => ident_ok s = true) [a; b; n] -> n <> kw_super -> In n [etxt "Box"; etxt "Option"; etxt "Vec"] -> means ts t ->
    exists p, resolve_build_in ident_ok c text = Ok p /\ means (generic_of p ts) (RType (std_item c [a; b; n]) [t]).
  Proof.
    intros T Pa Pb Pn O N V M. inversion O as [|? ? Oa O']; subst. inversion O' as [|? ? Ob O'']; subst. inversion O'' as [|? ? On _]; subst.
    destruct (ren_ok a Pa Oa) as [Pa' Oa'].
    pose proof (patch_text c true a [b] n text Pa T) as T'.
    unfold resolve_build_in. rewrite (parse_plain ident_ok true [ren c a; b] n _ T') by (split; repeat constructor; assumption || apply Pa' || apply Pb || apply Pn).
    eexists. split; [reflexivity|]. apply generic_means; [|exact M]. unfold std_item. destruct (x_build_in_absolute c) eqn:B.
    - exists true, [ren c a; b; n]. split; reflexivity.
    - exists false, [n]. split; [reflexivity|]. cbn [find_item last]. destruct (str_eq_dec n kw_super) as [|_]; [contradiction|].
      destruct (SV eq_refl n V) as [D Im]. destruct (prelude_good n N D Im) as (abs & segs & R & F).
      cbn in R. injection R as <- <-. cbn [find_item] in F. destruct (str_eq_dec n kw_super) as [|_]; [contradiction|]. exact F.
  Qed.

  Lemma plain_dec s : forallb (fun x => negb (unicode_ws x) && negb (N.eqb x 58))%bool s = true -> s <> [] -> plain_ident s.
  Proof.
    intros F N. split; [exact N|]. rewrite forallb_forall in F. apply Forall_forall. intros x X. apply F in X.
    apply andb_prop in X. destruct X as [X1 X2]. split; [now destruct (unicode_ws x)|]. intros ->. discriminate X2.
  Qed.

  Ltac plainly := apply plain_dec; [vm_compute; reflexivity|vm_compute; discriminate].

  Lemma box_means ts t : means ts t -> exists p, resolve_build_in ident_ok c path_box = Ok p /\ means (generic_of p ts) (RType (std_item c std_box) [t]).
  Proof.
    apply std_means; try plainly; try (vm_compute; reflexivity); try (vm_compute; discriminate); [|now left].
    unfold std_idents in SI. rewrite !Forall_app in SI. exact (proj1 SI).
  Qed.
  Lemma option_means ts t : means ts t -> exists p, resolve_build_in ident_ok c path_option = Ok p /\ means (generic_of p ts) (RType (std_item c std_option) [t]).
  Proof.
    apply std_means; try plainly; try (vm_compute; reflexivity); try (vm_compute; discriminate); [|right; now left].
    unfold std_idents in SI. rewrite !Forall_app in SI. exact (proj1 (proj2 SI)).
  Qed.
  Lemma vec_means ts t : means ts t -> exists p, resolve_build_in ident_ok c path_vec = Ok p /\ means (generic_of p ts) (RType (std_item c std_vec) [t]).
  Proof.
    apply std_means; try plainly; try (vm_compute; reflexivity); try (vm_compute; discriminate); [|right; right; now left].
    unfold std_idents in SI. rewrite !Forall_app in SI. exact (proj2 (proj2 SI)).
  Qed.

  Lemma occurs_means o indirect ts t : means ts t ->
    match make_type ident_ok c o ts indirect, occurring c o indirect t with
    | Ok (Some ts'), Some t' => means ts' t'
    | Ok None, None => True
    | _, _ => False
    end.
  Proof.
    intros M. destruct (box_means ts t M) as (pb & Eb & Mb). destruct (option_means ts t M) as (po & Eo & Mo).
    destruct (vec_means ts t M) as (pv & Ev & Mv). destruct (option_means _ _ Mb) as (pob & Eob & Mob).
    rewrite Eo in Eob. injection Eob as <-.
    destruct o; destruct indirect; cbn [make_type occurring boxed]; rewrite ?Eb, ?Eo, ?Ev; try exact Logic.I; try assumption; try (apply array_means; assumption).
  Qed.
End Names.

(** * Two wrappers *)

Lemma read_path_some fuel ts r e : read_type (S fuel) (map XP ts ++ XLt :: r) = Some e \/
  read_type (S fuel) (map XP ts ++ XComma :: r) = Some e \/ read_type (S fuel) (map XP ts ++ XGt :: r) = Some e ->
  exists abs segs, read_path ts = Some (abs, segs).
Proof.
  intros H. destruct ts as [|t ts].
  - destruct H as [H|[H|H]]; discriminate H.
  - cbn [map app read_type] in H.
    assert (T : forall x l, (forall t r', x :: l <> XP t :: r') -> take_path (XP t :: map XP ts ++ x :: l) = (t :: ts, x :: l)).
    { intros x l X. exact (take_map (t :: ts) (x :: l) X). }
    rewrite !T in H by discriminate. destruct (read_path (t :: ts)) as [[abs segs]|]; [eauto|].
    destruct H as [H|[H|H]]; discriminate H.
Qed.

Lemma two_arguments p us g h dst t : reads_type (pd_resolve (PData p us [g; h]) dst) t -> exists abs segs x y, t = TE abs segs [x; y].
Proof.
  intros (fuel & R). unfold pd_resolve in R. cbn [pd_path pd_generics pd_arguments app] in R.
  rewrite app_nil_r in R. rewrite <- app_assoc in R. cbn [app] in R.
  destruct fuel as [|fuel]; [discriminate|].
  destruct (read_path_some fuel _ (map XP (relative_to g dst) ++ XComma :: map XP (relative_to h dst) ++ [XGt]) (t, []) (or_introl R)) as (abs & segs & E).
  rewrite (read_path_type fuel _ _ _ _ E) in R by discriminate.
  destruct fuel as [|fuel]; [discriminate|]. cbn [read_args] in R.
  destruct fuel as [|fuel]; [discriminate|].
  destruct (read_type (S fuel) (map XP (relative_to g dst) ++ XComma :: map XP (relative_to h dst) ++ [XGt])) as [[x r]|] eqn:X; [|discriminate].
  destruct (read_path_some fuel _ _ _ (or_intror (or_introl X))) as (abs' & segs' & E').
  rewrite (read_path_type fuel _ _ _ _ E') in X by discriminate. injection X as <- <-.
  cbn [read_args] in R. destruct fuel as [|fuel]; [discriminate|].
  destruct (read_type (S fuel) (map XP (relative_to h dst) ++ [XGt])) as [[y r]|] eqn:Y; [|discriminate].
  destruct (read_path_some fuel _ [] _ (or_intror (or_intror Y))) as (abs'' & segs'' & E'').
  rewrite (read_path_type fuel _ _ _ _ E'') in Y by discriminate. injection Y as <- <-.
  injection R as <-. eauto 10.
Qed.

Lemma denote_arguments imports defs dst abs segs x y w a : denote imports defs dst (TE abs segs [x; y]) <> Some (RType w [a]).
Proof.
  cbn [denote]. destruct (find_item imports defs dst abs segs); [|discriminate].
  destruct (denote imports defs dst x); [|discriminate]. destruct (denote imports defs dst y); discriminate.
Qed.

Lemma both_wrong ident_ok c r d e dst t : ref_path ident_ok c r = Ok d -> x_nillable c = true ->
  element_type c true true (EvType d false) = Some e -> reads_type (snd (resolve_type c dst e)) t ->
  forall imports defs w a, denote imports defs dst t <> Some (RType w [a]).
Proof.
  intros E N EE R imports defs w a.
  assert (G : pd_generics d = []).
  { destruct r as [n m i|n [u|]|m i]; cbn [ref_path] in E; try (injection E as <-; reflexivity).
    destruct (x_absolute c); [|injection E as <-; reflexivity].
    destruct (path_parse ident_ok u); try discriminate. injection E as <-. reflexivity. }
  cbn [element_type] in EE. rewrite N in EE. injection EE as <-. cbn [snd resolve_type] in R. destruct d as [q us gs]. cbn in G. subst gs.
  assert (T : exists p us' g h, path_data_nillable c true (path_data_mixed c true (PData q us [])) = PData p us' [g; h]).
  { unfold path_data_nillable, path_data_mixed. cbn [negb]. destruct (x_absolute c); do 4 eexists; reflexivity. }
  cbn [andb negb] in R. destruct T as (p & us' & g & h & T). rewrite T in R. apply two_arguments in R.
  destruct R as (abs & segs & x & y & ->). apply denote_arguments.
Qed.

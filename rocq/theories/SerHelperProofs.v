From Coq Require Sorted.
From Verif Require Import SerHelperModel SerHelperSpec.
Local Open Scope string_scope.

(** ** Keys *)

Lemma append_inj_l (p a b : string) : p ++ a = p ++ b -> a = b.
Proof. induction p as [|c p IH]; cbn; intros H; [exact H|injection H; apply IH]. Qed.

Lemma xmlns_key_inj a b : xmlns_key a = xmlns_key b -> a = b.
Proof.
  destruct a as [a|], b as [b|]; cbn [xmlns_key]; intros H.
  - apply append_inj_l in H; congruence.
  - discriminate H.
  - discriminate H.
  - reflexivity.
Qed.

(** ** The correspondence between the helper and the document scope *)

Definition entry_attr (e : ns_entry) : attr := (xmlns_key (ne_prefix e), ne_ns e).

Fixpoint good (n : nat) (frames : list (list ns_entry)) {struct frames} : Prop :=
  match frames with
  | [] => False
  | f :: rest =>
      Forall (fun e => ne_level e = n) f /\
      match rest, n with
      | [], 0 => True
      | _ :: _, S n' => good n' rest
      | _, _ => False
      end
  end.

Definition Rel (hs : helper * scope) : Prop :=
  exists frames, good (h_level (fst hs)) frames /\
    h_ns (fst hs) = concat frames /\
    snd hs = map (map entry_attr) frames.

Lemma rel_init : Rel (helper_default, [[]]).
Proof. exists [[]]; cbn; auto. Qed.

Lemma good_le n frames : good n frames -> Forall (fun e => ne_level e <= n) (concat frames).
Proof.
  revert n; induction frames as [|f rest IH]; cbn; intros n H; [destruct H|].
  destruct H as [Hf Hr]. apply Forall_app; split.
  - eapply Forall_impl; [|exact Hf]; cbn; intros; lia.
  - destruct rest as [|g rest]; [constructor|].
    destruct n as [|n]; [destruct Hr|].
    eapply Forall_impl; [|apply (IH n Hr)]; cbn; intros; lia.
Qed.

Lemma drop_outdated_stop n l : Forall (fun e => ne_level e <= n) l -> drop_outdated n l = l.
Proof.
  intros H; destruct l as [|e l]; cbn; [reflexivity|].
  inversion H; subst. destruct (Nat.ltb_spec n (ne_level e)); [lia|reflexivity].
Qed.

Lemma drop_outdated_frame n f l :
  Forall (fun e => ne_level e = S n) f ->
  Forall (fun e => ne_level e <= n) l ->
  drop_outdated n (f ++ l) = l.
Proof.
  intros Hf Hl; induction f as [|e f IH]; cbn; [apply drop_outdated_stop, Hl|].
  inversion Hf; subst. destruct (Nat.ltb_spec n (ne_level e)); [apply IH; assumption|lia].
Qed.

Lemma rel_add h s p ns : Rel (h, s) ->
  Rel (fst (add_namespace_entry h p ns), add_attrs (snd (add_namespace_entry h p ns)) s).
Proof.
  intros (frames & Hg & Hn & Hs); cbn in *.
  destruct frames as [|f rest]; [destruct Hg|].
  exists ((NsEntry (h_level h) p ns :: f) :: rest); cbn; split; [|split].
  - destruct Hg as [Hf Hr]; split; [constructor; [reflexivity|exact Hf]|exact Hr].
  - rewrite Hn; reflexivity.
  - rewrite Hs; reflexivity.
Qed.

Lemma rel_noattr h s : Rel (h, s) -> Rel (h, add_attrs [] s).
Proof.
  intros (frames & Hg & Hn & Hs); cbn in *. exists frames.
  destruct frames as [|f rest]; [destruct Hg|]. subst s; cbn; auto.
Qed.

Lemma rel_write h s p ns : Rel (h, s) ->
  Rel (fst (write_xmlns h p ns), add_attrs (snd (write_xmlns h p ns)) s).
Proof.
  intros HR; unfold write_xmlns.
  destruct (find_ns ns (h_ns h)) as [e|]; [destruct (opt_eqb _ _)|].
  - apply rel_noattr, HR.
  - apply rel_add, HR.
  - apply rel_add, HR.
Qed.

Lemma rel_step hs o : Rel hs -> Rel (dstep hs o).
Proof.
  destruct hs as [h s]; intros HR; destruct o as [| |p ns|tag ns|q]; cbn.
  - destruct HR as (frames & Hg & Hn & Hs); cbn in *. exists ([] :: frames); cbn.
    split; [|split; [exact Hn|rewrite Hs; reflexivity]].
    split; [constructor|]. destruct frames; [destruct Hg|exact Hg].
  - destruct HR as (frames & Hg & Hn & Hs); cbn in *.
    destruct frames as [|f rest]; [destruct Hg|].
    destruct Hg as [Hf Hr]. destruct rest as [|g rest].
    + destruct (h_level h) eqn:El; [|destruct Hr]. exists [f]; cbn; rewrite El; cbn; split; [auto|].
      split; [|subst s; reflexivity].
      rewrite Hn; cbn. apply drop_outdated_stop. rewrite app_nil_r.
      eapply Forall_impl; [|exact Hf]; cbn; intros; lia.
    + destruct (h_level h) as [|n] eqn:El; [destruct Hr|]. exists (g :: rest); cbn; rewrite El; cbn.
      split; [exact Hr|]. split; [|subst s; reflexivity].
      rewrite Hn; cbn. apply drop_outdated_frame; [exact Hf|].
      apply (good_le n (g :: rest)), Hr.
  - pose proof (rel_write h s p ns HR) as H. destruct (write_xmlns h p ns); exact H.
  - unfold write_xmlns_for_tag. destruct (split_colon tag) as [[p l]|].
    + pose proof (rel_write h s (Some p) ns HR) as H. destruct (write_xmlns h (Some p) ns); exact H.
    + pose proof (rel_write h s None ns HR) as H. destruct (write_xmlns h None ns); exact H.
  - unfold add_qname_namespace. destruct (q_ns q) as [ns|]; [|apply rel_noattr, HR].
    destruct (find_ns ns (h_ns h)) as [e|]; [apply rel_noattr, HR|].
    pose proof (rel_add h s (q_prefix q) ns HR) as H.
    destruct (add_namespace_entry h (q_prefix q) ns); exact H.
Qed.

Lemma rel_run hs ops : Rel hs -> Rel (drun hs ops).
Proof.
  revert hs; induction ops as [|o ops IH]; cbn; intros hs H; [exact H|].
  apply IH, rel_step, H.
Qed.

Lemma rel_reach ops : Rel (reach ops).
Proof. apply rel_run, rel_init. Qed.

Lemma hrun_drun h s ops : fst (drun (h, s) ops) = hrun h ops.
Proof.
  unfold drun. revert h s; induction ops as [|o ops IH]; cbn; intros h s; [reflexivity|].
  destruct (hstep h o) as [h' a] eqn:E; cbn. apply IH.
Qed.

(** ** C01: scopes are balanced *)

Definition Lv (h : helper) : Prop := exists s, Rel (h, s).

(** [ext d h h']: [h'] is [h] plus entries deeper than the level of [h], and
    [d] scopes deeper. *)
Definition ext (base : helper) (d : nat) (h : helper) : Prop :=
  h_level h = S (h_level base) + d /\
  exists news, h_ns h = (news ++ h_ns base)%list /\
    Forall (fun e => S (h_level base) <= ne_level e <= h_level h) news /\
    Sorted.Sorted (fun a b => ne_level b <= ne_level a) news.

Lemma ext_add base d h p ns : ext base d h -> ext base d (fst (add_namespace_entry h p ns)).
Proof.
  intros (Hl & news & Hn & Hf & Hs). split; [exact Hl|]. cbn.
  exists (NsEntry (h_level h) p ns :: news). split; [rewrite Hn; reflexivity|]. split.
  - constructor; [cbn; lia|]. exact Hf.
  - constructor; [exact Hs|]. destruct news as [|e news]; constructor. cbn.
    inversion Hf; subst; lia.
Qed.

Lemma drop_outdated_sorted n news base :
  Sorted.Sorted (fun a b => ne_level b <= ne_level a) news ->
  (match base with [] => True | e :: _ => ne_level e <= n end) ->
  exists news', drop_outdated n (news ++ base) = (news' ++ base)%list /\
     Forall (fun e => ne_level e <= n) news' /\ incl news' news /\
     Sorted.Sorted (fun a b => ne_level b <= ne_level a) news'.
Proof.
  intros HS Hb; induction news as [|e news IH]; cbn.
  - exists []; repeat split; auto; [|apply incl_refl].
    destruct base as [|e base]; cbn; [reflexivity|].
    destruct (Nat.ltb_spec n (ne_level e)); [lia|reflexivity].
  - destruct (Nat.ltb_spec n (ne_level e)) as [Hlt|Hge].
    + inversion HS; subst. destruct (IH H1) as (n' & E & F & I & S'). exists n'; repeat split; auto.
      intros x Hx; right; apply I, Hx.
    + exists (e :: news); repeat split; auto; [|apply incl_refl].
      apply Sorted.Sorted_StronglySorted in HS; [|intros a b c; lia].
      inversion HS; subst. constructor; [exact Hge|].
      eapply Forall_impl; [|exact H2]; cbn; intros; lia.
Qed.

Lemma base_head base : Lv base -> Forall (fun e => ne_level e <= h_level base) (h_ns base).
Proof. intros (s & frames & Hg & Hn & _); cbn in *. rewrite Hn. apply good_le, Hg. Qed.

Lemma ext_close_inner base d h : Lv base -> ext base (S d) h -> ext base d (end_ns_scope h).
Proof.
  intros HL (Hl & news & Hn & Hf & Hs). unfold end_ns_scope; split; cbn [h_level h_ns].
  - lia.
  - rewrite Hn. destruct (drop_outdated_sorted (pred (h_level h)) news (h_ns base) Hs) as (n' & E & F & I & S').
    + pose proof (base_head base HL) as HB. destruct (h_ns base); [exact Logic.I|].
      inversion HB; subst; lia.
    + exists n'. split; [exact E|]. split; [|exact S'].
      apply Forall_forall. intros x Hx.
      rewrite Forall_forall in F, Hf. specialize (F x Hx). specialize (Hf x (I x Hx)). lia.
Qed.

Lemma ext_close_outer base h : Lv base -> ext base 0 h -> end_ns_scope h = base.
Proof.
  intros HL (Hl & news & Hn & Hf & Hs). unfold end_ns_scope.
  replace (pred (h_level h)) with (h_level base) by lia. rewrite Hn.
  assert (drop_outdated (h_level base) (news ++ h_ns base) = h_ns base) as ->.
  { clear Hs Hn. induction news as [|e news IH]; cbn.
    - apply drop_outdated_stop, base_head, HL.
    - inversion Hf; subst. destruct (Nat.ltb_spec (h_level base) (ne_level e)); [apply IH; assumption|lia]. }
  destruct base; reflexivity.
Qed.

Lemma ext_write base d h p ns : ext base d h -> ext base d (fst (write_xmlns h p ns)).
Proof.
  intros H; unfold write_xmlns. destruct (find_ns _ _); [destruct (opt_eqb _ _)|];
    [exact H|apply ext_add, H|apply ext_add, H].
Qed.

Lemma ext_run base : Lv base -> forall ops d h d',
  ext base d h -> depth d ops = Some d' -> ext base d' (hrun h ops).
Proof.
  intros HL ops; induction ops as [|o ops IH]; cbn; intros d h d' HE HD.
  - injection HD as <-; exact HE.
  - destruct o as [| |p ns|tag ns|q]; cbn.
    + apply (IH (S d)); [|exact HD]. destruct HE as (Hl & news & Hn & Hf & Hs).
      split; [cbn; lia|]. exists news; cbn; repeat split; auto.
      eapply Forall_impl; [|exact Hf]; cbn; intros; lia.
    + destruct d as [|d]; [discriminate|]. apply (IH d); [|exact HD].
      apply ext_close_inner; assumption.
    + apply (IH d); [|exact HD]. apply ext_write, HE.
    + apply (IH d); [|exact HD]. unfold write_xmlns_for_tag.
      destruct (split_colon tag) as [[? ?]|]; apply ext_write, HE.
    + apply (IH d); [|exact HD]. unfold add_qname_namespace.
      destruct (q_ns q); [destruct (find_ns _ _)|]; try exact HE. apply ext_add, HE.
Qed.

Lemma hrun_app h a b : hrun h (a ++ b) = hrun (hrun h a) b.
Proof. revert h; induction a as [|o a IH]; cbn; intros h; [reflexivity|apply IH]. Qed.

Lemma lv_run h ops : Lv h -> Lv (hrun h ops).
Proof.
  intros (s & HR). exists (snd (drun (h, s) ops)).
  rewrite <- (hrun_drun h s ops). rewrite <- surjective_pairing. apply rel_run, HR.
Qed.

Lemma lv_default : Lv helper_default.
Proof. exists [[]]; apply rel_init. Qed.

Lemma scope_restores base ops : Lv base -> balanced ops ->
  hrun base (HBegin :: ops ++ [HEnd]) = base.
Proof.
  intros HL HB. cbn. rewrite hrun_app. cbn. apply ext_close_outer; [exact HL|].
  eapply ext_run; [exact HL| |exact HB].
  split; [cbn; lia|]. exists []; cbn; repeat split; constructor.
Qed.

Lemma scope_restores_reach hist ops : balanced ops ->
  hrun helper_default (hist ++ HBegin :: ops ++ [HEnd]) = hrun helper_default hist.
Proof.
  intros HB. rewrite hrun_app. apply scope_restores; [|exact HB].
  apply lv_run, lv_default.
Qed.

(** ** C02/C03/C04 *)

Lemma find_ns_in ns l e : find_ns ns l = Some e -> In e l /\ ne_ns e = ns.
Proof.
  induction l as [|x l IH]; cbn; [discriminate|].
  destruct (String.eqb_spec (ne_ns x) ns) as [E|E]; intros H.
  - injection H as <-; auto.
  - destruct (IH H); auto.
Qed.

Lemma concat_rel frames :
  concat (map (map entry_attr) frames) = map entry_attr (concat frames).
Proof. induction frames as [|f r IH]; cbn; [reflexivity|]. rewrite IH, map_app; reflexivity. Qed.

Lemma rel_concat h s : Rel (h, s) -> concat s = map entry_attr (h_ns h).
Proof. intros (frames & _ & Hn & Hs); cbn in *. rewrite Hn, Hs. apply concat_rel. Qed.

Lemma assoc_functional k v (l : list (bytes * bytes)) :
  In (k, v) l -> (forall v', In (k, v') l -> v' = v) -> assoc k l = Some v.
Proof.
  intros HI HF. destruct (assoc k l) as [v'|] eqn:E.
  - apply assoc_in in E. rewrite (HF v' E); reflexivity.
  - apply assoc_none in E. exfalso; apply E. apply in_map_iff. exists (k, v); auto.
Qed.

Lemma concat_add a s : concat (add_attrs a s) = (rev a ++ concat s)%list.
Proof.
  destruct s; cbn; [rewrite app_nil_r; reflexivity|]. rewrite app_assoc. reflexivity.
Qed.

Lemma write_in_scope hist p ns :
  let '(h, s) := reach hist in
  (forall ns', In (xmlns_key (filter_prefix p), ns') (concat s) -> ns' = ns) ->
  scope_lookup (filter_prefix p) (snd (reach (hist ++ [HWrite p ns]))) = Some ns.
Proof.
  pose proof (rel_reach hist) as HR.
  unfold reach, drun. rewrite fold_left_app.
  change (fold_left dstep hist (helper_default, [[]])) with (reach hist).
  destruct (reach hist) as [h s]. intros HF. cbn [fold_left dstep].
  pose proof (rel_concat h s HR) as HC.
  cbn [hstep]. unfold write_xmlns, scope_lookup.
  destruct (find_ns ns (h_ns h)) as [e|] eqn:EF; [destruct (opt_eqb _ _) eqn:EO|].
  - cbn [snd]. rewrite concat_add; cbn [rev app].
    apply opt_eqb_eq in EO. apply find_ns_in in EF. destruct EF as [HI HE].
    apply assoc_functional; [|exact HF]. rewrite HC. apply in_map_iff. exists e.
    split; [|exact HI]. unfold entry_attr. rewrite EO, HE; reflexivity.
  - unfold add_namespace_entry; cbn [snd]. rewrite concat_add. cbn. rewrite String.eqb_refl; reflexivity.
  - unfold add_namespace_entry; cbn [snd]. rewrite concat_add. cbn. rewrite String.eqb_refl; reflexivity.
Qed.

Lemma write_other_key h p ns k v :
  In (k, v) (snd (write_xmlns h p ns)) -> k = xmlns_key (filter_prefix p).
Proof.
  unfold write_xmlns. destruct (find_ns _ _); [destruct (opt_eqb _ _)|]; cbn;
    intros [H|[]] || intros []; congruence.
Qed.

Lemma write_all_keys h reqs k v : In (k, v) (snd (write_all h reqs)) ->
  In k (map (fun r => xmlns_key (filter_prefix (fst r))) reqs).
Proof.
  revert h; induction reqs as [|[p ns] reqs IH]; cbn; intros h; [intros []|].
  destruct (write_xmlns h p ns) as [h1 a1] eqn:E1.
  destruct (write_all h1 reqs) as [h2 a2] eqn:E2; cbn. intros HI. apply in_app_or in HI.
  destruct HI as [HI|HI].
  - left. symmetry. eapply write_other_key with (h := h) (ns := ns). rewrite E1; exact HI.
  - right. apply (IH h1). rewrite E2; exact HI.
Qed.

Lemma write_xmlns_short h p ns : length (snd (write_xmlns h p ns)) <= 1.
Proof. unfold write_xmlns; destruct (find_ns _ _); [destruct (opt_eqb _ _)|]; cbn; lia. Qed.

Lemma write_all_nodup h reqs :
  NoDup (map (fun r => filter_prefix (fst r)) reqs) ->
  NoDup (map fst (snd (write_all h reqs))).
Proof.
  revert h; induction reqs as [|[p ns] reqs IH]; cbn; intros h HN; [constructor|].
  inversion HN as [|x l Hnot Hnd]; subst.
  destruct (write_xmlns h p ns) as [h1 a1] eqn:E1.
  destruct (write_all h1 reqs) as [h2 a2] eqn:E2; cbn.
  pose proof (write_xmlns_short h p ns) as HL. rewrite E1 in HL; cbn in HL.
  specialize (IH h1 Hnd). rewrite E2 in IH; cbn in IH.
  destruct a1 as [|[k v] [|]]; cbn in *; [exact IH| |lia].
  constructor; [|exact IH]. intros HI. apply Hnot.
  apply in_map_iff in HI. destruct HI as ([k' v'] & Hk & HI); cbn in Hk; subst k'.
  assert (k = xmlns_key (filter_prefix p)) as ->.
  { eapply write_other_key with (h := h) (ns := ns) (v := v). rewrite E1; left; reflexivity. }
  pose proof (write_all_keys h1 reqs (xmlns_key (filter_prefix p)) v') as HK. rewrite E2 in HK. specialize (HK HI).
  apply in_map_iff in HK. destruct HK as ([p' ns'] & Hk & HI'); cbn in Hk.
  apply xmlns_key_inj in Hk. apply in_map_iff. exists (p', ns'); cbn; auto.
Qed.

(** QName serialisation *)

Lemma format_printable s : printable_ascii s -> format_utf8_slice s = s.
Proof.
  unfold printable_ascii; induction s as [|c s IH]; cbn [format_utf8_slice]; intros H; [reflexivity|].
  rewrite IH; [|intros d Hd; apply H; right; exact Hd].
  destruct (H c (or_introl eq_refl)) as (H1 & H2 & H3).
  unfold format_byte, is_ascii_control.
  destruct (Nat.ltb_spec (nat_of_ascii c) 32); [lia|].
  destruct (Nat.eqb_spec (nat_of_ascii c) 127); [lia|].
  destruct (Nat.ltb_spec (nat_of_ascii c) 128); [reflexivity|lia].
Qed.

Lemma split_colon_app p l : no_colon p -> split_colon (p ++ ":" ++ l) = Some (p, l).
Proof.
  unfold no_colon; induction p as [|c p IH]; cbn; intros H; [reflexivity|].
  destruct (Ascii.eqb_spec c ":") as [E|E]; [exfalso; apply H; left; congruence|].
  cbn in IH. rewrite IH; [reflexivity|tauto].
Qed.

Lemma split_colon_none l : no_colon l -> split_colon l = None.
Proof.
  unfold no_colon; induction l as [|c p IH]; cbn; intros H; [reflexivity|].
  destruct (Ascii.eqb_spec c ":") as [E|E]; [exfalso; apply H; left; congruence|].
  rewrite IH; [reflexivity|tauto].
Qed.

Lemma qname_roundtrip utf8_ok hist q ns text :
  let '(h, s) := reach hist in
  functional_scope s ->
  (forall p v, In (xmlns_key (Some p), v) (concat s) -> printable_ascii p /\ no_colon p) ->
  no_colon (q_local q) ->
  q_ns q = Some ns ->
  qname_serialize utf8_ok h q = Ok text ->
  read_qname s text = (Some ns, q_local q).
Proof.
  pose proof (rel_reach hist) as HR. destruct (reach hist) as [h s].
  intros HF HP HL HN HS. pose proof (rel_concat h s HR) as HC.
  unfold qname_serialize in HS. rewrite HN in HS. unfold get_namespace_prefix in HS.
  destruct (find_ns ns (h_ns h)) as [e|] eqn:EF; [|discriminate].
  destruct (utf8_ok (q_local q)); [|discriminate]. injection HS as <-.
  apply find_ns_in in EF. destruct EF as [HI HE].
  assert (HIn : In (xmlns_key (ne_prefix e), ns) (concat s)).
  { rewrite HC. apply in_map_iff. exists e; split; [unfold entry_attr; rewrite HE; reflexivity|exact HI]. }
  assert (HLk : scope_lookup (ne_prefix e) s = Some ns).
  { unfold scope_lookup. apply assoc_functional; [exact HIn|]. intros v' Hv'. exact (HF _ _ _ Hv' HIn). }
  unfold read_qname. destruct (ne_prefix e) as [p|] eqn:EP.
  - destruct (HP p ns HIn) as [HPa HPc]. rewrite (format_printable p HPa).
    pose proof (split_colon_app p (q_local q) HPc) as E; cbn in E |- *; rewrite E. unfold scope_lookup in *; cbn in HLk |- *; rewrite HLk; reflexivity.
  - rewrite (split_colon_none (q_local q) HL). rewrite HLk; reflexivity.
Qed.

(** add_qname_namespace: the returned name resolves to the namespace *)
Lemma colon_pos_take s i : colon_pos s = Some i ->
  s = str_take i s ++ ":" ++ str_drop (S i) s /\ no_colon (str_take i s).
Proof.
  revert i; induction s as [|c s IH]; intros i; [discriminate|]. cbn [colon_pos].
  destruct (Ascii.eqb_spec c ":") as [E|E].
  - intros H; injection H as <-. subst c; split; [reflexivity|]. intros [].
  - destruct (colon_pos s) as [n|]; [|discriminate]. intros H; injection H as <-.
    destruct (IH n eq_refl) as [H1 H2]. split.
    + cbn. f_equal. exact H1.
    + unfold no_colon in *; cbn. intros [|]; [congruence|tauto].
Qed.

Lemma colon_pos_none s : colon_pos s = None -> no_colon s.
Proof.
  unfold no_colon; induction s as [|c s IH]; cbn; [tauto|].
  destruct (Ascii.eqb_spec c ":") as [E|E]; [discriminate|].
  destruct (colon_pos s); [discriminate|]. intros _ [|]; [congruence|apply IH; auto].
Qed.

Lemma add_qname_resolves hist q ns :
  let '(h, s) := reach hist in
  let '(h', a, q') := add_qname_namespace h q in
  functional_scope (add_attrs a s) ->
  (forall p v, In (xmlns_key (Some p), v) (concat s) -> no_colon p) ->
  no_colon (q_local q) ->
  q_index q = colon_pos (q_raw q) ->
  q_ns q = Some ns ->
  read_qname (add_attrs a s) (q_raw q') = (Some ns, q_local q).
Proof.
  pose proof (rel_reach hist) as HR. destruct (reach hist) as [h s].
  pose proof (rel_concat h s HR) as HC.
  destruct (add_qname_namespace h q) as [[h' a] q'] eqn:EQ.
  intros HF HP HL HI HN. unfold add_qname_namespace in EQ. rewrite HN in EQ.
  destruct (find_ns ns (h_ns h)) as [e|] eqn:EF.
  - injection EQ as <- <- <-. cbn [q_raw with_namespace qname_from_bytes].
    apply find_ns_in in EF. destruct EF as [HIn HE].
    assert (HIn' : In (xmlns_key (ne_prefix e), ns) (concat (add_attrs [] s))).
    { rewrite concat_add; cbn [rev app]. rewrite HC. apply in_map_iff. exists e; split; [unfold entry_attr; rewrite HE; reflexivity|exact HIn]. }
    assert (HLk : scope_lookup (ne_prefix e) (add_attrs [] s) = Some ns).
    { unfold scope_lookup. apply assoc_functional; [exact HIn'|]. intros v' Hv'. exact (HF _ _ _ Hv' HIn'). }
    unfold read_qname. destruct (ne_prefix e) as [p|] eqn:EP.
    + rewrite concat_add in HIn'; cbn [rev app] in HIn'.
      pose proof (split_colon_app p (q_local q) (HP p ns HIn')) as E. unfold scope_lookup in *. cbn in E, HLk |- *. rewrite E. cbn. rewrite HLk; reflexivity.
    + rewrite (split_colon_none (q_local q) HL). rewrite HLk; reflexivity.
  - unfold add_namespace_entry in EQ. injection EQ as <- <- <-. cbn [q_raw without_namespace].
    assert (HLk : scope_lookup (q_prefix q) (add_attrs [(xmlns_key (q_prefix q), ns)] s) = Some ns).
    { unfold scope_lookup. rewrite concat_add. cbn [rev app assoc]. rewrite String.eqb_refl. reflexivity. }
    unfold q_prefix, q_local in *. rewrite HI in *.
    destruct (colon_pos (q_raw q)) as [i|] eqn:EC.
    + destruct (colon_pos_take _ _ EC) as [E1 E2]. unfold read_qname. rewrite E1 at 1.
      rewrite (split_colon_app _ _ E2). rewrite HLk; reflexivity.
    + unfold read_qname. rewrite (split_colon_none _ (colon_pos_none _ EC)). rewrite HLk; reflexivity.
Qed.

(** Proofs for C77: what was written is read back. *)
From Coq Require Import Lia.
From Verif Require Import Utf8 WriteModel DocSpec GenSpec TextSpec WriteSpec.
From Verif Require Import DeProofs TextProofs GenProofs DocProofs DocTypeProofs.
Local Open Scope string_scope.
Local Open Scope list_scope.

Definition scope (h : dhelper) : resolver := d_res (dh_pop h).

(** The first event is a tag of the element [l]. *)
Definition starts (h : dhelper) (evs : list event) (l : label) : Prop :=
  exists e rest h1, evs = e :: rest /\ is_tag e = true /\ dh_event h e = Some h1 /\
    check_tag h1 e (fst l) (snd l) = true.

Lemma split_local n p l : split_colon n = Some (p, l) -> local_name n = l.
Proof. intros E. unfold local_name. rewrite E. reflexivity. Qed.

Lemma tag_local h e l : check_tag h e (fst l) (snd l) = true ->
  exists n, (exists a, e = EStart n a \/ e = EEmpty n a) /\ local_name n = snd l.
Proof.
  destruct l as [ns name]. cbn [fst snd]. intros C.
  assert (K : forall n, (match ns with
      | Some ns => match resolve_local_name (d_res h) n ns with Some l => String.eqb l name | None => false end
      | None => String.eqb (local_name n) name end) = true -> local_name n = name).
  { intros n K. destruct ns as [ns|]; [|apply String.eqb_eq, K].
    unfold resolve_local_name, dh_resolve, resolve in K. cbn [negb] in K. unfold local_name.
    destruct (split_colon n) as [[p q]|].
    - repeat match type of K with context [if ?b then _ else _] => destruct b; try discriminate K; try (apply String.eqb_eq in K; exact K) end.
      destruct (find_prefix (Some p) (r_bindings (d_res h))) as [[|? ?]|]; try discriminate K.
      destruct (String.eqb _ ns) in K; [apply String.eqb_eq in K; exact K|discriminate K].
    - apply String.eqb_eq in K; exact K. }
  destruct e; try discriminate C; cbn [check_tag] in C; eexists; (split; [eauto|apply K, C]).
Qed.

Section Models.
  Context {V : Type}.
  Variable blank : bytes -> option bool.
  Variable N : labels.
  Hypothesis clear : forall l l', N l -> N l' -> snd l = snd l' -> l = l'.
  Variable sync : helper -> resolver -> Prop.
  Implicit Types s : slot V.
  Notation writes := (WriteSpec.writes).

  (** [w] writes the occurrences of the particle so that they are read back. *)
  Definition occ_mirrors (la : lang V) (w : writes V) : Prop :=
    (forall l, l_first la l -> N l) /\
    (forall h0 evs0 v more h0', l_occ la h0 evs0 v more h0' ->
      (forall l, more l -> N l) /\ (exists l, starts h0 evs0 l) /\
      forall sh evs sh' h, w v sh evs sh' -> sync sh (scope h) ->
        sh' = sh /\ exists h', l_occ la h evs v more h' /\ scope h' = scope h /\
          ends_with_tag evs /\ exists l, N l /\ starts h0 evs0 l /\ starts h evs l).
  Definition mirrors (s : slot V) (w : writes V) : Prop :=
    occ_mirrors (s_lang s) w /\
    (forall v, s_default s = Some v -> forall sh evs sh', w v sh evs sh' -> evs = [] /\ sh' = sh).

  Lemma fits_back h e h0 e0 l (L : labels) : N l -> (forall x, L x -> N x) ->
    check_tag h e (fst l) (snd l) = true -> check_tag h0 e0 (fst l) (snd l) = true ->
    fits h e L -> fits h0 e0 L.
  Proof.
    intros Nl NL C C0 [l' [Ll' C']]. destruct (tag_local _ _ _ C) as [n [[a E] ln]].
    destruct (tag_local _ _ _ C') as [n' [[a' E'] ln']].
    assert (n = n') by (destruct E as [-> | ->]; destruct E' as [E' | E']; congruence). subst n'.
    assert (l = l') by (apply clear; [exact Nl|apply NL, Ll'|congruence]). subst l'. exists l; auto.
  Qed.

  (** ** Sequences *)

  Fixpoint cons_at (j : nat) (v : V) (news : list (list V)) : list (list V) :=
    match j, news with
    | 0, g :: news' => (v :: g) :: news'
    | S j', g :: news' => g :: cons_at j' v news'
    | _, [] => []
    end.
  Fixpoint join (got news : list (list V)) : list (list V) :=
    match got, news with
    | g :: got', n :: news' => (g ++ n) :: join got' news'
    | _, _ => []
    end.

  Lemma join_cons j v got news : length news = length got ->
    join (add_value j v got) news = join got (cons_at j v news).
  Proof.
    revert j news. induction got as [|g got IH]; intros j [|n news] L; destruct j; try discriminate L; try reflexivity; cbn [add_value join cons_at].
    - rewrite <- app_assoc. reflexivity.
    - f_equal. apply IH. injection L as L; exact L.
  Qed.
  Lemma cons_at_length j v news : length (cons_at j v news) = length news.
  Proof. revert j; induction news as [|g news IH]; intros [|j]; cbn; try reflexivity. f_equal; apply IH. Qed.

  Lemma cons_at_other j k v news : j <> k -> nth k (cons_at j v news) [] = nth k news [].
  Proof.
    revert j k; induction news as [|g news IH]; intros [|j] [|k] D; cbn; try reflexivity; try lia. apply IH. lia.
  Qed.

  Lemma turn_cons (ws : list (writes V)) j w v news sh evs sh' : nth_error ws j = Some w -> length news = length ws ->
    (forall k, k < j -> nth k news [] = []) ->
    in_turn (map each ws) (cons_at j v news) sh evs sh' ->
    exists evs1 sh1 evs2, evs = evs1 ++ evs2 /\ w v sh evs1 sh1 /\ in_turn (map each ws) news sh1 evs2 sh'.
  Proof.
    revert j news sh evs. induction ws as [|x ws IH]; intros j news sh evs Nw L Z I; [destruct j; discriminate Nw|].
    destruct news as [|g news]; [discriminate L|]. injection L as L. destruct j as [|j]; cbn [nth_error cons_at map in_turn each] in *.
    - injection Nw as <-. destruct I as [e1 [s1 [e2 [-> [[e11 [s11 [e12 [-> [W E]]]]] I]]]]].
      exists e11, s11, (e12 ++ e2). split; [rewrite app_assoc; reflexivity|]. split; [exact W|]. eauto 8.
    - assert (g = []) as -> by (apply (Z 0); lia). destruct I as [e1 [s1 [e2 [-> [[-> ->] I]]]]].
      destruct (IH j news sh e2 Nw L) as [e3 [s3 [e4 [-> [W I']]]]]; [intros k K; apply (Z (S k)); lia|exact I|].
      exists e3, s3, e4. split; [reflexivity|]. split; [exact W|]. exists [], s3, e4. cbn [each]. auto.
  Qed.

  Lemma turn_nil (ws : list (writes V)) news sh evs sh' : (forall k, nth k news [] = []) ->
    in_turn (map each ws) news sh evs sh' -> evs = [] /\ sh' = sh.
  Proof.
    revert news sh evs. induction ws as [|x ws IH]; intros [|g news] sh evs Z I; cbn [map in_turn] in I; try contradiction; [exact I|].
    destruct I as [e1 [s1 [e2 [-> [E I]]]]]. assert (g = []) as -> by exact (Z 0). destruct E as [-> ->].
    apply (IH news); [intros k; exact (Z (S k))|exact I].
  Qed.

  Variable ss : list (slot V).
  Variable ws : list (writes V).
  Hypothesis mirror : Forall2 mirrors ss ws.

  Lemma dh_scope h e h1 : is_tag e = false -> is_end e = false -> dh_event h e = Some h1 -> scope h1 = scope h.
  Proof.
    intros T E D. destruct e; try discriminate T; try discriminate E; cbn in D; injection D as <-; unfold scope; rewrite pop_idem; reflexivity.
  Qed.

  Lemma follows_again p h0 evs0 p' h0' : follows blank ss p h0 evs0 p' h0' ->
    (forall l, snd p l -> N l) -> length (snd (fst p)) = length ss ->
    exists news, length news = length ss /\ snd (fst p') = join (snd (fst p)) news /\
      (forall k, k < fst (fst p) -> nth k news [] = []) /\
      (forall l, snd p' l -> N l) /\
      (forall sh evs sh' h, in_turn (map each ws) news sh evs sh' -> sync sh (scope h) ->
        sh' = sh /\ exists h', follows blank ss p h evs p' h' /\ scope h' = scope h /\
          (evs = [] \/ ends_with_tag evs) /\
          (begins_with_tag evs0 -> exists l, N l /\ starts h0 evs0 l /\ starts h evs l)).
  Proof.
    induction 1 as [p h0|p h0 e h1 evs0 p' h2 Ig D F IH|i got more h0 evs1 j s v more' h1 rest p' h2 Ns O On F IH];
      intros Nm Lg.
    - exists (map (fun _ => []) ss). split; [apply map_length|]. split; [|split; [intros; apply nth_empty|split; [exact Nm|]]].
      { destruct p as [[i got] more]. cbn [fst snd] in *. revert Lg. clear. revert ss.
        induction got as [|g got IH]; intros [|x xs] L; try discriminate L; cbn; [reflexivity|].
        rewrite app_nil_r. f_equal. apply IH. injection L as L; exact L. }
      intros sh evs sh' h I Sy. apply turn_nil in I; [|intros; apply nth_empty]. destruct I as [-> ->].
      split; [reflexivity|]. exists h. split; [constructor|]. split; [reflexivity|]. split; [left; reflexivity|].
      intros [e [r [E _]]]. discriminate E.
    - destruct (IH Nm Lg) as [news [Ln [Ej [Z [Nm' R]]]]]. exists news. do 4 (split; [assumption|]).
      intros sh evs sh' h I Sy. destruct (R sh evs sh' h I Sy) as [-> [h' [F' [Sc [En _]]]]].
      split; [reflexivity|]. exists h'. do 3 (split; [assumption|]).
      intros [e' [r [E T]]]. injection E as <- <-. apply ignorable_kind in Ig. destruct Ig; congruence.
    - cbn [fst snd] in *. destruct (Forall2_nth _ _ _ _ _ mirror Ns) as [w [Nw [[M1 M2] M3]]].
      destruct (M2 _ _ _ _ _ O) as [Nm1 [[l0 [e0' [r0' [h00' [E0' [_ [D0' _]]]]]]] Back]].
      destruct (IH Nm1) as [news [Ln [Ej [Z [Nm' R]]]]]; [cbn [fst snd]; rewrite add_length; exact Lg|]. cbn [fst snd] in *.
      exists (cons_at j v news). rewrite cons_at_length. split; [exact Ln|].
      split; [rewrite Ej; apply join_cons; congruence|].
      assert (Ge : i <= j).
      { destruct (On _ _ _ E0' D0') as [_ [s' [_ [[-> _]|[? _]]]]]; lia. }
      split.
      { intros k K. rewrite cons_at_other by lia. apply Z. lia. }
      split; [exact Nm'|]. intros sh evs sh' h I Sy.
      destruct (turn_cons ws j w v news sh evs sh' Nw) as [e1 [sh1 [e2 [-> [W I']]]]].
      { rewrite Ln. eapply Forall2_len, mirror. } { exact Z. } { exact I. }
      destruct (Back _ _ _ _ W Sy) as [-> [h' [O' [Sc [En [l [Nl [St0 St]]]]]]]].
      rewrite <- Sc in Sy. destruct (R _ _ _ _ I' Sy) as [-> [h'' [F' [Sc' [En' _]]]]].
      split; [reflexivity|]. exists h''. destruct St0 as [e0 [r0 [h00 [E0 [T0 [D0 C0]]]]]].
      destruct St as [en [rn [hn [En1 [Tn [Dn Cn]]]]]].
      split; [|split; [congruence|split]].
      + eapply follows_item; [exact Ns|exact O'| |exact F'].
        intros e evs' h3 E D. rewrite E in En1. injection En1 as <- <-. rewrite D in Dn. injection Dn as <-.
        specialize (On _ _ _ E0 D0). destruct On as [Nf [s' [Ns' Cs]]].
        split; [intros Ft; apply Nf; eapply fits_back; [exact Nl|exact Nm|exact Cn|exact C0|exact Ft]|].
        assert (Fb : forall k t, nth_error ss k = Some t -> ~ fits h00 e0 (l_first (s_lang t)) -> ~ fits h3 e (l_first (s_lang t))).
        { intros k t Nk Q Ft. apply Q. eapply fits_back; [exact Nl| |exact Cn|exact C0|exact Ft].
          destruct (Forall2_nth _ _ _ _ _ mirror Nk) as [wk [_ [[Mk _] _]]]. exact Mk. }
        exists s'. split; [exact Ns'|]. destruct Cs as [Cs|[Lt [En2 [Ro Ot]]]]; [left; exact Cs|right].
        split; [exact Lt|]. split; [exact En2|]. split; [intros Q; eapply Fb; [exact Ns'|apply Ro, Q]|].
        intros k t K Nk. destruct (Ot k t K Nk) as [Et Q]. split; [exact Et|eapply Fb; eassumption].
      + right. destruct En' as [-> |En']; [rewrite app_nil_r; exact En|].
        destruct En' as [a [e [-> T]]]. exists (e1 ++ a), e. split; [apply app_assoc|exact T].
      + intros _. exists l. split; [exact Nl|]. split.
        * exists e0, (r0 ++ rest), h00. rewrite E0. repeat split; auto.
        * exists en, (rn ++ e2), hn. rewrite En1. repeat split; auto.
  Qed.

  Lemma each_app {X} (w : writes X) xs ys sh evs sh' : each w (xs ++ ys) sh evs sh' ->
    exists e1 (s1 : helper) e2, evs = e1 ++ e2 /\ each w xs sh e1 s1 /\ each w ys s1 e2 sh'.
  Proof.
    revert sh evs; induction xs as [|x xs IH]; cbn [each app]; intros sh evs E; [exists [], sh, evs; auto|].
    destruct E as [e1 [s1 [e2 [-> [W E]]]]]. destruct (IH _ _ E) as [e3 [s3 [e4 [-> [W' E']]]]].
    exists (e1 ++ e3), s3, e4. split; [apply app_assoc|]. split; [|exact E']. eauto 8.
  Qed.
  Lemma each_nothing {X} (w : writes X) x n sh evs sh' :
    (forall sh evs sh', w x sh evs sh' -> evs = [] /\ sh' = sh) -> each w (repeat x n) sh evs sh' -> evs = [] /\ sh' = sh.
  Proof.
    intros Q. revert sh evs; induction n as [|n IH]; cbn [each repeat]; intros sh evs E; [exact E|].
    destruct E as [e1 [s1 [e2 [-> [W E]]]]]. apply Q in W as [-> ->]. apply IH, E.
  Qed.

  Lemma settle_turn got vals sh evs sh' : length got = length ss -> length vals = length ss ->
    (forall k s, nth_error ss k = Some s -> settled s (nth k got []) (nth k vals [])) ->
    in_turn (map each ws) vals sh evs sh' -> in_turn (map each ws) got sh evs sh'.
  Proof.
    revert got vals sh evs. induction mirror as [|s w ss' ws' M _ IH]; intros got vals sh evs Lg Lv St I;
      destruct got as [|g got], vals as [|v vals]; try discriminate Lg; try discriminate Lv; [exact I|].
    cbn [map in_turn] in *. destruct I as [e1 [s1 [e2 [-> [W I]]]]].
    exists e1, s1, e2. split; [reflexivity|]. split.
    - destruct (St 0 s eq_refl) as [[_ E]|[d [Ed E]]]; cbn [nth] in E; subst v; [exact W|].
      apply each_app in W as [e3 [s3 [e4 [-> [W1 W2]]]]]. apply each_nothing in W2 as [-> ->]; [|apply (proj2 M), Ed].
      rewrite app_nil_r. exact W1.
    - apply IH with (vals := vals); [inversion mirror; assumption|injection Lg as L; exact L|injection Lv as L; exact L| |exact I].
      intros k s0 Nk. exact (St (S k) s0 Nk).
  Qed.

  Lemma join_first (news : list (list V)) : length news = length ss -> join (map (fun _ => []) ss) news = news.
  Proof.
    clear mirror. revert news. induction ss as [|s xs IH]; intros [|n news] L; try discriminate L; cbn; [reflexivity|].
    f_equal. apply IH. injection L as L; exact L.
  Qed.

  Lemma content_again h0 evs0 p h0' vals : follows blank ss (first_place ss) h0 evs0 p h0' -> settled_at ss p vals ->
    (forall l, still_next ss p l -> N l) /\
    forall sh evs sh' h, in_turn (map each ws) vals sh evs sh' -> sync sh (scope h) ->
      sh' = sh /\ exists h', follows blank ss (first_place ss) h evs p h' /\ scope h' = scope h /\
        (evs = [] \/ ends_with_tag evs) /\
        (begins_with_tag evs0 -> exists l, N l /\ starts h0 evs0 l /\ starts h evs l).
  Proof.
    intros F St. destruct (follows_again _ _ _ _ _ F) as [news [Ln [Ej [_ [Nm R]]]]].
    { intros l []. } { apply map_length. }
    cbn [fst snd first_place] in Ej. rewrite join_first in Ej by exact Ln.
    destruct p as [[i got] more]. cbn [fst snd] in *. subst news. destruct St as [Lg [Lv St]]. split.
    - intros l [Q|[[s [Ns [_ Q]]]|[k [s [_ [Ns Q]]]]]]; [apply Nm, Q| |];
        destruct (Forall2_nth _ _ _ _ _ mirror Ns) as [w [_ [[M _] _]]]; apply M, Q.
    - intros sh evs sh' h I Sy. apply R; [|exact Sy]. exact (settle_turn got vals sh evs sh' Lg Lv St I).
  Qed.

  (** ** [xs:all] *)

  (** The values come from occurrences that belong to no other particle, and there are not
      too many of them. *)
  Definition belongs (k : nat) (s : slot V) (v : V) : Prop :=
    exists h0 evs0 more h0', l_occ (s_lang s) h0 evs0 v more h0' /\
      forall e evs' h1, evs0 = e :: evs' -> dh_event h0 e = Some h1 ->
        forall k' t, nth_error ss k' = Some t -> k' <> k -> ~ fits h1 e (l_first (s_lang t)).
  Definition within (s : slot V) (n : nat) : Prop :=
    match s_max s with Bounded max => n <= max | Unbounded => True end.
  Definition all_got (got : list (list V)) : Prop :=
    forall k s, nth_error ss k = Some s -> Forall (belongs k s) (nth k got []) /\ within s (length (nth k got [])).

  Hypothesis simple_more : forall s h evs v more h', In s ss -> l_occ (s_lang s) h evs v more h' -> more = no_labels.

  Lemma scattered_got p h0 evs0 p' h0' : scattered blank ss p h0 evs0 p' h0' ->
    length (snd (fst p)) = length ss -> snd p = no_labels -> all_got (snd (fst p)) ->
    length (snd (fst p')) = length ss /\ snd p' = no_labels /\ all_got (snd (fst p')).
  Proof.
    induction 1 as [p h0|p h0 e h1 evs0 p' h2 Ig D F IH|i got more h0 evs1 j s v more' h1 rest p' h2 Ns O Ro On F IH];
      intros L M G; [auto|auto|].
    cbn [fst snd] in *. apply IH; [rewrite add_length; exact L|eapply simple_more; [eapply nth_error_In, Ns|exact O]|].
    intros k t Nk. destruct (Nat.eq_dec j k) as [<-|Ne].
    - rewrite Ns in Nk. injection Nk as <-. rewrite add_same by (rewrite L; eapply nth_len, Ns).
      destruct (G j s Ns) as [G1 G2]. split.
      + apply Forall_app. split; [exact G1|]. constructor; [|constructor].
        exists h0, evs1, more', h1. split; [exact O|]. intros e evs' h' E D. apply (On e evs' h' E D).
      + rewrite app_length. cbn [length]. unfold within. unfold room in Ro. destruct (s_max s); first [exact I|lia].
    - rewrite add_other by exact Ne. apply G, Nk.
  Qed.
  Lemma scattered_more p h0 evs0 p' h0' : scattered blank ss p h0 evs0 p' h0' ->
    length (snd (fst p)) = length ss ->
    (forall k, length (nth k (snd (fst p)) []) <= length (nth k (snd (fst p')) [])) /\
    (begins_with_tag evs0 -> exists k, nth k (snd (fst p')) [] <> []).
  Proof.
    induction 1 as [p h0|p h0 e h1 evs0 p' h2 Ig D F IH|i got more h0 evs1 j s v more' h1 rest p' h2 Ns O Ro On F IH]; intros L.
    - split; [auto|]. intros [e [r [E _]]]; discriminate E.
    - destruct (IH L) as [A B]. split; [exact A|]. intros [e' [r [E T]]]. injection E as <- <-.
      apply ignorable_kind in Ig. destruct Ig; congruence.
    - cbn [fst snd] in *. destruct IH as [A B]; [rewrite add_length; exact L|].
      assert (Lj : j < length got) by (rewrite L; eapply nth_len, Ns). split.
      + intros k. eapply Nat.le_trans; [|apply A]. destruct (Nat.eq_dec j k) as [<-|Ne].
        * rewrite add_same, app_length by exact Lj. lia.
        * rewrite add_other by exact Ne. lia.
      + intros _. exists j. specialize (A j). rewrite add_same, app_length in A by exact Lj. cbn [length] in A.
        destruct (nth j (snd (fst p')) []); [cbn in A; lia|discriminate].
  Qed.

  Lemma scattered_trans p h evs p1 h1 : scattered blank ss p h evs p1 h1 -> forall evs2 p2 h2,
    scattered blank ss p1 h1 evs2 p2 h2 -> scattered blank ss p h (evs ++ evs2) p2 h2.
  Proof.
    induction 1; intros evs2 p2 h3 S2; cbn [app]; [exact S2|eapply scattered_space; eauto|].
    rewrite <- app_assoc. eapply scattered_item; eauto.
  Qed.

  Definition tags_at_ends (evs : list event) : Prop := begins_with_tag evs /\ ends_with_tag evs.
  Lemma tags_app e1 e2 : tags_at_ends e1 -> e2 = [] \/ tags_at_ends e2 -> tags_at_ends (e1 ++ e2).
  Proof.
    intros [[e [r [-> T]]] E] [-> |[_ [a [x [-> T']]]]]; [rewrite app_nil_r; split; [exists e, r; auto|exact E]|].
    split; [exists e, (r ++ a ++ [x]); auto|]. exists ((e :: r) ++ a), x. split; [apply app_assoc|exact T'].
  Qed.

  Lemma add_at (got1 : list (list V)) g rest v : add_value (length got1) v (got1 ++ g :: rest) = got1 ++ (g ++ [v]) :: rest.
  Proof. induction got1 as [|x got1 IH]; cbn; [reflexivity|]. f_equal. exact IH. Qed.

  Lemma rebuild_slot k s w vs got1 rest : k = length got1 -> nth_error ss k = Some s -> nth_error ws k = Some w ->
    forall g i sh evs sh' h, Forall (belongs k s) vs -> within s (length (g ++ vs)) ->
    each w vs sh evs sh' -> sync sh (scope h) ->
    sh' = sh /\ exists i' h', scattered blank ss (i, got1 ++ g :: rest, no_labels) h evs (i', got1 ++ (g ++ vs) :: rest, no_labels) h' /\
      scope h' = scope h /\ (evs = [] /\ vs = [] \/ tags_at_ends evs).
  Proof.
    intros Ek Ns Nw. assert (M : mirrors s w).
    { destruct (Forall2_nth _ _ _ _ _ mirror Ns) as [w' [Nw' M]]. congruence. }
    induction vs as [|v vs IH]; intros g i sh evs sh' h B Wi W Sy.
    - cbn [each] in W. destruct W as [-> ->]. split; [reflexivity|]. exists i, h. rewrite app_nil_r.
      split; [constructor|]. split; [reflexivity|left; auto].
    - cbn [each] in W. destruct W as [e1 [sh1 [e2 [-> [W1 W2]]]]]. inversion B as [|v' vs' [h0 [evs0 [more [h0' [O On]]]]] B']; subst v' vs'.
      destruct M as [[M1 M2] M3]. destruct (M2 _ _ _ _ _ O) as [Nm [_ Back]].
      assert (more = no_labels) as -> by (eapply simple_more; [eapply nth_error_In, Ns|exact O]).
      destruct (Back _ _ _ _ W1 Sy) as [-> [h1 [O' [Sc [En [l [Nl [[e0 [r0 [h00 [E0 [T0 [D0 C0]]]]]] [en [rn [hn [En1 [Tn [Dn Cn]]]]]]]]]]]]]].
      rewrite <- Sc in Sy. destruct (IH (g ++ [v]) k sh e2 sh' h1 B') as [-> [i' [h2 [S2 [Sc2 Ends]]]]].
      { rewrite <- app_assoc. exact Wi. } { exact W2. } { exact Sy. }
      split; [reflexivity|]. exists i', h2. split; [|split; [congruence|]].
      + rewrite <- app_assoc in S2. eapply scattered_item; [exact Ns|exact O'| | |].
        * rewrite Ek, app_nth2, Nat.sub_diag by lia. cbn [nth]. unfold within in Wi. unfold room. rewrite app_length in Wi. cbn [length] in Wi.
          destruct (s_max s); first [exact I|lia].
        * intros e evs' h3 E D. rewrite E in En1. injection En1 as <- <-. rewrite D in Dn. injection Dn as <-.
          split; [intros [l' [[] _]]|]. intros k' t Nk' Ne Ft.
          apply (On _ _ _ E0 D0 _ _ Nk' Ne). eapply fits_back; [exact Nl| |exact Cn|exact C0|exact Ft].
          destruct (Forall2_nth _ _ _ _ _ mirror Nk') as [wk [_ [[Mk _] _]]]. exact Mk.
        * rewrite Ek, add_at. rewrite Ek in S2. exact S2.
      + right. apply tags_app; [split; [exists en, rn; auto|exact En]|]. destruct Ends as [[-> _]|Q]; auto.
  Qed.

  Lemma rebuild ss2 : forall ws2 news2 ss1 ws1 got1, ss = ss1 ++ ss2 -> ws = ws1 ++ ws2 -> length ss1 = length ws1 ->
    length ss2 = length ws2 -> length got1 = length ss1 ->
    (forall k s, nth_error ss2 k = Some s -> Forall (belongs (length ss1 + k) s) (nth k news2 []) /\ within s (length (nth k news2 []))) ->
    forall i sh evs sh' h, in_turn (map each ws2) news2 sh evs sh' -> sync sh (scope h) ->
    sh' = sh /\ exists i' h', scattered blank ss (i, got1 ++ map (fun _ => []) ss2, no_labels) h evs (i', got1 ++ news2, no_labels) h' /\
      scope h' = scope h /\ (evs = [] /\ (forall k, nth k news2 [] = []) \/ tags_at_ends evs).
  Proof.
    induction ss2 as [|s ss2 IH]; intros [|w ws2] news2 ss1 ws1 got1 Es Ew L1 L2 Lg G i sh evs sh' h I Sy; try discriminate L2;
      destruct news2 as [|vs news2]; cbn [map in_turn] in I; try contradiction.
    - destruct I as [-> ->]. split; [reflexivity|]. exists i, h. split; [constructor|]. split; [reflexivity|]. left. split; [reflexivity|]. intros [|k]; reflexivity.
    - destruct I as [e1 [sh1 [e2 [-> [W I]]]]]. destruct (G 0 s eq_refl) as [B Wi]. cbn [nth] in B, Wi. rewrite Nat.add_0_r in B.
      destruct (rebuild_slot (length ss1) s w vs got1 (map (fun _ => []) ss2)) with (g := @nil V) (i := i) (sh := sh) (evs := e1) (sh' := sh1) (h := h)
        as [-> [i1 [h1 [S1 [Sc1 En1]]]]]; try assumption; [congruence| | |].
      { rewrite Es, nth_error_app2, Nat.sub_diag by lia. reflexivity. }
      { rewrite Ew, L1, nth_error_app2, Nat.sub_diag by lia. reflexivity. }
      cbn [app] in S1. rewrite <- Sc1 in Sy.
      destruct (IH ws2 news2 (ss1 ++ [s]) (ws1 ++ [w]) (got1 ++ [vs])) with (i := i1) (sh := sh) (evs := e2) (sh' := sh') (h := h1)
        as [-> [i2 [h2 [S2 [Sc2 En2]]]]]; try assumption.
      { rewrite <- app_assoc. exact Es. } { rewrite <- app_assoc. exact Ew. } { rewrite !app_length. cbn. lia. }
      { injection L2 as L2; exact L2. } { rewrite !app_length. cbn. lia. }
      { intros k t Nk. destruct (G (S k) t Nk) as [G1 G2]. rewrite app_length. cbn [length]. replace (length ss1 + 1 + k) with (length ss1 + S k) by lia. auto. }
      split; [reflexivity|]. exists i2, h2. split; [|split; [congruence|]].
      + rewrite <- !app_assoc in S2. eapply scattered_trans; [exact S1|exact S2].
      + destruct En1 as [[-> ->]|T1].
        * destruct En2 as [[-> Z]|T2]; [left|right; exact T2]. split; [reflexivity|]. intros [|k]; [reflexivity|apply Z].
        * right. apply tags_app; [exact T1|]. destruct En2 as [[-> _]|T2]; auto.
  Qed.

  Lemma all_again h0 evs0 p h0' vals : scattered blank ss (first_place ss) h0 evs0 p h0' -> settled_at ss p vals ->
    snd p = no_labels /\
    forall sh evs sh' h, in_turn (map each ws) vals sh evs sh' -> sync sh (scope h) ->
      sh' = sh /\ exists p2 h', scattered blank ss (first_place ss) h evs p2 h' /\ settled_at ss p2 vals /\ snd p2 = no_labels /\
        scope h' = scope h /\ (begins_with_tag evs0 -> tags_at_ends evs).
  Proof.
    intros F St. destruct (scattered_got _ _ _ _ _ F) as [Lg [Em G]]; [apply map_length|reflexivity| |].
    { intros k s Nk. cbn [fst snd first_place]. rewrite nth_empty. split; [constructor|]. unfold within. destruct (s_max s); first [exact I|cbn; lia]. }
    destruct (scattered_more _ _ _ _ _ F) as [_ Ne]; [apply map_length|].
    destruct p as [[i got] more]. cbn [fst snd] in *. split; [exact Em|]. intros sh evs sh' h T Sy.
    destruct St as [_ [Lv St]]. pose proof (settle_turn got vals sh evs sh' Lg Lv St T) as T'.
    destruct (rebuild ss ws got [] [] []) with (i := 0) (sh := sh) (evs := evs) (sh' := sh') (h := h) as [-> [i' [h' [S' [Sc En]]]]]; try assumption; try reflexivity.
    { eapply Forall2_len, mirror. }
    split; [reflexivity|]. exists (i', got, no_labels), h'. split; [exact S'|]. split; [split; [exact Lg|split; assumption]|].
    split; [reflexivity|]. split; [exact Sc|]. intros Bg. destruct En as [[_ Z]|En]; [|exact En].
    destruct (Ne Bg) as [k Nk]. elim Nk. apply Z.
  Qed.
End Models.

(** ** Particles *)

Lemma starts_app h evs l rest : starts h evs l -> starts h (evs ++ rest) l.
Proof. intros [e [r [h1 [-> Q]]]]. exists e, (r ++ rest), h1. auto. Qed.

Section Particles.
  Context {T A : Type}.
  Notation val := (val T A).
  Variable blank : bytes -> option bool.
  Variable ff : flat_flags.
  Variable no_attrs : A.
  Variable tag : option bytes -> bytes -> bytes.
  Variable N : labels.
  Hypothesis clear : forall l l', N l -> N l' -> snd l = snd l' -> l = l'.
  Variable sync : helper -> resolver -> Prop.
  Notation packed := (packed (T:=T) ff no_attrs).
  Notation absent := (@absent T A ff no_attrs).
  Notation no_elements := (@no_elements T A no_attrs).
  Notation mirrors := (@mirrors val N sync).
  Notation occ_mirrors := (@occ_mirrors val N sync).
  Notation raw_lang := (raw_lang (T:=T) blank no_attrs).

  Lemma packed_inj c v w : packed c v = packed c w -> v = w.
  Proof. unfold DocSpec.packed. destruct (flat_for ff c); [auto|]. intros E. injection E as E. exact E. Qed.

  Section Raw.
    Variable ss : list (slot val).
    Variable ws : list (writes val).
    Hypothesis mirror : Forall2 mirrors ss ws.

    Lemma first_in l : first_of ss l -> N l.
    Proof.
      intros [s [I F]]. apply In_nth_error in I as [k Nk].
      destruct (Forall2_nth _ _ _ _ _ mirror Nk) as [w [_ [[M _] _]]]. apply M, F.
    Qed.

    Lemma sequence_mirrors : occ_mirrors (raw_lang CSequence ss) (group_writes CSequence (map each ws)).
    Proof.
      split; [apply first_in|]. intros h0 evs0 v more h0' [En0 [fields [-> [Bg [p [F [-> [_ St]]]]]]]]. cbn [snd] in St.
      destruct (content_again blank N clear sync ss ws mirror _ _ _ _ _ F St) as [Nm R]. split; [exact Nm|]. split.
      - destruct (follows_tag blank ss _ _ _ _ _ F Bg) as (i & got & mo & evs1 & rest & j & s & v & mo' & h1 & _ & -> & Ns & O & _).
        destruct (Forall2_nth _ _ _ _ _ mirror Ns) as [w [_ [[_ M] _]]]. destruct (M _ _ _ _ _ O) as [_ [[l Sl] _]].
        exists l. apply starts_app, Sl.
      - intros sh evs sh' h [_ I] Sy. destruct (R _ _ _ _ I Sy) as [-> [h' [F' [Sc [En St']]]]]. split; [reflexivity|].
        destruct (St' Bg) as [l [Nl [S0 S1]]]. exists h'.
        assert (ends_with_tag evs) as Et.
        { destruct En as [-> |En]; [|exact En]. destruct S1 as [e [r [h1 [E _]]]]. discriminate E. }
        split; [|split; [exact Sc|split; [exact Et|eauto]]].
        split; [exact Et|]. exists fields. split; [reflexivity|]. split.
        + destruct S1 as [e [r [h1 [-> [Tg _]]]]]. exists e, r; auto.
        + exists p. repeat split; auto; apply St.
    Qed.

    Lemma choice_mirrors : occ_mirrors (raw_lang CChoice ss) (group_writes CChoice (map each ws)).
    Proof.
      split; [apply first_in|]. intros h0 evs0 v more h0' [En0 [i [vals [-> [Bg [_ [s [Ns [[p [F [-> St]]] On]]]]]]]]]. cbn [fst snd] in *.
      destruct (Forall2_nth _ _ _ _ _ mirror Ns) as [w [Nw M]].
      destruct (content_again blank N clear sync [s] [w] (Forall2_cons _ _ M (Forall2_nil _)) _ _ _ _ _ F St) as [Nm R].
      split; [exact Nm|]. split.
      - destruct (follows_tag blank _ _ _ _ _ _ F Bg) as (i' & got & mo & evs1 & rest & j & s' & v & mo' & h1 & _ & -> & Ns' & O & _).
        destruct j as [|j]; [|destruct j; discriminate Ns']. injection Ns' as <-. destruct M as [[_ M] _].
        destruct (M _ _ _ _ _ O) as [_ [[l Sl] _]]. exists l. apply starts_app, Sl.
      - intros sh evs sh' h [_ [part [Np I]]] Sy. rewrite nth_error_map, Nw in Np. injection Np as <-.
        destruct (R sh evs sh' h) as [-> [h' [F' [Sc [En St']]]]]; [cbn [map in_turn]; exists evs, sh', []; rewrite app_nil_r; auto|exact Sy|].
        split; [reflexivity|]. destruct (St' Bg) as [l [Nl [S0 S1]]]. exists h'.
        assert (ends_with_tag evs) as Et.
        { destruct En as [-> |En]; [|exact En]. destruct S1 as [e [r [h1 [E _]]]]. discriminate E. }
        split; [|split; [exact Sc|split; [exact Et|eauto]]].
        split; [exact Et|]. exists i, vals. split; [reflexivity|].
        destruct S1 as [e [r [h1 [-> [Tg [D C]]]]]]. destruct S0 as [e0 [r0 [h10 [E0 [Tg0 [D0 C0]]]]]].
        split; [exists e, r; auto|]. split; [exact Et|]. exists s. cbn [fst snd]. split; [exact Ns|]. split; [exists p; auto|].
        intros e' r' h1' k t E D' Nk Ne Ft. injection E as <- <-. rewrite D in D'. injection D' as <-.
        apply (On _ _ _ _ _ E0 D0 Nk Ne). eapply (fits_back N clear); [exact Nl| |exact C|exact C0|exact Ft].
        destruct (Forall2_nth _ _ _ _ _ mirror Nk) as [wk [_ [[Mk _] _]]]. exact Mk.
    Qed.

    Lemma raw_mirrors c : c <> CAll -> occ_mirrors (raw_lang c ss) (group_writes c (map each ws)).
    Proof. destruct c; intros Q; [apply sequence_mirrors|apply choice_mirrors|elim Q; reflexivity]. Qed.
  End Raw.

  Variable reads : nat -> dhelper -> list event -> val -> dhelper -> Prop.
  Variable welement : nat -> bool -> bytes -> writes val.
  Notation slot_of := (slot_of blank ff no_attrs reads).
  Notation particle_writes := (particle_writes ff no_attrs tag welement).
  Variable decls : list (label * nat).
  Hypothesis in_decls : forall l ty, In (l, ty) decls -> N l.
  Hypothesis elements : forall l ty root, In (l, ty) decls ->
    forall h0 evs0 v h0', reads ty h0 evs0 v h0' ->
    forall sh evs sh' h, welement ty root (tag (fst l) (snd l)) v sh evs sh' -> sync sh (scope h) ->
      sh' = sh /\ exists h', reads ty h evs v h' /\ scope h' = scope h /\ ends_with_tag evs /\ starts h evs l.

  Lemma group_nothing c (rt : particle -> bool) ps v :
    Forall (fun p => forall vals root, absent p = Some vals -> forall sh evs sh',
      each (particle_writes root p) vals sh evs sh' -> evs = [] /\ sh' = sh) ps ->
    no_elements c (map absent ps) = Some v -> forall sh evs sh',
    group_writes c (map (fun p => each (particle_writes (rt p) p)) ps) v sh evs sh' -> evs = [] /\ sh' = sh.
  Proof.
    intros IH E sh evs sh' W. unfold DocSpec.no_elements in E. destruct (is_choice c) eqn:Ec.
    - destruct (first_some 0 (map absent ps)) as [[i vals]|] eqn:Ef; [|discriminate E]. injection E as <-.
      cbn [group_writes] in W. destruct W as [_ [part [Np W]]].
      assert (G : forall (l : list (option (list val))) k j x, first_some k l = Some (j, x) -> k <= j /\ nth_error l (j - k) = Some (Some x)).
      { clear. induction l as [|[y|] l IH]; intros k j x E; [discriminate E|injection E as <- <-; rewrite Nat.sub_diag; auto|].
        destruct (IH _ _ _ E) as [L H]. split; [lia|]. replace (j - k) with (S (j - S k)) by lia. exact H. }
      apply G in Ef as [_ Ef]. rewrite Nat.sub_0_r, nth_error_map in Ef. rewrite nth_error_map in Np.
      destruct (nth_error ps i) as [p|] eqn:Ep; [|discriminate Ef]. injection Ef as Ef. injection Np as <-.
      rewrite Forall_forall in IH. eapply IH; [eapply nth_error_In, Ep|exact Ef|exact W].
    - destruct (all_some (map absent ps)) as [fields|] eqn:Ef; [|discriminate E]. injection E as <-.
      cbn [group_writes] in W. destruct W as [_ W]. revert fields sh evs Ef W. clear - IH.
      induction IH as [|p ps H _ IHl]; intros fields sh evs Ef W; cbn [map all_some] in *.
      + injection Ef as <-. exact W.
      + destruct (absent p) as [vals|] eqn:Ep; [|discriminate Ef]. destruct (all_some (map absent ps)) as [r|]; [|discriminate Ef].
        injection Ef as <-. cbn [in_turn] in W. destruct W as [e1 [s1 [e2 [-> [W1 W2]]]]].
        apply (H _ _ eq_refl) in W1 as [-> ->]. eapply IHl; [reflexivity|exact W2].
  Qed.

  Lemma absent_nothing p : forall vals root, absent p = Some vals -> forall sh evs sh',
    each (particle_writes root p) vals sh evs sh' -> evs = [] /\ sh' = sh.
  Proof.
    induction p as [min max ns name ty|min max c ps IH] using particle_ind'; intros vals root E sh evs sh' W; cbn [DocSpec.absent] in E.
    - destruct (Nat.eqb min 0); [|discriminate E]. injection E as <-. exact W.
    - destruct (Nat.eqb min 0); [injection E as <-; exact W|].
      destruct (no_elements c (map absent ps)) as [v|] eqn:En; [|discriminate E]. injection E as <-.
      destruct (is_choice c && once min max); [exact W|]. eapply each_nothing; [|exact W].
      intros sh1 evs1 sh1' [w [Ew Wv]]. apply packed_inj in Ew. subst w.
      eapply (group_nothing c (fun _ => false)); [exact IH|exact En|exact Wv].
  Qed.

  Lemma empty_nothing c (rt : particle -> bool) ps v : no_elements c (map absent ps) = Some v -> forall sh evs sh',
    group_writes c (map (fun p => each (particle_writes (rt p) p)) ps) v sh evs sh' -> evs = [] /\ sh' = sh.
  Proof. apply group_nothing. apply Forall_forall. intros p _. apply absent_nothing. Qed.

  Lemma particle_mirrors p : (forall x, In x (elements_in p) -> In x decls) -> no_all p = true ->
    forall root, mirrors (slot_of p) (particle_writes root p).
  Proof.
    induction p as [min max ns name ty|min max c ps IH] using particle_ind'; intros Ind Na root.
    - assert (D : In ((ns, name), ty) decls) by (apply Ind; left; reflexivity). split; [|intros v E; discriminate E].
      cbn [DocSpec.slot_of s_lang]. split; [intros l ->; eapply in_decls, D|].
      intros h0 evs0 v more h0' [[e [r [h1 [-> [De [l [-> C]]]]]]] [-> R]]. split; [intros l []|].
      assert (S0 : starts h0 (e :: r) (ns, name)).
      { exists e, r, h1. repeat split; auto. destruct (tag_local _ _ _ C) as [n [[a [-> | ->]] _]]; reflexivity. }
      split; [exists (ns, name); exact S0|]. intros sh evs sh' h W Sy.
      destruct (elements (ns, name) ty root D _ _ _ _ R _ _ _ _ W Sy) as [-> [h' [R' [Sc [En S1]]]]].
      split; [reflexivity|]. exists h'. split; [|split; [exact Sc|split; [exact En|]]].
      + split; [|split; [reflexivity|exact R']]. destruct S1 as [e1 [r1 [h2 [-> [_ [D1 C1]]]]]].
        exists e1, r1, h2. split; [reflexivity|]. split; [exact D1|]. exists (ns, name). split; [reflexivity|exact C1].
      + exists (ns, name). split; [eapply in_decls, D|]. auto.
    - cbn [no_all] in Na. apply andb_true_iff in Na as [Na Nc]. assert (c <> CAll) as Ca by (intros ->; discriminate Nc).
      assert (M : Forall2 mirrors (map slot_of ps) (map (particle_writes false) ps)).
      { cbn [elements_in] in Ind. revert Ind Na. clear - IH. induction IH as [|p ps H _ IHl]; intros Ind Na; cbn [map]; constructor.
        - apply H; [intros x I; apply Ind; cbn [flat_map]; apply in_or_app; left; exact I|]. cbn in Na. apply andb_true_iff in Na as [? _]; assumption.
        - apply IHl; [intros x I; apply Ind; cbn [flat_map]; apply in_or_app; right; exact I|]. cbn in Na. apply andb_true_iff in Na as [_ ?]; assumption. }
      destruct (raw_mirrors _ _ M c Ca) as [F O]. rewrite map_map in O. split.
      + split; [exact F|]. intros h0 evs0 v more h0' [w [-> R]]. destruct (O _ _ _ _ _ R) as [Nm [S0 Back]].
        split; [exact Nm|]. split; [exact S0|]. intros sh evs sh' h [w' [Ew W]] Sy. apply packed_inj in Ew. subst w'.
        destruct (Back _ _ _ _ W Sy) as [-> [h' [R' Q]]]. split; [reflexivity|]. exists h'. split; [exists w; auto|exact Q].
      + cbn [DocSpec.slot_of s_default]. intros v E sh evs sh' [w [Ew W]].
        destruct (no_elements c (map absent ps)) as [u|] eqn:En; [|discriminate E]. injection E as <-. apply packed_inj in Ew. subst w.
        eapply (empty_nothing c (fun _ => false)); [exact En|exact W].
  Qed.

  (** ** The content of a type *)

  Section Once.
    Variable s : slot val.
    Variable w : writes val.
    Hypothesis at_most_one : match s_max s with Bounded m => m <= 1 | Unbounded => False end.
    Hypothesis occ_back : forall h0 evs0 v more h0', l_occ (s_lang s) h0 evs0 v more h0' ->
      (exists l, starts h0 evs0 l) /\
      forall sh evs sh' h, w v sh evs sh' -> sync sh (scope h) ->
        sh' = sh /\ exists h', l_occ (s_lang s) h evs v more h' /\ scope h' = scope h.
    Hypothesis default_nothing : forall v, s_default s = Some v -> forall sh evs sh', w v sh evs sh' -> evs = [] /\ sh' = sh.

    Lemma one_item p h0 evs0 p' h0' : follows blank [s] p h0 evs0 p' h0' -> forall g mo, p = (0, [g], mo) ->
      p' = p \/ (room s (length g) /\ exists h1 evs1 v mo' h2 rest, l_occ (s_lang s) h1 evs1 v mo' h2 /\
        follows blank [s] (0, [g ++ [v]], mo') h2 rest p' h0').
    Proof.
      induction 1 as [p h0|p h0 e h1 evs0 p' h2 Ig D F IH|i got more h0 evs1 j s' v more' h1 rest p' h2 Ns O On F IH];
        intros g mo E; [left; reflexivity|eapply IH; exact E|].
      injection E as -> -> ->. destruct j as [|j]; [|destruct j; discriminate Ns]. injection Ns as <-. right.
      destruct (occ_back _ _ _ _ _ O) as [[l [e [r [h00 [-> [_ [D _]]]]]]] _].
      destruct (On _ _ _ eq_refl D) as [_ [s' [Es [[_ Ro]|[? _]]]]]; [|lia]. injection Es as <-. cbn [nth] in Ro.
      split; [exact Ro|]. exists h0, (e :: r), v, more', h1, rest. split; [exact O|]. exact F.
    Qed.

    Lemma once_again h0 evs0 vals more h0' : repeated blank s h0 evs0 vals more h0' ->
      forall sh evs sh' h, each w vals sh evs sh' -> sync sh (scope h) ->
        sh' = sh /\ exists h', repeated blank s h evs vals more h' /\ scope h' = scope h.
    Proof.
      intros [p [F [-> St]]] sh evs sh' h W Sy. cbn [first_place map] in F.
      assert (Set' : forall got mo, p = (0, [got], mo) -> each w got sh evs sh').
      { intros got mo ->. destruct St as [_ [_ St]]. specialize (St 0 s eq_refl). cbn [nth] in St.
        destruct St as [[_ ->]|[d [Ed ->]]]; [exact W|]. apply each_app in W as [e1 [s1 [e2 [-> [W1 W2]]]]].
        apply each_nothing in W2 as [-> ->]; [|intros; eapply default_nothing; eassumption]. rewrite app_nil_r. exact W1. }
      destruct (one_item _ _ _ _ _ F [] no_labels eq_refl) as [-> |[Ro [h1 [evs1 [v [mo' [h2 [rest [O F2]]]]]]]]].
      - destruct (Set' [] no_labels eq_refl) as [-> ->]. split; [reflexivity|]. exists h. split; [|reflexivity].
        exists (first_place [s]). split; [constructor|]. split; [reflexivity|exact St].
      - cbn [app] in F2. destruct (one_item _ _ _ _ _ F2 [v] mo' eq_refl) as [-> |[Ro2 _]].
        + destruct (Set' [v] mo' eq_refl) as [e1 [s1 [e2 [-> [W1 [-> ->]]]]]]. rewrite app_nil_r.
          destruct (proj2 (occ_back _ _ _ _ _ O) _ _ _ _ W1 Sy) as [-> [h' [O' Sc]]].
          split; [reflexivity|]. exists h'. split; [|exact Sc]. exists (0, [[v]], mo'). split; [|split; [reflexivity|exact St]].
          rewrite <- (app_nil_r e1). apply (follows_item blank [s] 0 [[]] no_labels h e1 0 s v mo' h'); [reflexivity|exact O'| |constructor].
          intros e evs' h3 E D. split; [intros [l [[] _]]|]. exists s. split; [reflexivity|]. left. split; [reflexivity|exact Ro].
        + unfold room in Ro2. destruct (s_max s); [contradiction|cbn [length] in Ro2; lia].
    Qed.
  End Once.

  Lemma scattered_first (ss : list (slot val)) p h evs p' h' : scattered blank ss p h evs p' h' -> begins_with_tag evs ->
    exists j s v evs1 mo h1 rest, nth_error ss j = Some s /\ l_occ (s_lang s) h evs1 v mo h1 /\ evs = evs1 ++ rest.
  Proof.
    intros F Bg. destruct F as [| p h e h1 evs p' h2 Ig|i got more h evs j s v more' h1 rest p' h2 Ns O].
    - destruct Bg as [e [r [E _]]]; discriminate E.
    - destruct Bg as [e' [r [E Tg]]]. injection E as <- <-. apply ignorable_kind in Ig. destruct Ig; congruence.
    - exists j, s, v, evs, more', h1, rest. auto.
  Qed.

  Variable ps : list particle.
  Hypothesis in_ps : forall x, In x (flat_map elements_in ps) -> In x decls.
  Variable rt : particle -> bool.

  Lemma particles_mirror : forallb no_all ps = true ->
    Forall2 mirrors (map slot_of ps) (map (fun p => particle_writes (rt p) p) ps).
  Proof.
    revert in_ps. clear - clear elements in_decls. induction ps as [|p ps' IH]; intros In' Na; cbn [map]; constructor; cbn [forallb] in Na; apply andb_true_iff in Na as [N1 N2].
    - apply particle_mirrors; [intros x I; apply In'; cbn [flat_map]; apply in_or_app; left; exact I|exact N1].
    - apply IH; [intros x I; apply In'; cbn [flat_map]; apply in_or_app; right; exact I|exact N2].
  Qed.

  Lemma content_back min max c h0 evs0 vals more h0' :
    match c with
    | CAll => forallb is_element ps = true /\ match max with Bounded m => m <= 1 | Unbounded => False end
    | _ => forallb no_all ps = true
    end ->
    repeated blank (content_slot blank ff no_attrs reads min max c ps) h0 evs0 vals more h0' ->
    forall sh evs sh' h, each (group_writes c (map (fun p => each (particle_writes (rt p) p)) ps)) vals sh evs sh' ->
      sync sh (scope h) ->
      sh' = sh /\ exists h', repeated blank (content_slot blank ff no_attrs reads min max c ps) h evs vals more h' /\
        scope h' = scope h.
  Proof.
    intros Rd Rp sh evs sh' h W Sy.
    assert (Na : forallb no_all ps = true).
    { destruct c; try exact Rd. destruct Rd as [Rd _]. revert Rd. clear. induction ps as [|[|] ps' IH]; cbn; intros E; try discriminate E; auto. }
    pose proof (particles_mirror Na) as M. rewrite <- (map_map (fun p => particle_writes (rt p) p) each) in W.
    assert (D : forall v, no_elements c (map absent ps) = Some v -> forall sh evs sh',
      group_writes c (map each (map (fun p => particle_writes (rt p) p) ps)) v sh evs sh' -> evs = [] /\ sh' = sh).
    { rewrite map_map. intros v En. eapply empty_nothing, En. }
    destruct (match c with CAll => true | _ => false end) eqn:Ec.
    - destruct c; try discriminate Ec. destruct Rd as [Ie Mx]. eapply once_again; [exact Mx| |exact D|exact Rp|exact W|exact Sy].
      cbn [DocSpec.content_slot s_lang]. intros h1 evs1 v mo h1' [En [fields [-> [Bg [p [F [-> [_ St]]]]]]]]. cbn [snd] in St.
      assert (SM : forall s h evs v mo h', In s (map slot_of ps) -> l_occ (s_lang s) h evs v mo h' -> mo = no_labels).
      { intros s h2 evs2 v2 mo2 h2' I O. apply in_map_iff in I as [q [<- Iq]]. rewrite forallb_forall in Ie. specialize (Ie _ Iq).
        destruct q; [|discriminate Ie]. destruct O as [_ [-> _]]. reflexivity. }
      destruct (all_again blank N clear sync _ _ M SM _ _ _ _ _ F St) as [Em R]. split.
      + destruct (scattered_first _ _ _ _ _ _ F Bg) as (j & s & v & e1 & mo & h2 & rest & Ns & O & ->).
        destruct (Forall2_nth _ _ _ _ _ M Ns) as [w [_ [[_ Mw] _]]]. destruct (Mw _ _ _ _ _ O) as [_ [[l Sl] _]].
        exists l. apply starts_app, Sl.
      + intros sh2 evs2 sh2' h2 [_ W2] Sy2. destruct (R _ _ _ _ W2 Sy2) as [-> [p2 [h' [F2 [St2 [Em2 [Sc Tg]]]]]]].
        split; [reflexivity|]. exists h'. split; [|exact Sc]. destruct (Tg Bg) as [B2 E2]. split; [exact E2|]. exists fields. split; [reflexivity|].
        split; [exact B2|]. exists p2. split; [exact F2|]. split; [|split; [reflexivity|exact St2]].
        destruct p as [[i got] m1], p2 as [[i2 got2] m2]. cbn [snd] in Em, Em2. subst m1 m2. reflexivity.
    - assert (Ca : c <> CAll) by (intros ->; discriminate Ec). destruct Rp as [p [F [-> St]]].
      assert (MC : mirrors (content_slot blank ff no_attrs reads min max c ps) (group_writes c (map each (map (fun p => particle_writes (rt p) p) ps)))).
      { split; [|exact D]. apply raw_mirrors; assumption. }
      destruct (content_again blank N clear sync _ _ (Forall2_cons _ _ MC (Forall2_nil _)) _ _ _ _ _ F St) as [_ R].
      destruct (R sh evs sh' h) as [-> [h' [F' [Sc _]]]]; [cbn [map in_turn]; exists evs, sh', []; rewrite app_nil_r; auto|exact Sy|].
      split; [reflexivity|]. exists h'. split; [exists p; auto|exact Sc].
  Qed.
End Particles.

(** ** Types *)

Lemma pop_push r attrs r1 : Forall (fun b => b_level b <= r_level r) (r_bindings r) ->
  resolver_push r attrs = Some r1 -> resolver_pop r1 = r.
Proof.
  intros L E. unfold resolver_push in E. destruct (push_attrs _ _ attrs) as [bs|] eqn:P; [|discriminate E].
  injection E as <-. apply push_attrs_binds in P. subst bs. unfold resolver_pop. cbn [r_level r_bindings pred].
  rewrite drop_bindings_frame by exact L. destruct r; reflexivity.
Qed.

Lemma enter_start h name attrs r1 : resolver_push (scope h) attrs = Some r1 ->
  exists h1, dh_event h (EStart name attrs) = Some h1 /\ d_res h1 = r1 /\ d_pending h1 = false.
Proof. intros P. unfold scope in P. cbn [dh_event]. unfold dh_enter. rewrite P. eexists. split; [reflexivity|]. auto. Qed.
Lemma enter_empty h name attrs r1 : resolver_push (scope h) attrs = Some r1 ->
  exists h1, dh_event h (EEmpty name attrs) = Some h1 /\ d_res h1 = r1 /\ d_pending h1 = true.
Proof. intros P. unfold scope in P. cbn [dh_event]. unfold dh_enter. rewrite P. eexists. split; [reflexivity|]. auto. Qed.
Lemma scope_open h : d_pending h = false -> scope h = d_res h.
Proof. intros E. unfold scope, dh_pop. rewrite E. reflexivity. Qed.
Lemma scope_pending h : d_pending h = true -> scope h = resolver_pop (d_res h).
Proof. intros E. unfold scope, dh_pop. rewrite E. reflexivity. Qed.
Lemma leave_end h name : exists h', dh_event h (EEnd name) = Some h' /\ scope h' = resolver_pop (scope h).
Proof. cbn [dh_event]. eexists. split; [reflexivity|]. rewrite scope_pending by reflexivity. reflexivity. Qed.

Lemma names_check h e name attrs l : names (d_res h) name l -> e = EStart name attrs \/ e = EEmpty name attrs ->
  check_tag h e (fst l) (snd l) = true.
Proof. unfold names. intros Q [-> | ->]; exact Q. Qed.

Section Types.
  Context {T A : Type}.
  Notation val := (val T A).
  Variable blank : bytes -> option bool.
  Variable ff : flat_flags.
  Variable no_attrs : A.
  Variable attrs_of : nat -> dhelper -> bytes -> list attr -> outcome kind (A * dhelper).
  Variable parse : nat -> dhelper -> bytes -> outcome kind (T * dhelper).
  Variable charref : bytes -> option bytes.
  Variable env : nat -> tdef.
  Variable tag : option bytes -> bytes -> bytes.
  Variable opening : nat -> bool -> bytes -> val -> helper -> outcome kind (list attr) * helper.
  Variable closing : nat -> helper -> helper.
  Variable to_bytes : nat -> T -> helper -> outcome kind (option bytes) * helper.
  Variable top : nat * bytes.
  Variable sync : option nat -> helper -> resolver -> Prop.
  Hypothesis back : tags_back env tag opening closing to_bytes attrs_of parse top sync.
  Hypothesis readable : forall ty, readable_type (env ty).
  Notation valid := (valid blank ff no_attrs attrs_of parse charref env).
  Notation written := (written ff no_attrs env tag opening closing to_bytes).

  Lemma text_chars data s : (match data with Some s => utf8_valid s = true | None => True end) ->
    s = match data with Some s => s | None => "" end ->
    forallb TextSpec.flat (text_events data) = true /\ chars charref utf8_valid (text_events data) = Some s.
  Proof.
    intros U ->. destruct data as [[|c r]|]; cbn [text_events]; try (split; reflexivity).
    split; [reflexivity|]. cbn [chars]. rewrite utf8_escape, unescape_escape by exact U. rewrite append_nil_r. reflexivity.
  Qed.

  Lemma trimmed_nothing : trimmed_of "" "".
  Proof. exact (trim_ascii_spec ""). Qed.
  Lemma text_was_read {B} attrs_of0 ty h evs (a : B) t h' :
    text_of charref utf8_valid attrs_of0 (parse ty) h evs (a, t) h' -> text_read parse ty t.
  Proof.
    intros [(n & at0 & g0 & g1 & body & n' & s & u & _ & _ & _ & _ & _ & Tr & Pa)|(n & at0 & g0 & g1 & _ & _ & _ & Pa)].
    - exists (at_end g1), s, u, h'. auto.
    - exists g1, "", "", h'. split; [exact trimmed_nothing|exact Pa].
  Qed.

  (** The first event, and what the reader knows then. *)
  Definition opens_as (w : option nat) (h : dhelper) (evs : list event) (ty : nat) (name : bytes) : Prop :=
    exists e rest h1, evs = e :: rest /\ is_tag e = true /\ dh_event h e = Some h1 /\
      forall ty0 l, w = Some ty0 -> declared env ty0 l ty -> name = tag (fst l) (snd l) -> check_tag h1 e (fst l) (snd l) = true.

  Lemma ends_end evs name : ends_with_tag (evs ++ [EEnd name]).
  Proof. exists evs, (EEnd name). split; reflexivity. Qed.

  Lemma valid_again n : forall pl ty root name h0 evs0 v h0', valid n ty h0 evs0 v h0' ->
    placed env tag top pl ty root name ->
    forall sh evs sh' h, written n ty root name v sh evs sh' -> sync pl sh (scope h) ->
    sh' = sh /\ exists h', valid n ty h evs v h' /\ scope h' = scope h /\ ends_with_tag evs /\ opens_as pl h evs ty name.
  Proof.
    induction n as [|n IH]; intros pl ty root name h0 evs0 v h0' Va Dc sh evs sh' h W Sy; [contradiction|].
    cbn [DocSpec.valid WriteSpec.written] in *. pose proof (back_levels _ _ _ _ _ _ _ _ _ back _ _ _ Sy) as Lv.
    specialize (readable ty) as Rd. destruct (env ty) as [| |attributed min max c ps] eqn:Ety.
    - destruct W as [t [data [-> [B [Ok' ->]]]]].
      assert (Tr : text_read parse ty t).
      { destruct Va as [t' [E Va]]. injection E as <-. eapply text_was_read, Va. }
      destruct (back_plain _ _ _ _ _ _ _ _ _ back _ _ _ Sy) as [r1 [P [Sy1 Nm]]].
      destruct (back_text _ _ _ _ _ _ _ _ _ back _ _ _ _ _ _ _ Sy1 Tr B) as [-> [U Pa]]. split; [reflexivity|].
      destruct data as [s|].
      + destruct (enter_start h name [] r1 P) as [h1 [D1 [R1 Pe]]].
        destruct (Pa (at_end h1)) as [d' [Pd [L2 [R2 P2]]]]; [cbn [at_end d_res]; rewrite <- R1; apply scope_open, Pe|].
        exists d'. split; [|split; [|split]].
        * exists t. split; [reflexivity|]. left. exists name, [], h1, h1, (text_events (Some s)), name, s, (trim_ascii s).
          destruct (text_chars (Some s) s U eq_refl) as [F C].
          repeat split; auto. apply trim_ascii_spec.
        * cbn [at_end d_res d_pending] in R2, P2. rewrite scope_pending by exact P2. rewrite R2.
          change (d_res (dh_pop h1)) with (scope h1). rewrite (scope_open _ Pe), R1. eapply pop_push; eassumption.
        * apply (ends_end (EStart name [] :: text_events (Some s))).
        * exists (EStart name []), (text_events (Some s) ++ [EEnd name]), h1. repeat split; auto.
          intros ty0 l Ew Dl En. eapply names_check; [|left; reflexivity]. rewrite R1. eapply Nm; eauto.
      + destruct (enter_empty h name [] r1 P) as [h1 [D1 [R1 Pe]]].
        destruct (Pa h1 R1) as [d' [Pd [L2 [R2 P2]]]].
        exists d'. split; [|split; [|split]].
        * exists t. split; [reflexivity|]. right. exists name, [], h1, h1. repeat split; auto.
        * rewrite scope_pending by congruence. rewrite R2, R1. eapply pop_push; eassumption.
        * exists [], (EEmpty name []). split; reflexivity.
        * exists (EEmpty name []), [], h1. repeat split; auto.
          intros ty0 l Ew Dl En. eapply names_check; [|right; reflexivity]. rewrite R1. eapply Nm; eauto.
    - destruct W as [a [t [attrs [sh1 [data [sh2 [-> [Op [B [Ok' [-> ->]]]]]]]]]]].
      assert (text_read parse ty t /\ attrs_read attrs_of ty a) as [Tr Va0].
      { destruct Va as [a' [t' [E Va]]]. injection E as <- <-. split; [eapply text_was_read, Va|].
        destruct Va as [(n0 & at0 & g0 & g1 & body & n' & s & u & _ & _ & Ea & _)|(n0 & at0 & g0 & g1 & _ & _ & Ea & _)]; do 4 eexists; exact Ea. }
      destruct (back_open _ _ _ _ _ _ _ _ _ back _ _ _ _ (VSimple a t) _ _ _ _ Sy Dc ltac:(rewrite Ety; discriminate) Va0 Op) as [Cl [r1 [P [Sy1 [At Nm]]]]].
      destruct (back_text _ _ _ _ _ _ _ _ _ back _ _ _ _ _ _ _ Sy1 Tr B) as [-> [U Pa]]. split; [exact Cl|].
      destruct (enter_start h name attrs r1 P) as [h1 [D1 [R1 Pe]]].
      destruct (At h1 R1) as [a' [h2 [Ea [[L2 [R2 P2]] Eav]]]]. cbn [val_attrs] in Eav. subst a'.
      destruct (Pa (at_end h2)) as [d' [Pd [L3 [R3 P3]]]].
      { cbn [at_end d_res]. rewrite <- R1, <- R2. apply scope_open. congruence. }
      exists d'. split; [|split; [|split]].
      + exists a, t. split; [reflexivity|]. left.
        exists name, attrs, h1, h2, (text_events data), name, (match data with Some s => s | None => "" end),
          (match data with Some s => trim_ascii s | None => "" end).
        destruct (text_chars data _ U eq_refl) as [F C].
        repeat split; auto. destruct data; apply trim_ascii_spec.
      + cbn [at_end d_res d_pending] in R3, P3. rewrite scope_pending by exact P3. rewrite R3.
        change (d_res (dh_pop h2)) with (scope h2). rewrite scope_open, R2, R1 by congruence. eapply pop_push; eassumption.
      + apply (ends_end (EStart name attrs :: text_events data)).
      + exists (EStart name attrs), (text_events data ++ [EEnd name]), h1. repeat split; auto.
        intros ty0 l Ew Dl En. eapply names_check; [|left; reflexivity]. rewrite R1. eapply Nm; eauto.
    - destruct (nothing_allowed max ps) eqn:No.
      + destruct W as [a [attrs [sh1 [-> [Op [-> ->]]]]]].
        assert (Va0 : attrs_read attrs_of ty a).
        { destruct Va as [(nm & at0 & hx & ax & hy & bd & nm' & hz & _ & _ & Ea & [C _] & _)|(nm & at0 & hx & ax & hy & _ & _ & Ea & [C _])];
            injection C as ->; do 4 eexists; exact Ea. }
        destruct (back_open _ _ _ _ _ _ _ _ _ back _ _ _ _ (VStruct a []) _ _ _ _ Sy Dc ltac:(rewrite Ety; discriminate) Va0 Op) as [Cl [r1 [P [Sy1 [At Nm]]]]]. split; [exact Cl|].
        destruct (enter_empty h name attrs r1 P) as [h1 [D1 [R1 Pe]]].
        destruct (At h1 R1) as [a' [h2 [Ea [[L2 [R2 P2]] Eav]]]]. cbn [val_attrs] in Eav. subst a'.
        exists h2. split; [|split; [|split]].
        * right. exists name, attrs, h1, a, h2. repeat split; auto. constructor.
        * rewrite scope_pending by congruence. rewrite R2, R1. eapply pop_push; eassumption.
        * exists [], (EEmpty name attrs). split; reflexivity.
        * exists (EEmpty name attrs), [], h1. repeat split; auto.
          intros ty0 l Ew Dl En. eapply names_check; [|right; reflexivity]. rewrite R1. eapply Nm; eauto.
      + destruct W as [attrs [sh1 [body [sh2 [Op [W [-> ->]]]]]]].
        assert (Va0 : match val_attrs v with Some a => attrs_read attrs_of ty a | None => attributed_type (env ty) = false end).
        { assert (exists a vals, attrs_read attrs_of ty a /\ type_value ff attributed min max c a vals v) as [a [vals [Ra Tv]]].
          { destruct Va as [(nm & at0 & hx & ax & hy & bd & nm' & hz & _ & _ & Ea & (vals & more & _ & Tv) & _)|
                            (nm & at0 & hx & ax & hy & _ & _ & Ea & (vals & more & _ & Tv))]; exists ax, vals; (split; [do 4 eexists; exact Ea|exact Tv]). }
          unfold type_value in Tv. destruct (direct ff attributed min max c) eqn:Dr; [|subst v; exact Ra].
          destruct vals as [|u [|]]; try contradiction; [|destruct u; contradiction].
          destruct u; subst v; try exact Ra; cbn [group_writes] in W; try contradiction. destruct W as [Ec _]. cbn [val_attrs].
          rewrite Ety. cbn [attributed_type]. unfold direct in Dr. rewrite Ec in Dr. destruct attributed; [|reflexivity]. rewrite andb_false_r in Dr. discriminate Dr. }
        destruct (back_open _ _ _ _ _ _ _ _ _ back _ _ _ _ v _ _ _ _ Sy Dc ltac:(rewrite Ety; discriminate) Va0 Op) as [Cl [r1 [P [Sy1 [At Nm]]]]].
        destruct (enter_start h name attrs r1 P) as [h1 [D1 [R1 Pe]]].
        destruct (At h1 R1) as [a' [h2 [Ea [[L2 [R2 P2]] Eav]]]].
        (* what was read *)
        assert (exists a hc hc' bodyc vals more, repeated blank (content_slot blank ff no_attrs (valid n) min max c ps) hc bodyc vals more hc' /\
          type_value ff attributed min max c a vals v) as [a [hc [hc' [bodyc [vals [more [Rp Tv]]]]]]].
        { destruct Va as [(nm & at0 & hx & ax & hy & bd & nm' & hz & _ & _ & _ & (vals & more & Rp & Tv) & _)|
                          (nm & at0 & hx & ax & hy & _ & _ & _ & (vals & more & Rp & Tv))]; do 6 eexists; eauto. }
        destruct Rd as [Cn Rd].
        set (N := fun l : label => exists ty', In (l, ty') (flat_map elements_in ps)).
        assert (Ncl : forall l l', N l -> N l' -> snd l = snd l' -> l = l').
        { intros l l' [t1 I1] [t2 I2]. eapply Cn; eassumption. }
        assert (Els : forall l ty' root', In (l, ty') (flat_map elements_in ps) -> forall h0 evs0 v h0', valid n ty' h0 evs0 v h0' ->
          forall sh evs sh' h, written n ty' root' (tag (fst l) (snd l)) v sh evs sh' -> sync (Some ty) sh (scope h) ->
          sh' = sh /\ exists h', valid n ty' h evs v h' /\ scope h' = scope h /\ ends_with_tag evs /\ starts h evs l).
        { intros l ty' root' I g0 ev0 u g0' Vu s0 ev1 s1 g Wu Su.
          assert (Dl : declared env ty l ty') by (unfold declared; rewrite Ety; exact I).
          destruct (IH (Some ty) ty' root' (tag (fst l) (snd l)) _ _ _ _ Vu) with (sh := s0) (evs := ev1) (sh' := s1) (h := g) as [-> [g' [Vg [Sc [En (e & rr & g1 & E & Tg & Dg & Ck)]]]]];
            [exists l; auto|exact Wu|exact Su|]. split; [reflexivity|]. exists g'. repeat split; auto.
          exists e, rr, g1. repeat split; eauto. }
        assert (Sc2 : scope h2 = r1) by (rewrite scope_open, R2, R1; congruence).
        assert (Wv : exists rt, each (group_writes c (map (fun p => each (particle_writes ff no_attrs tag (written n) (rt p) p)) ps)) vals sh1 body sh2).
        { unfold type_value in Tv. destruct (direct ff attributed min max c).
          - exists (fun p => (is_choice c && root) && once (p_min p) (p_max p)).
            assert (exists w, vals = [w] /\ forall s e s', group_writes c (map (field_writes ff no_attrs tag (written n) (is_choice c && root)) ps) v s e s' ->
              group_writes c (map (field_writes ff no_attrs tag (written n) (is_choice c && root)) ps) w s e s') as [w [-> Q]].
            { destruct vals as [|w [|]]; try contradiction; [|destruct w; contradiction].
              exists w. split; [reflexivity|]. destruct w; subst v; auto. }
            cbn [each]. exists body, sh2, []. rewrite app_nil_r. split; [reflexivity|]. split; [|auto]. apply Q, W.
          - exists (fun p => false). destruct W as [a2 [vals2 [E W]]]. rewrite Tv in E. injection E as <- <-. exact W. }
        destruct Wv as [rt Wv]. rewrite <- Sc2 in Sy1.
        destruct (content_back blank ff no_attrs tag N Ncl (sync (Some ty)) (valid n) (written n) (flat_map elements_in ps)) with
          (ps := ps) (rt := rt) (min := min) (max := max) (c := c) (h0 := hc) (evs0 := bodyc) (vals := vals) (more := more) (h0' := hc')
          (sh := sh1) (evs := body) (sh' := sh2) (h := h2) as [-> [h3 [Rp3 Sc3]]]; try assumption.
        { intros l t I. exists t; exact I. } { auto. }
        split; [exact Cl|]. destruct (leave_end h3 name) as [h4 [D4 Sc4]]. exists h4. split; [|split; [|split]].
        * left. exists name, attrs, h1, a', h2, body, name, h3. repeat split; auto. exists vals, more. split; [exact Rp3|].
          unfold type_value in *. destruct (direct ff attributed min max c).
          -- destruct vals as [|w [|]]; try contradiction; [|destruct w; contradiction]. destruct w; subst v; try reflexivity.
             cbn [val_attrs] in Eav. subst a'. reflexivity.
          -- subst v. cbn [val_attrs] in Eav. subst a'. reflexivity.
        * rewrite Sc4, Sc3, Sc2. eapply pop_push; eassumption.
        * apply (ends_end (EStart name attrs :: body)).
        * exists (EStart name attrs), (body ++ [EEnd name]), h1. repeat split; auto.
          intros ty0 l Ew Dl En. eapply names_check; [|left; reflexivity]. rewrite R1. eapply Nm; eauto.
  Qed.
End Types.

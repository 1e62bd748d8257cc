(** Proofs about resolvers. *)
From Verif Require Export ResolverSpec.
From Coq Require Import List String Ascii Bool.
Import ListNotations.
Local Open Scope string_scope.

Definition asked {St} (r : request) (x : dyn_resolver St) : dyn_resolver St := (snd (snd x (fst x) r), snd x).

Lemma many_first St (l l' : list (dyn_resolver St)) x r :
  (forall y, In y l -> knows_nothing y r) -> ~ knows_nothing x r ->
  many_resolve St (l ++ x :: l') r = (fst (snd x (fst x) r), (map (asked r) l ++ asked r x :: l')%list).
Proof.
  intros N K. induction l as [|[s f] l IH]; cbn [app many_resolve map].
  - destruct x as [s f]. unfold knows_nothing, asked in *. cbn in *. destruct (f s r) as [[[a|]| |] s']; cbn in *; first [reflexivity|destruct K; reflexivity].
  - pose proof (N (s, f) (or_introl eq_refl)) as H. unfold knows_nothing in H. cbn in H.
    destruct (f s r) as [a s'] eqn:E. cbn in H. subst a. rewrite IH by (intros y J; apply N; right; exact J).
    unfold asked at 3. cbn. rewrite E. reflexivity.
Qed.

Lemma many_none St (l : list (dyn_resolver St)) r : (forall y, In y l -> knows_nothing y r) ->
  many_resolve St l r = (Ok None, map (asked r) l).
Proof.
  intros N. induction l as [|[s f] l IH]; cbn [many_resolve map]; [reflexivity|].
  pose proof (N (s, f) (or_introl eq_refl)) as H. unfold knows_nothing in H. cbn in H.
  destruct (f s r) as [a s'] eqn:E. cbn in H. subst a. rewrite IH by (intros y J; apply N; right; exact J).
  unfold asked at 2. cbn. rewrite E. reflexivity.
Qed.

Section resolvers.
Variables (url_parse : string -> option url) (url_join : string -> string -> option url)
  (files : list string -> option string) (web : url -> option (nat * string)).
Let request_url := request_url url_parse url_join.
Let config := config_resolver url_parse url_join files web.
Let answer_of (c : resolver_config) (r : request) : answer :=
  match c with RWeb => web_resolve url_parse url_join web r | RFile => file_resolve url_parse url_join files r end.

Lemma config_nil r : config [] r = Ok None.
Proof. reflexivity. Qed.
Lemma config_cons c cs r : config (c :: cs) r = match answer_of c r with Ok None => config cs r | a => a end.
Proof.
  unfold config, config_resolver, one_resolver. cbn [map many_resolve]. unfold answer_of.
  destruct c; [destruct (web_resolve _ _ _ r) as [[a|]| |]|destruct (file_resolve _ _ _ r) as [[a|]| |]];
    try reflexivity; destruct (many_resolve _ _ _); reflexivity.
Qed.

(** If only one kind can answer, it does. *)
Lemma config_only c cs r : (forall d, d <> c -> answer_of d r = Ok None) ->
  (In c cs -> config cs r = answer_of c r) /\ (~ In c cs -> config cs r = Ok None).
Proof.
  intros O. induction cs as [|d cs (IH1 & IH2)]; [split; [intros []|reflexivity]|].
  assert (D : {d = c} + {d <> c}) by decide equality. rewrite config_cons. destruct D as [->|D].
  - split; [|intros N; destruct N; left; reflexivity]. intros _.
    destruct (answer_of c r) as [[a|]| |] eqn:E; try reflexivity.
    destruct (in_dec (fun x y : resolver_config => ltac:(decide equality) : {x = y} + {x <> y}) c cs); [rewrite IH1 by assumption|rewrite IH2 by assumption]; auto.
  - rewrite (O d D). split.
    + intros [X|X]; [congruence|auto].
    + intros N. apply IH2. intros X. apply N. right. exact X.
Qed.

Lemma not_both u p : local_file u p -> on_the_web u -> False.
Proof. intros (S1 & _) [S2|S2]; congruence. Qed.

Lemma file_path u p : local_file u p -> to_file_path u = Some p.
Proof. intros (_ & [H|H] & S1); unfold to_file_path; rewrite S1, H; reflexivity. Qed.
Lemma remote_path u : remote u -> to_file_path u = None.
Proof.
  intros (h & H & N). unfold to_file_path. rewrite H. destruct (u_segments u); [|reflexivity].
  destruct (String.eqb_spec h "localhost"); congruence.
Qed.
Lemma web_scheme u : on_the_web u <-> (String.eqb (u_scheme u) "http" || String.eqb (u_scheme u) "https" = true).
Proof. rewrite orb_true_iff, !String.eqb_eq. reflexivity. Qed.

Lemma file_answer r u p : request_url r = Some u -> local_file u p -> answer_of RFile r =
  match files p with None => Err tt | Some t => Ok (Some (Some (strip_name_ext (last_component p)), u_text u, t)) end.
Proof. intros E L. unfold answer_of, file_resolve. fold request_url. rewrite E, (file_path u p L). reflexivity. Qed.
Lemma web_answer r u : request_url r = Some u -> on_the_web u -> answer_of RWeb r =
  match web u with None => Err tt | Some (_, t) => Ok (Some (Some (strip_name_ext (after_slash "" (u_text u))), u_text u, t)) end.
Proof. intros E L. unfold answer_of, web_resolve. fold request_url. rewrite E. apply web_scheme in L. rewrite L. reflexivity. Qed.
Lemma web_silent r u : request_url r = Some u -> ~ on_the_web u -> answer_of RWeb r = Ok None.
Proof.
  intros E L. unfold answer_of, web_resolve. fold request_url. rewrite E. rewrite web_scheme in L.
  destruct (_ || _); [destruct L; reflexivity|reflexivity].
Qed.
Lemma file_silent r u : request_url r = Some u -> remote u -> answer_of RFile r = Ok None.
Proof. intros E L. unfold answer_of, file_resolve. fold request_url. rewrite E, (remote_path u L). reflexivity. Qed.
Lemma no_url r : request_url r = None -> forall cs, config cs r = Ok None.
Proof.
  intros E cs. induction cs as [|c cs IH]; [reflexivity|]. rewrite config_cons.
  replace (answer_of c r) with (Ok None : answer); [exact IH|].
  destruct c; unfold answer_of, web_resolve, file_resolve; fold request_url; rewrite E; reflexivity.
Qed.

Lemma on_the_web_dec u : {on_the_web u} + {~ on_the_web u}.
Proof.
  destruct (String.eqb (u_scheme u) "http" || String.eqb (u_scheme u) "https") eqn:E; [left; apply web_scheme; exact E|right].
  intros W. apply web_scheme in W. congruence.
Qed.

(** The answer for an ordinary URL. *)
Lemma file_config cs r u p : request_url r = Some u -> local_file u p ->
  (In RFile cs -> config cs r = match files p with None => Err tt | Some t => Ok (Some (Some (strip_name_ext (last_component p)), u_text u, t)) end) /\
  (~ In RFile cs -> config cs r = Ok None).
Proof.
  intros E L. destruct (config_only RFile cs r) as (A & B).
  - intros [|] D; [|congruence]. apply (web_silent r u E). intros W. exact (not_both u p L W).
  - split; [|exact B]. intros I. rewrite (A I). exact (file_answer r u p E L).
Qed.
Lemma web_config cs r u : request_url r = Some u -> remote u -> on_the_web u ->
  (In RWeb cs -> config cs r = match web u with None => Err tt | Some (_, t) => Ok (Some (Some (strip_name_ext (after_slash "" (u_text u))), u_text u, t)) end) /\
  (~ In RWeb cs -> config cs r = Ok None).
Proof.
  intros E L W. destruct (config_only RWeb cs r) as (A & B).
  - intros [|] D; [congruence|]. exact (file_silent r u E L).
  - split; [|exact B]. intros I. rewrite (A I). exact (web_answer r u E W).
Qed.
Lemma other_config cs r u : request_url r = Some u -> remote u -> ~ on_the_web u -> config cs r = Ok None.
Proof.
  intros E L W. induction cs as [|c cs IH]; [reflexivity|]. rewrite config_cons.
  destruct c; [rewrite (web_silent r u E W)|rewrite (file_silent r u E L)]; exact IH.
Qed.

Lemma found cs r u : request_url r = Some u -> ordinary u ->
  (forall text, text_at files web cs u text -> exists name, config cs r = Ok (Some (name, u_text u, text))) /\
  (forall name l text, config cs r = Ok (Some (name, l, text)) -> l = u_text u /\ text_at files web cs u text).
Proof.
  intros E [(p & L)|(NF & R)].
  - destruct (file_config cs r u p E L) as (A & B).
    assert (D : {In RFile cs} + {~ In RFile cs}) by (apply in_dec; decide equality). split.
    + intros text [(I & q & L' & F)|(_ & W & _)]; [|destruct (not_both u p L W)].
      assert (q = p) by (destruct L as (_ & _ & X), L' as (_ & _ & Y); congruence). subst q.
      rewrite (A I), F. eauto.
    + intros name l text C. destruct D as [I|I]; [|rewrite (B I) in C; discriminate]. rewrite (A I) in C.
      destruct (files p) as [t|] eqn:F; [|discriminate]. injection C as _ <- <-. split; [reflexivity|]. left. eauto.
  - destruct (on_the_web_dec u) as [W|W].
    + destruct (web_config cs r u E R W) as (A & B).
      assert (D : {In RWeb cs} + {~ In RWeb cs}) by (apply in_dec; decide equality). split.
      * intros text [(I & q & (S1 & _) & F)|(I & _ & st & F)]; [congruence|]. rewrite (A I), F. eauto.
      * intros name l text C. destruct D as [I|I]; [|rewrite (B I) in C; discriminate]. rewrite (A I) in C.
        destruct (web u) as [[st t]|] eqn:F; [|discriminate]. injection C as _ <- <-. split; [reflexivity|]. right. eauto.
    + rewrite (other_config cs r u E R W). split; [|discriminate].
      intros text [(_ & q & (S1 & _) & _)|(_ & X & _)]; [congruence|contradiction].
Qed.

Lemma order cs cs' r : (forall u, request_url r = Some u -> ordinary u) -> (forall c, In c cs <-> In c cs') -> config cs r = config cs' r.
Proof.
  intros O S1. destruct (request_url r) as [u|] eqn:E; [|rewrite !no_url by exact E; reflexivity].
  assert (D : forall c (l : list resolver_config), {In c l} + {~ In c l}) by (intros; apply in_dec; decide equality).
  destruct (O u eq_refl) as [(p & L)|(_ & R)].
  - destruct (file_config cs r u p E L) as (A & B), (file_config cs' r u p E L) as (A' & B').
    destruct (D RFile cs) as [I|I]; [rewrite (A I), A' by (apply S1; exact I)|rewrite (B I), B' by (rewrite <- S1; exact I)]; reflexivity.
  - destruct (on_the_web_dec u) as [W|W]; [|rewrite !(other_config _ r u E R W); reflexivity].
    destruct (web_config cs r u E R W) as (A & B), (web_config cs' r u E R W) as (A' & B').
    destruct (D RWeb cs) as [I|I]; [rewrite (A I), A' by (apply S1; exact I)|rewrite (B I), B' by (rewrite <- S1; exact I)]; reflexivity.
Qed.
End resolvers.

(** * Names *)
Lemma strip_some x s t : strip_suffix x s = Some t -> s = t ++ x.
Proof.
  revert t. induction s as [|c s IH]; intros t; cbn [strip_suffix].
  - destruct (String.eqb_spec "" x) as [<-|]; [intros [= <-]; reflexivity|discriminate].
  - destruct (String.eqb_spec (String c s) x) as [<-|]; [intros [= <-]; reflexivity|].
    destruct (strip_suffix x s) as [y|]; [|discriminate]. intros [= <-]. cbn. f_equal. apply IH. reflexivity.
Qed.
Lemma strip_none x s : strip_suffix x s = None -> ~ has_suffix x s.
Proof.
  induction s as [|c s IH]; cbn [strip_suffix]; intros E (t & H).
  - destruct (String.eqb_spec "" x) as [_|N]; [discriminate|]. destruct t; cbn in H; [congruence|discriminate].
  - destruct (String.eqb_spec (String c s) x) as [_|N]; [discriminate|].
    destruct (strip_suffix x s) as [y|]; [discriminate|]. destruct t as [|d t]; cbn in H; [congruence|].
    injection H as -> H. apply IH; [reflexivity|]. exists t. exact H.
Qed.
Lemma strip_name s :
  (exists x, In x extensions /\ s = strip_name_ext s ++ x) \/
  (strip_name_ext s = s /\ forall x, In x extensions -> ~ has_suffix x s).
Proof.
  unfold strip_name_ext. destruct (strip_suffix ".xml" s) as [t|] eqn:E1.
  - left. exists ".xml". split; [left; reflexivity|]. apply strip_some. exact E1.
  - destruct (strip_suffix ".xsd" s) as [t|] eqn:E2.
    + left. exists ".xsd". split; [right; left; reflexivity|]. apply strip_some. exact E2.
    + right. split; [reflexivity|]. intros x [<-|[<-|[]]]; apply strip_none; assumption.
Qed.

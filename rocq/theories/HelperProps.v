(* C92: accessors of types with a list of alternatives. *)
From Coq Require Import List Bool Arith String Ascii.
From Verif Require Import Base HelperModel HelperSpec HelperProofs.
Import ListNotations.
Local Open Scope string_scope.

(* If the type compiles, the accessor of an element returns the value of the
   first child that is this element, and nothing if there is none. *)
Theorem C92_get : forall V t es ms e (content : list (nat * V)),
  render_helpers t = Some ms -> t_enum t = Some es -> NoDup (defined_names t) ->
  In e es -> e_occurs e = OSingle ->
  (exists x, get ms (e_field e) content = Some (Some x) /\ first_of e content x)
  \/ (get ms (e_field e) content = Some None /\ absent e content).
Proof.
  intros V t es ms e content R E N I O.
  destruct (helpers_distinct t es ms R E N) as [-> D].
  destruct (methods_of es e I O) as [M _].
  unfold get. rewrite (the_method_in _ _ D M : the_method (helper_methods es) (e_field e) = _).
  destruct (find_map (e_variant e) content) as [x|] eqn:F.
  - left. exists x. split; [reflexivity|]. exact (proj1 (find_map_some V _ _ _) F).
  - right. split; [reflexivity|]. exact (proj1 (find_map_none V _ _) F).
Qed.
Print Assumptions C92_get.

(* Accessors are rendered exactly for types with a list of alternatives, and
   every one of them belongs to an alternative that is read exactly once. *)
Theorem C92_lists : forall t,
  ((exists ms, render_helpers t = Some ms)
   <-> (t_content t = Some ODynamicList /\ exists es, t_enum t = Some es))
  /\ forall ms es m, render_helpers t = Some ms -> t_enum t = Some es -> In m ms ->
       exists e, In e es /\ e_occurs e = OSingle /\ m_variant m = e_variant e.
Proof. exact helpers_lists. Qed.
Print Assumptions C92_lists.

(* What is written through the mutable accessor changes this value and nothing
   else. *)
Theorem C92_update : forall V t es ms e (f : V -> V) (content : list (nat * V)),
  render_helpers t = Some ms -> t_enum t = Some es -> NoDup (defined_names t) ->
  In e es -> e_occurs e = OSingle ->
  exists name,
    (name = e_field e ++ "_mut" \/ exists k, e_field e = k ++ "_" /\ name = k ++ "_mut")
    /\ ((exists content', update ms name f content = Some (Some content')
           /\ first_changed e f content content')
        \/ (update ms name f content = Some None /\ absent e content)).
Proof.
  intros V t es ms e f content R E N I O.
  destruct (helpers_distinct t es ms R E N) as [-> D].
  destruct (methods_of es e I O) as [_ M].
  exists (mut_name (e_field e)). split.
  - unfold mut_name. destruct (strip_underscore (e_field e)) as [k|] eqn:Z; [|auto].
    right. exists k. split; [now apply strip_prefix|reflexivity].
  - unfold update.
    rewrite (the_method_in _ _ D M : the_method (helper_methods es) (mut_name (e_field e)) = _).
    destruct (find_map_mut (e_variant e) f content) as [c|] eqn:F.
    + left. exists c. split; [reflexivity|]. exact (proj1 (find_map_mut_some V _ _ _ _) F).
    + right. split; [reflexivity|]. exact (proj1 (find_map_mut_none V _ _ _) F).
Qed.
Print Assumptions C92_update.

(* What was written is read again. *)
Theorem C92_get_update : forall V t es ms e (f : V -> V) (content content' : list (nat * V)) name x,
  render_helpers t = Some ms -> t_enum t = Some es -> NoDup (defined_names t) ->
  In e es -> e_occurs e = OSingle ->
  update ms name f content = Some (Some content') -> name = mut_name (e_field e) ->
  get ms (e_field e) content = Some (Some x) -> get ms (e_field e) content' = Some (Some (f x)).
Proof.
  intros V t es ms e f content content' name x R E N I O U -> G.
  destruct (helpers_distinct t es ms R E N) as [-> D].
  destruct (methods_of es e I O) as [M1 M2].
  unfold get in *. rewrite (the_method_in _ _ D M1 : the_method (helper_methods es) (e_field e) = _) in *.
  unfold update in U.
  rewrite (the_method_in _ _ D M2 : the_method (helper_methods es) (mut_name (e_field e)) = _) in U.
  injection U as U. injection G as G. f_equal.
  apply find_map_mut_some in U. destruct U as (b & y & a & -> & -> & NB).
  apply find_map_some in G. destruct G as (b' & a' & EQ & NB').
  apply find_map_some. exists b, a. split; [|exact NB].
  enough (y = x) by now subst.
  clear -NB NB' EQ. revert b' EQ NB'. induction b as [|[w z] b IH]; intros [|[w' z'] b'] EQ NB'; cbn in EQ; injection EQ.
  - auto.
  - intros _ _ <-. exfalso. exact (NB' _ z' (or_introl eq_refl) eq_refl).
  - intros _ _ ->. exfalso. exact (NB _ z (or_introl eq_refl) eq_refl).
  - intros EQ' _ _. apply (IH ltac:(intros w2 y2 H; exact (NB w2 y2 (or_intror H))) b' EQ').
    intros w2 y2 H. exact (NB' w2 y2 (or_intror H)).
Qed.
Print Assumptions C92_get_update.

(* Types compile if the names in the schema cause no trouble. In general they
   do not, see below. *)
Theorem C92_names_partial : forall t es,
  t_content t = Some ODynamicList -> t_enum t = Some es -> harmless t es ->
  NoDup (defined_names t).
Proof. exact defined_distinct. Qed.
Print Assumptions C92_names_partial.

(* Elements "note" and "note_mut": two methods are named note_mut. *)
Theorem C92_mut_refuted :
  ~ (forall t es, t_content t = Some ODynamicList -> t_enum t = Some es ->
       NoDup (map e_field es) -> NoDup (map e_variant es) -> t_defaults t = [] ->
       NoDup (defined_names t)).
Proof.
  intro H.
  specialize (H (TypeData (Some ODynamicList)
                   (Some [Element 0 "note" OSingle; Element 1 "note_mut" OSingle]) [])
                _ eq_refl eq_refl).
  assert (A : NoDup ["note"; "note_mut"]) by (repeat constructor; cbn; intuition discriminate).
  assert (B : NoDup [0; 1]) by (repeat constructor; cbn; intuition discriminate).
  specialize (H A B eq_refl). cbn in H.
  inversion H as [|? ? _ H1]; subst. inversion H1 as [|? ? H2 _]; subst. apply H2. cbn. auto.
Qed.
Print Assumptions C92_mut_refuted.

(* An attribute "note" with a default and an element "default_note": two
   functions are named default_note. *)
Theorem C92_default_refuted :
  ~ (forall t es, t_content t = Some ODynamicList -> t_enum t = Some es ->
       NoDup (map e_field es) -> NoDup (map e_variant es) -> NoDup (t_defaults t) ->
       (forall e, In e es -> ~ ends_with "_mut" (e_field e)) ->
       NoDup (defined_names t)).
Proof.
  intro H.
  specialize (H (TypeData (Some ODynamicList)
                   (Some [Element 0 "default_note" OSingle]) ["note"]) _ eq_refl eq_refl).
  assert (A : NoDup ["default_note"]) by (repeat constructor; cbn; intuition discriminate).
  assert (B : NoDup [0]) by (repeat constructor; cbn; intuition discriminate).
  assert (C : NoDup ["note"]) by (repeat constructor; cbn; intuition discriminate).
  specialize (H A B C).
  assert (D : forall e, In e [Element 0 "default_note" OSingle] -> ~ ends_with "_mut" (e_field e)).
  { intros e [<-|[]] [p E]. cbn in E.
    do 13 (destruct p as [|? p]; [cbn in E; discriminate E|cbn in E; try discriminate E; injection E as ? E]). }
  specialize (H D). cbn in H. inversion H as [|? ? H2 _]; subst. apply H2. cbn. auto.
Qed.
Print Assumptions C92_default_refuted.

(* Alternatives that are not read exactly once get no accessor. *)
Theorem C92_optional_refuted :
  ~ (forall t es ms e, render_helpers t = Some ms -> t_enum t = Some es -> In e es ->
       exists m, In m ms /\ m_variant m = e_variant e).
Proof.
  intro H.
  destruct (H (TypeData (Some ODynamicList) (Some [Element 7 "a" OOptional]) []) _ _
              (Element 7 "a" OOptional) eq_refl eq_refl (or_introl eq_refl)) as (m & [] & _).
Qed.
Print Assumptions C92_optional_refuted.

(* A type with a keyword, an optional alternative and a default. *)
Definition case_type : type_data :=
  TypeData (Some ODynamicList)
    (Some [Element 0 "type_" OSingle; Element 1 "note" OSingle; Element 2 "rest" ODynamicList])
    ["kind"].

Example C92_case_names : defined_names case_type
  = ["default_kind"; "type_"; "type_mut"; "note"; "note_mut"].
Proof. reflexivity. Qed.

Example C92_case_harmless : harmless case_type
  [Element 0 "type_" OSingle; Element 1 "note" OSingle; Element 2 "rest" ODynamicList].
Proof.
  split; [|split; [|split]].
  - cbn. repeat constructor; cbn; intuition discriminate.
  - intros e H. cbn in H. destruct H as [<-|[<-|[]]]; intros [p E]; cbn in E;
      do 6 (destruct p as [|? p]; [cbn in E; discriminate E|cbn in E; try discriminate E; injection E as ? E]).
  - intros e H _. cbn in H. destruct H as [<-|[<-|[]]]; intros [p E]; cbn in E; discriminate E.
  - repeat constructor; cbn; intuition discriminate.
Qed.

Example C92_case_get :
  exists ms, render_helpers case_type = Some ms
    /\ get ms "note" [(2, 5); (1, 6); (0, 7); (1, 8)] = Some (Some 6)
    /\ update ms "type_mut" (fun x => x + 1) [(2, 5); (1, 6); (0, 7); (1, 8)]
       = Some (Some [(2, 5); (1, 6); (0, 8); (1, 8)])
    /\ get ms "note" [(2, 5)] = Some None.
Proof. eexists. repeat split. Qed.

(** C30: merging duplicate types. *)
From Verif Require Import MetaModel MetaSpec MetaProofs MetaProps DupModel DupSpec DupProofs.
Local Open Scope string_scope.

(** Without circular type definitions the pass ends, every identifier is still there and
    resolves to a definition with the same structure as before, no circular definition is
    introduced, and no two equal definitions are left.  [fuel] only has to be large
    enough: larger than the square of the number of types plus one. *)
Theorem C30_merges_equal_partial : forall ts fuel,
  NoDup (map fst ts) -> no_loops ts -> S (length ts) * S (length ts) <= fuel ->
  exists ts', remove_duplicates fuel ts = Some ts' /\ stands_for ts ts' /\ no_loops ts' /\ no_duplicates ts'.
Proof.
  intros ts fuel ND NL F. apply loop_spec; try assumption; [|apply stands_refl].
  pose proof (measure_bound ts). lia.
Qed.
Print Assumptions C30_merges_equal_partial.

(** Two equal sequences, an alias of each, and types that use them: they become equal
    once the sequences are merged, which takes a second round. *)
Definition ex_seq (s : string) : mtype :=
  mtype_new (VSequence (GroupMeta false [ElementMeta (PIdent 1 (Named "e")) (EVType (ex_id s) ModeElement)
    Qualified 0 1 (Bounded 1) None []])).
Definition ex_dups : types :=
  [(ex_id "a", ex_ref "s1"); (ex_id "b", ex_ref "s2"); (ex_id "s1", ex_seq "str"); (ex_id "s2", ex_seq "str");
   (ex_id "str", mtype_new (VBuildIn BString)); (ex_id "u1", ex_seq "a"); (ex_id "u2", ex_seq "b")].

Example C30_case : NoDup (map fst ex_dups) /\
  remove_duplicates 64 ex_dups = Some
    [(ex_id "a", ex_ref "s1"); (ex_id "b", ex_ref "s1"); (ex_id "s1", ex_seq "str"); (ex_id "s2", ex_ref "s1");
     (ex_id "str", mtype_new (VBuildIn BString)); (ex_id "u1", ex_seq "a"); (ex_id "u2", ex_ref "u1")].
Proof.
  split; [|vm_compute; reflexivity].
  repeat (constructor; [cbn; intros X; repeat (destruct X as [X|X]; [discriminate X|]); exact X|]). constructor.
Qed.

(** The types above have no circular definition. *)
Example C30_case_no_loops : no_loops ex_dups.
Proof.
  assert (T : forall s, In s ["s1"; "s2"] -> forall c, ~ plain_step ex_dups (ex_id s) c).
  { intros s [<-|[<-|[]]] c (ty & L & V); cbn in L; injection L as <-; discriminate V. }
  intros a b (ty & L & V) H.
  assert (B : In b [ex_id "s1"; ex_id "s2"] /\ In a [ex_id "a"; ex_id "b"]).
  { apply lookup_in in L. cbn in L.
    repeat (destruct L as [L|L]; [injection L as <- <-; try discriminate V; injection V as <-; cbn; auto|]). destruct L. }
  destruct B as [B A].
  inversion H as [x E1 E2|x y z S R]; subst.
  - destruct A as [<-|[<-|[]]]; destruct B as [B|[B|[]]]; discriminate B.
  - destruct B as [<-|[<-|[]]]; eapply T in S; auto; cbn; auto.
Qed.

(** A circular definition f -> g -> h -> f and an alias of g: the pass does not end,
    whatever the fuel. *)
Definition ex_spin (s : string) : types :=
  [(ex_id "f", ex_ref "g"); (ex_id "g", ex_ref "h"); (ex_id "h", ex_ref "f"); (ex_id "t", ex_ref s)].

Theorem C30_loops_refuted : exists ts, NoDup (map fst ts) /\ forall fuel, remove_duplicates fuel ts = None.
Proof.
  exists (ex_spin "g"). split.
  { repeat (constructor; [cbn; intros X; repeat (destruct X as [X|X]; [discriminate X|]); exact X|]). constructor. }
  assert (E : forall s s', In (s, s') [("g", "h"); ("h", "f"); ("f", "g")] ->
    dup_scan (ex_spin s) (ex_spin s) [] [] = [(ex_id "t", ex_id s')] /\
    dup_replace [(ex_id "t", ex_id s')] (ex_spin s) = ex_spin s').
  { intros s s' [X|[X|[X|[]]]]; injection X as <- <-; split; vm_compute; reflexivity. }
  assert (G : forall fuel s, In s ["g"; "h"; "f"] -> remove_duplicates fuel (ex_spin s) = None).
  { induction fuel as [|fuel IH]; intros s H; [reflexivity|].
    assert (X : exists s', In (s, s') [("g", "h"); ("h", "f"); ("f", "g")] /\ In s' ["g"; "h"; "f"]).
    { destruct H as [<-|[<-|[<-|[]]]]; [exists "h"|exists "f"|exists "g"]; cbn; auto 10. }
    destruct X as (s' & P & Q). destruct (E s s' P) as [E1 E2]. cbn [remove_duplicates]. rewrite E1, E2. apply IH, Q. }
  intros fuel. apply G. left. reflexivity.
Qed.
Print Assumptions C30_loops_refuted.

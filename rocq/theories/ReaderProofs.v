From Verif Require Import ReaderModel ReaderSpec ScopeProofs DeProofs.
Local Open Scope string_scope.

Definition base_reader (keeps : bool) : xreader base := XReader (base_read keeps) (fun b e => with_pos e (b_pos b)).

Lemma readers_base : forall x, In x readers -> exists keeps, x = base_reader keeps.
Proof. intros x [<-|[<-|[]]]; [exists false|exists true]; reflexivity. Qed.

Lemma item_events_app a b : item_events (a ++ b) = (item_events a ++ item_events b)%list.
Proof. apply flat_map_app. Qed.

Definition path_of (lossy : bytes -> bytes) (seen : list item) : list bytes :=
  fold_left (error_info_update lossy) (item_events seen) [].

Lemma rev_path lossy seen : rev (path_of lossy seen) = names lossy (open_elements (item_events seen)).
Proof. apply (error_path_open lossy (item_events seen)). Qed.

Lemma path_snoc lossy seen e p s : path_of lossy (seen ++ [IEvent e p s]) = error_info_update lossy (path_of lossy seen) e.
Proof. unfold path_of. rewrite item_events_app, fold_left_app. reflexivity. Qed.

Lemma path_error lossy seen k p s : path_of lossy (seen ++ [IError k p s]) = path_of lossy seen.
Proof. unfold path_of. rewrite item_events_app, app_nil_r. reflexivity. Qed.

Section Loop.
  Context {T D : Type} (des : deser T D) (tb : bytes -> option bool) (lossy : bytes -> bytes) (keeps : bool).

  Lemma loop_where fuel : forall v seen items pos buf err, Forall is_event seen ->
    read_loop des tb (error_reader lossy (base_reader keeps)) fuel v (Base items pos buf, path_of lossy seen) = XError err ->
    exists read rest, items = (read ++ rest)%list /\ read <> [] /\ raised_at lossy (seen ++ read) err.
  Proof.
    induction fuel as [|fuel IH]; intros v seen items pos buf err HS HE; [discriminate|].
    cbn in HE. destruct items as [|i items]; [discriminate|].
    assert (HA : forall k, (match i with IError k' _ _ => k = k' | _ => True end) ->
       err = with_error_info (with_pos (new_error k) (item_pos i)) (path_of lossy (seen ++ [i])) ->
       exists read rest, (i :: items = read ++ rest)%list /\ read <> [] /\ raised_at lossy (seen ++ read) err).
    { intros k HK ->. exists [i], items. split; [reflexivity|]. split; [discriminate|]. exists seen, i. split; [reflexivity|].
      split; [exact HS|]. cbn. split; [reflexivity|]. split; [rewrite rev_path; reflexivity|]. destruct i; [exact I|exact HK]. }
    destruct i as [e p s|k p s]; cbn in HE.
    - destruct (driver_step des tb v e) as [[[t|] v']|k|]; try discriminate.
      + rewrite <- (path_snoc lossy seen e p s) in HE.
        destruct (IH _ (seen ++ [IEvent e p s])%list _ _ _ _ ltac:(apply Forall_app; split; [exact HS|repeat constructor]) HE)
          as (read & rest & E & _ & HR).
        exists (IEvent e p s :: read), rest. split; [rewrite E; reflexivity|]. split; [discriminate|].
        rewrite <- app_assoc in HR. exact HR.
      + injection HE as <-. apply (HA k I). rewrite path_snoc. reflexivity.
    - injection HE as <-. apply (HA k eq_refl). rewrite path_error. reflexivity.
  Qed.

  (** The value and the items left. *)
  Lemma loop_value fuel : forall v seen items pos buf t r, Forall is_event seen ->
    read_loop des tb (error_reader lossy (base_reader keeps)) fuel v (Base items pos buf, path_of lossy seen) = XValue t r ->
    exists read rest pos' buf', items = (read ++ rest)%list /\ Forall is_event (seen ++ read) /\
      r = (Base rest pos' buf', path_of lossy (seen ++ read)) /\
      driver_run des tb v (item_events read) = RDone t [].
  Proof.
    induction fuel as [|fuel IH]; intros v seen items pos buf t r HS HE; [discriminate|].
    cbn in HE. destruct items as [|[e p s|k p s] items]; try discriminate. cbn in HE.
    destruct (driver_step des tb v e) as [[[t'|] v']|k|] eqn:ES; try discriminate.
    - injection HE as <- <-. exists [IEvent e p s], items, p, (if keeps then buf + s else buf).
      split; [reflexivity|]. split; [apply Forall_app; split; [exact HS|repeat constructor]|].
      split; [rewrite path_snoc; reflexivity|]. cbn. rewrite ES. reflexivity.
    - rewrite <- (path_snoc lossy seen e p s) in HE.
      destruct (IH _ (seen ++ [IEvent e p s])%list _ _ _ _ _ ltac:(apply Forall_app; split; [exact HS|repeat constructor]) HE)
        as (read & rest & pos' & buf' & E & F & G & H).
      exists (IEvent e p s :: read), rest, pos', buf'. split; [rewrite E; reflexivity|].
      rewrite <- app_assoc in F, G. split; [exact F|]. split; [exact G|]. cbn. rewrite ES. exact H.
  Qed.
End Loop.

(** ** With and without the names *)

Lemma loop_forget {T D} (des : deser T D) tb lossy keeps fuel : forall v b els,
  forget_path (read_loop des tb (error_reader lossy (base_reader keeps)) fuel v (b, els)) =
  read_loop des tb (base_reader keeps) fuel v b.
Proof.
  induction fuel as [|fuel IH]; intros v b els; [reflexivity|]. cbn.
  unfold error_read. cbn. unfold base_read. destruct (b_items b) as [|[e p s|k p s] items]; [reflexivity| |reflexivity].
  cbn. destruct (driver_step des tb v e) as [[[t|] v']|k|]; try reflexivity. apply IH.
Qed.

(** Asynchronous reading. *)
Lemma loop_async {T D} (des : deser T D) tb lossy keeps fuel : forall v r,
  read_loop des tb (error_reader_async lossy (base_reader keeps)) fuel v r =
  read_loop des tb (error_reader lossy (base_reader keeps)) fuel v r.
Proof.
  induction fuel as [|fuel IH]; intros v [b els]; [reflexivity|]. cbn.
  unfold error_read, error_read_async. cbn. unfold base_read.
  destruct (b_items b) as [|[e p s|k p s] items]; [reflexivity| |reflexivity].
  cbn. destruct (driver_step des tb v e) as [[[t|] v']|k|]; try reflexivity. apply IH.
Qed.

(** ** Slices and streams *)

Lemma loop_keeps {T D} (des : deser T D) tb fuel : forall v items pos buf,
  forget_buffer (read_loop des tb io_reader fuel v (Base items pos buf)) =
  read_loop des tb slice_reader fuel v (Base items pos 0).
Proof.
  induction fuel as [|fuel IH]; intros v items pos buf; [reflexivity|]. cbn.
  destruct items as [|[e p s|k p s] items]; [reflexivity| |reflexivity].
  cbn. destruct (driver_step des tb v e) as [[[t|] v']|k|]; try reflexivity. apply IH.
Qed.

Lemma loop_buffer {T D} (des : deser T D) tb fuel : forall v items pos buf t b,
  read_loop des tb io_reader fuel v (Base items pos buf) = XValue t b ->
  exists read, items = (read ++ b_items b)%list /\ b_buffer b = buf + total_size read.
Proof.
  induction fuel as [|fuel IH]; intros v items pos buf t b HE; [discriminate|]. cbn in HE.
  destruct items as [|[e p s|k p s] items]; try discriminate. cbn in HE.
  destruct (driver_step des tb v e) as [[[t'|] v']|k|]; try discriminate.
  - injection HE as <- <-. exists [IEvent e p s]. split; [reflexivity|]. cbn. lia.
  - destruct (IH _ _ _ _ _ _ HE) as (read & E & F). exists (IEvent e p s :: read).
    split; [cbn; rewrite E; reflexivity|]. rewrite F. unfold total_size. cbn. lia.
Qed.

(** A number with any amount of comments. *)
Lemma comments_read tb fuel : forall h k rest pos buf,
  d_pending h = false ->
  read_loop number_des tb io_reader (k + fuel) (Driver h (Some "7") None)
    (Base (repeat (IEvent (EComment "") 0 1) k ++ rest) pos buf) =
  read_loop number_des tb io_reader fuel (Driver h (Some "7") None) (Base rest (if k then pos else 0) (buf + k)).
Proof.
  intros h k. induction k as [|k IH]; intros rest pos buf HP; cbn [Nat.add repeat app]; [rewrite Nat.add_0_r; reflexivity|].
  cbn [read_loop io_reader x_read base_read b_items item_pos item_size b_buffer]. unfold driver_step. cbn [v_helper dh_event].
  unfold dh_pop. rewrite HP. cbn [v_skip handle_skip v_des number_des content_deser de_next].
  cbn [content_next piece]. cbn [o_any o_ev o_art into_event unconsumed].
  rewrite IH by exact HP. destruct k; f_equal; f_equal; lia.
Qed.

(** ** Reading on *)

Lemma read_n_seen lossy keeps n : forall seen items pos buf r,
  read_n (error_reader lossy (base_reader keeps)) n (Base items pos buf, path_of lossy seen) = Some r -> Forall is_event seen ->
  exists read rest pos' buf', items = (read ++ rest)%list /\ length read = n /\ Forall is_event (seen ++ read) /\
    r = (Base rest pos' buf', path_of lossy (seen ++ read)).
Proof.
  induction n as [|n IH]; intros seen items pos buf r HE HS; cbn in HE.
  - injection HE as <-. exists [], items, pos, buf. rewrite app_nil_r. auto.
  - destruct items as [|[e p s|k p s] items]; try discriminate. cbn in HE. rewrite <- (path_snoc lossy seen e p s) in HE.
    destruct (IH _ _ _ _ _ HE ltac:(apply Forall_app; split; [exact HS|repeat constructor]))
      as (read & rest & pos' & buf' & E & L & F & G).
    exists (IEvent e p s :: read), rest, pos', buf'. rewrite <- app_assoc in F, G.
    split; [rewrite E; reflexivity|]. split; [cbn; congruence|]. split; [exact F|exact G].
Qed.

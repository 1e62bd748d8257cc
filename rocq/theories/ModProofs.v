From Verif Require Import PathSpec ModModel ModSpec.

(** ** Entries *)
Definition keyb {V} (k : str) (x : str * V) : bool := if str_eq_dec k (fst x) then true else false.
Definition get {V} (k : str) (l : list (str * V)) : option V := option_map snd (find (keyb k) l).

Lemma get_entry {V} k d (f : V -> V) l k' :
  get k' (entry k d f l) = if str_eq_dec k k' then Some (f (match get k l with Some v => v | None => d end)) else get k' l.
Proof.
  unfold get. induction l as [|[a v] l IH]; cbn.
  - unfold keyb at 1. cbn. destruct (str_eq_dec k' k), (str_eq_dec k k'); try congruence; reflexivity.
  - destruct (str_eq_dec k a) as [E|E]; cbn; unfold keyb at 1; cbn.
    + unfold keyb at 2. cbn. destruct (str_eq_dec k a) as [_|]; [|congruence]. unfold keyb at 2. cbn. subst a.
      destruct (str_eq_dec k' k), (str_eq_dec k k'); try congruence; reflexivity.
    + unfold keyb at 2. cbn. destruct (str_eq_dec k a) as [|_]; [congruence|]. unfold keyb at 3. cbn.
      destruct (str_eq_dec k' a) as [E'|E']; [|exact IH]. destruct (str_eq_dec k k'); [congruence|reflexivity].
Qed.

Lemma entry_keys {V} k d (f : V -> V) l : map fst (entry k d f l) = map fst l /\ In k (map fst l) \/
  map fst (entry k d f l) = map fst l ++ [k] /\ ~ In k (map fst l).
Proof.
  induction l as [|[a v] l IH]; cbn; [right; tauto|]. destruct (str_eq_dec k a) as [E|E]; cbn.
  - left. auto.
  - destruct IH as [(H1 & H2)|(H1 & H2)]; rewrite H1; [left|right]; (split; [reflexivity|]); intuition congruence.
Qed.

Lemma entry_nodup {V} k d (f : V -> V) l : NoDup (map fst l) -> NoDup (map fst (entry k d f l)).
Proof.
  intros N. destruct (entry_keys k d f l) as [(-> & _)|(-> & H)]; [exact N|]. apply NoDup_Add with (a := k) (l := map fst l).
  - rewrite <- (app_nil_r (map fst l)) at 1. apply Add_app.
  - auto.
Qed.

Lemma entry_nonempty {V} k d (f : V -> V) l : entry k d f l <> [].
Proof. destruct l as [|[a v] l]; cbn; [discriminate|]. destruct (str_eq_dec k a); discriminate. Qed.

Lemma entry_forall {V} (P : V -> Prop) k d f (l : list (str * V)) : P (f d) -> (forall v, P v -> P (f v)) ->
  Forall (fun x => P (snd x)) l -> Forall (fun x => P (snd x)) (entry k d f l).
Proof.
  intros D F A. induction A as [|[a v] l Hx A IH]; cbn; [now repeat constructor|].
  destruct (str_eq_dec k a); constructor; auto. now apply F.
Qed.

Lemma get_in {V} k (l : list (str * V)) v : get k l = Some v -> In (k, v) l.
Proof.
  unfold get. destruct (find (keyb k) l) as [[a x]|] eqn:E; [|discriminate]. cbn. intros [= <-].
  apply find_some in E. destruct E as [I K]. unfold keyb in K. cbn in K. destruct (str_eq_dec k a); [subst a; exact I|discriminate].
Qed.
Lemma in_get {V} k (l : list (str * V)) v : NoDup (map fst l) -> In (k, v) l -> get k l = Some v.
Proof.
  unfold get. induction l as [|[a x] l IH]; cbn; intros N I; [destruct I|]. inversion N as [|? ? Na N']; subst.
  unfold keyb at 1. cbn. destruct (str_eq_dec k a) as [->|E].
  - destruct I as [[= ->]|I]; [reflexivity|]. exfalso. apply Na. apply in_map_iff. now exists (a, v).
  - destruct I as [[= -> ->]|I]; [congruence|]. now apply IH.
Qed.
Lemma get_none {V} k (l : list (str * V)) : get k l = None <-> ~ In k (map fst l).
Proof.
  unfold get. induction l as [|[a x] l IH]; cbn; [tauto|]. unfold keyb at 1. cbn. destruct (str_eq_dec k a) as [->|E]; cbn.
  - split; [discriminate|]. intros H. exfalso. auto.
  - rewrite IH. intuition congruence.
Qed.

(** ** The tree *)
Fixpoint module_ind' (P : module -> Prop) (H : forall c us subs, Forall (fun x => P (snd x)) subs -> P (Mod c us subs)) (m : module) {struct m} : P m :=
  match m with
  | Mod c us subs => H c us subs
      ((fix all (l : list (str * module)) : Forall (fun x => P (snd x)) l :=
         match l with
         | [] => Forall_nil _
         | (i, m') :: l' => @Forall_cons _ (fun x => P (snd x)) (i, m') l' (module_ind' P H m') (all l')
         end) subs)
  end.

Lemma module_at_cons a p m : module_at (a :: p) m = match get a (m_subs m) with Some m' => module_at p m' | None => None end.
Proof. cbn. unfold get. change (fun x : str * module => if str_eq_dec a (fst x) then true else false) with (@keyb module a). now destruct (find (keyb a) (m_subs m)) as [[? ?]|]. Qed.

Lemma module_at_app p q m : module_at (p ++ q) m = match module_at p m with Some m' => module_at q m' | None => None end.
Proof.
  revert m. induction p as [|a p IH]; intros m; [reflexivity|]. rewrite <- app_comm_cons, !module_at_cons.
  destruct (get a (m_subs m)); [apply IH|reflexivity].
Qed.

Definition or_default (m : option module) : module := match m with Some m => m | None => mod_default end.
Lemma at_default p : module_at p mod_default = match p with [] => Some mod_default | _ => None end.
Proof. destruct p; reflexivity. Qed.

(** The code and the declarations of a module that may not exist. *)
Definition code_at (p : list str) (m : module) : list ttok := m_code (or_default (module_at p m)).
Definition usings_at (p : list str) (m : module) : list (str * bool) := m_usings (or_default (module_at p m)).

Lemma at_module_here p f m : module_at p (at_module p f m) = Some (f (or_default (module_at p m))).
Proof.
  revert m. induction p as [|a p IH]; intros m; [reflexivity|]. cbn [at_module]. rewrite !module_at_cons. cbn [m_subs]. rewrite get_entry.
  destruct (str_eq_dec a a) as [_|]; [|congruence]. rewrite IH. do 2 f_equal.
  destruct (get a (m_subs m)); [reflexivity|]. rewrite at_default. now destruct p.
Qed.

Definition same_subs (f : module -> module) : Prop := forall m, m_subs (f m) = m_subs m.

Lemma default_code p : code_at p mod_default = [] /\ usings_at p mod_default = [].
Proof. unfold code_at, usings_at. rewrite at_default. destruct p; split; reflexivity. Qed.

Lemma at_module_else p p' f m : same_subs f -> p <> p' ->
  code_at p' (at_module p f m) = code_at p' m /\ usings_at p' (at_module p f m) = usings_at p' m.
Proof.
  intros SF. revert p' m. induction p as [|a p IH]; intros [|b p'] m Ne; try congruence; cbn [at_module].
  - unfold code_at, usings_at. rewrite !module_at_cons, SF. split; reflexivity.
  - split; reflexivity.
  - unfold code_at, usings_at. rewrite !module_at_cons. cbn [m_subs]. rewrite get_entry. destruct (str_eq_dec a b) as [->|E]; [|split; reflexivity].
    assert (Ne' : p <> p') by congruence. destruct (get b (m_subs m)) as [m'|].
    + exact (IH p' m' Ne').
    + destruct (IH p' mod_default Ne') as [H1 H2]. destruct (default_code p') as [D1 D2]. split; [exact (eq_trans H1 D1)|exact (eq_trans H2 D2)].
Qed.

Lemma at_module_exists p p' f m : same_subs f ->
  (module_at p' (at_module p f m) <> None <-> module_at p' m <> None \/ exists r, p = p' ++ r).
Proof.
  intros SF. revert p' m. induction p as [|a p IH]; intros [|b p'] m; cbn [at_module].
  - split; [intros _; left; discriminate|discriminate].
  - rewrite !module_at_cons, SF. split; [auto|]. intros [H|(r & H)]; [exact H|discriminate].
  - split; [intros _; left; discriminate|discriminate].
  - rewrite !module_at_cons. cbn [m_subs]. rewrite get_entry. destruct (str_eq_dec a b) as [->|E].
    + rewrite IH. destruct (get b (m_subs m)) as [m'|].
      * split; (intros [H|(r & H)]; [now left|right]); [exists r; now rewrite H|]. injection H as H. now exists r.
      * rewrite at_default. split.
        -- intros [H|(r & H)]; [|right; exists r; now rewrite H]. destruct p'; [|congruence]. right. now exists p.
        -- intros [H|(r & H)]; [congruence|]. injection H as H. right. now exists r.
    + split; [auto|]. intros [H|(r & H)]; [exact H|]. injection H as H _. congruence.
Qed.

Inductive keyed : module -> Prop :=
| keyed_mod c us subs : NoDup (map fst subs) -> Forall (fun x => keyed (snd x)) subs -> keyed (Mod c us subs).
Lemma keyed_default : keyed mod_default.
Proof. constructor; constructor. Qed.
Lemma at_module_keyed p f m : same_subs f -> keyed m -> keyed (at_module p f m).
Proof.
  intros SF. revert m. induction p as [|a p IH]; intros [c us subs] K; inversion K as [? ? ? N F]; subst; cbn [at_module].
  - specialize (SF (Mod c us subs)). cbn in SF. destruct (f (Mod c us subs)) as [c' us' subs']. cbn in SF. subst subs'. now constructor.
  - cbn. constructor; [now apply entry_nodup|]. apply entry_forall; auto. apply IH, keyed_default.
Qed.

Lemma append_subs c : same_subs (mod_append c). Proof. intros m. reflexivity. Qed.
Lemma prepend_subs c : same_subs (mod_prepend c). Proof. intros m. reflexivity. Qed.
Lemma usings_subs a l : same_subs (mod_usings a l). Proof. intros m. reflexivity. Qed.

Definition op_fun (o : mod_op) : module -> module :=
  match o with OpAppend _ c => mod_append c | OpPrepend _ c => mod_prepend c | OpUsings _ a l => mod_usings a l end.
Lemma op_fun_subs o : same_subs (op_fun o).
Proof. destruct o; [apply append_subs|apply prepend_subs|apply usings_subs]. Qed.
Lemma mod_step_eq m o : mod_step m o = at_module (op_path o) (op_fun o) m.
Proof. now destruct o. Qed.

Lemma run_keyed ops : keyed (mod_run ops).
Proof.
  unfold mod_run. assert (G : forall m, keyed m -> keyed (fold_left mod_step ops m)).
  { induction ops as [|o ops IH]; cbn; intros m K; [exact K|]. apply IH. rewrite mod_step_eq. apply at_module_keyed; [apply op_fun_subs|exact K]. }
  apply G, keyed_default.
Qed.

Lemma run_code ops p : code_at p (mod_run ops) = code_of p ops.
Proof.
  unfold mod_run, code_of. assert (G : forall m c, code_at p m = c -> code_at p (fold_left mod_step ops m) = fold_left (code_after p) ops c).
  { induction ops as [|o ops IH]; cbn; intros m c H; [exact H|]. apply IH. rewrite mod_step_eq. unfold code_after.
    destruct (list_eq_dec str_eq_dec (op_path o) p) as [E|E].
    - unfold code_at. rewrite <- E, at_module_here. cbn [or_default]. unfold code_at in H. rewrite <- E in H.
      destruct o; cbn in *; unfold mod_append; cbn; rewrite H; reflexivity.
    - rewrite (proj1 (at_module_else _ _ _ m (op_fun_subs o) E)). exact H. }
  apply G. apply default_code.
Qed.

Lemma run_exists ops p : module_at p (mod_run ops) <> None <-> p = [] \/ exists o r, In o ops /\ op_path o = p ++ r.
Proof.
  unfold mod_run. assert (G : forall m, module_at p (fold_left mod_step ops m) <> None <-> module_at p m <> None \/ exists o r, In o ops /\ op_path o = p ++ r).
  { induction ops as [|o ops IH]; cbn; intros m.
    - split; [auto|]. intros [H|(o & r & [] & _)]. exact H.
    - rewrite IH, mod_step_eq, (at_module_exists _ _ _ _ (op_fun_subs o)). split.
      + intros [[H|(r & H)]|(o' & r & I & H)]; [now left|right; exists o, r; auto|right; exists o', r; auto].
      + intros [H|(o' & r & [<-|I] & H)]; [auto|left; right; now exists r|right; exists o', r; auto]. }
  rewrite G, at_default. destruct p; [|]; split; intros [H|H]; auto; try discriminate; try congruence. left. discriminate.
Qed.

(** ** Visits *)
Fixpoint listing (path : list str) (m : module) : list (list str * module) :=
  match m with
  | Mod c us subs => (path, Mod c us subs) :: flat_map (fun x => listing (path ++ [fst x]) (snd x)) subs
  end.

Lemma until_app {S E} (f : S -> module -> list str -> S * outcome E unit) l l' s :
  until_failure f (l ++ l') s =
  match until_failure f l s with (s, Ok _) => until_failure f l' s | (s, Err e) => (s, Err e) | (s, Panic) => (s, Panic) end.
Proof.
  revert s. induction l as [|[p m] l IH]; intros s; cbn; [reflexivity|]. destruct (f s m p) as [s1 [[]|e|]]; auto.
Qed.

Lemma visit_listing S E f m : forall path s, visit S E f m path s = until_failure f (listing path m) s.
Proof.
  induction m as [c us subs IH] using module_ind'. intros path s. cbn [visit listing until_failure].
  destruct (f s (Mod c us subs) path) as [s1 [[]|e|]]; cbn [fst snd]; try reflexivity.
  revert s1. induction IH as [|[i m'] l Hm HF IH']; intros s1; cbn [flat_map until_failure]; [reflexivity|].
  rewrite until_app. cbn [fst snd] in *. rewrite Hm. destruct (until_failure f (listing (path ++ [i]) m') s1) as [s2 [[]|e|]]; cbn [fst snd]; auto.
Qed.

Lemma listing_in m : keyed m -> forall path p m', In (p, m') (listing path m) <-> exists q, p = path ++ q /\ module_at q m = Some m'.
Proof.
  induction m as [c us subs IH] using module_ind'. intros K path p m'. inversion K as [? ? ? N F]; subst. cbn [listing In]. split.
  - intros [[= <- <-]|H].
    + exists []. now rewrite app_nil_r.
    + apply in_flat_map in H. destruct H as ([i m1] & I & H). rewrite Forall_forall in IH, F. specialize (IH _ I). cbn in *.
      apply (IH (F _ I)) in H. destruct H as (q & -> & H). exists (i :: q). rewrite <- app_assoc. split; [reflexivity|].
      rewrite module_at_cons. cbn [m_subs]. now rewrite (in_get _ _ _ N I).
  - intros ([|i q] & -> & H).
    + injection H as <-. left. now rewrite app_nil_r.
    + right. rewrite module_at_cons in H. cbn [m_subs] in H. destruct (get i subs) as [m1|] eqn:G; [|discriminate]. apply get_in in G.
      apply in_flat_map. exists (i, m1). split; [exact G|]. rewrite Forall_forall in IH, F. cbn. apply (IH _ G (F _ G)).
      exists q. now rewrite <- app_assoc.
Qed.

Lemma listing_prefix m : forall path p m', In (p, m') (listing path m) -> exists q, p = path ++ q.
Proof.
  induction m as [c us subs IH] using module_ind'. intros path p m' [[= <- _]|H]; [exists []; now rewrite app_nil_r|].
  apply in_flat_map in H. destruct H as ([i m1] & I & H). rewrite Forall_forall in IH. apply (IH _ I) in H. destruct H as (q & ->). exists (i :: q). cbn. now rewrite <- app_assoc.
Qed.

Lemma nodup_app {A} (l l' : list A) : NoDup l -> NoDup l' -> (forall x, In x l -> ~ In x l') -> NoDup (l ++ l').
Proof.
  induction 1 as [|x l Nx N IH]; cbn; intros N' D; [exact N'|]. constructor.
  - rewrite in_app_iff. intros [I|I]; [tauto|]. now apply (D x (or_introl eq_refl)).
  - apply IH; auto. 
Qed.

Lemma listing_nodup m : keyed m -> forall path, NoDup (map fst (listing path m)).
Proof.
  induction m as [c us subs IH] using module_ind'. intros K path. inversion K as [? ? ? N F]; subst. cbn [listing map fst]. constructor.
  - intros I. apply in_map_iff in I. destruct I as ([p m'] & E & I). cbn in E. subst p. apply in_flat_map in I. destruct I as ([i m1] & _ & I).
    apply listing_prefix in I. destruct I as (q & E). rewrite <- (app_nil_r path) in E at 1. cbn in E. rewrite <- app_assoc in E. apply app_inv_head in E. discriminate.
  - clear K. induction subs as [|[i m1] subs IHs]; cbn; [constructor|]. inversion N as [|? ? Ni N']; subst. inversion F; subst. inversion IH; subst. cbn in *.
    rewrite map_app. apply nodup_app; auto.
    intros x I I'. apply in_map_iff in I, I'. destruct I as ([p m2] & E & I). destruct I' as ([p' m3] & E' & I'). cbn in E, E'. subst.
    apply listing_prefix in I. destruct I as (q & ->). apply in_flat_map in I'. destruct I' as ([j m4] & J & I'). apply listing_prefix in I'. destruct I' as (q' & E).
    cbn in E. rewrite <- !app_assoc in E. apply app_inv_head in E. injection E as -> _. apply Ni. apply in_map_iff. now exists (j, m4).
Qed.

Lemma visits ops : exists l, NoDup (map fst l) /\ (forall p m, In (p, m) l <-> module_at p (mod_run ops) = Some m) /\
  forall S E f s, write_to_files_with S E f (mod_run ops) s = until_failure f l s.
Proof.
  exists (listing [] (mod_run ops)). split; [apply listing_nodup, run_keyed|]. split.
  - intros p m. rewrite (listing_in _ (run_keyed ops)). cbn. split; [intros (q & -> & H); exact H|intros H; now exists p].
  - intros S E f s. apply visit_listing.
Qed.

(** ** Names of files *)
Lemma no_dot_split s : ~ In dot s -> split_last_dot s = None.
Proof.
  induction s as [|c s IH]; cbn; intros H; [reflexivity|]. rewrite IH by tauto. destruct (N.eqb_spec c dot) as [->|E]; [tauto|reflexivity].
Qed.
Lemma plain_stem s : plain_name s -> file_stem s = s.
Proof. intros (_ & H). unfold file_stem. now rewrite no_dot_split. Qed.

Lemma snoc_inj {A} (l l' : list A) x x' : l ++ [x] = l' ++ [x'] -> l = l' /\ x = x'.
Proof. apply app_inj_tail. Qed.

Lemma leaf_filename dir p a m : m_subs m = [] -> plain_name a -> filename dir (p ++ [a]) m = Some (dir ++ p ++ [a ++ dot_rs]).
Proof.
  intros E P. unfold filename. rewrite E. rewrite app_assoc, rev_app_distr. cbn. rewrite rev_involutive, plain_stem by exact P. now rewrite app_assoc.
Qed.
Lemma node_filename dir p m : m_subs m <> [] -> filename dir p m = Some (dir ++ p ++ [mod_rs]).
Proof. intros E. unfold filename. destruct (m_subs m); [congruence|reflexivity]. Qed.

Lemma at_leaf m p q m' : module_at p m = Some m' -> m_subs m' = [] -> module_at (p ++ q) m <> None -> q = [].
Proof.
  intros H E N. rewrite module_at_app, H in N. destruct q as [|a q]; [reflexivity|]. rewrite module_at_cons, E in N. now cbn in N.
Qed.

Lemma at_name m p a m' : module_at (p ++ [a]) m = Some m' -> exists mp, module_at p m = Some mp /\ get a (m_subs mp) = Some m'.
Proof.
  rewrite module_at_app. destruct (module_at p m) as [mp|]; [|discriminate]. rewrite module_at_cons. intros H. exists mp. split; [reflexivity|].
  destruct (get a (m_subs mp)); [|discriminate]. cbn in H. exact H.
Qed.
Lemma at_plain m p a m' : plain_names m -> module_at (p ++ [a]) m = Some m' -> plain_name a.
Proof. intros P H. apply at_name in H. destruct H as (mp & H & G). apply (P p mp a H). apply get_in in G. apply in_map_iff. now exists (a, m'). Qed.

Lemma file_names_distinct m dir p q mp mq n :
  plain_names m -> no_mod_leaf m -> module_at p m = Some mp -> module_at q m = Some mq ->
  filename dir p mp = Some n -> filename dir q mq = Some n -> p = q.
Proof.
  intros P NM Hp Hq Fp Fq.
  assert (Hs : forall l : list str, l = [] \/ exists l' a, l = l' ++ [a]).
  { intros l. destruct l as [|x l] using rev_ind; [now left|right; eauto]. }
  assert (D : forall p q mp mq, module_at p m = Some mp -> module_at q m = Some mq -> filename dir p mp = Some n -> filename dir q mq = Some n -> m_subs mp = [] -> m_subs mq <> [] -> p = q).
  { clear p q mp mq Hp Hq Fp Fq. intros p q mp mq Hp Hq Fp Fq Lp Lq. destruct (Hs p) as [->|(p' & a & ->)].
    - symmetry. apply (at_leaf m [] q mp Hp Lp). cbn. congruence.
    - exfalso. rewrite (leaf_filename dir p' a mp Lp (at_plain m p' a mp P Hp)) in Fp. rewrite (node_filename dir q mq Lq) in Fq.
      rewrite <- Fq in Fp. injection Fp as E. apply app_inv_head in E. apply snoc_inj in E. destruct E as [E1 E2].
      apply (NM p' mp); [|exact Lp]. replace kw_mod with a; [exact Hp|].
      change mod_rs with (kw_mod ++ dot_rs) in E2. now apply app_inv_tail in E2. }
  destruct (m_subs mp) as [|x l] eqn:Lp; destruct (m_subs mq) as [|y l'] eqn:Lq.
  - destruct (Hs p) as [->|(p' & a & ->)].
    + symmetry. apply (at_leaf m [] q mp Hp Lp). cbn. congruence.
    + destruct (Hs q) as [->|(q' & b & ->)].
      * apply (at_leaf m [] (p' ++ [a]) mq Hq Lq). cbn. congruence.
      * rewrite (leaf_filename dir p' a mp Lp (at_plain m p' a mp P Hp)) in Fp. rewrite (leaf_filename dir q' b mq Lq (at_plain m q' b mq P Hq)) in Fq.
        rewrite <- Fq in Fp. injection Fp as E. apply app_inv_head in E. apply snoc_inj in E. destruct E as [-> E]. apply app_inv_tail in E. now subst.
  - apply (D p q mp mq); auto. congruence.
  - symmetry. apply (D q p mq mp); auto. congruence.
  - rewrite (node_filename dir p mp) in Fp by congruence. rewrite (node_filename dir q mq) in Fq by congruence.
    rewrite <- Fq in Fp. injection Fp as E. apply app_inv_head in E. apply snoc_inj in E. tauto.
Qed.

(** ** What is written *)
Lemma read_file_cons n n' c fs : read_file n ((n', c) :: fs) = if list_eq_dec str_eq_dec n n' then Some c else read_file n fs.
Proof. reflexivity. Qed.

Section Written.
  Variable ident_ok : str -> bool.
  Variables (E : Type) (io : list str -> option E) (dir : list str).

  Lemma written l : (forall p q mp mq n, In (p, mp) l -> In (q, mq) l -> filename dir p mp = Some n -> filename dir q mq = Some n -> p = q) ->
    NoDup (map fst l) -> forall fs fs', until_failure (write_module ident_ok io dir) l fs = (fs', Ok tt) ->
    (forall p m, In (p, m) l -> exists n c, filename dir p m = Some n /\ to_code ident_ok SubFiles m = Ok c /\ read_file n fs' = Some c) /\
    (forall n, (forall p m, In (p, m) l -> filename dir p m <> Some n) -> read_file n fs' = read_file n fs).
  Proof.
    induction l as [|[p m] l IH]; cbn [until_failure map fst]; intros D N fs fs' H.
    - injection H as <-. split; [intros ? ? []|reflexivity].
    - inversion N as [|? ? Np N']; subst. unfold write_module in H at 1. destruct (filename dir p m) as [n|] eqn:En; [|discriminate].
      destruct (to_code ident_ok SubFiles m) as [c| |] eqn:Ec; try discriminate. destruct (io n); [discriminate|].
      destruct (IH) with (fs := (n, c) :: fs) (fs' := fs') as [H1 H2]; auto.
      { intros p0 q0 mp mq n0 I1 I2. apply D; now right. }
      split.
      + intros p0 m0 [[= <- <-]|I]; [|now apply H1]. exists n, c. repeat split; auto. rewrite H2; [cbn; now destruct (list_eq_dec str_eq_dec n n)|].
        intros q mq I Eq. apply Np. apply in_map_iff. exists (q, mq). split; [|exact I]. cbn. apply (D q p mq m n); [now right|now left|exact Eq|exact En].
      + intros n0 H0. rewrite H2 by (intros p0 m0 I; apply H0; now right). cbn. destruct (list_eq_dec str_eq_dec n0 n) as [->|]; [|reflexivity].
        exfalso. apply (H0 p m); [now left|exact En].
  Qed.

  Lemma files_written ops fs fs' : plain_names (mod_run ops) -> no_mod_leaf (mod_run ops) ->
    write_to_files ident_ok io dir (mod_run ops) fs = (fs', Ok tt) ->
    (forall p m, module_at p (mod_run ops) = Some m -> exists n c, filename dir p m = Some n /\ to_code ident_ok SubFiles m = Ok c /\ read_file n fs' = Some c) /\
    (forall n, (forall p m, module_at p (mod_run ops) = Some m -> filename dir p m <> Some n) -> read_file n fs' = read_file n fs).
  Proof.
    intros P NM H. destruct (visits ops) as (l & N & In_l & V). unfold write_to_files in H. rewrite V in H.
    destruct (written l) with (fs := fs) (fs' := fs') as [H1 H2]; auto.
    - intros p q mp mq n Ip Iq. apply In_l in Ip, Iq. now apply (file_names_distinct (mod_run ops) dir p q mp mq n).
    - split; [intros p m A; apply H1, In_l, A|]. intros n A. apply H2. intros p m I. apply A, In_l, I.
  Qed.

  (** The other place where Rust looks is free. *)
  Lemma other_place ops p a m' : plain_names (mod_run ops) -> a <> kw_mod -> module_at (p ++ [a]) (mod_run ops) = Some m' ->
    exists n n', filename dir (p ++ [a]) m' = Some n /\
      (n = dir ++ p ++ [a ++ dot_rs] /\ n' = dir ++ p ++ [a; mod_rs] \/ n = dir ++ p ++ [a; mod_rs] /\ n' = dir ++ p ++ [a ++ dot_rs]) /\
      forall q mq, module_at q (mod_run ops) = Some mq -> filename dir q mq <> Some n'.
  Proof.
    intros P Na H. set (m := mod_run ops) in *. pose proof (at_plain m p a m' P H) as Pa.
    assert (Hs : forall l : list str, l = [] \/ exists l' a, l = l' ++ [a]).
    { intros l. destruct l as [|x l] using rev_ind; [now left|right; eauto]. }
    assert (Root : forall mq, module_at [] m = Some mq -> m_subs mq <> []).
    { intros mq Hq Lq. assert (X : p ++ [a] = []) by (apply (at_leaf m [] (p ++ [a]) mq Hq Lq); cbn; congruence). destruct p; discriminate. }
    destruct (m_subs m') as [|x l] eqn:L.
    - exists (dir ++ p ++ [a ++ dot_rs]), (dir ++ p ++ [a; mod_rs]). split; [now apply leaf_filename|]. split; [left; auto|].
      intros q mq Hq. destruct (m_subs mq) as [|y l'] eqn:Lq.
      + destruct (Hs q) as [->|(q' & b & ->)]; [exfalso; now apply (Root mq)|]. rewrite (leaf_filename dir q' b mq Lq (at_plain m q' b mq P Hq)).
        intros [= E0]. apply app_inv_head in E0. change [a; mod_rs] with ([a] ++ [mod_rs]) in E0. rewrite app_assoc in E0. apply snoc_inj in E0. destruct E0 as [-> E0].
        assert (X : [b] = []) by (apply (at_leaf m (p ++ [a]) [b] m' H L); congruence). discriminate.
      + rewrite (node_filename dir q mq) by congruence. intros [= E0]. apply app_inv_head in E0. change [a; mod_rs] with ([a] ++ [mod_rs]) in E0. rewrite app_assoc in E0.
        apply snoc_inj in E0. destruct E0 as [-> _]. congruence.
    - exists (dir ++ p ++ [a; mod_rs]), (dir ++ p ++ [a ++ dot_rs]). split; [rewrite node_filename by congruence; now rewrite <- app_assoc|]. split; [right; auto|].
      intros q mq Hq. destruct (m_subs mq) as [|y l'] eqn:Lq.
      + destruct (Hs q) as [->|(q' & b & ->)]; [exfalso; now apply (Root mq)|]. rewrite (leaf_filename dir q' b mq Lq (at_plain m q' b mq P Hq)).
        intros [= E0]. apply app_inv_head in E0. apply snoc_inj in E0. destruct E0 as [-> E0]. apply app_inv_tail in E0. subst b. congruence.
      + rewrite (node_filename dir q mq) by congruence. intros [= E0]. apply app_inv_head in E0. apply snoc_inj in E0. destruct E0 as [_ E0].
        change mod_rs with (kw_mod ++ dot_rs) in E0. apply app_inv_tail in E0. congruence.
  Qed.
End Written.

(** ** Inline modules *)
Lemma inline_sits ident_ok m : forall ts, inline_code ident_ok m = Ok ts -> forall p m', module_at p m = Some m' ->
  exists uses, render_usings ident_ok (m_usings m') = Ok uses /\ sits p (uses ++ m_code m') ts.
Proof.
  induction m as [c us subs IH] using module_ind'. intros ts H p m' Hm. cbn [inline_code] in H.
  destruct (render_usings ident_ok us) as [uses| |] eqn:U; try discriminate.
  match type of H with match ?g with _ => _ end = _ => destruct g as [r| |] eqn:G; try discriminate end. injection H as <-.
  destruct p as [|a p].
  - injection Hm as <-. exists uses. split; [exact U|]. rewrite app_assoc. exact (sits_here [] (uses ++ c) r).
  - rewrite module_at_cons in Hm. cbn [m_subs] in Hm. destruct (get a subs) as [m1|] eqn:Ga; [|discriminate]. apply get_in in Ga.
    assert (X : exists ts1 x y, inline_code ident_ok m1 = Ok ts1 /\ r = x ++ [TTId kw_pub; TTId kw_mod; TTId a; TTGroup ts1] ++ y).
    { clear - Ga G. revert r G. induction subs as [|[i m2] l IHl]; intros r G; [destruct Ga|]. destruct (ident_ok i); [|discriminate].
      destruct (inline_code ident_ok m2) as [ts2| |] eqn:E2; try discriminate.
      match type of G with match ?g with _ => _ end = _ => destruct g as [r'| |] eqn:G'; try discriminate end. injection G as <-.
      destruct Ga as [[= -> ->]|Ga].
      - exists ts2, [], r'. auto.
      - destruct (IHl Ga r' eq_refl) as (ts1 & x & y & Hi & ->). exists ts1, ([TTId kw_pub; TTId kw_mod; TTId i; TTGroup ts2] ++ x), y. split; [exact Hi|]. now rewrite <- app_assoc. }
    destruct X as (ts1 & x & y & Hi & ->). rewrite Forall_forall in IH. destruct (IH _ Ga ts1 Hi p m' Hm) as (uses' & U' & S).
    exists uses'. split; [exact U'|]. rewrite !app_assoc. rewrite <- (app_assoc ((uses ++ c) ++ x)). now apply sits_in.
Qed.

Lemma declared_items ident_ok l : forall d, declare_modules ident_ok l = Ok d -> d = mod_items (map fst l).
Proof.
  induction l as [|[i m] l IH]; cbn [declare_modules]; intros d H; [now injection H as <-|].
  destruct (ident_ok i); [|discriminate]. destruct (declare_modules ident_ok l) as [r| |]; try discriminate. injection H as <-.
  now rewrite (IH r eq_refl).
Qed.
Lemma file_contents ident_ok m c : to_code ident_ok SubFiles m = Ok c ->
  exists uses, render_usings ident_ok (m_usings m) = Ok uses /\ c = mod_items (map fst (m_subs m)) ++ uses ++ m_code m.
Proof.
  cbn [to_code]. destruct (declare_modules ident_ok (m_subs m)) as [d| |] eqn:D; try discriminate.
  destruct (render_usings ident_ok (m_usings m)) as [u| |]; try discriminate. intros [= <-]. exists u. split; [reflexivity|].
  now rewrite (declared_items ident_ok _ d D).
Qed.

Lemma contents ident_ok ops p m c : module_at p (mod_run ops) = Some m -> to_code ident_ok SubFiles m = Ok c ->
  exists names uses, c = mod_items names ++ uses ++ m_code m /\ render_usings ident_ok (m_usings m) = Ok uses /\
    NoDup names /\ forall a, In a names <-> module_at (p ++ [a]) (mod_run ops) <> None.
Proof.
  intros Hm H. destruct (file_contents ident_ok m c H) as (u & U & ->). exists (map fst (m_subs m)), u. split; [reflexivity|]. split; [exact U|].
  split.
  - assert (G : forall q m0, keyed m0 -> module_at q m0 = Some m -> keyed m).
    { induction q as [|a q IH]; intros m0 K Hq; [injection Hq as <-; exact K|]. rewrite module_at_cons in Hq.
      destruct (get a (m_subs m0)) as [m1|] eqn:Ga; [|discriminate]. apply get_in in Ga. apply (IH m1); [|exact Hq].
      destruct K as [c0 us subs _ F]. rewrite Forall_forall in F. exact (F _ Ga). }
    destruct (G p _ (run_keyed ops) Hm) as [c0 us subs N _]. exact N.
  - intros a. rewrite module_at_app, Hm, module_at_cons. cbn [module_at].
    destruct (get a (m_subs m)) as [m1|] eqn:Ga.
    + split; [discriminate|]. intros _. apply get_in in Ga. now apply (in_map fst) in Ga.
    + apply get_none in Ga. split; [contradiction|]. intros X. now destruct X.
Qed.

(** ** Use declarations *)
Fixpoint utree_ind' (P : utree -> Prop) (H : forall us subs, Forall (fun x => P (snd x)) subs -> P (UTree us subs)) (t : utree) {struct t} : P t :=
  match t with
  | UTree us subs => H us subs
      ((fix all (l : list (str * utree)) : Forall (fun x => P (snd x)) l :=
         match l with
         | [] => Forall_nil _
         | (i, t') :: l' => @Forall_cons _ (fun x => P (snd x)) (i, t') l' (utree_ind' P H t') (all l')
         end) subs)
  end.

Fixpoint tget (path : list str) (i : str) (t : utree) : option bool :=
  let 'UTree us subs := t in
  match path with
  | [] => get i us
  | a :: path' => match get a subs with Some t' => tget path' i t' | None => None end
  end.
Definition u_empty : utree := UTree [] [].
Lemma tget_empty p i : tget p i u_empty = None.
Proof. destruct p; reflexivity. Qed.

Lemma tget_add p i a t p' i' : tget p' i' (utree_add p i a t) =
  if list_eq_dec str_eq_dec (p ++ [i]) (p' ++ [i']) then Some (match tget p i t with Some b => b && a | None => a end) else tget p' i' t.
Proof.
  revert p' t. induction p as [|x p IH]; intros p' [us subs]; cbn [utree_add].
  - destruct p' as [|x' p']; cbn [tget app].
    + rewrite get_entry. destruct (str_eq_dec i i') as [->|E].
      * destruct (list_eq_dec str_eq_dec [i'] [i']); [|congruence]. destruct (get i' us); [reflexivity|]. now rewrite Bool.andb_diag.
      * destruct (list_eq_dec str_eq_dec [i] [i']) as [Q|]; [injection Q; congruence|reflexivity].
    + destruct (list_eq_dec str_eq_dec [i] (x' :: p' ++ [i'])) as [Q|]; [|reflexivity]. injection Q as _ Q. destruct p'; discriminate.
  - destruct p' as [|x' p']; cbn [tget app].
    + destruct (list_eq_dec str_eq_dec (x :: p ++ [i]) [i']) as [Q|]; [|reflexivity]. injection Q as _ Q. destruct p; discriminate.
    + rewrite get_entry. destruct (str_eq_dec x x') as [->|E].
      * rewrite IH. destruct (list_eq_dec str_eq_dec (p ++ [i]) (p' ++ [i'])) as [Q|Q]; destruct (list_eq_dec str_eq_dec (x' :: p ++ [i]) (x' :: p' ++ [i'])) as [Q'|Q']; try congruence.
        -- destruct (get x' subs); [reflexivity|]. fold u_empty. now rewrite tget_empty.
        -- destruct (get x' subs); [reflexivity|]. fold u_empty. now rewrite tget_empty.
      * destruct (list_eq_dec str_eq_dec (x :: p ++ [i]) (x' :: p' ++ [i'])); [congruence|reflexivity].
Qed.

(** Keys are distinct, and there is something in every sub-tree. *)
Fixpoint expand (t : utree) : list (list str * bool) :=
  match t with
  | UTree us subs => map (fun x => ([fst x], snd x)) us ++ flat_map (fun x => map (fun y => (fst x :: fst y, snd y)) (expand (snd x))) subs
  end.
Definition some_in (t : utree) : Prop := let 'UTree us subs := t in us <> [] \/ subs <> [].
Inductive good : utree -> Prop :=
| good_tree us subs : NoDup (map fst us) -> NoDup (map fst subs) -> Forall (fun x => good (snd x) /\ some_in (snd x)) subs -> good (UTree us subs).
Lemma good_empty : good u_empty.
Proof. repeat constructor. Qed.

Lemma add_some p i a t : some_in (utree_add p i a t).
Proof. destruct t as [us subs]. destruct p; cbn; [left|right]; apply entry_nonempty. Qed.
Lemma add_good p i a t : good t -> good (utree_add p i a t).
Proof.
  revert t. induction p as [|x p IH]; intros [us subs] G; inversion G as [? ? N1 N2 F]; subst; cbn.
  - constructor; auto. now apply entry_nodup.
  - constructor; auto; [now apply entry_nodup|]. apply (entry_forall (fun t => good t /\ some_in t)); auto.
    + split; [apply IH, good_empty|apply add_some].
    + intros v [Gv _]. split; [now apply IH|apply add_some].
Qed.

Lemma expand_in t : good t -> forall q b, In (q, b) (expand t) <-> exists p i, q = p ++ [i] /\ tget p i t = Some b.
Proof.
  induction t as [us subs IH] using utree_ind'. intros G q b. inversion G as [? ? N1 N2 F]; subst. cbn [expand]. rewrite in_app_iff, in_map_iff, in_flat_map. split.
  - intros [([i b'] & [= <- <-] & I)|([x t'] & I & H)].
    + exists [], i. split; [reflexivity|]. cbn. now apply in_get.
    + apply in_map_iff in H. destruct H as ([q' b'] & [= <- <-] & H). rewrite Forall_forall in IH, F. cbn in *. apply (IH _ I (proj1 (F _ I))) in H.
      destruct H as (p & i & -> & H). exists (x :: p), i. split; [reflexivity|]. cbn. now rewrite (in_get _ _ _ N2 I).
  - intros ([|x p] & i & -> & H); cbn in H.
    + left. exists (i, b). split; [reflexivity|]. now apply get_in.
    + right. destruct (get x subs) as [t'|] eqn:Gx; [|discriminate]. apply get_in in Gx. exists (x, t'). split; [exact Gx|]. apply in_map_iff.
      exists (p ++ [i], b). split; [reflexivity|]. rewrite Forall_forall in IH, F. cbn. apply (IH _ Gx (proj1 (F _ Gx))). now exists p, i.
Qed.

Lemma expand_nodup t : good t -> NoDup (map fst (expand t)).
Proof.
  induction t as [us subs IH] using utree_ind'. intros G. inversion G as [? ? N1 N2 F]; subst. cbn [expand]. rewrite map_app. apply nodup_app.
  - rewrite map_map. cbn. clear - N1. induction us as [|[i b] us IHu]; cbn; [constructor|]. inversion N1; subst. constructor; [|now apply IHu].
    intros I. apply in_map_iff in I. destruct I as (x & [= E] & I). apply H1. apply in_map_iff. now exists x.
  - clear G N1. induction subs as [|[x t] subs IHs]; cbn; [constructor|]. inversion N2; subst. inversion F as [|? ? [Gt _] F']; subst. inversion IH; subst. cbn in *.
    rewrite map_app. apply nodup_app; auto.
    + rewrite map_map. cbn. specialize (H3 Gt). rewrite <- (map_map fst (cons x)). clear - H3. induction H3 as [|y l Ny Nl IHl]; cbn; constructor; auto.
      intros I. apply in_map_iff in I. destruct I as (z & [= ->] & I). auto.
    + intros q I I'. rewrite map_map in I. apply in_map_iff in I, I'. destruct I as ([q1 b1] & <- & I). destruct I' as ([q2 b2] & E & I').
      apply in_flat_map in I'. destruct I' as ([y t2] & J & I'). apply in_map_iff in I'. destruct I' as ([q3 b3] & [= <- <-] & I'). cbn in E. injection E as -> _.
      apply H1. apply in_map_iff. now exists (x, t2).
  - intros q I I'. rewrite map_map in I. apply in_map_iff in I, I'. destruct I as ([i b] & <- & I). destruct I' as ([q2 b2] & E & I').
    apply in_flat_map in I'. destruct I' as ([y t2] & J & I'). apply in_map_iff in I'. destruct I' as ([q3 b3] & [= <- <-] & I'). cbn in E. injection E as -> E.
    rewrite Forall_forall in F. destruct (F _ J) as [Gt _]. apply (expand_in t2 Gt) in I'. destruct I' as (p & j & -> & _). destruct p; discriminate.
Qed.

(** Reading what was rendered. *)
Definition inner (t : ttok) : Prop := t <> TTComma /\ t <> TTSemi.

Lemma split_comma_run run cur rest : Forall inner run -> split_comma cur (run ++ TTComma :: rest) = (rev cur ++ run) :: split_comma [] rest.
Proof.
  revert cur. induction run as [|t run IH]; intros cur F; cbn; [now rewrite app_nil_r|]. inversion F as [|? ? [T1 T2] F']; subst.
  replace (rev cur ++ t :: run) with (rev (t :: cur) ++ run) by (cbn; now rewrite <- app_assoc). rewrite <- IH by exact F'. destruct t; try reflexivity. congruence.
Qed.
Lemma split_comma_end run cur : Forall inner run -> split_comma cur run = [rev cur ++ run].
Proof.
  revert cur. induction run as [|t run IH]; intros cur F; cbn; [now rewrite app_nil_r|]. inversion F as [|? ? [T1 T2] F']; subst.
  replace (rev cur ++ t :: run) with (rev (t :: cur) ++ run) by (cbn; now rewrite <- app_assoc). rewrite <- IH by exact F'. destruct t; try reflexivity. congruence.
Qed.
Lemma split_sep items : items <> [] -> Forall (Forall inner) items -> split_comma [] (sep_by TTComma items) = items.
Proof.
  induction items as [|i [|j items] IH]; intros Ne F; [congruence| |].
  - inversion F; subst. cbn. rewrite split_comma_end; auto.
  - inversion F; subst. change (sep_by TTComma (i :: j :: items)) with (i ++ TTComma :: sep_by TTComma (j :: items)).
    rewrite split_comma_run by auto. cbn [rev app]. rewrite IH; auto. discriminate.
Qed.
Lemma to_semi_run run cur rest : Forall inner run -> to_semi cur (run ++ TTSemi :: rest) = Some (rev cur ++ run, rest).
Proof.
  revert cur. induction run as [|t run IH]; intros cur F; cbn; [now rewrite app_nil_r|]. inversion F as [|? ? [T1 T2] F']; subst.
  replace (rev cur ++ t :: run) with (rev (t :: cur) ++ run) by (cbn; now rewrite <- app_assoc). rewrite <- IH by exact F'. destruct t; try reflexivity. congruence.
Qed.

Lemma inner_id s : inner (TTId s). Proof. split; discriminate. Qed.
Lemma inner_sep : inner TTSep. Proof. split; discriminate. Qed.
Lemma inner_group l : inner (TTGroup l). Proof. split; discriminate. Qed.

Lemma concat_inner items : Forall (Forall inner) items -> Forall inner (concat items).
Proof. induction 1; cbn; [constructor|]. apply Forall_app. auto. Qed.

Definition item_of (x : str * utree) : list ttok := TTId (fst x) :: TTSep :: utree_render (snd x).
Lemma render_inner t : Forall inner (utree_render t).
Proof.
  induction t as [us subs IH] using utree_ind'. cbn [utree_render]. destruct (1 <? length us + length subs); [repeat constructor; discriminate|].
  apply concat_inner. apply Forall_app. split; apply Forall_map; rewrite Forall_forall.
  - intros [i b] _. unfold render_using. cbn. destruct b; repeat constructor; discriminate.
  - intros x I. rewrite Forall_forall in IH. repeat (constructor; [split; discriminate|]). now apply IH.
Qed.
Lemma using_inner x : Forall inner (render_using x).
Proof. unfold render_using. destruct (snd x); repeat constructor; discriminate. Qed.
Lemma item_inner x : Forall inner (item_of x).
Proof. repeat (constructor; [split; discriminate|]). apply render_inner. Qed.

(** Tokens are read as a list of paths, with enough fuel. *)
Definition reads (ts : list ttok) (x : list (list str * bool)) : Prop := exists f0, forall fuel, f0 <= fuel -> read_tree fuel ts = Some x.

Lemma read_group items xs : items <> [] -> Forall (Forall inner) items -> Forall2 reads items xs -> reads [TTGroup (sep_by TTComma items)] (concat xs).
Proof.
  intros Ne Fi F. assert (M : exists f0, forall fuel, f0 <= fuel -> Forall2 (fun i x => read_tree fuel i = Some x) items xs).
  { clear Ne Fi. induction F as [|i x items xs (f1 & H1) F (f2 & H2)]; [exists 0; constructor|]. exists (max f1 f2). intros fuel Hf. constructor; [apply H1; lia|apply H2; lia]. }
  destruct M as (f0 & M). exists (S f0). intros [|fuel] Hf; [lia|]. cbn [read_tree]. rewrite split_sep by auto. specialize (M fuel ltac:(lia)).
  clear - M. induction M as [|i x items xs H M IH]; [reflexivity|]. rewrite H, IH. reflexivity.
Qed.

Lemma read_rendered t : good t -> some_in t -> reads (utree_render t) (expand t).
Proof.
  induction t as [us subs IH] using utree_ind'. intros G S. inversion G as [? ? N1 N2 F]; subst.
  set (items := map render_using us ++ map item_of subs).
  set (xs := map (fun x => [([fst x], snd x)]) us ++ map (fun x => map (fun y => (fst x :: fst y, snd y)) (expand (snd x))) subs).
  assert (R : Forall2 reads items xs).
  { apply Forall2_app.
    - clear. induction us as [|[i b] us IHu]; cbn; constructor; [|exact IHu]. exists 1. intros [|fuel] Hf; [lia|]. unfold render_using. cbn [fst snd]. destruct b; reflexivity.
    - clear - IH F. induction subs as [|[x t] subs IHs]; cbn; [constructor|]. inversion IH; subst. inversion F as [|? ? [Gt St] F']; subst. constructor; [|now apply IHs].
      cbn in *. destruct (H1 Gt St) as (f0 & H). exists (Datatypes.S f0). intros [|fuel] Hf; [lia|]. unfold item_of. cbn [read_tree fst snd]. now rewrite H by lia. }
  assert (X : concat xs = expand (UTree us subs)).
  { unfold xs. rewrite concat_app. cbn [expand]. f_equal; [|now rewrite flat_map_concat_map]. clear. induction us; cbn; [reflexivity|]. now rewrite IHus. }
  assert (In_ : Forall (Forall inner) items).
  { apply Forall_app. split; apply Forall_map; apply Forall_forall; intros x _; [apply using_inner|apply item_inner]. }
  assert (Ls : length items = length us + length subs) by (unfold items; rewrite app_length, !map_length; reflexivity).
  cbn [utree_render]. change (map (fun x : str * utree => TTId (fst x) :: TTSep :: utree_render (snd x)) subs) with (map item_of subs). fold items.
  rewrite <- X. destruct (Nat.ltb_spec 1 (length us + length subs)) as [L|L].
  - apply read_group; auto. intros E. rewrite E in Ls. cbn in Ls. lia.
  - assert (L1 : length items = 1).
    { cbn in S. destruct us, subs; cbn in *; try lia. destruct S; congruence. }
    destruct items as [|i [|j items0]]; cbn in L1; try lia. inversion R as [|? x ? xs' Ri R']; subst. inversion R'; subst. cbn. now rewrite !app_nil_r.
Qed.

Lemma read_rendered_uses subs : Forall (fun x => good (snd x) /\ some_in (snd x)) subs ->
  exists f0, forall fuel, f0 <= fuel -> read_uses fuel (flat_map render_use subs) =
    Some (map (fun x => Import false (fst x) (snd x)) (flat_map (fun x => map (fun y => (fst x :: fst y, snd y)) (expand (snd x))) subs)).
Proof.
  induction 1 as [|[x t] subs [G S] F (f2 & H2)]; [exists 0; intros fuel _; now destruct fuel|]. cbn [fst snd] in *. destruct (read_rendered t G S) as (f1 & H1).
  exists (Datatypes.S (Datatypes.S (max f1 f2))). intros [|fuel] Hf; [lia|]. cbn [flat_map]. unfold render_use at 1. cbn [fst snd app]. cbn [read_uses].
  destruct (str_eq_dec kw_use kw_use) as [_|]; [|congruence].
  assert (E : to_semi [] (TTId x :: TTSep :: (utree_render t ++ [TTSemi]) ++ flat_map render_use subs) = Some (TTId x :: TTSep :: utree_render t, flat_map render_use subs)).
  { rewrite <- app_assoc. exact (to_semi_run (item_of (x, t)) [] (flat_map render_use subs) (item_inner (x, t))). }
  rewrite E. rewrite H2 by lia. unfold read_use. destruct fuel as [|fuel]; [lia|]. cbn [read_tree]. rewrite H1 by lia. cbn [option_map]. now rewrite map_app.
Qed.

(** What the declarations add up to. *)
Section Uses.
  Variable ident_ok : str -> bool.

  Definition named_pair (u : str) (q : list str) : bool :=
    match path_parse ident_ok u with
    | Ok p => if list_eq_dec str_eq_dec (match ip_path p with Some l => l | None => [] end ++ [ip_ident p]) q then true else false
    | _ => false
    end.
  Lemma parse_some u p : path_parse ident_ok u = Ok p -> exists m i abs, p = Path (Some m) i abs.
  Proof. unfold path_parse. destruct (parse_parts ident_ok (split_colons [] u) None [] false) as [[[[i|] m] abs]| |]; try discriminate. intros [= <-]. eauto. Qed.
  Lemma named_spec u q : named_pair u q = true <-> names_path ident_ok u q.
  Proof.
    unfold named_pair, names_path. destruct (path_parse ident_ok u) as [p| |] eqn:E; try (split; [discriminate|intros (m & i & abs & H & _); discriminate]).
    destruct (parse_some u p E) as (m & i & abs & ->). cbn [ip_path ip_ident]. destruct (list_eq_dec str_eq_dec (m ++ [i]) q) as [Q|Q]; split; try discriminate; auto.
    - intros _. now exists m, i, abs.
    - intros (m' & i' & abs' & [= <- <- <-] & H). congruence.
  Qed.

  Definition combine_use (q : list str) (o : option bool) (x : str * bool) : option bool :=
    if named_pair (fst x) q then Some (match o with Some b => b && snd x | None => snd x end) else o.

  Lemma usings_get us : forall t t' p i, utree_usings ident_ok t us = Ok t' ->
    tget p i t' = fold_left (combine_use (p ++ [i])) us (tget p i t).
  Proof.
    induction us as [|[u a] us IH]; cbn [utree_usings fold_left]; intros t t' p i H; [now injection H as <-|]. unfold utree_using in H. cbn [fst snd] in H.
    unfold combine_use at 2. unfold named_pair. cbn [fst snd]. destruct (path_parse ident_ok u) as [x| |] eqn:E; [|now apply IH|discriminate].
    rewrite (IH _ _ p i H), tget_add. destruct (list_eq_dec str_eq_dec (match ip_path x with Some l => l | None => [] end ++ [ip_ident x]) (p ++ [i])) as [Q|Q]; [|reflexivity].
    apply snoc_inj in Q. destruct Q as [-> ->]. reflexivity.
  Qed.
  Lemma usings_good us : forall t t', good t -> utree_usings ident_ok t us = Ok t' -> good t'.
  Proof.
    induction us as [|[u a] us IH]; cbn [utree_usings]; intros t t' G H; [now injection H as <-|]. unfold utree_using in H. cbn [fst snd] in H.
    destruct (path_parse ident_ok u) as [x| |]; [|now apply (IH t)|discriminate]. refine (IH _ _ _ H). now apply add_good.
  Qed.

  Lemma combined q us : forall o b, fold_left (combine_use q) us o = Some b <->
    (o <> None \/ exists x, In x us /\ named_pair (fst x) q = true) /\
    (b = true <-> (o <> Some false /\ forall x, In x us -> named_pair (fst x) q = true -> snd x = true)).
  Proof.
    induction us as [|[u a] us IH]; cbn [fold_left In]; intros o b.
    - split.
      + intros ->. split; [left; discriminate|]. destruct b; split; try discriminate; auto; [intros _; split; [discriminate|intros ? []]|intros [H _]; congruence].
      + intros [[H|(x & [] & _)] Hb]. destruct o as [c|]; [|congruence]. f_equal. destruct b, c; auto.
        * destruct Hb as [Hb _]. destruct (Hb eq_refl) as [X _]. congruence.
        * destruct Hb as [_ Hb]. symmetry. apply Hb. split; [discriminate|intros ? []].
    - rewrite IH. unfold combine_use. cbn [fst snd]. destruct (named_pair u q) eqn:E.
      + split.
        * intros [_ Hb]. split; [right; exists (u, a); auto|]. rewrite Hb. clear Hb. split.
          -- intros [H1 H2]. split; [|intros x [<-|I] Hx; [cbn; destruct o as [[|]|], a; cbn in *; congruence|now apply H2]]. destruct o as [[|]|], a; cbn in *; congruence.
          -- intros [H1 H2]. split; [|intros x I; apply H2; now right]. pose proof (H2 (u, a) (or_introl eq_refl) E) as Ha. cbn in Ha. subst a. destruct o as [[|]|]; cbn; congruence.
        * intros [_ Hb]. split; [left; discriminate|]. rewrite Hb. clear Hb. split.
          -- intros [H1 H2]. split; [|intros x I; apply H2; now right]. pose proof (H2 (u, a) (or_introl eq_refl) E) as Ha. cbn in Ha. subst a. destruct o as [[|]|]; cbn; congruence.
          -- intros [H1 H2]. split; [|intros x [<-|I] Hx; [cbn; destruct o as [[|]|], a; cbn in *; congruence|now apply H2]]. destruct o as [[|]|], a; cbn in *; congruence.
      + split.
        * intros [H1 Hb]. split; [destruct H1 as [H1|(x & I & Hx)]; [now left|right; exists x; auto]|]. rewrite Hb. split; intros [A B]; (split; [exact A|]).
          -- intros x [<-|I] Hx; [cbn in Hx; congruence|now apply B].
          -- intros x I. apply B. now right.
        * intros [H1 Hb]. split; [destruct H1 as [H1|(x & [<-|I] & Hx)]; [now left|cbn in Hx; congruence|right; exists x; auto]|]. rewrite Hb. split; intros [A B]; (split; [exact A|]).
          -- intros x I. apply B. now right.
          -- intros x [<-|I] Hx; [cbn in Hx; congruence|now apply B].
  Qed.

  Lemma rendered_uses us ts : render_usings ident_ok us = Ok ts -> exists l,
    (exists fuel, read_uses fuel ts = Some l) /\ NoDup (map im_path l) /\ (forall x, In x l -> im_absolute x = false) /\
    forall q b, In (Import false q b) l <-> 2 <= length q /\ fold_left (combine_use q) us None = Some b.
  Proof.
    unfold render_usings. intros H. destruct (utree_usings ident_ok (UTree [] []) us) as [[us' subs]| |] eqn:U; try discriminate. injection H as <-.
    pose proof (usings_good us _ _ good_empty U) as G. inversion G as [? ? N1 N2 F]; subst.
    destruct (read_rendered_uses subs F) as (f0 & R).
    set (xs := flat_map (fun x => map (fun y => (fst x :: fst y, snd y)) (expand (snd x))) subs) in R.
    exists (map (fun x => Import false (fst x) (snd x)) xs). split; [exists f0; now apply R|]. split; [|split].
    - rewrite map_map. cbn. pose proof (expand_nodup _ G) as N. cbn [expand] in N. fold xs in N. rewrite map_app in N. revert N. generalize (map fst (map (fun x : str * bool => ([fst x], snd x)) us')). clear.
      intros l. change (map (fun x : list str * bool => fst x) xs) with (map fst xs). induction l as [|y l IH]; cbn; [auto|]. intros N. inversion N; auto.
    - intros x I. apply in_map_iff in I. destruct I as (y & <- & _). reflexivity.
    - intros q b. rewrite in_map_iff.
      assert (Q : In (q, b) xs <-> 2 <= length q /\ In (q, b) (expand (UTree us' subs))).
      { cbn [expand]. fold xs. rewrite in_app_iff. split.
        - intros I. split; [|now right]. unfold xs in I. apply in_flat_map in I. destruct I as ([x t] & I & H). apply in_map_iff in H. destruct H as ([q' b'] & [= <- <-] & H).
          rewrite Forall_forall in F. apply (expand_in t (proj1 (F _ I))) in H. destruct H as (p & i & -> & _). cbn. rewrite app_length. cbn. lia.
        - intros [L [I|I]]; [|exact I]. apply in_map_iff in I. destruct I as (x & [= <- _] & _). cbn in L. lia. }
      assert (X : In (q, b) (expand (UTree us' subs)) <-> fold_left (combine_use q) us None = Some b).
      { rewrite (expand_in _ G). split.
        - intros (p & i & -> & H). rewrite (usings_get us _ _ p i U) in H. fold u_empty in H. now rewrite tget_empty in H.
        - intros H. pose proof H as H'. apply (proj1 (combined q us None b)) in H'. destruct H' as [[H'|(x & I & Hx)] _]; [congruence|].
          apply (proj1 (named_spec _ _)) in Hx. destruct Hx as (m & i & abs & _ & ->). exists m, i. split; [reflexivity|]. rewrite (usings_get us _ _ m i U). fold u_empty. now rewrite tget_empty. }
      rewrite <- X. clear X. rewrite <- Q. split.
      + intros ([q' b'] & [= <- <-] & I). exact I.
      + intros I. now exists (q, b).
  Qed.

End Uses.

(** The declarations of a module after calls. *)
Lemma add_usings_get l : forall us a u, get u (fold_left (add_using a) l us) =
  if in_dec str_eq_dec u l then Some (match get u us with Some b => b && a | None => a end) else get u us.
Proof.
  induction l as [|v l IH]; cbn [fold_left]; intros us a u; [reflexivity|]. rewrite IH. unfold add_using. rewrite get_entry.
  destruct (in_dec str_eq_dec u l) as [I|I]; destruct (in_dec str_eq_dec u (v :: l)) as [I'|I']; try (exfalso; cbn in I'; tauto).
  - destruct (str_eq_dec v u) as [->|]; [|reflexivity]. destruct (get u us) as [[|]|], a; reflexivity.
  - destruct (str_eq_dec v u) as [->|E]; [destruct (get u us) as [[|]|], a; reflexivity|]. cbn in I'. exfalso. intuition congruence.
  - destruct (str_eq_dec v u) as [->|E]; [|reflexivity]. exfalso. apply I'. now left.
Qed.
Lemma add_usings_nodup l : forall us a, NoDup (map fst us) -> NoDup (map fst (fold_left (add_using a) l us)).
Proof. induction l as [|v l IH]; cbn; intros us a N; [exact N|]. apply IH. now apply entry_nodup. Qed.

Definition use_after (p : list str) (u : str) (o : option bool) (op : mod_op) : option bool :=
  match op with
  | OpUsings p' a l =>
      if list_eq_dec str_eq_dec p' p then if in_dec str_eq_dec u l then Some (match o with Some b => b && a | None => a end) else o else o
  | _ => o
  end.

Lemma run_usings ops p u : get u (usings_at p (mod_run ops)) = fold_left (use_after p u) ops None.
Proof.
  unfold mod_run. assert (G : forall m o, get u (usings_at p m) = o -> get u (usings_at p (fold_left mod_step ops m)) = fold_left (use_after p u) ops o).
  { induction ops as [|op ops IH]; cbn [fold_left]; intros m o H; [exact H|]. apply IH. rewrite mod_step_eq. unfold use_after.
    destruct (list_eq_dec str_eq_dec (op_path op) p) as [E|E].
    - unfold usings_at. rewrite <- E, at_module_here. cbn [or_default]. unfold usings_at in H. rewrite <- E in H.
      destruct op as [p' c|p' c|p' a l]; cbn [op_fun op_path] in *; try exact H. destruct (list_eq_dec str_eq_dec p' p') as [_|]; [|congruence].
      unfold mod_usings. cbn [m_usings]. rewrite add_usings_get, H. reflexivity.
    - rewrite (proj2 (at_module_else _ _ _ m (op_fun_subs op) E)). destruct op as [p' c|p' c|p' a l]; try exact H. cbn in E.
      destruct (list_eq_dec str_eq_dec p' p); [congruence|exact H]. }
  apply G. now rewrite (proj2 (default_code p)).
Qed.

Lemma run_usings_nodup ops p : NoDup (map fst (usings_at p (mod_run ops))).
Proof.
  unfold mod_run. assert (G : forall m, NoDup (map fst (usings_at p m)) -> NoDup (map fst (usings_at p (fold_left mod_step ops m)))).
  { induction ops as [|op ops IH]; cbn [fold_left]; intros m H; [exact H|]. apply IH. rewrite mod_step_eq.
    destruct (list_eq_dec str_eq_dec (op_path op) p) as [E|E].
    - unfold usings_at. rewrite <- E, at_module_here. cbn [or_default]. unfold usings_at in H. rewrite <- E in H.
      destruct op as [p' c|p' c|p' a l]; cbn [op_fun op_path] in *; try exact H. unfold mod_usings. cbn [m_usings]. now apply add_usings_nodup.
    - now rewrite (proj2 (at_module_else _ _ _ m (op_fun_subs op) E)). }
  apply G. rewrite (proj2 (default_code p)). constructor.
Qed.

Lemma registered_cons p op ops u a : registered p (op :: ops) u a <->
  (exists l, op = OpUsings p a l /\ In u l) \/ registered p ops u a.
Proof. unfold registered. cbn. split; [intros (l & [H|H] & I); eauto|intros [(l & -> & I)|(l & H & I)]; eauto]. Qed.

Lemma registered_sum p u ops : forall o b, fold_left (use_after p u) ops o = Some b <->
  (o <> None \/ exists a, registered p ops u a) /\ (b = true <-> o <> Some false /\ forall a, registered p ops u a -> a = true).
Proof.
  induction ops as [|op ops IH]; cbn [fold_left]; intros o b.
  - assert (R : forall a, ~ registered p [] u a) by (intros a (l & [] & _)). split.
    + intros ->. split; [left; discriminate|]. destruct b; split; try discriminate; [intros _; split; [discriminate|intros a H; now apply R in H]|auto|intros [H _]; congruence].
    + intros [[H|(a & H)] Hb]; [|now apply R in H]. destruct o as [c|]; [|congruence]. f_equal. destruct b, c; auto.
      * destruct Hb as [Hb _]. destruct (Hb eq_refl) as [X _]. congruence.
      * destruct Hb as [_ Hb]. symmetry. apply Hb. split; [discriminate|intros a X; now apply R in X].
  - rewrite IH. clear IH.
    assert (D : (exists a l, op = OpUsings p a l /\ In u l) \/ ~ exists a l, op = OpUsings p a l /\ In u l).
    { destruct op as [p' c|p' c|p' a l]; [right; intros (? & ? & ? & _); discriminate|right; intros (? & ? & ? & _); discriminate|].
      destruct (list_eq_dec str_eq_dec p' p) as [->|E]; [|right; intros (? & ? & [= ? _ _] & _); congruence].
      destruct (in_dec str_eq_dec u l); [left; eauto|right; intros (? & ? & [= _ <-] & ?); congruence]. }
    destruct D as [(a & l & -> & I)|D].
    + unfold use_after. destruct (list_eq_dec str_eq_dec p p) as [_|]; [|congruence]. destruct (in_dec str_eq_dec u l) as [_|]; [|congruence].
      assert (X : (o <> Some false /\ forall a', registered p (OpUsings p a l :: ops) u a' -> a' = true) <->
        (Some (match o with Some b => b && a | None => a end) <> Some false /\ forall a', registered p ops u a' -> a' = true)).
      { split.
        - intros [H1 H2]. assert (a = true) by (apply H2; apply registered_cons; left; eauto). subst a. split; [destruct o as [[|]|]; cbn; congruence|].
          intros a' Ha. apply H2. apply registered_cons. now right.
        - intros [H1 H2]. assert (a = true /\ o <> Some false) as [-> Ho] by (destruct o as [[|]|], a; cbn in H1; split; congruence). split; [exact Ho|].
          intros a' Ha. apply registered_cons in Ha. destruct Ha as [(l' & [= <- _] & _)|Ha]; auto. }
      rewrite X. split; (intros [_ Hb]; split; [|exact Hb]); [right; exists a; apply registered_cons; left; eauto|left; discriminate].
    + assert (U : use_after p u o op = o).
      { destruct op as [p' c|p' c|p' a l]; try reflexivity. unfold use_after. destruct (list_eq_dec str_eq_dec p' p) as [->|]; [|reflexivity].
        destruct (in_dec str_eq_dec u l); [|reflexivity]. exfalso. apply D. eauto. }
      rewrite U. assert (R : forall a, registered p (op :: ops) u a <-> registered p ops u a).
      { intros a. rewrite registered_cons. split; [intros [H|H]; [exfalso; apply D; eauto|exact H]|auto]. }
      split; intros [H1 Hb]; (split; [destruct H1 as [H1|(a & H1)]; [now left|right; exists a; now apply R]|]); rewrite Hb; split; intros [A B]; (split; [exact A|]); intros a Ha; apply B; now apply R.
Qed.

Lemma declarations ident_ok ops p m ts : module_at p (mod_run ops) = Some m -> render_usings ident_ok (m_usings m) = Ok ts -> exists l,
  (exists fuel, read_uses fuel ts = Some l) /\ NoDup (map im_path l) /\ (forall x, In x l -> im_absolute x = false) /\
  forall q b, In (Import false q b) l <-> 2 <= length q /\
    (exists u a, registered p ops u a /\ names_path ident_ok u q) /\
    (b = true <-> forall u a, registered p ops u a -> names_path ident_ok u q -> a = true).
Proof.
  intros Hm H. destruct (rendered_uses ident_ok _ ts H) as (l & R & N & A & S). exists l. do 3 (split; [assumption|]). intros q b. rewrite S. clear S R N A.
  assert (Eu : m_usings m = usings_at p (mod_run ops)) by (unfold usings_at; now rewrite Hm). rewrite Eu.
  assert (Q : fold_left (combine_use ident_ok q) (usings_at p (mod_run ops)) None = Some b <->
    (exists u a, registered p ops u a /\ names_path ident_ok u q) /\ (b = true <-> forall u a, registered p ops u a -> names_path ident_ok u q -> a = true)).
  { rewrite combined.
    assert (G : forall u c, In (u, c) (usings_at p (mod_run ops)) <-> (exists a, registered p ops u a) /\ (c = true <-> forall a, registered p ops u a -> a = true)).
    { intros u c. assert (I : In (u, c) (usings_at p (mod_run ops)) <-> get u (usings_at p (mod_run ops)) = Some c).
      { split; [apply in_get, run_usings_nodup|apply get_in]. }
      rewrite I, run_usings, registered_sum. split.
      - intros [[X|X] Y]; [congruence|]. split; [exact X|]. rewrite Y. split; [tauto|]. intros Z. split; [discriminate|exact Z].
      - intros [X Y]. split; [now right|]. rewrite Y. split; [|tauto]. intros Z. split; [discriminate|exact Z]. }
    assert (Ex : forall u, (exists a, registered p ops u a) -> exists c, In (u, c) (usings_at p (mod_run ops))).
    { intros u X. destruct (fold_left (use_after p u) ops None) as [c|] eqn:E.
      - exists c. apply get_in. now rewrite run_usings.
      - exfalso. assert (Y : exists c, fold_left (use_after p u) ops (Some true) = Some c).
        { clear. generalize true. induction ops as [|op ops IH]; cbn; intros c; [eauto|]. unfold use_after at 2. destruct op; auto. destruct (list_eq_dec str_eq_dec path p); auto. destruct (in_dec str_eq_dec u l); auto. }
        assert (D : forall o, (forall o', o' <> None -> fold_left (use_after p u) ops o' <> None) /\ ((exists a, registered p ops u a) -> fold_left (use_after p u) ops o <> None)).
        { clear. intros o. split.
          - induction ops as [|op ops IH]; cbn; intros o' No; [exact No|]. apply IH. unfold use_after. destruct op; auto. destruct (list_eq_dec str_eq_dec path p); auto. destruct (in_dec str_eq_dec u l); auto. discriminate.
          - revert o. induction ops as [|op ops IH]; intros o (a & R); [destruct R as (l & [] & _)|]. cbn [fold_left]. apply registered_cons in R. destruct R as [(l & -> & I)|R]; [|apply IH; eauto].
            unfold use_after at 2. destruct (list_eq_dec str_eq_dec p p) as [_|]; [|congruence]. destruct (in_dec str_eq_dec u l) as [_|]; [|congruence].
            assert (Ns : forall ops' o', o' <> None -> fold_left (use_after p u) ops' o' <> None).
            { clear. induction ops' as [|op ops' IH]; cbn; intros o' No; [exact No|]. apply IH. unfold use_after. destruct op; auto. destruct (list_eq_dec str_eq_dec path p); auto. destruct (in_dec str_eq_dec u l); auto. discriminate. }
            apply Ns. discriminate. }
        now apply (proj2 (D None) X). }
    split.
    - intros [[X|([u c] & I & Hu)] Hb]; [congruence|]. cbn in Hu. apply named_spec in Hu. split.
      + apply G in I. destruct I as [(a & R) _]. now exists u, a.
      + rewrite Hb. split.
        * intros [_ Z] u' a R Nu. destruct (Ex u' (ex_intro _ a R)) as (c' & I'). pose proof (Z _ I') as Hc. cbn in Hc.
          apply G in I'. destruct I' as [_ I']. apply I'; [apply Hc; now apply named_spec|exact R].
        * intros Z. split; [discriminate|]. intros [u' c'] I' Hu'. cbn in *. apply named_spec in Hu'. apply G in I'. destruct I' as [_ I']. apply I'. intros a R. now apply (Z u').
    - intros [(u & a & R & Nu) Hb]. split.
      + right. destruct (Ex u (ex_intro _ a R)) as (c & I). exists (u, c). split; [exact I|]. now apply named_spec.
      + rewrite Hb. split.
        * intros Z. split; [discriminate|]. intros [u' c'] I' Hu'. cbn in *. apply named_spec in Hu'. apply G in I'. destruct I' as [_ I']. apply I'. intros a' R'. now apply (Z u').
        * intros [_ Z] u' a' R' Nu'. destruct (Ex u' (ex_intro _ a' R')) as (c' & I'). pose proof (Z _ I') as Hc. cbn in Hc.
          apply G in I'. destruct I' as [_ I']. apply I'; [apply Hc; now apply named_spec|exact R']. }
  rewrite Q. tauto.
Qed.

Lemma usings_panic ident_ok us : forall t, utree_usings ident_ok t us = Panic <-> exists u a, In (u, a) us /\ path_parse ident_ok u = Panic.
Proof.
  induction us as [|[u a] us IH]; cbn [utree_usings]; intros t; [split; [discriminate|intros (u & a & [] & _)]|]. unfold utree_using. cbn [fst snd].
  destruct (path_parse ident_ok u) as [x| |] eqn:E.
  - rewrite IH. split; intros (u' & a' & H); [exists u', a'; split; [now right|tauto]|]. destruct H as [[[= <- <-]|I] H]; [congruence|]. now exists u', a'.
  - rewrite IH. split; intros (u' & a' & H); [exists u', a'; split; [now right|tauto]|]. destruct H as [[[= <- <-]|I] H]; [congruence|]. now exists u', a'.
  - split; [intros _; exists u, a; split; [now left|exact E]|reflexivity].
Qed.
Lemma usings_no_err ident_ok us : forall t e, utree_usings ident_ok t us <> Err e.
Proof.
  induction us as [|[u a] us IH]; cbn [utree_usings]; intros t e; [discriminate|]. unfold utree_using. destruct (path_parse ident_ok (fst (u, a))); try apply IH. discriminate.
Qed.
Lemma render_panic ident_ok us : (render_usings ident_ok us = Panic <-> exists u a, In (u, a) us /\ path_parse ident_ok u = Panic) /\
  forall e, render_usings ident_ok us <> Err e.
Proof.
  unfold render_usings. rewrite <- (usings_panic ident_ok us (UTree [] [])). pose proof (usings_no_err ident_ok us (UTree [] [])) as Ne.
  destruct (utree_usings ident_ok (UTree [] []) us) as [[x y]|e|]; split; try (split; discriminate); try discriminate; try tauto; intros; exfalso; now apply (Ne e).
Qed.

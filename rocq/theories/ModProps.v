(** C47, C48: the files of generated modules and their use declarations. *)
From Coq Require Import String Ascii.
From Verif Require Import PathSpec ModModel ModSpec ModProofs.

(** Texts for the examples. *)
Definition txt (s : string) : str := map N_of_ascii (list_ascii_of_string s).

(** * C47 *)

(** After any calls, the modules are the ones that were mentioned and the ones around
    them; each contains the code that was added to it, in order. *)
Theorem C47_code : forall ops path,
  (module_at path (mod_run ops) <> None <-> path = [] \/ exists o r, In o ops /\ op_path o = path ++ r) /\
  (forall m, module_at path (mod_run ops) = Some m -> m_code m = code_of path ops) /\
  (module_at path (mod_run ops) = None -> code_of path ops = []).
Proof.
  intros ops path. pose proof (run_code ops path) as C. unfold code_at in C. split; [apply run_exists|]. split.
  - intros m H. now rewrite H in C.
  - intros H. now rewrite H in C.
Qed.
Print Assumptions C47_code.

(** Every module is visited exactly once; the first failure ends the visits and is
    reported. *)
Theorem C47_visits : forall ops, exists l,
  NoDup (map fst l) /\ (forall p m, In (p, m) l <-> module_at p (mod_run ops) = Some m) /\
  forall S E f s, write_to_files_with S E f (mod_run ops) s = until_failure f l s.
Proof. exact visits. Qed.
Print Assumptions C47_visits.

(** When the files have been written, every module is in a file of its own; no other
    file is touched.  [_partial]: if no module without sub-modules is called [mod]. *)
Theorem C47_files_partial : forall ident_ok E (io : list str -> option E) dir ops fs fs',
  plain_names (mod_run ops) -> no_mod_leaf (mod_run ops) ->
  write_to_files ident_ok io dir (mod_run ops) fs = (fs', Ok tt) ->
  (forall p m, module_at p (mod_run ops) = Some m ->
     exists n c, filename dir p m = Some n /\ to_code ident_ok SubFiles m = Ok c /\ read_file n fs' = Some c) /\
  (forall p q mp mq n, module_at p (mod_run ops) = Some mp -> module_at q (mod_run ops) = Some mq ->
     filename dir p mp = Some n -> filename dir q mq = Some n -> p = q) /\
  (forall n, (forall p m, module_at p (mod_run ops) = Some m -> filename dir p m <> Some n) -> read_file n fs' = read_file n fs).
Proof.
  intros ident_ok E io dir ops fs fs' P NM H. destruct (files_written ident_ok E io dir ops fs fs' P NM H) as [H1 H2]. split; [exact H1|]. split; [|exact H2].
  intros p q mp mq n Hp Hq. now apply (file_names_distinct (mod_run ops) dir p q mp mq n).
Qed.
Print Assumptions C47_files_partial.

(** In an empty directory, exactly one of the two files in which Rust looks for a
    sub-module exists, and it contains the code of that module.  [_partial]: in an empty
    directory, if no module is called [mod]. *)
Theorem C47_found_partial : forall ident_ok E (io : list str -> option E) dir ops fs' p a m,
  plain_names (mod_run ops) -> (forall q, module_at (q ++ [kw_mod]) (mod_run ops) = None) ->
  write_to_files ident_ok io dir (mod_run ops) [] = (fs', Ok tt) -> module_at (p ++ [a]) (mod_run ops) = Some m ->
  exists c, to_code ident_ok SubFiles m = Ok c /\
    (read_file (dir ++ p ++ [a ++ dot_rs]) fs' = Some c /\ read_file (dir ++ p ++ [a; mod_rs]) fs' = None \/
     read_file (dir ++ p ++ [a; mod_rs]) fs' = Some c /\ read_file (dir ++ p ++ [a ++ dot_rs]) fs' = None).
Proof.
  intros ident_ok E io dir ops fs' p a m P NM H Hm.
  assert (NM' : no_mod_leaf (mod_run ops)) by (intros q m' X; rewrite NM in X; discriminate).
  assert (Na : a <> kw_mod) by (intros ->; rewrite NM in Hm; discriminate).
  destruct (files_written ident_ok E io dir ops [] fs' P NM' H) as [H1 H2].
  destruct (other_place dir ops p a m P Na Hm) as (n & n' & Fn & W & O).
  destruct (H1 _ _ Hm) as (n0 & c & F0 & C & R). rewrite Fn in F0. injection F0 as <-. exists c. split; [exact C|].
  specialize (H2 n' O). destruct W as [[-> ->]|[-> ->]]; [left|right]; auto.
Qed.
Print Assumptions C47_found_partial.

(** The file of a module declares its sub-modules, each once, and contains its use
    declarations and its code; the modules that are declared are the ones that exist. *)
Theorem C47_contents : forall ident_ok ops p m c,
  module_at p (mod_run ops) = Some m -> to_code ident_ok SubFiles m = Ok c ->
  exists names uses, c = mod_items names ++ uses ++ m_code m /\ render_usings ident_ok (m_usings m) = Ok uses /\
    NoDup names /\ forall a, In a names <-> module_at (p ++ [a]) (mod_run ops) <> None.
Proof. exact contents. Qed.
Print Assumptions C47_contents.

(** Rendered into one stream, the declarations and the code of every module are inside
    the modules of its path. *)
Theorem C47_inline : forall ident_ok m ts p m', to_code ident_ok SubInline m = Ok ts -> module_at p m = Some m' ->
  exists uses, render_usings ident_ok (m_usings m') = Ok uses /\ sits p (uses ++ m_code m') ts.
Proof. intros ident_ok m ts p m' H. exact (inline_sits ident_ok m ts H p m'). Qed.
Print Assumptions C47_inline.

Definition sample_ops : list mod_op :=
  [OpAppend [txt "a"; txt "b"] [TTOther 1]; OpUsings [txt "a"] false [txt "x::y"; txt "x::z"]; OpPrepend [] [TTOther 2]; OpAppend [txt "a"; txt "b"] [TTOther 3];
   OpAppend [txt "c"] [TTOther 4]; OpUsings [txt "a"] true [txt "x::y"; txt "x::w"]].

Example C47_case :
  plain_names (mod_run sample_ops) /\ no_mod_leaf (mod_run sample_ops) /\ (forall q, module_at (q ++ [kw_mod]) (mod_run sample_ops) = None) /\
  map fst (fst (write_to_files ascii_ident (fun _ => @None unit) [txt "out"] (mod_run sample_ops) [])) =
    [[txt "out"; txt "c.rs"]; [txt "out"; txt "a"; txt "b.rs"]; [txt "out"; txt "a"; txt "mod.rs"]; [txt "out"; txt "mod.rs"]] /\
  snd (write_to_files ascii_ident (fun _ => @None unit) [txt "out"] (mod_run sample_ops) []) = Ok tt /\
  read_file [txt "out"; txt "a"; txt "b.rs"] (fst (write_to_files ascii_ident (fun _ => @None unit) [txt "out"] (mod_run sample_ops) [])) = Some [TTOther 1; TTOther 3] /\
  exists ts, to_code ascii_ident SubInline (mod_run sample_ops) = Ok ts.
Proof.
  assert (L : listing [] (mod_run sample_ops) = [([], mod_run sample_ops); ([txt "a"], match module_at [txt "a"] (mod_run sample_ops) with Some m => m | None => mod_default end);
     ([txt "a"; txt "b"], Mod [TTOther 1; TTOther 3] [] []); ([txt "c"], Mod [TTOther 4] [] [])]) by (vm_compute; reflexivity).
  assert (A : forall p m, module_at p (mod_run sample_ops) = Some m -> In (p, m) (listing [] (mod_run sample_ops))).
  { intros p m H. apply (listing_in _ (run_keyed sample_ops)). now exists p. }
  assert (NoM : forall q, module_at (q ++ [kw_mod]) (mod_run sample_ops) = None).
  { intros q. destruct (module_at (q ++ [kw_mod]) (mod_run sample_ops)) as [m|] eqn:E; [|reflexivity]. apply A in E. rewrite L in E.
    assert (X : exists l, In l [[]; [txt "a"]; [txt "a"; txt "b"]; [txt "c"]] /\ q ++ [kw_mod] = l).
    { destruct E as [[= E _]|[[= E _]|[[= E _]|[[= E _]|[]]]]]; eexists; (split; [|symmetry; exact E]); cbn; auto. }
    destruct X as (l & I & X). cbn in I. destruct I as [<-|[<-|[<-|[<-|[]]]]]; destruct q as [|q0 [|q1 [|q2 q]]]; discriminate X. }
  split; [|split; [intros q m E; rewrite NoM in E; discriminate|split; [exact NoM|repeat split; try (eexists); vm_compute; reflexivity]]].
  intros p m a H I. apply A in H. rewrite L in H.
  assert (X : In a [txt "a"; txt "b"; txt "c"]).
  { destruct H as [[= _ <-]|[[= _ <-]|[[= _ <-]|[[= _ <-]|[]]]]]; vm_compute in I; vm_compute; tauto. }
  destruct X as [<-|[<-|[<-|[]]]]; (split; [discriminate|]); vm_compute; intuition discriminate.
Qed.

(** ** What it does not do *)

(** A module [mod] without sub-modules is written to the file of the module around it:
    the code of that one is lost. *)
Theorem C47_mod_refuted : exists fs, let ops := [OpAppend [] [TTOther 1]; OpAppend [kw_mod] [TTOther 2]] in
  write_to_files ascii_ident (fun _ => @None unit) [txt "out"] (mod_run ops) [] = (fs, Ok tt) /\
  module_at [] (mod_run ops) = Some (mod_run ops) /\ m_code (mod_run ops) = [TTOther 1] /\
  read_file [txt "out"; mod_rs] fs = Some [TTOther 2] /\ forall n c, read_file n fs = Some c -> ~ In (TTOther 1) c.
Proof.
  eexists. cbn zeta. split; [vm_compute; reflexivity|]. split; [reflexivity|]. split; [reflexivity|]. split; [vm_compute; reflexivity|].
  intros n c. cbn [read_file].
  destruct (list_eq_dec str_eq_dec n _) as [->|N1]; [intros [= <-]; vm_compute; intuition discriminate|].
  discriminate.
Qed.
Print Assumptions C47_mod_refuted.

(** A tree without sub-modules is written to a file next to the directory, not into it;
    for the current directory given as the empty path, the program panics. *)
Theorem C47_directory_refuted :
  (exists fs, write_to_files ascii_ident (fun _ => @None unit) [txt "src"; txt "schema"] (mod_run [OpAppend [] [TTOther 1]]) [] = (fs, Ok tt) /\
     read_file [txt "src"; txt "schema.rs"] fs = Some [TTOther 1] /\ forall n r, n = [txt "src"; txt "schema"] ++ r -> read_file n fs = None) /\
  write_to_files ascii_ident (fun _ => @None unit) [] (mod_run [OpAppend [] [TTOther 1]]) [] = ([], Panic).
Proof.
  split; [|reflexivity]. eexists. split; [vm_compute; reflexivity|]. split; [vm_compute; reflexivity|]. intros n r ->. cbn [read_file].
  destruct (list_eq_dec str_eq_dec _ _) as [E|]; [|reflexivity]. exfalso. destruct r as [|x r]; discriminate E.
Qed.
Print Assumptions C47_directory_refuted.

(** Files of an earlier run stay: if a module gets sub-modules, both files in which Rust
    looks for it exist. *)
Theorem C47_stale_refuted : exists fs fs',
  write_to_files ascii_ident (fun _ => @None unit) [txt "out"] (mod_run [OpAppend [txt "a"] [TTOther 1]]) [] = (fs, Ok tt) /\
  write_to_files ascii_ident (fun _ => @None unit) [txt "out"] (mod_run [OpAppend [txt "a"; txt "b"] [TTOther 1]]) fs = (fs', Ok tt) /\
  read_file [txt "out"; txt "a.rs"] fs' <> None /\ read_file [txt "out"; txt "a"; txt "mod.rs"] fs' <> None.
Proof. eexists. eexists. split; [vm_compute; reflexivity|]. split; [vm_compute; reflexivity|]. split; vm_compute; discriminate. Qed.
Print Assumptions C47_stale_refuted.

(** * C48 *)

(** The rendered use declarations of a module, read by Rust's rules, import every path
    with at least two segments that was registered for it, exactly once, and nothing
    else; a path is imported by name unless it was only registered anonymously.
    [_partial]: paths with one segment are dropped, and all are rendered as relative
    paths. *)
Theorem C48_imports_partial : forall ident_ok ops p m ts,
  module_at p (mod_run ops) = Some m -> render_usings ident_ok (m_usings m) = Ok ts -> exists l,
  (exists fuel, read_uses fuel ts = Some l) /\ NoDup (map im_path l) /\ (forall x, In x l -> im_absolute x = false) /\
  forall q b, In (Import false q b) l <-> 2 <= length q /\
    (exists u a, registered p ops u a /\ names_path ident_ok u q) /\
    (b = true <-> forall u a, registered p ops u a -> names_path ident_ok u q -> a = true).
Proof. exact declarations. Qed.
Print Assumptions C48_imports_partial.

(** Rendering fails, by a panic, exactly if a part of a path is not an identifier. *)
Theorem C48_panics : forall ident_ok us,
  (render_usings ident_ok us = Panic <-> exists u a, In (u, a) us /\ path_parse ident_ok u = Panic) /\
  forall e, render_usings ident_ok us <> Err e.
Proof. exact render_panic. Qed.
Print Assumptions C48_panics.

Example C48_case : exists m ts, module_at [txt "a"] (mod_run sample_ops) = Some m /\ render_usings ascii_ident (m_usings m) = Ok ts /\
  read_uses 9 ts = Some [Import false [txt "x"; txt "y"] false; Import false [txt "x"; txt "z"] false; Import false [txt "x"; txt "w"] true].
Proof. eexists. eexists. split; [vm_compute; reflexivity|]. split; vm_compute; reflexivity. Qed.

(** A path with one segment, like a crate, is not imported. *)
Theorem C48_single_refuted : render_usings ascii_ident [(txt "serde", false)] = Ok [] /\ names_path ascii_ident (txt "serde") [txt "serde"].
Proof. split; [vm_compute; reflexivity|]. exists [], (txt "serde"), false. split; vm_compute; reflexivity. Qed.
Print Assumptions C48_single_refuted.

(** A path that starts at the crates is imported as a relative one, which may be found
    in another module of that name. *)
Theorem C48_absolute_refuted : exists ts, path_parse ascii_ident (txt "::core::ops::Deref") = Ok (Path (Some [txt "core"; txt "ops"]) (txt "Deref") true) /\
  render_usings ascii_ident [(txt "::core::ops::Deref", false)] = Ok ts /\
  read_uses 9 ts = Some [Import false [txt "core"; txt "ops"; txt "Deref"] false].
Proof. eexists. split; [vm_compute; reflexivity|]. split; vm_compute; reflexivity. Qed.
Print Assumptions C48_absolute_refuted.

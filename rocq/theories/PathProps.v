(** C42, C43: paths in generated code. *)
From Verif Require Import PathModel PathSpec PathProofs.

(** The path that [relative_to] writes for an item, read and resolved by Rust's rules
    inside the module [dst], is the item. *)
Theorem C42_relative : forall m ident dst, ~ In kw_super m -> ident <> kw_super ->
  exists segs, read_path (relative_to (Path (Some m) ident false) dst) = Some (false, segs) /\
    resolve_from true dst segs = Some (m ++ [ident]).
Proof. exact relative_resolves. Qed.
Print Assumptions C42_relative.

(** An absolute path stays absolute wherever it is used; an item without a module is
    named by itself. *)
Theorem C42_absolute : forall m ident dst,
  read_path (relative_to (Path (Some m) ident true) dst) = Some (true, m ++ [ident]) /\
  forall abs, read_path (relative_to (Path None ident abs) dst) = Some (false, [ident]).
Proof. intros m ident dst. split; [apply absolute_path|reflexivity]. Qed.
Print Assumptions C42_absolute.

(** The tokens of a path name its modules and its identifier. *)
Theorem C42_tokens : forall m ident abs,
  read_path (path_tokens (Path (Some m) ident abs)) = Some (abs, m ++ [ident]).
Proof. exact tokens_read. Qed.
Print Assumptions C42_tokens.

Example C42_case :
  relative_to (Path (Some [[97]; [98]]) [99] false)%N [[97]; [100]; [101]]%N =
  [TId kw_super; TSep; TId kw_super; TSep; TId [98]; TSep; TId [99]]%N /\
  resolve_from true [[97]; [100]; [101]]%N [kw_super; kw_super; [98]; [99]]%N = Some [[97]; [98]; [99]]%N.
Proof. split; reflexivity. Qed.

(** Parsing any text of a path (with any white space around its identifiers) yields
    its modules, its identifier and whether it is absolute. *)
Theorem C43_parse : forall ident_ok m i abs t,
  path_text abs (m ++ [i]) t -> Forall plain_ident (m ++ [i]) -> Forall (fun s => ident_ok s = true) (m ++ [i]) ->
  path_parse ident_ok t = Ok (Path (Some m) i abs).
Proof.
  intros ident_ok m i abs t T P O. destruct (parse_text ident_ok abs _ t T P O) as (m' & i' & E & R).
  apply snoc_inj in E. destruct E as [-> ->]. exact R.
Qed.
Print Assumptions C43_parse.

(** Whatever text is parsed, the path is absolute exactly if the text begins with [::]
    (behind white space). *)
Theorem C43_absolute : forall ident_ok t p, path_parse ident_ok t = Ok p ->
  (ip_absolute p = true <-> exists w r, blank w /\ t = w ++ colons ++ r).
Proof. exact parse_leading. Qed.
Print Assumptions C43_absolute.
Example C43_absolute_case :
  path_parse ascii_ident [97; 58; 58; 58; 58; 98]%N = Ok (Path (Some [[97]]) [98] false)%N.
Proof. reflexivity. Qed.

(** Displaying and parsing a relative path gives it back.
    Missing: absolute paths (below), and a path without module comes back as one in
    the root module. *)
Theorem C43_display_partial : forall ident_ok m i,
  Forall plain_ident (m ++ [i]) -> Forall (fun s => ident_ok s = true) (m ++ [i]) ->
  path_parse ident_ok (path_display (Path (Some m) i false)) = Ok (Path (Some m) i false).
Proof. intros ident_ok m i P O. apply C43_parse; [apply PT_rel, display_text|exact P|exact O]. Qed.
Print Assumptions C43_display_partial.
Example C43_case :
  path_display (Path (Some [[97]]) [98; 49] false)%N = [97; 58; 58; 98; 49]%N /\
  path_parse ascii_ident [32; 58; 58; 97; 32; 58; 58; 98; 49]%N = Ok (Path (Some [[97]]) [98; 49] true)%N.
Proof. split; reflexivity. Qed.

(** The displayed form of an absolute path is the one of the relative path, so an
    absolute path does not come back. *)
Theorem C43_display_refuted : forall ident_ok m i,
  Forall plain_ident (m ++ [i]) -> Forall (fun s => ident_ok s = true) (m ++ [i]) ->
  path_parse ident_ok (path_display (Path (Some m) i true)) = Ok (Path (Some m) i false).
Proof. exact C43_display_partial. Qed.
Print Assumptions C43_display_refuted.

(** What users expect of the constants and the trait; see NsConstModel.v. *)
From Verif Require Export NsConstModel.
Local Open Scope string_scope.

(** Printable ASCII characters. *)
Fixpoint printable (s : string) : Prop :=
  match s with
  | EmptyString => True
  | String c s' => 32 <= nat_of_ascii c < 127 /\ printable s'
  end.
Definition all_printable (infos : list ns_info) : Prop :=
  forall i p, In i infos -> ni_prefix i = Some p -> printable p.

(** What a namespace is called: the name its user has given it, or its prefix. *)
Definition called (i : ns_info) : option string :=
  match ni_module_name i, ni_prefix i with
  | Some n, _ => Some n
  | None, p => p
  end.
(** The prefix that it is written with: its prefix, or the name its user has given it. *)
Definition written_as (i : ns_info) : option string :=
  match ni_prefix i, ni_module_name i with
  | Some p, _ => Some p
  | None, n => n
  end.

(** The names of the constants, [upper] being how names are written in capitals. *)
Definition ns_name (upper : string -> string) (i : ns_info) : string :=
  match called i with
  | Some n => "NS_" ++ upper n
  | None => "NS_UNNAMED_" ++ show (ni_id i)
  end.
Definition prefix_name (upper : string -> string) (n : string) : string := "PREFIX_" ++ upper n.

Definition has_namespace (i : ns_info) : bool := match ni_namespace i with Some _ => true | None => false end.
Definition ns_names (upper : string -> string) (infos : list ns_info) : list string :=
  map (ns_name upper) (filter has_namespace infos).
Definition prefix_names (upper : string -> string) (infos : list ns_info) : list string :=
  flat_map (fun i => match called i with
                     | Some n => if has_namespace i then [prefix_name upper n] else []
                     | None => []
                     end) infos.

(** The value of a constant. *)
Fixpoint lookup (n : string) (l : list (string * string)) : option string :=
  match l with
  | [] => None
  | (n', v) :: l' => if string_dec n n' then Some v else lookup n l'
  end.

(** Two namespaces are written with different prefixes. *)
Definition prefixes_differ (infos : list ns_info) : Prop :=
  NoDup (flat_map (fun i => match written_as i with
                            | Some p => if has_namespace i then [p] else []
                            | None => []
                            end) infos).

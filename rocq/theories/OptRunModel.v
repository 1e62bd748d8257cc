(** The optimizer as it is run by the configuration (xsd-parser/src/lib.rs 256-326,
    xsd-parser/src/config/optimizer.rs). *)
From Verif Require Export PassModel.

(** config/optimizer.rs 28-129 [OptimizerFlags]: a set of flags. *)
Record flags := Flags {
  f_empty_enum_variants : bool; f_empty_enums : bool; f_duplicate_variants : bool; f_empty_unions : bool;
  f_base_complex : bool; f_base_simple : bool; f_base_enum : bool; f_base_union : bool;
  f_dynamic_to_choice : bool; f_flatten_complex : bool; f_flatten_unions : bool; f_merge_enum_unions : bool;
  f_resolve_typedefs : bool; f_duplicates : bool; f_merge_choice : bool; f_simplify_mixed : bool;
  f_replace_any : bool; f_merge_dynamic : bool }.

(** config/optimizer.rs 15-26: the default. *)
Definition default_flags : flags :=
  Flags true true true true false true false false false false false false false false false false false false.

(** lib.rs 262-268 [exec!]. *)
Definition exec (flag : bool) (p : pass) : list pass := if flag then [p] else [].

(** lib.rs 278-285. *)
Definition exec_base (f : flags) : list pass :=
  exec (f_base_complex f || f_base_simple f || f_base_enum f || f_base_union f)
    (PUnrestrictedOf (BaseFlags (f_base_complex f) (f_base_simple f) (f_base_enum f) (f_base_union f))).

(** lib.rs 287-313: the passes but the last, in their order. *)
Definition passes_of (f : flags) (include : string) : list pass :=
  exec_base f ++
  exec (f_replace_any f) (PReplaceAny include) ++
  exec (f_empty_enum_variants f) PEmptyVariants ++
  exec (f_empty_enums f) PEmptyEnums ++
  exec (f_merge_dynamic f) PMergeDynamics ++
  exec (f_dynamic_to_choice f) PConvertDynamics ++
  exec (f_flatten_complex f) PFlattenComplexes ++
  exec (f_flatten_unions f) PFlattenUnions ++
  exec (f_merge_enum_unions f) PMergeEnums ++
  exec (f_resolve_typedefs f) PResolve ++
  exec (f_duplicate_variants f) PDuplicateVariants ++
  exec (f_empty_unions f) PEmptyUnions ++
  exec (f_duplicates f) PDuplicates ++
  exec (f_resolve_typedefs f) PResolve ++
  exec (f_empty_enum_variants f) PEmptyVariants ++
  exec (f_empty_enums f) PEmptyEnums ++
  exec (f_duplicate_variants f) PDuplicateVariants ++
  exec (f_empty_unions f) PEmptyUnions ++
  exec (f_merge_choice f) PCardinalities.

(** lib.rs 256-326 [exec_optimizer]; the debug output is left out.  [counter] numbers the
    names that are made up; [order] is the order in which the hash set of line 314
    gives the types, for the types at that point.  No result: a pass panics or does not end. *)
Definition exec_optimizer (modules : list (nat * option string)) (fuel : nat) (include : string)
    (order : types -> list tident) (f : flags) (counter : nat) (ts : types) : option types :=
  match run_passes modules fuel (passes_of f include) (PState (opt_new ts) counter) with
  | Some s =>
    option_map (fun s => o_types (ps_opt s))
      (run_passes modules fuel (exec (f_simplify_mixed f) (PSimplifies (order (o_types (ps_opt s))))) s)
  | None => None
  end.

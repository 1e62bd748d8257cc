(** Lists of simple values and occurrence bounds: [deserialize_list],
    [deserialize_arr], [finish_*] of [DeserializeHelper]
    (xsd-parser-types/src/quick_xml/deserialize.rs) and the [SerializeBytes]
    implementation the renderer generates for list types
    (xsd-parser/src/pipeline/renderer/steps/quick_xml/serialize.rs). *)
From Verif Require Export DeModel TextModel.
Local Open Scope string_scope.

(** The closure of deserialize.rs 762 and 782. *)
Definition list_sep (c : ascii) : bool :=
  Ascii.eqb c " " || Ascii.eqb c "009" || Ascii.eqb c "013" || Ascii.eqb c "010".

(** [<[u8]>::split]: the pieces between separators, at least one. *)
Fixpoint split_on (s : string) : list string :=
  match s with
  | EmptyString => [""]
  | String c s' =>
      if list_sep c then "" :: split_on s'
      else match split_on s' with
           | w :: ws => String c w :: ws
           | [] => [String c ""]
           end
  end.

Section Lists.
  Context {T : Type}.
  (** [T::deserialize_bytes] *)
  Variable parse : dhelper -> bytes -> outcome kind (T * dhelper).

  (** [.map(T::deserialize_bytes).collect::<Result<Vec<_>, _>>()] *)
  Fixpoint collect (h : dhelper) (ws : list bytes) : outcome kind (list T * dhelper) :=
    match ws with
    | [] => Ok ([], h)
    | w :: ws' =>
        match parse h w with
        | Ok (t, h1) =>
            match collect h1 ws' with
            | Ok (ts, h2) => Ok (t :: ts, h2)
            | Err k => Err k
            | Panic => Panic
            end
        | Err k => Err k
        | Panic => Panic
        end
    end.

  (** deserialize.rs 752-767 [deserialize_list]. *)
  Definition deserialize_list (h : dhelper) (b : bytes) : outcome kind (list T * dhelper) :=
    match trim_ascii b with
    | EmptyString => Ok ([], h)
    | t => collect h (split_on t)
    end.

  (** deserialize.rs 787-799: the loop of [deserialize_arr]; [acc] is the filled part
      of [arr], [index] its length.  The iterator converts a part before the loop
      looks at [index]. *)
  Fixpoint arr_loop (N : nat) (h : dhelper) (acc : list T) (ws : list bytes) : outcome kind (list T * dhelper) :=
    match ws with
    | [] => Ok (acc, h)
    | w :: ws' =>
        match parse h w with
        | Panic => Panic
        | part =>
            if Nat.leb N (length acc) then Err (KInsufficientSize N (Some N) (length acc))
            else match part with
                 | Ok (t, h') => arr_loop N h' (acc ++ [t]) ws'
                 | Err k => Err k
                 | Panic => Panic
                 end
        end
    end.

  (** [arr.map(|x| x.unwrap())]: a slot that was never filled panics. *)
  Definition unwrap_all (N : nat) (acc : list T) : option (list T) :=
    if Nat.eqb (length acc) N then Some acc else None.

  (** deserialize.rs 776-810 [deserialize_arr]. *)
  Definition deserialize_arr (N : nat) (h : dhelper) (b : bytes) : outcome kind (list T * dhelper) :=
    match arr_loop N h [] (split_on (trim_ascii b)) with
    | Ok (acc, h') =>
        if Nat.ltb (length acc) N then Err (KInsufficientSize N (Some N) (length acc))
        else match unwrap_all N acc with
             | Some l => Ok (l, h')
             | None => Panic
             end
    | Err k => Err k
    | Panic => Panic
    end.
End Lists.

Section Finish.
  Context {T : Type}.
  (** [T::default_value] *)
  Variable default_value : dhelper -> outcome kind (T * dhelper).

  (** deserialize.rs 1084-1086 [finish_content]. *)
  Definition finish_content (v : option T) : outcome kind T :=
    match v with Some t => Ok t | None => Err KMissingContent end.

  (** deserialize.rs 1094-1096 [finish_element]. *)
  Definition finish_element (name : bytes) (v : option T) : outcome kind T :=
    match v with Some t => Ok t | None => Err (KMissingElement name) end.

  (** deserialize.rs 1106-1116 [finish_default]. *)
  Definition finish_default (h : dhelper) (v : option T) : outcome kind (T * dhelper) :=
    match v with Some t => Ok (t, h) | None => default_value h end.

  (** deserialize.rs 1126-1141 [finish_vec]. *)
  Definition finish_vec (min : nat) (max : option nat) (v : list T) : outcome kind (list T) :=
    if (Nat.ltb (length v) min &&
        match max with Some m => Nat.ltb m (length v) | None => false end)%bool
    then Err (KInsufficientSize min max (length v))
    else Ok v.

  (** deserialize.rs 1152-1162 [finish_vec_default]: the [while] loop pushes
      [min - len] values. *)
  Fixpoint push_defaults (n : nat) (h : dhelper) (v : list T) : outcome kind (list T * dhelper) :=
    match n with
    | 0 => Ok (v, h)
    | S n' =>
        match default_value h with
        | Ok (t, h') => push_defaults n' h' (v ++ [t])
        | Err k => Err k
        | Panic => Panic
        end
    end.
  Definition finish_vec_default (min : nat) (h : dhelper) (v : list T) : outcome kind (list T * dhelper) :=
    push_defaults (min - length v) h v.

  (** deserialize.rs 1172-1180 [finish_arr]; [Vec::try_into::<[T; N]>] succeeds iff
      the length is [N]. *)
  Definition finish_arr (N : nat) (v : list T) : outcome kind (list T) :=
    if Nat.eqb (length v) N then Ok v else Err (KInsufficientSize N (Some N) (length v)).

  (** deserialize.rs 1191-1203 [finish_arr_default]. *)
  Definition finish_arr_default (N : nat) (h : dhelper) (v : list T) : outcome kind (list T * dhelper) :=
    match finish_vec_default N h v with
    | Ok (v', h') => if Nat.eqb (length v') N then Ok (v', h') else Panic
    | Err k => Err k
    | Panic => Panic
    end.
End Finish.

(** serialize.rs (renderer) 348-365 and 501-518: the generated [serialize_bytes] of
    a list; an item is the result of its own [serialize_bytes]. *)
Fixpoint list_write_loop (data : string) (items : list (option bytes)) : string :=
  match items with
  | [] => data
  | None :: items' => list_write_loop data items'
  | Some b :: items' =>
      list_write_loop ((match data with EmptyString => "" | _ => data ++ " " end) ++ b) items'
  end.
Definition list_write (items : list (option bytes)) : option bytes :=
  match items with
  | [] => None
  | _ => Some (list_write_loop "" items)
  end.

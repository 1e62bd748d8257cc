(** Specification of attribute maps from their history. *)
From Verif Require Export MapModel.

(** The names an operation mentions. *)
Definition op_keys (op : attr_op) : list bytes :=
  match op with OpPush k _ | OpInsert k _ => [k] | OpExtend l => map fst l end.

(** Names in the order of their first mention. *)
Fixpoint first_occurrences (l : list bytes) : list bytes :=
  match l with
  | [] => []
  | k :: l' => k :: filter (fun x => negb (String.eqb x k)) (first_occurrences l')
  end.

(** The value of one name after a history: an insertion sets it, a push sets it
    only if there is none yet. *)
Definition key_step (k : bytes) (cur : option bytes) (op : attr_op) : option bytes :=
  match op with
  | OpPush k' v => if String.eqb k k' then match cur with Some x => Some x | None => Some v end else cur
  | OpInsert k' v => if String.eqb k k' then Some v else cur
  | OpExtend l => fold_left (fun cur kv => if String.eqb k (fst kv) then Some (snd kv) else cur) l cur
  end.
Definition key_value (k : bytes) (ops : list attr_op) : option bytes := fold_left (key_step k) ops None.

(** Two maps with the same bindings. *)
Definition same_bindings (a b : list attr) : Prop := forall k, assoc k a = assoc k b.
Definition is_map (a : list attr) : Prop := NoDup (map fst a).

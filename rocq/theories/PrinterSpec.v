(** Which types are inside of which. *)
From Coq Require Import List Arith Bool Relations.
From Verif Require Export PrinterModel.
Import ListNotations.

(** [j] is expanded inside of [i]: as the content of a complex type or a group of a group. *)
Definition inside (ts : types) (i j : ident) : Prop :=
  match get i ts with
  | Some (TComplex _ (Some k)) => k = j
  | Some (TGroup _ es) => exists fs, In (EGroup fs j) es
  | _ => False
  end.

(** Directly or not, or [i] itself. *)
Definition below (ts : types) : ident -> ident -> Prop := clos_refl_trans _ (inside ts).
(** A type inside of itself. *)
Definition recursive (ts : types) (i : ident) : Prop := clos_trans _ (inside ts) i i.

(** Types that have two groups each, both the next type. *)
Definition twice (k : nat) : types :=
  map (fun i => (i, TGroup [] [EGroup [] (S i); EGroup [] (S i)])) (seq 0 k) ++ [(k, TSimple [])].
Definition titles (o : list out) : nat := length (filter (fun x => match x with OTitle _ => true | _ => false end) o).

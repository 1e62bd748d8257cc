(** Lists of simple values as XML Schema writes them. *)
From Verif Require Import TextModel ListModel.
Local Open Scope string_scope.

(** XML white space *)
Definition xml_space (c : ascii) : Prop :=
  c = " "%char \/ c = "009"%char \/ c = "010"%char \/ c = "013"%char.
Definition all_chars (P : ascii -> Prop) (s : string) : Prop :=
  forall c, In c (list_ascii_of_string s) -> P c.

(** The lexical form of an item: not empty, without white space. *)
Definition word (w : string) : Prop := w <> "" /\ all_chars (fun c => ascii_ws c = false) w.

(** [t] consists of the words [ws], separated by gaps. *)
Inductive list_text (gap : string -> Prop) : list string -> string -> Prop :=
| lt_one w : word w -> list_text gap [w] w
| lt_cons w g ws t : word w -> gap g -> list_text gap ws t -> list_text gap (w :: ws) (w ++ g ++ t).

(** The separators of XML Schema: any non-empty run of white space. *)
Definition run_gap (g : string) : Prop := g <> "" /\ all_chars xml_space g.
(** A single white space character. *)
Definition char_gap (g : string) : Prop := exists c, xml_space c /\ g = String c "".
(** A single blank. *)
Definition blank_gap (g : string) : Prop := g = " ".

(** Each form is converted in turn; the first failure is the result. *)
Fixpoint parse_all {T} (parse : dhelper -> bytes -> outcome kind (T * dhelper)) (h : dhelper) (ws : list bytes)
  : outcome kind (list T * dhelper) :=
  match ws with
  | [] => Ok ([], h)
  | w :: ws' =>
      match parse h w with
      | Err k => Err k
      | Panic => Panic
      | Ok (t, h1) =>
          match parse_all parse h1 ws' with
          | Ok (ts, h2) => Ok (t :: ts, h2)
          | r => r
          end
      end
  end.

(** minOccurs / maxOccurs *)
Definition in_bounds (min : nat) (max : option nat) (n : nat) : Prop :=
  min <= n /\ match max with Some m => n <= m | None => True end.

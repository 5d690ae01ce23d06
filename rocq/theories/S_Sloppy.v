(** Specification: what the pretty printer takes a text for that need not be JSON.
    Nothing here mentions the model. *)
From Coq Require Import List NArith.
From Verif Require Import S_Json S_Path S_Tree.
Import ListNotations.

(** The bytes a value can begin with: a quote, a digit, the minus sign, the opening
    brackets, and the letters t, f and n. *)
Definition begins_value (c : N) : Prop :=
  c = 0x22%N \/ (0x30 <= c <= 0x39)%N \/ c = 0x2D%N \/ c = 0x7B%N \/ c = 0x5B%N \/ c = 0x74%N \/ c = 0x66%N \/ c = 0x6E%N.
(** The bytes that end a number: blanks, comma, colon and the closing brackets. *)
Definition ends_number (c : N) : Prop := (c <= 0x20)%N \/ c = 0x2C%N \/ c = 0x3A%N \/ c = 0x5D%N \/ c = 0x7D%N.
(** The [n] bytes behind the letter of a literal, whatever they are. *)
Definition spent (n : nat) (x r : text) : Prop := length x = n \/ (length x < n /\ r = []).

(** [sloppy s t r]: the text [s] is taken for the tokens [t]; [r] is left over. *)
Inductive sloppy : text -> tree -> text -> Prop :=
| sl_junk : forall c s t r, ~ begins_value c -> sloppy s t r -> sloppy (c :: s) t r
| sl_string : forall b r, quotable b -> sloppy (quoted b ++ r) (TStr b) r
| sl_number : forall c b r, (0x30 <= c <= 0x39)%N \/ c = 0x2D%N -> Forall (fun d => ~ ends_number d) b ->
    (forall d r', r = d :: r' -> ends_number d) -> sloppy (c :: b ++ r) (TNum (c :: b)) r
| sl_true : forall x r, spent 3 x r -> sloppy (0x74%N :: x ++ r) TTrue r
| sl_false : forall x r, spent 4 x r -> sloppy (0x66%N :: x ++ r) TFalse r
| sl_null : forall x r, spent 3 x r -> sloppy (0x6E%N :: x ++ r) TNull r
| sl_array : forall s es r, elements s es r -> sloppy (0x5B%N :: s) (TArr es) r
| sl_object : forall s ms r, members s ms r -> sloppy (0x7B%N :: s) (TObj ms) r
(** Behind an opening bracket.  Only blanks can stand in front of the closing one: any
    other byte announces an element, and what does not begin a value is passed over to
    get at it, closing brackets included. *)
with elements : text -> list tree -> text -> Prop :=
| el_blank : forall c s es r, (c <= 0x20)%N -> elements s es r -> elements (c :: s) es r
| el_close : forall r, elements (0x5D%N :: r) [] r
| el_value : forall c s t s' es r, (0x20 < c)%N -> c <> 0x5D%N -> sloppy (c :: s) t s' -> elements s' es r ->
    elements (c :: s) (t :: es) r
(** Behind an opening brace: everything up to a name is passed over, and everything
    between a name and what begins a value. *)
with members : text -> list (text * tree) -> text -> Prop :=
| mb_junk : forall c s ms r, c <> 0x22%N -> c <> 0x7D%N -> members s ms r -> members (c :: s) ms r
| mb_close : forall r, members (0x7D%N :: r) [] r
| mb_member : forall k s t s' ms r, quotable k -> sloppy s t s' -> members s' ms r ->
    members (quoted k ++ s) ((k, t) :: ms) r.

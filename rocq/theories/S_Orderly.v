(** Specification: texts made of whole strings, numbers and words, in any order. *)
From Coq Require Import List NArith.
From Verif Require Export S_Json.
From Verif Require Import S_Path S_Str S_Rough.
Import ListNotations.

(** The bytes that can stand anywhere: ASCII, and neither the quote, the backslash nor a
    byte a value begins with, except for the brackets. *)
Definition mark (c : N) : Prop :=
  (c < 0x80)%N /\ ~ In c [0x22; 0x5C; 0x74; 0x66; 0x6E; 0x2D]%N /\ ~ (0x30 <= c <= 0x39)%N.

(** After a number comes, perhaps after blanks, a comma, a colon, a closing bracket or brace, or
    nothing. *)
Definition ended (r : text) : Prop :=
  exists w s, r = w ++ s /\ Forall (fun c => (c <= 0x20)%N) w /\
    (s = [] \/ exists d s', s = d :: s' /\ In d [0x2C; 0x3A; 0x5D; 0x7D]%N).

(** Brackets need not match and commas may be missing or too many; but every string is closed
    and in UTF-8, every word is whole, and numbers are set apart. *)
Inductive orderly : text -> Prop :=
| or_nil : orderly []
| or_mark : forall c r, mark c -> orderly r -> orderly (c :: r)
| or_string : forall b r, quotable b -> utf8 b -> orderly r -> orderly (quoted b ++ r)
| or_word : forall w r, In w [t_true; t_false; t_null] -> orderly r -> orderly (w ++ r)
| or_number : forall c b r, (0x30 <= c <= 0x39)%N \/ c = 0x2D%N -> Forall num_byte b -> ended r ->
    orderly r -> orderly ((c :: b) ++ r).

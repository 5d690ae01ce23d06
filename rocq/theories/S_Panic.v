(** The paths for which a panic is possible. *)
From Coq Require Import String List NArith.
From Verif Require Import M_Base S_Json.
Import ListNotations.
Open Scope list_scope.

(** A double quote in a string of a text has to be written as a backslash and a quote, or
    with a backslash and a [u]. *)
Definition spells_quote (b : text) : Prop :=
  exists x y, b = x ++ bs "\""" ++ y \/ b = x ++ bs "\u" ++ y.
(** That behind [@pretty:], where it can be in the argument. *)
Definition escape_in_pretty (p : text) : Prop := exists a b, p = a ++ bs "@pretty:" ++ b /\ spells_quote b.
(** In a query: [#(], then such a [@pretty:], and then a tilde, or a backslash and a [u]
    that can stand for one. *)
Definition tilde_after_pretty (p : text) : Prop :=
  exists a b c d, p = a ++ bs "#(" ++ b ++ bs "@pretty:" ++ c ++ d /\ spells_quote c /\
    (In 0x7E%N d \/ exists x y, d = x ++ bs "\u" ++ y).

(** Specification vocabulary: how every text that starts with a square or curly bracket is
    read as a multipath, well-formed or not. *)
From Coq Require Import List NArith.
From Verif Require Import S_Json S_Path S_Multi S_Bad.
Import ListNotations.

(** The multipath at the head of a path: its bracket, what stands between the brackets
    (nothing if it is not closed by its own kind of bracket), and what follows it.  A multipath that is
    not closed at all reaches to the end, and may still end in its own kind of bracket. *)
Definition closing (o : N) : N := if N.eqb o 0x5B then 0x5D%N else 0x7D%N.
Inductive multi : text -> N -> option text -> text -> Prop :=
| mu_closed : forall o q r, balanced q -> multi (o :: q ++ closing o :: r) o (Some q) r
| mu_wrong : forall o q c r, balanced q -> bracket_close c -> c <> closing o -> multi (o :: q ++ c :: r) o None r
| mu_open : forall o q, unclosed (q ++ [closing o]) -> multi (o :: q ++ [closing o]) o (Some q) []
| mu_open_wrong : forall o t, unclosed t -> (forall q, t <> q ++ [closing o]) -> multi (o :: t) o None [].

(** A stretch of text without commas, except in escapes and bracket groups; without
    colons, if [colons] is false.  Quotes have no meaning outside of a group. *)
Inductive chunk (colons : bool) : text -> Prop :=
| ck_nil : chunk colons []
| ck_char : forall c t, c <> 0x2C%N -> c <> 0x5C%N -> ~ bracket_open c -> (colons = false -> c <> 0x3A%N) ->
    chunk colons t -> chunk colons (c :: t)
| ck_esc : forall c t, chunk colons t -> chunk colons (0x5C%N :: c :: t)
| ck_group : forall o q c t, bracket_open o -> balanced q -> bracket_close c -> chunk colons t ->
    chunk colons (o :: q ++ c :: t).
(** The last stretch: a group that is not closed reaches to the end. *)
Definition final_chunk (t : text) : Prop :=
  chunk false t \/ exists a o q, t = a ++ o :: q /\ chunk false a /\ bracket_open o /\ unclosed q.

Definition name_chunk (e : entry) : Prop := match fst e with Some n => chunk true n | None => True end.
(** The entries between the brackets.  A backslash at the very end drops the last
    entry. *)
Inductive entries : text -> list entry -> Prop :=
| en_last : forall e, name_chunk e -> final_chunk (snd e) -> entries (entry_text e) [e]
| en_cut : forall a, chunk true a -> entries (a ++ [0x5C%N]) []
| en_cons : forall e t es, name_chunk e -> chunk false (snd e) -> entries t es ->
    entries (entry_text e ++ 0x2C%N :: t) (e :: es).

(** Specification vocabulary: how every path that starts with an at-sign is read as a
    modifier, its argument and the rest, well-formed or not. *)
From Coq Require Import List NArith.
From Verif Require Import S_Json S_Path S_Bad.
Import ListNotations.

(** The text of a name: it goes on to the first dot, pipe or colon.  A backslash hides the
    byte after it, and stays in the name. *)
Inductive mod_word : text -> Prop :=
| mw_nil : mod_word []
| mw_char : forall c t, ~ separator c -> c <> 0x3A%N -> c <> 0x5C%N -> mod_word t -> mod_word (c :: t)
| mw_esc : forall c t, mod_word t -> mod_word (0x5C%N :: c :: t).
(** At the very end a backslash may have nothing to hide. *)
Definition last_word (n : text) : Prop := mod_word n \/ exists m, n = m ++ [0x5C%N] /\ mod_word m.

(** What an argument that starts like a JSON array, object or string is taken to be. *)
Definition opening (c : N) : Prop := c = 0x7B%N \/ c = 0x5B%N \/ c = 0x22%N.
Inductive mod_group : text -> Prop :=
| mg_string : forall b, quotable b -> mod_group (quoted b)
| mg_bracket : forall o q c, o = 0x7B%N \/ o = 0x5B%N -> balanced q -> bracket_close c -> mod_group (o :: q ++ [c]).
(** Any other argument. *)
Definition mod_plain (a : text) : Prop :=
  Forall (fun c => ~ separator c) a /\ match a with [] => True | c :: _ => ~ opening c end.

(** Path, name, argument, and the path that is left to be applied to the result. *)
Inductive head : text -> text -> text -> option text -> Prop :=
| hd_end : forall n, last_word n -> head (0x40%N :: n) n [] None
| hd_sep : forall n s r, mod_word n -> separator s -> head (0x40%N :: n ++ s :: r) n [] (Some r)
| hd_plain : forall n a, mod_word n -> mod_plain a -> head (0x40%N :: n ++ 0x3A%N :: a) n a None
| hd_plain_sep : forall n a s r, mod_word n -> mod_plain a -> separator s ->
    head (0x40%N :: n ++ 0x3A%N :: a ++ s :: r) n a (Some r)
| hd_group_sep : forall n g s r, mod_word n -> mod_group g -> separator s ->
    head (0x40%N :: n ++ 0x3A%N :: g ++ s :: r) n g (Some r)
(** A group that is not closed, or not followed by a separator, makes the whole rest of
    the path the argument. *)
| hd_group : forall n c t, mod_word n -> opening c ->
    (forall g s r, mod_group g -> separator s -> c :: t <> g ++ s :: r) ->
    head (0x40%N :: n ++ 0x3A%N :: c :: t) n (c :: t) None.

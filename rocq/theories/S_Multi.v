(** Specification vocabulary for multipaths. *)
From Coq Require Import List NArith ZArith Bool.
From Verif Require Import S_Json S_Path.
Import ListNotations.

(** The text of a sub-path or of a name in a multipath: commas, brackets, quotes and
    backslashes only in escapes, string literals and bracket groups.  A name may have
    colons, a sub-path only in escapes and bracket groups. *)
Definition special (c : N) : Prop :=
  c = 0x2C%N \/ c = 0x3A%N \/ c = 0x22%N \/ c = 0x5C%N \/ bracket_open c \/ bracket_close c.
Definition ordinary (colons : bool) (c : N) : Prop := ~ special c \/ (colons = true /\ c = 0x3A%N).
Inductive literal (colons : bool) : text -> Prop :=
| li_nil : literal colons []
| li_plain : forall c t, ordinary colons c -> literal colons t -> literal colons (c :: t)
| li_esc : forall c t, literal colons t -> literal colons (0x5C%N :: c :: t).
Inductive part (colons : bool) : text -> Prop :=
| pt_nil : part colons []
| pt_plain : forall c t, ordinary colons c -> part colons t -> part colons (c :: t)
| pt_esc : forall c t, part colons t -> part colons (0x5C%N :: c :: t)
| pt_quoted : forall b t, literal colons b -> part colons t -> part colons (quoted b ++ t)
| pt_group : forall o q c t, bracket_open o -> balanced q -> bracket_close c -> part colons t ->
    part colons (o :: q ++ c :: t).
Definition sub_path : text -> Prop := part false.
Definition sub_name : text -> Prop := part true.

(** An entry of a multipath: a path, or a name, a colon and a path; the path begins
    behind the last colon. *)
Definition entry : Type := option text * text.
Definition entry_ok (e : entry) : Prop :=
  match fst e with Some n => sub_name n | None => True end /\ sub_path (snd e).
Definition entry_text (e : entry) : text :=
  match fst e with Some n => n ++ 0x3A%N :: snd e | None => snd e end.
(** [[e1,...,en]] and [{e1,...,en}]. *)
Definition multi_array (es : list entry) : text := 0x5B%N :: commas (map entry_text es) ++ [0x5D%N].
Definition multi_object (es : list entry) : text := 0x7B%N :: commas (map entry_text es) ++ [0x7D%N].

(** The key of an entry without a name: what follows the last dot or pipe that has no
    backslash before it, if that is a simple name; else an underscore. *)
Definition unescaped_sep (p : text) (i : nat) : Prop :=
  (nth_error p i = Some 0x2E%N \/ nth_error p i = Some 0x7C%N) /\
  forall j, i = S j -> nth_error p j <> Some 0x5C%N.
Definition last_name (p n : text) : Prop :=
  (exists i, unescaped_sep p i /\ (forall j, i < j -> ~ unescaped_sep p j) /\ n = skipn (S i) p) \/
  ((forall j, ~ unescaped_sep p j) /\ n = p).
Definition simple_name (n : text) : Prop :=
  Forall (fun c => (0x20 <= c)%N /\ c <> 0x23%N /\ c <> 0x7C%N /\ ~ bracket_open c /\ ~ bracket_close c) n.
Definition path_key (p k : text) : Prop :=
  exists n, last_name p n /\ ((simple_name n /\ k = n) \/ (~ simple_name n /\ k = [0x5F%N])).
Definition entry_key (e : entry) (k : text) : Prop :=
  match fst e with Some n => k = n | None => path_key (snd e) k end.
